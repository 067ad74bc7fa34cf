(** File loaders (C37, C38).
    Generated by tools/gen_props.py from LoaderProofs.v: statements only. *)
From Coq Require Import Ascii List Arith ZArith QArith Lia Bool.
From Verif Require Import Tensor TensorFacts Spec PointCloud SpecCloud History PointCloudFacts Loaders SpecLoaders.
Import ListNotations.
Local Open Scope nat_scope.
From Verif Require Import CloudProofs.
From Verif Require Import LoaderProofs.

(** C37. Loading a non-empty table of at least four columns written line by
    line, every line ending with a newline, gives one row per line: the first
    [dimension] entries as coordinates and the remaining ones as features. *)
Theorem C37_tensor_loader_partial :
  forall num fs p d w lines values dimension,
    table num d w lines values -> lines <> [] -> 3 < w -> 0 < dimension < w ->
    fs p = Some (written d lines) ->
    load_to_tensor num fs (Path p) d dimension = Ok (map (firstn dimension) values, map (skipn dimension) values).
Proof. exact C37_tensor_loader_partial_proof. Qed.
Print Assumptions C37_tensor_loader_partial.

(** C37 for the numpy loader: with a limit [k] the first [k] lines are read,
    whatever the number of lines; it also handles tables without features. *)
Theorem C37_numpy_loader_partial :
  forall num fs p d w lines values dimension k,
    table num d w lines values -> 3 < w \/ w <= dimension ->
    fs p = Some (written d lines) ->
    load_to_numpy num fs (Path p) d dimension (Some k) =
      Ok (map (firstn dimension) (firstn k values), if 3 <? w then map (skipn dimension) (firstn k values) else []).
Proof. exact C37_numpy_loader_partial_proof. Qed.
Print Assumptions C37_numpy_loader_partial.

(** Both loaders check the file name first. *)
Theorem C37_bad_files :
  forall num fs d dimension k,
    load_to_tensor num fs NotAString d dimension = Err TypeError /\
    load_to_numpy num fs NotAString d dimension k = Err TypeError /\
    forall p, fs p = None ->
      load_to_tensor num fs (Path p) d dimension = Err FileNotFound /\
      load_to_numpy num fs (Path p) d dimension k = Err FileNotFound.
Proof. exact C37_bad_files_proof. Qed.
Print Assumptions C37_bad_files.

Example C37_tensor_loader_example :
  load_to_tensor decimal (disk (written comma ex_lines)) ex_file comma 3 = Ok ([[1; 2; 3]; [4; 5; 6]]%Q, [[10]; [20]]%Q).
Proof. exact C37_tensor_loader_example_proof. Qed.

Example C37_numpy_loader_example :
  load_to_numpy decimal (disk (written comma ex_lines)) ex_file comma 3 (Some 1) = Ok ([[1; 2; 3]]%Q, [[10]]%Q).
Proof. exact C37_numpy_loader_example_proof. Qed.

(** Without the final newline the last character of the last number is lost. *)
Theorem C37_final_newline_refuted :
  ~ (forall num fs p d w lines values,
       table num d w lines values -> lines <> [] -> 3 < w -> fs p = Some (written_open d lines) ->
       load_to_tensor num fs (Path p) d 3 = Ok (map (firstn 3) values, map (skipn 3) values)).
Proof. exact C37_final_newline_refuted_proof. Qed.
Print Assumptions C37_final_newline_refuted.

(** In general the result is that for the table whose last entry misses its
    last character: nothing else of the last line is lost. *)
Theorem C37_lost_character :
  forall num fs p d w lines line e c values dimension k,
    table num d w (lines ++ [line ++ [e]]) values -> plain d (e ++ [c]) -> 3 < w -> 0 < dimension < w ->
    fs p = Some (written_open d (lines ++ [line ++ [e ++ [c]]])) ->
    load_to_tensor num fs (Path p) d dimension = Ok (map (firstn dimension) values, map (skipn dimension) values) /\
    load_to_numpy num fs (Path p) d dimension (Some k) = Ok (map (firstn dimension) (firstn k values), map (skipn dimension) (firstn k values)).
Proof. exact C37_lost_character_proof. Qed.
Print Assumptions C37_lost_character.

Example C37_lost_character_ex :
  load_to_tensor decimal (disk (written_open comma ex_lines)) ex_file comma 3 = Ok ([[1; 2; 3]; [4; 5; 6]]%Q, [[10]; [2]]%Q).
Proof. exact C37_lost_character_ex_proof. Qed.

(** The tensor loader fails on every table without feature columns. *)
Theorem C37_no_features_refuted :
  forall num fs p d w lines values dimension,
    table num d w lines values -> w <= 3 -> fs p = Some (written d lines) ->
    load_to_tensor num fs (Path p) d dimension = Err InvalidArgument.
Proof. exact C37_no_features_refuted_proof. Qed.
Print Assumptions C37_no_features_refuted.

(** With coordinates of dimension 2 the third column is dropped. *)
Theorem C37_dimension_refuted :
  ~ (forall num fs p d w lines values dimension k,
       table num d w lines values -> dimension < w -> length lines <= k -> fs p = Some (written d lines) ->
       load_to_numpy num fs (Path p) d dimension (Some k) = Ok (map (firstn dimension) values, map (skipn dimension) values)).
Proof. exact C37_dimension_refuted_proof. Qed.
Print Assumptions C37_dimension_refuted.

(** Without a limit the numpy loader reads nothing. *)
Theorem C37_no_limit_refuted :
  forall num fs p d dimension s, fs p = Some s -> load_to_numpy num fs (Path p) d dimension None = Ok ([], []).
Proof. exact C37_no_limit_refuted_proof. Qed.
Print Assumptions C37_no_limit_refuted.

(** C38. A batch of text files, each with its own number of rows: element [b]
    of the result holds the rows of file [b] followed by zeros, [sizes[b]] its
    number of rows, in the requested batch shape. *)
Theorem C38_batch_points_partial :
  forall num fs d w ps tables batch_shape sh,
    3 < w -> ps <> [] -> Forall2 (holds num fs d w) ps tables -> Forall (fun t => t <> []) tables ->
    asks_for batch_shape sh (length ps) ->
    let V := list_max (map (@length _) tables) in
    load_batch_of_points num fs (map Path ps) batch_shape d 3 =
      Ok (Padded sh V (concat (map (with_zeros 3 V) (map xyz tables))),
          Padded sh V (concat (map (with_zeros (w - 3) V) (map rest tables))),
          ITensor sh (map (@length _) tables)).
Proof. exact C38_batch_points_partial_proof. Qed.
Print Assumptions C38_batch_points_partial.

(** Wrong batch shapes are rejected. *)
Theorem C38_wrong_shape :
  forall num fs d files batch_shape pd, batch_shape <> [-1]%Z -> fold_right Z.mul 1%Z batch_shape <> Z.of_nat (length files) ->
    load_batch_of_points num fs files batch_shape d pd = Err ValueError.
Proof. exact C38_wrong_shape_proof. Qed.
Print Assumptions C38_wrong_shape.

(** The documented [point_dimension] does not work: every other value than 3
    fails. *)
Theorem C38_dimension_refuted :
  forall num fs d w ps tables batch_shape sh pd,
    3 < w -> ps <> [] -> Forall2 (holds num fs d w) ps tables -> Forall (fun t => t <> []) tables ->
    asks_for batch_shape sh (length ps) -> pd <> 3 ->
    load_batch_of_points num fs (map Path ps) batch_shape d pd = Err InvalidArgument.
Proof. exact C38_dimension_refuted_proof. Qed.
Print Assumptions C38_dimension_refuted.

(** C38. The padded tensor and the sizes made from tables reproduce the tables
    when a point cloud is built from them. *)
Theorem C38_feeds_point_cloud :
  forall D V sh (tables : list (list (list Q))),
    nprod sh = length tables -> (forall t, In t tables -> length t <= V) ->
    exists p, init (PN D (Padded sh V (concat (map (with_zeros D V) tables)))) None None (Some (ITensor sh (map (@length _) tables))) = Ok p /\
      bsize p = length tables /\ forall b, b < length tables -> element b (pts p) (bids p) = nth b tables [].
Proof. exact C38_feeds_point_cloud_proof. Qed.
Print Assumptions C38_feeds_point_cloud.

(** C38 for meshes: the vertices of the files, padded. *)
Theorem C38_batch_meshes :
  forall load files (tables : list (list (list Q))) batch_shape sh,
    Forall2 (fun f t => load f = Ok t) files tables -> Forall (Forall (fun r => length r = 3)) tables ->
    (exists t, In t tables /\ t <> []) -> asks_for batch_shape sh (length files) ->
    let V := list_max (map (@length _) tables) in
    load_batch_of_meshes load files batch_shape =
      Ok (Padded sh V (concat (map (with_zeros 3 V) tables)), ITensor sh (map (@length _) tables)).
Proof. exact C38_batch_meshes_proof. Qed.
Print Assumptions C38_batch_meshes.

(** A batch shape without a wildcard whose product is not the number of files
    never gives a result. *)
Theorem C38_meshes_wrong_shape :
  forall load files sh, fold_right Nat.mul 1 sh <> length files ->
    forall r, load_batch_of_meshes load files (map Z.of_nat sh) <> Ok r.
Proof. exact C38_meshes_wrong_shape_proof. Qed.
Print Assumptions C38_meshes_wrong_shape.

Example C38_batch_points_example :
  load_batch_of_points decimal ex_disk [Path (numeral [1]); Path (numeral [1; 2])] [2; 1]%Z comma 3 =
    Ok (Padded [2; 1] 2 [[1; 2; 3]; [4; 5; 6]; [7; 8; 9]; [0; 0; 0]]%Q, Padded [2; 1] 2 [[10]; [20]; [30]; [0]]%Q, ITensor [2; 1] [2; 1]).
Proof. exact C38_batch_points_example_proof. Qed.

Example C38_feeds_point_cloud_example :
  exists p, init (PN 3 (Padded [2] 2 [[1; 2; 3]; [4; 5; 6]; [7; 8; 9]; [0; 0; 0]]%Q)) None None (Some (ITensor [2] [2; 1])) = Ok p /\
    element 1 (pts p) (bids p) = [[7; 8; 9]]%Q.
Proof. exact C38_feeds_point_cloud_example_proof. Qed.

Example C38_batch_meshes_example :
  load_batch_of_meshes (fun f => match f with Path [] => Ok [[1; 2; 3]]%Q | Path _ => Ok [] | NotAString => Err TypeError end)
    [Path []; Path comma] [-1]%Z = Ok (Padded [2] 1 [[1; 2; 3]; [0; 0; 0]]%Q, ITensor [2] [1; 0]).
Proof. exact C38_batch_meshes_example_proof. Qed.

(** A disk with one file; any other name is not found. *)
Example C37_bad_files_ex :
  let fs := fun p => match p with [_] => Some (written comma ex_lines) | _ => None end in
  fs (numeral [1]) <> None /\ fs (numeral [1; 2]) = None /\
  load_to_tensor decimal fs (Path (numeral [1; 2])) comma 3 = Err FileNotFound /\ load_to_numpy decimal fs (Path (numeral [1; 2])) comma 3 None = Err FileNotFound.
Proof. exact C37_bad_files_ex_proof. Qed.

(** Two files, shape 2 x 2. *)
Example C38_wrong_shape_ex :
  load_batch_of_points decimal ex_disk [Path (numeral [1]); Path (numeral [1; 2])] [2; 2]%Z comma 3 = Err ValueError.
Proof. exact C38_wrong_shape_ex_proof. Qed.

Example C38_meshes_wrong_shape_ex :
  fold_right Nat.mul 1 [3] <> length [Path []; Path comma] /\
  forall r, load_batch_of_meshes (fun _ => Ok [[1; 2; 3]]%Q) [Path []; Path comma] [3]%Z <> Ok r.
Proof. exact C38_meshes_wrong_shape_ex_proof. Qed.
