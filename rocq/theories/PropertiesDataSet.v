(** Loading of the data set (C61).
    Generated by tools/gen_props.py from DataSetProofs.v: statements only. *)
From Coq Require Import String Ascii List Arith ZArith QArith Lia Bool Permutation.
From Verif Require Import Tensor TensorFacts Loaders SpecLoaders LoaderProofs Generator SpecGenerator GeneratorProofs DataSet SpecDataSet.
From Verif Require Import DataSetProofs.
Import ListNotations.
Local Open Scope nat_scope.

(** C61. Every model of a listing gets the file name made from its category and
    its name, and the position of its category in the list of names as label;
    a listing with an unknown category is rejected with a ValueError. *)
Theorem C61_listing :
  forall data_dir names models names_text listing_text,
    text_file names names_text -> text_file (map model_name models) listing_text -> Forall (fun m => length (snd m) = 5) models ->
    (Forall (fun m => In (fst m) names) models -> exists l,
       load_listing data_dir names_text listing_text = Ok l /\
       Forall2 (fun m r => fst r = data_dir ++ fst m ++ list_ascii_of_string "/" ++ model_name m ++ list_ascii_of_string ".txt" /\
                           label_of names (fst m) (snd r)) models l) /\
    (forall m, In m models -> ~ In (fst m) names -> load_listing data_dir names_text listing_text = Err ValueError).
Proof. exact C61_listing_proof. Qed.
Print Assumptions C61_listing.

(** C61. After any number of earlier runs that do no harm, interrupted or not, a
    run gets the first points of every file, whether it reads the files or the
    cache. *)
Theorem C61_history_partial :
  forall num fs sc n files tables d events quick memory damage,
    0 < n -> model_files num fs n files tables -> tmp_dir d = true \/ sc = Large -> cache d = None ->
    Forall (harmless sc n files) events -> length memory = length files -> (quick = true -> length files <= 102) ->
    snd (run num fs sc quick n files memory damage (history num fs sc files d events)) = Ok (first_points n tables).
Proof. exact C61_history_partial_proof. Qed.
Print Assumptions C61_history_partial.

(** After a quick test every later run gets, for all models from number 102 on,
    what happened to be in the memory when the quick test was started. *)
Theorem C61_quick_refuted :
  forall num fs sc n files tables d damage memory events quick memory' damage',
    0 < n -> model_files num fs n files tables -> tmp_dir d = true \/ sc = Large -> cache d = None -> 102 < length files ->
    length memory = length files -> Forall (fun m => length m = n) memory ->
    exists a,
      snd (run num fs sc quick n files memory' damage' (history num fs sc files d (Event true n memory damage None :: events))) = Ok a /\
      forall j, 102 <= j -> j < length files -> nth j a [] = nth j memory [].
Proof. exact C61_quick_refuted_proof. Qed.
Print Assumptions C61_quick_refuted.

(** After a run that was interrupted while it wrote the cache every later run
    raises an exception. *)
Theorem C61_interrupted_refuted :
  forall num fs sc n files tables d damage memory events quick n' memory' damage',
    0 < n -> model_files num fs n files tables -> tmp_dir d = true \/ sc = Large -> cache d = None -> length memory = length files ->
    snd (run num fs sc quick n' files memory' damage' (history num fs sc files d (Event false n memory damage (Some 2) :: events))) = Err damage.
Proof. exact C61_interrupted_refuted_proof. Qed.
Print Assumptions C61_interrupted_refuted.

(** The number of points of the first run stays: modelnet40.py ignores another
    value, modelnet40_small.py a larger one. *)
Theorem C61_points_refuted :
  forall num fs sc n n' files tables d damage memory quick memory' damage',
    0 < n -> n <> n' -> sc = Large \/ n < n' -> files <> [] -> model_files num fs n files tables -> Forall (fun t => n' <= length t) tables ->
    tmp_dir d = true \/ sc = Large -> cache d = None -> length memory = length files ->
    snd (run num fs sc quick n' files memory' damage' (history num fs sc files d [Event false n memory damage None])) = Ok (first_points n tables) /\
    first_points n tables <> first_points n' tables.
Proof. exact C61_points_refuted_proof. Qed.
Print Assumptions C61_points_refuted.

(** modelnet40_small.py never works if the directory of the cache is missing. *)
Theorem C61_directory_refuted :
  forall num fs n files tables d events quick memory damage,
    0 < n -> model_files num fs n files tables -> tmp_dir d = false -> cache d = None -> length memory = length files ->
    forall a, snd (run num fs Small quick n files memory damage (history num fs Small files d events)) <> Ok a.
Proof. exact C61_directory_refuted_proof. Qed.
Print Assumptions C61_directory_refuted.

(** C61 with C48: the batches of an epoch show the first points of the files
    named by the listing together with the number of the category. *)
Theorem C61_batches :
  forall num fs sc n data_dir names models names_text listing_text tables d events memory damage B samples aug perm draws,
    text_file names names_text -> text_file (map model_name models) listing_text -> Forall (fun m => length (snd m) = 5 /\ In (fst m) names) models ->
    let files := map (fun m => data_dir ++ fst m ++ list_ascii_of_string "/" ++ model_name m ++ list_ascii_of_string ".txt") models in
    0 < n -> samples <= n -> model_files num fs n files tables -> tmp_dir d = true \/ sc = Large -> cache d = None ->
    Forall (harmless sc n files) events -> length memory = length files -> B <> 0 -> Permutation perm (seq 0 (length models)) ->
    exists l a batches js,
      load_listing data_dir names_text listing_text = Ok l /\
      snd (run num fs sc false n (map fst l) memory damage (history num fs sc (map fst l) d events)) = Ok a /\
      iterate (new_generator a (map snd l) B aug perm) samples draws = Ok batches /\
      length batches = length models / B /\ NoDup js /\ length js = length models / B * B /\ Forall (fun j => j < length models) js /\
      forall i b, i < length models / B -> b < B -> let j := nth (i * B + b) js 0 in exists data k,
        nth_error batches i = Some data /\ nth_error (slots data) b = Some (shown aug samples (draws i b) (xyz (nth j tables [])), k) /\
        label_of names (fst (nth j models ([], []))) k.
Proof. exact C61_batches_proof. Qed.
Print Assumptions C61_batches.

Example C61_listing_ex :
  text_file ex61_names (chars "chair" ++ [line_end] ++ chars "bed" ++ [line_end]) /\
  text_file (map model_name ex61_models) (chars "bed_0001" ++ [line_end] ++ chars "chair_0002") /\
  load_listing (chars "d/") (chars "chair" ++ [line_end] ++ chars "bed" ++ [line_end]) (chars "bed_0001" ++ [line_end] ++ chars "chair_0002") =
    Ok [(ex61_file 0, 1); (ex61_file 1, 0)].
Proof. exact C61_listing_ex_proof. Qed.

(** A first run is interrupted, a second one stores two points per model, then
    one point per model is asked for. *)
Example C61_history_ex :
  forall m1 m2 e1 e2,
    let events := [Event false 2 [m1; m2] e1 (Some 1); Event false 2 [m2; m1] e2 None] in
    Forall (harmless Small 1 (map ex61_file [0; 1])) events /\
    snd (run decimal ex61_fs Small false 1 (map ex61_file [0; 1]) [m1; m2] e1
           (history decimal ex61_fs Small (map ex61_file [0; 1]) (Disk true None) events)) = Ok [[[1; 2; 3]]; [[7; 8; 9]]]%Q.
Proof. exact C61_history_ex_proof. Qed.

Example C61_interrupted_ex :
  forall m1 m2 e,
    snd (run decimal ex61_fs Large false 2 (map ex61_file [0; 1]) [m1; m2] e
           (history decimal ex61_fs Large (map ex61_file [0; 1]) (Disk false None) [Event false 2 [m1; m2] KeyError (Some 2); Event false 2 [m2; m1] e None])) =
      Err KeyError.
Proof. exact C61_interrupted_ex_proof. Qed.

(** 200 times the same model: the last one is loaded as zeros. *)
Example C61_quick_ex :
  exists a,
    snd (run decimal ex61_fs Small false 2 (repeat (ex61_file 0) 200) (repeat (repeat [0; 0; 0]%Q 2) 200) ValueError
           (history decimal ex61_fs Small (repeat (ex61_file 0) 200) (Disk true None) [Event true 2 (repeat (repeat [0; 0; 0]%Q 2) 200) ValueError None])) = Ok a /\
    nth 199 a [] = repeat [0; 0; 0]%Q 2.
Proof. exact C61_quick_ex_proof. Qed.

Example C61_batches_ex :
  exists batches,
    iterate (new_generator (first_points 2 ex61_tables) [1; 0] 2 false [1; 0]) 1 (fun _ _ => []) = Ok batches /\
    map slots batches = [[([[7; 8; 9]]%Q, 0); ([[1; 2; 3]]%Q, 1)]].
Proof. exact C61_batches_ex_proof. Qed.

Example C61_points_ex :
  forall m1 m2 e,
    snd (run decimal ex61_fs Small false 2 (map ex61_file [0; 1]) [m1; m2] e
           (history decimal ex61_fs Small (map ex61_file [0; 1]) (Disk true None) [Event false 1 [m1; m2] e None])) = Ok [[[1; 2; 3]]; [[7; 8; 9]]]%Q.
Proof. exact C61_points_ex_proof. Qed.

Example C61_directory_ex :
  forall m1 m2 e, snd (run decimal ex61_fs Small false 2 (map ex61_file [0; 1]) [m1; m2] e (Disk false None)) = Err FileNotFound.
Proof. exact C61_directory_ex_proof. Qed.
