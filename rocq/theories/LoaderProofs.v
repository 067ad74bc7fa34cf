(** Proofs of the properties of the file loaders (C37, C38). *)
From Coq Require Import Ascii List Arith ZArith QArith Lia Bool.
From Verif Require Import Tensor TensorFacts Spec PointCloud SpecCloud History PointCloudFacts Loaders SpecLoaders.
Import ListNotations.
Local Open Scope nat_scope.

(** ** Text *)
Lemma file_lines_line l r : (forall c, In c l -> c <> line_end) -> file_lines (l ++ line_end :: r) = (l ++ [line_end]) :: file_lines r.
Proof.
  induction l as [|c l IH]; intros H; cbn [app file_lines].
  - unfold newline. fold line_end. rewrite Ascii.eqb_refl. reflexivity.
  - destruct (Ascii.eqb_spec c newline) as [E|E]; [exfalso; apply (H c); [left; auto|exact E]|].
    rewrite IH by (intros; apply H; right; auto). reflexivity.
Qed.
Lemma prefix_app d s : prefix_of d (d ++ s) = true.
Proof. induction d as [|a d IH]; cbn; auto. rewrite Ascii.eqb_refl, IH. reflexivity. Qed.
Lemma split_skip d : forall e s, split_at d (length e) (e ++ s) = split_at d 0 s.
Proof.
  induction e as [|c e IH]; intros s; [reflexivity|]. cbn [length app split_at]. apply IH.
Qed.
Lemma split_entry d e s : d <> [] -> (forall c, In c e -> ~ In c d) -> split_at d 0 (e ++ s) =
  match split_at d 0 s with [] => [e] | w :: ws => (e ++ w) :: ws end.
Proof.
  intros Hd. induction e as [|c e IH]; intros H.
  - cbn [app]. destruct (split_at d 0 s) eqn:E; auto. exfalso. clear -E Hd. destruct s; cbn in E; [discriminate|].
    destruct (prefix_of d (a :: s)); [discriminate|]. destruct (split_at d 0 s); discriminate.
  - cbn [app split_at]. destruct d as [|a d']; [congruence|]. cbn [prefix_of].
    destruct (Ascii.eqb_spec a c) as [->|E]; [exfalso; apply (H c); left; auto|]. cbn [andb].
    rewrite IH by (intros; apply H; right; auto). destruct (split_at (a :: d') 0 s); reflexivity.
Qed.
Lemma split_separated d entries : d <> [] -> entries <> [] -> Forall (plain d) entries -> split_at d 0 (separated d entries) = entries.
Proof.
  intros Hd. induction entries as [|e r IH]; [congruence|]. intros _ F. inversion F as [|? ? He Fr]; subst.
  assert (Hc : forall c, In c e -> ~ In c d) by (intros c Hc; apply He; auto).
  destruct r as [|e' r'].
  - cbn [separated]. rewrite <- (app_nil_r e) at 1. rewrite split_entry by auto. cbn. now rewrite app_nil_r.
  - cbn [separated]. rewrite split_entry by auto. change (separated d (e' :: r')) with (separated d (e' :: r')).
    assert (E : split_at d 0 (d ++ separated d (e' :: r')) = [] :: (e' :: r')).
    { destruct d as [|a d']; [congruence|]. cbn [app split_at].
      change (a :: d' ++ separated (a :: d') (e' :: r')) with ((a :: d') ++ separated (a :: d') (e' :: r')). rewrite prefix_app.
      f_equal. cbn [length]. rewrite Nat.sub_succ, Nat.sub_0_r, split_skip. apply IH; auto; discriminate. }
    cbn [separated] in E. rewrite E. now rewrite app_nil_r.
Qed.
Lemma separated_chars d entries c : ~ In line_end d -> Forall (plain d) entries -> In c (separated d entries) -> c <> line_end.
Proof.
  intros Hd. induction entries as [|e r IH]; [intros _ []|]. intros F. inversion F as [|? ? He Fr]; subst.
  destruct r as [|e' r']; cbn [separated].
  - intros H. apply He. auto.
  - rewrite !in_app_iff. intros [H|[H|H]]; [now apply He|intros ->; auto|now apply IH].
Qed.
Lemma lines_written d lines : ~ In line_end d -> Forall (Forall (plain d)) lines ->
  file_lines (written d lines) = map (fun l => separated d l ++ [line_end]) lines.
Proof.
  intros Hd. unfold written. induction lines as [|l r IH]; intros F; [reflexivity|]. inversion F; subst. cbn [map concat].
  rewrite <- app_assoc. cbn [app]. rewrite file_lines_line by (intros c Hc; eapply separated_chars; eauto). now rewrite IH.
Qed.
Lemma read_written d lines : d <> [] -> Forall (fun l => l <> []) lines -> Forall (Forall (plain d)) lines ->
  read_lines d (map (fun l => separated d l ++ [line_end]) lines) = Ok lines.
Proof.
  intros Hd. unfold read_lines. induction lines as [|l r IH]; intros N F; [reflexivity|]. inversion N; inversion F; subst. cbn [map all_rows].
  unfold line_elements at 1. rewrite removelast_last. rewrite split_separated by auto. destruct d as [|a d]; [congruence|]. cbn [bind]. rewrite IH by auto. reflexivity.
Qed.

(** ** Numbers *)
Lemma all_ok_reads (num : text -> option Q) e l v : Forall2 (fun t x => num t = Some x) l v -> all_ok e num l = Ok v.
Proof. induction 1 as [|t x l v E F IH]; cbn; auto. rewrite E, IH. reflexivity. Qed.
Lemma all_rows_reads num e rows vals : reads num rows vals -> all_rows (all_ok e num) rows = Ok vals.
Proof. induction 1 as [|r v rows vals E F IH]; cbn; auto. rewrite (all_ok_reads num e r v E), IH. reflexivity. Qed.
Lemma reads_map {num} (f : forall A, list A -> list A) rows vals :
  (forall r v, Forall2 (fun t x => num t = Some x) r v -> Forall2 (fun t x => num t = Some x) (f _ r) (f _ v)) ->
  reads num rows vals -> reads num (map (f _) rows) (map (f _) vals).
Proof. intros H. induction 1; cbn; constructor; auto. Qed.
Lemma Forall2_len {A B} (R : A -> B -> Prop) l m : Forall2 R l m -> length l = length m.
Proof. induction 1; cbn; auto. Qed.
Lemma Forall_take {A} (P : A -> Prop) k l : Forall P l -> Forall P (firstn k l).
Proof. intros H. revert k. induction H; intros [|k]; cbn; auto. Qed.
Lemma Forall2_firstn {A B} (R : A -> B -> Prop) k l m : Forall2 R l m -> Forall2 R (firstn k l) (firstn k m).
Proof. intros H. revert k. induction H; intros [|k]; cbn; constructor; auto. Qed.
Lemma Forall2_skipn {A B} (R : A -> B -> Prop) k l m : Forall2 R l m -> Forall2 R (skipn k l) (skipn k m).
Proof. intros H. revert k. induction H; intros [|k]; cbn; auto. Qed.
Lemma rectangular_const {A} w (rows : list (list A)) : Forall (fun r => length r = w) rows -> rectangular rows = true.
Proof.
  destruct rows as [|r rs]; auto. intros F. inversion F; subst. cbn. apply forallb_forall. intros x Hx.
  rewrite Forall_forall in H2. apply Nat.eqb_eq. auto.
Qed.
Lemma widths {A} (f : list A -> list A) w w' rows : (forall r, length r = w -> length (f r) = w') -> Forall (fun r => length r = w) rows ->
  Forall (fun r => length r = w') (map f rows).
Proof. intros H F. apply Forall_forall. intros r Hr. apply in_map_iff in Hr as (q & <- & Hq). rewrite Forall_forall in F. auto. Qed.
Lemma filter_wide {A} w (rows : list (list A)) : 3 < w -> Forall (fun r => length r = w) rows -> filter (fun r => 3 <? length r) rows = rows.
Proof.
  intros Hw F. induction F as [|r rs E F IH]; auto. cbn [filter]. rewrite E. replace (3 <? w) with true by (symmetry; apply Nat.ltb_lt; lia). now rewrite IH.
Qed.
Lemma filter_narrow {A} w (rows : list (list A)) : w <= 3 -> Forall (fun r => length r = w) rows -> filter (fun r => 3 <? length r) rows = [].
Proof.
  intros Hw F. induction F as [|r rs E F IH]; auto. cbn [filter]. rewrite E. replace (3 <? w) with false by (symmetry; apply Nat.ltb_ge; lia). auto.
Qed.
Lemma reads_width num w rows vals : reads num rows vals -> Forall (fun r => length r = w) rows -> Forall (fun r => length r = w) vals.
Proof. intros R. induction R as [|r v rows vals E R IH]; intros F; constructor; inversion F; subst; auto. symmetry. eapply Forall2_len; eauto. Qed.
Lemma tf_numbers_ok num rows vals w : reads num rows vals -> Forall (fun r => length r = w) rows -> rows <> [] -> 0 < w -> tf_numbers num rows = Ok vals.
Proof.
  intros R F N W. unfold tf_numbers. rewrite (rectangular_const w) by auto. cbn [negb].
  destruct rows as [|r rs]; [congruence|]. inversion F; subst. destruct r as [|t r]; [cbn in W; lia|]. cbn [concat app]. eapply all_rows_reads; eauto.
Qed.
Lemma np_numbers_ok num rows vals w : reads num rows vals -> Forall (fun r => length r = w) rows -> np_numbers num rows = Ok vals.
Proof. intros R F. unfold np_numbers. rewrite (rectangular_const w) by auto. cbn [negb]. eapply all_rows_reads; eauto. Qed.
Lemma table_nonempty num d w lines values : table num d w lines values -> Forall (fun l => l <> []) lines.
Proof. intros (_ & _ & W & F & _). eapply Forall_impl; [|exact F]. intros l E ->. cbn in E. lia. Qed.
Lemma reads_firstn num k rows vals : reads num rows vals -> reads num (map (firstn k) rows) (map (firstn k) vals).
Proof. apply (reads_map (fun A => @firstn A k)). intros r v. apply Forall2_firstn. Qed.
Lemma reads_skipn num k rows vals : reads num rows vals -> reads num (map (skipn k) rows) (map (skipn k) vals).
Proof. apply (reads_map (fun A => @skipn A k)). intros r v. apply Forall2_skipn. Qed.

(** C37. Loading a non-empty table of at least four columns written line by
    line, every line ending with a newline, gives one row per line: the first
    [dimension] entries as coordinates and the remaining ones as features. *)
Lemma C37_tensor_loader_partial_proof :
  forall num fs p d w lines values dimension,
    table num d w lines values -> lines <> [] -> 3 < w -> 0 < dimension < w ->
    fs p = Some (written d lines) ->
    load_to_tensor num fs (Path p) d dimension = Ok (map (firstn dimension) values, map (skipn dimension) values).
Proof.
  intros num fs p d w lines values k T N W K Hf. pose proof T as (T1 & T2 & T3 & T4 & T5 & T6). pose proof (table_nonempty _ _ _ _ _ T) as Ne.
  unfold load_to_tensor. rewrite Hf, lines_written, read_written by auto. cbn [bind]. unfold coordinates, extras. rewrite (filter_wide w) by auto.
  rewrite (tf_numbers_ok num _ (map (firstn k) values) k).
  - cbn [bind]. rewrite (tf_numbers_ok num _ (map (skipn k) values) (w - k)); [reflexivity|..].
    + now apply reads_skipn.
    + apply (widths _ w); auto. intros r E. rewrite skipn_length, E. reflexivity.
    + destruct lines; [congruence|discriminate].
    + lia.
  - now apply reads_firstn.
  - apply (widths _ w); auto. intros r E. rewrite firstn_length, E. lia.
  - destruct lines; [congruence|discriminate].
  - lia.
Qed.

(** C37 for the numpy loader: with a limit [k] the first [k] lines are read,
    whatever the number of lines; it also handles tables without features. *)
Lemma C37_numpy_loader_partial_proof :
  forall num fs p d w lines values dimension k,
    table num d w lines values -> 3 < w \/ w <= dimension ->
    fs p = Some (written d lines) ->
    load_to_numpy num fs (Path p) d dimension (Some k) =
      Ok (map (firstn dimension) (firstn k values), if 3 <? w then map (skipn dimension) (firstn k values) else []).
Proof.
  intros num fs p d w lines values dm k T W Hf. pose proof T as (T1 & T2 & T3 & T4 & T5 & T6). pose proof (table_nonempty _ _ _ _ _ T) as Ne.
  unfold load_to_numpy. rewrite Hf, lines_written by auto. rewrite firstn_map. rewrite read_written; auto.
  2,3: apply Forall_take; assumption.
  cbn [bind]. unfold coordinates, extras.
  assert (F : Forall (fun r => length r = w) (firstn k lines)).
  { apply Forall_take; assumption. }
  assert (R : reads num (firstn k lines) (firstn k values)) by (now apply Forall2_firstn).
  rewrite (np_numbers_ok num _ (map (firstn dm) (firstn k values)) (Nat.min dm w)).
  2: now apply reads_firstn.
  2: apply (widths _ w); auto; intros r E; rewrite firstn_length, E; reflexivity.
  cbn [bind]. destruct (Nat.ltb_spec 3 w) as [H|H].
  - rewrite (filter_wide w) by auto. rewrite (np_numbers_ok num _ (map (skipn dm) (firstn k values)) (w - dm)); [reflexivity|..].
    + now apply reads_skipn.
    + apply (widths _ w); auto. intros r E. rewrite skipn_length, E. reflexivity.
  - rewrite (filter_narrow w) by auto. reflexivity.
Qed.

(** Both loaders check the file name first. *)
Lemma C37_bad_files_proof :
  forall num fs d dimension k,
    load_to_tensor num fs NotAString d dimension = Err TypeError /\
    load_to_numpy num fs NotAString d dimension k = Err TypeError /\
    forall p, fs p = None ->
      load_to_tensor num fs (Path p) d dimension = Err FileNotFound /\
      load_to_numpy num fs (Path p) d dimension k = Err FileNotFound.
Proof. intros. repeat split; cbn; auto; now rewrite H. Qed.

(** *** What fails *)
(** A reader of unsigned decimal numbers, for the examples. *)
Definition digit (c : ascii) : option Z :=
  let n := nat_of_ascii c in if (48 <=? n) && (n <=? 57) then Some (Z.of_nat (n - 48)) else None.
Fixpoint decimal_from (acc : Z) (l : text) : option Z :=
  match l with
  | [] => Some acc
  | c :: r => match digit c with Some v => decimal_from (acc * 10 + v)%Z r | None => None end
  end.
Definition decimal (l : text) : option Q :=
  match l with [] => None | _ => option_map inject_Z (decimal_from 0 l) end.
Definition numeral (l : list nat) : text := map (fun k => ascii_of_nat (48 + k)) l.
Definition comma : text := [ascii_of_nat 44].
Definition ex_lines : list (list text) :=
  [[numeral [1]; numeral [2]; numeral [3]; numeral [1; 0]]; [numeral [4]; numeral [5]; numeral [6]; numeral [2; 0]]].
Definition ex_values : list (list Q) := [[1; 2; 3; 10]; [4; 5; 6; 20]]%Q.
Definition disk (content : text) : text -> option text := fun p => match p with [] => None | _ => Some content end.
Definition ex_file : file_arg := Path (numeral [1]).
Lemma plain_numeral d l : (forall k, In k l -> k < 10) -> (forall c, In c d -> nat_of_ascii c < 48) -> plain d (numeral l).
Proof.
  intros H Hd c Hc. apply in_map_iff in Hc as (k & <- & Hk). specialize (H k Hk). split.
  - intros E. apply (f_equal nat_of_ascii) in E. rewrite nat_ascii_embedding in E by lia. cbn in E. lia.
  - intros X. apply Hd in X. rewrite nat_ascii_embedding in X by lia. lia.
Qed.
Lemma ex_table : table decimal comma 4 ex_lines ex_values.
Proof.
  split; [discriminate|]. split; [intros [E|[]]; discriminate|]. split; [lia|]. split; [repeat constructor|]. split.
  - assert (P : forall l, (forall k, In k l -> k < 10) -> plain comma (numeral l)).
    { intros l H. apply plain_numeral; auto. intros c [<-|[]]. cbn. lia. }
    repeat (constructor; [repeat (constructor; [apply P; intros k Hk; cbn in Hk; lia|]); constructor|]). constructor.
  - repeat (constructor; [repeat (constructor; [reflexivity|]); constructor|]). constructor.
Qed.

Example C37_tensor_loader_example_proof :
  load_to_tensor decimal (disk (written comma ex_lines)) ex_file comma 3 = Ok ([[1; 2; 3]; [4; 5; 6]]%Q, [[10]; [20]]%Q).
Proof. exact (C37_tensor_loader_partial_proof decimal (disk (written comma ex_lines)) (numeral [1]) comma 4 ex_lines ex_values 3 ex_table ltac:(discriminate) ltac:(lia) ltac:(lia) eq_refl). Qed.
Example C37_numpy_loader_example_proof :
  load_to_numpy decimal (disk (written comma ex_lines)) ex_file comma 3 (Some 1) = Ok ([[1; 2; 3]]%Q, [[10]]%Q).
Proof. exact (C37_numpy_loader_partial_proof decimal (disk (written comma ex_lines)) (numeral [1]) comma 4 ex_lines ex_values 3 1 ex_table ltac:(left; lia) eq_refl). Qed.

(** Without the final newline the last character of the last number is lost. *)
Lemma C37_final_newline_refuted_proof :
  ~ (forall num fs p d w lines values,
       table num d w lines values -> lines <> [] -> 3 < w -> fs p = Some (written_open d lines) ->
       load_to_tensor num fs (Path p) d 3 = Ok (map (firstn 3) values, map (skipn 3) values)).
Proof.
  intros H. specialize (H decimal (disk (written_open comma ex_lines)) (numeral [1]) comma 4 ex_lines ex_values ex_table ltac:(discriminate) ltac:(lia) eq_refl).
  vm_compute in H. discriminate.
Qed.
Lemma separated_last d l e : separated d (l ++ [e]) = match l with [] => e | _ => separated d l ++ d ++ e end.
Proof.
  induction l as [|a l IH]; [reflexivity|]. cbn [app]. destruct l as [|b l].
  - reflexivity.
  - change (separated d (a :: (b :: l) ++ [e])) with (a ++ d ++ separated d ((b :: l) ++ [e])). rewrite IH.
    change (separated d (a :: b :: l)) with (a ++ d ++ separated d (b :: l)). now rewrite <- !app_assoc.
Qed.
Lemma separated_snoc d l e c : separated d (l ++ [e ++ [c]]) = separated d (l ++ [e]) ++ [c].
Proof. rewrite !separated_last. destruct l; [reflexivity|]. now rewrite <- !app_assoc. Qed.
Lemma file_lines_open l : l <> [] -> (forall c, In c l -> c <> line_end) -> file_lines l = [l].
Proof.
  induction l as [|c l IH]; intros N H; [congruence|]. cbn [file_lines].
  destruct (Ascii.eqb_spec c newline) as [E|_]; [exfalso; apply (H c (or_introl eq_refl)); exact E|].
  destruct l as [|b l]; [reflexivity|]. rewrite IH; [reflexivity|discriminate|]. intros x Hx. apply H. now right.
Qed.
(** In general the result is that for the table whose last entry misses its
    last character: nothing else of the last line is lost. *)
Lemma C37_lost_character_proof :
  forall num fs p d w lines line e c values dimension k,
    table num d w (lines ++ [line ++ [e]]) values -> plain d (e ++ [c]) -> 3 < w -> 0 < dimension < w ->
    fs p = Some (written_open d (lines ++ [line ++ [e ++ [c]]])) ->
    load_to_tensor num fs (Path p) d dimension = Ok (map (firstn dimension) values, map (skipn dimension) values) /\
    load_to_numpy num fs (Path p) d dimension (Some k) = Ok (map (firstn dimension) (firstn k values), map (skipn dimension) (firstn k values)).
Proof.
  intros num fs p d w lines line e c values dm k T Pe W K Hf.
  set (short := lines ++ [line ++ [e]]) in *.
  assert (Hread : forall k', read_lines d (firstn k' (file_lines (written_open d (lines ++ [line ++ [e ++ [c]]])))) =
                            read_lines d (firstn k' (file_lines (written d short)))).
  { pose proof T as (T1 & T2 & T3 & T4 & T5 & T6). pose proof (table_nonempty _ _ _ _ _ T) as Ne.
    apply Forall_app in T5 as [P1 P2]. inversion P2 as [|? ? P3 _]; subst. apply Forall_app in P3 as [P3 _].
    assert (El : separated d (line ++ [e ++ [c]]) <> []) by (rewrite separated_snoc; intros E; symmetry in E; now apply app_cons_not_nil in E).
    assert (Hl : forall x, In x (separated d (line ++ [e ++ [c]])) -> x <> line_end).
    { intros x Hx. eapply (separated_chars d (line ++ [e ++ [c]])); eauto. apply Forall_app. split; auto. }
    assert (Hw : written_open d (lines ++ [line ++ [e ++ [c]]]) = written d lines ++ separated d (line ++ [e ++ [c]])).
    { unfold written_open, written. rewrite map_app, concat_app. cbn [map concat]. rewrite app_nil_r, app_assoc. apply removelast_last. }
    rewrite Hw.
    assert (Happ : forall ls r, Forall (fun l => l <> []) ls -> Forall (Forall (plain d)) ls ->
              file_lines (written d ls ++ r) = map (fun l => separated d l ++ [line_end]) ls ++ file_lines r).
    { intros ls r. induction ls as [|l ls IH]; intros N F; [reflexivity|]. inversion N; inversion F; subst.
      unfold written. cbn [map concat]. rewrite <- !app_assoc. cbn [app].
      rewrite file_lines_line by (intros x Hx; eapply separated_chars; eauto). cbn [app]. f_equal. apply IH; auto. }
    apply Forall_app in Ne as [N1 _].
    rewrite Happ by auto. rewrite (file_lines_open _ El Hl).
    unfold short. rewrite lines_written by (auto; try apply Forall_app; auto).
    rewrite map_app. cbn [map]. unfold read_lines.
    intros k'. destruct (Nat.le_gt_cases k' (length (map (fun l => separated d l ++ [line_end]) lines))) as [C|C].
    - rewrite !firstn_app. match goal with |- context [k' - ?n] => replace (k' - n) with 0 by lia end. cbn [firstn]. reflexivity.
    - rewrite !firstn_all2 by (rewrite app_length; cbn [length]; lia).
      assert (Hal : forall a x y, line_elements d x = line_elements d y -> all_rows (line_elements d) (a ++ [x]) = all_rows (line_elements d) (a ++ [y])).
      { intros a x y E. induction a as [|b a IH]; cbn [app all_rows]; [now rewrite E|]. now rewrite IH. }
      apply Hal. unfold line_elements. destruct d; [reflexivity|]. rewrite separated_snoc, !removelast_last. reflexivity. }
  assert (N : short <> []) by (unfold short; intros E; symmetry in E; now apply app_cons_not_nil in E).
  set (fs' := fun _ : text => Some (written d short)).
  split.
  - rewrite <- (C37_tensor_loader_partial_proof num fs' p d w short values dm T N W K eq_refl).
    unfold load_to_tensor. rewrite Hf. unfold fs'.
    assert (E := Hread (length (file_lines (written_open d (lines ++ [line ++ [e ++ [c]]]))) + length (file_lines (written d short)))).
    rewrite !firstn_all2 in E by lia. rewrite E. reflexivity.
  - pose proof (C37_numpy_loader_partial_proof num fs' p d w short values dm k T (or_introl W) eq_refl) as E.
    replace (3 <? w) with true in E by (symmetry; apply Nat.ltb_lt; lia). rewrite <- E.
    unfold load_to_numpy. rewrite Hf. unfold fs'. rewrite Hread. reflexivity.
Qed.
Example C37_lost_character_ex_proof :
  load_to_tensor decimal (disk (written_open comma ex_lines)) ex_file comma 3 = Ok ([[1; 2; 3]; [4; 5; 6]]%Q, [[10]; [2]]%Q).
Proof. reflexivity. Qed.

(** The tensor loader fails on every table without feature columns. *)
Lemma C37_no_features_refuted_proof :
  forall num fs p d w lines values dimension,
    table num d w lines values -> w <= 3 -> fs p = Some (written d lines) ->
    load_to_tensor num fs (Path p) d dimension = Err InvalidArgument.
Proof.
  intros num fs p d w lines values k T W Hf. pose proof T as (T1 & T2 & T3 & T4 & T5 & T6). pose proof (table_nonempty _ _ _ _ _ T) as Ne.
  unfold load_to_tensor. rewrite Hf, lines_written, read_written by auto. cbn [bind]. unfold coordinates, extras. rewrite (filter_narrow w) by auto.
  assert (F : Forall (fun r => length r = Nat.min k w) (map (firstn k) lines)) by (apply (widths _ w); auto; intros r E; rewrite firstn_length, E; reflexivity).
  assert (R := reads_firstn num k _ _ T6). unfold tf_numbers at 1. rewrite (rectangular_const (Nat.min k w)) by auto. cbn [negb].
  destruct (concat (map (firstn k) lines)) eqn:E; [reflexivity|]. rewrite (all_rows_reads num InvalidArgument _ _ R). reflexivity.
Qed.
(** With coordinates of dimension 2 the third column is dropped. *)
Lemma C37_dimension_refuted_proof :
  ~ (forall num fs p d w lines values dimension k,
       table num d w lines values -> dimension < w -> length lines <= k -> fs p = Some (written d lines) ->
       load_to_numpy num fs (Path p) d dimension (Some k) = Ok (map (firstn dimension) values, map (skipn dimension) values)).
Proof.
  intros H. set (ls := [[numeral [1]; numeral [2]; numeral [7]]]).
  assert (T : table decimal comma 3 ls [[1; 2; 7]]%Q).
  { split; [discriminate|]. split; [intros [E|[]]; discriminate|]. split; [lia|]. split; [repeat constructor|]. split.
    - assert (P : forall l, (forall k, In k l -> k < 10) -> plain comma (numeral l)).
      { intros l Hl. apply plain_numeral; auto. intros c [<-|[]]. cbn. lia. }
      repeat (constructor; [repeat (constructor; [apply P; intros k Hk; cbn in Hk; lia|]); constructor|]). constructor.
    - repeat (constructor; [repeat (constructor; [reflexivity|]); constructor|]). constructor. }
  specialize (H decimal (disk (written comma ls)) (numeral [1]) comma 3 ls _ 2 1 T ltac:(lia) ltac:(cbn; lia) eq_refl). vm_compute in H. discriminate.
Qed.
(** Without a limit the numpy loader reads nothing. *)
Lemma C37_no_limit_refuted_proof :
  forall num fs p d dimension s, fs p = Some s -> load_to_numpy num fs (Path p) d dimension None = Ok ([], []).
Proof. intros. cbn. rewrite H. reflexivity. Qed.

(** ** Batches *)
Lemma shape_prod_app s t : shape_prod (s ++ t) = (shape_prod s * shape_prod t)%Z.
Proof. induction s as [|a s IH]; cbn -[Z.mul]; [now rewrite Z.mul_1_l|]. unfold shape_prod in *. rewrite IH. ring. Qed.
Lemma shape_prod_nat s : shape_prod (map Z.of_nat s) = Z.of_nat (nprod s).
Proof. unfold shape_prod, nprod. induction s as [|a s IH]; auto. cbn [map fold_right]. rewrite IH, Nat2Z.inj_mul. reflexivity. Qed.
Lemma nat_shape_plain s : existsb (fun z => z <? -1)%Z (map Z.of_nat s) = false /\ filter (fun z => z =? -1)%Z (map Z.of_nat s) = [].
Proof.
  induction s as [|a s [IH1 IH2]]; auto. cbn [map existsb filter].
  destruct (Z.ltb_spec (Z.of_nat a) (-1)); [lia|]. destruct (Z.eqb_spec (Z.of_nat a) (-1)); [lia|]. auto.
Qed.
Lemma new_shape_nat s : new_shape (nprod s) (map Z.of_nat s) = Ok s.
Proof.
  unfold new_shape. destruct (nat_shape_plain s) as [-> ->]. cbn [length]. rewrite shape_prod_nat, Z.eqb_refl.
  f_equal. rewrite map_map. rewrite <- (map_id s) at 2. apply map_ext. apply Nat2Z.id.
Qed.
Lemma nprod_app s t : nprod (s ++ t) = nprod s * nprod t.
Proof. unfold nprod. induction s as [|a s IH]; cbn [app fold_right]; [lia|]. rewrite IH. lia. Qed.
Lemma new_shape_asks batch_shape sh F rest : asks_for batch_shape sh F -> 0 < nprod rest ->
  new_shape (F * nprod rest) (batch_shape ++ map Z.of_nat rest) = Ok (sh ++ rest).
Proof.
  intros [[-> ->]|[-> <-]] Hr.
  - cbn [app]. unfold new_shape. destruct (nat_shape_plain rest) as [E1 E2]. cbn [existsb filter]. rewrite E1, E2.
    change ((-1 <? -1)%Z || false) with false. change (-1 =? -1)%Z with true. cbn [negb length]. cbv iota.
    replace (filter (fun z => negb (z =? -1)%Z) (map Z.of_nat rest)) with (map Z.of_nat rest).
    + rewrite shape_prod_nat. destruct (Z.eqb_spec (Z.of_nat (nprod rest)) 0); [lia|]. rewrite Nat2Z.inj_mul, Z.mod_mul, Z.eqb_refl, Z.div_mul by lia.
      f_equal. cbn [map]. change (-1 =? -1)%Z with true. cbv iota. rewrite Nat2Z.id. f_equal. rewrite map_map. rewrite <- (map_id rest) at 2. apply map_ext. intros a.
      destruct (Z.eqb_spec (Z.of_nat a) (-1)); [lia|]. apply Nat2Z.id.
    + clear. induction rest as [|a r IH]; auto. cbn [map filter]. destruct (Z.eqb_spec (Z.of_nat a) (-1)); [lia|]. cbn [negb]. now rewrite <- IH.
  - rewrite <- map_app, <- nprod_app. apply new_shape_nat.
Qed.
Lemma reshape_stack_ok {A} (elems : list (list A)) batch_shape sh V D : asks_for batch_shape sh (length elems) -> 0 < V -> 0 < D ->
  reshape_stack elems batch_shape V D = Ok (Padded sh V (concat elems)).
Proof.
  intros H HV HD. unfold reshape_stack. replace (length elems * V * D) with (length elems * nprod [V; D]) by (cbn; lia).
  change [Z.of_nat V; Z.of_nat D] with (map Z.of_nat [V; D]). rewrite (new_shape_asks batch_shape sh) by (auto; cbn; nia). cbn [bind].
  replace (length batch_shape) with (length sh + 0).
  - rewrite firstn_app_2. cbn [firstn]. now rewrite app_nil_r.
  - destruct H as [[-> ->]|[-> _]]; [reflexivity|]. rewrite map_length. lia.
Qed.
Lemma all_rows_map {A B C} (f : B -> result C) (g : A -> B) (h : A -> C) l : (forall a, In a l -> f (g a) = Ok (h a)) -> all_rows f (map g l) = Ok (map h l).
Proof.
  induction l as [|a l IH]; intros H; cbn; auto. rewrite H by (left; auto). cbn [bind]. rewrite IH by (intros; apply H; right; auto). reflexivity.
Qed.
Lemma pad_rows_ok width V size rows : Forall (fun r => length r = width) rows -> size = length rows -> pad_rows width V size rows = Ok (with_zeros width V rows).
Proof.
  intros F ->. unfold pad_rows. replace (forallb _ rows) with true; [reflexivity|]. symmetry. apply forallb_forall. intros r Hr.
  apply Nat.eqb_eq. now apply (proj1 (Forall_forall _ rows) F).
Qed.
Lemma with_zeros_length D V rows : length rows <= V -> length (with_zeros D V rows) = V.
Proof. intros H. unfold with_zeros. rewrite app_length, repeat_length. lia. Qed.
Lemma shape_is_eq s t : shape_is s t = true <-> s = t.
Proof.
  unfold shape_is. revert t. induction s as [|a s IH]; intros [|b t]; cbn; split; intros H; try discriminate; auto.
  - apply andb_true_iff in H as [H1 H2]. apply Z.eqb_eq in H1. apply IH in H2. congruence.
  - injection H as -> ->. rewrite Z.eqb_refl. cbn. now apply IH.
Qed.

Lemma table_width num d w lines values : table num d w lines values -> Forall (fun r => length r = w) values.
Proof. intros (_ & _ & _ & F & _ & R). eapply reads_width; eauto. Qed.
Lemma load_all num fs d w ps tables : 3 < w -> Forall2 (holds num fs d w) ps tables -> Forall (fun t => t <> []) tables ->
  all_rows (fun f => load_to_tensor num fs f d 3) (map Path ps) = Ok (map (fun t => (xyz t, rest t)) tables).
Proof.
  intros W F. induction F as [|p t ps ts (lines & T & E) F IH]; intros N; [reflexivity|]. inversion N as [|? ? N1 N2]; subst. cbn [map all_rows].
  rewrite (C37_tensor_loader_partial_proof num fs p d w lines t 3 T); [| |exact W|lia|exact E].
  - cbn [bind]. rewrite IH by auto. reflexivity.
  - intros ->. destruct T as (_ & _ & _ & _ & _ & R). inversion R; subst. congruence.
Qed.
Lemma widths_all num fs d w ps tables : Forall2 (holds num fs d w) ps tables -> Forall (Forall (fun r => length r = w)) tables.
Proof. induction 1 as [|p t ps ts (lines & T & E) F IH]; constructor; auto. eapply table_width; eauto. Qed.

(** C38. A batch of text files, each with its own number of rows: element [b]
    of the result holds the rows of file [b] followed by zeros, [sizes[b]] its
    number of rows, in the requested batch shape. *)
Lemma C38_batch_points_partial_proof :
  forall num fs d w ps tables batch_shape sh,
    3 < w -> ps <> [] -> Forall2 (holds num fs d w) ps tables -> Forall (fun t => t <> []) tables ->
    asks_for batch_shape sh (length ps) ->
    let V := list_max (map (@length _) tables) in
    load_batch_of_points num fs (map Path ps) batch_shape d 3 =
      Ok (Padded sh V (concat (map (with_zeros 3 V) (map xyz tables))),
          Padded sh V (concat (map (with_zeros (w - 3) V) (map rest tables))),
          ITensor sh (map (@length _) tables)).
Proof.
  intros num fs d w ps tables batch_shape sh W N F Ne A V.
  assert (L : length tables = length ps) by (symmetry; eapply Forall2_len; eauto).
  assert (WA := widths_all _ _ _ _ _ _ F).
  assert (HV : forall t, In t tables -> length t <= V) by (intros t Ht; apply (list_max0_ge (map (@length _) tables)); now apply in_map).
  assert (W3 : forall t, In t tables -> Forall (fun r => length r = 3) (xyz t)).
  { intros t Ht. apply (widths _ w); [intros r E; rewrite firstn_length, E; lia|]. now apply (proj1 (Forall_forall _ tables) WA). }
  assert (WR : forall t, In t tables -> Forall (fun r => length r = w - 3) (rest t)).
  { intros t Ht. apply (widths _ w); [intros r E; rewrite skipn_length, E; lia|]. now apply (proj1 (Forall_forall _ tables) WA). }
  unfold load_batch_of_points. rewrite map_length.
  replace (negb (shape_is batch_shape [-1]%Z) && negb (shape_prod batch_shape =? Z.of_nat (length ps))%Z) with false.
  2:{ symmetry. destruct A as [[-> ->]|[-> E]]; [reflexivity|]. fold (nprod sh) in E. rewrite shape_prod_nat, E, Z.eqb_refl. cbn. apply andb_false_r. }
  rewrite (load_all num fs d w ps tables) by auto. cbn [bind].
  assert (Ex : exists t0 ts, tables = t0 :: ts) by (clear -N F; destruct F; [congruence|eauto]). destruct Ex as (t0 & ts & Et).
  assert (EL : map (fun t => (xyz t, rest t)) tables = (xyz t0, rest t0) :: map (fun t => (xyz t, rest t)) ts) by (now rewrite Et).
  rewrite EL. cbn iota beta. rewrite <- EL. cbv zeta.
  assert (ES : map (fun l => length (fst l)) (map (fun t => (xyz t, rest t)) tables) = map (@length _) tables).
  { rewrite map_map. apply map_ext. intros t. unfold xyz. cbn [fst]. apply map_length. }
  rewrite ES. fold (list_max0 (map (@length (list Q)) tables)). change (list_max0 (map (@length (list Q)) tables)) with V.
  assert (H0 : In t0 tables) by (rewrite Et; left; auto).
  assert (N0 : t0 <> []) by (now apply (proj1 (Forall_forall _ tables) Ne)).
  assert (V0 : 0 < V) by (specialize (HV t0 H0); destruct t0; [congruence|cbn in HV; lia]).
  assert (EF : length (hd [] (rest t0)) = w - 3).
  { specialize (WR t0 H0). destruct t0 as [|r t0]; [congruence|]. inversion WR; subst. assumption. }
  rewrite EF.
  rewrite (all_rows_map _ (fun t => (xyz t, rest t)) (fun t => with_zeros 3 V (xyz t))).
  2:{ intros t Ht. apply pad_rows_ok; cbn [fst]; auto. }
  cbn [bind].
  rewrite (all_rows_map _ (fun t => (xyz t, rest t)) (fun t => with_zeros (w - 3) V (rest t))).
  2:{ intros t Ht. cbn [fst snd]. apply pad_rows_ok; auto. unfold xyz, rest. now rewrite !map_length. }
  cbn [bind].
  replace (stackable V _ && stackable V _) with true.
  2:{ symmetry. apply andb_true_iff. split; apply forallb_forall; intros e He; apply in_map_iff in He as (t & <- & Ht); apply Nat.eqb_eq; apply with_zeros_length;
      unfold xyz, rest; rewrite map_length; auto. }
  cbn [negb]. rewrite !map_map.
  rewrite (reshape_stack_ok _ batch_shape sh V 3) by (rewrite ?map_length, ?L; auto; lia). cbn [bind].
  rewrite (reshape_stack_ok _ batch_shape sh V (w - 3)) by (rewrite ?map_length, ?L; auto; lia). cbn [bind].
  assert (S := new_shape_asks batch_shape sh (length ps) [] A ltac:(cbn; lia)). cbn [map nprod fold_right] in S. rewrite Nat.mul_1_r, !app_nil_r in S.
  rewrite S. reflexivity.
Qed.

(** Wrong batch shapes are rejected. *)
Lemma C38_wrong_shape_proof :
  forall num fs d files batch_shape pd, batch_shape <> [-1]%Z -> fold_right Z.mul 1%Z batch_shape <> Z.of_nat (length files) ->
    load_batch_of_points num fs files batch_shape d pd = Err ValueError.
Proof.
  intros num fs d files bs pd N E. unfold load_batch_of_points. destruct (shape_is bs [-1]%Z) eqn:Q; [apply shape_is_eq in Q; congruence|].
  fold (shape_prod bs) in E. destruct (Z.eqb_spec (shape_prod bs) (Z.of_nat (length files))); [congruence|reflexivity].
Qed.

(** The documented [point_dimension] does not work: every other value than 3
    fails. *)
Lemma C38_dimension_refuted_proof :
  forall num fs d w ps tables batch_shape sh pd,
    3 < w -> ps <> [] -> Forall2 (holds num fs d w) ps tables -> Forall (fun t => t <> []) tables ->
    asks_for batch_shape sh (length ps) -> pd <> 3 ->
    load_batch_of_points num fs (map Path ps) batch_shape d pd = Err InvalidArgument.
Proof.
  intros num fs d w ps tables batch_shape sh pd W N F Ne A Hpd.
  assert (WA := widths_all _ _ _ _ _ _ F). unfold load_batch_of_points. rewrite map_length.
  replace (negb (shape_is batch_shape [-1]%Z) && negb (shape_prod batch_shape =? Z.of_nat (length ps))%Z) with false.
  2:{ symmetry. destruct A as [[-> ->]|[-> E]]; [reflexivity|]. fold (nprod sh) in E. rewrite shape_prod_nat, E, Z.eqb_refl. cbn. apply andb_false_r. }
  rewrite (load_all num fs d w ps tables) by auto. cbn [bind]. destruct F as [|p t ps ts H F]; [congruence|]. cbn [map].
  inversion Ne as [|? ? N0 _]; inversion WA as [|? ? W0 _]; subst. destruct t as [|r t]; [congruence|]. inversion W0; subst.
  cbn [all_rows fst]. unfold pad_rows at 1. cbn [xyz map forallb]. destruct (Nat.eqb_spec (length (firstn 3 r)) pd) as [E|E]; [|reflexivity].
  rewrite firstn_length in E. lia.
Qed.

(** ** Feeding a batch to the point cloud *)
From Verif Require Import CloudProofs.
Lemma element_app {A} b (r1 r2 : list A) i1 i2 : length r1 = length i1 -> element b (r1 ++ r2) (i1 ++ i2) = element b r1 i1 ++ element b r2 i2.
Proof.
  intros H. unfold element. revert i1 H. induction r1 as [|a r1 IH]; intros [|i i1] H; try discriminate; auto. cbn [app combine filter map].
  injection H as H. cbn [snd]. destruct (i =? b); cbn [map fst]; [cbn [app]; f_equal|]; apply IH; auto.
Qed.
Lemma element_one {A} b o (rows : list A) : element b rows (repeat o (length rows)) = if o =? b then rows else [].
Proof.
  unfold element. induction rows as [|a r IH]; cbn [length repeat combine filter map]; [now destruct (o =? b)|]. cbn [snd].
  destruct (o =? b); cbn [map fst]; rewrite IH; reflexivity.
Qed.
Fixpoint block_list (o : nat) (sizes : list nat) : list nat :=
  match sizes with [] => [] | n :: r => repeat o n ++ block_list (S o) r end.
Lemma block_list_ids sizes : ids_of_sizes sizes = block_list 0 sizes.
Proof.
  unfold ids_of_sizes. assert (G : forall sizes o, concat (map (fun b => repeat (o + b) (nth b sizes 0)) (seq 0 (length sizes))) = block_list o sizes).
  { clear. induction sizes as [|n r IH]; intros o; [reflexivity|]. cbn [length seq map concat block_list nth]. rewrite Nat.add_0_r. f_equal.
    rewrite <- IH, <- seq_shift, map_map. f_equal. apply map_ext. intros b. cbn [nth]. f_equal. lia. }
  rewrite <- G. reflexivity.
Qed.
Lemma element_blocks {A} b (ts : list (list A)) : forall o, element (o + b) (concat ts) (block_list o (map (@length _) ts)) = nth b ts [].
Proof.
  revert b. induction ts as [|t ts IH]; intros b o; [destruct b; reflexivity|]. cbn [map concat block_list].
  rewrite element_app by (now rewrite repeat_length). rewrite element_one. destruct b as [|b].
  - rewrite Nat.add_0_r, Nat.eqb_refl. cbn [nth]. rewrite <- (app_nil_r t) at 2. f_equal.
    assert (H : forall ts o', o < o' -> element o (concat ts) (block_list o' (map (@length A) ts)) = []).
    { clear. induction ts as [|t ts IH]; intros o' H; [reflexivity|]. cbn [map concat block_list]. rewrite element_app by (now rewrite repeat_length).
      rewrite element_one. destruct (Nat.eqb_spec o' o); [lia|]. cbn [app]. apply IH. lia. }
    apply H. lia.
  - destruct (Nat.eqb_spec o (o + S b)); [lia|]. cbn [app nth]. replace (o + S b) with (S o + b) by lia. apply IH.
Qed.
Lemma valid_padded D V (ts : list (list (list Q))) : (forall t, In t ts -> length t <= V) ->
  valid_rows (map (@length _) ts) V (concat (map (with_zeros D V) ts)) = concat ts.
Proof.
  intros H. unfold valid_rows. rewrite map_length.
  assert (G : forall ts, (forall t, In t ts -> length t <= V) ->
     concat (map (fun b => firstn (nth b (map (@length _) ts) 0) (skipn (b * V) (concat (map (with_zeros D V) ts)))) (seq 0 (length ts))) = concat ts).
  { clear. induction ts as [|t ts IH]; intros H; [reflexivity|]. cbn [length seq map concat]. f_equal.
    - cbn [nth Nat.mul skipn]. unfold with_zeros. rewrite <- app_assoc, firstn_app, firstn_all, Nat.sub_diag. cbn [firstn]. apply app_nil_r.
    - rewrite <- seq_shift, map_map. rewrite <- IH by auto using in_cons. f_equal. apply map_ext_in. intros b _. cbn [nth]. f_equal.
      cbn [Nat.mul]. rewrite skipn_app. rewrite with_zeros_length by (apply H; left; auto).
      rewrite skipn_all2 by (rewrite with_zeros_length by (apply H; left; auto); lia). cbn [app]. f_equal. lia. }
  apply G; auto.
Qed.
Lemma concat_const {A} V (l : list (list A)) : (forall e, In e l -> length e = V) -> length (concat l) = length l * V.
Proof. induction l as [|e l IH]; intros H; cbn; auto. rewrite app_length, IH by auto using in_cons. rewrite (H e) by (left; auto). reflexivity. Qed.

(** C38. The padded tensor and the sizes made from tables reproduce the tables
    when a point cloud is built from them. *)
Lemma C38_feeds_point_cloud_proof :
  forall D V sh (tables : list (list (list Q))),
    nprod sh = length tables -> (forall t, In t tables -> length t <= V) ->
    exists p, init (PN D (Padded sh V (concat (map (with_zeros D V) tables)))) None None (Some (ITensor sh (map (@length _) tables))) = Ok p /\
      bsize p = length tables /\ forall b, b < length tables -> element b (pts p) (bids p) = nth b tables [].
Proof.
  intros D V sh tables Hsh HV.
  destruct (describes_init _ _ _ _ _ _ _ _ (by_padding D sh V (concat (map (with_zeros D V) tables)) (map (@length _) tables) None None
     ltac:(rewrite (concat_const V), map_length, Hsh; [auto|intros e He; apply in_map_iff in He as (t & <- & Ht); now apply with_zeros_length; auto])
     ltac:(rewrite map_length; auto)
     ltac:(apply Forall_forall; intros n Hn; apply in_map_iff in Hn as (t & <- & Ht); auto) ltac:(left; reflexivity))) as (p & E & F & _).
  exists p. split; [exact E|]. rewrite (f_pts _ _ _ _ _ F), (f_ids _ _ _ _ _ F), (f_B _ _ _ _ _ F). split; [exact Hsh|]. intros b Hb.
  rewrite valid_padded by auto. rewrite block_list_ids. exact (element_blocks b tables 0).
Qed.

(** C38 for meshes: the vertices of the files, padded. *)
Lemma C38_batch_meshes_proof :
  forall load files (tables : list (list (list Q))) batch_shape sh,
    Forall2 (fun f t => load f = Ok t) files tables -> Forall (Forall (fun r => length r = 3)) tables ->
    (exists t, In t tables /\ t <> []) -> asks_for batch_shape sh (length files) ->
    let V := list_max (map (@length _) tables) in
    load_batch_of_meshes load files batch_shape =
      Ok (Padded sh V (concat (map (with_zeros 3 V) tables)), ITensor sh (map (@length _) tables)).
Proof.
  intros load files tables batch_shape sh F W (t0 & H0 & N0) A V.
  assert (L : length tables = length files) by (symmetry; eapply Forall2_len; eauto).
  assert (HV : forall t, In t tables -> length t <= V) by (intros t Ht; apply (list_max0_ge (map (@length _) tables)); now apply in_map).
  assert (V0 : 0 < V) by (specialize (HV t0 H0); destruct t0; [congruence|cbn in HV; lia]).
  unfold load_batch_of_meshes. replace (all_rows load files) with (Ok tables).
  2:{ symmetry. clear -F. induction F as [|f t fs ts E F IH]; cbn; auto. rewrite E, IH. reflexivity. }
  cbn [bind]. assert (Ex : exists a l, tables = a :: l) by (destruct tables; [destruct H0|eauto]). destruct Ex as (a & l & Et).
  rewrite Et at 1. cbv zeta. cbn iota. change (list_max0 (map (@length (list Q)) tables)) with V.
  rewrite <- (map_id tables) at 1. rewrite (all_rows_map _ (fun t => t) (with_zeros 3 V)).
  2:{ intros t Ht. apply pad_rows_ok; auto. now apply (proj1 (Forall_forall _ tables) W). }
  cbn [bind]. rewrite (reshape_stack_ok _ batch_shape sh V 3) by (rewrite ?map_length, ?L; auto; lia). cbn [bind].
  assert (Sh := new_shape_asks batch_shape sh (length files) [] A ltac:(cbn; lia)). cbn [map nprod fold_right] in Sh. rewrite Nat.mul_1_r, !app_nil_r in Sh.
  rewrite Sh. reflexivity.
Qed.
(** A batch shape without a wildcard whose product is not the number of files
    never gives a result. *)
Lemma C38_meshes_wrong_shape_proof :
  forall load files sh, fold_right Nat.mul 1 sh <> length files ->
    forall r, load_batch_of_meshes load files (map Z.of_nat sh) <> Ok r.
Proof.
  intros load files sh N r H. unfold load_batch_of_meshes in H. destruct (all_rows load files) as [loaded|]; [|discriminate]. cbn [bind] in H.
  destruct loaded as [|a l]; [discriminate|]. cbv zeta in H. destruct (all_rows _ (a :: l)); [|discriminate]. cbn [bind] in H.
  destruct (reshape_stack _ _ _ _); [|discriminate]. cbn [bind] in H. unfold new_shape in H. destruct (nat_shape_plain sh) as [E1 E2].
  rewrite E1, E2 in H. cbn [length] in H. rewrite shape_prod_nat in H. destruct (Z.eqb_spec (Z.of_nat (nprod sh)) (Z.of_nat (length files))) as [E|E]; [|discriminate].
  apply Nat2Z.inj in E. contradiction.
Qed.

Definition ex_lines2 : list (list text) := [[numeral [7]; numeral [8]; numeral [9]; numeral [3; 0]]].
Definition ex_disk : text -> option text := fun p =>
  match p with [] => None | [_] => Some (written comma ex_lines) | _ => Some (written comma ex_lines2) end.
Example C38_batch_points_example_proof :
  load_batch_of_points decimal ex_disk [Path (numeral [1]); Path (numeral [1; 2])] [2; 1]%Z comma 3 =
    Ok (Padded [2; 1] 2 [[1; 2; 3]; [4; 5; 6]; [7; 8; 9]; [0; 0; 0]]%Q, Padded [2; 1] 2 [[10]; [20]; [30]; [0]]%Q, ITensor [2; 1] [2; 1]).
Proof.
  apply (C38_batch_points_partial_proof decimal ex_disk comma 4 [numeral [1]; numeral [1; 2]] [ex_values; [[7; 8; 9; 30]]%Q] [2; 1]%Z [2; 1]).
  - lia.
  - discriminate.
  - constructor; [|constructor; [|constructor]].
    + exists ex_lines. split; [exact ex_table|reflexivity].
    + exists ex_lines2. split; [|reflexivity].
      split; [discriminate|]. split; [intros [E|[]]; discriminate|]. split; [lia|]. split; [repeat constructor|]. split.
      * assert (P : forall l, (forall k, In k l -> k < 10) -> plain comma (numeral l)).
        { intros l H. apply plain_numeral; auto. intros c [<-|[]]. cbn. lia. }
        repeat (constructor; [repeat (constructor; [apply P; intros k Hk; cbn in Hk; lia|]); constructor|]). constructor.
      * repeat (constructor; [repeat (constructor; [reflexivity|]); constructor|]). constructor.
  - repeat constructor; discriminate.
  - right. split; reflexivity.
Qed.
Example C38_feeds_point_cloud_example_proof :
  exists p, init (PN 3 (Padded [2] 2 [[1; 2; 3]; [4; 5; 6]; [7; 8; 9]; [0; 0; 0]]%Q)) None None (Some (ITensor [2] [2; 1])) = Ok p /\
    element 1 (pts p) (bids p) = [[7; 8; 9]]%Q.
Proof.
  destruct (C38_feeds_point_cloud_proof 3 2 [2] [[[1; 2; 3]; [4; 5; 6]]; [[7; 8; 9]]]%Q eq_refl) as (p & E & _ & H).
  - intros t [<-|[<-|[]]]; cbn; lia.
  - exists p. split; [exact E|]. apply (H 1). cbn. lia.
Qed.
Example C38_batch_meshes_example_proof :
  load_batch_of_meshes (fun f => match f with Path [] => Ok [[1; 2; 3]]%Q | Path _ => Ok [] | NotAString => Err TypeError end)
    [Path []; Path comma] [-1]%Z = Ok (Padded [2] 1 [[1; 2; 3]; [0; 0; 0]]%Q, ITensor [2] [1; 0]).
Proof.
  apply (C38_batch_meshes_proof _ [Path []; Path comma] [[[1; 2; 3]]; []]%Q [-1]%Z [2]).
  - repeat constructor.
  - repeat constructor.
  - exists [[1; 2; 3]]%Q. split; [left; auto|discriminate].
  - left. split; reflexivity.
Qed.
(** A disk with one file; any other name is not found. *)
Example C37_bad_files_ex_proof :
  let fs := fun p => match p with [_] => Some (written comma ex_lines) | _ => None end in
  fs (numeral [1]) <> None /\ fs (numeral [1; 2]) = None /\
  load_to_tensor decimal fs (Path (numeral [1; 2])) comma 3 = Err FileNotFound /\ load_to_numpy decimal fs (Path (numeral [1; 2])) comma 3 None = Err FileNotFound.
Proof. repeat split; discriminate. Qed.
(** Two files, shape 2 x 2. *)
Example C38_wrong_shape_ex_proof :
  load_batch_of_points decimal ex_disk [Path (numeral [1]); Path (numeral [1; 2])] [2; 2]%Z comma 3 = Err ValueError.
Proof. apply C38_wrong_shape_proof; discriminate. Qed.
Example C38_meshes_wrong_shape_ex_proof :
  fold_right Nat.mul 1 [3] <> length [Path []; Path comma] /\
  forall r, load_batch_of_meshes (fun _ => Ok [[1; 2; 3]]%Q) [Path []; Path comma] [3]%Z <> Ok r.
Proof. split; [discriminate|]. intros r. apply (C38_meshes_wrong_shape_proof _ _ [3]). discriminate. Qed.
