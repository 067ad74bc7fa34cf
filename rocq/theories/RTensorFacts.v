(** Facts about the tensor operations of RTensor.v. *)
From Coq Require Import List Arith Reals Bool Lia Permutation.
From Verif Require Import Tensor TensorFacts Spec Pdf PdfFacts RTensor.
Import ListNotations.
Local Open Scope nat_scope.
Local Arguments nprod : simpl never.

Lemma nprod_cons n s : nprod (n :: s) = n * nprod s.
Proof. reflexivity. Qed.
Lemma nprod_nil : nprod [] = 1.
Proof. reflexivity. Qed.

Lemma in_shape_cons n s i r : in_shape (n :: s) (i :: r) <-> i < n /\ in_shape s r.
Proof. split; [intros H; inversion H; auto|intros [H1 H2]; now constructor]. Qed.
Lemma in_shape_nil_inv r : in_shape [] r -> r = [].
Proof. now inversion 1. Qed.
Lemma in_shape_cons_inv n s r : in_shape (n :: s) r -> exists i r', r = i :: r' /\ i < n /\ in_shape s r'.
Proof. inversion 1; subst. eauto. Qed.

Lemma offset_lt sh idx : in_shape sh idx -> offset sh idx < nprod sh.
Proof.
  intros H; induction H as [|n i s r Hn H IH]; cbn [offset]; rewrite ?nprod_cons, ?nprod_nil; [lia|]. nia.
Qed.

Lemma offset_inj sh a b : in_shape sh a -> in_shape sh b -> offset sh a = offset sh b -> a = b.
Proof.
  intros Ha; revert b; induction Ha as [|n i s r Hn H IH]; intros b Hb E.
  - apply in_shape_nil_inv in Hb. now subst.
  - apply in_shape_cons_inv in Hb. destruct Hb as (j & r' & -> & Hj & Hr). cbn [offset] in E.
    pose proof (offset_lt s r H). pose proof (offset_lt s r' Hr).
    assert (i = j) by nia. subst j. f_equal. apply IH; auto. lia.
Qed.

Lemma flat_map_seq_nth {A} (g : nat -> list A) L s n i j :
  (forall k, length (g k) = L) -> i < n -> j < L ->
  nth_error (flat_map g (seq s n)) (i * L + j) = nth_error (g (s + i)) j.
Proof.
  intros HL. revert s n. induction i as [|i IH]; intros s n Hi Hj; destruct n as [|n]; try lia; cbn [seq flat_map].
  - rewrite nth_error_app1 by (rewrite HL; lia). now rewrite Nat.add_0_r.
  - rewrite nth_error_app2 by (rewrite HL; lia). rewrite HL.
    replace (S i * L + j - L) with (i * L + j) by lia. rewrite IH by lia. f_equal. f_equal. lia.
Qed.

Lemma all_indices_length sh : length (all_indices sh) = nprod sh.
Proof.
  induction sh as [|n s IH]; [reflexivity|]. cbn [all_indices]. rewrite nprod_cons.
  assert (H : forall l, length (flat_map (fun i => map (cons i) (all_indices s)) l) = length l * nprod s).
  { induction l as [|i l IHl]; [reflexivity|]. cbn. rewrite app_length, map_length, IHl, IH. lia. }
  now rewrite H, seq_length.
Qed.

Lemma all_indices_nth sh idx : in_shape sh idx -> nth_error (all_indices sh) (offset sh idx) = Some idx.
Proof.
  intros H; induction H as [|n i s r Hn H IH]; [reflexivity|]. cbn [offset all_indices].
  rewrite flat_map_seq_nth with (L := nprod s); auto.
  - cbn [Nat.add]. rewrite nth_error_map, IH. reflexivity.
  - intros k. now rewrite map_length, all_indices_length.
  - now apply offset_lt.
Qed.

Lemma all_indices_In sh idx : In idx (all_indices sh) <-> in_shape sh idx.
Proof.
  split.
  - revert idx. induction sh as [|n s IH]; intros idx H; cbn in H.
    + destruct H as [<-|[]]. constructor.
    + apply in_flat_map in H. destruct H as (i & Hi & H). apply in_map_iff in H. destruct H as (r & <- & Hr).
      apply in_seq in Hi. constructor; [lia|]. now apply IH.
  - intros H. apply all_indices_nth in H. eapply nth_error_In; eauto.
Qed.

Lemma offset_onto sh k : k < nprod sh -> exists idx, in_shape sh idx /\ offset sh idx = k.
Proof.
  revert k; induction sh as [|n s IH]; intros k Hk.
  - exists []. rewrite nprod_nil in Hk. split; [constructor|cbn; lia].
  - rewrite nprod_cons in Hk. assert (Hs : nprod s <> 0) by lia.
    destruct (IH (k mod nprod s)) as (r & Hr & E); [now apply Nat.mod_upper_bound|].
    exists (k / nprod s :: r). split.
    + constructor; auto. apply Nat.div_lt_upper_bound; lia.
    + cbn [offset]. rewrite E. rewrite (Nat.div_mod k (nprod s)) at 3 by auto. lia.
Qed.

Lemma tget_ttab sh f idx : in_shape sh idx -> tget (ttab sh f) idx = f idx.
Proof.
  intros H. unfold tget, ttab; cbn [tshape tdata]. apply nth_error_nth.
  now rewrite nth_error_map, all_indices_nth.
Qed.

Lemma ttab_ext sh f g : (forall idx, in_shape sh idx -> f idx = g idx) -> ttab sh f = ttab sh g.
Proof. intros H. unfold ttab. f_equal. apply map_ext_in. intros i Hi. apply H. now apply all_indices_In. Qed.

Lemma ttab_shape sh f : tshape (ttab sh f) = sh.
Proof. reflexivity. Qed.
Lemma ttab_length sh f : length (tdata (ttab sh f)) = nprod sh.
Proof. cbn. now rewrite map_length, all_indices_length. Qed.

Lemma redata sh sh' (f : list nat -> R) (h : list nat -> list nat) : nprod sh = nprod sh' ->
  (forall idx, in_shape sh' idx -> in_shape sh (h idx) /\ offset sh (h idx) = offset sh' idx) ->
  map f (all_indices sh) = map (fun idx => f (h idx)) (all_indices sh').
Proof.
  intros E H. apply (nth_ext _ _ 0%R 0%R); [rewrite !map_length, !all_indices_length; exact E|].
  intros k Hk. rewrite map_length, all_indices_length in Hk.
  destruct (offset_onto sh' k) as (idx & Hi & Ek); [lia|]. destruct (H idx Hi) as [H1 H2].
  transitivity (f (h idx)).
  - apply nth_error_nth. now rewrite nth_error_map, <- Ek, <- H2, all_indices_nth.
  - symmetry. apply nth_error_nth. now rewrite nth_error_map, <- Ek, all_indices_nth.
Qed.

Lemma treshape_ttab sh sh' f h : nprod sh = nprod sh' ->
  (forall idx, in_shape sh' idx -> in_shape sh (h idx) /\ offset sh (h idx) = offset sh' idx) ->
  treshape (ttab sh f) sh' = Ok (ttab sh' (fun idx => f (h idx))).
Proof.
  intros E H. unfold treshape. rewrite ttab_length, E, Nat.eqb_refl. f_equal. unfold ttab. cbn [tdata]. f_equal.
  now apply redata.
Qed.

Lemma nprod_app a b : nprod (a ++ b) = nprod a * nprod b.
Proof. induction a as [|x a IH]; cbn [app]; rewrite ?nprod_cons, ?nprod_nil; [lia|]. rewrite IH. lia. Qed.

Lemma treshape_infer_ttab sh pre n post f h : nprod pre * nprod post <> 0 ->
  nprod sh = n * (nprod pre * nprod post) ->
  (forall idx, in_shape (pre ++ n :: post) idx -> in_shape sh (h idx) /\ offset sh (h idx) = offset (pre ++ n :: post) idx) ->
  treshape_infer (ttab sh f) pre post = Ok (ttab (pre ++ n :: post) (fun idx => f (h idx))).
Proof.
  intros H0 E H. unfold treshape_infer. destruct (Nat.eqb_spec (nprod pre * nprod post) 0); [contradiction|].
  rewrite ttab_length, E, Nat.div_mul by auto. apply treshape_ttab; auto.
  rewrite nprod_app, nprod_cons, E. lia.
Qed.

Lemma tmap_ttab g sh f : tmap g (ttab sh f) = ttab sh (fun idx => g (f idx)).
Proof. unfold tmap, ttab; cbn. now rewrite map_map. Qed.

(** Any tensor with the right amount of data is the table of its entries. *)
Definition twf (t : ten) : Prop := length (tdata t) = nprod (tshape t).
Lemma ttab_tget t : twf t -> t = ttab (tshape t) (tget t).
Proof.
  intros H. destruct t as [sh d]; unfold twf in H; cbn in H. unfold ttab. cbn [tshape]. f_equal.
  apply (nth_ext _ _ 0%R 0%R); [now rewrite map_length, all_indices_length|].
  intros k Hk. rewrite H in Hk. destruct (offset_onto sh k Hk) as (idx & Hi & E). symmetry. apply nth_error_nth.
  rewrite nth_error_map, <- E, all_indices_nth by auto. cbn. unfold tget. cbn. reflexivity.
Qed.
Lemma twf_ttab sh f : twf (ttab sh f).
Proof. apply ttab_length. Qed.

(** Indices of small rank. *)
Ltac idx_inv :=
  repeat match goal with
  | H : in_shape (_ :: _) _ |- _ =>
    let i := fresh "i" in let r := fresh "r" in let Hi := fresh "Hi" in
    apply in_shape_cons_inv in H; destruct H as (i & r & -> & Hi & H)
  | H : in_shape [] ?v |- _ => apply in_shape_nil_inv in H; subst v
  end.
Ltac in_sh := repeat (apply in_shape_cons; split); try constructor; try lia.

Lemma texpand_end m c f : texpand (ttab [m; c] f) 2 =
  ttab [m; c; 1] (fun idx => match idx with [i; j; _] => f [i; j] | _ => 0%R end).
Proof.
  unfold texpand, ttab at 1. cbn [tshape tdata firstn skipn app]. unfold ttab. f_equal.
  etransitivity.
  - apply (redata [m; c] [m; c; 1] f (fun idx => match idx with [i; j; _] => [i; j] | _ => [] end)).
    + rewrite !nprod_cons, nprod_nil. lia.
    + intros idx H. idx_inv. split; [in_sh|]. cbn [offset]. rewrite !nprod_cons, nprod_nil. lia.
  - apply map_ext_in. intros idx H. apply all_indices_In in H. idx_inv. reflexivity.
Qed.
Lemma texpand_mid m c f : texpand (ttab [m; c] f) 1 =
  ttab [m; 1; c] (fun idx => match idx with [i; _; j] => f [i; j] | _ => 0%R end).
Proof.
  unfold texpand, ttab at 1. cbn [tshape tdata firstn skipn app]. unfold ttab. f_equal.
  etransitivity.
  - apply (redata [m; c] [m; 1; c] f (fun idx => match idx with [i; _; j] => [i; j] | _ => [] end)).
    + rewrite !nprod_cons, nprod_nil. lia.
    + intros idx H. idx_inv. split; [in_sh|]. cbn [offset]. rewrite !nprod_cons, nprod_nil. nia.
  - apply map_ext_in. intros idx H. apply all_indices_In in H. idx_inv. reflexivity.
Qed.
Lemma texpand_front m c f : texpand (ttab [m; c] f) 0 =
  ttab [1; m; c] (fun idx => match idx with [_; i; j] => f [i; j] | _ => 0%R end).
Proof.
  unfold texpand, ttab at 1. cbn [tshape tdata firstn skipn app]. unfold ttab. f_equal.
  etransitivity.
  - apply (redata [m; c] [1; m; c] f (fun idx => match idx with [_; i; j] => [i; j] | _ => [] end)).
    + rewrite !nprod_cons, nprod_nil. lia.
    + intros idx H. idx_inv. split; [in_sh|]. cbn [offset]. rewrite !nprod_cons, nprod_nil. nia.
  - apply map_ext_in. intros idx H. apply all_indices_In in H. idx_inv. reflexivity.
Qed.

Lemma bc_shape_same s : bc_shape s s = Some s.
Proof. induction s as [|a s IH]; [reflexivity|]. cbn. now rewrite IH, Nat.eqb_refl. Qed.
Lemma bc_shape_eq a s t u : bc_shape s t = Some u -> bc_shape (a :: s) (a :: t) = Some (a :: u).
Proof. intros E. cbn. now rewrite E, Nat.eqb_refl. Qed.
Lemma bc_shape_r1 a s t u : bc_shape s t = Some u -> bc_shape (a :: s) (1 :: t) = Some (a :: u).
Proof. intros E. cbn [bc_shape]. rewrite E. now destruct (Nat.eqb_spec a 1); subst. Qed.
Lemma bc_shape_l1 b s t u : bc_shape s t = Some u -> bc_shape (1 :: s) (b :: t) = Some (b :: u).
Proof. intros E. cbn [bc_shape]. rewrite E. destruct (Nat.eqb_spec 1 b); subst; reflexivity. Qed.
Lemma bc_shape_nil : bc_shape [] [] = Some [].
Proof. reflexivity. Qed.
Ltac bc := repeat first [ apply bc_shape_nil | apply bc_shape_eq | apply bc_shape_r1 | apply bc_shape_l1 ].
Lemma bc_index_in s t u idx : bc_shape s t = Some u -> in_shape u idx ->
  in_shape s (bc_index s idx) /\ in_shape t (bc_index t idx).
Proof.
  revert t u idx. induction s as [|a s IH]; intros [|b t] u idx E H; cbn in E; try discriminate.
  - injection E as <-. apply in_shape_nil_inv in H. subst. split; constructor.
  - destruct (bc_shape s t) as [v|] eqn:Ev; [|discriminate].
    destruct (Nat.eqb_spec a b); [|destruct (Nat.eqb_spec a 1); [|destruct (Nat.eqb_spec b 1); [|discriminate]]];
      injection E as <-; apply in_shape_cons_inv in H; destruct H as (i & r & -> & Hi & H);
      destruct (IH t v r Ev H) as [H1 H2]; cbn [bc_index]; split; apply in_shape_cons; split; auto;
      repeat match goal with |- context [?x =? 1] => destruct (Nat.eqb_spec x 1) end; lia.
Qed.
Lemma tbin_ttab op s t u f g : bc_shape s t = Some u ->
  tbin op (ttab s f) (ttab t g) = Ok (ttab u (fun idx => op (f (bc_index s idx)) (g (bc_index t idx)))).
Proof.
  intros E. unfold tbin. rewrite !ttab_shape, E. f_equal. apply ttab_ext. intros idx H.
  destruct (bc_index_in s t u idx E H). now rewrite !tget_ttab.
Qed.
(** Entry selected by broadcasting a dimension known to be [n]. *)
Lemma bc_self n i : i < n -> (if n =? 1 then 0 else i) = i.
Proof. destruct (Nat.eqb_spec n 1); lia. Qed.

Lemma tmatmul2_ttab m k n f g : tmatmul (ttab [m; k] f) (ttab [k; n] g) =
  Ok (ttab [m; n] (fun idx => match idx with
        | [i; j] => rsum (map (fun l => f [i; l] * g [l; j])%R (seq 0 k)) | _ => 0%R end)).
Proof.
  unfold tmatmul. rewrite !ttab_shape, Nat.eqb_refl. f_equal. apply ttab_ext. intros idx H. idx_inv.
  f_equal. apply map_ext_in. intros l Hl. apply in_seq in Hl. rewrite !tget_ttab; [reflexivity|in_sh|in_sh].
Qed.
Lemma tmatmul3_ttab s m k n f g : tmatmul (ttab [s; m; k] f) (ttab [s; k; n] g) =
  Ok (ttab [s; m; n] (fun idx => match idx with
        | [q; i; j] => rsum (map (fun l => f [q; i; l] * g [q; l; j])%R (seq 0 k)) | _ => 0%R end)).
Proof.
  unfold tmatmul. rewrite !ttab_shape, !Nat.eqb_refl. cbn [andb]. f_equal. apply ttab_ext. intros idx H. idx_inv.
  f_equal. apply map_ext_in. intros l Hl. apply in_seq in Hl. rewrite !tget_ttab; [reflexivity|in_sh|in_sh].
Qed.

Lemma ttile0_ttab n m k f : ttile0 (ttab [1; m; k] f) n =
  Ok (ttab [n; m; k] (fun idx => match idx with [_; i; j] => f [0; i; j] | _ => 0%R end)).
Proof.
  unfold ttile0. rewrite ttab_shape. f_equal. apply ttab_ext. intros idx H. idx_inv. rewrite tget_ttab; [reflexivity|in_sh].
Qed.

Lemma tpad1_ttab m k e f : tpad1 (ttab [m; k] f) e =
  Ok (ttab [m; k + e] (fun idx => match idx with
        | [i; j] => if j <? k then f [i; j] else 0%R | _ => 0%R end)).
Proof.
  unfold tpad1. rewrite ttab_shape. f_equal. apply ttab_ext. intros idx H. idx_inv.
  match goal with |- context [?j <? k] => destruct (Nat.ltb_spec j k) end; [|reflexivity]. rewrite tget_ttab; [reflexivity|in_sh].
Qed.
Lemma ttake2_ttab a b c k f : k <= c -> ttake2 (ttab [a; b; c] f) k = Ok (ttab [a; b; k] f).
Proof.
  intros H. unfold ttake2. rewrite ttab_shape, Nat.min_l by auto. f_equal. apply ttab_ext. intros idx Hi. idx_inv.
  rewrite tget_ttab; [reflexivity|in_sh].
Qed.
Lemma tnorm_ttab sh c f : tnorm_last (ttab (sh ++ [c]) f) =
  Ok (ttab sh (fun idx => sqrt (rsum (map (fun d => (f (idx ++ [d]) * f (idx ++ [d]))%R) (seq 0 c))))).
Proof.
  unfold tnorm_last. rewrite ttab_shape.
  destruct (sh ++ [c]) as [|x l] eqn:E; [destruct sh; discriminate|]. rewrite <- E.
  rewrite removelast_last, last_last. f_equal. apply ttab_ext. intros idx Hi. f_equal. f_equal.
  apply map_ext_in. intros d Hd. apply in_seq in Hd.
  assert (H : in_shape (sh ++ [c]) (idx ++ [d])) by (apply Forall2_app; [exact Hi|repeat constructor; lia]).
  now rewrite !tget_ttab.
Qed.

Lemma tgather_ttab n sh f ids : Forall (fun i => i < n) ids ->
  tgather (ttab (n :: sh) f) ids =
  Ok (ttab (length ids :: sh) (fun idx => match idx with k :: r => f (nth k ids 0 :: r) | [] => 0%R end)).
Proof.
  intros H. unfold tgather. rewrite ttab_shape.
  assert (E : forallb (fun i => i <? n) ids = true).
  { apply forallb_forall. intros i Hi. apply Nat.ltb_lt. rewrite Forall_forall in H. auto. }
  rewrite E. f_equal. apply ttab_ext. intros idx Hi. apply in_shape_cons_inv in Hi. destruct Hi as (k & r & -> & Hk & Hr).
  apply tget_ttab. apply in_shape_cons. split; auto. rewrite Forall_forall in H. apply H. now apply nth_In.
Qed.

Lemma tsegment_ttab dev red m sh f ids n : length ids = m -> Forall (fun i => i < n) ids ->
  tsegment dev red (ttab (m :: sh) f) ids n =
  Ok (ttab (n :: sh) (fun idx => match idx with
        | s :: r => red (map (fun k => f (k :: r)) (filter (fun k => nth k ids 0 =? s) (seq 0 m)))
        | [] => 0%R end)).
Proof.
  intros Hl H. unfold tsegment. rewrite ttab_shape, Hl, Nat.eqb_refl. cbn [negb].
  assert (E : forallb (fun i => i <? n) ids = true).
  { apply forallb_forall. intros i Hi. apply Nat.ltb_lt. rewrite Forall_forall in H. auto. }
  rewrite E. cbn [negb]. rewrite andb_false_r. f_equal. apply ttab_ext. intros idx Hi.
  apply in_shape_cons_inv in Hi. destruct Hi as (s & r & -> & Hs & Hr). f_equal. apply map_ext_in. intros k Hk.
  apply filter_In in Hk. destruct Hk as [Hk _]. apply in_seq in Hk. apply tget_ttab. apply in_shape_cons. split; auto. lia.
Qed.

Lemma ttranspose_102 a b c f : ttranspose (ttab [a; b; c] f) [1; 0; 2] =
  Ok (ttab [b; a; c] (fun idx => match idx with [j; i; k] => f [i; j; k] | _ => 0%R end)).
Proof.
  unfold ttranspose. cbn [length tshape ttab Nat.eqb]. f_equal. cbn [map nth seq find_index Nat.eqb].
  apply ttab_ext. intros idx Hi. idx_inv. cbn [nth]. apply (tget_ttab [a; b; c]). in_sh.
Qed.
Lemma ttranspose_2013 a b c d f : ttranspose (ttab [a; b; c; d] f) [2; 0; 1; 3] =
  Ok (ttab [c; a; b; d] (fun idx => match idx with [k; i; j; l] => f [i; j; k; l] | _ => 0%R end)).
Proof.
  unfold ttranspose. cbn [length tshape ttab Nat.eqb]. f_equal. cbn [map nth seq find_index Nat.eqb].
  apply ttab_ext. intros idx Hi. idx_inv. cbn [nth]. apply (tget_ttab [a; b; c; d]). in_sh.
Qed.

Lemma of_rows_shape c rows : tshape (of_rows c rows) = [length rows; c].
Proof. reflexivity. Qed.
Lemma to_rows_ttab n c f : to_rows (ttab [n; c] f) = map (fun i => map (fun j => f [i; j]) (seq 0 c)) (seq 0 n).
Proof.
  unfold to_rows. rewrite ttab_shape. apply map_ext_in. intros i Hi. apply map_ext_in. intros j Hj.
  apply in_seq in Hi, Hj. rewrite tget_ttab; [reflexivity|in_sh].
Qed.

Lemma texpand3_1 m k c f : texpand (ttab [m; k; c] f) 1 =
  ttab [m; 1; k; c] (fun idx => match idx with [i; _; a; j] => f [i; a; j] | _ => 0%R end).
Proof.
  unfold texpand, ttab at 1. cbn [tshape tdata firstn skipn app]. unfold ttab. f_equal.
  etransitivity.
  - apply (redata [m; k; c] [m; 1; k; c] f (fun idx => match idx with [i; _; a; j] => [i; a; j] | _ => [] end)).
    + rewrite !nprod_cons, nprod_nil. lia.
    + intros idx H. idx_inv. split; [in_sh|]. cbn [offset]. rewrite !nprod_cons, nprod_nil. replace i0 with 0 by lia. lia.
  - apply map_ext_in. intros idx H. apply all_indices_In in H. idx_inv. reflexivity.
Qed.
Lemma texpand3_2 m k c f : texpand (ttab [m; k; c] f) 2 =
  ttab [m; k; 1; c] (fun idx => match idx with [i; a; _; j] => f [i; a; j] | _ => 0%R end).
Proof.
  unfold texpand, ttab at 1. cbn [tshape tdata firstn skipn app]. unfold ttab. f_equal.
  etransitivity.
  - apply (redata [m; k; c] [m; k; 1; c] f (fun idx => match idx with [i; a; _; j] => [i; a; j] | _ => [] end)).
    + rewrite !nprod_cons, nprod_nil. lia.
    + intros idx H. idx_inv. split; [in_sh|]. cbn [offset]. rewrite !nprod_cons, nprod_nil. replace i1 with 0 by lia. lia.
  - apply map_ext_in. intros idx H. apply all_indices_In in H. idx_inv. reflexivity.
Qed.
