(** The kernel that stores at most [k] rows per sample, when no sample has
    more than [k] rows: it does what the kernel without limit does. *)
From Coq Require Import List Arith ZArith NArith Lia Bool Permutation.
From Verif Require Import Tensor TensorFacts PointCloud Cuda CudaFacts MemFacts AddFacts GpuGrid GpuGridFacts GpuNeighbors GpuCountFacts SlotFacts GpuStoreFacts.
Import ListNotations.

(** ** Programs of numbered threads *)
Section Numbered.
  Context {T A : Type} (prog : nat -> T -> list A).
  Definition nprogs (sts : list T) : list (list A) := map (fun gt => prog (fst gt) (snd gt)) (combine (seq 0 (length sts)) sts).
  Lemma combine_seq_nth (l : list T) a g : nth_error (combine (seq a (length l)) l) g = option_map (fun x => (a + g, x)) (nth_error l g).
  Proof.
    revert a g. induction l as [|x l IH]; intros a [|g]; cbn; auto; [now rewrite Nat.add_0_r|]. rewrite IH. destruct (nth_error l g); cbn; auto. do 2 f_equal. lia.
  Qed.
  Lemma nprogs_nth sts g : nth_error (nprogs sts) g = option_map (prog g) (nth_error sts g).
  Proof. unfold nprogs. rewrite nth_error_map, combine_seq_nth. destruct (nth_error sts g); auto. Qed.
  Lemma nprogs_upd sts g th : g < length sts -> upd g (prog g th) (nprogs sts) = nprogs (upd g th sts).
  Proof.
    intros Hg. apply nth_error_ext. intros i. rewrite nprogs_nth. destruct (Nat.eq_dec i g) as [->|Ne].
    - rewrite !upd_eq; auto. unfold nprogs. rewrite map_length, combine_length, seq_length. lia.
    - rewrite !upd_neq by auto. apply nprogs_nth.
  Qed.
End Numbered.

Inductive ldesc := LTake (g s : nat) | LChoose (g s : nat) | LStore (g j s : nat).
Definition lact (k : Z) (all : list Z) (d : ldesc) : action lmem :=
  match d with LTake g s => ls_take g s | LChoose g s => ls_choose k all g s | LStore g j s => ls_store g j s end.
(** A thread: the row it has taken an index for, the row it has a slot for and
    the rows still to come. *)
Notation lthread := (option (nat * nat) * (option (nat * nat) * list (nat * nat)))%type.
Definition ltriple (g : nat) (r : nat * nat) : list ldesc := [LTake g (snd r); LChoose g (snd r); LStore g (fst r) (snd r)].
Definition lprog (g : nat) (th : lthread) : list ldesc :=
  (match fst (snd th) with Some r => [LStore g (fst r) (snd r)] | None => [] end) ++
  (match fst th with Some r => [LChoose g (snd r); LStore g (fst r) (snd r)] | None => [] end) ++
  flat_map (ltriple g) (snd (snd th)).
(** The same thread without the counting of indices. *)
Definition view (th : lthread) : option (nat * nat) * list (nat * nat) :=
  (fst (snd th), (match fst th with Some r => [r] | None => [] end) ++ snd (snd th)).
Definition slotval (r : lregs) : Z := match lr_slot r with Some v => v | None => 0%Z end.
Definition proj (m : lmem) : smem := SMem (lm_cnt m) (map slotval (lm_reg m)) (lm_out m).

Lemma map_upd {C D} (f : C -> D) i v l : map f (upd i v l) = upd i (f v) (map f l).
Proof.
  revert i. unfold upd. induction l as [|y l IH]; intros [|i]; cbn; auto.
  specialize (IH i). destruct (wr i v l), (wr i (f v) (map f l)); cbn in *; congruence.
Qed.
Lemma upd_id {C} i (v : C) l : nth_error l i = Some v -> upd i v l = l.
Proof.
  intros H. apply nth_error_ext. intros j. destruct (Nat.eq_dec j i) as [->|Ne]; [|now rewrite upd_neq].
  rewrite upd_eq; auto. apply nth_error_Some. congruence.
Qed.
Lemma todo_split' {T B} (f : T -> list B) sts g th th' : nth_error sts g = Some th ->
  exists l1 l2, flat_map f sts = l1 ++ f th ++ l2 /\ flat_map f (upd g th' sts) = l1 ++ f th' ++ l2.
Proof.
  intros H. apply nth_error_split in H. destruct H as (a & b & -> & L). rewrite upd_split by auto.
  exists (flat_map f a), (flat_map f b). rewrite !flat_map_app. auto.
Qed.

Section Limited.
  Variables (k : nat) (all : list Z) (N total : nat) (lo : nat -> nat) (rows : list (nat * nat)) (out0 : list (nat * nat)).
  Hypothesis Hrows : forall r, In r rows -> snd r < N.
  Hypothesis Hlen : length out0 = total.
  Hypothesis Hfit : forall s, s < N -> lo s + length (rows_for s rows) <= total.
  Hypothesis Hdis : forall s s' k k', s < N -> s' < N -> k < length (rows_for s rows) -> k' < length (rows_for s' rows) ->
    lo s + k = lo s' + k' -> s = s' /\ k = k'.
  Hypothesis Hk : forall s, s < N -> length (rows_for s rows) <= k.

  Record linv (A : nat -> list nat) (lts : list lthread) (m : lmem) : Prop := {
    lv_s : sinv N total lo rows out0 A (map view lts) (proj m);
    lv_al : length (lm_aux m) = N;
    lv_aux : forall s, s < N -> exists v, nth_error (lm_aux m) s = Some v /\
      (v + Z.of_nat (length (rows_for s (flat_map (fun th => snd (snd th)) lts))) <= Z.of_nat k)%Z;
    lv_take : forall g r th, nth_error lts g = Some (Some r, th) -> fst th = None /\
      exists rg, nth_error (lm_reg m) g = Some rg /\ (lr_idx rg < Z.of_nat k)%Z;
    lv_slot : forall g r th, nth_error lts g = Some (None, (Some r, th)) ->
      exists rg v, nth_error (lm_reg m) g = Some rg /\ lr_slot rg = Some v }.

  Lemma linv_regs A lts m g th : linv A lts m -> nth_error lts g = Some th -> exists rg, nth_error (lm_reg m) g = Some rg.
  Proof.
    intros H Hg. pose proof (sv_rl _ _ _ _ _ _ _ _ (lv_s _ _ _ H)) as L. cbn in L. rewrite !map_length in L.
    destruct (nth_error (lm_reg m) g) eqn:E; eauto. apply nth_error_None in E. assert (g < length lts) by (apply nth_error_Some; congruence). lia.
  Qed.
  Lemma view_upd lts g th : map view (upd g th lts) = upd g (view th) (map view lts).
  Proof. apply map_upd. Qed.

  Lemma take_step A lts m g r td : linv A lts m -> nth_error lts g = Some (None, (None, r :: td)) ->
    exists m', ls_take g (snd r) m = Some m' /\ linv A (upd g (Some r, (None, td)) lts) m'.
  Proof.
    intros H Hg. destruct (linv_regs _ _ _ _ _ H Hg) as (rg & Er). assert (Gl : g < length lts) by (apply nth_error_Some; congruence).
    assert (Hs : snd r < N).
    { apply (sv_todo _ _ _ _ _ _ _ _ (lv_s _ _ _ H)). apply in_flat_map. exists (view (None, (None, r :: td))). split; [|left; auto].
      apply in_map. eapply nth_error_In; eauto. }
    assert (Gr : g < length (lm_reg m)) by (apply nth_error_Some; congruence).
    destruct (lv_aux _ _ _ H _ Hs) as (v & Ev & Lv). unfold ls_take, rd. rewrite Ev. cbn [obind].
    rewrite wr_upd by (rewrite (lv_al _ _ _ H); auto). cbn [obind]. rewrite Er. cbn [obind].
    rewrite wr_upd by auto. cbn [obind]. eexists. split; [reflexivity|].
    destruct (todo_split' (fun th : lthread => snd (snd th)) lts g _ (Some r, (None, td)) Hg) as (l1 & l2 & T1 & T2). cbn [snd] in T1, T2.
    assert (Rlen : forall s, length (rows_for s (flat_map (fun th : lthread => snd (snd th)) lts)) =
      length (rows_for s (flat_map (fun th : lthread => snd (snd th)) (upd g (Some r, (None, td)) lts))) + (if snd r =? s then 1 else 0)).
    { intros s. rewrite T1, T2. change (r :: td) with ([r] ++ td). rewrite !rows_for_app, !app_length. unfold rows_for at 2. cbn [filter].
      destruct (snd r =? s); cbn [map length]; lia. }
    constructor; cbn [lm_aux lm_cnt lm_reg lm_out].
    - rewrite view_upd. unfold proj. cbn [lm_cnt lm_reg lm_out]. rewrite map_upd.
      rewrite (upd_id g (slotval _)). 2:{ rewrite nth_error_map, Er. reflexivity. }
      rewrite (upd_id g (view _)). 2:{ rewrite nth_error_map, Hg. reflexivity. }
      apply H.
    - rewrite upd_length. apply H.
    - intros s Hs'. specialize (Rlen s). destruct (Nat.eqb_spec (snd r) s) as [Es|Ne].
      + rewrite <- Es in *. exists (v + 1)%Z. split; [apply upd_eq; rewrite (lv_al _ _ _ H); auto|]. lia.
      + destruct (lv_aux _ _ _ H _ Hs') as (v' & Ev' & Lv'). exists v'. rewrite upd_neq by auto. split; auto. lia.
    - intros g' r' th F. apply upd_inv in F. destruct F as [(-> & F)|(Ne & F)].
      + inversion F; subst. split; auto. eexists. split; [apply upd_eq; auto|]. cbn. specialize (Rlen (snd r)). rewrite Nat.eqb_refl in Rlen. lia.
      + destruct (lv_take _ _ _ H _ _ _ F) as (E1 & rg' & E2 & E3). split; auto. exists rg'. rewrite upd_neq by auto. auto.
    - intros g' r' th F. apply upd_inv in F. destruct F as [(-> & F)|(Ne & F)]; [discriminate|]. rewrite upd_neq by auto. exact (lv_slot _ _ _ H _ _ _ F).
  Qed.

  Lemma choose_step A lts m g r td : linv A lts m -> nth_error lts g = Some (Some r, (None, td)) ->
    exists m', ls_choose (Z.of_nat k) all g (snd r) m = Some m' /\ exists A', linv A' (upd g (None, (Some r, td)) lts) m'.
  Proof.
    intros H Hg. destruct (lv_take _ _ _ H _ _ _ Hg) as (_ & rg & Er & Li).
    destruct r as [j s]. cbn [snd].
    assert (Hv : nth_error (map view lts) g = Some (None, (j, s) :: td)) by (rewrite nth_error_map, Hg; reflexivity).
    destruct (alloc_step N total lo rows out0 Hlen A (map view lts) (proj m) g j s td (lv_s _ _ _ H) Hv) as (m' & Em & A' & Hi).
    unfold st_alloc in Em. cbn [proj sm_cnt sm_reg sm_out] in Em. unfold ls_choose. unfold rd in *. rewrite Er. cbn [obind].
    destruct (nth_error (lm_cnt m) s) as [v|]; [|discriminate]. cbn [obind] in *. destruct (Z.ltb_spec (lr_idx rg) (Z.of_nat k)); [|lia].
    destruct (wr s (v + 1)%Z (lm_cnt m)) as [c|]; [|discriminate]. cbn [obind] in *.
    assert (Gr : g < length (lm_reg m)) by (apply nth_error_Some; congruence).
    rewrite wr_upd in Em by (rewrite map_length; auto). cbn [obind] in Em. injection Em as <-.
    rewrite wr_upd by auto. cbn [obind]. eexists. split; [reflexivity|]. exists A'.
    destruct (todo_split' (fun th : lthread => snd (snd th)) lts g _ (None, (Some (j, s), td)) Hg) as (l1 & l2 & T1 & T2). cbn [snd] in T1, T2.
    constructor; cbn [lm_aux lm_cnt lm_reg lm_out].
    - rewrite view_upd. unfold proj. cbn [lm_cnt lm_reg lm_out]. rewrite map_upd. exact Hi.
    - apply H.
    - rewrite T2, <- T1. apply H.
    - intros g' r' th F. apply upd_inv in F. destruct F as [(-> & F)|(Ne & F)]; [discriminate|]. rewrite upd_neq by auto. exact (lv_take _ _ _ H _ _ _ F).
    - intros g' r' th F. apply upd_inv in F. destruct F as [(-> & F)|(Ne & F)].
      + rewrite upd_eq by auto. eexists _, v. split; reflexivity.
      + rewrite upd_neq by auto. exact (lv_slot _ _ _ H _ _ _ F).
  Qed.

  Lemma lstore_step A lts m g j s td : linv A lts m -> nth_error lts g = Some (None, (Some (j, s), td)) ->
    exists m', ls_store g j s m = Some m' /\ linv A (upd g (None, (None, td)) lts) m'.
  Proof.
    intros H Hg. destruct (lv_slot _ _ _ H _ _ _ Hg) as (rg & v & Er & Es).
    assert (Hv : nth_error (map view lts) g = Some (Some (j, s), td)) by (rewrite nth_error_map, Hg; reflexivity).
    destruct (store_step N total lo rows out0 Hlen Hfit Hdis A (map view lts) (proj m) g j s td (lv_s _ _ _ H) Hv) as (m' & Em & Hi).
    unfold st_store in Em. cbn [proj sm_cnt sm_reg sm_out] in Em. unfold ls_store. unfold rd in *. rewrite Er. cbn [obind].
    rewrite nth_error_map, Er in Em. cbn [option_map obind] in Em. unfold slotval in Em. rewrite Es in Em. rewrite Es.
    destruct (wrz v (j, s) (lm_out m)) as [o|]; [|discriminate]. cbn [obind] in *. injection Em as <-. eexists. split; [reflexivity|].
    destruct (todo_split' (fun th : lthread => snd (snd th)) lts g _ (None, (None, td)) Hg) as (l1 & l2 & T1 & T2). cbn [snd] in T1, T2.
    constructor; cbn [lm_aux lm_cnt lm_reg lm_out].
    - rewrite view_upd. exact Hi.
    - apply H.
    - rewrite T2, <- T1. apply H.
    - intros g' r' th F. apply upd_inv in F. destruct F as [(-> & F)|(Ne & F)]; [discriminate|]. exact (lv_take _ _ _ H _ _ _ F).
    - intros g' r' th F. apply upd_inv in F. destruct F as [(-> & F)|(Ne & F)]; [discriminate|]. exact (lv_slot _ _ _ H _ _ _ F).
  Qed.

  Theorem limited_run (P : lmem -> Prop) cnt regs (pss : list (list (list ldesc))) (todo : list (list (nat * nat))) :
    concat pss = nprogs lprog (map (fun l => (None, (None, l))) todo) -> Permutation (concat todo) rows ->
    length regs = length todo -> length cnt = N -> (forall s, s < N -> nth_error cnt s = Some (Z.of_nat (lo s))) ->
    (forall m A, (forall s, s < N -> Permutation (A s) (rows_for s rows)) -> length (lm_cnt m) = N ->
       (forall s, s < N -> nth_error (lm_cnt m) s = Some (Z.of_nat (lo s + length (rows_for s rows)))) ->
       placed N total lo out0 A (lm_out m) -> P m) ->
    every_run P (LMem (repeat 0%Z N) cnt regs out0, desc_kernel (lact (Z.of_nat k) all) pss).
  Proof.
    intros Ep Hp Lr Lc Hc HP.
    assert (Et : flat_map snd (map view (map (fun l => (None, (None, l))) todo)) = concat todo).
    { clear. induction todo as [|l todo IH]; cbn; auto. now rewrite IH. }
    assert (Et' : flat_map (fun th : lthread => snd (snd th)) (map (fun l => (None, (None, l))) todo) = concat todo).
    { clear. induction todo as [|l todo IH]; cbn; auto. now rewrite IH. }
    apply (desc_kernel_runs (lact (Z.of_nat k) all) (fun m ps => exists A lts, ps = nprogs lprog lts /\ linv A lts m)).
    - intros m ps g a r (A & lts & -> & H) Hg. rewrite nprogs_nth in Hg. destruct (nth_error lts g) as [[tk [p td]]|] eqn:E; [|discriminate].
      assert (Gl : g < length lts) by (apply nth_error_Some; congruence).
      destruct tk as [rt|].
      + destruct (lv_take _ _ _ H _ _ _ E) as (Ep' & _). cbn in Ep'. subst p. cbn in Hg. injection Hg as <- <-.
        destruct (choose_step A lts m g rt td H E) as (m' & Em & A' & H'). exists m'. split; auto. exists A', (upd g (None, (Some rt, td)) lts).
        split; auto. rewrite <- nprogs_upd by auto. reflexivity.
      + destruct p as [[j s]|].
        * cbn in Hg. injection Hg as <- <-. destruct (lstore_step A lts m g j s td H E) as (m' & Em & H'). exists m'. split; auto.
          exists A, (upd g (None, (None, td)) lts). split; auto. rewrite <- nprogs_upd by auto. reflexivity.
        * destruct td as [|rt td]; [discriminate|]. cbn in Hg. injection Hg as <- <-.
          destruct (take_step A lts m g rt td H E) as (m' & Em & H'). exists m'. split; auto.
          exists A, (upd g (Some rt, (None, td)) lts). split; auto. rewrite <- nprogs_upd by auto. reflexivity.
    - intros m ps (A & lts & -> & H) F. rewrite Forall_forall in F.
      assert (Z : forall g th, nth_error lts g = Some th -> th = (None, (None, []))).
      { intros g [tk [p td]] Hg. assert (Q : nth_error (nprogs lprog lts) g = Some (lprog g (tk, (p, td)))) by (now rewrite nprogs_nth, Hg).
        apply nth_error_In in Q. apply F in Q. destruct tk, p, td; cbn in Q; auto; discriminate. }
      assert (T0 : flat_map snd (map view lts) = []).
      { apply flat_map_nil. intros th Hth. apply in_map_iff in Hth. destruct Hth as (th' & <- & Hth). apply In_nth_error in Hth. destruct Hth as (g & Hg). rewrite (Z g th' Hg). auto. }
      pose proof (lv_s _ _ _ H) as Hs.
      assert (PA : forall s, s < N -> Permutation (A s) (rows_for s rows)).
      { intros s Hss. pose proof (sv_perm _ _ _ _ _ _ _ _ Hs s Hss) as Q. rewrite T0 in Q. cbn in Q. now rewrite app_nil_r in Q. }
      apply (HP m A); auto.
      + apply Hs.
      + intros s Hss. pose proof (sv_cnt _ _ _ _ _ _ _ _ Hs s Hss) as Q. cbn in Q. rewrite Q. now rewrite (Permutation_length (PA s Hss)).
      + split; [apply Hs|]. split; [|apply Hs]. intros s q Hss Hq. destruct (sv_filled _ _ _ _ _ _ _ _ Hs s q Hss Hq) as [?|(g & td & Q & _)]; auto.
        rewrite nth_error_map in Q. destruct (nth_error lts g) as [th|] eqn:E; [|discriminate]. apply Z in E. subst th. discriminate.
    - exists (fun _ => []), (map (fun l => (None, (None, l))) todo). split; auto.
      assert (Rl : forall s, length (rows_for s (concat todo)) = length (rows_for s rows)) by (intros s; apply Permutation_length, rows_for_perm; auto).
      constructor; cbn [lm_aux lm_cnt lm_reg lm_out].
      + constructor; cbn [proj sm_cnt sm_reg sm_out lm_cnt lm_reg lm_out]; auto.
        * now rewrite !map_length.
        * intros s Hs. rewrite Hc by auto. cbn [length]. f_equal. lia.
        * intros s Hs. cbn [app]. rewrite Et. now apply rows_for_perm.
        * intros r Hr. rewrite Et in Hr. apply Hrows. eapply Permutation_in; eauto.
        * intros s q _ Hq. cbn in Hq. lia.
        * intros g j s td Hg. rewrite !nth_error_map in Hg. destruct (nth_error todo g); discriminate.
      + apply repeat_length.
      + intros s Hs. exists 0%Z. split; [apply nth_error_repeat; auto|]. rewrite Et', Rl. specialize (Hk s Hs). lia.
      + intros g r th Hg. rewrite nth_error_map in Hg. destruct (nth_error todo g); discriminate.
      + intros g r th Hg. rewrite nth_error_map in Hg. destruct (nth_error todo g); discriminate.
  Qed.
End Limited.

Section LimitedStore.
  Variables (k : nat) (all : list Z) (bs per n blocks N : nat) (fnd : nat -> option (list nat)).
  Hypothesis Hbs : bs <> 0.
  Hypothesis Hblocks : blocks <> 0.
  Hypothesis Hper : per <> 0.
  Hypothesis Hn : n = N * per.
  Hypothesis Hf : forall i, i < n -> exists l, fnd i = Some l.
  Let h := hits fnd.
  Let item i := map (fun j => (j, i / per)) (h i).
  Let todo g := flat_map item (strided g (blocks * bs) n).

  Lemma limited_descs : thread_kernel blocks bs n (store_limited_body (Z.of_nat k) all per fnd) =
    desc_kernel (lact (Z.of_nat k) all) (map (fun b => map (fun t => lprog (t + bs * b) (None, (None, todo (t + bs * b)))) (seq 0 bs)) (seq 0 blocks)).
  Proof.
    unfold thread_kernel, desc_kernel. rewrite map_map. apply map_ext. intros b. rewrite map_map. apply map_ext. intros t.
    set (g := t + bs * b). unfold flat_thread. f_equal. unfold lprog, todo. cbn [fst snd app].
    assert (X : forall l, (forall i, In i l -> i < n) -> flat_map (store_limited_body (Z.of_nat k) all per fnd g) l =
       map (lact (Z.of_nat k) all) (flat_map (ltriple g) (flat_map item l))).
    { induction l as [|i l IH]; intros Hl; auto. cbn [flat_map]. rewrite flat_map_app, map_app, IH by (intros; apply Hl; right; auto). f_equal.
      unfold store_limited_body, item, h, hits. destruct (Hf i (Hl i (or_introl eq_refl))) as (js & ->). clear.
      induction js as [|j js IH]; auto. cbn [map flat_map app ltriple fst snd lact]. now rewrite IH. }
    apply X. intros i Hi. apply strided_in in Hi; [tauto|]. nia.
  Qed.

  Theorem limited_kernel_runs (lo S : nat -> nat) cnt regs out0 (P : lmem -> Prop) :
    length cnt = N -> length regs = blocks * bs -> length out0 = S N ->
    (forall s, s < N -> length (sample_rows per n h s) <= k) ->
    (forall s, s < N -> nth_error cnt s = Some (Z.of_nat (lo s))) ->
    (forall s, s < N -> S s <= lo s /\ lo s + length (sample_rows per n h s) <= S (s + 1)) ->
    (forall m A, (forall s, s < N -> Permutation (A s) (sample_rows per n h s)) -> length (lm_cnt m) = N ->
       (forall s, s < N -> nth_error (lm_cnt m) s = Some (Z.of_nat (lo s + length (sample_rows per n h s)))) ->
       placed N (S N) lo out0 A (lm_out m) -> P m) ->
    every_run P (LMem (repeat 0%Z N) cnt regs out0, thread_kernel blocks bs n (store_limited_body (Z.of_nat k) all per fnd)).
  Proof.
    intros Lc Lr Lo Hk Hc Hlo HP. rewrite limited_descs.
    assert (SR : forall s, rows_for s (flat_map item (seq 0 n)) = sample_rows per n h s) by (intros s; apply store_rows).
    assert (Sm : forall a b, a <= b -> b <= N -> S a <= S b).
    { intros a b Hab. induction Hab as [|b Hab IH]; intros Hb; auto. specialize (IH ltac:(lia)). specialize (Hlo b ltac:(lia)). rewrite Nat.add_1_r in Hlo. lia. }
    eapply (limited_run k all N (S N) lo (flat_map item (seq 0 n)) out0) with (todo := map todo (seq 0 (blocks * bs))).
    - intros r Hr. apply in_flat_map in Hr. destruct Hr as (i & Hi & Hr). apply in_seq in Hi. unfold item in Hr. apply in_map_iff in Hr.
      destruct Hr as (j & <- & _). cbn. apply Nat.div_lt_upper_bound; auto. lia.
    - auto.
    - intros s Hs. rewrite SR. destruct (Hlo s Hs). specialize (Sm (s + 1) N). lia.
    - intros s s' q q' Hs Hs' Hq Hq' E. rewrite SR in Hq, Hq'. destruct (Hlo s Hs), (Hlo s' Hs').
      destruct (lt_eq_lt_dec s s') as [[C|C]|C]; [|subst; lia|].
      + specialize (Sm (s + 1) s'). lia.
      + specialize (Sm (s' + 1) s). lia.
    - intros s Hs. rewrite SR. auto.
    - transitivity (map (fun g => lprog g (None, (None, todo g))) (seq 0 (blocks * bs))).
      + rewrite <- seq_blocks, flat_map_concat_map, concat_map, map_map. f_equal. apply map_ext. intros b. rewrite map_map. reflexivity.
      + apply nth_error_ext. intros g. rewrite nprogs_nth, !nth_error_map. destruct (Nat.lt_ge_cases g (blocks * bs)) as [Hg|Hg].
        * rewrite (nth_error_nth' (seq 0 (blocks * bs)) g 0) by (rewrite seq_length; auto). rewrite seq_nth by auto. reflexivity.
        * replace (nth_error (seq 0 (blocks * bs)) g) with (@None nat) by (symmetry; apply nth_error_None; rewrite seq_length; auto). reflexivity.
    - rewrite <- flat_map_concat_map. unfold todo. rewrite <- flat_map_flat_map. apply Permutation_flat_map. apply strided_all. nia.
    - now rewrite map_length, seq_length.
    - auto.
    - auto.
    - intros m A HA Lm Hm Hpl. apply (HP m A); auto.
      + intros s Hs. rewrite <- SR. auto.
      + intros s Hs. rewrite <- SR. auto.
  Qed.
End LimitedStore.

(** elem_wise_min. *)
Lemma elem_wise_min_ok active warp k vals (P : list Z -> Prop) : active <> 0 -> warp <> 0 -> vals <> [] ->
  P (map (fun v => Z.min v k) vals) -> elem_wise_min_gpu active warp k vals P.
Proof.
  intros Ha Hw Hv HP. unfold elem_wise_min_gpu. set (n := length vals). assert (Hn : n <> 0) by (unfold n; destruct vals; cbn; congruence).
  assert (Hb : num_blocks active (4 * warp) n <> 0) by (apply num_blocks_pos; auto; lia).
  split; auto. apply every_run_weaken with (P := fun m => m = map (fun v => Z.min v k) vals); [intros m ->; auto|].
  apply flat_kernel_runs; auto; try lia.
  - intros i j a a' Hi Hj Ne [<-|[]] [<-|[]]. apply atomic_comm. auto.
  - assert (X : forall q, q <= n -> run_all (flat_map (fun i => [atomic i (fun v => Z.min v k)]) (seq 0 q)) vals =
        Some (map (fun v => Z.min v k) (firstn q vals) ++ skipn q vals)).
    { induction q as [|q IH]; intros Hq; [reflexivity|]. rewrite seq_S, flat_map_app, run_all_app, IH by lia. cbn [obind flat_map app run_all Nat.add].
      destruct (skipn q vals) as [|x r] eqn:E.
      - exfalso. apply (f_equal (@length _)) in E. rewrite skipn_length in E. cbn in E. unfold n in Hq. lia.
      - assert (Lf : length (map (fun v => Z.min v k) (firstn q vals)) = q) by (rewrite map_length, firstn_length_le; unfold n in Hq; lia).
        assert (Ex : nth_error vals q = Some x).
        { rewrite <- (firstn_skipn q vals), E. rewrite nth_error_app2; rewrite firstn_length_le by (unfold n in Hq; lia); [|lia]. now rewrite Nat.sub_diag. }
        unfold atomic, rd. rewrite nth_error_app2 by lia. rewrite Lf, Nat.sub_diag. cbn [nth_error obind].
        pose proof (wr_app (map (fun v => Z.min v k) (firstn q vals)) x (Z.min x k) r) as W. rewrite Lf in W. rewrite W. cbn [obind]. f_equal.
        rewrite <- (skipn_S _ _ _ _ E). 
        assert (Ef : firstn (S q) vals = firstn q vals ++ [x]).
        { clear - Ex. revert vals Ex. induction q as [|q IH]; intros [|y l] Ex; cbn in *; try discriminate; [congruence|]. now rewrite (IH l Ex). }
        rewrite Ef, map_app, <- app_assoc. reflexivity. }
    rewrite X by auto. unfold n. rewrite firstn_all, skipn_all. now rewrite app_nil_r.
Qed.
