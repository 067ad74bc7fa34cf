(** Kernels that allot slots by atomic additions: the order of the rows
    depends on the schedule, the set of rows does not. *)
From Coq Require Import List Arith ZArith Lia Bool Permutation.
From Verif Require Import Cuda CudaFacts MemFacts AddFacts GpuNeighbors.
Import ListNotations.

(** ** Kernels without barriers, given by descriptions of the actions *)
Section Desc.
  Context {M A : Type} (act : A -> action M).
  Definition desc_kernel (pss : list (list (list A))) : list (block M) := map (map (fun p => [map act p])) pss.

  Lemma upd_concat {B} (pss : list (list B)) b t ps x r : nth_error pss b = Some ps -> nth_error ps t = Some x ->
    exists g, nth_error (concat pss) g = Some x /\ concat (upd b (upd t r ps) pss) = upd g r (concat pss).
  Proof.
    intros Hb Ht. apply nth_error_split in Hb. destruct Hb as (p1 & p2 & -> & L). apply nth_error_split in Ht. destruct Ht as (q1 & q2 & -> & L').
    exists (length (concat p1) + length q1). rewrite !concat_app. cbn [concat]. split.
    - rewrite nth_error_app2 by lia. rewrite <- app_assoc. rewrite nth_error_app2 by lia.
      replace (length (concat p1) + length q1 - length (concat p1) - length q1) with 0 by lia. reflexivity.
    - rewrite (upd_split b (upd t r (q1 ++ x :: q2)) p1) by auto. rewrite (upd_split t r q1) by auto. rewrite concat_app. cbn [concat].
      rewrite <- !app_assoc. cbn [app]. rewrite app_assoc. rewrite (app_assoc (concat p1) q1 (x :: _)). rewrite upd_split by (now rewrite app_length). reflexivity.
  Qed.

  Lemma desc_size pss : length (concat (concat (concat (desc_kernel pss)))) = length (concat (concat pss)).
  Proof.
    unfold desc_kernel. induction pss as [|ps pss IH]; auto. cbn [map concat]. rewrite !concat_app, !app_length, IH. f_equal.
    clear. induction ps as [|p ps IH]; auto. cbn [map concat app]. rewrite !app_length, map_length, IH. reflexivity.
  Qed.

  Theorem desc_kernel_runs (I : M -> list (list A) -> Prop) (P : M -> Prop) m pss :
    (forall m ps g a r, I m ps -> nth_error ps g = Some (a :: r) -> exists m', act a m = Some m' /\ I m' (upd g r ps)) ->
    (forall m ps, I m ps -> Forall (fun p => p = []) ps -> P m) ->
    I m (concat pss) -> every_run P (m, desc_kernel pss).
  Proof.
    intros Hstep Hend H0.
    apply (every_run_invariant (fun m bs => exists pss, bs = desc_kernel pss /\ I m (concat pss))
             (fun _ bs => length (concat (concat (concat bs))))).
    - intros m1 bs (qss & -> & Hi) (blk & a & ph & rest & Hb & Ht & Ea). cbn [fst snd] in *.
      unfold desc_kernel in Hb. apply in_map_iff in Hb. destruct Hb as (ps & <- & Hps). apply in_map_iff in Ht. destruct Ht as (p & E & Hp).
      destruct p as [|x r]; cbn in E; inversion E; subst.
      assert (Hin : In (x :: r) (concat qss)) by (apply in_concat; eauto). apply In_nth_error in Hin. destruct Hin as (g & Hg).
      destruct (Hstep _ _ _ _ _ Hi Hg) as (m' & E' & _). congruence.
    - intros m1 bs (qss & -> & Hi) F. apply (Hend m1 (concat qss)); auto. unfold finished, desc_kernel in F. cbn [snd] in F.
      rewrite Forall_forall in *. intros p Hp. apply in_concat in Hp. destruct Hp as (ps & Hps & Hp).
      specialize (F _ (in_map _ _ _ Hps)). rewrite Forall_forall in F. specialize (F _ (in_map _ _ _ Hp)). destruct p; auto. discriminate.
    - intros m1 bs m2 bs' (qss & -> & Hi) St. inversion St as [m0 bs0 b blk t a ph rest m3 Eb Et Ea|m0 bs0 b blk Eb F X]; subst.
      + unfold desc_kernel in Eb. rewrite nth_error_map in Eb. destruct (nth_error qss b) as [ps|] eqn:Ebq; [|discriminate].
        cbn in Eb. injection Eb as <-. rewrite nth_error_map in Et. destruct (nth_error ps t) as [p|] eqn:Etq; [|discriminate].
        cbn in Et. destruct p as [|x r]; cbn in Et; inversion Et; subst.
        destruct (upd_concat qss b t ps (x :: r) r Ebq Etq) as (g & Hg & Ec).
        destruct (Hstep _ _ _ _ _ Hi Hg) as (m' & E' & Hi'). assert (m' = m2) by congruence. subst m'.
        assert (Um : forall C D (f : C -> D) i v l, map f (upd i v l) = upd i (f v) (map f l)).
        { intros C D f i v l. revert i. unfold upd. induction l as [|y l IH]; intros [|i]; cbn; auto.
          specialize (IH i). destruct (wr i v l), (wr i (f v) (map f l)); cbn in *; congruence. }
        split.
        * exists (upd b (upd t r ps) qss). split; [|now rewrite Ec]. unfold desc_kernel. rewrite !Um. reflexivity.
        * assert (En : upd b (upd t (map act r :: []) (map (fun p => [map act p]) ps)) (desc_kernel qss) = desc_kernel (upd b (upd t r ps) qss)).
          { unfold desc_kernel. rewrite !Um. reflexivity. }
          rewrite En. rewrite !desc_size, Ec. apply nth_error_split in Hg. destruct Hg as (l1 & l2 & -> & L). rewrite upd_split by auto.
          rewrite !concat_app. cbn [concat]. rewrite !app_length. cbn [length]. lia.
      + exfalso. unfold desc_kernel in Eb. rewrite nth_error_map in Eb. destruct (nth_error qss b) as [ps|]; [|discriminate]. cbn in Eb. injection Eb as <-.
        apply Exists_exists in X. destruct X as (t & Ht & W). apply in_map_iff in Ht. destruct Ht as (p & <- & _). destruct p; discriminate.
    - eauto.
  Qed.
End Desc.

Lemma upd_inv {A} i j (v w : A) l : nth_error (upd i v l) j = Some w -> (j = i /\ w = v) \/ (j <> i /\ nth_error l j = Some w).
Proof.
  intros H. destruct (Nat.eq_dec j i) as [->|N].
  - left. split; auto. assert (i < length l) by (rewrite <- (upd_length i v l); apply nth_error_Some; congruence).
    rewrite upd_eq in H by auto. congruence.
  - right. rewrite upd_neq in H by auto. auto.
Qed.
Lemma wr_upd {A} i (v : A) l : i < length l -> wr i v l = Some (upd i v l).
Proof. intros H. unfold upd. destruct (wr_some i v l H) as [l' E]. now rewrite E. Qed.

(** The rows of sample [s]. *)
Definition rows_for (s : nat) (l : list (nat * nat)) : list nat := map fst (filter (fun r => snd r =? s) l).
Lemma rows_for_app s l l' : rows_for s (l ++ l') = rows_for s l ++ rows_for s l'.
Proof. unfold rows_for. now rewrite filter_app, map_app. Qed.
Lemma rows_for_perm s l l' : Permutation l l' -> Permutation (rows_for s l) (rows_for s l').
Proof.
  intros H. unfold rows_for. apply Permutation_map. induction H; cbn.
  - constructor.
  - destruct (snd x =? s); auto.
  - destruct (snd x =? s), (snd y =? s); auto. constructor.
  - eapply perm_trans; eauto.
Qed.

Inductive sdesc := SAlloc (g s : nat) | SStore (g j s : nat).
Definition sact (d : sdesc) : action smem := match d with SAlloc g s => st_alloc g s | SStore g j s => st_store g j s end.
(** A thread: the row it has a slot for and the rows still to come. *)
Notation sthread := (option (nat * nat) * list (nat * nat))%type.
Definition sprog (g : nat) (th : sthread) : list sdesc :=
  (match fst th with Some r => [SStore g (fst r) (snd r)] | None => [] end) ++
  flat_map (fun r => [SAlloc g (snd r); SStore g (fst r) (snd r)]) (snd th).

Definition progs (sts : list sthread) : list (list sdesc) := map (fun gt => sprog (fst gt) (snd gt)) (combine (seq 0 (length sts)) sts).

Lemma progs_nth sts g : nth_error (progs sts) g = option_map (sprog g) (nth_error sts g).
Proof.
  unfold progs. rewrite nth_error_map. destruct (Nat.lt_ge_cases g (length sts)) as [H|H].
  - destruct (nth_error sts g) as [th|] eqn:E; [|apply nth_error_None in E; lia].
    assert (Q : nth_error (combine (seq 0 (length sts)) sts) g = Some (g, th)).
    { assert (X : forall (l : list sthread) a g, nth_error l g = Some th -> nth_error (combine (seq a (length l)) l) g = Some (a + g, th)).
      { induction l as [|x l IH]; intros a [|q] Hq; cbn in *; try discriminate.
        - injection Hq as ->. f_equal. f_equal. lia.
        - rewrite (IH (S a) q Hq). f_equal. f_equal. lia. }
      apply (X sts 0 g E). }
    now rewrite Q.
  - replace (nth_error sts g) with (@None sthread) by (symmetry; apply nth_error_None; auto).
    replace (nth_error (combine (seq 0 (length sts)) sts) g) with (@None (nat * sthread)); auto.
    symmetry. apply nth_error_None. rewrite combine_length, seq_length. lia.
Qed.
Lemma progs_upd sts g th : g < length sts -> upd g (sprog g th) (progs sts) = progs (upd g th sts).
Proof.
  intros Hg. assert (L : forall l : list sthread, length (progs l) = length l) by (intros l; unfold progs; rewrite map_length, combine_length, seq_length; lia).
  apply list_eq_nth; [rewrite upd_length, !L, upd_length; auto|]. intros i d Hi. rewrite upd_length, L in Hi.
  destruct (nth_error (upd g (sprog g th) (progs sts)) i) as [p|] eqn:E; [|apply nth_error_None in E; rewrite upd_length, L in E; lia].
  rewrite (nth_error_nth _ _ d E). symmetry. apply nth_error_nth. rewrite progs_nth.
  apply upd_inv in E. destruct E as [(-> & ->)|(Ne & E)]; [now rewrite upd_eq by auto|]. rewrite upd_neq by auto. now rewrite <- progs_nth.
Qed.
Lemma todo_split (sts : list sthread) g p todo : nth_error sts g = Some (p, todo) -> forall p' todo',
  exists l1 l2, flat_map snd sts = l1 ++ todo ++ l2 /\ flat_map snd (upd g (p', todo') sts) = l1 ++ todo' ++ l2.
Proof.
  intros H p' todo'. apply nth_error_split in H. destruct H as (a & b & -> & L). rewrite upd_split by auto.
  exists (flat_map snd a), (flat_map snd b). rewrite !flat_map_app. auto.
Qed.


Section Slots.
  Variables (N G total : nat) (lo : nat -> nat) (rows : list (nat * nat)) (out0 : list (nat * nat)).
  Hypothesis Hrows : forall r, In r rows -> snd r < N.
  Hypothesis Hlen : length out0 = total.
  Hypothesis Hfit : forall s, s < N -> lo s + length (rows_for s rows) <= total.
  Hypothesis Hdis : forall s s' k k', s < N -> s' < N -> k < length (rows_for s rows) -> k' < length (rows_for s' rows) ->
    lo s + k = lo s' + k' -> s = s' /\ k = k'.

  (** The result: the rows of each sample in some order from its start on. *)
  Definition placed (A : nat -> list nat) (out : list (nat * nat)) : Prop :=
    length out = total /\
    (forall s k, s < N -> k < length (A s) -> nth_error out (lo s + k) = Some (nth k (A s) 0, s)) /\
    (forall i, (forall s, s < N -> ~ (lo s <= i < lo s + length (A s))) -> nth_error out i = nth_error out0 i).

  Record sinv (A : nat -> list nat) (sts : list sthread) (m : smem) : Prop := {
    sv_cl : length (sm_cnt m) = N;
    sv_rl : length (sm_reg m) = length sts;
    sv_ol : length (sm_out m) = total;
    sv_cnt : forall s, s < N -> nth_error (sm_cnt m) s = Some (Z.of_nat (lo s + length (A s)));
    sv_perm : forall s, s < N -> Permutation (A s ++ rows_for s (flat_map snd sts)) (rows_for s rows);
    sv_todo : forall r, In r (flat_map snd sts) -> snd r < N;
    sv_filled : forall s k, s < N -> k < length (A s) ->
      nth_error (sm_out m) (lo s + k) = Some (nth k (A s) 0, s) \/
      exists g todo, nth_error sts g = Some (Some (nth k (A s) 0, s), todo) /\ nth_error (sm_reg m) g = Some (Z.of_nat (lo s + k));
    sv_pend : forall g j s todo, nth_error sts g = Some (Some (j, s), todo) ->
      s < N /\ exists k, k < length (A s) /\ nth k (A s) 0 = j /\ nth_error (sm_reg m) g = Some (Z.of_nat (lo s + k));
    sv_rest : forall i, (forall s, s < N -> ~ (lo s <= i < lo s + length (A s))) -> nth_error (sm_out m) i = nth_error out0 i
  }.

  Lemma A_le A sts m s : sinv A sts m -> s < N -> length (A s) <= length (rows_for s rows).
  Proof. intros H Hs. pose proof (Permutation_length (sv_perm _ _ _ H s Hs)) as L. rewrite app_length in L. lia. Qed.

  Lemma store_step A sts m g j s todo : sinv A sts m -> nth_error sts g = Some (Some (j, s), todo) ->
    exists m', st_store g j s m = Some m' /\ sinv A (upd g (None, todo) sts) m'.
  Proof.
    intros H Hg. destruct (sv_pend _ _ _ H g j s todo Hg) as (Hs & k & Hk & Ej & Er).
    pose proof (A_le A sts m s H Hs) as La. pose proof (Hfit s Hs) as Lf.
    unfold st_store, rd. rewrite Er. cbn [obind]. unfold wrz. destruct (Z.ltb_spec (Z.of_nat (lo s + k)) 0); [lia|].
    rewrite Nat2Z.id. rewrite wr_upd by (rewrite (sv_ol _ _ _ H); lia). cbn [obind]. eexists. split; [reflexivity|].
    assert (Eo : nth_error (upd (lo s + k) (j, s) (sm_out m)) (lo s + k) = Some (j, s)) by (apply upd_eq; rewrite (sv_ol _ _ _ H); lia).
    destruct (todo_split sts g _ _ Hg None todo) as (l1 & l2 & T1 & T2).
    constructor; cbn [sm_cnt sm_reg sm_out]; rewrite ?T2; try rewrite <- T1; try apply H.
    - rewrite upd_length. apply H.
    - rewrite upd_length. apply H.
    - intros s' k' Hs' Hk'. destruct (Nat.eq_dec (lo s' + k') (lo s + k)) as [E|E].
      + pose proof (A_le A sts m s' H Hs'). destruct (Hdis s' s k' k) as [-> ->]; auto; try lia. left. rewrite Eo. congruence.
      + rewrite (upd_neq (lo s + k)) by auto. destruct (sv_filled _ _ _ H s' k' Hs' Hk') as [F|(g' & td & F & R)]; [left; auto|]. right.
        exists g', td. split; auto. rewrite upd_neq; auto. intros ->. rewrite Er in R. injection R as R. apply E. lia.
    - intros g' j' s' td F. apply upd_inv in F. destruct F as [(_ & F)|(Ne & F)]; [discriminate|]. exact (sv_pend _ _ _ H g' j' s' td F).
    - intros i Hi. rewrite upd_neq; [apply H; auto|]. intros ->. apply (Hi s Hs). lia.
  Qed.

  Lemma alloc_step A sts m g j s todo : sinv A sts m -> nth_error sts g = Some (None, (j, s) :: todo) ->
    exists m', st_alloc g s m = Some m' /\ exists A', sinv A' (upd g (Some (j, s), todo) sts) m'.
  Proof.
    intros H Hg. assert (Gl : g < length sts) by (apply nth_error_Some; congruence).
    assert (Hs : s < N).
    { apply (sv_todo _ _ _ H (j, s)). apply in_flat_map. exists (None, (j, s) :: todo). split; [eapply nth_error_In; eauto|left; auto]. }
    destruct (todo_split sts g _ _ Hg (Some (j, s)) todo) as (l1 & l2 & T1 & T2).
    set (A' := fun s' => if s' =? s then A s' ++ [j] else A s').
    assert (As : A' s = A s ++ [j]) by (unfold A'; now rewrite Nat.eqb_refl).
    assert (Ao : forall s', s' <> s -> A' s' = A s') by (intros s' Hs'; unfold A'; destruct (Nat.eqb_spec s' s); congruence).
    assert (Al : forall s', length (A s') <= length (A' s')).
    { intros s'. destruct (Nat.eq_dec s' s) as [->|Q]; [rewrite As, app_length; lia|rewrite Ao by auto; lia]. }
    assert (An : forall s' k, k < length (A s') -> nth k (A' s') 0 = nth k (A s') 0).
    { intros s' k Hk. destruct (Nat.eq_dec s' s) as [->|Q]; [rewrite As, app_nth1 by auto; auto|now rewrite Ao]. }
    assert (Perm : forall s', s' < N -> Permutation (A' s' ++ rows_for s' (flat_map snd (upd g (Some (j, s), todo) sts))) (rows_for s' rows)).
    { intros s' Hs'. rewrite T2. pose proof (sv_perm _ _ _ H s' Hs') as P. rewrite T1 in P. rewrite <- P. rewrite !rows_for_app.
      change (((j, s) :: todo)) with ([(j, s)] ++ todo). rewrite rows_for_app. unfold rows_for at 5. cbn [filter snd map fst].
      destruct (Nat.eqb_spec s s') as [<-|Q].
      - rewrite As. cbn [map fst]. rewrite <- app_assoc. apply Permutation_app_head. cbn [app].
        apply Permutation_middle.
      - rewrite Ao by auto. reflexivity. }
    assert (A'le : forall s', s' < N -> length (A' s') <= length (rows_for s' rows)).
    { intros s' Hs'. pose proof (Permutation_length (Perm s' Hs')) as L. rewrite app_length in L. lia. }
    unfold st_alloc, rd. rewrite (sv_cnt _ _ _ H s Hs). cbn [obind]. rewrite wr_upd by (rewrite (sv_cl _ _ _ H); auto). cbn [obind].
    rewrite wr_upd by (rewrite (sv_rl _ _ _ H); auto). cbn [obind]. eexists. split; [reflexivity|]. exists A'.
    assert (Er : nth_error (upd g (Z.of_nat (lo s + length (A s))) (sm_reg m)) g = Some (Z.of_nat (lo s + length (A s)))).
    { apply upd_eq. rewrite (sv_rl _ _ _ H). auto. }
    constructor; cbn [sm_cnt sm_reg sm_out].
    - rewrite upd_length. apply H.
    - rewrite !upd_length. apply H.
    - apply H.
    - intros s' Hs'. destruct (Nat.eq_dec s' s) as [->|Q].
      + rewrite upd_eq by (rewrite (sv_cl _ _ _ H); auto). rewrite As, app_length. cbn [length]. f_equal. lia.
      + rewrite upd_neq by auto. rewrite Ao by auto. apply H; auto.
    - exact Perm.
    - intros r Hr. rewrite T2 in Hr. apply (sv_todo _ _ _ H). rewrite T1. apply in_app_or in Hr. apply in_or_app.
      destruct Hr as [Hr|Hr]; [auto|]. right. right. auto.
    - intros s' k Hs' Hk.
      assert (C : k < length (A s') \/ (s' = s /\ k = length (A s))).
      { destruct (Nat.eq_dec s' s) as [->|Q]; [|rewrite Ao in Hk by auto; auto]. rewrite As, app_length in Hk. cbn in Hk. lia. }
      destruct C as [C|(-> & ->)].
      + rewrite An by auto. destruct (sv_filled _ _ _ H s' k Hs' C) as [F|(g' & td & F & R)]; [left; auto|]. right. exists g', td.
        assert (g' <> g) by congruence. rewrite !upd_neq by auto. auto.
      + right. exists g, todo. rewrite upd_eq by auto. split; auto. rewrite As, app_nth2, Nat.sub_diag by lia. reflexivity.
    - intros g' j' s' td F. apply upd_inv in F. destruct F as [(-> & F)|(Ne & F)].
      + inversion F; subst. split; auto. exists (length (A s)). rewrite As, app_length. cbn [length]. split; [lia|]. split; [|auto].
        rewrite app_nth2, Nat.sub_diag by lia. reflexivity.
      + destruct (sv_pend _ _ _ H g' j' s' td F) as (Hs' & k & Hk & Ej & Er'). split; auto. exists k.
        split; [pose proof (Al s'); lia|]. split; [now rewrite An|]. rewrite upd_neq; auto.
    - intros i Hi. apply H. intros s' Hs' C. apply (Hi s' Hs'). pose proof (Al s'). lia.
  Qed.

  (** Every schedule of threads that allot and store the rows. *)
  Theorem slots_run (P : smem -> Prop) cnt regs (pss : list (list (list sdesc))) (todo : list (list (nat * nat))) :
    concat pss = progs (map (fun l => (None, l)) todo) -> Permutation (concat todo) rows ->
    length regs = length todo -> length cnt = N -> (forall s, s < N -> nth_error cnt s = Some (Z.of_nat (lo s))) ->
    (forall m A, (forall s, s < N -> Permutation (A s) (rows_for s rows)) -> length (sm_cnt m) = N ->
       (forall s, s < N -> nth_error (sm_cnt m) s = Some (Z.of_nat (lo s + length (rows_for s rows)))) ->
       placed A (sm_out m) -> P m) ->
    every_run P (SMem cnt regs out0, desc_kernel sact pss).
  Proof.
    intros Ep Hp Lr Lc Hc HP.
    assert (Et : flat_map snd (map (fun l => (@None (nat * nat), l)) todo) = concat todo).
    { clear. induction todo as [|l todo IH]; cbn; auto. now rewrite IH. }
    apply (desc_kernel_runs sact (fun m ps => exists A sts, ps = progs sts /\ sinv A sts m)).
    - intros m ps g a r (A & sts & -> & H) Hg. rewrite progs_nth in Hg. destruct (nth_error sts g) as [[[[j s]|] td]|] eqn:E; [..|discriminate].
      + cbn in Hg. injection Hg as <- <-. destruct (store_step A sts m g j s td H E) as (m' & Em & H'). exists m'. split; auto.
        exists A, (upd g (None, td) sts). split; auto. rewrite <- progs_upd by (apply nth_error_Some; congruence). reflexivity.
      + destruct td as [|[j s] td]; [discriminate|]. cbn in Hg. injection Hg as <- <-.
        destruct (alloc_step A sts m g j s td H E) as (m' & Em & A' & H'). exists m'. split; auto.
        exists A', (upd g (Some (j, s), td) sts). split; auto. rewrite <- progs_upd by (apply nth_error_Some; congruence). reflexivity.
    - intros m ps (A & sts & -> & H) F. rewrite Forall_forall in F.
      assert (Z : forall g th, nth_error sts g = Some th -> th = (None, [])).
      { intros g [p td] Hg. assert (Q : nth_error (progs sts) g = Some (sprog g (p, td))) by (now rewrite progs_nth, Hg).
        apply nth_error_In in Q. apply F in Q. destruct p, td; cbn in Q; auto; discriminate. }
      assert (T0 : flat_map snd sts = []).
      { apply flat_map_nil. intros th Hth. apply In_nth_error in Hth. destruct Hth as (g & Hg). rewrite (Z g th Hg). auto. }
      assert (PA : forall s, s < N -> Permutation (A s) (rows_for s rows)).
      { intros s Hs. pose proof (sv_perm _ _ _ H s Hs) as Q. rewrite T0 in Q. cbn in Q. now rewrite app_nil_r in Q. }
      apply (HP m A); auto.
      + apply H.
      + intros s Hs. rewrite (sv_cnt _ _ _ H s Hs). now rewrite (Permutation_length (PA s Hs)).
      + split; [apply H|]. split; [|apply H]. intros s k Hs Hk. destruct (sv_filled _ _ _ H s k Hs Hk) as [?|(g & td & Q & _)]; auto.
        apply Z in Q. discriminate.
    - exists (fun _ => []), (map (fun l => (None, l)) todo). split; auto. constructor; cbn [sm_cnt sm_reg sm_out]; auto.
      + now rewrite map_length.
      + intros s Hs. rewrite Hc by auto. cbn [length]. f_equal. lia.
      + intros s Hs. cbn [app]. rewrite Et. now apply rows_for_perm.
      + intros r Hr. rewrite Et in Hr. apply Hrows. eapply Permutation_in; eauto.
      + intros s k _ Hk. cbn in Hk. lia.
      + intros g j s td Hg. rewrite nth_error_map in Hg. destruct (nth_error todo g); discriminate.
  Qed.
End Slots.
