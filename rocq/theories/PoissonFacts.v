(** Every schedule of the Poisson kernel: one pass over cells of which no two
    contain neighbors, and the passes over all cells. *)
From Coq Require Import List Arith ZArith Lia Bool Permutation.
From Verif Require Import Tensor TensorFacts PointCloud Grid Cuda CudaFacts MemFacts AddFacts GpuGrid GpuGridFacts GpuScanRuns GpuNeighbors GpuCountFacts SlotFacts GpuStoreFacts LimitFacts GpuSampling UniqueFacts.
Import ListNotations.

Definition marked (used : list Z) (p : nat) : Prop := nth_error used p = Some 1%Z.
Definition ones (used : list Z) : nat := length (filter (Z.eqb 1) used).
Lemma ones_upd used p : nth_error used p = Some 0%Z -> ones (upd p 1%Z used) = S (ones used).
Proof.
  intros H. apply nth_error_split in H. destruct H as (a & b & -> & L). rewrite upd_split by auto. unfold ones. rewrite !filter_app, !app_length.
  cbn [filter Z.eqb Pos.eqb]. cbn. lia.
Qed.

Section Pass.
  (** The rows of a point, and the points it must not be selected with: the
      rows contain these, and can contain more. *)
  Variables (n : nat) (nb : nat -> list nat) (close : nat -> nat -> Prop).
  Hypothesis nb_lt : forall p j, In j (nb p) -> j < n.
  Hypothesis nb_close : forall p j, p < n -> close p j -> In j (nb p).
  Hypothesis close_sym : forall p j, p < n -> close p j -> close j p.
  Hypothesis close_self : forall p, p < n -> close p p.

  (** What holds between two launches: [done] lists the points treated. *)
  Record settled (cnt : Z) (used : list Z) (done : list nat) : Prop := {
    se_len : length used = n;
    se_01 : Forall (fun u => u = 0 \/ u = 1)%Z used;
    se_apart : forall p q, marked used p -> marked used q -> close p q -> q = p;
    se_cover : forall p, In p done -> exists q, In q (nb p) /\ marked used q;
    se_cnt : cnt = Z.of_nat (ones used) }.

  Inductive pdesc := DStart (g : nat) | DCheck (g j : nat) | DCount (g : nat) | DMark (g p : nat).
  Definition pact (d : pdesc) : action pmem :=
    match d with DStart g => pd_start g | DCheck g j => pd_check g j | DCount g => pd_count g | DMark g p => pd_mark g p end.
  Inductive phase := PIdle | PChecking (p : nat) (v : bool) (l : list nat) | PCounted (p : nat) (v : bool).
  Notation pthread := (phase * list nat)%type.
  Definition pfull (g p : nat) : list pdesc := DStart g :: map (DCheck g) (nb p) ++ [DCount g; DMark g p].
  Definition pprog (g : nat) (th : pthread) : list pdesc :=
    (match fst th with
     | PIdle => []
     | PChecking p v l => map (DCheck g) l ++ [DCount g; DMark g p]
     | PCounted p v => [DMark g p]
     end) ++ flat_map (pfull g) (snd th).
  Definition current (ph : phase) : list nat := match ph with PIdle => [] | PChecking p _ _ | PCounted p _ => [p] end.
  Definition pending (th : pthread) : list nat := current (fst th) ++ snd th.
  Definition counted (th : pthread) : list nat := match fst th with PCounted p true => [p] | _ => [] end.

  (** What the register of a thread in the middle of a point says. *)
  Definition checked (used : list Z) (p : nat) (v : bool) (l0 : list nat) : Prop :=
    if v then forall j, In j l0 -> close p j -> nth_error used j = Some 0%Z else exists j, In j (nb p) /\ marked used j.
  Definition phase_ok (used : list Z) (ph : phase) (r : option bool) : Prop :=
    match ph with
    | PIdle => True
    | PChecking p v l => r = Some v /\ exists l0, nb p = l0 ++ l /\ checked used p v l0
    | PCounted p v => r = Some v /\ checked used p v (nb p)
    end.

  Record pinv (all : list nat) (sts : list pthread) (m : pmem) : Prop := {
    pi_len : length (pm_used m) = n;
    pi_01 : Forall (fun u => u = 0 \/ u = 1)%Z (pm_used m);
    pi_apart : forall p q, marked (pm_used m) p -> marked (pm_used m) q -> close p q -> q = p;
    pi_cover : forall p, In p all -> (exists q, In q (nb p) /\ marked (pm_used m) q) \/ exists g th, nth_error sts g = Some th /\ In p (pending th);
    pi_cnt : pm_cnt m = Z.of_nat (ones (pm_used m) + length (flat_map counted sts));
    pi_rl : length (pm_reg m) = length sts;
    pi_sep : forall g g' th th' p q, g <> g' -> nth_error sts g = Some th -> nth_error sts g' = Some th' -> In p (pending th) -> In q (pending th') -> ~ close p q;
    pi_lt : forall g th p, nth_error sts g = Some th -> In p (pending th) -> p < n;
    pi_phase : forall g th, nth_error sts g = Some th -> phase_ok (pm_used m) (fst th) (nth_error (pm_reg m) g) }.

  Lemma marked_upd used p q : p < length used -> marked (upd p 1%Z used) q <-> q = p \/ marked used q.
  Proof.
    intros Hp. unfold marked. destruct (Nat.eq_dec q p) as [->|Ne]; [rewrite upd_eq by auto; tauto|]. rewrite upd_neq by auto. tauto.
  Qed.

  (** Moving a thread on without touching the marks. *)
  Lemma quiet_step all sts m g th th' m' :
    pinv all sts m -> nth_error sts g = Some th ->
    (forall p, In p (pending th) <-> In p (pending th')) ->
    pm_cnt m' = (pm_cnt m + Z.of_nat (length (counted th')) - Z.of_nat (length (counted th)))%Z -> pm_used m' = pm_used m ->
    length (pm_reg m') = length (pm_reg m) -> (forall h, h <> g -> nth_error (pm_reg m') h = nth_error (pm_reg m) h) ->
    phase_ok (pm_used m) (fst th') (nth_error (pm_reg m') g) ->
    pinv all (upd g th' sts) m'.
  Proof.
    destruct m' as [cnt' used' reg']. cbn [pm_cnt pm_used pm_reg]. intros H Hg Hp -> -> Lr Nr Hph. assert (Gl : g < length sts) by (apply nth_error_Some; congruence).
    destruct (todo_split' counted sts g th th' Hg) as (l1 & l2 & T1 & T2).
    assert (B : forall h t, nth_error (upd g th' sts) h = Some t -> exists t0, nth_error sts h = Some t0 /\ forall p, In p (pending t) -> In p (pending t0)).
    { intros h t Ht. apply upd_inv in Ht. destruct Ht as [(-> & Ht)|(Ne & Ht)]; [|exists t; auto]. subst t. exists th. split; auto. intros p Hq. now apply Hp. }
    constructor; cbn [pm_cnt pm_used pm_reg].
    - apply H.
    - apply H.
    - apply H.
    - intros p Hin. destruct (pi_cover _ _ _ H p Hin) as [C|(h & t & Ht & Hi)]; [left; auto|right]. destruct (Nat.eq_dec h g) as [->|Ne].
      + exists g, th'. rewrite upd_eq by auto. split; auto. assert (t = th) by congruence. subst t. now apply Hp.
      + exists h, t. rewrite upd_neq; auto.
    - rewrite (pi_cnt _ _ _ H), T1, T2, !app_length. lia.
    - rewrite Lr, upd_length. exact (pi_rl _ _ _ H).
    - intros h h' t t' p q Ne Ht Ht' Ip Iq. destruct (B _ _ Ht) as (t0 & Q & Q'). destruct (B _ _ Ht') as (t0' & R & R'). exact (pi_sep _ _ _ H h h' t0 t0' _ _ Ne Q R (Q' _ Ip) (R' _ Iq)).
    - intros h t p Ht Ip. destruct (B _ _ Ht) as (t0 & Q & Q'). exact (pi_lt _ _ _ H h t0 p Q (Q' p Ip)).
    - intros h t Ht. apply upd_inv in Ht. destruct Ht as [(-> & Ht)|(Ne & Ht)]; [subst t; auto|]. rewrite Nr by auto. now apply (pi_phase _ _ _ H).
  Qed.

  Lemma read_01 used j : Forall (fun u => u = 0 \/ u = 1)%Z used -> j < length used -> nth_error used j = Some 0%Z \/ marked used j.
  Proof.
    intros F Hj. destruct (nth_error used j) as [u|] eqn:E; [|apply nth_error_None in E; lia]. rewrite Forall_forall in F.
    destruct (F u (nth_error_In _ _ E)); subst; auto.
  Qed.

  Lemma pass_step all sts m g th a r : pinv all sts m -> nth_error sts g = Some th -> pprog g th = a :: r ->
    exists m' th', pact a m = Some m' /\ r = pprog g th' /\ pinv all (upd g th' sts) m'.
  Proof.
    intros H Hg E. assert (Gl : g < length sts) by (apply nth_error_Some; congruence). assert (Gr : g < length (pm_reg m)) by (rewrite (pi_rl _ _ _ H); auto).
    pose proof (pi_phase _ _ _ H g th Hg) as Ph. pose proof (pi_lt _ _ _ H g th) as Hlt. destruct th as [ph todo]. destruct ph as [|p v l|p v]; cbn [fst snd] in *.
    - (* a new point *)
      destruct todo as [|p todo]; [discriminate|]. unfold pprog in E. cbn [fst snd flat_map app] in E. unfold pfull at 1 in E. injection E as <- <-.
      cbn [pact]. unfold pd_start. rewrite wr_upd by auto. cbn [obind]. do 2 eexists. split; [reflexivity|]. split.
      + instantiate (1 := (PChecking p true (nb p), todo)). reflexivity.
      + eapply quiet_step; eauto; cbn; try tauto; try lia.
        * now rewrite upd_length.
        * intros; now apply upd_neq.
        * split; [now apply upd_eq|]. exists []. split; auto. intros j [].
    - (* a check or the end of the checks *)
      destruct Ph as (Er & l0 & El & Hc). unfold pprog in E. cbn [fst snd] in E. destruct l as [|j l]; cbn [map app] in E; injection E as <- <-; cbn [pact].
      + unfold pd_count, rd. rewrite Er. cbn [obind]. do 2 eexists. split; [reflexivity|]. split; [instantiate (1 := (PCounted p v, todo)); reflexivity|].
        assert (Hc' : checked (pm_used m) p v (nb p)) by (rewrite El, app_nil_r; auto).
        destruct v; eapply quiet_step; eauto; cbn; try tauto; try lia; auto.
      + unfold pd_check, rd. rewrite Er. cbn [obind]. destruct v.
        * assert (Hj : j < n) by (apply (nb_lt p); rewrite El; apply in_or_app; right; left; auto).
          destruct (read_01 (pm_used m) j (pi_01 _ _ _ H) ltac:(rewrite (pi_len _ _ _ H); auto)) as [Ej|Ej].
          -- rewrite Ej. cbn [obind Z.eqb]. rewrite wr_upd by auto. cbn [obind]. do 2 eexists. split; [reflexivity|].
             split; [instantiate (1 := (PChecking p true l, todo)); reflexivity|]. eapply quiet_step; eauto; cbn; try tauto; try lia.
             ++ now rewrite upd_length.
             ++ intros; now apply upd_neq.
             ++ split; [now apply upd_eq|]. exists (l0 ++ [j]). rewrite <- app_assoc. split; auto. intros x Hx Cx. apply in_app_or in Hx. destruct Hx as [Hx|[<-|[]]]; auto.
          -- unfold marked in Ej. rewrite Ej. cbn [obind Z.eqb Pos.eqb]. rewrite wr_upd by auto. cbn [obind]. do 2 eexists. split; [reflexivity|].
             split; [instantiate (1 := (PChecking p false l, todo)); reflexivity|]. eapply quiet_step; eauto; cbn; try tauto; try lia.
             ++ now rewrite upd_length.
             ++ intros; now apply upd_neq.
             ++ split; [now apply upd_eq|]. exists (l0 ++ [j]). rewrite <- app_assoc. split; auto. exists j. split; auto. rewrite El. apply in_or_app. right; left; auto.
        * do 2 eexists. split; [reflexivity|]. split; [instantiate (1 := (PChecking p false l, todo)); reflexivity|].
          eapply quiet_step; eauto; cbn; try tauto; try lia. split; auto. exists (l0 ++ [j]). rewrite <- app_assoc. auto.
    - (* the mark *)
      destruct Ph as (Er & Hc). unfold pprog in E. cbn [fst snd app] in E. injection E as <- <-. cbn [pact]. unfold pd_mark, rd. rewrite Er. cbn [obind].
      assert (Hp : p < n) by (apply Hlt; auto; left; auto). destruct v.
      2:{ do 2 eexists. split; [reflexivity|]. split; [instantiate (1 := (PIdle, todo)); reflexivity|].
          destruct (todo_split' counted sts g _ (PIdle, todo) Hg) as (l1 & l2 & T1 & T2).
          assert (B : forall h t, nth_error (upd g (PIdle, todo) sts) h = Some t -> exists t0, nth_error sts h = Some t0 /\ forall p, In p (pending t) -> In p (pending t0)).
          { intros h t Ht. apply upd_inv in Ht. destruct Ht as [(-> & Ht)|(Ne & Ht)]; [|exists t; auto]. subst t. exists (PCounted p false, todo). split; auto.
            intros x Hx. cbn in *. auto. }
          constructor.
          - apply H.
          - apply H.
          - apply H.
          - intros x Hin. destruct (pi_cover _ _ _ H x Hin) as [C|(h & t & Ht & Hi)]; [left; auto|]. destruct (Nat.eq_dec h g) as [->|Ne].
            + rewrite Hg in Ht. injection Ht as <-. destruct Hi as [<-|Hi]; [left; exact Hc|]. right. exists g, (PIdle, todo). rewrite upd_eq by auto. auto.
            + right. exists h, t. rewrite upd_neq; auto.
          - rewrite (pi_cnt _ _ _ H), T1, T2. reflexivity.
          - rewrite upd_length. first [exact (pi_rl _ _ _ H)|exact (pi_len _ _ _ H)].
          - intros h h' t t' x y Ne Ht Ht' Ip Iq. destruct (B _ _ Ht) as (t0 & Q & Q'). destruct (B _ _ Ht') as (t0' & R & R'). exact (pi_sep _ _ _ H h h' t0 t0' _ _ Ne Q R (Q' _ Ip) (R' _ Iq)).
          - intros h t x Ht Ip. destruct (B _ _ Ht) as (t0 & Q & Q'). exact (pi_lt _ _ _ H h t0 x Q (Q' x Ip)).
          - intros h t Ht. apply upd_inv in Ht. destruct Ht as [(-> & Ht)|(Ne & Ht)]; [subst t; exact I|]. now apply (pi_phase _ _ _ H). }
      assert (Hu : p < length (pm_used m)) by (rewrite (pi_len _ _ _ H); auto). assert (E0 : nth_error (pm_used m) p = Some 0%Z) by (apply Hc; [apply nb_close; auto|]; now apply close_self).
      rewrite wr_upd by auto. cbn [obind]. do 2 eexists. split; [reflexivity|]. split; [instantiate (1 := (PIdle, todo)); reflexivity|].
      destruct (todo_split' counted sts g _ (PIdle, todo) Hg) as (l1 & l2 & T1 & T2). cbn [counted fst app] in T1, T2.
      assert (B : forall h t, nth_error (upd g (PIdle, todo) sts) h = Some t -> exists t0, nth_error sts h = Some t0 /\ forall p, In p (pending t) -> In p (pending t0)).
      { intros h t Ht. apply upd_inv in Ht. destruct Ht as [(-> & Ht)|(Ne & Ht)]; [|exists t; auto]. subst t. exists (PCounted p true, todo). split; auto.
        intros x Hx. cbn in *. auto. }
      constructor; cbn [pm_cnt pm_used pm_reg].
      + rewrite upd_length. first [exact (pi_rl _ _ _ H)|exact (pi_len _ _ _ H)].
      + rewrite Forall_forall. intros u Iu. apply In_nth_error in Iu. destruct Iu as (i & Iu). apply upd_inv in Iu. destruct Iu as [(-> & Iu)|(Ne & Iu)]; [subst u; auto|].
        pose proof (pi_01 _ _ _ H) as F. rewrite Forall_forall in F. apply F. eapply nth_error_In; eauto.
      + intros x y Mx My Ixy. apply marked_upd in Mx, My; auto.
        assert (Z : forall z, marked (pm_used m) z -> close p z -> False).
        { intros z Mz Iz. specialize (Hc z (nb_close p z Hp Iz) Iz). unfold marked in Mz. congruence. }
        destruct Mx as [->|Mx], My as [->|My]; auto; [exfalso; eapply Z; eauto| |exact (pi_apart _ _ _ H x y Mx My Ixy)].
        exfalso. apply (Z x Mx). apply close_sym; auto. unfold marked in Mx. rewrite <- (pi_len _ _ _ H). apply nth_error_Some. congruence.
      + intros x Hin. destruct (pi_cover _ _ _ H x Hin) as [(q & Iq & Mq)|(h & t & Ht & Hi)]; [left; exists q; split; auto; apply marked_upd; auto|].
        destruct (Nat.eq_dec h g) as [->|Ne].
        * rewrite Hg in Ht. injection Ht as <-. destruct Hi as [<-|Hi]; [left; exists p; split; [auto|apply marked_upd; auto]|]. right. exists g, (PIdle, todo). rewrite upd_eq by auto. auto.
        * right. exists h, t. rewrite upd_neq; auto.
      + rewrite (pi_cnt _ _ _ H), T1, T2, ones_upd by auto. rewrite !app_length. cbn [length]. lia.
      + rewrite upd_length. first [exact (pi_rl _ _ _ H)|exact (pi_len _ _ _ H)].
      + intros h h' t t' x y Ne Ht Ht' Ip Iq. destruct (B _ _ Ht) as (t0 & Q & Q'). destruct (B _ _ Ht') as (t0' & R & R'). exact (pi_sep _ _ _ H h h' t0 t0' _ _ Ne Q R (Q' _ Ip) (R' _ Iq)).
      + intros h t x Ht Ip. destruct (B _ _ Ht) as (t0 & Q & Q'). exact (pi_lt _ _ _ H h t0 x Q (Q' x Ip)).
      + intros h t Ht. apply upd_inv in Ht. destruct Ht as [(-> & Ht)|(Ne & Ht)]; [subst t; exact I|]. pose proof (pi_phase _ _ _ H h t Ht) as Pt.
        assert (G : forall x v l0, In x (pending t) -> (forall z, In z l0 -> In z (nb x)) -> checked (pm_used m) x v l0 -> checked (upd p 1%Z (pm_used m)) x v l0).
        { intros x v l0 Hx Hl. unfold checked. destruct v.
          - intros K z Hz Cz. rewrite upd_neq; [auto|]. intros ->. apply (pi_sep _ _ _ H h g t (PCounted p true, todo) x p); auto. now left.
          - intros (z & Iz & Mz). exists z. split; auto. apply marked_upd; auto. }
        destruct t as [[|x v l|x v] td]; cbn [fst phase_ok] in *; auto.
        * destruct Pt as (Rr & l0 & El & Kc). split; auto. exists l0. split; auto. apply G; [now left| |auto]. intros z Hz. rewrite El. apply in_or_app; auto.
        * destruct Pt as (Rr & Kc). split; auto. apply G; [now left|auto|auto].
  Qed.

  Theorem pass_runs cnt used done regs (pss : list (list (list pdesc))) (todo : list (list nat)) (P : pmem -> Prop) :
    settled cnt used done -> concat pss = nprogs pprog (map (fun l => (PIdle, l)) todo) -> length regs = length todo ->
    (forall g g' l l' p q, g <> g' -> nth_error todo g = Some l -> nth_error todo g' = Some l' -> In p l -> In q l' -> ~ close p q) ->
    (forall p, In p (concat todo) -> p < n) ->
    (forall m, settled (pm_cnt m) (pm_used m) (concat todo ++ done) -> P m) ->
    every_run P (PMem cnt used regs, desc_kernel pact pss).
  Proof.
    intros H Ep Lr Hsep Hlt HP.
    assert (Gt : forall g th, nth_error (map (fun l => (PIdle, l)) todo) g = Some th -> exists l, nth_error todo g = Some l /\ th = (PIdle, l)).
    { intros g th Hg. rewrite nth_error_map in Hg. destruct (nth_error todo g) as [l|]; [|discriminate]. injection Hg as <-. eauto. }
    apply (desc_kernel_runs pact (fun m ps => exists sts, ps = nprogs pprog sts /\ pinv (concat todo ++ done) sts m)).
    - intros m ps g a r (sts & -> & K) Hg. rewrite nprogs_nth in Hg. destruct (nth_error sts g) as [th|] eqn:E; [|discriminate]. cbn [option_map] in Hg. injection Hg as Hg.
      assert (Gl : g < length sts) by (apply nth_error_Some; congruence). destruct (pass_step _ sts m g th a r K E Hg) as (m' & th' & Em & -> & K').
      exists m'. split; auto. exists (upd g th' sts). split; auto. now rewrite <- nprogs_upd.
    - intros m ps (sts & -> & K) F. apply HP. rewrite Forall_forall in F.
      assert (Z : forall g th, nth_error sts g = Some th -> th = (PIdle, [])).
      { intros g [p td] Hg. assert (Q : nth_error (nprogs pprog sts) g = Some (pprog g (p, td))) by (now rewrite nprogs_nth, Hg).
        apply nth_error_In in Q. apply F in Q. destruct p as [|p v l|p v], td; cbn in Q; auto; try discriminate; destruct l; discriminate. }
      constructor; [exact (pi_len _ _ _ K)|exact (pi_01 _ _ _ K)|exact (pi_apart _ _ _ K)|..].
      + intros p Hp. destruct (pi_cover _ _ _ K p Hp) as [C|(g & th & Hg & Hi)]; auto. rewrite (Z g th Hg) in Hi. destruct Hi.
      + rewrite (pi_cnt _ _ _ K). replace (flat_map counted sts) with (@nil nat); [f_equal; cbn; lia|]. symmetry. apply flat_map_nil. intros th Hth.
        apply In_nth_error in Hth. destruct Hth as (g & Hg). now rewrite (Z g th Hg).
    - exists (map (fun l => (PIdle, l)) todo). split; auto. constructor; cbn [pm_cnt pm_used pm_reg]; [exact (se_len _ _ _ H)|exact (se_01 _ _ _ H)|exact (se_apart _ _ _ H)|..].
      + intros p Hp. apply in_app_or in Hp. destruct Hp as [Hp|Hp]; [right|left; now apply (se_cover _ _ _ H)]. apply in_concat in Hp. destruct Hp as (l & Hl & Hp).
        apply In_nth_error in Hl. destruct Hl as (g & Hg). exists g, (PIdle, l). rewrite nth_error_map, Hg. auto.
      + rewrite (se_cnt _ _ _ H). replace (flat_map counted _) with (@nil nat); [f_equal; cbn; lia|]. symmetry. apply flat_map_nil. intros th Hth.
        apply in_map_iff in Hth. destruct Hth as (l & <- & _). reflexivity.
      + now rewrite map_length.
      + intros g g' th th' p q Ne Hg Hg' Ip Iq. destruct (Gt _ _ Hg) as (l & Q & ->). destruct (Gt _ _ Hg') as (l' & Q' & ->). cbn in Ip, Iq. exact (Hsep g g' l l' p q Ne Q Q' Ip Iq).
      + intros g th p Hg Ip. destruct (Gt _ _ Hg) as (l & Q & ->). cbn in Ip. apply Hlt. apply in_concat. exists l. split; auto. eapply nth_error_In; eauto.
      + intros g th Hg. destruct (Gt _ _ Hg) as (l & Q & ->). exact I.
  Qed.
End Pass.
