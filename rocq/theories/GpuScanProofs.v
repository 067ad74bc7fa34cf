(** Proofs of the properties of the GPU prefix sum (C42). *)
From Coq Require Import List Arith ZArith Lia Bool Permutation.
From Verif Require Import Cuda CudaFacts CudaExec MemFacts SpecGpu GpuScan GpuScanFacts GpuScanRuns.
Import ListNotations.

Lemma ceil_div_spec n d : d <> 0 -> n <= d * ceil_div n d /\ (forall e, e < ceil_div n d -> d * e < n).
Proof.
  intros Hd. unfold ceil_div. pose proof (Nat.div_mod n d Hd). pose proof (Nat.mod_upper_bound n d Hd).
  destruct (Nat.eqb_spec (n mod d) 0); split; intros; nia.
Qed.
Lemma ceil_div_pos n d : d <> 0 -> n <> 0 -> ceil_div n d <> 0.
Proof. intros Hd Hn E. destruct (ceil_div_spec n d Hd) as [H _]. rewrite E in H. lia. Qed.
Lemma get_buf {V} (m : mem V) b i : get (b, i) m = obind (nth_error m b) (fun l => nth_error l i).
Proof. reflexivity. Qed.
Lemma list_of_get {V} (l : list V) n (f : nat -> V) : length l = n -> (forall i, i < n -> nth_error l i = Some (f i)) -> l = map f (seq 0 n).
Proof.
  intros HL H. apply list_eq_nth; [now rewrite map_length, seq_length|]. intros i d Hi.
  erewrite nth_error_nth; [|apply H; lia]. symmetry. erewrite nth_error_nth; [reflexivity|].
  rewrite nth_error_map. rewrite (nth_error_nth' (seq 0 n) 0) by (rewrite seq_length; lia). rewrite seq_nth by lia. reflexivity.
Qed.

Definition val (l : list Z) (i : nat) : Z := nth i l 0%Z.
Lemma val_get l i : i < length l -> nth_error l i = Some (val l i).
Proof. intros H. now apply nth_error_nth'. Qed.
Lemma rsum_firstn l i : rsum (val l) 0 i = sum_of (firstn i l).
Proof.
  revert i. induction l as [|a l IH]; intros i.
  - rewrite firstn_nil. unfold rsum. change (sum_of []) with 0%Z. generalize 0. induction i as [|i IH]; intros s; cbn; auto. rewrite IH. unfold val. destruct s; reflexivity.
  - destruct i as [|i]; [reflexivity|]. replace (S i) with (1 + i) at 1 by lia. rewrite rsum_app, rsum_1. cbn [firstn sum_of fold_right].
    fold (sum_of (firstn i l)). rewrite <- IH. f_equal. unfold rsum. change (0 + 1) with 1. rewrite <- (seq_shift i 0), map_map. reflexivity.
Qed.

Lemma scan_step_ok active k elems (P : list Z -> list Z -> Prop) : active <> 0 -> elems <> [] ->
  let N := 2 ^ k * 2 in
  P (map (fun i => rsum (val elems) (N * (i / N)) (i mod N)) (seq 0 (length elems)))
    (map (fun e => rsum (val elems) (N * e) N) (seq 0 (ceil_div (length elems) N))) ->
  scan_step active k elems P.
Proof.
  intros Ha Hne N HP. unfold scan_step. fold N. set (n := length elems) in *. set (ex := ceil_div n N) in *.
  assert (N0 : N <> 0) by (unfold N; pose proof (pow_pos k); lia).
  assert (n0 : n <> 0) by (unfold n; destruct elems; cbn; congruence).
  pose proof (ceil_div_pos n N N0 n0) as E0. destruct (ceil_div_spec n N N0) as [C1 C2]. fold ex in E0, C1, C2.
  intros temps HL HT. set (blocks := Nat.min active ex) in *. assert (B0 : blocks <> 0) by (unfold blocks; lia). split; [exact B0|].
  destruct (scan_kernel_runs k n blocks ex B0 (val elems)) with (m := elems :: repeat 0%Z ex :: temps) as (mf & R & S & G & C).
  - intros i Hi. unfold val. apply nth_overflow. exact Hi.
  - exact C2.
  - exact C1.
  - intros b i Hb Hi. apply has_iff. cbn [fst snd Nat.add nth_error]. destruct (nth_error temps b) as [l|] eqn:E; [|apply nth_error_None in E; lia].
    exists l. split; auto. rewrite Forall_forall in HT. rewrite (HT l) by (eapply nth_error_In; eauto). exact Hi.
  - intros e He. apply has_iff. exists (repeat 0%Z ex). split; [reflexivity|]. cbn. now rewrite repeat_length.
  - intros i Hi. rewrite get_buf. cbn. now apply val_get.
  - eapply every_run_weaken; [|exact R]. intros m <-.
    destruct mf as [|e1 [|c1 rest]]; unfold same_shape in S; cbn [map] in S; try discriminate. injection S as S1 S2 _.
    rewrite repeat_length in S2.
    assert (E1 : e1 = map (fun i => rsum (val elems) (N * (i / N)) (i mod N)) (seq 0 n)) by (apply list_of_get; [first [exact S1 | symmetry; exact S1]|exact G]).
    assert (E2 : c1 = map (fun e => rsum (val elems) (N * e) N) (seq 0 ex)) by (apply list_of_get; [first [exact S2 | symmetry; exact S2]|exact C]).
    rewrite E1, E2. exact HP.
Qed.

(** ** Adding the block offsets *)
Section Prop1.
  Variables (N n blocks bsize q : nat).
  Hypothesis HB : blocks <> 0.
  Hypothesis Hs : bsize <> 0.
  Hypothesis Hq : N = q * bsize.
  Hypothesis HN : N <> 0.
  Hypothesis Hb : forall b, b < blocks -> N + bsize * b < n.
  Hypothesis Hone : n <= N + blocks * bsize.

  Lemma one_iteration b t : b < blocks -> t < bsize ->
    strided (t + bsize * b + N) (blocks * bsize) n = if t + bsize * b + N <? n then [t + bsize * b + N] else [].
  Proof.
    intros Hb' Ht. unfold strided. destruct n as [|n'] eqn:En; [reflexivity|]. cbn [iterations].
    destruct (_ <? _); [|reflexivity]. f_equal. destruct n'; cbn [iterations]; [reflexivity|].
    destruct (Nat.ltb_spec (t + bsize * b + N + blocks * bsize) (S (S n'))); [nia|reflexivity].
  Qed.
  Definition pthread (b t : nat) : list (list (action (mem Z))) :=
    if t + bsize * b + N <? n then [prop_set N b t (t + bsize * b + N); [prop_add b (t + bsize * b + N)]] else [[]].
  Lemma prop_kernel_eq : prop_kernel N n blocks bsize = map (fun b => map (pthread b) (seq 0 bsize)) (seq 0 blocks).
  Proof.
    unfold prop_kernel. apply map_ext_in. intros b H. apply in_seq in H. apply map_ext_in. intros t Ht. apply in_seq in Ht.
    rewrite one_iteration by lia. unfold pthread. destruct (_ <? _); reflexivity.
  Qed.
  Lemma same_counter b t : t < bsize -> (t + bsize * b + N) / N = b / q + 1.
  Proof.
    intros Ht. assert (q0 : q <> 0) by (intros ->; lia).
    replace (t + bsize * b + N) with (t + b * bsize + 1 * N) by lia. rewrite Nat.div_add by auto. f_equal.
    rewrite Hq, (Nat.mul_comm q). rewrite <- Nat.div_div by auto. f_equal. rewrite Nat.div_add by auto. rewrite Nat.div_small; auto.
  Qed.

  Definition pmine (b : nat) (x : cell) : bool := (fst x =? 2 + b) || ((fst x =? 0) && (N <=? snd x) && ((snd x - N) / bsize =? b)).
  Definition pread (b : nat) (x : cell) : bool := pmine b x || (fst x =? 1).
  Lemma pmine_ix b t : t < bsize -> (t + bsize * b + N - N) / bsize = b.
  Proof. intros Ht. replace (t + bsize * b + N - N) with (t + b * bsize) by lia. rewrite Nat.div_add, Nat.div_small; auto. Qed.
  Lemma pthread_frame b t a : t < bsize -> In a (concat (pthread b t)) -> frame (pread b) (pmine b) a.
  Proof.
    intros Ht Ha. unfold pthread in Ha. destruct (_ <? _); [|destruct Ha]. cbn [concat app] in Ha. apply in_app_iff in Ha.
    assert (M1 : pmine b (2 + b, 0) = true) by (unfold pmine; cbn [fst]; rewrite Nat.eqb_refl; reflexivity).
    assert (M2 : pmine b (0, t + bsize * b + N) = true).
    { unfold pmine. cbn [fst snd]. rewrite pmine_ix by auto. rewrite !Nat.eqb_refl.
      replace (N <=? t + bsize * b + N) with true by (symmetry; apply Nat.leb_le; lia). reflexivity. }
    assert (Sub : forall x, pmine b x = true -> pread b x = true) by (intros x H; unfold pread; rewrite H; reflexivity).
    destruct Ha as [Ha|Ha].
    - unfold prop_set in Ha. destruct (t =? 0); [|destruct Ha]. destruct Ha as [<-|[]].
      eapply frame_weaken; [apply assign_frame|..]; auto; intros x.
      + rewrite in_cells_b_iff. intros [<-|[<-|[]]]; auto.
      + rewrite cell_eqb_eq. intros <-. auto.
    - destruct Ha as [<-|[]]. eapply frame_weaken; [apply assign_frame|..]; auto; intros x.
      + rewrite in_cells_b_iff. intros [<-|[<-|[<-|[]]]]; auto.
      + rewrite cell_eqb_eq. intros <-. auto.
  Qed.
  Lemma pmine_disjoint b b' x : b <> b' -> pmine b x = true -> pread b' x = false.
  Proof.
    unfold pread, pmine. intros Hn H. apply not_true_iff_false. intros H'.
    rewrite !orb_true_iff, !andb_true_iff, !Nat.eqb_eq in H.
    rewrite !orb_true_iff, !andb_true_iff, !Nat.eqb_eq in H'. lia.
  Qed.
  Lemma pkernel_nth b bl : nth_error (prop_kernel N n blocks bsize) b = Some bl -> b < blocks /\ bl = map (pthread b) (seq 0 bsize).
  Proof.
    rewrite prop_kernel_eq, nth_error_map. destruct (nth_error (seq 0 blocks) b) as [j|] eqn:E; cbn; [|discriminate].
    assert (b < blocks) by (rewrite <- (seq_length blocks 0); apply nth_error_Some; congruence).
    assert (j = b) by (apply nth_error_nth with (d := 0) in E; rewrite seq_nth in E by auto; lia). subst j. intros [= <-]. auto.
  Qed.
  Lemma pblk_nth b i t : nth_error (map (pthread b) (seq 0 bsize)) i = Some t -> i < bsize /\ t = pthread b i.
  Proof.
    rewrite nth_error_map. destruct (nth_error (seq 0 bsize) i) as [j|] eqn:E; cbn; [|discriminate].
    assert (i < bsize) by (rewrite <- (seq_length bsize 0); apply nth_error_Some; congruence).
    assert (j = i) by (apply nth_error_nth with (d := 0) in E; rewrite seq_nth in E by auto; lia). subst j. intros [= <-]. auto.
  Qed.
  Lemma nth_concat {A} (l : list (list A)) p a : In a (nth p l []) -> In a (concat l).
  Proof. intros H. apply in_concat. destruct (Nat.lt_ge_cases p (length l)); [exists (nth p l []); split; auto; now apply nth_In|].
    rewrite nth_overflow in H by auto. destruct H. Qed.
  Lemma pkernel_ok : blocks_ok (prop_kernel N n blocks bsize).
  Proof.
    split.
    - intros b bl H. apply pkernel_nth in H as [Hb' ->]. intros p i j ti tj a a' Hi Hj Hn Ha Ha'.
      apply pblk_nth in Hi as [Hi ->]. apply pblk_nth in Hj as [Hj ->]. unfold pthread in Ha, Ha'.
      destruct (i + bsize * b + N <? n), (j + bsize * b + N <? n); destruct p as [|[|p]]; cbn [nth] in Ha, Ha'; try contradiction;
        try (destruct p; contradiction).
      + unfold prop_set in Ha, Ha'. destruct (Nat.eqb_spec i 0), (Nat.eqb_spec j 0); try contradiction. lia.
      + destruct Ha as [<-|[]]. destruct Ha' as [<-|[]]. unfold prop_add.
        eapply frm_commute; [apply frm_assign|apply frm_assign|..]; intros x [<-|[]] Hin; cbn [In] in Hin;
          destruct Hin as [X|[X|[X|[]]]]; inversion X; lia.
    - intros b b' bl bl' a a' H H' Hn Ha Ha'. apply pkernel_nth in H as [Hb1 ->]. apply pkernel_nth in H' as [Hb2 ->].
      apply in_block_rem in Ha as (p & i & t & Hi & Ha). apply in_block_rem in Ha' as (p' & i' & t' & Hi' & Ha').
      apply pblk_nth in Hi as [Hi ->]. apply pblk_nth in Hi' as [Hi' ->]. apply nth_concat in Ha, Ha'.
      eapply frame_commute; [exact (pthread_frame b i a Hi Ha)|exact (pthread_frame b' i' a' Hi' Ha')|..]; intros x; apply pmine_disjoint; auto.
  Qed.

  Variables (y c : nat -> Z).
  Lemma prop_kernel_runs m : (forall i, i < n -> get (0, i) m = Some (y i)) -> (forall e, N * e < n -> get (1, e) m = Some (c e)) ->
    (forall b, b < blocks -> has m (2 + b, 0)) ->
    exists mf, every_run (eq mf) (m, prop_kernel N n blocks bsize) /\ same_shape m mf /\
      forall i, i < n -> get (0, i) mf = Some (if i <? N then y i else (y i + c (i / N))%Z).
  Proof.
    intros H0 H1 H2.
    set (rem := fun b => flat_map (fun t => nth 0 (pthread b t) []) (seq 0 bsize) ++ flat_map (fun t => nth 1 (pthread b t) []) (seq 0 bsize)).
    assert (Hrem : forall b, block_rem (map (pthread b) (seq 0 bsize)) = rem b).
    { intros b. rewrite (block_rem_ge _ 2).
      - cbn [seq flat_map]. rewrite app_nil_r. unfold rem. now rewrite !phase_acts_uniform.
      - apply depth_lub. intros t Ht. apply in_map_iff in Ht as (u & <- & _). unfold pthread. destruct (_ <? _); cbn; lia. }
    assert (Hall : all_rem (prop_kernel N n blocks bsize) = flat_map rem (seq 0 blocks)).
    { unfold all_rem. rewrite prop_kernel_eq, flat_map_concat_map, map_map, <- flat_map_concat_map. apply flat_map_ext. intros b. apply Hrem. }
    assert (Hblk : forall b, b < blocks -> exists mb, run_all (rem b) m = Some mb /\
       forall i, N <= i -> i < n -> (i - N) / bsize = b -> get (0, i) mb = Some (y i + c (i / N))%Z).
    { intros b Hb'. set (c0 := c ((0 + bsize * b + N) / N)).
      assert (E0 : flat_map (fun t => nth 0 (pthread b t) []) (seq 0 bsize) = [assign (2 + b, 0) [(1, (0 + bsize * b + N) / N)] first]).
      { erewrite flat_map_ext_in'; [|intros t _; instantiate (1 := fun t => if t =? 0 then [assign (2 + b, 0) [(1, (0 + bsize * b + N) / N)] first] else [])].
        - apply flat_map_first; exact Hs.
        - cbn beta. unfold pthread, prop_set. destruct (Nat.eqb_spec t 0) as [->|].
          + pose proof (Hb b Hb'). destruct (Nat.ltb_spec (0 + bsize * b + N) n); [reflexivity|lia].
          + destruct (_ <? _); reflexivity. }
      assert (G1 : get (1, (0 + bsize * b + N) / N) m = Some c0).
      { apply H1. pose proof (Hb b Hb'). pose proof (Nat.mul_div_le (0 + bsize * b + N) N HN). lia. }
      destruct (put_some m (2 + b, 0) c0 (H2 b Hb')) as (m1 & P1). destruct (put_inv _ _ _ _ P1) as (S1 & Q1 & O1).
      destruct (phase_run_frm (fun t => nth 1 (pthread b t) []) (fun t => [(0, t + bsize * b + N); (2 + b, 0)])
         (fun t => [(0, t + bsize * b + N)]) (seq 0 bsize) m1) as (m2 & E2 & S2 & G2 & O2).
      - intros t a Ht Ha. unfold pthread in Ha. destruct (_ <? _); cbn [nth In] in Ha; [|destruct Ha]. destruct Ha as [<-|[]].
        eapply frm_weaken; [apply frm_assign|..]; intros z Hz; cbn [In] in *; tauto.
      - intros t z Hz. cbn [In] in *. tauto.
      - apply seq_NoDup.
      - intros t u z _ _ Hn [<-|[]] Hz. cbn [In] in Hz. destruct Hz as [X|[X|[]]]; inversion X; lia.
      - intros t Ht. apply in_seq in Ht. unfold pthread. destruct (Nat.ltb_spec (t + bsize * b + N) n); cbn [nth run_all]; [|eauto].
        unfold prop_add, assign. cbn [gets]. rewrite O1 by (intros X; inversion X). rewrite H0 by auto. cbn [obind]. rewrite Q1. cbn [obind option_map].
        destruct (put_some m1 (0, t + bsize * b + N) (sum2 [y (t + bsize * b + N); c0])) as (mt & Pt).
        { exists (y (t + bsize * b + N)). rewrite O1 by (intros X; inversion X). auto. }
        rewrite Pt. cbn. eauto.
      - exists m2. split.
        + unfold rem. rewrite E0, run_all_app. cbn [run_all]. unfold assign at 1. cbn [gets]. rewrite G1. cbn [obind option_map first hd].
          rewrite P1. cbn [obind]. exact E2.
        + intros i Hi Hin Eb. set (t := (i - N) mod bsize).
          assert (Ht : t < bsize) by (apply Nat.mod_upper_bound; auto).
          assert (Ei : i = t + bsize * b + N) by (pose proof (Nat.div_mod (i - N) bsize Hs); rewrite Eb in *; unfold t; lia).
          assert (Hrun : exists mt, run_all (nth 1 (pthread b t) []) m1 = Some mt /\ get (0, i) mt = Some (y i + c (i / N))%Z).
          { unfold pthread. destruct (Nat.ltb_spec (t + bsize * b + N) n); [|lia]. rewrite <- Ei. cbn [nth run_all].
            unfold prop_add, assign. cbn [gets]. rewrite O1 by (intros X; inversion X). rewrite H0 by auto. cbn [obind]. rewrite Q1. cbn [obind option_map].
            destruct (put_some m1 (0, i) (sum2 [y i; c0])) as (mt & Pt).
            { exists (y i). rewrite O1 by (intros X; inversion X). auto. }
            destruct (put_inv _ _ _ _ Pt) as (_ & Qt & _). rewrite Pt. cbn [obind]. exists mt. split; auto. rewrite Qt. f_equal.
            cbn [sum2 fold_right]. unfold c0.
            assert (Ec : (0 + bsize * b + N) / N = i / N) by (rewrite Ei, !same_counter by lia; reflexivity). rewrite Ec. lia. }
          destruct Hrun as (mt & Rt & Gt). rewrite (G2 t mt); auto; [apply in_seq; lia|left; now rewrite Ei]. }
    destruct (phase_run rem pread pmine (seq 0 blocks) m) as (mf & E & S & G & O).
    - intros b Hb'. rewrite <- Hrem. apply frame_run_all; [intros x H; unfold pread; now rewrite H|]. intros a Ha.
      apply in_block_rem in Ha as (p & i & t & Hi & Ha). apply pblk_nth in Hi as [Hi ->]. apply nth_concat in Ha. eapply pthread_frame; eauto.
    - apply seq_NoDup.
    - intros b b' x _ _ Hn H. eapply pmine_disjoint; eauto.
    - intros b Hb'. apply in_seq in Hb'. destruct (Hblk b ltac:(lia)) as (mb & Eb & _). eauto.
    - exists mf. split; [|split; [auto|]].
      + eapply every_run_weaken; [|apply every_run_all_rem; [apply pkernel_ok|rewrite Hall; exact E]]. auto.
      + intros i Hi. destruct (Nat.ltb_spec i N) as [H|H].
        * rewrite O; [auto|]. intros b _. unfold pmine. cbn [fst snd]. replace (N <=? i) with false by (symmetry; apply Nat.leb_gt; lia). reflexivity.
        * set (b := (i - N) / bsize). assert (Hb' : b < blocks) by (apply Nat.div_lt_upper_bound; lia).
          destruct (Hblk b Hb') as (mb & Eb & Gb). rewrite (G b mb); auto; [apply in_seq; lia|].
          unfold pmine. cbn [fst snd]. fold b. rewrite !Nat.eqb_refl. replace (N <=? i) with true by (symmetry; apply Nat.leb_le; lia). reflexivity.
  Qed.
End Prop1.

Lemma prop_step_ok active warp k elems counters (P : list Z -> Prop) :
  let N := 2 ^ k * 2 in
  active <> 0 -> warp <> 0 -> (exists q, N = q * (2 * warp)) -> length elems <= N + active * (2 * warp) ->
  length counters = ceil_div (length elems) N ->
  P (map (fun i => if i <? N then val elems i else (val elems i + val counters (i / N))%Z) (seq 0 (length elems))) ->
  prop_step active warp k elems counters P.
Proof.
  intros N Ha Hw [q Hq] Hone HL HP. unfold prop_step. fold N. destruct (Nat.leb_spec (length elems) N) as [H|H].
  - replace elems with (map (fun i => if i <? N then val elems i else (val elems i + val counters (i / N))%Z) (seq 0 (length elems))); auto.
    symmetry. apply list_of_get; auto. intros i Hi. destruct (Nat.ltb_spec i N); [|lia]. now apply val_get.
  - set (n := length elems) in *. set (bs := 2 * warp) in *. set (blocks := num_blocks active bs (n - N)).
    assert (N0 : N <> 0) by (unfold N; pose proof (pow_pos k); lia).
    assert (b0 : bs <> 0) by (unfold bs; lia). destruct (ceil_div_spec (n - N) bs b0) as [C1 C2].
    assert (Eb : blocks = Nat.min active (ceil_div (n - N) bs)) by reflexivity.
    assert (B0 : blocks <> 0).
    { rewrite Eb. pose proof (ceil_div_pos (n - N) bs b0 ltac:(lia)). lia. }
    destruct (ceil_div_spec n N N0) as [D1 D2].
    intros offs HO HF. split; [exact B0|].
    destruct (prop_kernel_runs N n blocks bs q B0 b0 Hq N0) with (y := val elems) (c := val counters) (m := elems :: counters :: offs) as (mf & R & S & G).
    + intros b Hb'. specialize (C2 b ltac:(lia)). lia.
    + rewrite Eb. destruct (Nat.le_gt_cases active (ceil_div (n - N) bs)) as [L|L]; [rewrite Nat.min_l by lia; lia|rewrite Nat.min_r by lia; lia].
    + intros i Hi. rewrite get_buf. cbn. now apply val_get.
    + intros e He. rewrite get_buf. cbn. apply val_get. rewrite HL. fold n. destruct (Nat.lt_ge_cases e (ceil_div n N)); auto. nia.
    + intros b Hb'. apply has_iff. cbn [fst snd Nat.add nth_error]. destruct (nth_error offs b) as [l|] eqn:E; [|apply nth_error_None in E; lia].
      exists l. split; auto. rewrite Forall_forall in HF. rewrite (HF l) by (eapply nth_error_In; eauto). lia.
    + eapply every_run_weaken; [|exact R]. intros m <-.
      destruct mf as [|e1 rest]; unfold same_shape in S; cbn [map] in S; try discriminate. injection S as S1 _.
      assert (E1 : e1 = map (fun i => if i <? N then val elems i else (val elems i + val counters (i / N))%Z) (seq 0 n)) by (apply list_of_get; [first [exact S1 | symmetry; exact S1]|exact G]).
      rewrite E1. exact HP.
Qed.

Lemma rsum_blocks x N m : rsum (fun e => rsum x (N * e) N) 0 m = rsum x 0 (N * m).
Proof.
  induction m as [|m IH]; [now rewrite Nat.mul_0_r|].
  replace (S m) with (m + 1) at 1 by lia. rewrite rsum_app, rsum_1, IH. replace (N * S m) with (N * m + N) by lia. rewrite rsum_app. reflexivity.
Qed.
Lemma val_map f n i : i < n -> val (map f (seq 0 n)) i = f i.
Proof.
  intros H. unfold val. erewrite nth_error_nth; [reflexivity|]. rewrite nth_error_map, (nth_error_nth' (seq 0 n) 0) by (rewrite seq_length; lia).
  rewrite seq_nth by lia. reflexivity.
Qed.
Lemma rsum_zero x s len : (forall i, s <= i -> x i = 0%Z) -> rsum x s len = 0%Z.
Proof.
  intros H. unfold rsum. revert s H. induction len as [|len IH]; intros s H; cbn; auto. rewrite IH by (intros; apply H; lia). rewrite H; auto.
Qed.
Lemma rsum_past l s len : length l <= s -> rsum (val l) s len = 0%Z.
Proof. intros H. apply rsum_zero. intros i Hi. unfold val. apply nth_overflow. lia. Qed.

Lemma scan_levels_ok active warp k : active <> 0 -> warp <> 0 -> (exists q, 2 ^ k * 2 = q * (2 * warp)) ->
  forall fuel elems (P : list Z -> Z -> Prop), elems <> [] -> length elems <= fuel -> length elems <= 2 ^ k * 2 + active * (2 * warp) ->
  P (map (rsum (val elems) 0) (seq 0 (length elems))) (rsum (val elems) 0 (length elems)) ->
  scan_levels fuel active warp k elems P.
Proof.
  intros Ha Hw Hq. induction fuel as [|fuel IH]; intros elems P Hne Hf Hone HP; [destruct elems; cbn in Hf; [congruence|lia]|].
  cbn [scan_levels]. apply scan_step_ok; auto. set (N := 2 ^ k * 2) in *. set (n := length elems) in *.
  assert (N0 : 2 <= N) by (unfold N; pose proof (pow_pos k); lia).
  assert (n0 : n <> 0) by (unfold n; destruct elems; cbn; congruence).
  destruct (ceil_div_spec n N ltac:(lia)) as [C1 C2]. pose proof (ceil_div_pos n N ltac:(lia) n0) as C0. set (ex := ceil_div n N) in *.
  rewrite map_length, seq_length.
  set (e1 := map (fun i => rsum (val elems) (N * (i / N)) (i mod N)) (seq 0 n)).
  assert (L1 : length e1 = n) by (unfold e1; now rewrite map_length, seq_length).
  set (cnt := map (fun e => rsum (val elems) (N * e) N) (seq 0 ex)).
  assert (Lc : length cnt = ex) by (unfold cnt; now rewrite map_length, seq_length).
  assert (Hout : forall cs, (forall e, 0 < e -> e < ex -> val cs e = rsum (val elems) 0 (N * e)) ->
    map (fun i => if i <? N then val e1 i else (val e1 i + val cs (i / N))%Z) (seq 0 (length e1)) = map (rsum (val elems) 0) (seq 0 n)).
  { intros cs Hcs. rewrite L1. apply map_ext_in. intros i Hi. apply in_seq in Hi. unfold e1. rewrite val_map by lia.
    pose proof (Nat.div_mod i N ltac:(lia)) as Di. destruct (Nat.ltb_spec i N) as [H|H].
    - rewrite Nat.div_small, Nat.mod_small by auto. now rewrite Nat.mul_0_r.
    - assert (0 < i / N) by (apply Nat.div_str_pos; lia). assert (i / N < ex) by (apply Nat.div_lt_upper_bound; lia).
      rewrite Hcs by auto. replace (rsum (val elems) 0 i) with (rsum (val elems) 0 (N * (i / N) + i mod N)) by (f_equal; lia).
      rewrite rsum_app. cbn [Nat.add]. lia. }
  assert (Htot : rsum (val elems) 0 (N * ex) = rsum (val elems) 0 n).
  { replace (N * ex) with (n + (N * ex - n)) by lia. rewrite rsum_app. cbn [Nat.add]. rewrite (rsum_past elems n) by (fold n; lia). lia. }
  destruct (Nat.ltb_spec 1 ex) as [Hex|Hex].
  - assert (ex < n) by (pose proof (C2 (ex - 1) ltac:(lia)); nia).
    apply IH.
    + intros E. rewrite E in Lc. cbn in Lc. lia.
    + rewrite Lc. lia.
    + rewrite Lc. lia.
    + rewrite Lc. apply prop_step_ok; fold N; auto; rewrite ?L1, ?map_length, ?seq_length; auto.
      assert (Hcs : forall e, e <= ex -> rsum (val cnt) 0 e = rsum (val elems) 0 (N * e)).
      { intros e He. rewrite <- rsum_blocks. apply rsum_ext. intros i Hi. unfold cnt. rewrite val_map by lia. reflexivity. }
      rewrite (Hcs ex) by lia. rewrite Htot.
      rewrite <- L1 at 1. rewrite Hout; auto. intros e He He'. rewrite val_map by lia. apply Hcs. lia.
  - assert (E1 : ex = 1) by lia. apply prop_step_ok; fold N; auto; rewrite ?L1; auto.
    replace (nth 0 cnt 0%Z) with (rsum (val elems) 0 n).
    + rewrite <- L1 at 1. rewrite Hout; auto. intros e He He'. lia.
    + change (nth 0 cnt 0%Z) with (val cnt 0). unfold cnt. rewrite val_map by lia. rewrite Nat.mul_0_r, <- Htot, E1. f_equal. lia.
Qed.

(** C42. For every array of at most [N + active * blockDim] entries, [N = 512]
    the entries handled by a block, and every schedule, the prefix sum
    operation replaces the entries by their exclusive prefix sums and returns
    the total. *)
Lemma C42_scan_partial_proof :
  forall active warp k elems,
    active <> 0 -> warp <> 0 -> elems <> [] -> (exists q, 2 ^ k * 2 = q * (2 * warp)) ->
    length elems <= 2 ^ k * 2 + active * (2 * warp) ->
    scan_alg active warp k elems (fun out total => prefix_sums elems out /\ total = sum_of elems).
Proof.
  intros active warp k elems Ha Hw Hne Hq Hone. apply scan_levels_ok; auto. split.
  - split; [now rewrite map_length, seq_length|]. intros i Hi.
    change (nth i ?l 0%Z) with (val l i). rewrite val_map by auto. apply rsum_firstn.
  - rewrite rsum_firstn, firstn_all. reflexivity.
Qed.
Example C42_scan_example_proof :
  scan_alg 80 32 8 [3; 0; 5; 1]%Z (fun out total => out = [0; 3; 3; 8]%Z /\ total = 9%Z).
Proof.
  apply scan_levels_ok; try lia; try discriminate; try (cbn [length]; pose proof (pow_pos 8); lia).
  - exists 8. reflexivity.
  - split; reflexivity.
Qed.
(** More than one level: 600 ones. *)
Example C42_scan_levels_example_proof :
  scan_alg 80 32 8 (repeat 1%Z 600) (fun out total => out = map Z.of_nat (seq 0 600) /\ total = 600%Z).
Proof.
  apply scan_levels_ok; try lia; try discriminate.
  - exists 8. reflexivity.
  - rewrite repeat_length. apply Nat.leb_le. vm_compute. reflexivity.
  - split; vm_compute; reflexivity.
Qed.

(** ** The race between two iterations of the second kernel *)
Lemma scan_step_both active k elems (P Q : list Z -> list Z -> Prop) :
  scan_step active k elems P -> scan_step active k elems Q -> exists e c, P e c /\ Q e c.
Proof.
  unfold scan_step. set (blocks := Nat.min _ _). intros H H'.
  set (temps := repeat (repeat 0%Z (2 ^ k * 2)) blocks).
  assert (L : length temps = blocks) by (unfold temps; apply repeat_length).
  assert (F : Forall (fun l => length l = 2 ^ k * 2) temps).
  { unfold temps. apply Forall_forall. intros l Hl. apply repeat_spec in Hl. subst l. apply repeat_length. }
  destruct (H temps L F) as [_ R]. destruct (H' temps L F) as [_ R']. destruct (every_run_both _ _ _ R R') as (m & Pm & Qm).
  destruct m as [|e [|c r]]; try contradiction. eauto.
Qed.
Lemma scan_step_det active k elems (P : list Z -> list Z -> Prop) : active <> 0 -> elems <> [] ->
  let N := 2 ^ k * 2 in
  scan_step active k elems P ->
  P (map (fun i => rsum (val elems) (N * (i / N)) (i mod N)) (seq 0 (length elems)))
    (map (fun e => rsum (val elems) (N * e) N) (seq 0 (ceil_div (length elems) N))).
Proof.
  intros Ha Hne N H. destruct (scan_step_both active k elems P (fun e c =>
    e = map (fun i => rsum (val elems) (N * (i / N)) (i mod N)) (seq 0 (length elems)) /\
    c = map (fun e => rsum (val elems) (N * e) N) (seq 0 (ceil_div (length elems) N))) H) as (e & c & Pe & -> & ->); auto.
  apply scan_step_ok; auto.
Qed.

Definition race_e1 : list Z := Eval vm_compute in map (fun i => Z.of_nat (i mod 512)) (seq 0 1088).
Definition race_start : state (mem Z) := ([race_e1; [0; 512; 1024]%Z; [0%Z]], prop_kernel 512 1088 1 64).
Definition race_end : option (state (mem Z)) := exec (in_order (snd race_start)) race_start.
Lemma race_wrong : match race_end with
  | Some s => finishedb s && match fst s with e :: _ => (nth 961 e 0 =? 1473)%Z | [] => false end
  | None => false end = true.
Proof. vm_compute. reflexivity. Qed.
Lemma race_run (P : list Z -> Prop) : prop_step 1 32 8 race_e1 [0; 512; 1024]%Z P -> exists e, P e /\ nth 961 e 0%Z = 1473%Z.
Proof.
  intros H. pose proof race_wrong as W. destruct race_end as [s|] eqn:E; [|discriminate].
  apply andb_true_iff in W as [W1 W2]. unfold race_end in E. pose proof (exec_run _ _ _ E W1) as R. clear E W1. unfold race_start in R.
  assert (H' : launch 1 [race_e1; [0; 512; 1024]%Z; [0%Z]] (prop_kernel 512 1088 1 64) (fun m => match m with e :: _ => P e | _ => False end)).
  { unfold prop_step in H. assert (L : length race_e1 = 1088) by (vm_compute; reflexivity). rewrite L in H. clear L.
    assert (L : 2 ^ 8 * 2 = 512) by (vm_compute; reflexivity). rewrite L in H. clear L.
    assert (L : (1088 <=? 512) = false) by (vm_compute; reflexivity). rewrite L in H. clear L. cbv zeta in H.
    assert (L : num_blocks 1 (2 * 32) (1088 - 512) = 1) by (vm_compute; reflexivity). rewrite L in H. clear L.
    assert (L : 2 * 32 = 64) by reflexivity. rewrite L in H. clear L.
    specialize (H [[0%Z]]). apply H; [reflexivity|]. constructor; [reflexivity|constructor]. }
  destruct H' as [_ H']. pose proof (every_run_some _ _ _ H' R) as Pm. cbn beta in Pm.
  destruct (fst s) as [|e r]; [discriminate|]. exists e. split; auto. now apply Z.eqb_eq.
Qed.

Lemma scan_levels_S f active warp k elems P : scan_levels (S f) active warp k elems P =
  scan_step active k elems (fun elems' counters =>
      if 1 <? length counters
      then scan_levels f active warp k counters (fun counters' total =>
             prop_step active warp k elems' counters' (fun out => P out total))
      else prop_step active warp k elems' counters (fun out => P out (nth 0 counters 0%Z))).
Proof. reflexivity. Qed.
Lemma race_top f ones (P : list Z -> Z -> Prop) : ones = repeat 1%Z 1088 ->
  scan_levels (S (S f)) 1 32 8 ones P -> exists e, P e 1088%Z /\ nth 961 e 0%Z = 1473%Z.
Proof.
  intros Eo H. rewrite scan_levels_S in H.
  apply scan_step_det in H; [|lia|rewrite Eo; discriminate]. cbv zeta in H.
  set (e1 := map _ (seq 0 (length ones))) in H.
  assert (E1 : e1 = race_e1) by (unfold e1; rewrite Eo; vm_compute; reflexivity).
  set (cnt := map _ (seq 0 (ceil_div _ _))) in H. assert (Ec : cnt = [512; 512; 64]%Z) by (unfold cnt; rewrite Eo; vm_compute; reflexivity).
  clearbody e1 cnt. rewrite E1, Ec in H. clear e1 cnt E1 Ec. change (1 <? length [512; 512; 64]%Z) with true in H. cbv iota in H.
  rewrite scan_levels_S in H. apply scan_step_det in H; [|lia|discriminate]. cbv zeta in H.
  set (e2 := map _ (seq 0 (length _))) in H. assert (E2 : e2 = [0; 512; 1024]%Z) by (vm_compute; reflexivity).
  set (cnt := map _ (seq 0 (ceil_div _ _))) in H. assert (Ec : cnt = [1088]%Z) by (vm_compute; reflexivity).
  clearbody e2 cnt. rewrite E2, Ec in H. clear e2 cnt E2 Ec. change (1 <? length [1088]%Z) with false in H. cbv iota in H.
  unfold prop_step at 1 in H. replace (length [0; 512; 1024]%Z <=? 2 ^ 8 * 2) with true in H by (vm_compute; reflexivity).
  cbv zeta iota in H. change (nth 0 [1088]%Z 0%Z) with 1088%Z in H. exact (race_run _ H).
Qed.

(** The full statement of C42 fails: with one active block of 64 threads and
    1088 entries equal to one, the second kernel adds a block offset that was
    already replaced by the next one. *)
Lemma C42_scan_race_refuted_proof :
  ~ scan_alg 1 32 8 (repeat 1%Z 1088) (fun out total => prefix_sums (repeat 1%Z 1088) out /\ total = sum_of (repeat 1%Z 1088)).
Proof.
  remember (repeat 1%Z 1088) as ones eqn:Eo. unfold scan_alg. assert (L : 961 < length ones) by (rewrite Eo, repeat_length; lia).
  generalize (S (length ones)), (le_S _ _ L). intros f Lf H. destruct f as [|[|f]]; [lia|lia|].
  apply (race_top f ones _ Eo) in H as (e & [[_ H] _] & W). specialize (H 961 L). rewrite W, Eo in H. vm_compute in H. discriminate.
Qed.
(** An empty array is not accepted: the kernel is launched without blocks. *)
Lemma C42_scan_empty_proof : forall active warp k (P : list Z -> Z -> Prop), ~ scan_alg active warp k [] P.
Proof.
  intros active warp k P H. unfold scan_alg in H. cbn [length scan_levels] in H. unfold scan_step in H.
  replace (ceil_div (length []) (2 ^ k * 2)) with 0 in H.
  - rewrite Nat.min_0_r in H. destruct (H [] eq_refl (Forall_nil _)) as [X _]. congruence.
  - unfold ceil_div. cbn [length]. rewrite Nat.div_0_l, Nat.mod_0_l; [reflexivity|..]; pose proof (pow_pos k); lia.
Qed.
(** With one entry it completes. *)
Example C42_scan_empty_ex_proof :
  ~ scan_alg 80 32 8 [] (fun _ _ => True) /\ scan_alg 80 32 8 [7%Z] (fun out total => out = [0%Z] /\ total = 7%Z).
Proof.
  split; [apply C42_scan_empty_proof|].
  apply scan_levels_ok; try lia; try discriminate; try (cbn [length]; pose proof (pow_pos 8); lia).
  - exists 8. reflexivity.
  - split; reflexivity.
Qed.
