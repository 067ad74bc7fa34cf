(** Proofs about cell averages in float32 (C76). The statements are copied into
    PropertiesFloatAverage.v. *)
From Coq Require Import String List Arith ZArith QArith Qround Qabs Qreals Rdefinitions RIneq Lia Lqa Bool Permutation Sorted.
From Flocq Require Import Core.
From Verif Require Import Tensor TensorFacts Spec PointCloud SpecCloud History PointCloudFacts QFacts CloudProofs
  Grid SpecGrid GridFacts Neighbors SpecNeighbors NeighborFacts NeighborProofs Neighborhood NeighborhoodFacts
  Sampling SpecSampling SamplingFacts SamplingProofs
  Float FloatFacts FloatGrid SpecFloat KeyGridFacts FloatGridFacts FloatProofs FloatSampling SpecFloatSampling FloatSampleProofs
  FloatNorm FloatNormProofs FloatAverage SpecFloatAverage.
Import ListNotations.
Local Open Scope Q_scope.

(** * Exact numbers *)
Local Instance p24'' : Prec_gt_0 24.
Proof. reflexivity. Qed.
Lemma f32_of_format (x : Q) : generic_format radix2 (FLT_exp (-149) 24) (Q2R x) -> f32 x == x.
Proof. intros H. apply eqR_Qeq. rewrite f32_ok. apply round_generic; [apply valid_rnd_N|exact H]. Qed.
Lemma format_of_f32 (x : Q) : f32 x == x -> generic_format radix2 (FLT_exp (-149) 24) (Q2R x).
Proof. intros H. apply Qeq_eqR in H. rewrite f32_ok in H. rewrite <- H. apply generic_format_round; [typeclasses eauto|apply valid_rnd_N]. Qed.
Lemma f32_count (z : Z) : (Z.abs z < 2 ^ 24)%Z -> f32 (inject_Z z) == inject_Z z.
Proof.
  intros H. apply f32_of_format. rewrite Q2R_inject. apply generic_format_FLT. exists (Float radix2 z 0).
  - unfold F2R. cbn [Fnum Fexp bpow]. now rewrite Rmult_1_r.
  - exact H.
  - cbn. lia.
Qed.
Lemma f32_double (x : Q) : f32 x == x -> f32 (2 * x) == 2 * x.
Proof.
  intros H. apply f32_of_format. apply format_of_f32, FLT_format_generic in H; [|typeclasses eauto]. destruct H as [[m e] H1 H2 H3].
  apply generic_format_FLT. exists (Float radix2 m (e + 1)); [|exact H2|cbn in *; lia].
  rewrite Q2R_mult, H1. unfold F2R. cbn [Fnum Fexp]. rewrite bpow_plus. change (bpow radix2 1) with 2%R. replace (Q2R 2) with 2%R by (unfold Q2R; cbn; field). ring.
Qed.

(** * Sums of numbers of any sign *)
Lemma abs_step u e n1 n2 a b S1 S2 T1 T2 f : 0 < u -> 0 < e -> 1 <= n1 -> 1 <= n2 -> (n1 + n2) * u <= 1 # 2 -> 0 <= T1 -> 0 <= T2 ->
  Qabs S1 <= T1 -> Qabs S2 <= T2 ->
  Qabs (a - S1) <= 2 * (n1 - 1) * u * T1 + 2 * (n1 - 1) * e -> Qabs (b - S2) <= 2 * (n2 - 1) * u * T2 + 2 * (n2 - 1) * e ->
  Qabs (f - (a + b)) <= Qabs (a + b) * u + e ->
  Qabs (f - (S1 + S2)) <= 2 * (n1 + n2 - 1) * u * (T1 + T2) + 2 * (n1 + n2 - 1) * e.
Proof.
  intros Hu He H1 H2 Hs HT1 HT2 HS1 HS2 Ha Hb Hf.
  assert (X : Qabs (f - (S1 + S2)) <= Qabs (f - (a + b)) + (Qabs (a - S1) + Qabs (b - S2))).
  { setoid_replace (f - (S1 + S2)) with ((f - (a + b)) + ((a - S1) + (b - S2))) by ring.
    eapply Qle_trans; [apply Qabs_triangle|]. apply Qplus_le_r, Qabs_triangle. }
  assert (Y : Qabs (a + b) <= (T1 + T2) + (Qabs (a - S1) + Qabs (b - S2))).
  { setoid_replace (a + b) with ((S1 + S2) + ((a - S1) + (b - S2))) by ring.
    eapply Qle_trans; [apply Qabs_triangle|]. apply Qplus_le_compat; [|apply Qabs_triangle].
    eapply Qle_trans; [apply Qabs_triangle|]. lra. }
  set (A := Qabs (a - S1) + Qabs (b - S2)) in *. set (T := T1 + T2) in *. set (n := n1 + n2) in *.
  assert (HA : A <= 2 * (n - 2) * u * T + 2 * (n - 2) * e).
  { unfold A, n, T. assert (Z1 : 0 <= u * T1) by (apply Qmult_le_0_compat; lra). assert (Z2 : 0 <= u * T2) by (apply Qmult_le_0_compat; lra).
    assert (Z3 : 0 <= (n2 - 1) * (u * T1)) by (apply Qmult_le_0_compat; lra). assert (Z4 : 0 <= (n1 - 1) * (u * T2)) by (apply Qmult_le_0_compat; lra). lra. }
  assert (H3 : Qabs (a + b) * u <= (T + A) * u) by (apply Qmult_le_compat_r; [exact Y|lra]).
  assert (H4 : A * u <= (2 * (n - 2) * u * T + 2 * (n - 2) * e) * u) by (apply Qmult_le_compat_r; [exact HA|lra]).
  assert (HT : 0 <= T) by (unfold T; lra). assert (Hn : 0 <= n - 2) by (unfold n; lra).
  assert (H5 : 2 * (n - 2) * u <= 1) by (fold n in Hs; lra).
  assert (H6 : 2 * (n - 2) * u * (T * u) <= 1 * (T * u)) by (apply Qmult_le_compat_r; [exact H5|apply Qmult_le_0_compat; lra]).
  assert (H7 : 2 * (n - 2) * u * e <= 1 * e) by (apply Qmult_le_compat_r; [exact H5|lra]).
  lra.
Qed.

Lemma qsum_abs l : Qabs (qsum l) <= qsum (map Qabs l).
Proof.
  induction l as [|x l IH]; cbn [map]; unfold qsum in *; cbn [fold_right]; [apply Qle_refl|].
  eapply Qle_trans; [apply Qabs_triangle|]. lra.
Qed.
Lemma qsum_abs_nonneg l : 0 <= qsum (map Qabs l).
Proof. apply qsum_nonneg, Forall_map, Forall_forall. intros x _. apply Qabs_nonneg. Qed.

Lemma sum32_abs l s : sum32 l s -> inject_Z (Z.of_nat (length l)) * pow2 (-24) <= 1 # 2 ->
  let n := inject_Z (Z.of_nat (length l)) in
  1 <= n /\ Qabs (s - qsum l) <= 2 * (n - 1) * pow2 (-24) * qsum (map Qabs l) + 2 * (n - 1) * pow2 (-150).
Proof.
  assert (Hu : 0 < pow2 (-24)) by apply pow2_pos. assert (He : 0 < pow2 (-150)) by apply pow2_pos.
  assert (Hf := f32_err). set (u := pow2 (-24)) in *. set (e := pow2 (-150)) in *. clearbody u e.
  induction 1 as [x|l l1 l2 a b P H1 IH1 H2 IH2]; intros Hl; cbv zeta in *.
  - unfold qsum. cbn [fold_right length map]. change (inject_Z (Z.of_nat 1)) with 1. split; [apply Qle_refl|].
    setoid_replace (x - (x + 0)) with 0 by ring. change (Qabs 0) with 0. lra.
  - assert (El : inject_Z (Z.of_nat (length l)) == inject_Z (Z.of_nat (length l1)) + inject_Z (Z.of_nat (length l2))).
    { rewrite (Permutation_length P), app_length, Nat2Z.inj_add, inject_Z_plus. reflexivity. }
    assert (P1 : 0 <= inject_Z (Z.of_nat (length l1))) by (change 0 with (inject_Z 0); rewrite <- Zle_Qle; lia).
    assert (P2 : 0 <= inject_Z (Z.of_nat (length l2))) by (change 0 with (inject_Z 0); rewrite <- Zle_Qle; lia).
    assert (Es : qsum l == qsum l1 + qsum l2) by (rewrite (qsum_perm _ _ P); apply qsum_app).
    assert (Et : qsum (map Qabs l) == qsum (map Qabs l1) + qsum (map Qabs l2)).
    { rewrite (qsum_perm _ _ (Permutation_map Qabs P)), map_app. apply qsum_app. }
    pose proof (qsum_abs l1) as B1. pose proof (qsum_abs l2) as B2. pose proof (qsum_abs_nonneg l1) as C1. pose proof (qsum_abs_nonneg l2) as C2.
    specialize (Hf (a + b)).
    set (n := inject_Z (Z.of_nat (length l))) in *. set (n1 := inject_Z (Z.of_nat (length l1))) in *. set (n2 := inject_Z (Z.of_nat (length l2))) in *.
    rewrite El in Hl. destruct (IH1 ltac:(nra)) as (A1 & A2). destruct (IH2 ltac:(nra)) as (A3 & A4). split; [lra|].
    rewrite El, Es, Et. apply (abs_step u e n1 n2 a b); auto.
Qed.

(** * The mean of numbers of bounded magnitude *)
Lemma qsum_bound l m : Forall (fun x => Qabs x <= m) l -> qsum (map Qabs l) <= inject_Z (Z.of_nat (length l)) * m.
Proof.
  induction 1 as [|x l H F IH]; unfold qsum in *; cbn [map fold_right length]; [change (inject_Z (Z.of_nat 0)) with 0; lra|].
  rewrite Nat2Z.inj_succ, <- Z.add_1_r, inject_Z_plus. change (inject_Z 1) with 1. lra.
Qed.
Lemma mean_step u e n m s S f : 0 < u -> 0 < e -> u <= 1 # 16 -> 1 <= n -> n * u <= 1 # 2 -> 0 <= m -> Qabs S <= n * m ->
  Qabs (s - S) <= 2 * (n - 1) * u * (n * m) + 2 * (n - 1) * e -> Qabs (f - s / n) <= Qabs (s / n) * u + e ->
  Qabs (f - S / n) <= 2 * n * u * m + 4 * e.
Proof.
  intros Hu He Hu1 Hn Hnu Hm HS Hs Hf. assert (Hi : 0 < / n) by (apply Qinv_lt_0_compat; lra). assert (Hin : n * / n == 1) by (field; lra).
  assert (Hi1 : / n <= 1) by nra.
  assert (X : Qabs (s / n - S / n) <= 2 * (n - 1) * u * m + 2 * e).
  { setoid_replace (s / n - S / n) with ((s - S) * / n) by (field; lra). rewrite Qabs_Qmult, (Qabs_pos (/ n)) by lra.
    eapply Qle_trans; [apply Qmult_le_compat_r; [exact Hs|lra]|].
    setoid_replace ((2 * (n - 1) * u * (n * m) + 2 * (n - 1) * e) * / n) with (2 * (n - 1) * u * m * (n * / n) + 2 * e * (n * / n) - 2 * e * / n) by ring.
    rewrite Hin. assert (0 <= e * / n) by (apply Qmult_le_0_compat; lra). lra. }
  assert (Y : Qabs (S / n) <= m).
  { unfold Qdiv. rewrite Qabs_Qmult, (Qabs_pos (/ n)) by lra. eapply Qle_trans; [apply Qmult_le_compat_r; [exact HS|lra]|].
    setoid_replace (n * m * / n) with (m * (n * / n)) by ring. rewrite Hin. lra. }
  assert (Z : Qabs (s / n) <= Qabs (S / n) + Qabs (s / n - S / n)).
  { setoid_replace (s / n) with (S / n + (s / n - S / n)) at 1 by ring. apply Qabs_triangle. }
  assert (W : Qabs (f - S / n) <= Qabs (f - s / n) + Qabs (s / n - S / n)).
  { setoid_replace (f - S / n) with ((f - s / n) + (s / n - S / n)) by ring. apply Qabs_triangle. }
  set (q := Qabs (s / n)) in *.
  assert (H1 : (n - 1) * u * m <= (1 # 2) * m) by (apply Qmult_le_compat_r; lra).
  assert (Hq : q <= 2 * m + 2 * e) by lra.
  assert (H2 : q * u <= (2 * m + 2 * e) * u) by (apply Qmult_le_compat_r; lra).
  assert (H3 : e * u <= e * (1 # 16)) by (apply Qmult_le_l; lra).
  lra.
Qed.
Lemma mean_close l s m v : sum32 l s -> (Z.of_nat (length l) <= 2 ^ 23)%Z -> Forall (fun x => Qabs x <= m) l ->
  let n := inject_Z (Z.of_nat (length l)) in
  v == f32 (s / f32 n) -> Qabs (v - qsum l / n) <= m * (n / 8388608) + pow2 (-148).
Proof.
  intros Hs Hl Hm n Hv.
  assert (Hn : n * pow2 (-24) <= 1 # 2).
  { change (pow2 (-24)) with (1 # 16777216). assert (n <= 8388608) by (unfold n; change 8388608 with (inject_Z (2 ^ 23)); rewrite <- Zle_Qle; exact Hl). lra. }
  destruct (sum32_abs l s Hs Hn) as [H1 H2]. cbv zeta in *. fold n in H1, H2.
  assert (En : f32 n == n) by (apply f32_count; lia).
  assert (Ev : v == f32 (s / n)) by (rewrite Hv; apply f32_comp; rewrite En; reflexivity).
  assert (Hm0 : 0 <= m). { destruct l as [|x l]; [unfold n in H1; cbn in H1; change (inject_Z 0) with 0 in H1; lra|]. apply Forall_inv in Hm. pose proof (Qabs_nonneg x). lra. }
  pose proof (qsum_bound l m Hm) as HB. fold n in HB.
  rewrite Ev. pose proof (f32_err (s / n)) as He. set (f := f32 (s / n)) in *.
  assert (Hu : 0 < pow2 (-24)) by apply pow2_pos. assert (Hee : 0 < pow2 (-150)) by apply pow2_pos.
  assert (X : Qabs (f - qsum l / n) <= 2 * n * pow2 (-24) * m + 4 * pow2 (-150)).
  { apply (mean_step _ _ n m s); auto.
    - vm_compute; discriminate.
    - eapply Qle_trans; [apply qsum_abs|exact HB].
    - eapply Qle_trans; [exact H2|]. apply Qplus_le_l. apply Qmult_le_l'; [|exact HB].
      apply Qmult_le_0_compat; lra. }
  eapply Qle_trans; [exact X|]. apply Qle_lteq. right.
  setoid_replace (pow2 (-148)) with (4 * pow2 (-150)) by reflexivity. change (pow2 (-24)) with (1 # 16777216). field.
Qed.

(** * One and two numbers *)
Lemma sum32_nonempty l s : sum32 l s -> (1 <= length l)%nat.
Proof. induction 1 as [x|l l1 l2 a b P _ IH1 _ IH2]; [cbn; lia|]. rewrite (Permutation_length P), app_length. lia. Qed.
Lemma sum32_single x s : sum32 [x] s -> s = x.
Proof.
  intros H. inversion H as [|l l1 l2 a b P H1 H2]; subst; [reflexivity|]. exfalso.
  apply sum32_nonempty in H1, H2. apply Permutation_length in P. rewrite app_length in P. cbn in P. lia.
Qed.
Lemma sum32_pair l s lo hi : sum32 l s -> length l = 2%nat -> f32 lo == lo -> f32 hi == hi -> Forall (fun x => lo <= x <= hi) l -> 2 * lo <= s <= 2 * hi.
Proof.
  intros H Hl Flo Fhi F. destruct H as [x|l l1 l2 a b P H1 H2]; [discriminate|].
  pose proof (sum32_nonempty _ _ H1) as N1. pose proof (sum32_nonempty _ _ H2) as N2.
  assert (Hl2 := Permutation_length P). rewrite app_length, Hl in Hl2.
  destruct l1 as [|x [|? ?]]; cbn [length] in *; try lia. destruct l2 as [|y [|? ?]]; cbn [length] in *; try lia.
  apply sum32_single in H1, H2. subst a b. apply (Permutation_Forall P) in F. cbn [app] in F. inversion F as [|? ? Fx F']; subst. inversion F' as [|? ? Fy _]; subst. cbv beta in *.
  rewrite <- (f32_double lo Flo), <- (f32_double hi Fhi). split; apply f32_mono; lra.
Qed.
Lemma mean_single (x v : Q) : f32 x == x -> v == f32 (x / f32 (inject_Z (Z.of_nat 1))) -> v == x.
Proof. intros F ->. rewrite <- F at 2. apply f32_comp. change (f32 (inject_Z (Z.of_nat 1))) with 1. field. Qed.
Lemma mean_pair s v lo hi : 2 * lo <= s <= 2 * hi -> f32 lo == lo -> f32 hi == hi -> v == f32 (s / f32 (inject_Z (Z.of_nat 2))) -> lo <= v <= hi.
Proof.
  intros Hs Flo Fhi ->. rewrite <- Flo at 1. rewrite <- Fhi. change (f32 (inject_Z (Z.of_nat 2))) with 2. assert (E : s / 2 * 2 == s) by field.
  split; apply f32_mono; lra.
Qed.

(** * The groups *)
Section Groups.
  Context (D : nat) (rows : list point) (ids : list nat) (same : nat -> nat -> Prop) (n : nbh) (avg : nat -> list point -> point).
  Let N := length ids.
  Let g := ngrid n.
  Hypothesis Lk : length (gkeys g) = N.
  Hypothesis Hsidx : gsidx g = argsort_desc (gkeys g).
  Hypothesis Ek : gskeys g = map (fun i => nth i (gkeys g) 0%Z) (gsidx g).
  Hypothesis Ep : gspts g = map (fun i => nth i rows []) (gsidx g).
  Hypothesis Eb : gsbids g = map (fun i => nth i ids 0%nat) (gsidx g).
  Hypothesis Hkey : forall i j, (i < N)%nat -> (j < N)%nat ->
    (nth i (gkeys g) 0%Z = nth j (gkeys g) 0%Z <-> nth i ids 0%nat = nth j ids 0%nat /\ same i j).

  Local Open Scope nat_scope.
  Lemma groups_ok :
    exists groups sel, cell_groups D same ids groups /\ length sel = length groups /\ Forall (fun j => j < N) sel /\
      sampling_average32 avg n = Ok (map (fun k => avg k (map (fun i => nth i rows []) (nth k groups []))) (seq 0 (length groups)), map (fun i => nth i ids 0) (map (fun j => nth j (gsidx g) 0) sel), sel) /\
      forall k i, k < length groups -> In i (nth k groups []) -> i < N /\ nth (nth (nth k sel 0) (gsidx g) 0) ids 0 = nth i ids 0.
  Proof using Lk Hsidx Ek Ep Eb Hkey.
    assert (Pm : Permutation (gsidx g) (seq 0 N)) by (rewrite Hsidx, <- Lk; apply argsort_perm).
    assert (Li : length (gsidx g) = N) by (rewrite (Permutation_length Pm); apply seq_length).
    assert (Lt : forall j, j < N -> nth j (gsidx g) 0 < N).
    { intros j Hj. assert (In (nth j (gsidx g) 0) (gsidx g)) by (apply nth_In; lia). apply (Permutation_in _ Pm), in_seq in H. lia. }
    assert (Ls : length (gskeys g) = N) by (rewrite Ek, map_length; exact Li).
    assert (Lp : length (gspts g) = N) by (rewrite Ep, map_length; exact Li).
    assert (Lb : length (gsbids g) = N) by (rewrite Eb, map_length; exact Li).
    assert (Ms : forall A (f : nat -> A) e j, j < N -> nth j (map f (gsidx g)) e = f (nth j (gsidx g) 0)).
    { intros A f e j Hj. rewrite (nth_indep _ e (f 0)) by (rewrite map_length; lia). apply map_nth. }
    assert (Sk : StronglySorted (fun a b => (b <= a)%Z) (gskeys g)).
    { apply (StronglySorted_of_nth _ _ 0%Z). intros j k Hjk Hk. rewrite Ls in Hk. rewrite Ek, !Ms by lia. rewrite Hsidx.
      pose proof (argsort_sorted (fun a b => (b <=? a)%Z) 0%Z desc_total desc_trans (gkeys g)) as HS.
      assert (Hk' : k < length (argsort_desc (gkeys g))) by (unfold argsort_desc; rewrite argsort_length, Lk; exact Hk).
      pose proof (StronglySorted_nth _ _ j k 0 HS Hjk Hk') as [H1 _]. fold (argsort_desc (gkeys g)) in *. now apply Z.leb_le in H1. }
    pose proof (new_keys_spec (gskeys g) Sk) as Hk. cbv zeta in Hk. set (U := uniq Z.eqb (gskeys g)) in *.
    destruct Hk as (nk & Enk & Lnk & Bnk & Snk). rewrite Ls in *.
    assert (HU : NoDup U) by apply (uniq_NoDup Z.eqb Z.eqb_spec).
    assert (Hnk : forall j, j < N -> nth j nk 0 < length U).
    { intros j Hj. rewrite Forall_forall in Bnk. apply Bnk, nth_In. lia. }
    set (grp k := positions k nk).
    assert (Hgrp : forall k j, In j (grp k) <-> j < N /\ nth j nk 0 = k).
    { intros k j. unfold grp, positions. rewrite filter_In, in_seq, Lnk, Nat.eqb_eq. intuition lia. }
    assert (Hne : forall k, k < length U -> grp k <> []).
    { intros k Hk E. assert (Hin : In (nth k U 0%Z) (gskeys g)) by (apply (proj1 (uniq_In Z.eqb Z.eqb_spec _ _)), nth_In, Hk).
      apply (In_nth _ _ 0%Z) in Hin as (j & Hj & Ej). rewrite Ls in Hj.
      assert (In j (grp k)); [|rewrite E in *; contradiction]. apply Hgrp. split; [exact Hj|].
      apply (proj1 (NoDup_nth U 0%Z) HU); auto. now rewrite (Snk j Hj). }
    set (sel := map (fun s => hd 0 (grp s)) (seq 0 (length U))).
    assert (Hsel : Forall (fun j => j < N) sel).
    { apply Forall_map, Forall_forall. intros k Hk. apply in_seq in Hk. specialize (Hne k ltac:(lia)).
      destruct (grp k) as [|j r] eqn:E; [congruence|]. cbn.
      assert (In j (grp k)) by (rewrite E; now left). now apply Hgrp in H. }
    assert (Hseg : forall A (l : list A) d k, length l = N -> segment k l nk = map (fun i => nth i l d) (grp k)).
    { intros A l d k H. apply segment_positions. lia. }
    assert (Hk2 : forall i j, i < N -> j < N ->
       (nth i nk 0 = nth j nk 0 <-> nth (nth i (gsidx g) 0) ids 0 = nth (nth j (gsidx g) 0) ids 0 /\ same (nth i (gsidx g) 0) (nth j (gsidx g) 0))).
    { intros i j Hi Hj. rewrite <- Hkey by auto. pose proof (Snk i Hi) as Ei. pose proof (Snk j Hj) as Ej. rewrite Ek, !Ms in Ei, Ej by assumption.
      rewrite <- Ei, <- Ej. split; [congruence|]. intros E. apply (proj1 (NoDup_nth U 0%Z) HU); auto. }
    exists (map (fun k => map (fun j => nth j (gsidx g) 0) (grp k)) (seq 0 (length U))), sel.
    split; [split; [|split]|split; [|split; [exact Hsel|split]]].
    - rewrite <- (map_map grp (map (fun j => nth j (gsidx g) 0))). rewrite <- concat_map.
      transitivity (map (fun j => nth j (gsidx g) 0) (seq 0 N)).
      + apply Permutation_map. unfold grp, positions. rewrite Lnk. apply groups_perm.
        apply Forall_forall. intros j Hj. apply in_seq in Hj. apply Hnk. lia.
      + rewrite <- Li, map_nth_seq. exact Pm.
    - apply Forall_map, Forall_forall. intros k Hk E. apply in_seq in Hk. apply map_eq_nil in E. apply (Hne k); [lia|exact E].
    - intros i j Hi Hj. fold N in Hi, Hj.
      assert (Hs : forall i, i < N -> exists a, a < N /\ nth a (gsidx g) 0 = i).
      { intros x Hx. assert (Hin : In x (gsidx g)) by (apply (Permutation_in _ (Permutation_sym Pm)), in_seq; lia).
        apply (In_nth _ _ 0) in Hin as (a & Ha & Ea). exists a. split; [lia|exact Ea]. }
      split.
      + intros (gr & Hg & H1 & H2). apply in_map_iff in Hg as (k & <- & Hk).
        apply in_map_iff in H1 as (a & <- & Ha). apply in_map_iff in H2 as (b & <- & Hb).
        apply Hgrp in Ha as [Ha Ea]. apply Hgrp in Hb as [Hb Eb']. apply Hk2; [assumption..|congruence].
      + intros H. destruct (Hs i Hi) as (a & Ha & <-). destruct (Hs j Hj) as (b & Hb & <-).
        apply Hk2 in H; [|assumption..]. eexists. split; [apply in_map_iff; exists (nth a nk 0); split; [reflexivity|]|].
        * apply in_seq. specialize (Hnk a Ha). lia.
        * split; apply (in_map (fun j => nth j (gsidx g) 0)); apply Hgrp; auto.
    - unfold sel. now rewrite !map_length, !seq_length.
    - unfold sampling_average32. fold g. unfold unique_with_counts. fold U. rewrite Enk. cbn [bind].
      assert (E1 : map (fun s => hd 0 (segment s (seq 0 (length (gspts g))) nk)) (seq 0 (length U)) = sel).
      { apply map_ext. intros k. rewrite (Hseg _ _ 0) by (rewrite seq_length; exact Lp).
        f_equal. rewrite <- (map_id (grp k)) at 2. apply map_ext_in. intros i Hi. apply Hgrp in Hi as [Hi _].
        rewrite seq_nth; lia. }
      rewrite E1, (gather_map _ _ 0) by (rewrite Lb; exact Hsel). cbn [bind]. rewrite map_length, seq_length.
      do 3 f_equal.
      + apply map_ext_in. intros k Hk. apply in_seq in Hk. rewrite nth_map_seq by lia. f_equal. rewrite (Hseg _ _ []) by exact Lp.
        rewrite map_map. apply map_ext_in. intros j Hj. apply Hgrp in Hj as [Hj _]. rewrite Ep. now apply Ms.
      + rewrite map_map. apply map_ext_in. intros j Hj. rewrite Forall_forall in Hsel. rewrite Eb. now apply Ms, Hsel.
    - intros k i Hk Hi. rewrite map_length, seq_length in Hk. rewrite nth_map_seq in Hi by exact Hk.
      apply in_map_iff in Hi as (j & <- & Hj). apply Hgrp in Hj as [Hj Ej]. split; [now apply Lt|].
      unfold sel. rewrite nth_map_seq by exact Hk. specialize (Hne k Hk).
      destruct (grp k) as [|h r] eqn:E; [congruence|]. cbn [hd].
      assert (Hh : In h (grp k)) by (rewrite E; now left). apply Hgrp in Hh as [Hh Eh]. apply Hk2; [assumption..|congruence].
  Qed.
End Groups.

(** * The sample *)
Lemma get_DS_keys dev g : let g' := fst (get_DS dev g) in
  gcloud g' = gcloud g /\ gspts g' = gspts g /\ gsbids g' = gsbids g /\ gsidx g' = gsidx g /\ gkeys g' = gkeys g /\ gskeys g' = gskeys g.
Proof. unfold get_DS. destruct (gds g); cbn; [repeat split|]. destruct (build_grid_ds _ _ _ _); cbn; repeat split. Qed.
Lemma find32_keys test g c radii : let g' := fst (find_neighbors32 GPU test g c radii) in
  gcloud g' = gcloud g /\ gspts g' = gspts g /\ gsbids g' = gsbids g /\ gsidx g' = gsidx g /\ gkeys g' = gkeys g /\ gskeys g' = gskeys g.
Proof.
  unfold find_neighbors32. destruct (bcast _ _) as [|r0 [|r1 l]]; cbn [fst]; [repeat split..|]. destruct (_ || _ || _)%bool; cbn [fst]; [repeat split|].
  destruct (gather _ _); cbn [fst]; [|repeat split]. pose proof (get_DS_keys GPU g) as H. destruct (get_DS GPU g) as [g' ds]. exact H.
Qed.
Lemma nbh32_grid test g radii centers mx n : snd (mk_nbh (search32 test) g radii centers mx) = Ok n ->
  let g' := ngrid n in
  gcloud g' = gcloud g /\ gspts g' = gspts g /\ gsbids g' = gsbids g /\ gsidx g' = gsidx g /\ gkeys g' = gkeys g /\ gskeys g' = gskeys g.
Proof.
  unfold mk_nbh. destruct (match centers with Some p => Ok p | None => sorted_cloud g end) as [c|]; [|discriminate]. unfold search32.
  pose proof (find32_keys test g c (bcast (dim (gcloud g)) radii)) as K. destruct (find_neighbors32 _ _ _ _ _) as [g' rs]. cbn [fst snd] in *.
  destruct rs as [[rg nbs]|]; cbn [bind fst snd]; [|discriminate]. destruct (original_ids _ _); cbn [bind]; [|discriminate]. intros E. inversion E; subst. exact K.
Qed.

Local Open Scope nat_scope.
(** C76. Cell average sampling in float32, for every order in which the
    coordinates of a cell are added. *)
Lemma C76_averages_partial_proof :
  forall test eps D rows ids B p cs g radii centers max_neighbors n avg,
    cloud GPU eps D rows ids B p -> float32_batch D rows ids -> mk_grid32 GPU p cs = Ok g ->
    (Z.of_nat (length ids) <= 2 ^ 23)%Z -> (Z.of_nat B * product (gnc g) <= 2 ^ 31)%Z ->
    (forall lo i d, i < length ids -> d < D -> lower_corner32 D rows ids (nth i ids 0) lo ->
       Qfloor (position32 (nth d lo 0%Q) (nth d (gcells g) 0%Q) (xc rows i d)) <> nth d (gnc g) 0%Z) ->
    snd (mk_nbh (search32 test) g radii centers max_neighbors) = Ok n -> averages32 D avg ->
    exists q, sample_average32 avg n = Ok q /\ cell_average32 D (gcells g) rows ids (pts q) (bids q) /\
      dim q = D /\ bsize q = bsize (nsampled n).
Proof.
  intros test eps D rows ids B p cs g radii centers mx n avg Hc Hf E HN Ho Hfit En Ha.
  pose proof Hc as Hc'. apply cloud_is in Hc'. pose proof (mk_grid32_is GPU eps D rows ids B p cs g Hc' E) as G. set (cells := bcast D (map f32 cs)) in *.
  destruct (nbh32_grid _ _ _ _ _ _ En) as (K1 & K2 & K3 & K4 & K5 & K6). cbv zeta in *.
  pose proof (h_len _ _ _ _ _ _ G) as Hl.
  assert (Hfit' : forall i d, i < length ids -> d < D -> cell32 D rows ids cells i d <> nth d (gnc g) 0%Z).
  { intros i d Hi Hd. assert (Hlo : lower_corner32 D rows ids (nth i ids 0) (lo32 D rows ids (nth i ids 0))) by (apply lo32_corner; [exact Hl|now apply nth_In]).
    specialize (Hfit _ i d Hi Hd Hlo). rewrite (h_cells _ _ _ _ _ _ G) in Hfit. exact Hfit. }
  destruct (groups_ok D rows ids (fun i j => forall d, d < D -> cell32 D rows ids cells i d = cell32 D rows ids cells j d) n avg) as (groups & sel & HG & Lsel & Fsel & ES & Hin); rewrite ?K1, ?K2, ?K3, ?K4, ?K5, ?K6.
  - rewrite (h_keys _ _ _ _ _ _ G), map_length, seq_length. reflexivity.
  - apply (h_sidx _ _ _ _ _ _ G).
  - apply (h_skeys _ _ _ _ _ _ G).
  - apply (h_spts _ _ _ _ _ _ G).
  - apply (h_sbids _ _ _ _ _ _ G).
  - intros i j Hi Hj. exact (keys32_inj D rows ids B cells g G Hf Hfit' Ho i j Hi Hj).
  - unfold sample_average32. rewrite ES. cbn [bind].
    rewrite (sampled_cloud_ok n D) by (first [rewrite K1; apply (h_dim _ _ _ _ _ _ G)|rewrite !map_length, seq_length; congruence]).
    eexists. split; [reflexivity|]. split; [|split; reflexivity]. cbn [pts bids seg].
    exists (lo32 D rows ids), groups. split; [intros b Hb; apply lo32_corner; [exact Hl|exact Hb]|].
    cbv zeta. rewrite (h_cells _ _ _ _ _ _ G). split; [exact HG|]. split; [now rewrite map_length, seq_length|]. split; [now rewrite !map_length|].
    intros k Hk. set (grp := nth k groups []) in *. rewrite nth_map_seq by exact Hk. fold grp. destruct HG as (HP & HNe & _).
    assert (Hne : grp <> []) by (rewrite Forall_forall in HNe; apply HNe; apply nth_In; exact Hk).
    assert (Hgl : length grp <= length ids).
    { rewrite <- (seq_length (length ids) 0), <- (Permutation_length HP). unfold grp. clear - Hk. revert k Hk. induction groups as [|x l IH]; intros k Hk; [cbn in Hk; lia|].
      cbn [concat]. rewrite app_length. destruct k as [|k]; [cbn; lia|]. cbn [length] in Hk. specialize (IH k ltac:(lia)). cbn [nth]. lia. }
    assert (Hlt : forall i, In i grp -> i < length ids) by (intros i Hi; now apply (Hin k i Hk)).
    assert (Hr : map (fun i => nth i rows []) grp <> []) by (intros X; now apply map_eq_nil in X).
    destruct (Ha k _ Hr) as [La Hd]. set (v := avg k (map (fun i => nth i rows []) grp)) in *.
    assert (Hx : forall d, map (fun r => nth d r 0%Q) (map (fun i => nth i rows []) grp) = map (fun i => xc rows i d) grp) by (intros d; apply map_map).
    rewrite map_length in Hd.
    assert (Hlen : (0 < inject_Z (Z.of_nat (length grp)))%Q).
    { destruct grp; [congruence|]. cbn [length]. unfold Qlt; cbn; lia. }
    split; [|split; [|split]].
    + exists (map (fun d => qsum (map (fun i => xc rows i d) grp) / inject_Z (Z.of_nat (length grp)))%Q (seq 0 D)). split; [|split; [exact La|]].
      * split; [now rewrite map_length, seq_length|]. split; [exact Hne|]. intros d Hd'. rewrite nth_map_seq by exact Hd'. unfold qsum. field. lra.
      * intros d m Hd' Hm. rewrite nth_map_seq by exact Hd'. destruct (Hd d Hd') as (s & Hs & Ev). rewrite Hx in Hs.
        assert (X := mean_close (map (fun i => xc rows i d) grp) s m (nth d v 0%Q) Hs). cbv zeta in X. rewrite map_length in X. apply X; [lia| |exact Ev].
        apply Forall_map, Forall_forall. exact Hm.
    + intros i Hi. rewrite map_map. rewrite (nth_indep _ 0 (nth (nth 0 (gsidx (ngrid n)) 0) ids 0)) by (rewrite map_length; lia).
      rewrite (map_nth (fun x => nth (nth x (gsidx (ngrid n)) 0) ids 0)). destruct (Hin k i Hk Hi) as [_ X]. rewrite <- X.
      reflexivity.
    + intros i Ei d Hd'. destruct (Hd d Hd') as (s & Hs & Ev). rewrite Hx, Ei in Hs. cbn [map] in Hs. apply sum32_single in Hs. subst s.
      rewrite Ei in Ev. cbn [length] in Ev. apply (mean_single _ _ (Hf i d (Hlt i ltac:(rewrite Ei; now left)) Hd') Ev).
    + intros i j Ei d Hd' Hle. destruct (Hd d Hd') as (s & Hs & Ev). rewrite Hx, Ei in Hs. rewrite Ei in Ev. cbn [length] in Ev.
      assert (Fi := Hf i d (Hlt i ltac:(rewrite Ei; now left)) Hd'). assert (Fj := Hf j d (Hlt j ltac:(rewrite Ei; right; now left)) Hd').
      apply (mean_pair s); auto. apply (sum32_pair _ s _ _ Hs); auto. cbn [map]. constructor; [lra|]. constructor; [lra|constructor].
Qed.

(** * Points of one cell *)
Lemma cell_width n x t1 t2 k : (1 <= n <= 2 ^ 21)%Z -> (k < n)%Z -> (0 <= t1)%Q -> (0 <= t2)%Q ->
  (Qabs (x - t1) <= Qabs t1 * (33554433 # 281474976710656) + (1 # 562949953421312))%Q ->
  forall y, (Qabs (y - t2) <= Qabs t2 * (33554433 # 281474976710656) + (1 # 562949953421312))%Q ->
  Qfloor x = k -> Qfloor y = k -> (Qabs (t1 - t2) <= 1 + (inject_Z n + 2) / 4194304)%Q.
Proof.
  intros Hn Hk H1 H2 Hx y Hy Ex Ey.
  pose proof (Qfloor_le x) as A1. pose proof (Qlt_floor x) as A2. pose proof (Qfloor_le y) as B1. pose proof (Qlt_floor y) as B2.
  rewrite Ex in A1, A2. rewrite Ey in B1, B2. rewrite inject_Z_plus in A2, B2. change (inject_Z 1) with 1%Q in A2, B2.
  assert (Hkn : (inject_Z k + 1 <= inject_Z n)%Q) by (change 1%Q with (inject_Z 1); rewrite <- inject_Z_plus, <- Zle_Qle; lia).
  assert (Hn1 : (1 <= inject_Z n)%Q) by (change 1%Q with (inject_Z 1); rewrite <- Zle_Qle; lia).
  assert (Hn2 : (inject_Z n <= 2097152)%Q) by (change 2097152%Q with (inject_Z (2 ^ 21)); rewrite <- Zle_Qle; lia).
  rewrite (Qabs_pos t1 H1) in Hx. rewrite (Qabs_pos t2 H2) in Hy. apply Qabs_Qle_condition in Hx, Hy.
  set (N := inject_Z n) in *. set (K := inject_Z k) in *. setoid_replace ((N + 2) / 4194304)%Q with ((N + 2) * (1 # 4194304))%Q by field.
  apply Qabs_Qle_condition. split; lra.
Qed.

(** C76, cover. Every point is near a sampled point of its element, and every
    sampled point near a point: the coordinates differ by no more than the size
    of a cell, enlarged by the rounding errors of the cells and of the average. *)
Lemma C76_cover_partial_proof :
  forall test eps D rows ids B p cs g radii centers max_neighbors n avg,
    cloud GPU eps D rows ids B p -> float32_batch D rows ids -> mk_grid32 GPU p cs = Ok g ->
    (Z.of_nat (length ids) <= 2 ^ 23)%Z -> (Z.of_nat B * product (gnc g) <= 2 ^ 31)%Z ->
    (forall lo i d, i < length ids -> d < D -> lower_corner32 D rows ids (nth i ids 0) lo ->
       Qfloor (position32 (nth d lo 0%Q) (nth d (gcells g) 0%Q) (xc rows i d)) <> nth d (gnc g) 0%Z) ->
    (forall d, d < D -> (pow2 (-100) <= nth d (gcells g) 0)%Q /\ (nth d (gnc g) 0 <= 2 ^ 21)%Z) ->
    snd (mk_nbh (search32 test) g radii centers max_neighbors) = Ok n -> averages32 D avg ->
    let near x i := forall d m, d < D -> (forall j, j < length ids -> (Qabs (xc rows j d) <= m)%Q) ->
      (Qabs (nth d x 0 - xc rows i d) <= nth d (gcells g) 0 * (1 + (inject_Z (nth d (gnc g) 0%Z) + 2) / 4194304) +
         m * (inject_Z (Z.of_nat (length ids)) / 8388608) + pow2 (-148))%Q in
    exists q, sample_average32 avg n = Ok q /\
      (forall i, i < length ids -> exists k, k < length (bids q) /\ nth k (bids q) 0 = nth i ids 0 /\ near (nth k (pts q) []) i) /\
      (forall k, k < length (bids q) -> exists i, i < length ids /\ nth k (bids q) 0 = nth i ids 0 /\ near (nth k (pts q) []) i).
Proof.
  intros test eps D rows ids B p cs g radii centers mx n avg Hc Hf E HN Ho Hfit Hcs En Ha near.
  destruct (C76_averages_partial_proof test eps D rows ids B p cs g radii centers mx n avg Hc Hf E HN Ho Hfit En Ha) as (q & Eq & (lo & groups & Hlo & HG & L1 & L2 & Hk) & _ & _).
  exists q. split; [exact Eq|]. cbv zeta in *. destruct HG as (HP & HNe & HI).
  destruct (C54_cells_proof eps D rows ids B p cs g Hc Hf E) as (Ec & lo' & hi & Hlh & Hb).
  assert (Hil : forall k i, k < length groups -> In i (nth k groups []) -> i < length ids).
  { intros k i Hk' Hi. assert (In i (concat groups)) by (apply in_concat; exists (nth k groups []); split; [now apply nth_In|exact Hi]).
    apply (Permutation_in _ HP), in_seq in H. lia. }
  assert (Hw : forall k i j d, k < length groups -> In i (nth k groups []) -> In j (nth k groups []) -> d < D ->
    (Qabs (xc rows j d - xc rows i d) <= nth d (gcells g) 0 * (1 + (inject_Z (nth d (gnc g) 0%Z) + 2) / 4194304))%Q).
  { intros k i j d Hk' Hi Hj Hd. assert (Hi' := Hil _ _ Hk' Hi). assert (Hj' := Hil _ _ Hk' Hj).
    destruct (proj1 (HI i j Hi' Hj')) as [Eb Es]; [exists (nth k groups []); split; [now apply nth_In|now split]|]. specialize (Es d Hd). rewrite <- Eb in Es.
    destruct (Hcs d Hd) as [C1 C2]. set (b := nth i ids 0) in *. set (c := nth d (gcells g) 0%Q) in *.
    assert (Hbi : In b ids) by (apply nth_In; exact Hi'). assert (Hlb := Hlo b Hbi).
    assert (Hc0 : (0 < c)%Q) by (eapply Qlt_le_trans; [apply (pow2_pos (-100))|exact C1]).
    assert (Hge : forall a, a < length ids -> nth a ids 0 = b -> (0 <= (xc rows a d - nth d (lo b) 0) / c)%Q).
    { intros a Ha' Eab. destruct (Hlb d Hd) as (x & Hx1 & Hx2 & Hx3 & Hx4). specialize (Hx3 a Ha' Eab).
      assert (nth d (lo b) 0 <= xc rows a d)%Q.
      { rewrite Hx4. eapply Qle_trans; [|exact Hx3]. apply Qle_trans with (f32 (xc rows x d)); [|rewrite (Hf x d Hx1 Hd : (f32 (xc rows x d) == xc rows x d)%Q); apply Qle_refl]. apply f32_mono. change (f32 (1 # 1000000000)) with margin32. assert (0 < margin32)%Q by reflexivity. lra. }
      apply Qle_shift_div_l; [exact Hc0|]. lra. }
    assert (Hcell := Hb i d Hi' Hd). cbv zeta in Hcell. fold b in Hcell.
    assert (El : (nth d (lo' b) 0 == nth d (lo b) 0)%Q) by (apply (corner32_unique D rows ids b); [exact Hd|apply Hlh, Hbi|exact Hlb]).
    assert (Hkn : (Qfloor (position32 (nth d (lo b) 0%Q) c (xc rows i d)) < nth d (gnc g) 0)%Z).
    { assert (X := Hfit (lo b) i d Hi' Hd Hlb). fold c in X, Hcell. rewrite (position32_comp _ _ _ _ El) in Hcell. lia. }
    assert (Hn1 : (1 <= nth d (gnc g) 0)%Z).
    { assert (0 <= Qfloor (position32 (nth d (lo b) 0%Q) c (xc rows i d)))%Z by (fold c in Hcell; rewrite (position32_comp _ _ _ _ El) in Hcell; lia). lia. }
    assert (W := cell_width (nth d (gnc g) 0%Z) (position32 (nth d (lo b) 0%Q) c (xc rows j d)) ((xc rows j d - nth d (lo b) 0) / c)%Q ((xc rows i d - nth d (lo b) 0) / c)%Q
      (Qfloor (position32 (nth d (lo b) 0%Q) c (xc rows i d))) (conj Hn1 C2) Hkn (Hge j Hj' (eq_sym Eb)) (Hge i Hi' eq_refl)
      (quotient_err _ c C1) (position32 (nth d (lo b) 0%Q) c (xc rows i d)) (quotient_err _ c C1) (eq_sym Es) eq_refl).
    assert (Ed : (xc rows j d - xc rows i d == ((xc rows j d - nth d (lo b) 0) / c - (xc rows i d - nth d (lo b) 0) / c) * c)%Q) by (field; lra).
    rewrite Ed, Qabs_Qmult, (Qabs_pos c) by lra. rewrite (Qmult_comm c). apply Qmult_le_compat_r; [exact W|lra]. }
  assert (Hnear : forall k i, k < length groups -> In i (nth k groups []) -> near (nth k (pts q) []) i).
  { intros k i Hk' Hi d m Hd Hm. destruct (Hk k Hk') as ((exact & (M1 & M2 & M3) & M4 & M5) & _).
    set (grp := nth k groups []) in *. specialize (M3 d Hd). specialize (M5 d m Hd (fun j Hj => Hm j (Hil k j Hk' Hj))).
    assert (Hgl : length grp <= length ids).
    { rewrite <- (seq_length (length ids) 0), <- (Permutation_length HP). unfold grp. clear - Hk'. revert k Hk'. induction groups as [|x l IH]; intros k Hk; [cbn in Hk; lia|].
      cbn [concat]. rewrite app_length. destruct k as [|k]; [cbn; lia|]. cbn [length] in Hk. specialize (IH k ltac:(lia)). cbn [nth]. lia. }
    set (w := (nth d (gcells g) 0 * (1 + (inject_Z (nth d (gnc g) 0%Z) + 2) / 4194304))%Q) in *.
    assert (Hb2 : forall j, In j grp -> (xc rows i d - w <= xc rows j d /\ xc rows j d <= xc rows i d + w)%Q).
    { intros j Hj. assert (X := Hw k i j d Hk' Hi Hj Hd). fold w in X. apply Qabs_Qle_condition in X. lra. }
    assert (Hmean : (Qabs (nth d exact 0 - xc rows i d) <= w)%Q).
    { assert (Hpos : (0 < inject_Z (Z.of_nat (length grp)))%Q) by (destruct grp; [congruence|]; cbn [length]; unfold Qlt; cbn; lia).
      assert (S1 : forall l a b, (forall j, In j l -> a <= xc rows j d /\ xc rows j d <= b)%Q ->
        (inject_Z (Z.of_nat (length l)) * a <= fold_right Qplus 0 (map (fun i => xc rows i d) l) /\ fold_right Qplus 0 (map (fun i => xc rows i d) l) <= inject_Z (Z.of_nat (length l)) * b)%Q).
      { clear. induction l as [|x l IH]; intros a b H; cbn [length map fold_right]; [change (inject_Z (Z.of_nat 0)) with 0%Q; lra|].
        rewrite Nat2Z.inj_succ, <- Z.add_1_r, inject_Z_plus. change (inject_Z 1) with 1%Q. destruct (H x (or_introl eq_refl)). destruct (IH a b); [intros; apply H; now right|].
        set (s := fold_right Qplus 0%Q _) in *. set (N := inject_Z _) in *. lra. }
      destruct (S1 grp _ _ Hb2) as [T1 T2]. rewrite <- M3 in T1, T2. apply Qmult_le_l in T1, T2; [|exact Hpos..]. apply Qabs_Qle_condition. lra. }
    assert (Hm0 : (0 <= m)%Q). { specialize (Hm i (Hil k i Hk' Hi)). pose proof (Qabs_nonneg (xc rows i d)). lra. }
    assert (Hc2 : (m * (inject_Z (Z.of_nat (length grp)) / 8388608) <= m * (inject_Z (Z.of_nat (length ids)) / 8388608))%Q).
    { apply Qmult_le_l'; [exact Hm0|]. apply Qmult_le_compat_r; [rewrite <- Zle_Qle; lia|discriminate]. }
    assert (X : (Qabs (nth d (nth k (pts q) []) 0 - xc rows i d) <= Qabs (nth d (nth k (pts q) []) 0 - nth d exact 0) + Qabs (nth d exact 0 - xc rows i d))%Q).
    { setoid_replace (nth d (nth k (pts q) []) 0 - xc rows i d)%Q with ((nth d (nth k (pts q) []) 0 - nth d exact 0) + (nth d exact 0 - xc rows i d))%Q by ring. apply Qabs_triangle. }
    lra. }
  split.
  - intros i Hi. destruct (proj2 (HI i i Hi Hi)) as (grp & Hg & Hig & _); [split; [reflexivity|intros; reflexivity]|].
    apply (In_nth _ _ []) in Hg as (k & Hk' & Eg). exists k. split; [congruence|]. subst grp. destruct (Hk k Hk') as (_ & X & _). split; [now apply X|]. now apply Hnear.
  - intros k Hk0. rewrite L2 in Hk0. destruct (nth k groups []) as [|i r] eqn:Eg.
    + exfalso. rewrite Forall_forall in HNe. apply (HNe (nth k groups [])); [now apply nth_In|exact Eg].
    + assert (Hi : In i (nth k groups [])) by (rewrite Eg; now left). exists i. split; [now apply (Hil k)|]. destruct (Hk k Hk0) as (_ & X & _). split; [now apply X|]. now apply Hnear.
Qed.

(** * Averages exist: the sum from the end *)
Fixpoint tail_sum (l : list Q) : Q := match l with [] => 0%Q | [x] => x | x :: r => f32 (x + tail_sum r) end.
Definition tail_mean (D : nat) (rows : list point) : point :=
  map (fun d => f32 (tail_sum (map (fun r => nth d r 0%Q) rows) / f32 (inject_Z (Z.of_nat (length rows))))) (seq 0 D).
Lemma tail_sum_ok l : l <> [] -> sum32 l (tail_sum l).
Proof.
  induction l as [|x l IH]; [congruence|]. intros _. destruct l as [|y l]; [constructor|].
  change (tail_sum (x :: y :: l)) with (f32 (x + tail_sum (y :: l))). apply (sum32_add _ [x] (y :: l)); [reflexivity|constructor|apply IH; discriminate].
Qed.
Lemma tail_averages D : averages32 D (fun _ => tail_mean D).
Proof.
  intros k rows Hr. unfold tail_mean. split; [now rewrite map_length, seq_length|]. intros d Hd. rewrite nth_map_seq by exact Hd.
  eexists. split; [apply tail_sum_ok; intros X; apply map_eq_nil in X; congruence|reflexivity].
Qed.

Lemma ex76_grid : exists g, cloud GPU 0 2 ex75_rows [0; 0; 0] 1 (seg 2 ex75_rows [0; 0; 0] 1) /\ float32_batch 2 ex75_rows [0; 0; 0] /\
    mk_grid32 GPU (seg 2 ex75_rows [0; 0; 0] 1) [7%Q] = Ok g /\
    (forall lo i d, i < 3 -> d < 2 -> lower_corner32 2 ex75_rows [0; 0; 0] (nth i [0; 0; 0] 0) lo ->
       Qfloor (position32 (nth d lo 0%Q) (nth d (gcells g) 0%Q) (xc ex75_rows i d)) <> nth d (gnc g) 0%Z) /\
    (Z.of_nat 1 * product (gnc g) <= 2 ^ 31)%Z /\
    (forall d, d < 2 -> (pow2 (-100) <= nth d (gcells g) 0)%Q /\ (nth d (gnc g) 0 <= 2 ^ 21)%Z) /\
    exists n, snd (mk_nbh (search32 (fun a b => norm_lt a b 7)) g [7%Q] None 0) = Ok n /\
      sample_average32 (fun _ => tail_mean 2) n = Ok (seg 2 [[7; 9]; [5 # 2; 3]]%Q [0; 0] 1).
Proof.
  destruct C75_distances_partial_ex_proof as (g & H1 & H2 & H3 & _ & H4 & _). exists g. split; [exact H1|]. split; [exact H2|]. split; [exact H3|]. split; [exact H4|].
  clear H1 H2 H4. vm_compute in H3. inversion H3; subst g; clear H3. split; [vm_compute; discriminate|]. split.
  { intros [|[|d]] Hd; try lia; split; vm_compute; discriminate. }
  eexists. split; [vm_compute; reflexivity|]. vm_compute. reflexivity.
Qed.
(** Three points, two of them in one cell. *)
Example C76_averages_partial_ex_proof :
  averages32 2 (fun _ => tail_mean 2) /\
  exists g, cloud GPU 0 2 ex75_rows [0; 0; 0] 1 (seg 2 ex75_rows [0; 0; 0] 1) /\ float32_batch 2 ex75_rows [0; 0; 0] /\
    mk_grid32 GPU (seg 2 ex75_rows [0; 0; 0] 1) [7%Q] = Ok g /\ (Z.of_nat 1 * product (gnc g) <= 2 ^ 31)%Z /\
    (forall lo i d, i < 3 -> d < 2 -> lower_corner32 2 ex75_rows [0; 0; 0] (nth i [0; 0; 0] 0) lo ->
       Qfloor (position32 (nth d lo 0%Q) (nth d (gcells g) 0%Q) (xc ex75_rows i d)) <> nth d (gnc g) 0%Z) /\
    exists n, snd (mk_nbh (search32 (fun a b => norm_lt a b 7)) g [7%Q] None 0) = Ok n /\
      sample_average32 (fun _ => tail_mean 2) n = Ok (seg 2 [[7; 9]; [5 # 2; 3]]%Q [0; 0] 1).
Proof. split; [apply tail_averages|]. destruct ex76_grid as (g & H1 & H2 & H3 & H4 & H5 & _ & H6). exists g. auto 8. Qed.
Example C76_cover_partial_ex_proof :
  exists g, cloud GPU 0 2 ex75_rows [0; 0; 0] 1 (seg 2 ex75_rows [0; 0; 0] 1) /\ float32_batch 2 ex75_rows [0; 0; 0] /\
    mk_grid32 GPU (seg 2 ex75_rows [0; 0; 0] 1) [7%Q] = Ok g /\
    (forall d, d < 2 -> (pow2 (-100) <= nth d (gcells g) 0)%Q /\ (nth d (gnc g) 0 <= 2 ^ 21)%Z) /\
    exists n, snd (mk_nbh (search32 (fun a b => norm_lt a b 7)) g [7%Q] None 0) = Ok n /\ averages32 2 (fun _ => tail_mean 2).
Proof. destruct ex76_grid as (g & H1 & H2 & H3 & _ & _ & H5 & n & H6 & _). exists g. split; [exact H1|]. split; [exact H2|]. split; [exact H3|]. split; [exact H5|]. exists n. split; [exact H6|]. apply tail_averages. Qed.

(** C76, refuted. In exact arithmetic the average of a cell lies between its
    points. The average of three equal points is computed as another point,
    whatever the order of the additions. *)
Definition ex76_x : Q := 11184814 # 16777216.
Lemma sum32_three x s : sum32 [x; x; x] s -> s = f32 (x + f32 (x + x)) \/ s = f32 (f32 (x + x) + x).
Proof.
  intros H. inversion H as [|l l1 l2 a b P H1 H2]; subst.
  assert (Pair : forall l t, length l = 2 -> Forall (eq x) l -> sum32 l t -> t = f32 (x + x)).
  { clear. intros l t Hl F H. destruct H as [y|l l1 l2 a b P H1 H2]; [discriminate|].
    pose proof (sum32_nonempty _ _ H1) as N1. pose proof (sum32_nonempty _ _ H2) as N2. assert (Hl2 := Permutation_length P). rewrite app_length, Hl in Hl2.
    destruct l1 as [|y [|? ?]]; cbn [length] in *; try lia. destruct l2 as [|z [|? ?]]; cbn [length] in *; try lia.
    apply sum32_single in H1, H2. subst a b. apply (Permutation_Forall P) in F. cbn [app] in F. inversion F as [|? ? Fx F']; subst. inversion F' as [|? ? Fy _]; subst. reflexivity. }
  pose proof (sum32_nonempty _ _ H1) as N1. pose proof (sum32_nonempty _ _ H2) as N2. assert (Hl := Permutation_length P). rewrite app_length in Hl. cbn [length] in Hl.
  assert (F : Forall (eq x) (l1 ++ l2)) by (apply (Permutation_Forall P); repeat constructor). apply Forall_app in F as [F1 F2].
  destruct l1 as [|y [|y2 l1]]; cbn [length] in *; [lia|..].
  - apply sum32_single in H1. apply Forall_inv in F1. subst a. subst y. left. now rewrite (Pair l2 b ltac:(lia) F2 H2).
  - destruct l2 as [|z [|? ?]]; cbn [length] in *; [lia| |lia]. apply sum32_single in H2. apply Forall_inv in F2. subst b. subst z. right.
    now rewrite (Pair (y :: y2 :: l1) a ltac:(cbn; lia) F1 H1).
Qed.
Lemma C76_equal_refuted_proof :
  exists rows ids p g n, cloud GPU 0 2 rows ids 1 p /\ float32_batch 2 rows ids /\ mk_grid32 GPU p [1%Q] = Ok g /\
    snd (mk_nbh (search32 (fun a b => norm_lt a b 1)) g [1%Q] None 0) = Ok n /\
    rows = repeat [ex76_x; ex76_x] 3 /\
    forall avg, averages32 2 avg -> exists q, sample_average32 avg n = Ok q /\ length (pts q) = 1 /\
      forall d, d < 2 -> ~ (nth d (nth 0 (pts q) []) 0 == ex76_x)%Q.
Proof.
  set (rows := repeat [ex76_x; ex76_x] 3 : list point). set (ids := [0; 0; 0]).
  destruct (mk_grid32 GPU (seg 2 rows ids 1) [1%Q]) as [g|] eqn:Eg; [|vm_compute in Eg; discriminate].
  destruct (snd (mk_nbh (search32 (fun a b => norm_lt a b 1)) g [1%Q] None 0)) as [n|] eqn:En; [|vm_compute in Eg; inversion Eg; subst g; vm_compute in En; discriminate].
  exists rows, ids, (seg 2 rows ids 1), g, n. split; [apply seg_cloud; repeat constructor|]. split.
  { intros i d Hi Hd. cbn in Hi. destruct i as [|[|[|i]]], d as [|[|d]]; try lia; vm_compute; reflexivity. }
  split; [exact Eg|]. split; [exact En|]. split; [reflexivity|]. intros avg Ha.
  exists (seg 2 [avg 0 rows] [0] 1). vm_compute in Eg. inversion Eg; subst g; clear Eg. vm_compute in En. inversion En; subst n; clear En.
  split; [reflexivity|]. split; [reflexivity|]. intros d Hd. cbn [pts seg nth].
  destruct (Ha 0 rows ltac:(discriminate)) as [_ H]. destruct (H d Hd) as (s & Hs & E). rewrite E.
  assert (Es : s = f32 (ex76_x + f32 (ex76_x + ex76_x)) \/ s = f32 (f32 (ex76_x + ex76_x) + ex76_x)).
  { apply sum32_three. destruct d as [|[|d]]; [exact Hs..|lia]. }
  destruct Es as [-> | ->]; vm_compute; discriminate.
Qed.
Example C76_equal_refuted_ex_proof : is_float32 ex76_x /\ tail_mean 2 (repeat [ex76_x; ex76_x] 3) <> [ex76_x; ex76_x] /\ averages32 2 (fun _ => tail_mean 2).
Proof. split; [reflexivity|]. split; [vm_compute; discriminate|apply tail_averages]. Qed.
