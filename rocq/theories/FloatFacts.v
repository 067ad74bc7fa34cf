(** The rounding of Float.v is that of the Flocq library. *)
From Coq Require Import ZArith QArith Qround Qabs Qreals Reals Lia Lra Bool.
From Flocq Require Import Core Relative.
From Verif Require Import Float.
Local Open Scope Z_scope.

Lemma pow2_bpow e : Q2R (pow2 e) = bpow radix2 e.
Proof.
  destruct e as [|p|p]; unfold pow2, bpow.
  - unfold Q2R. cbn. lra.
  - unfold Q2R, inject_Z. cbn [Qnum Qden]. rewrite Rinv_1, Rmult_1_r. reflexivity.
  - unfold Q2R. cbn [Qnum Qden]. rewrite Rmult_1_l. do 2 f_equal. rewrite Pos2Z.inj_pow. reflexivity.
Qed.
Lemma pow2_pos e : (0 < pow2 e)%Q.
Proof. apply Rlt_Qlt. rewrite pow2_bpow. rewrite RMicromega.Q2R_0. apply bpow_gt_0. Qed.
Lemma Q2R_abs x : Q2R (Qabs x) = Rabs (Q2R x).
Proof.
  apply Qabs_case; intros H; [rewrite Rabs_right; [reflexivity|]|rewrite Rabs_left1, Q2R_opp; [reflexivity|]].
  - apply Rle_ge. rewrite <- RMicromega.Q2R_0. now apply Qle_Rle.
  - rewrite <- RMicromega.Q2R_0. now apply Qle_Rle.
Qed.
Lemma Q2R_inject z : Q2R (inject_Z z) = IZR z.
Proof. unfold Q2R. cbn. rewrite Rinv_1. lra. Qed.
Lemma floor_Zfloor x : Zfloor (Q2R x) = Qfloor x.
Proof.
  apply Zfloor_imp. pose proof (Qfloor_le x) as H1. pose proof (Qlt_floor x) as H2.
  apply Qle_Rle in H1. apply Qlt_Rlt in H2. rewrite Q2R_inject in *. auto.
Qed.
Lemma qnearest_ok x : ZnearestE (Q2R x) = qnearest x.
Proof.
  unfold Znearest, qnearest. rewrite floor_Zfloor. set (n := Qfloor x).
  assert (Hc : Rcompare (Q2R x - IZR n) (/ 2) = ((x - inject_Z n) ?= (1 # 2))%Q).
  { assert (E : (Q2R x - IZR n = Q2R (x - inject_Z n))%R) by (rewrite Q2R_minus, Q2R_inject; reflexivity).
    assert (E2 : (/ 2 = Q2R (1 # 2))%R) by (unfold Q2R; cbn; lra). rewrite E, E2.
    destruct (Qcompare_spec (x - inject_Z n) (1 # 2)) as [H|H|H].
    - apply Rcompare_Eq. now apply Qeq_eqR.
    - apply Rcompare_Lt. now apply Qlt_Rlt.
    - apply Rcompare_Gt. now apply Qlt_Rlt. }
  rewrite Hc.
  assert (Hceil : ((x - inject_Z n) ?= (1 # 2))%Q <> Lt -> Zceil (Q2R x) = n + 1).
  { intros H. rewrite Zceil_floor_neq; [rewrite floor_Zfloor; reflexivity|]. rewrite floor_Zfloor. fold n. intros E.
    apply H. rewrite <- Hc. rewrite <- E. apply Rcompare_Lt. lra. }
  destruct ((x - inject_Z n) ?= (1 # 2))%Q.
  - destruct (Z.even n); cbn [negb]; [reflexivity|]. apply Hceil. discriminate.
  - reflexivity.
  - apply Hceil. discriminate.
Qed.
Lemma qmag_ok x : Qnum x <> 0 -> (mag radix2 (Q2R x) : Z) = qmag x.
Proof.
  intros Hx. apply mag_unique. rewrite <- Q2R_abs, <- !pow2_bpow.
  assert (H : forall a b, (a <= Qabs x < b)%Q -> (Q2R a <= Q2R (Qabs x) < Q2R b)%R)
    by (intros a b [Ha Hb]; split; [now apply Qle_Rle|now apply Qlt_Rlt]).
  apply H. clear H. unfold qmag.
  set (k := Z.log2 (Z.abs (Qnum x)) - Z.log2 (Zpos (Qden x))).
  assert (Hlo : (pow2 (k - 1) <= Qabs x)%Q). {
    apply Rle_Qle. rewrite pow2_bpow, Q2R_abs. unfold Q2R, Rdiv.
    rewrite Rabs_mult, <- abs_IZR. rewrite (Rabs_right (/ _)) by (apply Rle_ge, Rlt_le, Rinv_0_lt_compat, IZR_lt; lia).
    pose proof (Z.log2_spec (Z.abs (Qnum x)) ltac:(lia)) as [L1 L2]. pose proof (Z.log2_spec (Zpos (Qden x)) ltac:(lia)) as [L3 L4].
    set (u := Z.log2 (Z.abs (Qnum x))) in *. set (v := Z.log2 (Zpos (Qden x))) in *.
    pose proof (Z.log2_nonneg (Z.abs (Qnum x))). pose proof (Z.log2_nonneg (Zpos (Qden x))).
    apply Rmult_le_reg_r with (IZR (Zpos (Qden x))); [apply IZR_lt; lia|]. rewrite Rmult_assoc, Rinv_l, Rmult_1_r by (apply IZR_neq; lia).
    apply Rle_trans with (bpow radix2 (k - 1) * bpow radix2 (v + 1))%R.
    - apply Rmult_le_compat_l; [apply bpow_ge_0|]. rewrite <- IZR_Zpower by lia. apply IZR_le. cbn [radix_val radix2]. lia.
    - rewrite <- bpow_plus. replace (k - 1 + (v + 1)) with u by (unfold k; lia). rewrite <- IZR_Zpower by lia. apply IZR_le. cbn [radix_val radix2]. lia. }
  assert (Hhi : (Qabs x < pow2 (k + 1))%Q). {
    apply Rlt_Qlt. rewrite pow2_bpow, Q2R_abs. unfold Q2R, Rdiv.
    rewrite Rabs_mult, <- abs_IZR. rewrite (Rabs_right (/ _)) by (apply Rle_ge, Rlt_le, Rinv_0_lt_compat, IZR_lt; lia).
    pose proof (Z.log2_spec (Z.abs (Qnum x)) ltac:(lia)) as [L1 L2]. pose proof (Z.log2_spec (Zpos (Qden x)) ltac:(lia)) as [L3 L4].
    set (u := Z.log2 (Z.abs (Qnum x))) in *. set (v := Z.log2 (Zpos (Qden x))) in *.
    pose proof (Z.log2_nonneg (Z.abs (Qnum x))). pose proof (Z.log2_nonneg (Zpos (Qden x))).
    apply Rmult_lt_reg_r with (IZR (Zpos (Qden x))); [apply IZR_lt; lia|]. rewrite Rmult_assoc, Rinv_l, Rmult_1_r by (apply IZR_neq; lia).
    apply Rlt_le_trans with (bpow radix2 (u + 1)).
    - rewrite <- IZR_Zpower by lia. apply IZR_lt. cbn [radix_val radix2]. lia.
    - replace (u + 1) with (k + 1 + v) by (unfold k; lia). rewrite bpow_plus. apply Rmult_le_compat_l; [apply bpow_ge_0|].
      rewrite <- IZR_Zpower by lia. apply IZR_le. cbn [radix_val radix2]. lia. }
  destruct (Qle_bool (pow2 k) (Qabs x)) eqn:E.
  - apply Qle_bool_iff in E. replace (k + 1 - 1) with k by lia. auto.
  - split; [exact Hlo|]. apply Qnot_le_lt. intros H. apply Qle_bool_iff in H. congruence.
Qed.

(** The rounding of Flocq. *)
Local Instance p24 : Prec_gt_0 24.
Proof. reflexivity. Qed.
Local Instance nearest : Valid_rnd ZnearestE.
Proof. apply valid_rnd_N. Qed.
Notation b32 := (round radix2 (FLT_exp (-149) 24) ZnearestE).
Lemma f32_ok x : Q2R (f32 x) = b32 (Q2R x).
Proof.
  unfold f32. destruct (Z.eqb_spec (Qnum x) 0) as [E|E].
  - replace (Q2R x) with 0%R by (unfold Q2R; rewrite E; lra). rewrite round_0 by apply nearest. unfold Q2R. cbn. lra.
  - rewrite (Qeq_eqR _ _ (Qred_correct _)), Q2R_mult, Q2R_inject, pow2_bpow. unfold round, F2R, scaled_mantissa, cexp. cbn [Fnum Fexp].
    rewrite qmag_ok by exact E. unfold FLT_exp. set (e := Z.max (qmag x - 24) (-149)).
    rewrite <- (pow2_bpow (- e)), <- Q2R_mult, qnearest_ok. reflexivity.
Qed.
Lemma f32_mono x y : (x <= y)%Q -> (f32 x <= f32 y)%Q.
Proof.
  intros H. apply Rle_Qle. rewrite !f32_ok. apply round_le; [typeclasses eauto..|]. now apply Qle_Rle.
Qed.

(** Error of the rounding. *)
Lemma f32_err x : (Qabs (f32 x - x) <= Qabs x * pow2 (-24) + pow2 (-150))%Q.
Proof.
  apply Rle_Qle. rewrite Q2R_abs, Q2R_minus, f32_ok, Q2R_plus, Q2R_mult, Q2R_abs, !pow2_bpow.
  destruct (error_N_FLT radix2 (-149) 24 ltac:(reflexivity) (fun n => negb (Z.even n)) (Q2R x)) as (e & h & He & Hh & _ & ->).
  replace (Q2R x * (1 + e) + h - Q2R x)%R with (Q2R x * e + h)%R by ring.
  eapply Rle_trans; [apply Rabs_triang|]. apply Rplus_le_compat.
  - rewrite Rabs_mult. apply Rmult_le_compat_l; [apply Rabs_pos|]. eapply Rle_trans; [exact He|].
    apply Req_le. symmetry. exact (bpow_plus radix2 (-1) (-23)).
  - eapply Rle_trans; [exact Hh|]. apply Req_le. symmetry. exact (bpow_plus radix2 (-1) (-149)).
Qed.

Lemma f32_comp x y : (x == y)%Q -> (f32 x == f32 y)%Q.
Proof. intros H. apply Qle_antisym; apply f32_mono; rewrite H; apply Qle_refl. Qed.

Lemma f32_f32 x : (f32 (f32 x) == f32 x)%Q.
Proof.
  apply eqR_Qeq. rewrite !f32_ok. apply round_generic; [typeclasses eauto|]. apply generic_format_round; typeclasses eauto.
Qed.

(** Numbers of magnitude at least [2^k] that float32 represents are multiples
    of [2^(k-23)]. *)
Lemma f32_multiple x k : (f32 x == x)%Q -> (pow2 k <= Qabs x)%Q -> -126 <= k -> exists z, (x == inject_Z z * pow2 (k - 23))%Q.
Proof.
  intros Hx Hk Hk1. apply Qeq_eqR in Hx. rewrite f32_ok in Hx. apply Qle_Rle in Hk. rewrite pow2_bpow, Q2R_abs in Hk.
  set (e := cexp radix2 (FLT_exp (-149) 24) (Q2R x)).
  assert (Hm : (k + 1 <= mag radix2 (Q2R x))%Z).
  { apply mag_ge_bpow. now replace (k + 1 - 1) with k by lia. }
  assert (He : k - 23 <= e) by (unfold e, cexp, FLT_exp; lia).
  exists (ZnearestE (scaled_mantissa radix2 (FLT_exp (-149) 24) (Q2R x)) * 2 ^ (e - (k - 23))).
  apply eqR_Qeq. rewrite Q2R_mult, Q2R_inject, pow2_bpow, mult_IZR.
  change 2 with (radix_val radix2). rewrite IZR_Zpower by lia. rewrite Rmult_assoc, <- bpow_plus.
  replace (e - (k - 23) + (k - 23)) with e by lia. rewrite <- Hx at 1. reflexivity.
Qed.

Lemma f32_nearest x y : (f32 y == y)%Q -> (Qabs (f32 x - x) <= Qabs (y - x))%Q.
Proof.
  intros Hy. apply Rle_Qle. rewrite !Q2R_abs, !Q2R_minus, f32_ok. apply Qeq_eqR in Hy. rewrite f32_ok in Hy.
  destruct (round_N_pt radix2 (FLT_exp (-149) 24) (fun n => negb (Z.even n)) (Q2R x)) as [_ H].
  apply H. rewrite <- Hy. apply generic_format_round; typeclasses eauto.
Qed.

Lemma f32_half_ulp x k : (Qabs x < pow2 k)%Q -> -125 <= k -> (Qabs (f32 x - x) <= pow2 (k - 25))%Q.
Proof.
  intros H Hk. apply Qlt_Rlt in H. rewrite pow2_bpow, Q2R_abs in H.
  apply Rle_Qle. rewrite Q2R_abs, Q2R_minus, f32_ok, pow2_bpow.
  destruct (Req_dec (Q2R x) 0) as [E|E].
  { rewrite E, round_0 by apply nearest. rewrite Rminus_0_r, Rabs_R0. apply bpow_ge_0. }
  eapply Rle_trans; [apply error_le_half_ulp; typeclasses eauto|]. rewrite ulp_neq_0 by exact E.
  assert (Hm : (mag radix2 (Q2R x) <= k)%Z) by (apply mag_le_bpow; assumption).
  replace (k - 25) with (-1 + (k - 24)) by lia. rewrite bpow_plus. change (bpow radix2 (-1)) with (/ 2)%R. apply Rmult_le_compat_l; [lra|].
  apply bpow_le. unfold cexp, FLT_exp. lia.
Qed.
