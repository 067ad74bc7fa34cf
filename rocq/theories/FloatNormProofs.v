(** Proofs about the distances of the fallback search in float32 (C54, C75). The
    statements are copied into PropertiesFloatNorm.v. *)
From Coq Require Import String List Arith ZArith QArith Qround Qabs Lia Lqa Bool Permutation Reals Qreals Lra.
From Flocq Require Import Core.
From Verif Require Import Tensor TensorFacts Spec PointCloud SpecCloud History PointCloudFacts QFacts CloudProofs
  Grid SpecGrid GridFacts Neighbors SpecNeighbors NeighborFacts NeighborProofs Neighborhood NeighborhoodFacts
  Sampling SpecSampling SamplingFacts SamplingProofs
  Float FloatFacts FloatGrid SpecFloat KeyGridFacts FloatGridFacts FloatProofs FloatNorm FloatSampling SpecFloatSampling FloatSampleProofs.
From Coq Require Import Lqa.
Import ListNotations.
Local Open Scope Q_scope.

Lemma f32_zero : f32 0 == 0.
Proof. reflexivity. Qed.
Lemma f32_nonneg x : 0 <= x -> 0 <= f32 x.
Proof. intros H. rewrite <- f32_zero. now apply f32_mono. Qed.
Lemma f32_near x : 0 <= x -> (1 - pow2 (-24)) * x - pow2 (-150) <= f32 x /\ f32 x <= (1 + pow2 (-24)) * x + pow2 (-150).
Proof.
  intros H. pose proof (f32_err x) as He. rewrite (Qabs_pos x H) in He. apply Qabs_Qle_condition in He. split; lra.
Qed.

(** * The sum *)
Definition qsum (l : list Q) : Q := fold_right Qplus 0 l.
Lemma qsum_app l1 l2 : qsum (l1 ++ l2) == qsum l1 + qsum l2.
Proof. unfold qsum. induction l1 as [|x l IH]; cbn [fold_right app]; [lra|]. rewrite IH. lra. Qed.
Lemma qsum_perm l1 l2 : Permutation l1 l2 -> qsum l1 == qsum l2.
Proof. unfold qsum. induction 1; cbn [fold_right]; lra. Qed.
Lemma qsum_nonneg l : Forall (fun x => 0 <= x) l -> 0 <= qsum l.
Proof. unfold qsum. induction 1; cbn [fold_right]; lra. Qed.

Lemma sum_step_low u e n1 n2 a b S1 S2 f : 0 < u -> 0 < e -> 1 <= n1 -> 1 <= n2 -> 0 <= S1 -> 0 <= S2 -> (n1 + n2) * u <= 1 ->
  (1 - (n1 - 1) * u) * S1 - (2 * n1 - 1) * e <= a -> (1 - (n2 - 1) * u) * S2 - (2 * n2 - 1) * e <= b ->
  (1 - u) * (a + b) - e <= f -> (1 - (n1 + n2 - 1) * u) * (S1 + S2) - (2 * (n1 + n2) - 1) * e <= f.
Proof.
  intros Hu He H1 H2 HS1 HS2 Hs Ha Hb Hf. eapply Qle_trans; [|exact Hf].
  assert (Hu1 : u <= 1) by nra.
  assert (A : (1 - u) * ((1 - (n1 - 1) * u) * S1 - (2 * n1 - 1) * e) <= (1 - u) * a) by nra.
  assert (B : (1 - u) * ((1 - (n2 - 1) * u) * S2 - (2 * n2 - 1) * e) <= (1 - u) * b) by nra.
  assert (P : forall x y s, 1 <= x -> 1 <= y -> 0 <= s -> (1 - (x + y - 1) * u) * s <= (1 - u) * ((1 - (x - 1) * u) * s)).
  { intros x y s Hx Hy Hz. assert (0 <= (y - 1) * u) by nra. assert (0 <= (x - 1) * u * u) by nra.
    setoid_replace ((1 - u) * ((1 - (x - 1) * u) * s)) with ((1 - x * u + (x - 1) * u * u) * s) by ring.
    apply Qmult_le_compat_r; [|exact Hz]. nra. }
  pose proof (P n1 n2 S1 H1 H2 HS1). pose proof (P n2 n1 S2 H2 H1 HS2) as P2.
  assert (E1 : 0 <= u * ((2 * n1 - 1) * e)) by (apply Qmult_le_0_compat; [lra|]; apply Qmult_le_0_compat; lra).
  assert (E2 : 0 <= u * ((2 * n2 - 1) * e)) by (apply Qmult_le_0_compat; [lra|]; apply Qmult_le_0_compat; lra).
  lra.
Qed.
Lemma sum_step_up u e n1 n2 a b S1 S2 f : 0 < u -> 0 < e -> 1 <= n1 -> 1 <= n2 -> 0 <= a -> 0 <= b -> (n1 + n2) * u <= 1 ->
  (1 - (n1 - 1) * u) * a <= S1 + (2 * n1 - 1) * e -> (1 - (n2 - 1) * u) * b <= S2 + (2 * n2 - 1) * e ->
  f <= (1 + u) * (a + b) + e -> (1 - (n1 + n2 - 1) * u) * f <= S1 + S2 + (2 * (n1 + n2) - 1) * e.
Proof.
  intros Hu He H1 H2 Ha Hb Hs HA HB Hf.
  assert (H0 : 0 <= 1 - (n1 + n2 - 1) * u) by nra.
  assert (H3 : (1 - (n1 + n2 - 1) * u) * f <= (1 - (n1 + n2 - 1) * u) * ((1 + u) * (a + b) + e)) by nra.
  assert (P : forall x y s, 1 <= x -> 1 <= y -> 0 <= s -> (1 - (x + y - 1) * u) * ((1 + u) * s) <= (1 - (x - 1) * u) * s).
  { intros x y s Hx Hy Hz. rewrite Qmult_assoc. apply Qmult_le_compat_r; [|exact Hz]. assert (0 <= (y - 1) * u) by nra. assert (0 <= (x + y - 1) * (u * u)) by nra. nra. }
  pose proof (P n1 n2 a H1 H2 Ha) as P1. pose proof (P n2 n1 b H2 H1 Hb) as P2.
  assert (H4 : 0 <= (n1 + n2 - 1) * u * e) by (apply Qmult_le_0_compat; [apply Qmult_le_0_compat|]; lra). lra.
Qed.

Lemma sum32_bounds l s : sum32 l s -> Forall (fun x => 0 <= x) l -> inject_Z (Z.of_nat (length l)) * pow2 (-24) <= 1 ->
  let n := inject_Z (Z.of_nat (length l)) in
  1 <= n /\ 0 <= s /\ (1 - (n - 1) * pow2 (-24)) * qsum l - (2 * n - 1) * pow2 (-150) <= s /\
  (1 - (n - 1) * pow2 (-24)) * s <= qsum l + (2 * n - 1) * pow2 (-150).
Proof.
  assert (Hu : 0 < pow2 (-24)) by apply pow2_pos. assert (He : 0 < pow2 (-150)) by apply pow2_pos.
  assert (Hf := f32_near). set (u := pow2 (-24)) in *. set (e := pow2 (-150)) in *. clearbody u e.
  induction 1 as [x|l l1 l2 a b P H1 IH1 H2 IH2]; intros Hn Hl; cbv zeta in *.
  - inversion Hn as [|? ? Hx _]; subst. unfold qsum. cbn [fold_right length]. change (inject_Z (Z.of_nat 1)) with 1. lra.
  - assert (Hn' := Permutation_Forall P Hn). apply Forall_app in Hn' as [N1 N2].
    assert (El : inject_Z (Z.of_nat (length l)) == inject_Z (Z.of_nat (length l1)) + inject_Z (Z.of_nat (length l2))).
    { rewrite (Permutation_length P), app_length, Nat2Z.inj_add, inject_Z_plus. reflexivity. }
    assert (P1 : 0 <= inject_Z (Z.of_nat (length l1))) by (change 0 with (inject_Z 0); rewrite <- Zle_Qle; lia).
    assert (P2 : 0 <= inject_Z (Z.of_nat (length l2))) by (change 0 with (inject_Z 0); rewrite <- Zle_Qle; lia).
    assert (Es : qsum l == qsum l1 + qsum l2) by (rewrite (qsum_perm _ _ P); apply qsum_app).
    set (n := inject_Z (Z.of_nat (length l))) in *. set (n1 := inject_Z (Z.of_nat (length l1))) in *. set (n2 := inject_Z (Z.of_nat (length l2))) in *.
    rewrite El in Hl. destruct (IH1 N1 ltac:(nra)) as (A1 & A2 & A3 & A4). destruct (IH2 N2 ltac:(nra)) as (B1 & B2 & B3 & B4).
    pose proof (qsum_nonneg _ N1) as Q1. pose proof (qsum_nonneg _ N2) as Q2.
    destruct (Hf (a + b)) as [F1 F2]; [lra|]. split; [lra|]. split; [apply f32_nonneg; lra|]. rewrite El, Es. split.
    + apply (sum_step_low u e n1 n2 a b); auto.
    + apply (sum_step_up u e n1 n2 a b); auto.
Qed.

(** * The squares *)
Lemma Qmult_le_l' (z x y : Q) : 0 <= z -> x <= y -> z * x <= z * y.
Proof. intros. nra. Qed.
Lemma sq_nonneg (z : Q) : 0 <= z * z.
Proof. nra. Qed.
Lemma sq_le (x y : Q) : 0 <= x -> x <= y -> x * x <= y * y.
Proof. intros. nra. Qed.
Lemma square_near e : let x := f32 e in let q := f32 (x * x) in
  0 <= q /\ q <= (1 + 5 * pow2 (-24)) * (e * e) + 2 * pow2 (-150) /\ (1 - 3 * pow2 (-24)) * (e * e) <= (1 + pow2 (-24)) * q + 3 * pow2 (-150).
Proof.
  intros x q. assert (Hx0 : 0 <= x * x) by nra. assert (Hq0 : 0 <= q) by (now apply f32_nonneg).
  destruct (f32_near (x * x) Hx0) as [Q1 Q2]. fold q in Q1, Q2. pose proof (f32_err e) as He. fold x in He.
  assert (Ha : Qabs e * Qabs e == e * e) by (apply Qabs_case; intros; ring).
  assert (Hb : Qabs x * Qabs x == x * x) by (apply Qabs_case; intros; ring).
  assert (Hb1 : Qabs x <= (1 + pow2 (-24)) * Qabs e + pow2 (-150)).
  { pose proof (Qabs_triangle (x - e) e) as T. setoid_replace (x - e + e) with x in T by ring. lra. }
  assert (Hb2 : (1 - pow2 (-24)) * Qabs e <= Qabs x + pow2 (-150)).
  { pose proof (Qabs_triangle (e - x) x) as T. setoid_replace (e - x + x) with e in T by ring. rewrite Qabs_Qminus in T. lra. }
  pose proof (Qabs_nonneg e) as A0. pose proof (Qabs_nonneg x) as B0. set (a := Qabs e) in *. set (b := Qabs x) in *. rewrite <- Ha. rewrite <- Hb in *.
  clearbody a b q. clear He Ha Hb Hx0.
  assert (Eu : pow2 (-24) == 1 # 16777216) by reflexivity.
  assert (Ek : 16777217 * (pow2 (-150) * pow2 (-150)) <= (1 # 16777216) * pow2 (-150)) by (vm_compute; discriminate).
  assert (Hh : 0 < pow2 (-150)) by apply pow2_pos. set (h := pow2 (-150)) in *. clearbody h. rewrite Eu in *. clear Eu. clear x e.
  assert (Y1 : 2 * (a * h) <= (1 # 16777216) * (a * a) + 16777216 * (h * h)).
  { pose proof (sq_nonneg (a * (1 # 4096) - 4096 * h)). lra. }
  assert (Y2 : 2 * (b * h) <= (1 # 16777216) * (b * b) + 16777216 * (h * h)).
  { pose proof (sq_nonneg (b * (1 # 4096) - 4096 * h)). lra. }
  assert (AA : 0 <= a * a) by nra. assert (AH : 0 <= a * h) by nra. assert (BH : 0 <= b * h) by nra. assert (HH : 0 <= h * h) by nra.
  assert (B2 : b * b <= ((1 + (1 # 16777216)) * a + h) * ((1 + (1 # 16777216)) * a + h)) by (apply sq_le; assumption).
  assert (A2 : ((1 - (1 # 16777216)) * a) * ((1 - (1 # 16777216)) * a) <= (b + h) * (b + h)) by (apply sq_le; [nra|assumption]).
  split; [exact Hq0|]. split; lra.
Qed.

Lemma squares_near (p c : point) (l : list nat) :
  let qs := map (fun d => let x := f32 (coord p d - coord c d) in f32 (x * x)) l in
  let E := fold_right Qplus 0 (map (fun d => (nth d p 0 - nth d c 0) * (nth d p 0 - nth d c 0)) l) in
  let n := inject_Z (Z.of_nat (length l)) in
  Forall (fun x => 0 <= x) qs /\ qsum qs <= (1 + 5 * pow2 (-24)) * E + 2 * n * pow2 (-150) /\
  (1 - 3 * pow2 (-24)) * E <= (1 + pow2 (-24)) * qsum qs + 3 * n * pow2 (-150) /\ 0 <= E.
Proof.
  cbv zeta. unfold qsum. induction l as [|d l (IH1 & IH2 & IH3 & IH4)]; cbn [map fold_right length].
  - change (inject_Z (Z.of_nat 0)) with 0. repeat split; [constructor|lra..].
  - rewrite Nat2Z.inj_succ. unfold Z.succ. rewrite inject_Z_plus. change (inject_Z 1) with 1.
    destruct (square_near (coord p d - coord c d)) as (S1 & S2 & S3). unfold coord in *.
    set (q := f32 (_ * _)) in *. set (E := fold_right Qplus 0 (map _ l)) in *. set (S := fold_right Qplus 0 (map _ l)) in *. set (n := inject_Z (Z.of_nat (length l))) in *.
    set (x := nth d p 0 - nth d c 0) in *.
    assert (0 <= x * x) by nra. clearbody q E S n x. set (xx := x * x) in *. clearbody xx. pose proof (pow2_pos (-24)). pose proof (pow2_pos (-150)). set (u := pow2 (-24)) in *. set (h := pow2 (-150)) in *. clearbody u h.
    split; [constructor; assumption|]. repeat split; lra.
Qed.

(** * The comparison *)
Section Numbers.
  Context (d A E S s : Q).
  Let u : Q := 1 # 16777216.
  Context (h : Q).
  Hypothesis Hd : 1 <= d.
  Hypothesis Hd2 : d <= 1024.
  Hypothesis HE : 0 <= E.
  Hypothesis HS : 0 <= S.
  Hypothesis Hs0 : 0 <= s.
  Hypothesis Hh : 0 < h.
  (** [h] is small against the square of the radius. *)
  Hypothesis HA : 1125899906842624 * h <= A.

  Lemma dh : d * h <= (1 # 1099511627776) * A.
  Proof using Hd2 Hh HA. clear - Hd2 Hh HA. assert (d * h <= 1024 * h) by nra. lra. Qed.

  Lemma above : (1 - (d - 1) * u) * S - (2 * d - 1) * h <= s -> (1 - 3 * u) * E <= (1 + u) * S + 3 * d * h -> s <= A ->
    E < ((1 + (d + 12) * u) * (1 + (d + 12) * u)) * A.
  Proof using Hd Hd2 HE HS Hh HA.
    clear Hs0. intros H1 H2 H3. pose proof dh as H4. assert (A0 : 0 < A) by lra. apply Qnot_le_lt. intros H.
    assert (U : u == 1 # 16777216) by reflexivity. clearbody u.
    assert (T : (1 + 2 * (d + 12) * u) * A <= E). { eapply Qle_trans; [|exact H]. apply Qmult_le_compat_r; [|lra]. pose proof (sq_nonneg ((d + 12) * u)). lra. }
    assert (S1 : (1 - d * u) * S <= (1 + (1 # 137438953472)) * A). { assert (0 <= u * S) by nra. lra. }
    assert (P0 : 0 <= 1 - d * u) by (rewrite U; lra).
    assert (E1 : (1 - d * u) * ((1 - 3 * u) * E) <= (1 - d * u) * ((1 + u) * S + 3 * d * h)) by nra.
    assert (E2 : (1 - d * u) * (3 * d * h) <= 3 * (d * h)). { assert (0 <= d * u * (d * h)). { rewrite U. assert (0 <= d * h) by nra. nra. } lra. }
    assert (E3 : (1 - d * u) * ((1 - 3 * u) * E) <= (1 + 2 * u) * A). { rewrite U in *. nra. }
    assert (E4 : (1 - d * u) * ((1 - 3 * u) * ((1 + 2 * (d + 12) * u) * A)) <= (1 + 2 * u) * A).
    { eapply Qle_trans; [|exact E3]. rewrite !Qmult_assoc. setoid_replace ((1 - d * u) * (1 - 3 * u) * (1 + 2 * (d + 12) * u) * A) with ((1 - d * u) * (1 - 3 * u) * ((1 + 2 * (d + 12) * u) * A)) by ring.
      apply Qmult_le_l'; [|exact T]. rewrite U in *. apply Qmult_le_0_compat; lra. }
    setoid_replace ((1 - d * u) * ((1 - 3 * u) * ((1 + 2 * (d + 12) * u) * A))) with (((1 - d * u) * (1 - 3 * u) * (1 + 2 * (d + 12) * u)) * A) in E4 by ring.
    apply Qmult_le_r in E4; [|exact A0]. rewrite U in E4. clear - E4 Hd Hd2. nra.
  Qed.

  Lemma below : S <= (1 + 5 * u) * E + 2 * d * h -> (1 - (d - 1) * u) * s <= S + (2 * d - 1) * h ->
    E < ((1 - (d + 12) * u) * (1 - (d + 12) * u)) * A -> s < ((1 - 8 * u) * (1 - 8 * u)) * A.
  Proof using Hd Hd2 HE Hs0 Hh HA.
    clear HS. intros H1 H2 H3. pose proof dh as H4. assert (A0 : 0 < A) by lra. apply Qnot_le_lt. intros H.
    assert (U : u == 1 # 16777216) by reflexivity. clearbody u.
    assert (S1 : (1 - d * u) * s <= S + (1 # 137438953472) * A). { assert (0 <= u * s) by nra. lra. }
    assert (P0 : 0 <= 1 - d * u) by (rewrite U; lra).
    assert (E1 : (1 - d * u) * (((1 - 8 * u) * (1 - 8 * u)) * A) <= (1 - d * u) * s) by (apply Qmult_le_l'; assumption).
    assert (E2 : (1 + 5 * u) * E <= (1 + 5 * u) * (((1 - (d + 12) * u) * (1 - (d + 12) * u)) * A)) by (apply Qmult_le_l'; [rewrite U; lra|lra]).
    assert (E3 : ((1 - d * u) * ((1 - 8 * u) * (1 - 8 * u))) * A <= ((1 + 5 * u) * ((1 - (d + 12) * u) * (1 - (d + 12) * u)) + (1 # 34359738368)) * A) by lra.
    apply Qmult_le_r in E3; [|exact A0]. rewrite U in E3. clear - E3 Hd Hd2. nra.
  Qed.
End Numbers.

Lemma float_small r : is_float32 r -> pow2 (-50) <= r -> exists w, f32 w == w /\ 0 <= w /\ w < r /\ (1 - 6 * (1 # 16777216)) * r <= w.
Proof.
  intros _ Hr. assert (P : 0 < pow2 (-50)) by apply pow2_pos. assert (Hp : pow2 (-150) <= (1 # 16777216) * pow2 (-50)) by (vm_compute; discriminate).
  set (x := (1 - 4 * (1 # 16777216)) * r). assert (Hx : 0 <= x) by (unfold x; lra). destruct (f32_near x Hx) as [H1 H2].
  setoid_replace (pow2 (-24)) with (1 # 16777216) in H1 by reflexivity. setoid_replace (pow2 (-24)) with (1 # 16777216) in H2 by reflexivity.
  exists (f32 x). split; [apply f32_f32|]. split; [now apply f32_nonneg|]. unfold x in *. split; lra.
Qed.

Lemma compares_decides D r test rows crows : (1 <= D <= 1024)%nat -> is_float32 r -> pow2 (-50) <= r -> compares32 D r test rows crows ->
  forall p c, In p rows -> In c crows ->
    let e := (inject_Z (Z.of_nat D) + 12) * (1 # 16777216) in
    (dist2 D p c < ((1 - e) * r) * ((1 - e) * r) -> test p c = true) /\ (test p c = true -> dist2 D p c < ((1 + e) * r) * ((1 + e) * r)).
Proof.
  intros HD Hf Hr Ht p c Hp Hc e. destruct (Ht p c Hp Hc) as (v & (s & Hs & Hv) & Et). clear Ht.
  destruct (squares_near p c (seq 0 D)) as (N1 & N2 & N3 & N4). cbv zeta in *. set (qs := map _ (seq 0 D)) in *.
  assert (L : length qs = D) by (unfold qs; rewrite map_length, seq_length; reflexivity). rewrite seq_length in *.
  assert (D1 : 1 <= inject_Z (Z.of_nat D)) by (change 1 with (inject_Z 1); rewrite <- Zle_Qle; lia).
  assert (D2 : inject_Z (Z.of_nat D) <= 1024) by (change 1024 with (inject_Z 1024); rewrite <- Zle_Qle; lia).
  assert (U : pow2 (-24) == 1 # 16777216) by reflexivity.
  destruct (sum32_bounds qs s Hs N1) as (_ & M1 & M2 & M3); cbv zeta in *; rewrite ?L in *; [rewrite U; lra|].
  rewrite U in *. clear U. change (fold_right Qplus 0 _) with (dist2 D p c) in *.
  assert (P : 0 < pow2 (-50)) by apply pow2_pos. assert (Ph : 0 < pow2 (-150)) by apply pow2_pos.
  assert (HA : 1125899906842624 * pow2 (-150) <= r * r). { eapply Qle_trans; [|apply (sq_le (pow2 (-50)) r); [lra|exact Hr]]. vm_compute. discriminate. }
  destruct Hv as (Fv & V0 & Hv). pose proof (qsum_nonneg _ N1) as Q0. split.
  - intros Hd. assert (Hlt : s < ((1 - 8 * (1 # 16777216)) * (1 - 8 * (1 # 16777216))) * (r * r)).
    { apply (below (inject_Z (Z.of_nat D)) (r * r) (dist2 D p c) (qsum qs) s (pow2 (-150))); auto. unfold e in Hd. lra. }
    rewrite Et. apply Qltb_lt. apply Qnot_le_lt. intros Hrv. destruct (float_small r Hf Hr) as (w & W1 & W2 & W3 & W4).
    destruct (Hv w W1 W2) as [_ Hw]. specialize (Hw ltac:(lra)).
    assert (Hge : ((1 - 3 * (1 # 16777216)) * r) * ((1 - 3 * (1 # 16777216)) * r) <= ((v + w) / 2) * ((v + w) / 2)).
    { apply sq_le; [lra|]. setoid_replace ((v + w) / 2) with ((1 # 2) * (v + w)) by field. lra. }
    assert (0 < r * r) by lra. lra.
  - intros Hd. rewrite Et in Hd. apply Qltb_lt in Hd. destruct (Hv r Hf ltac:(lra)) as [Hw _]. specialize (Hw Hd).
    assert (Hle : ((v + r) / 2) * ((v + r) / 2) <= r * r).
    { apply sq_le; setoid_replace ((v + r) / 2) with ((1 # 2) * (v + r)) by field; lra. }
    assert (Hlt : dist2 D p c < ((1 + e) * (1 + e)) * (r * r)).
    { apply (above (inject_Z (Z.of_nat D)) (r * r) (dist2 D p c) (qsum qs) s (pow2 (-150))); auto. lra. }
    lra.
Qed.

(** The rounded square root exists: Flocq's. *)
Local Instance p24' : Prec_gt_0 24.
Proof. reflexivity. Qed.
Lemma float_of_format (x : R) : generic_format radix2 (FLT_exp (-149) 24) x -> exists q, Q2R q = x /\ f32 q == q.
Proof.
  intros Hx. exists (inject_Z (Ztrunc (scaled_mantissa radix2 (FLT_exp (-149) 24) x)) * pow2 (cexp radix2 (FLT_exp (-149) 24) x)).
  match goal with |- Q2R ?q = _ /\ _ => assert (E : Q2R q = x) end.
  { rewrite Q2R_mult, Q2R_inject, pow2_bpow. symmetry. exact Hx. }
  split; [exact E|]. apply eqR_Qeq. rewrite f32_ok, E. apply round_generic; [apply valid_rnd_N|exact Hx].
Qed.
Lemma sqrt32_exists s : 0 <= s -> exists v, sqrt32 s v.
Proof.
  intros Hs. assert (Hs' : (0 <= Q2R s)%R) by (rewrite <- RMicromega.Q2R_0; now apply Qle_Rle).
  set (y := R_sqrt.sqrt (Q2R s)). assert (Hy : (0 <= y)%R) by apply sqrt_pos. assert (Ey : (y * y)%R = Q2R s) by (now apply sqrt_sqrt).
  set (x := round radix2 (FLT_exp (-149) 24) ZnearestE y).
  assert (Fx : generic_format radix2 (FLT_exp (-149) 24) x) by (apply generic_format_round; [typeclasses eauto|apply valid_rnd_N]).
  assert (Hx : (0 <= x)%R). { apply round_ge_generic; [typeclasses eauto|apply valid_rnd_N|apply generic_format_0|exact Hy]. }
  destruct (float_of_format x Fx) as (v & Ev & Fv). exists v. split; [exact Fv|].
  split. { apply Rle_Qle. rewrite RMicromega.Q2R_0, Ev. exact Hx. }
  intros w Fw W0. destruct (round_N_pt radix2 (FLT_exp (-149) 24) (fun n => negb (Z.even n)) y) as [_ Hn]. fold x in Hn.
  assert (Gw : generic_format radix2 (FLT_exp (-149) 24) (Q2R w)).
  { apply Qeq_eqR in Fw. rewrite f32_ok in Fw. rewrite <- Fw. apply generic_format_round; [typeclasses eauto|apply valid_rnd_N]. }
  specialize (Hn _ Gw). rewrite <- Ev in Hn. apply Qle_Rle in W0. rewrite RMicromega.Q2R_0 in W0.
  assert (E2 : Q2R (((v + w) / 2) * ((v + w) / 2)) = ((Q2R v + Q2R w) / 2 * ((Q2R v + Q2R w) / 2))%R).
  { unfold Qdiv. rewrite !Q2R_mult, Q2R_plus. replace (Q2R (/ 2)) with (/ 2)%R by (unfold Q2R; cbn; field). reflexivity. }
  rewrite <- Ev in Hx. split; intros Hlt; apply Qlt_Rlt in Hlt; apply Rle_Qle; rewrite E2, <- Ey.
  - assert (y <= (Q2R v + Q2R w) / 2)%R. { unfold Rabs in Hn. destruct (Rcase_abs _), (Rcase_abs _); Lra.lra. }
    apply Rmult_le_compat; assumption.
  - assert ((Q2R v + Q2R w) / 2 <= y)%R. { unfold Rabs in Hn. destruct (Rcase_abs _), (Rcase_abs _); Lra.lra. }
    apply Rmult_le_compat; Lra.lra.
Qed.
Lemma sum32_exists l : l <> [] -> Forall (fun x => 0 <= x) l -> exists s, sum32 l s /\ 0 <= s.
Proof.
  intros H F. induction F as [|x l Hx F IH]; [congruence|]. destruct l as [|y l].
  - exists x. split; [constructor|exact Hx].
  - destruct IH as (s & Hs & H0); [discriminate|]. exists (f32 (x + s)). split; [|apply f32_nonneg; lra].
    apply (sum32_add _ [x] (y :: l)); [reflexivity|constructor|exact Hs].
Qed.
Lemma norm32_exists D p c : (1 <= D)%nat -> exists v, norm32 D p c v.
Proof.
  intros HD. destruct (sum32_exists (map (fun d => let x := f32 (coord p d - coord c d) in f32 (x * x)) (seq 0 D))) as (s & Hs & H0).
  - destruct D; [lia|discriminate].
  - apply (proj1 (squares_near p c (seq 0 D))).
  - destruct (sqrt32_exists s H0) as (v & Hv). exists v, s. auto.
Qed.

(** * The search and the sampling *)
Section Cells.
  Context (eps : Q) (D : nat) (rows : list point) (ids : list nat) (B : nat) (p : pc) (r : Q) (g : grid).
  Hypothesis Hc : cloud GPU eps D rows ids B p.
  Hypothesis Hr : is_float32 r.
  Hypothesis E : mk_grid32 GPU p [r] = Ok g.
  Lemma float_cells : forall d, (d < D)%nat -> nth d (all_dims D (map f32 [r])) 0 == nth d (gcells g) 0 /\ nth d (gcells g) 0 == r.
  Proof.
    intros d Hd. assert (G := mk_grid32_is GPU eps D rows ids B p [r] g (cloud_is _ _ _ _ _ _ _ Hc) E).
    rewrite (h_cells _ _ _ _ _ _ G). cbn [map bcast all_dims]. assert (En : forall n k (x : Q), (k < n)%nat -> nth k (repeat x n) 0 = x) by (induction n; intros [|k] x Hk; cbn; auto; try lia; apply IHn; lia). rewrite En by exact Hd. split; [reflexivity|exact Hr].
  Qed.
  Lemma float_perm : Permutation (gsidx g) (seq 0 (length ids)).
  Proof.
    assert (G := mk_grid32_is GPU eps D rows ids B p [r] g (cloud_is _ _ _ _ _ _ _ Hc) E).
    assert (Lk : length (gkeys g) = length ids) by (rewrite (h_keys _ _ _ _ _ _ G), map_length, seq_length; reflexivity).
    rewrite (h_sidx _ _ _ _ _ _ G), <- Lk. apply argsort_perm.
  Qed.
  Lemma float_points : (forall x, In x (gspts g) -> In x rows) /\ length (gspts g) = length ids /\ length (gsbids g) = length ids.
  Proof.
    assert (G := mk_grid32_is GPU eps D rows ids B p [r] g (cloud_is _ _ _ _ _ _ _ Hc) E). pose proof float_perm as Pm.
    assert (L := Permutation_length Pm). rewrite seq_length in L. split; [|rewrite (h_spts _ _ _ _ _ _ G), (h_sbids _ _ _ _ _ _ G), !map_length; auto].
    intros x Hx. rewrite (h_spts _ _ _ _ _ _ G) in Hx. apply in_map_iff in Hx as (i & <- & Hi). apply nth_In. rewrite (h_len _ _ _ _ _ _ G).
    apply (Permutation_in _ Pm), in_seq in Hi. lia.
  Qed.
End Cells.

Lemma small_large D r m small large : (D <= 1024)%nat -> (0 <= m <= 2 ^ 21)%Z -> pow2 (-50) <= r ->
  small == (1 - inject_Z (m + Z.of_nat D + 12) * (1 # 4194304)) * r -> large == (1 + inject_Z (Z.of_nat D + 12) * (1 # 16777216)) * r ->
  0 < small /\ small <= (1 - (inject_Z (Z.of_nat D) + 12) * (1 # 16777216)) * r /\
  ((1 + (inject_Z (Z.of_nat D) + 12) * (1 # 16777216)) * r) * ((1 + (inject_Z (Z.of_nat D) + 12) * (1 # 16777216)) * r) == large * large /\
  (forall n, (n <= m)%Z -> small <= safe_radius n r).
Proof.
  intros HD Hm Hr Es El. assert (P : 0 < pow2 (-50)) by apply pow2_pos. rewrite !inject_Z_plus in *. change (inject_Z 12) with 12 in *.
  assert (D0 : 0 <= inject_Z (Z.of_nat D)) by (change 0 with (inject_Z 0); rewrite <- Zle_Qle; lia).
  assert (D2 : inject_Z (Z.of_nat D) <= 1024) by (change 1024 with (inject_Z 1024); rewrite <- Zle_Qle; lia).
  assert (M0 : 0 <= inject_Z m) by (change 0 with (inject_Z 0); rewrite <- Zle_Qle; lia).
  assert (M1 : inject_Z m <= 2097152) by (change 2097152 with (inject_Z 2097152); rewrite <- Zle_Qle; lia).
  assert (R0 : 0 < r) by lra. set (x := inject_Z (Z.of_nat D)) in *. set (y := inject_Z m) in *.
  split; [rewrite Es; apply Qmult_lt_0_compat; lra|]. split; [rewrite Es; apply Qmult_le_compat_r; lra|]. split; [rewrite El; ring|].
  intros n Hn. rewrite Zle_Qle in Hn. fold y in Hn. rewrite Es. unfold safe_radius. setoid_replace ((inject_Z n + 2) / 4194304) with ((inject_Z n + 2) * (1 # 4194304)) by field.
  rewrite (Qmult_comm r). apply Qmult_le_compat_r; lra.
Qed.

(** C54, search, with the distances that are computed: differences, squares, sums
    in any order and the square root are rounded to float32. In a grid of at
    most [m] cells along the first two axes whose cell size is the radius [r],
    and no point in the cell beyond the last one, the search returns only points
    of the same element within the radius enlarged by a fraction of
    (D + 12) / 2^24, and every such point within the radius reduced by a
    fraction of (m + D + 12) / 2^22. Partial: for these two radii. *)
Lemma C54_distances_partial_proof :
  forall test eps D rows ids B p r g ceps crows cids CB cp m,
    cloud GPU eps D rows ids B p -> float32_batch D rows ids -> mk_grid32 GPU p [r] = Ok g -> (2 <= D <= 1024)%nat ->
    (Z.of_nat (length ids) < 2 ^ 31 - 1)%Z -> (Z.of_nat B * product (gnc g) <= 2 ^ 31)%Z ->
    (forall lo i d, (i < length ids)%nat -> (d < D)%nat -> lower_corner32 D rows ids (nth i ids 0%nat) lo ->
       Qfloor (position32 (nth d lo 0) (nth d (gcells g) 0) (xc rows i d)) <> nth d (gnc g) 0%Z) ->
    cloud GPU ceps D crows cids CB cp -> cids <> [] -> Forall (fun b => (b < B)%nat) cids ->
    is_float32 r -> pow2 (-50) <= r -> (nth 0 (gnc g) 0 <= m)%Z -> (nth 1 (gnc g) 0 <= m)%Z -> (0 <= m <= 2 ^ 21)%Z ->
    compares32 D r test rows crows ->
    let small := (1 - inject_Z (m + Z.of_nat D + 12) * (1 # 4194304)) * r in
    let large := (1 + inject_Z (Z.of_nat D + 12) * (1 # 16777216)) * r in
    exists rg nbs, snd (find_neighbors32 GPU test g cp [r]) = Ok (rg, nbs) /\
      delimits (rdata rg) nbs (length cids) /\ NoDup nbs /\
      (forall j i, In (j, i) nbs -> near D large (gspts g) (gsbids g) crows cids j i) /\
      (forall j i, near D small (gspts g) (gsbids g) crows cids j i -> In (j, i) nbs).
Proof.
  intros test eps D rows ids B p r g ceps crows cids CB cp m Hc Hf E HD HN Ho Hfit Hcc Hne HcB Hr Hlow Hm0 Hm1 Hm Ht small large.
  pose proof (float_cells eps D rows ids B p r g Hc Hr E) as Hcell. destruct (float_points eps D rows ids B p r g Hc E) as (Hpts & Lp & Lb).
  destruct (small_large D r m small large) as (S0 & S1 & S2 & S3); [lia|lia|exact Hlow|reflexivity|reflexivity|].
  pose proof (compares_decides D r test rows crows ltac:(lia) Hr Hlow Ht) as Hdec. cbv zeta in Hdec.
  assert (P100 : pow2 (-100) <= pow2 (-50)) by (vm_compute; discriminate).
  destruct (C54_search_partial_proof test eps D rows ids B p [r] g ceps crows cids CB cp [r]) as (rg & nbs & Ef & Dl & Nd & N1 & N2); auto; try lia.
  { intros d Hd. apply Hcell. lia. }
  { intros d Hd. destruct (Hcell d ltac:(lia)) as [_ ->]. lra. }
  pose proof (ic_len _ _ _ _ _ _ _ (cloud_is _ _ _ _ _ _ _ Hcc)) as Lc.
  exists rg, nbs. split; [exact Ef|]. split; [exact Dl|]. split; [exact Nd|]. split.
  - intros j i H. destruct (N1 j i H) as (Hj & Hi & Hb & Hd). split; [lia|]. split; [exact Hi|]. split; [exact Hb|].
    destruct (Hdec (nth j (gspts g) []) (nth i crows [])) as [_ Hl]; [apply Hpts, nth_In; lia|apply nth_In; lia|].
    eapply Qlt_le_trans; [apply Hl, Hd|]. rewrite S2. apply Qle_refl.
  - intros j i (Hj & Hi & Hb & Hd). apply N2; auto; [lia|..].
    + destruct (Hdec (nth j (gspts g) []) (nth i crows [])) as [Hl _]; [apply Hpts, nth_In; lia|apply nth_In; lia|].
      apply Hl. eapply Qlt_le_trans; [exact Hd|]. apply sq_le; [lra|exact S1].
    + intros d Hd2. destruct (Hcell d ltac:(lia)) as [_ Ec]. eapply Qle_trans; [apply (coord_le_dist D); [lia|exact S0|exact Hd]|].
      eapply Qle_trans; [apply (S3 (nth d (gnc g) 0%Z)); destruct d as [|[|d]]; [assumption..|lia]|].
      unfold safe_radius. rewrite Ec. apply Qle_refl.
Qed.

(** C75, with the distances that are computed, as in C54_distances_partial: the
    sampling stops after at most as many draws as points, the points selected of
    one element are at least the radius reduced by a fraction of
    (m + D + 12) / 2^22 apart, and every point is within the radius enlarged by a
    fraction of (D + 12) / 2^24 of a selected one. Partial: two or more points,
    no point in the cell beyond the last one, and these two radii. *)
Lemma C75_distances_partial_proof :
  forall test eps D rows ids B p r g m mode dev fuel draws,
    cloud GPU eps D rows ids B p -> float32_batch D rows ids -> mk_grid32 GPU p [r] = Ok g -> (2 <= D <= 1024)%nat ->
    (Z.of_nat (length ids) < 2 ^ 31 - 1)%Z -> (Z.of_nat B * product (gnc g) <= 2 ^ 31)%Z ->
    (forall lo i d, (i < length ids)%nat -> (d < D)%nat -> lower_corner32 D rows ids (nth i ids 0%nat) lo ->
       Qfloor (position32 (nth d lo 0) (nth d (gcells g) 0) (xc rows i d)) <> nth d (gnc g) 0%Z) ->
    is_float32 r -> pow2 (-50) <= r -> (nth 0 (gnc g) 0 <= m)%Z -> (nth 1 (gnc g) 0 <= m)%Z -> (0 <= m <= 2 ^ 21)%Z ->
    compares32 D r test rows rows ->
    (2 <= length ids)%nat -> (length ids <= fuel)%nat -> means mode poisson_names ->
    let small := (1 - inject_Z (m + Z.of_nat D + 12) * (1 # 4194304)) * r in
    let large := (1 + inject_Z (Z.of_nat D + 12) * (1 # 16777216)) * r in
    exists n q sel, snd (mk_nbh (search32 test) g [r] None 0) = Ok n /\
      sample dev fuel draws n mode = Some (Ok (q, Some sel)) /\
      poisson_between D small large rows ids sel /\
      cloud GPU eps D (map (fun i => nth i rows []) sel) (map (fun i => nth i ids 0%nat) sel) B q.
Proof.
  intros test eps D rows ids B p r g m mode dev fuel draws Hc Hf E HD HN Ho Hfit Hr Hlow Hm0 Hm1 Hm Ht Hl HF Hmode small large.
  pose proof (float_cells eps D rows ids B p r g Hc Hr E) as Hcell.
  destruct (small_large D r m small large) as (S0 & S1 & S2 & S3); [lia|lia|exact Hlow|reflexivity|reflexivity|].
  assert (P100 : pow2 (-100) <= pow2 (-50)) by (vm_compute; discriminate).
  apply (C75_sample_partial_proof test small large eps D rows ids B p [r] g [r] mode dev fuel draws); auto; try lia.
  - intros d Hd. apply Hcell. lia.
  - intros d Hd. destruct (Hcell d ltac:(lia)) as [_ ->]. lra.
  - intros d Hd. destruct (Hcell d ltac:(lia)) as [_ Ec].
    eapply Qle_trans; [apply (S3 (nth d (gnc g) 0%Z)); destruct d as [|[|d]]; [assumption..|lia]|]. unfold safe_radius. rewrite Ec. apply Qle_refl.
  - intros a b Ha Hb. destruct (compares_decides D r test rows rows ltac:(lia) Hr Hlow Ht a b Ha Hb) as [H1 H2]. cbv zeta in *. split; intros H.
    + apply H1. eapply Qlt_le_trans; [exact H|]. apply sq_le; [lra|exact S1].
    + eapply Qlt_le_trans; [apply H2, H|]. rewrite S2. apply Qle_refl.
Qed.

(** C54, C75: for every cloud, centers and radius there is a comparison with
    distances computed in this way. *)
Lemma C54_comparison_proof :
  forall D r rows crows, (1 <= D)%nat -> exists test, compares32 D r test rows crows.
Proof.
  intros D r rows crows HD.
  assert (H : forall p c : point, exists b : bool, exists v, norm32 D p c v /\ b = Qltb v r).
  { intros p c. destruct (norm32_exists D p c HD) as (v & Hv). exists (Qltb v r), v. auto. }
  assert (dec : forall p q : point, {p = q} + {p <> q}). { apply list_eq_dec. intros [a b] [c d]. destruct (Z.eq_dec a c), (Pos.eq_dec b d); subst; auto; right; congruence. }
  assert (H1 : forall p, exists f : point -> bool, forall c, In c crows -> exists v, norm32 D p c v /\ f c = Qltb v r).
  { intros p. induction crows as [|c cs (f & Hf)]; [exists (fun _ => true); intros c []|]. destruct (H p c) as (b & Hb).
    exists (fun x => if dec x c then b else f x). intros x [<-|Hx]; destruct (dec _ _); subst; try congruence; auto. }
  induction rows as [|p ps (f & Hf)]; [exists (fun _ _ => true); intros p c []|]. destruct (H1 p) as (f0 & Hf0).
  exists (fun x c => if dec x p then f0 c else f x c). intros x c [<-|Hx] Hc; destruct (dec _ _); subst; try congruence; auto.
Qed.
(** Three points with distances 5 and 10 that are computed exactly, radius 7. *)
Definition ex75_rows : list point := [[1; 1]; [4; 5]; [7; 9]].
Example C75_distances_partial_ex_proof :
  exists g, cloud GPU 0 2 ex75_rows [0; 0; 0]%nat 1 (seg 2 ex75_rows [0; 0; 0]%nat 1) /\ float32_batch 2 ex75_rows [0; 0; 0]%nat /\
    mk_grid32 GPU (seg 2 ex75_rows [0; 0; 0]%nat 1) [7] = Ok g /\ gnc g = [1; 2]%Z /\
    (forall lo i d, (i < 3)%nat -> (d < 2)%nat -> lower_corner32 2 ex75_rows [0; 0; 0]%nat (nth i [0; 0; 0]%nat 0%nat) lo ->
       Qfloor (position32 (nth d lo 0) (nth d (gcells g) 0) (xc ex75_rows i d)) <> nth d (gnc g) 0%Z) /\
    is_float32 7 /\ pow2 (-50) <= 7 /\ compares32 2 7 (fun a b => norm_lt a b 7) ex75_rows ex75_rows /\
    exists n q, snd (mk_nbh (search32 (fun a b => norm_lt a b 7)) g [7] None 0) = Ok n /\
      sample GPU 3 (fun k => k) n "poisson" = Some (Ok (q, Some [2; 0]%nat)).
Proof.
  eexists. split; [apply seg_cloud; [reflexivity|repeat constructor|repeat constructor]|].
  split; [intros i d Hi Hd; cbn in Hi; destruct i as [|[|[|i]]], d as [|[|d]]; try lia; reflexivity|].
  split; [vm_compute; reflexivity|]. split; [reflexivity|]. split.
  { intros lo i d Hi Hd Hlo.
    rewrite (position32_comp _ (nth d (lo32 2 ex75_rows [0; 0; 0]%nat 0) 0)).
    2:{ apply (corner32_unique 2 ex75_rows [0; 0; 0]%nat 0); [exact Hd| |apply lo32_corner; [reflexivity|cbn; now left]].
        destruct i as [|[|[|i]]]; [exact Hlo..|lia]. }
    destruct i as [|[|[|i]]], d as [|[|d]]; try lia; vm_compute; discriminate. }
  split; [reflexivity|]. split; [vm_compute; discriminate|]. split.
  { assert (H : forall p c s v, sum32 (map (fun d => let x := f32 (coord p d - coord c d) in f32 (x * x)) (seq 0 2)) s -> s == v * v -> f32 v == v -> 0 <= v -> norm_lt p c 7 = Qltb v 7 ->
      exists v, norm32 2 p c v /\ norm_lt p c 7 = Qltb v 7).
    { intros p c s v Hs Ev Fv V0 Hn. exists v. split; [|exact Hn]. exists s. split; [exact Hs|]. split; [exact Fv|]. split; [exact V0|].
      intros w Fw W0. rewrite Ev. setoid_replace ((v + w) / 2) with ((1 # 2) * (v + w)) by field. split; intros Hw; apply sq_le; lra. }
    assert (H2 : forall a b, sum32 [a; b] (f32 (a + b))) by (intros a b; apply (sum32_add _ [a] [b]); [reflexivity|constructor..]).
    intros p c Hp Hc. cbn in Hp, Hc.
    destruct Hp as [<-|[<-|[<-|[]]]], Hc as [<-|[<-|[<-|[]]]];
      first [ eapply (H _ _ _ 0); [cbn [map seq]; apply H2|vm_compute; reflexivity|vm_compute; reflexivity|vm_compute; discriminate|vm_compute; reflexivity]
            | eapply (H _ _ _ 5); [cbn [map seq]; apply H2|vm_compute; reflexivity|vm_compute; reflexivity|vm_compute; discriminate|vm_compute; reflexivity]
            | eapply (H _ _ _ 10); [cbn [map seq]; apply H2|vm_compute; reflexivity|vm_compute; reflexivity|vm_compute; discriminate|vm_compute; reflexivity] ]. }
  do 2 eexists. split; vm_compute; reflexivity.
Qed.

Example C54_comparison_ex_proof : exists test, compares32 2 7 test ex75_rows [[1; 1]; [4; 5]] /\ test [7; 9] [1; 1] = false /\ test [4; 5] [1; 1] = true.
Proof.
  exists (fun a b => norm_lt a b 7). split; [|split; vm_compute; reflexivity].
  destruct C75_distances_partial_ex_proof as (g & _ & _ & _ & _ & _ & _ & _ & H & _). intros p c Hp Hc. apply H; [exact Hp|]. cbn in Hc |- *. tauto.
Qed.

(** The hypotheses of C54_distances_partial: the same cloud and grid, searched
    from two of its points. *)
Example C54_distances_partial_ex_proof :
  exists g test rg nbs, mk_grid32 GPU (seg 2 ex75_rows [0; 0; 0]%nat 1) [7] = Ok g /\ gspts g = [[7; 9]; [1; 1]; [4; 5]] /\
    compares32 2 7 test ex75_rows [[1; 1]; [4; 5]] /\
    snd (find_neighbors32 GPU test g (seg 2 [[1; 1]; [4; 5]] [0; 0]%nat 1) [7]) = Ok (rg, nbs) /\ nbs = [(1, 0); (2, 0); (0, 1); (1, 1); (2, 1)]%nat.
Proof.
  eexists. exists (fun a b => norm_lt a b 7). do 2 eexists. split; [vm_compute; reflexivity|]. split; [reflexivity|]. split.
  - destruct C75_distances_partial_ex_proof as (g & _ & _ & _ & _ & _ & _ & _ & H & _). intros p c Hp Hc. apply H; [exact Hp|]. cbn in Hc |- *. tauto.
  - split; vm_compute; reflexivity.
Qed.
