(** Proofs of C35 and C36. The statements are copied verbatim into
    PropertiesKernels.v. *)
From Coq Require Import List Arith Reals Lia Lra Bool Permutation.
From Verif Require Import Tensor TensorFacts Pdf SpecPdf RTensor RTensorFacts NeighborFacts Kernels SpecKernels.
Import ListNotations.
Local Open Scope R_scope.

Ltac in_sh3 := repeat (apply in_shape_cons; split); try lia; constructor.

Section Rotation.
  Context (ax ay az : R).
  Let m (i j : nat) : R :=
    let cx := cos ax in let sx := sin ax in let cy := cos ay in let sy := sin ay in let cz := cos az in let sz := sin az in
    nth j (nth i [[cy * cz; cy * sz; - sy];
                  [sx * sy * cz - cx * sz; sx * sy * sz + cx * cz; sx * cy];
                  [cx * sy * cz + sx * sz; cx * sy * sz - sx * cz; cx * cy]] []) 0.

  Lemma rotation_matrix N (p : list nat -> R) :
    random_rotation ax ay az (ttab [N; 3]%nat p) = Ok (ttab [N; 3]%nat (fun idx => match idx with
      | [i; j] => p [i; 0%nat] * m 0 j + p [i; 1%nat] * m 1 j + p [i; 2%nat] * m 2 j | _ => 0 end)).
  Proof.
    unfold random_rotation, rot_x, rot_y, rot_z, stack_columns. rewrite tmatmul2_ttab. cbn [bind]. rewrite tmatmul2_ttab. cbn [bind].
    rewrite tmatmul2_ttab. f_equal. apply ttab_ext. intros idx Hi. idx_inv.
    destruct i0 as [|[|[|k]]]; [..|lia]; cbn; unfold m; ring.
  Qed.

  (** Rows of the matrix are orthonormal, and its determinant is 1. *)
  Lemma m_ortho i j : (i < 3)%nat -> (j < 3)%nat ->
    m i 0 * m j 0 + m i 1 * m j 1 + m i 2 * m j 2 = if (i =? j)%nat then 1 else 0.
  Proof.
    pose proof (sin2_cos2 ax) as X. pose proof (sin2_cos2 ay) as Y. pose proof (sin2_cos2 az) as Z.
    unfold Rsqr in *. unfold m. clear m. revert X Y Z.
    generalize (cos ax), (sin ax), (cos ay), (sin ay), (cos az), (sin az). clear ax ay az.
    intros cx sx cy sy cz sz X Y Z Hi Hj.
    destruct i as [|[|[|i]]]; [..|lia]; (destruct j as [|[|[|j]]]; [..|lia]); cbn [nth Nat.eqb].
    - transitivity (cy * cy * (sz * sz + cz * cz) + sy * sy); [ring|]. rewrite Z. lra.
    - transitivity (sx * (sy * cy) * (sz * sz + cz * cz) - sx * (sy * cy)); [ring|]. rewrite Z. ring.
    - transitivity (cx * (sy * cy) * (sz * sz + cz * cz) - cx * (sy * cy)); [ring|]. rewrite Z. ring.
    - transitivity (sx * (sy * cy) * (sz * sz + cz * cz) - sx * (sy * cy)); [ring|]. rewrite Z. ring.
    - transitivity ((sx * sx * (sy * sy) + cx * cx) * (sz * sz + cz * cz) + sx * sx * (cy * cy)); [ring|]. rewrite Z.
      transitivity (sx * sx * (sy * sy + cy * cy) + cx * cx); [ring|]. rewrite Y. lra.
    - transitivity (sx * cx * (sy * sy - 1) * (sz * sz + cz * cz) + sx * cx * (cy * cy)); [ring|]. rewrite Z.
      transitivity (sx * cx * (sy * sy + cy * cy - 1)); [ring|]. rewrite Y. ring.
    - transitivity (cx * (sy * cy) * (sz * sz + cz * cz) - cx * (sy * cy)); [ring|]. rewrite Z. ring.
    - transitivity (sx * cx * (sy * sy - 1) * (sz * sz + cz * cz) + sx * cx * (cy * cy)); [ring|]. rewrite Z.
      transitivity (sx * cx * (sy * sy + cy * cy - 1)); [ring|]. rewrite Y. ring.
    - transitivity ((cx * cx * (sy * sy) + sx * sx) * (sz * sz + cz * cz) + cx * cx * (cy * cy)); [ring|]. rewrite Z.
      transitivity (cx * cx * (sy * sy + cy * cy) + sx * sx); [ring|]. rewrite Y. lra.
  Qed.
  Lemma m_det : m 0 0 * (m 1 1 * m 2 2 - m 1 2 * m 2 1) - m 0 1 * (m 1 0 * m 2 2 - m 1 2 * m 2 0)
                + m 0 2 * (m 1 0 * m 2 1 - m 1 1 * m 2 0) = 1.
  Proof.
    pose proof (sin2_cos2 ax) as X. pose proof (sin2_cos2 ay) as Y. pose proof (sin2_cos2 az) as Z.
    unfold Rsqr in *. unfold m. clear m. revert X Y Z.
    generalize (cos ax), (sin ax), (cos ay), (sin ay), (cos az), (sin az). clear ax ay az.
    intros cx sx cy sy cz sz X Y Z. cbn [nth].
    transitivity ((sx * sx + cx * cx) * (sy * sy + cy * cy) * (sz * sz + cz * cz)); [ring|]. rewrite X, Y, Z. ring.
  Qed.

  Let rot (a0 a1 a2 : R) (j : nat) : R := a0 * m 0 j + a1 * m 1 j + a2 * m 2 j.
  Lemma rot_length a0 a1 a2 :
    rot a0 a1 a2 0 * rot a0 a1 a2 0 + (rot a0 a1 a2 1 * rot a0 a1 a2 1 + (rot a0 a1 a2 2 * rot a0 a1 a2 2 + 0)) = a0 * a0 + (a1 * a1 + (a2 * a2 + 0)).
  Proof.
    unfold rot.
    transitivity (a0 * a0 * (m 0 0 * m 0 0 + m 0 1 * m 0 1 + m 0 2 * m 0 2)
      + a1 * a1 * (m 1 0 * m 1 0 + m 1 1 * m 1 1 + m 1 2 * m 1 2)
      + a2 * a2 * (m 2 0 * m 2 0 + m 2 1 * m 2 1 + m 2 2 * m 2 2)
      + 2 * (a0 * a1) * (m 0 0 * m 1 0 + m 0 1 * m 1 1 + m 0 2 * m 1 2)
      + 2 * (a0 * a2) * (m 0 0 * m 2 0 + m 0 1 * m 2 1 + m 0 2 * m 2 2)
      + 2 * (a1 * a2) * (m 1 0 * m 2 0 + m 1 1 * m 2 1 + m 1 2 * m 2 2)); [ring|].
    rewrite !m_ortho by lia. cbn [Nat.eqb]. ring.
  Qed.
  Lemma rot_det a0 a1 a2 b0 b1 b2 c0 c1 c2 :
    rot a0 a1 a2 0 * (rot b0 b1 b2 1 * rot c0 c1 c2 2 - rot b0 b1 b2 2 * rot c0 c1 c2 1)
    - rot a0 a1 a2 1 * (rot b0 b1 b2 0 * rot c0 c1 c2 2 - rot b0 b1 b2 2 * rot c0 c1 c2 0)
    + rot a0 a1 a2 2 * (rot b0 b1 b2 0 * rot c0 c1 c2 1 - rot b0 b1 b2 1 * rot c0 c1 c2 0)
    = a0 * (b1 * c2 - b2 * c1) - a1 * (b0 * c2 - b2 * c0) + a2 * (b0 * c1 - b1 * c0).
  Proof.
    transitivity ((a0 * (b1 * c2 - b2 * c1) - a1 * (b0 * c2 - b2 * c0) + a2 * (b0 * c1 - b1 * c0)) *
      (m 0 0 * (m 1 1 * m 2 2 - m 1 2 * m 2 1) - m 0 1 * (m 1 0 * m 2 2 - m 1 2 * m 2 0) + m 0 2 * (m 1 0 * m 2 1 - m 1 1 * m 2 0))).
    - unfold rot. ring.
    - rewrite m_det. ring.
  Qed.
  Lemma rotation_ok N p q : random_rotation ax ay az (ttab [N; 3]%nat p) = Ok q ->
    (forall i j, (i < N)%nat -> (j < N)%nat -> sqdist q i j = sqdist (ttab [N; 3]%nat p) i j) /\
    (forall i, (i < N)%nat -> sqnorm q i = sqnorm (ttab [N; 3]%nat p) i) /\
    (forall i j k, (i < N)%nat -> (j < N)%nat -> (k < N)%nat -> det3 q i j k = det3 (ttab [N; 3]%nat p) i j k) /\
    (forall i d, (i < N)%nat -> (d < 3)%nat -> (forall d, (d < 3)%nat -> co (ttab [N; 3]%nat p) i d = 0) -> co q i d = 0) /\
    tshape q = [N; 3]%nat.
  Proof.
    rewrite rotation_matrix. intros E. injection E as <-.
    assert (Hq : forall i d, (i < N)%nat -> (d < 3)%nat -> co (ttab [N; 3]%nat (fun idx => match idx with
      | [i; j] => p [i; 0%nat] * m 0 j + p [i; 1%nat] * m 1 j + p [i; 2%nat] * m 2 j | _ => 0 end)) i d
      = rot (p [i; 0%nat]) (p [i; 1%nat]) (p [i; 2%nat]) d).
    { intros i d Hi Hd. unfold co. rewrite tget_ttab by in_sh3. reflexivity. }
    assert (Hp : forall i d, (i < N)%nat -> (d < 3)%nat -> co (ttab [N; 3]%nat p) i d = p [i; d])
      by (intros i d Hi Hd; unfold co; now rewrite tget_ttab by in_sh3).
    split; [|split; [|split; [|split]]].
    - intros i j Hi Hj. unfold sqdist, sum_over. cbn [seq map fold_right]. rewrite !Hq, !Hp by lia.
      symmetry. etransitivity; [symmetry; apply rot_length|]. unfold rot. ring.
    - intros i Hi. unfold sqnorm, sum_over. cbn [seq map fold_right]. rewrite !Hq, !Hp by lia. apply rot_length.
    - intros i j k Hi Hj Hk. unfold det3. rewrite !Hq, !Hp by lia. apply rot_det.
    - intros i d Hi Hd H0. rewrite Hq by lia. pose proof (H0 0%nat ltac:(lia)) as Z0. pose proof (H0 1%nat ltac:(lia)) as Z1. pose proof (H0 2%nat ltac:(lia)) as Z2.
      rewrite Hp in Z0, Z1, Z2 by lia. unfold rot. rewrite Z0, Z1, Z2. ring.
    - apply ttab_shape.
  Qed.
End Rotation.

(** C35: for all angles the result has the same shape, all pairwise distances
    and distances from the origin are the same, and the orientation of any
    three points is kept. *)
Lemma C35_rotation_proof :
  forall ax ay az N (p : list nat -> R), let points := ttab [N; 3]%nat p in
    exists q, random_rotation ax ay az points = Ok q /\ tshape q = [N; 3]%nat /\
      (forall i j, (i < N)%nat -> (j < N)%nat -> sqdist q i j = sqdist points i j) /\
      (forall i, (i < N)%nat -> sqnorm q i = sqnorm points i) /\
      (forall i j k, (i < N)%nat -> (j < N)%nat -> (k < N)%nat -> det3 q i j k = det3 points i j k).
Proof.
  intros ax ay az N p points. pose proof (rotation_matrix ax ay az N p) as E. eexists. split; [exact E|].
  apply rotation_ok in E. destruct E as (H1 & H2 & H3 & _ & H4). auto.
Qed.
Example C35_rotation_ex_proof :
  exists q, random_rotation 0 (PI / 2) 0 (ttab [1; 3]%nat (fun idx => match idx with [_; d] => INR (d + 1) | _ => 0 end)) = Ok q /\
    co q 0 0 = 3 /\ co q 0 1 = 2 /\ co q 0 2 = -1.
Proof.
  rewrite rotation_matrix. eexists. split; [reflexivity|]. unfold co. rewrite !tget_ttab by in_sh3.
  cbn [nth]. rewrite sin_0, cos_0, sin_PI2, cos_PI2. cbn. repeat split; lra.
Qed.

(** Kernel points. *)
Lemma rows_rotation num angles p : fixed_kernel_points num = Ok p ->
  exists t, spherical_kernel_points num angles = Ok t /\ tshape t = [length p; 3]%nat /\
    (forall i j, (i < length p)%nat -> (j < length p)%nat -> sqdist t i j = sqdist (of_rows 3 p) i j) /\
    (forall i, (i < length p)%nat -> sqnorm t i = sqnorm (of_rows 3 p) i).
Proof.
  intros E. unfold spherical_kernel_points. rewrite E. cbn [bind]. destruct angles as [[[ax ay] az]|].
  - unfold of_rows. pose proof (rotation_matrix ax ay az (length p)
      (fun idx => match idx with [i; j] => nth j (nth i p []) 0 | _ => 0 end)) as R. eexists. split; [exact R|].
    apply rotation_ok in R. destruct R as (H1 & H2 & _ & _ & H4). auto.
  - eexists. split; [reflexivity|]. rewrite of_rows_shape. auto.
Qed.
Lemma co_rows p i d : (i < length p)%nat -> (d < 3)%nat -> co (of_rows 3 p) i d = nth d (nth i p []) 0.
Proof. intros Hi Hd. unfold co, of_rows. now rewrite tget_ttab by in_sh3. Qed.
Lemma sqdist_rows p i j : (i < length p)%nat -> (j < length p)%nat -> sqdist (of_rows 3 p) i j =
  (nth 0 (nth i p []) 0 - nth 0 (nth j p []) 0) * (nth 0 (nth i p []) 0 - nth 0 (nth j p []) 0) +
  ((nth 1 (nth i p []) 0 - nth 1 (nth j p []) 0) * (nth 1 (nth i p []) 0 - nth 1 (nth j p []) 0) +
  ((nth 2 (nth i p []) 0 - nth 2 (nth j p []) 0) * (nth 2 (nth i p []) 0 - nth 2 (nth j p []) 0) + 0)).
Proof. intros Hi Hj. unfold sqdist, sum_over. cbn [seq map fold_right]. now rewrite !co_rows by lia. Qed.
Lemma sqnorm_rows p i : (i < length p)%nat -> sqnorm (of_rows 3 p) i =
  nth 0 (nth i p []) 0 * nth 0 (nth i p []) 0 + (nth 1 (nth i p []) 0 * nth 1 (nth i p []) 0 + (nth 2 (nth i p []) 0 * nth 2 (nth i p []) 0 + 0)).
Proof. intros Hi. unfold sqnorm, sum_over. cbn [seq map fold_right]. now rewrite !co_rows by lia. Qed.

Definition differ (a b : list R) : Prop := nth 0 a 0 <> nth 0 b 0 \/ nth 1 a 0 <> nth 1 b 0 \/ nth 2 a 0 <> nth 2 b 0.
Definition within (a : list R) : Prop := nth 0 a 0 * nth 0 a 0 + (nth 1 a 0 * nth 1 a 0 + (nth 2 a 0 * nth 2 a 0 + 0)) <= 1.
Lemma differ_nth p : ForallOrdPairs differ p -> forall i j, (i < j)%nat -> (j < length p)%nat -> differ (nth i p []) (nth j p []).
Proof.
  induction 1 as [|a p Ha Hp IH]; cbn [length]; intros i j Hij Hj; [lia|].
  destruct j as [|j]; [lia|]. destruct i as [|i]; cbn [nth].
  - rewrite Forall_forall in Ha. apply Ha, nth_In. lia.
  - apply IH; lia.
Qed.
Lemma sq_pos x : x <> 0 -> 0 < x * x.
Proof. intros H. apply Rsqr_pos_lt in H. exact H. Qed.
Lemma differ_pos x1 x2 x3 y1 y2 y3 : x1 <> y1 \/ x2 <> y2 \/ x3 <> y3 ->
  0 < (x1 - y1) * (x1 - y1) + ((x2 - y2) * (x2 - y2) + ((x3 - y3) * (x3 - y3) + 0)).
Proof.
  intros H. pose proof (Rle_0_sqr (x1 - y1)). pose proof (Rle_0_sqr (x2 - y2)). pose proof (Rle_0_sqr (x3 - y3)). unfold Rsqr in *.
  destruct H as [H|[H|H]]; [assert (0 < (x1 - y1) * (x1 - y1)) by (apply sq_pos; lra)|assert (0 < (x2 - y2) * (x2 - y2)) by (apply sq_pos; lra)
    |assert (0 < (x3 - y3) * (x3 - y3)) by (apply sq_pos; lra)]; lra.
Qed.
Lemma good_points num angles p : fixed_kernel_points num = Ok p -> length p = num -> nth 0 p [] = [0; 0; 0] ->
  ForallOrdPairs differ p -> Forall within p -> (0 < num)%nat ->
  exists t, spherical_kernel_points num angles = Ok t /\ tshape t = [num; 3]%nat /\
    sqnorm t 0 = 0 /\ (forall i, (i < num)%nat -> sqnorm t i <= 1) /\
    (forall i j, (i < num)%nat -> (j < num)%nat -> i <> j -> 0 < sqdist t i j).
Proof.
  intros E L Z D W Hn. destruct (rows_rotation num angles p E) as (t & Et & Es & H1 & H2). rewrite L in *.
  exists t. split; [auto|]. split; [auto|]. split; [|split].
  - rewrite H2 by lia. rewrite sqnorm_rows by lia. rewrite Z. cbn. lra.
  - intros i Hi. rewrite H2 by lia. rewrite sqnorm_rows by lia. rewrite Forall_forall in W. apply W. apply nth_In. lia.
  - intros i j Hi Hj Hij. rewrite H1 by lia. rewrite sqdist_rows by lia. apply differ_pos.
    destruct (Nat.lt_ge_cases i j) as [C|C].
    + apply (differ_nth p D i j); lia.
    + assert (D' : differ (nth j p []) (nth i p [])) by (apply (differ_nth p D j i); lia). unfold differ in D'.
      destruct D' as [D'|[D'|D']]; auto.
Qed.

Ltac pair_tac := unfold differ; cbn [nth]; first [ left; lra | right; left; lra | right; right; lra ].
Ltac all_pairs := repeat first [ apply FOP_nil | apply FOP_cons ]; repeat first [ apply Forall_nil | apply Forall_cons ].

Lemma points5 angles : exists t, spherical_kernel_points 5 angles = Ok t /\ tshape t = [5; 3]%nat /\
    sqnorm t 0 = 0 /\ (forall i, (i < 5)%nat -> sqnorm t i <= 1) /\
    (forall i j, (i < 5)%nat -> (j < 5)%nat -> i <> j -> 0 < sqdist t i j).
Proof.
  pose proof (sqrt_sqrt (8/9) ltac:(lra)) as A. pose proof (sqrt_sqrt (2/9) ltac:(lra)) as B. pose proof (sqrt_sqrt (2/3) ltac:(lra)) as C.
  pose proof (sqrt_lt_R0 (8/9) ltac:(lra)). pose proof (sqrt_lt_R0 (2/9) ltac:(lra)). pose proof (sqrt_lt_R0 (2/3) ltac:(lra)).
  eapply good_points; [reflexivity| | | | |lia]; try reflexivity.
  - all_pairs; pair_tac.
  - repeat apply Forall_cons; [..|apply Forall_nil]; unfold within; cbn [nth]; nra.
Qed.
Lemma points7 angles : exists t, spherical_kernel_points 7 angles = Ok t /\ tshape t = [7; 3]%nat /\
    sqnorm t 0 = 0 /\ (forall i, (i < 7)%nat -> sqnorm t i <= 1) /\
    (forall i j, (i < 7)%nat -> (j < 7)%nat -> i <> j -> 0 < sqdist t i j).
Proof.
  eapply good_points; [reflexivity| | | | |lia]; try reflexivity.
  - all_pairs; pair_tac.
  - repeat apply Forall_cons; [..|apply Forall_nil]; unfold within; cbn [nth]; lra.
Qed.
Lemma within_scaled k x y z : k * k = 1/2 -> x * x + y * y = 1 -> z * z = 1/4 ->
  (x * k) * (x * k) + ((y * k) * (y * k) + (z * z + 0)) <= 1.
Proof.
  intros K H Z. rewrite Z. replace (x * k * (x * k) + (y * k * (y * k) + (1/4 + 0))) with ((x * x + y * y) * (k * k) + 1/4) by ring.
  rewrite H, K. lra.
Qed.
Lemma points18 angles : exists t, spherical_kernel_points 18 angles = Ok t /\ tshape t = [18; 3]%nat /\
    sqnorm t 0 = 0 /\ (forall i, (i < 18)%nat -> sqnorm t i <= 1) /\
    (forall i j, (i < 18)%nat -> (j < 18)%nat -> i <> j -> 0 < sqdist t i j).
Proof.
  pose proof (sqrt_sqrt 5 ltac:(lra)) as A. pose proof (sqrt_lt_R0 5 ltac:(lra)) as A0.
  assert (A1 : 2 < sqrt 5) by (destruct (Rlt_le_dec 2 (sqrt 5)); [auto|nra]).
  assert (A2 : sqrt 5 < 3) by (destruct (Rlt_le_dec (sqrt 5) 3); [auto|nra]).
  pose proof (sqrt_sqrt (10 + 2 * sqrt 5) ltac:(lra)) as B. pose proof (sqrt_lt_R0 (10 + 2 * sqrt 5) ltac:(lra)) as B0.
  pose proof (sqrt_sqrt (10 - 2 * sqrt 5) ltac:(lra)) as C. pose proof (sqrt_lt_R0 (10 - 2 * sqrt 5) ltac:(lra)) as C0.
  pose proof (sqrt_sqrt 2 ltac:(lra)) as D. pose proof (sqrt_lt_R0 2 ltac:(lra)) as D0.
  eapply good_points; [reflexivity| | | | |lia]; try reflexivity.
  - unfold pentagon, scale_shift. cbn [map nth app].
    set (k := 1 / sqrt 2). assert (Hk : 0 < k) by (unfold k; apply Rdiv_lt_0_compat; lra).
    set (c1 := (sqrt 5 - 1) / 4). set (c2 := (sqrt 5 + 1) / 4). set (s1 := sqrt (10 + 2 * sqrt 5) / 4). set (s2 := sqrt (10 - 2 * sqrt 5) / 4).
    assert (G1 : 0 < c1) by (unfold c1; lra). assert (G2 : c1 < c2) by (unfold c1, c2; lra). assert (G3 : c2 < 1) by (unfold c2; lra).
    assert (G4 : 0 < s1) by (unfold s1; lra). assert (G5 : 0 < s2) by (unfold s2; lra).
    clearbody k c1 c2 s1 s2. clear - Hk G1 G2 G3 G4 G5.
    assert (F1 : 0 < c1 * k) by nra. assert (F2 : c1 * k < c2 * k) by nra. assert (F3 : c2 * k < k) by nra.
    assert (F4 : 0 < s1 * k) by nra. assert (F5 : 0 < s2 * k) by nra.
    all_pairs; pair_tac.
  - unfold pentagon, scale_shift. cbn [map nth app].
    set (k := 1 / sqrt 2).
    assert (Hk : k * k = 1/2) by (unfold k; field_simplify; [|lra]; replace (sqrt 2 ^ 2) with 2 by (rewrite <- D at 1; ring); reflexivity).
    set (c1 := (sqrt 5 - 1) / 4). set (c2 := (sqrt 5 + 1) / 4). set (s1 := sqrt (10 + 2 * sqrt 5) / 4). set (s2 := sqrt (10 - 2 * sqrt 5) / 4).
    assert (G1 : c1 * c1 + s1 * s1 = 1) by (unfold c1, s1; nra). assert (G2 : c2 * c2 + s2 * s2 = 1) by (unfold c2, s2; nra).
    assert (Hk' : (- k) * (- k) = 1/2) by lra.
    clearbody k c1 c2 s1 s2. clear - Hk Hk' G1 G2.
    repeat apply Forall_cons; [..|apply Forall_nil]; unfold within; cbn [nth];
      first [lra | apply within_scaled; lra].
Qed.

(** C36 for the counts 5, 7 and 18: the given number of points, the first is
    the origin, all are within the unit ball and no two are equal; for every
    rotation. *)
Lemma C36_spherical_partial_proof :
  forall num angles, In num [5; 7; 18]%nat ->
    exists t, spherical_kernel_points num angles = Ok t /\ tshape t = [num; 3]%nat /\
      sqnorm t 0 = 0 /\ (forall i, (i < num)%nat -> sqnorm t i <= 1) /\
      (forall i j, (i < num)%nat -> (j < num)%nat -> i <> j -> 0 < sqdist t i j).
Proof.
  intros num angles [<-|[<-|[<-|[]]]]; [apply points5|apply points7|apply points18].
Qed.
Example C36_spherical_ex_proof :
  exists t, spherical_kernel_points 5 (Some (0, PI / 2, 0)) = Ok t /\ co t 1 0 = 1 /\ co t 1 2 = 0.
Proof.
  unfold spherical_kernel_points. cbn [fixed_kernel_points bind]. unfold of_rows. rewrite rotation_matrix.
  eexists. split; [reflexivity|]. unfold co. rewrite !tget_ttab by (cbn [length]; in_sh3). cbn [nth].
  rewrite sin_0, cos_0, sin_PI2, cos_PI2. cbn. split; lra.
Qed.

(** Any other count but 13 and 15 is rejected. *)
Lemma C36_rejected_proof :
  forall num angles, ~ In num [5; 7; 13; 15; 18]%nat -> spherical_kernel_points num angles = Err ValueError.
Proof.
  intros num angles H. unfold spherical_kernel_points. cbn [In] in H.
  assert (E : fixed_kernel_points num = Err ValueError).
  { do 19 (destruct num as [|num]; [cbn; first [reflexivity | exfalso; apply H; tauto]|]). reflexivity. }
  now rewrite E.
Qed.
Example C36_rejected_ex_proof : spherical_kernel_points 6 None = Err ValueError /\ spherical_kernel_points 0 (Some (0, 0, 0)) = Err ValueError.
Proof. split; apply C36_rejected_proof; cbn; lia. Qed.

(** C36: for every rotation, the four points around the origin of five points
    are the vertices of a regular tetrahedron, the six of seven points those of
    a regular octahedron, opposite ones next to each other; all are on the unit
    sphere. *)
Lemma C36_regular_proof :
  forall angles,
    (exists t, spherical_kernel_points 5 angles = Ok t /\
      (forall i, (0 < i < 5)%nat -> sqnorm t i = 1) /\
      (forall i j, (0 < i < 5)%nat -> (0 < j < 5)%nat -> i <> j -> sqdist t i j = 8 / 3)) /\
    (exists t, spherical_kernel_points 7 angles = Ok t /\
      (forall i, (0 < i < 7)%nat -> sqnorm t i = 1) /\
      (forall i j, (0 < i < 7)%nat -> (0 < j < 7)%nat -> i <> j -> sqdist t i j = if ((i - 1) / 2 =? (j - 1) / 2)%nat then 4 else 2)).
Proof.
  intros angles. split.
  - destruct (rows_rotation 5 angles _ eq_refl) as (t & Et & Es & H1 & H2). cbn [length] in H1, H2. exists t. split; [auto|].
    pose proof (sqrt_sqrt (8/9) ltac:(lra)) as A. pose proof (sqrt_sqrt (2/9) ltac:(lra)) as B. pose proof (sqrt_sqrt (2/3) ltac:(lra)) as C.
    assert (D : sqrt (8/9) = 2 * sqrt (2/9)).
    { replace (8/9) with (2 * 2 * (2/9)) by lra. rewrite sqrt_mult by lra. rewrite sqrt_square by lra. reflexivity. }
    split.
    + intros i Hi. rewrite H2 by lia. rewrite sqnorm_rows by (cbn; lia).
      do 5 (destruct i as [|i]; [try lia; cbn [nth]; nra|]). lia.
    + intros i j Hi Hj Hij. rewrite H1 by lia. rewrite sqdist_rows by (cbn; lia). rewrite D in *.
      do 5 (destruct i as [|i]; [try lia; do 5 (destruct j as [|j]; [try lia; cbn [nth]; nra|]); lia|]). lia.
  - destruct (rows_rotation 7 angles _ eq_refl) as (t & Et & Es & H1 & H2). cbn [length] in H1, H2. exists t. split; [auto|]. split.
    + intros i Hi. rewrite H2 by lia. rewrite sqnorm_rows by (cbn; lia).
      do 7 (destruct i as [|i]; [try lia; cbn [nth]; ring|]). lia.
    + intros i j Hi Hj Hij. rewrite H1 by lia. rewrite sqdist_rows by (cbn; lia).
      do 7 (destruct i as [|i]; [try lia; do 7 (destruct j as [|j]; [try lia; cbn; ring|]); lia|]). lia.
Qed.
Example C36_regular_ex_proof : exists t, spherical_kernel_points 5 None = Ok t /\ co t 2 0 = sqrt (8/9) /\ co t 2 2 = - (1/3).
Proof. eexists. split; [reflexivity|]. split; reflexivity. Qed.

(** With 13 points the call fails although the count is documented. With 15
    points two of the points are equal, whatever the rotation. *)
Lemma C36_thirteen_refuted_proof : forall angles, spherical_kernel_points 13 angles = Err InvalidArgument.
Proof. reflexivity. Qed.
Lemma C36_fifteen_refuted_proof :
  forall angles, exists t, spherical_kernel_points 15 angles = Ok t /\ tshape t = [15; 3]%nat /\
    sqdist t 6 8 = 0 /\ sqdist t 12 14 = 0.
Proof.
  intros angles. destruct (rows_rotation 15 angles _ eq_refl) as (t & Et & Es & H1 & _). exists t. split; [auto|]. split; [exact Es|].
  rewrite !H1 by (cbn; lia). rewrite !sqdist_rows by (cbn; lia). unfold hexagon, scale_shift. cbn [map app nth]. split; ring.
Qed.

Lemma linspace_In k x : In x (linspace01 k) <-> exists a, (a < k)%nat /\ x = grid_value k a.
Proof.
  unfold linspace01, grid_value. rewrite in_map_iff. split.
  - intros (a & E & H). apply in_seq in H. exists a. split; [lia|auto].
  - intros (a & H & E). exists a. split; [auto|apply in_seq; lia].
Qed.
Lemma linspace_NoDup k : NoDup (linspace01 k).
Proof.
  unfold linspace01. destruct (Nat.eqb_spec k 1) as [->|Hk]; [cbn; constructor; [tauto|constructor]|].
  destruct k as [|k]; [constructor|].
  apply FinFun.Injective_map_NoDup; [|apply seq_NoDup]. intros a b E.
  assert (G : INR (S k - 1) <> 0) by (apply not_0_INR; lia).
  apply INR_eq. unfold Rdiv in E. apply Rmult_eq_reg_r in E; [auto|]. apply Rinv_neq_0_compat. auto.
Qed.
Lemma linspace_length k : length (linspace01 k) = k.
Proof. unfold linspace01. now rewrite map_length, seq_length. Qed.

Lemma flat_map_const {A B} (f : A -> list B) l n : (forall a, length (f a) = n) -> length (flat_map f l) = (length l * n)%nat.
Proof. intros H. induction l as [|a l IH]; cbn; [auto|]. rewrite app_length, H, IH. reflexivity. Qed.
Lemma NoDup_flat_map {A B} (f : A -> list B) l : NoDup l -> (forall a, NoDup (f a)) ->
  (forall a b x, In x (f a) -> In x (f b) -> a = b) -> NoDup (flat_map f l).
Proof.
  intros Hl Hf Hd. induction Hl as [|a l Ha Hl IH]; cbn; [constructor|]. apply NeighborFacts.NoDup_app_intro; auto.
  intros x Hx Hx'. apply in_flat_map in Hx'. destruct Hx' as (b & Hb & Hx'). rewrite (Hd a b x Hx Hx') in Ha. auto.
Qed.

(** C36, the cube: the points are exactly the [k^3] points of the regular
    [k] x [k] x [k] grid of the unit cube, each once. *)
Lemma C36_cube_proof :
  forall k, length (cube_kernel_points k) = (k * k * k)%nat /\ NoDup (cube_kernel_points k) /\
    forall p, In p (cube_kernel_points k) <->
      exists a b c, (a < k)%nat /\ (b < k)%nat /\ (c < k)%nat /\ p = [grid_value k a; grid_value k b; grid_value k c].
Proof.
  intros k. unfold cube_kernel_points. split; [|split].
  - rewrite (flat_map_const _ _ (k * k)); [rewrite linspace_length; lia|]. intros b.
    rewrite (flat_map_const _ _ k); [now rewrite linspace_length|]. intros a. rewrite map_length. apply linspace_length.
  - apply NoDup_flat_map; [apply linspace_NoDup| |].
    + intros b. apply NoDup_flat_map; [apply linspace_NoDup| |].
      * intros a. apply FinFun.Injective_map_NoDup; [|apply linspace_NoDup]. intros x y E. now injection E.
      * intros a a' x H H'. apply in_map_iff in H, H'. destruct H as (u & <- & _), H' as (v & E & _). now injection E.
    + intros b b' x H H'. apply in_flat_map in H, H'. destruct H as (u & _ & H), H' as (v & _ & H').
      apply in_map_iff in H, H'. destruct H as (u' & <- & _), H' as (v' & E & _). now injection E.
  - intros p. split.
    + intros H. apply in_flat_map in H. destruct H as (y & Hy & H). apply in_flat_map in H. destruct H as (x & Hx & H).
      apply in_map_iff in H. destruct H as (z & <- & Hz).
      apply linspace_In in Hx, Hy, Hz. destruct Hx as (a & Ha & ->), Hy as (b & Hb & ->), Hz as (c & Hc & ->). exists a, b, c. auto.
    + intros (a & b & c & Ha & Hb & Hc & ->). apply in_flat_map. exists (grid_value k b). split; [apply linspace_In; eauto|].
      apply in_flat_map. exists (grid_value k a). split; [apply linspace_In; eauto|]. apply in_map_iff. exists (grid_value k c).
      split; [auto|apply linspace_In; eauto].
Qed.
Example C36_cube_ex_proof : In [1/2; 0; 1] (cube_kernel_points 3) /\ ~ In [1/3; 0; 1] (cube_kernel_points 3).
Proof.
  split.
  - apply (proj2 (proj2 (C36_cube_proof 3))). exists 1%nat, 0%nat, 2%nat. repeat split; try lia. unfold grid_value. cbn.
    replace (1 / (1 + 1)) with (1 / 2) by lra. replace (0 / (1 + 1)) with 0 by lra. replace ((1 + 1) / (1 + 1)) with 1 by lra. reflexivity.
  - intros H. apply (proj2 (proj2 (C36_cube_proof 3))) in H. destruct H as (a & b & c & Ha & Hb & Hc & E). injection E as E _ _.
    destruct a as [|[|[|a]]]; [..|lia]; unfold grid_value in E; cbn in E; lra.
Qed.
