(** The comparison of distances of the CUDA search in float32. *)
From Coq Require Import List Arith ZArith QArith Qabs Lia Lqa Bool.
From Verif Require Import Tensor PointCloud QFacts Grid Neighbors NeighborFacts Float FloatFacts GpuFloatSearch.
Import ListNotations.
Local Open Scope Q_scope.

Lemma abs_mult_le a b x y : Qabs a <= x -> Qabs b <= y -> Qabs (a * b) <= x * y.
Proof.
  intros Ha Hb. rewrite Qabs_Qmult. apply Qmult_le_compat_nonneg; split; auto using Qabs_nonneg.
Qed.
Lemma abs_le x y : - y <= x <= y -> Qabs x <= y.
Proof. apply Qabs_Qle_condition. Qed.

(** The scaled difference of two coordinates. *)
Lemma scaled_err s p r : pow2 (-100) <= r -> r <= pow2 100 ->
  let t := (s - p) / r in
  Qabs (f32 (f32 (s - p) * f32 (/ r)) - t) <= Qabs t * (1 # 4194304) + (1 # 281474976710656).
Proof.
  intros H1 H2. cbv zeta. assert (Hp : 0 < r) by (eapply Qlt_le_trans; [|exact H1]; reflexivity).
  set (t := (s - p) / r). assert (Hi0 : 0 < / r) by now apply Qinv_lt_0_compat.
  set (i := f32 (/ r)).
  assert (Hi : Qabs (i - / r) <= / r * (67108865 # 1125899906842624)).
  { pose proof (f32_err (/ r)) as He. rewrite (Qabs_pos (/ r)) in He by lra. fold i in He. change (pow2 (-24)) with (1 # 16777216) in He.
    assert (Hq : pow2 (-100) <= / r).
    { apply Qmult_lt_0_le_reg_r with r; [exact Hp|]. setoid_replace (/ r * r) with 1 by (field; lra).
      eapply Qle_trans; [apply Qmult_le_compat_nonneg; [split; [|apply Qle_refl]; vm_compute; discriminate|split; [apply Qlt_le_weak, Hp|exact H2]]|].
      vm_compute. discriminate. }
    assert (E : pow2 (-150) == pow2 (-100) * (1 # 1125899906842624)) by reflexivity. lra. }
  assert (Hir : / r <= pow2 100).
  { apply Qmult_lt_0_le_reg_r with r; [exact Hp|]. setoid_replace (/ r * r) with 1 by (field; lra).
    eapply Qle_trans; [|apply Qmult_le_compat_nonneg; [split; [|apply Qle_refl]; vm_compute; discriminate|split; [|exact H1]; vm_compute; discriminate]].
    vm_compute. discriminate. }
  set (u := f32 (s - p)).
  assert (Hu : Qabs (u / r - t) <= Qabs t * (1 # 16777216) + (1 # 1125899906842624)).
  { setoid_replace (u / r - t) with ((u - (s - p)) * / r) by (unfold t; field; lra).
    rewrite Qabs_Qmult, (Qabs_pos (/ r)) by lra. pose proof (f32_err (s - p)) as He. fold u in He. change (pow2 (-24)) with (1 # 16777216) in He.
    assert (Et : Qabs t == Qabs (s - p) * / r) by (unfold t, Qdiv; rewrite Qabs_Qmult, (Qabs_pos (/ r)) by lra; reflexivity).
    rewrite Et. eapply Qle_trans; [apply Qmult_le_compat_r; [exact He|lra]|].
    assert (Hx : pow2 (-150) * / r <= 1 # 1125899906842624).
    { eapply Qle_trans; [apply Qmult_le_compat_nonneg; [split; [|apply Qle_refl]; vm_compute; discriminate|split; [lra|exact Hir]]|]. vm_compute. discriminate. }
    rewrite Qmult_plus_distr_l. apply Qplus_le_compat; [|exact Hx]. setoid_replace (Qabs (s - p) * (1 # 16777216) * / r) with (Qabs (s - p) * / r * (1 # 16777216)) by ring. apply Qle_refl. }
  assert (Hw : Qabs (u * i - u / r) <= Qabs (u / r) * (67108865 # 1125899906842624)).
  { setoid_replace (u * i - u / r) with (u * (i - / r)) by (field; lra). rewrite Qabs_Qmult. unfold Qdiv. rewrite Qabs_Qmult, (Qabs_pos (/ r)) by lra.
    rewrite <- Qmult_assoc. apply Qmult_le_compat_nonneg; split; [apply Qabs_nonneg|apply Qle_refl|apply Qabs_nonneg|exact Hi]. }
  pose proof (f32_err (u * i)) as Hf. change (pow2 (-24)) with (1 # 16777216) in Hf.
  assert (H150 : pow2 (-150) <= 1 # 1152921504606846976) by (vm_compute; discriminate).
  assert (A1 : Qabs (u / r) <= Qabs t + Qabs (u / r - t)).
  { setoid_replace (u / r) with (t + (u / r - t)) at 1 by ring. apply Qabs_triangle. }
  assert (A2 : Qabs (u * i) <= Qabs (u / r) + Qabs (u * i - u / r)).
  { setoid_replace (u * i) with (u / r + (u * i - u / r)) at 1 by ring. apply Qabs_triangle. }
  setoid_replace (f32 (u * i) - t) with ((f32 (u * i) - u * i) + ((u * i - u / r) + (u / r - t))) by ring.
  eapply Qle_trans; [apply Qabs_triangle|]. 
  assert (A3 : Qabs (u * i - u / r + (u / r - t)) <= Qabs (u * i - u / r) + Qabs (u / r - t)) by apply Qabs_triangle.
  pose proof (Qabs_nonneg t).
  set (a := Qabs (f32 (u * i) - u * i)) in *. set (b := Qabs (u * i - u / r)) in *. set (c := Qabs (u / r - t)) in *. set (e := Qabs (u / r)) in *.
  set (h := Qabs (u * i)) in *. set (k := Qabs (u * i - u / r + (u / r - t))) in *. set (q := Qabs t) in *. set (z := pow2 (-150)) in *.
  clearbody a b c e h k q z. clear - Hu Hw Hf H150 A1 A2 A3 H. lra.
Qed.

(** One step of the sum. *)
Definition step32 (fused : bool) (a x : Q) : Q := if fused then f32 (a + x * x) else f32 (a + f32 (x * x)).
Lemma dot32_fold fused xs : dot32 fused xs = fold_left (step32 fused) xs 0.
Proof. reflexivity. Qed.

Lemma square_err y t : Qabs t <= 1048577 # 1048576 -> Qabs (y - t) <= Qabs t * (1 # 4194304) + (1 # 281474976710656) ->
  Qabs (y * y - t * t) <= 81 # 167772160 /\ y * y <= 1001 # 1000.
Proof.
  intros Ht Hy. assert (Hy' : Qabs (y - t) <= 1001 # 4194304000) by (pose proof (Qabs_nonneg t); lra).
  assert (E : y * y - t * t == (y - t) * ((y - t) + 2 * t)) by ring.
  assert (B : Qabs ((y - t) + 2 * t) <= 20003 # 10000).
  { eapply Qle_trans; [apply Qabs_triangle|]. rewrite Qabs_Qmult. change (Qabs 2) with 2. lra. }
  pose proof (abs_mult_le _ _ _ _ Hy' B) as M. assert (M' : Qabs (y * y - t * t) <= 81 # 167772160).
  { rewrite E. eapply Qle_trans; [exact M|]. vm_compute. discriminate. }
  split; [exact M'|]. apply Qabs_Qle_condition in M'. apply Qabs_Qle_condition in Ht. nra.
Qed.

Lemma step_err fused a A k y t : (k < 6)%nat -> 0 <= A -> A <= inject_Z (Z.of_nat k) * (1001 # 1000) ->
  Qabs (a - A) <= inject_Z (Z.of_nat k) * (1 # 1048576) ->
  Qabs t <= 1048577 # 1048576 -> Qabs (y - t) <= Qabs t * (1 # 4194304) + (1 # 281474976710656) ->
  Qabs (step32 fused a y - (A + t * t)) <= inject_Z (Z.of_nat (S k)) * (1 # 1048576) /\
  A + t * t <= inject_Z (Z.of_nat (S k)) * (1001 # 1000) /\ 0 <= A + t * t.
Proof.
  intros Hk A0 A1 Ha Ht Hy. destruct (square_err y t Ht Hy) as [Hs Hy2].
  rewrite Nat2Z.inj_succ. unfold Z.succ. rewrite inject_Z_plus. change (inject_Z 1) with 1.
  assert (Hkq : 0 <= inject_Z (Z.of_nat k) /\ inject_Z (Z.of_nat k) <= 5).
  { change 0 with (inject_Z 0). change 5 with (inject_Z 5). rewrite <- !Zle_Qle. lia. }
  assert (Ht2 : 0 <= t * t /\ t * t <= 1001 # 1000) by (apply Qabs_Qle_condition in Ht; split; nra).
  assert (Hyy : 0 <= y * y) by nra.
  split; [|split; lra].
  assert (H150 : pow2 (-150) <= 1 # 1152921504606846976) by (vm_compute; discriminate).
  unfold step32. set (kq := inject_Z (Z.of_nat k)) in *. set (q := y * y) in *. set (tt := t * t) in *. clearbody kq q tt.
  apply Qabs_Qle_condition in Ha. apply Qabs_Qle_condition in Hs.
  destruct fused.
  - pose proof (f32_err (a + q)) as Hf. change (pow2 (-24)) with (1 # 16777216) in Hf.
    assert (Hb : Qabs (a + q) <= 61 # 10) by (apply abs_le; split; lra).
    apply abs_le. assert (Hf' : Qabs (f32 (a + q) - (a + q)) <= 7 # 16777216) by lra. apply Qabs_Qle_condition in Hf'. split; lra.
  - pose proof (f32_err q) as Hq. change (pow2 (-24)) with (1 # 16777216) in Hq. rewrite (Qabs_pos q) in Hq by lra.
    assert (Hq' : Qabs (f32 q - q) <= (12 # 10) * (1 # 16777216)) by lra. apply Qabs_Qle_condition in Hq'. set (w := f32 q) in *. clearbody w.
    pose proof (f32_err (a + w)) as Hf. change (pow2 (-24)) with (1 # 16777216) in Hf.
    assert (Hb : Qabs (a + w) <= 602 # 100) by (apply abs_le; split; lra).
    apply abs_le. assert (Hf' : Qabs (f32 (a + w) - (a + w)) <= (603 # 100) * (1 # 16777216)) by lra. apply Qabs_Qle_condition in Hf'. split; lra.
Qed.

Lemma dot_err fused (y t : nat -> Q) l : forall k a A, (k + length l <= 6)%nat -> 0 <= A -> A <= inject_Z (Z.of_nat k) * (1001 # 1000) ->
  Qabs (a - A) <= inject_Z (Z.of_nat k) * (1 # 1048576) ->
  (forall d, In d l -> Qabs (t d) <= 1048577 # 1048576) ->
  (forall d, In d l -> Qabs (y d - t d) <= Qabs (t d) * (1 # 4194304) + (1 # 281474976710656)) ->
  Qabs (fold_left (step32 fused) (map y l) a - (A + fold_right Qplus 0 (map (fun d => t d * t d) l))) <= inject_Z (Z.of_nat (k + length l)) * (1 # 1048576).
Proof.
  induction l as [|d l IH]; intros k a A Hk A0 A1 Ha Ht Hy; cbn [map fold_left fold_right length].
  - rewrite Nat.add_0_r, Qplus_0_r. exact Ha.
  - destruct (step_err fused a A k (y d) (t d)) as (S1 & S2 & S3); auto; [cbn in Hk; lia|apply Ht; left; auto|apply Hy; left; auto|].
    replace (k + S (length l))%nat with (S k + length l)%nat by lia.
    setoid_replace (A + (t d * t d + fold_right Qplus 0 (map (fun d => t d * t d) l))) with ((A + t d * t d) + fold_right Qplus 0 (map (fun d => t d * t d) l)) by ring.
    apply IH; auto; [cbn in Hk; lia|intros; apply Ht; right; auto|intros; apply Hy; right; auto].
Qed.

(** If the sum is below 1, so is every term. *)
Lemma f32_1 : f32 1 = 1.
Proof. reflexivity. Qed.
Lemma f32_0 : f32 0 = 0.
Proof. reflexivity. Qed.
Lemma f32_ge1 x : 1 <= x -> 1 <= f32 x.
Proof. intros H. apply f32_mono in H. now rewrite f32_1 in H. Qed.
Lemma f32_ge0 x : 0 <= x -> 0 <= f32 x.
Proof. intros H. apply f32_mono in H. now rewrite f32_0 in H. Qed.
Lemma step_below fused a x : 0 <= a -> f32 a == a -> step32 fused a x < 1 ->
  x * x < 1 /\ a <= step32 fused a x /\ f32 (step32 fused a x) == step32 fused a x.
Proof.
  intros Ha Fa H. assert (Hx : 0 <= x * x) by nra. unfold step32 in *. destruct fused.
  - split; [|split; [|apply f32_f32]].
    + destruct (Qlt_le_dec (x * x) 1) as [L|L]; auto. exfalso. assert (1 <= f32 (a + x * x)) by (apply f32_ge1; lra). lra.
    + rewrite <- Fa at 1. apply f32_mono. lra.
  - assert (Hw : 0 <= f32 (x * x)) by now apply f32_ge0. split; [|split; [|apply f32_f32]].
    + destruct (Qlt_le_dec (x * x) 1) as [L|L]; auto. exfalso. assert (1 <= f32 (x * x)) by now apply f32_ge1. assert (1 <= f32 (a + f32 (x * x))) by (apply f32_ge1; lra). lra.
    + rewrite <- Fa at 1. apply f32_mono. lra.
Qed.
Lemma dot_mono fused l : forall a, 0 <= a -> f32 a == a -> a <= fold_left (step32 fused) l a.
Proof.
  induction l as [|x l IH]; intros a Ha Fa; cbn [fold_left]; [apply Qle_refl|].
  assert (Hs : a <= step32 fused a x /\ f32 (step32 fused a x) == step32 fused a x).
  { assert (Hx : 0 <= x * x) by nra. unfold step32. destruct fused; (split; [|apply f32_f32]); rewrite <- Fa at 1; apply f32_mono; [lra|].
    assert (Hw : 0 <= f32 (x * x)) by now apply f32_ge0. lra. }
  destruct Hs as [H1 H2]. eapply Qle_trans; [exact H1|]. apply IH; [lra|auto].
Qed.
Lemma dot_below fused l : forall a, 0 <= a -> f32 a == a -> fold_left (step32 fused) l a < 1 -> forall x, In x l -> x * x < 1.
Proof.
  induction l as [|y l IH]; intros a Ha Fa H x Hx; [destruct Hx|]. cbn [fold_left] in H.
  assert (Hs : a <= step32 fused a y /\ f32 (step32 fused a y) == step32 fused a y).
  { assert (Hy : 0 <= y * y) by nra. unfold step32. destruct fused; (split; [|apply f32_f32]); rewrite <- Fa at 1; apply f32_mono; [lra|].
    assert (Hw : 0 <= f32 (y * y)) by now apply f32_ge0. lra. }
  destruct Hs as [H1 H2].
  assert (H3 : step32 fused a y < 1) by (eapply Qle_lt_trans; [apply (dot_mono fused l); [lra|exact H2]|exact H]).
  destruct Hx as [->|Hx]; [apply (step_below fused a); auto|]. eapply IH; [| |exact H|exact Hx]; [lra|auto].
Qed.

(** The comparison. [t] are the exact scaled differences. *)
Section Near.
  Context (fused : bool) (D : nat) (radii s p : list Q).
  Hypothesis HD : (D <= 6)%nat.
  Hypothesis Hr : forall d, (d < D)%nat -> pow2 (-100) <= nth d radii 0 /\ nth d radii 0 <= pow2 100.
  Hypothesis Lr : length radii = D.
  Let t d := (coord s d - coord p d) / nth d radii 0.
  Let y d := f32 (f32 (coord s d - coord p d) * f32 (/ nth d radii 0)).
  Let total := fold_right Qplus 0 (map (fun d => t d * t d) (seq 0 D)).
  Let sum := fold_left (step32 fused) (map y (seq 0 D)) 0.

  Lemma near_is : near32 fused D (map (fun r => f32 (/ r)) radii) s p = true <-> sum < 1.
  Proof.
    unfold near32. rewrite Qltb_lt. unfold sum. rewrite <- dot32_fold.
    replace (map (fun d => f32 (f32 (coord s d - coord p d) * coord (map (fun r => f32 (/ r)) radii) d)) (seq 0 D)) with (map y (seq 0 D)); [reflexivity|].
    apply map_ext_in. intros d Hd. apply in_seq in Hd. unfold y. do 2 f_equal. unfold coord.
    rewrite (nth_indep (map _ _) 0 (f32 (/ 0))) by (rewrite map_length; lia). now rewrite (map_nth (fun r => f32 (/ r))).
  Qed.
  Lemma y_err d : (d < D)%nat -> Qabs (y d - t d) <= Qabs (t d) * (1 # 4194304) + (1 # 281474976710656).
  Proof. intros Hd. destruct (Hr d Hd). apply scaled_err; auto. Qed.
  Lemma sum_err : (forall d, (d < D)%nat -> Qabs (t d) <= 1048577 # 1048576) -> Qabs (sum - total) <= 6 # 1048576.
  Proof.
    intros Ht. assert (E : Qabs (sum - (0 + total)) <= inject_Z (Z.of_nat (0 + length (seq 0 D))) * (1 # 1048576)).
    { apply (dot_err fused y t (seq 0 D) 0%nat 0 0).
      - rewrite seq_length. lia.
      - apply Qle_refl.
      - vm_compute. discriminate.
      - vm_compute. discriminate.
      - intros d Hd. apply in_seq in Hd. apply Ht. lia.
      - intros d Hd. apply in_seq in Hd. apply y_err. lia. }
    rewrite Qplus_0_l in E. eapply Qle_trans; [exact E|]. rewrite seq_length. cbn [Nat.add].
    assert (inject_Z (Z.of_nat D) <= 6) by (change 6 with (inject_Z 6); rewrite <- Zle_Qle; lia). lra.
  Qed.
  Lemma total_term d : (d < D)%nat -> t d * t d <= total.
  Proof.
    intros Hd. unfold total. assert (H : forall l, In d l -> t d * t d <= fold_right Qplus 0 (map (fun d => t d * t d) l)).
    { assert (P : forall l, 0 <= fold_right Qplus 0 (map (fun d => t d * t d) l)).
      { induction l as [|x l IH]; cbn [map fold_right]; [apply Qle_refl|]. assert (0 <= t x * t x) by nra. lra. }
      induction l as [|x l IH]; [intros []|]. intros [->|Hx]; cbn [map fold_right].
      - pose proof (P l). lra.
      - specialize (IH Hx). assert (0 <= t x * t x) by nra. lra. }
    apply H, in_seq. lia.
  Qed.

  Lemma near_complete : total <= 1 - (7 # 1048576) -> near32 fused D (map (fun r => f32 (/ r)) radii) s p = true.
  Proof.
    intros H. apply near_is. assert (E : Qabs (sum - total) <= 6 # 1048576).
    { apply sum_err. intros d Hd. pose proof (total_term d Hd) as T. apply abs_le. split; nra. }
    apply Qabs_Qle_condition in E. lra.
  Qed.
  Lemma near_sound : near32 fused D (map (fun r => f32 (/ r)) radii) s p = true -> total < 1 + (6 # 1048576).
  Proof.
    intros H. apply near_is in H. assert (E : Qabs (sum - total) <= 6 # 1048576).
    { apply sum_err. intros d Hd. pose proof (y_err d Hd) as Y.
      assert (Y2 : y d * y d < 1).
      { eapply (dot_below fused (map y (seq 0 D)) 0); [apply Qle_refl|reflexivity|exact H|]. apply in_map, in_seq. lia. }
      assert (Y1 : Qabs (y d) <= 1) by (apply abs_le; split; nra).
      assert (T : Qabs (t d) <= Qabs (y d) + Qabs (y d - t d)).
      { setoid_replace (t d) with (y d + - (y d - t d)) at 1 by ring. eapply Qle_trans; [apply Qabs_triangle|]. rewrite Qabs_opp. apply Qle_refl. }
      lra. }
    apply Qabs_Qle_condition in E. lra.
  Qed.
End Near.
