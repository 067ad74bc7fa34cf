(** Proofs of the properties of the CUDA density operation (C47). The statements
    are copied into PropertiesGpuPdf.v. *)
From Coq Require Import List Arith ZArith QArith Qreals Lia Reals Lra Machin Bool.
From Verif Require Import Tensor TensorFacts PointCloud RTensor RTensorFacts Pdf SpecPdf PdfFacts Spec SpecCloud QFacts Grid SpecGrid GridFacts Neighbors SpecNeighbors NeighborFacts NeighborProofs Neighborhood NeighborhoodFacts SamplingFacts SamplingProofs Layers LayerFacts Cuda CudaFacts MemFacts CudaUpdate GpuGrid GpuBasis
  GpuBasisFacts GpuBasisGradFacts SpecGpuBasis GpuBasisProofs GpuPdf SpecGpuPdf GpuPdfFacts.
Import ListNotations.
Local Open Scope nat_scope.

(** ** Derivatives of sums and products *)
Lemma dsum (f : nat -> R -> R) (a : nat -> R) l : (forall i, In i l -> derivable_pt_lim (f i) 0 (a i)) ->
  derivable_pt_lim (fun h => sum_over l (fun i => f i h)) 0 (sum_over l a).
Proof.
  induction l as [|x l IH]; intros H.
  - apply (derivable_pt_lim_const 0).
  - rewrite sum_over_cons. apply (derivable_pt_lim_plus (f x) (fun h => sum_over l (fun i => f i h))); [apply H; now left|apply IH; intros; apply H; now right].
Qed.
(** [a i] are logarithmic derivatives. *)
Lemma dprod (f : nat -> R -> R) (a : nat -> R) l : (forall i, In i l -> derivable_pt_lim (f i) 0 (a i * f i 0)%R) ->
  derivable_pt_lim (fun h => product_over l (fun i => f i h)) 0 (sum_over l a * product_over l (fun i => f i 0))%R.
Proof.
  induction l as [|x l IH]; intros H.
  - unfold sum_over, product_over. cbn. rewrite Rmult_0_l. apply (derivable_pt_lim_const 1).
  - rewrite sum_over_cons. unfold product_over. cbn [map fold_right]. fold (product_over l (fun i => f i 0%R)).
    replace ((a x + sum_over l a) * (f x 0 * product_over l (fun i => f i 0)))%R
      with ((a x * f x 0) * product_over l (fun i => f i 0) + f x 0 * (sum_over l a * product_over l (fun i => f i 0)))%R by ring.
    apply (derivable_pt_lim_mult (f x) (fun h => product_over l (fun i => f i h))); [apply H; now left|apply IH; intros; apply H; now right].
Qed.
Lemma derivable_ext f g y l : (forall h, f h = g h) -> derivable_pt_lim f y l -> derivable_pt_lim g y l.
Proof. intros E H eps He. destruct (H eps He) as (d & Hd). exists d. intros h Hh Hl. rewrite <- !E. now apply Hd. Qed.
Lemma dnormal s a b : derivable_pt_lim (fun h => s * rounded_normal (a + h * b))%R 0 ((- a * b) * (s * rounded_normal (a + 0 * b)))%R.
Proof.
  unfold rounded_normal. set (c := 0.39894228%R).
  apply (derivable_ext (fun h => (s * c) * exp ((- / 2) * ((a + h * b) * (a + h * b))))%R).
  - intros h. replace (- ((a + h * b) * (a + h * b)) / 2)%R with ((- / 2) * ((a + h * b) * (a + h * b)))%R by field. ring.
  - replace (- ((a + 0 * b) * (a + 0 * b)) / 2)%R with ((- / 2) * ((a + 0 * b) * (a + 0 * b)))%R by field.
    replace (- a * b * (s * (c * exp (- / 2 * ((a + 0 * b) * (a + 0 * b))))))%R
      with ((s * c) * (exp (- / 2 * ((a + 0 * b) * (a + 0 * b))) * (- / 2 * (b * (a + 0 * b) + (a + 0 * b) * b))))%R by field.
    assert (L : derivable_pt_lim (fun h => a + h * b)%R 0 b).
    { assert (L : derivable_pt_lim (fun h => a + h * b)%R 0 (0 + (1 * b + 0 * 0))%R); [|now replace (0 + (1 * b + 0 * 0))%R with b in L by ring]. apply (derivable_pt_lim_plus (fct_cte a) (fun h => h * b)%R); [apply derivable_pt_lim_const|].
      apply (derivable_pt_lim_mult id (fct_cte b) 0%R 1%R 0%R); [apply derivable_pt_lim_id|apply derivable_pt_lim_const]. }
    apply (derivable_pt_lim_scal (fun h => exp ((- / 2) * ((a + h * b) * (a + h * b))))%R).
    apply (derivable_pt_lim_comp (fun h => (- / 2) * ((a + h * b) * (a + h * b)))%R exp); [|apply derivable_pt_lim_exp].
    apply (derivable_pt_lim_scal (fun h => (a + h * b) * (a + h * b))%R).
    apply (derivable_pt_lim_mult (fun h => a + h * b)%R (fun h => a + h * b)%R); auto.
Qed.
Lemma dkernel D s r x v p i :
  derivable_pt_lim (fun h => cuda_kernel D s r (fun q d => x q d + h * v q d)%R p i) 0
    (sum_over (seq 0 D) (fun d => (x p d - x i d) * s d * r d * s d * r d * (v i d - v p d)) * cuda_kernel D s r x p i)%R.
Proof.
  set (a := fun d => ((x p d - x i d) * s d * r d)%R). set (b := fun d => ((v p d - v i d) * s d * r d)%R).
  apply (derivable_ext (fun h => product_over (seq 0 D) (fun d => s d * rounded_normal (a d + h * b d))%R)).
  - intros h. unfold cuda_kernel. apply product_over_ext. intros d _. unfold a, b. do 2 f_equal. ring.
  - replace (cuda_kernel D s r x p i) with (product_over (seq 0 D) (fun d => s d * rounded_normal (a d + 0 * b d))%R).
    + rewrite (sum_over_ext _ _ (fun d => - a d * b d)%R) by (intros d _; unfold a, b; ring).
      apply (dprod (fun d h => s d * rounded_normal (a d + h * b d))%R). intros d _. apply dnormal.
    + unfold cuda_kernel. apply product_over_ext. intros d _. unfold a. do 2 f_equal. ring.
Qed.

(** ** The operations *)
Lemma density_gpu active points nbs ends invbw invr mode D (P : list R -> Prop) :
  0 < active -> ends <> [] -> 2 <= D <= 6 -> mode <> KNoPdf -> length invbw = D -> length invr = D ->
  is_tensor [length ends; D] points -> ranged ends nbs -> Forall (fun q => fst q < length ends) nbs ->
  P (map (cuda_density D (inverse_bandwidth mode (length ends) invbw) (fun d => nth d invr 0%R) (fun p d => tget points [p; d]) nbs) (seq 0 (length ends))) ->
  compute_pdf_op active points nbs ends invbw invr mode P.
Proof.
  intros Ha He HD Hm Hb Hr T Hn Hf HP. exists (length ends), D. split; [split; [apply T|]; repeat split; auto; lia|].
  assert (Hl : 0 < length ends) by (destruct ends; [congruence|cbn; lia]). intros out L. split; [now apply num_blocks_pos|].
  eapply every_run_weaken; [|apply (pdf_runs D mode invr invbw points nbs ends Hm Hr Hb T Hn Hf); [now apply num_blocks_pos|auto]].
  intros m ->. exact HP.
Qed.
Lemma density_gpu_inv active points nbs ends invbw invr mode D (P : list R -> Prop) :
  0 < active -> ends <> [] -> 2 <= D <= 6 -> mode <> KNoPdf -> length invbw = D -> length invr = D ->
  is_tensor [length ends; D] points -> ranged ends nbs -> Forall (fun q => fst q < length ends) nbs ->
  compute_pdf_op active points nbs ends invbw invr mode P ->
  P (map (cuda_density D (inverse_bandwidth mode (length ends) invbw) (fun d => nth d invr 0%R) (fun p d => tget points [p; d]) nbs) (seq 0 (length ends))).
Proof.
  intros Ha He HD Hm Hb Hr T Hn Hf (N & D' & (E & EN & _ & EB & ER & _) & Hx). destruct T as (T1 & T2). rewrite T1 in E. injection E as <- <-.
  assert (Hl : 0 < length ends) by (destruct ends; [congruence|cbn; lia]).
  destruct (Hx (repeat 0%R (length ends)) (repeat_length _ _)) as (B & Hy).
  pose proof (pdf_runs D mode invr invbw points nbs ends Hm Hr Hb (conj T1 T2) Hn Hf _ (repeat 0%R (length ends)) B (repeat_length _ _)) as Hz.
  destruct (every_run_both _ _ _ Hy Hz) as (m & H1 & ->). exact H1.
Qed.
Lemma gradient_gpu active points nbs ends invbw invr grads mode D (P : ten -> Prop) :
  0 < active -> ends <> [] -> 2 <= D <= 6 -> mode <> KNoPdf -> length invbw = D -> length invr = D -> length grads = length ends ->
  is_tensor [length ends; D] points -> ranged ends nbs -> Forall (fun q => fst q < length ends) nbs ->
  (forall t, is_tensor [length ends; D] t ->
     (forall p d, p < length ends -> d < D -> tget t [p; d] = point_slope D mode invr invbw points nbs ends grads p d) -> P t) ->
  compute_pdf_grads_op active points nbs ends invbw invr grads mode P.
Proof.
  intros Ha He HD Hm Hb Hr Hg T Hn Hf HP. exists (length ends), D. split; [split; [apply T|]; repeat split; auto; lia|]. split; auto.
  assert (Hl : 0 < length ends) by (destruct ends; [congruence|cbn; lia]). split; [now apply num_blocks_pos|].
  eapply every_run_weaken; [|apply (grads_run D mode invr invbw points nbs ends Hm Hr Hb T Hn Hf grads Hg); now apply num_blocks_pos].
  intros m (L & V). assert (Tm : is_tensor [length ends; D] (Ten [length ends; D] m)) by (split; [reflexivity|cbn; lia]).
  apply HP; auto. intros p d Hp Hd. rewrite (entry2 (length ends) D) by auto. now apply V.
Qed.

(** C47. Every schedule of the CUDA operation gives the density; with mode 0
    the bandwidth is the given one, with mode 1 it is one over the square root
    of the number of points. *)
Lemma C47_density_proof :
  forall active points nbs ends invbw invr mode D, let N := length ends in
    0 < active -> 0 < N -> 2 <= D <= 6 -> mode <> KNoPdf -> length invbw = D -> length invr = D ->
    is_tensor [N; D] points -> delimits ends nbs N -> Forall (fun q => fst q < N) nbs ->
    compute_pdf_op active points nbs ends invbw invr mode (fun out =>
      length out = N /\ forall i, i < N ->
        nth i out 0%R = cuda_density D (inverse_bandwidth mode N invbw) (fun d => nth d invr 0%R) (fun p d => tget points [p; d]) nbs i).
Proof.
  intros active points nbs ends invbw invr mode D N Ha HN HD Hm Hb Hr T Hd Hf. apply (density_gpu _ _ _ _ _ _ _ D); auto.
  - intros ->. cbn in HN. lia.
  - apply delimits_ranged; auto. lia.
  - rewrite map_length, seq_length. split; auto. intros i Hi. apply (QFacts.nth_map_seq). auto.
Qed.

(** C47. The gradient operation gives the derivative of the density operation:
    for every incoming gradient and every direction in which the points are
    moved. *)
Lemma C47_gradient_proof :
  forall active points nbs ends invbw invr grads mode D v (L : R -> R), let N := length ends in
    0 < active -> 0 < N -> 2 <= D <= 6 -> mode <> KNoPdf -> length invbw = D -> length invr = D -> length grads = N ->
    is_tensor [N; D] points -> delimits ends nbs N -> Forall (fun q => fst q < N) nbs ->
    (forall h, compute_pdf_op active (moved N D points v h) nbs ends invbw invr mode (fun out => L h = dot1 N grads out)) ->
    compute_pdf_grads_op active points nbs ends invbw invr grads mode (fun t =>
      is_tensor [N; D] t /\ derivable_pt_lim L 0 (along N D t v)).
Proof.
  intros active points nbs ends invbw invr grads mode D v L N Ha HN HD Hm Hb Hr Hg T Hd Hf HL.
  assert (He : ends <> []) by (intros ->; cbn in HN; lia). assert (Hn : ranged ends nbs) by (apply delimits_ranged; auto; lia).
  apply (gradient_gpu _ _ _ _ _ _ _ _ D); auto. intros t Tt Ht. split; auto.
  set (s := inverse_bandwidth mode N invbw) in *. set (r := fun d => nth d invr 0%R) in *. set (x := fun p d => tget points [p; d]) in *.
  set (nb := fun m => fst (nth m nbs (0, 0))). set (ct := fun m => snd (nth m nbs (0, 0))). set (M := length nbs).
  assert (Hnb : forall m, m < M -> nb m < N) by (intros m Hx; rewrite Forall_forall in Hf; apply Hf, nth_In; auto).
  assert (Hct : forall m, m < M -> ct m < N) by (intros m Hx; now apply Hn).
  assert (EL : forall h, sum_over (seq 0 M) (fun m => nth (ct m) grads 0 * cuda_kernel D s r (fun q d => x q d + h * v q d) (nb m) (ct m))%R = L h).
  { intros h. assert (TM : is_tensor [N; D] (moved N D points v h)) by (split; [reflexivity|unfold moved; rewrite ttab_length; reflexivity]).
    rewrite (density_gpu_inv active _ nbs ends invbw invr mode D _ Ha He HD Hm Hb Hr TM Hn Hf (HL h)). unfold dot1. fold N.
    rewrite (sum_over_ext (seq 0 N) _ (fun i => sum_over (rows_of_center nbs i) (fun m => nth i grads 0 * cuda_kernel D s r (fun q d => x q d + h * v q d) (nb m) i)%R)).
    - symmetry. exact (sum_by_center ends nbs (fun i m => nth i grads 0 * cuda_kernel D s r (fun q d => x q d + h * v q d) (nb m) i)%R Hn).
    - intros i Hi. apply in_seq in Hi. rewrite (QFacts.nth_map_seq) by lia. unfold cuda_density. rewrite sum_scale. apply sum_over_ext. intros m Hmm.
      f_equal. unfold cuda_kernel. apply product_over_ext. intros d Hdd. apply in_seq in Hdd. fold N s (nb m).
      assert (Lm : m < M) by (unfold rows_of_center in Hmm; apply filter_In in Hmm; destruct Hmm as [Q _]; apply in_seq in Q; unfold M; lia).
      unfold moved. rewrite !tget_ttab; [reflexivity| |].
      + apply in_shape_cons. split; [lia|]. apply in_shape_cons. split; [lia|constructor].
      + apply in_shape_cons. split; [now apply Hnb|]. apply in_shape_cons. split; [lia|constructor]. }
  apply (derivable_ext _ L 0 _ EL).
  replace (along N D t v) with (sum_over (seq 0 M) (fun m => nth (ct m) grads 0 *
    (sum_over (seq 0 D) (fun d => (x (nb m) d - x (ct m) d) * s d * r d * s d * r d * (v (ct m) d - v (nb m) d)) * cuda_kernel D s r x (nb m) (ct m)))%R).
  - apply (dsum (fun m h => nth (ct m) grads 0 * cuda_kernel D s r (fun q d => x q d + h * v q d) (nb m) (ct m))%R). intros m _.
    apply (derivable_pt_lim_scal (fun h => cuda_kernel D s r (fun q d => x q d + h * v q d)%R (nb m) (ct m))). apply dkernel.
  - unfold along. symmetry.
    transitivity (sum_over (seq 0 N) (fun p => sum_over (seq 0 D) (fun d => sum_over (seq 0 M) (fun m =>
      (if p =? nb m then - slope D mode invr invbw points nbs ends grads (ct m) m d * v p d else 0) +
      (if p =? ct m then slope D mode invr invbw points nbs ends grads (ct m) m d * v p d else 0))%R))).
    { apply sum_over_ext. intros p Hp. apply in_seq in Hp. apply sum_over_ext. intros d Hdd. apply in_seq in Hdd. rewrite Ht by lia.
      unfold point_slope. rewrite Rmult_comm, sum_scale. apply sum_over_ext. intros m _. cbv zeta. fold (nb m) (ct m). rewrite (Nat.eqb_sym (nb m)), (Nat.eqb_sym (ct m)).
      destruct (p =? nb m), (p =? ct m); lra. }
    rewrite (sum_over_ext (seq 0 N) _ (fun p => sum_over (seq 0 M) (fun m => sum_over (seq 0 D) (fun d =>
      (if p =? nb m then - slope D mode invr invbw points nbs ends grads (ct m) m d * v p d else 0) +
      (if p =? ct m then slope D mode invr invbw points nbs ends grads (ct m) m d * v p d else 0))%R))) by (intros p _; apply sum_over_swap).
    rewrite (sum_over_swap (seq 0 N)). apply sum_over_ext. intros m Hmm. apply in_seq in Hmm. rewrite (sum_over_swap (seq 0 N)).
    rewrite <- (Rmult_comm (cuda_kernel _ _ _ _ _ _)), <- Rmult_assoc, sum_scale. apply sum_over_ext. intros d Hdd. rewrite sum_over_add.
    rewrite (sum_pick_seq N (nb m) (fun p => - slope D mode invr invbw points nbs ends grads (ct m) m d * v p d)%R) by (apply Hnb; lia).
    rewrite (sum_pick_seq N (ct m) (fun p => slope D mode invr invbw points nbs ends grads (ct m) m d * v p d)%R) by (apply Hct; lia).
    unfold slope. fold N. fold s. fold x. fold r. fold (nb m). cbv beta. unfold r, x. ring.
Qed.

(** ** Agreement with the fallback *)
Lemma pi_bounds : (3.141592650 < PI < 3.141592655)%R.
Proof.
  destruct (PI_2_3_7_ineq 4) as [A B]. unfold tg_alt, PI_2_3_7_tg, Ratan_seq in A, B. cbn [sum_f_R0 Nat.mul Nat.add pow INR] in A, B. split; lra.
Qed.
(** The ratio between the constant of the kernel and 1 / sqrt (2 PI). *)
Definition ratio : R := (0.39894228 * sqrt (2 * PI))%R.
Lemma ratio_sq : (1 - 33 / 10000000000 <= ratio * ratio <= 1)%R.
Proof.
  pose proof pi_bounds as (A & B). unfold ratio. replace (0.39894228 * sqrt (2 * PI) * (0.39894228 * sqrt (2 * PI)))%R with (0.39894228 * 0.39894228 * (sqrt (2 * PI) * sqrt (2 * PI)))%R by ring.
  rewrite sqrt_sqrt by lra. split; lra.
Qed.
Lemma ratio_bounds : (1 - 33 / 10000000000 <= ratio <= 1)%R.
Proof.
  pose proof ratio_sq as (A & B). pose proof pi_bounds as (C & _).
  assert (P : (0 <= ratio)%R) by (unfold ratio; pose proof (sqrt_pos (2 * PI)); lra). split; nra.
Qed.
Lemma ratio_pow D : D <= 6 -> (1 - 1 / 100000000 <= ratio ^ D <= 1)%R.
Proof.
  intros H. pose proof ratio_bounds as (A & B). pose proof ratio_sq as (A2 & B2).
  assert (Q : forall k, (0 <= ratio ^ k <= 1)%R).
  { induction k as [|k (I1 & I2)]; cbn; [lra|]. split; nra. }
  split; [|apply Q].
  assert (L6 : (1 - 1 / 100000000 <= ratio ^ 6)%R).
  { replace (ratio ^ 6)%R with ((ratio * ratio) * ((ratio * ratio) * (ratio * ratio)))%R by ring. set (y := (ratio * ratio)%R) in *.
    assert ((1 - 66 / 10000000000 <= y * y <= 1)%R) by (split; nra). nra. }
  replace 6 with (D + (6 - D)) in L6 by lia. rewrite pow_add in L6. pose proof (Q D). pose proof (Q (6 - D)). nra.
Qed.
Lemma sqrt_2PI_pos : (0 < sqrt (2 * PI))%R.
Proof. apply sqrt_lt_R0. pose proof pi_bounds. lra. Qed.
Lemma rounded_ratio z : rounded_normal z = (ratio * std_normal z)%R.
Proof. unfold rounded_normal, std_normal, ratio. pose proof sqrt_2PI_pos. field. lra. Qed.
Lemma product_factor l c f g : (forall i, In i l -> g i <> 0%R) -> product_over l (fun i => c * (f i / g i))%R = (c ^ length l * (product_over l f / product_over l g))%R.
Proof.
  unfold product_over. induction l as [|x l IH]; intros H; cbn; [field|]. rewrite IH by (intros; apply H; now right).
  assert (G : fold_right Rmult 1%R (map g l) <> 0%R).
  { clear IH. induction l as [|y l IH]; cbn; [lra|]. apply Rmult_integral_contrapositive. split; [apply H; right; now left|]. apply IH. intros i [->|Hi]; apply H; [now left|right; now right]. }
  field. split; auto. apply H. now left.
Qed.
Lemma rsum_scale c l : rsum (map (Rmult c) l) = (c * rsum l)%R.
Proof. unfold rsum. induction l as [|x l IH]; cbn; [lra|]. rewrite IH. lra. Qed.
Lemma rows_pairs nbs k (F : nat * nat -> R) : sum_over (rows_of_center nbs k) (fun m => F (nth m nbs (0, 0))) = rsum (map F (filter (fun q => snd q =? k) nbs)).
Proof.
  rewrite <- (TensorFacts.map_nth_seq nbs (0, 0)) at 2. unfold rows_of_center, sum_over, rsum. f_equal.
  induction (seq 0 (length nbs)) as [|m l IH]; [reflexivity|]. cbn [filter map]. destruct (snd (nth m nbs (0, 0)) =? k); cbn [map]; now rewrite IH.
Qed.
Lemma cuda_kernel_ratio D bw (radii : list Q) (P : nat -> list Q) p i :
  length bw = D -> Forall (fun x => (0 < x)%R) bw -> length radii = D -> Forall (fun c => (0 < c)%Q) radii ->
  cuda_kernel D (fun d => nth d (map Rinv bw) 0%R) (fun d => nth d (map (fun r => / Q2R r)%R radii) 0%R) (fun p d => Q2R (nth d (P p) 0%Q)) p i =
  (ratio ^ D * (kernel D bw radii (P p) (P i) / rprod bw))%R.
Proof.
  intros Hb Hp Hr Hq. rewrite (rprod_nth bw D Hb). unfold cuda_kernel, kernel.
  assert (Pb : forall d, d < D -> (0 < nth d bw 0)%R) by (intros d Hd; rewrite Forall_forall in Hp; apply Hp, nth_In; lia).
  assert (Pr : forall d, d < D -> (0 < Q2R (nth d radii 0%Q))%R).
  { intros d Hd. rewrite Forall_forall in Hq. replace 0%R with (Q2R 0) by (unfold Q2R; cbn; lra). apply Qlt_Rlt, Hq, nth_In. lia. }
  rewrite <- (seq_length D 0) at 2. rewrite <- product_factor by (intros d Hd; apply in_seq in Hd; specialize (Pb d ltac:(lia)); lra).
  apply product_over_ext. intros d Hd. apply in_seq in Hd. rewrite (nth_indep _ 0%R (/ 0)%R) by (rewrite map_length; lia). rewrite (map_nth Rinv).
  rewrite (nth_indep (map (fun r => / Q2R r)%R radii) 0%R ((fun r => / Q2R r)%R 0%Q)) by (rewrite map_length; lia). rewrite (map_nth (fun r => / Q2R r)%R). rewrite rounded_ratio.
  specialize (Pb d ltac:(lia)). specialize (Pr d ltac:(lia)).
  replace ((Q2R (nth d (P p) 0%Q) - Q2R (nth d (P i) 0%Q)) * / nth d bw 0 * / Q2R (nth d radii 0%Q))%R with ((Q2R (nth d (P p) 0%Q) - Q2R (nth d (P i) 0%Q)) / (nth d bw 0 * Q2R (nth d radii 0%Q)))%R by (field; lra).
  field. lra.
Qed.

(** C47. With a constant bandwidth the operation called by the library agrees
    with the TensorFlow fallback on the neighborhood of a grid's own points, up
    to a relative error of 1e-8 (the kernel rounds 1 / sqrt (2 PI)); so it gives
    the density of every point. *)
Lemma C47_agree_proof :
  forall active dev eps D rows ids B cs g radii max_neighbors n bw,
    0 < active -> D <= 6 -> usable eps D rows ids B cs g -> radii_match D radii cs -> valid_sizes D radii -> ids <> [] ->
    snd (mk_nbh (find_neighbors_tf GPU) g radii None max_neighbors) = Ok n ->
    length bw = D -> Forall (fun x => (0 < x)%R) bw ->
    compute_pdf_wrapper active n bw KConstant (fun out => exists v,
      compute_pdf_tf dev n bw KConstant = Ok v /\ length v = length ids /\ length out = length ids /\
      forall k, k < length ids -> within (1 / 100000000) (nth k out 0%R) (nth k v 0%R) /\
        nth k v 0%R = density D bw (all_dims D radii) rows ids (nth k (gsidx g) 0)).
Proof.
  intros active dev eps D rows ids B cs g radii mx n bw Ha HD6 Hu Hr Hv Hne E Hbw Hbp.
  pose proof (us_sizes _ _ _ _ _ _ _ Hu) as Hvs. pose proof (us_dim _ _ _ _ _ _ _ Hu) as HD2.
  pose proof (grid_for_is _ _ _ _ _ _ _ _ Hvs (us_grid _ _ _ _ _ _ _ Hu)) as G0.
  destruct (self_nbh eps D rows ids B cs g radii mx n Hu Hr E Hne) as (G & Hp & T1 & T2 & T3 & _ & P1 & P2 & P3 & Hin & Hd & Hs).
  assert (Er : nradii n = all_dims D radii).
  { destruct (sorted_cloud_ok _ _ _ _ _ _ _ _ G0) as (p & Ep & Ep' & Hp'). specialize (Hp' GPU eps).
    pose proof (sbids_length _ _ _ _ _ _ _ _ G0) as Lb.
    assert (Hne' : gsbids g <> []) by (intros E'; apply Hne, length_zero_iff_nil; rewrite <- Lb, E'; reflexivity).
    pose proof (cloud_is _ _ _ _ _ _ _ Hp') as Hpi.
    destruct (mk_nbh_tf eps D rows ids B cs g eps (gspts g) (gsbids g) B p radii mx None Hu Hp' Hne'
      (ic_ids _ _ _ _ _ _ _ Hpi) Hr (or_intror (conj eq_refl Ep))) as (n' & E' & Eg & Es & _ & R & N1 & _).
    rewrite E in E'. injection E' as <-. auto. }
  destruct Hv as [Hv1 Hv2]. rewrite <- T1, <- T2 in Hin.
  assert (Hlt : Forall (fun q => fst q < length ids /\ snd q < length ids) (nnbs n)).
  { apply Forall_forall. intros [j i] H. apply Hin in H as (H1 & H2 & _). rewrite (sbids_length _ _ _ _ _ _ _ _ G) in H1, H2. auto. }
  assert (Hne0 : 0 < length ids) by (destruct ids; [congruence|cbn; lia]).
  assert (Hends : length (rdata (nranges n)) = length ids) by apply Hd.
  pose proof (spts_length _ _ _ _ _ _ _ _ G) as Ls.
  unfold compute_pdf_wrapper. apply (density_gpu _ _ _ _ _ _ _ D); auto.
  - intros E0. rewrite E0 in Hends. cbn in Hends. lia.
  - discriminate.
  - now rewrite map_length.
  - now rewrite map_length, Er.
  - unfold sorted_tensor. rewrite (ic_dim _ _ _ _ _ _ _ (ig_cloud _ _ _ _ _ _ _ _ G)), Ls, Hends. apply ttab_tensor.
  - apply delimits_ranged; [now rewrite Hends|lia].
  - rewrite Hends. eapply Forall_impl; [|exact Hlt]. cbv beta. tauto.
  - eexists. split; [apply (compute_pdf_tf_sum eps D rows ids B _ n G); auto; now rewrite Er|]. rewrite !map_length, !seq_length. split; auto. split; auto.
    intros k Hk. rewrite Hends. rewrite !QFacts.nth_map_seq by auto. split.
    + assert (Ek : cuda_density D (inverse_bandwidth KConstant (length ids) (map Rinv bw)) (fun d => nth d (map (fun r => / Q2R r)%R (nradii n)) 0%R)
          (fun p d => tget (sorted_tensor n) [p; d]) (nnbs n) k =
        (ratio ^ D * (rsum (map (fun q => kernel D bw (nradii n) (nth (fst q) (gspts (ngrid n)) []) (nth (snd q) (gspts (ngrid n)) [])) (filter (fun q => snd q =? k) (nnbs n))) / rprod bw))%R).
      { unfold cuda_density. transitivity (sum_over (rows_of_center (nnbs n) k) (fun m => (fun q => ratio ^ D / rprod bw * kernel D bw (nradii n) (nth (fst q) (gspts (ngrid n)) []) (nth (snd q) (gspts (ngrid n)) []))%R (nth m (nnbs n) (0, 0)))).
        - apply sum_over_ext. intros m Hm. apply filter_In in Hm as (Hm & Ek). apply in_seq in Hm. apply Nat.eqb_eq in Ek.
          rewrite Forall_forall in Hlt. destruct (Hlt (nth m (nnbs n) (0, 0)) (nth_In (nnbs n) (0, 0) (proj2 Hm))) as (F1 & F2).
          transitivity (cuda_kernel D (fun d => nth d (map Rinv bw) 0%R) (fun d => nth d (map (fun r => / Q2R r)%R (nradii n)) 0%R)
            (fun p d => Q2R (nth d (nth p (gspts (ngrid n)) []) 0%Q)) (fst (nth m (nnbs n) (0, 0))) k).
          + unfold cuda_kernel. apply product_over_ext. intros d Hdd. apply in_seq in Hdd. unfold inverse_bandwidth, sorted_tensor.
            rewrite (ic_dim _ _ _ _ _ _ _ (ig_cloud _ _ _ _ _ _ _ _ G)), Ls. rewrite !tget_ttab; [reflexivity| |].
            * apply in_shape_cons. split; [lia|]. apply in_shape_cons. split; [lia|constructor].
            * apply in_shape_cons. split; [lia|]. apply in_shape_cons. split; [lia|constructor].
          + rewrite (cuda_kernel_ratio D bw (nradii n) (fun p => nth p (gspts (ngrid n)) [])) by (auto; now rewrite Er). rewrite Ek. unfold Rdiv. ring.
        - rewrite (rows_pairs (nnbs n) k (fun q => ratio ^ D / rprod bw * kernel D bw (nradii n) (nth (fst q) (gspts (ngrid n)) []) (nth (snd q) (gspts (ngrid n)) []))%R).
          rewrite <- (map_map (fun q => kernel D bw (nradii n) (nth (fst q) (gspts (ngrid n)) []) (nth (snd q) (gspts (ngrid n)) [])) (Rmult (ratio ^ D / rprod bw))).
          rewrite rsum_scale. unfold Rdiv. ring. }
      rewrite Ek. unfold within. generalize (rsum (map (fun q => kernel D bw (nradii n) (nth (fst q) (gspts (ngrid n)) []) (nth (snd q) (gspts (ngrid n)) [])) (filter (fun q => snd q =? k) (nnbs n))) / rprod bw)%R.
      intros y. pose proof (ratio_pow D HD6) as (Q1 & Q2). replace (ratio ^ D * y - y)%R with ((ratio ^ D - 1) * y)%R by ring. rewrite Rabs_mult.
      apply Rmult_le_compat_r; [apply Rabs_pos|]. rewrite Rabs_left1 by lra. lra.
    + pose proof (kde_self dev eps D rows ids B cs g radii mx n bw KConstant Hu Hr (conj Hv1 Hv2) E Hne Hbw Hbp) as Kd.
      rewrite (compute_pdf_tf_sum eps D rows ids B _ n G dev bw KConstant Hbw) in Kd; auto; [|now rewrite Er|now rewrite Er].
      injection Kd as Kd. apply (f_equal (fun l => nth k l 0%R)) in Kd. rewrite QFacts.nth_map_seq in Kd by auto. rewrite Kd.
      pose proof (sidx_length _ _ _ _ _ _ _ _ G0) as Lx. rewrite (nth_indep _ 0%R (density D bw (all_dims D radii) rows ids 0)) by (rewrite map_length, Lx; auto). now rewrite map_nth.
Qed.

(** C47. The gradient the library attaches to its call is the derivative of the
    density of that call, the bandwidths and radii entering by their inverses. *)
Lemma C47_attached_proof :
  forall active eps D rows ids B cs g radii max_neighbors n bw mode grads v,
    let N := length ids in
    let pts := fun h p d => (Q2R (nth d (nth p (gspts g) []) 0%Q) + h * v p d)%R in
    let dens := fun h i => cuda_density D (inverse_bandwidth mode N (map Rinv bw)) (fun d => / Q2R (nth d (all_dims D radii) 0%Q))%R (pts h) (nnbs n) i in
    0 < active -> D <= 6 -> usable eps D rows ids B cs g -> radii_match D radii cs -> valid_sizes D radii -> ids <> [] ->
    snd (mk_nbh (find_neighbors_tf GPU) g radii None max_neighbors) = Ok n ->
    mode <> KNoPdf -> length bw = D -> length grads = N ->
    compute_pdf_wrapper active n bw mode (fun out => out = map (dens 0%R) (seq 0 N)) /\
    compute_pdf_gradient active n bw mode grads (fun t =>
      is_tensor [N; D] t /\ derivable_pt_lim (fun h => dot1 N grads (map (dens h) (seq 0 N))) 0 (along N D t v)).
Proof.
  intros active eps D rows ids B cs g radii mx n bw mode grads v N pts dens Ha HD6 Hu Hr Hv Hne E Hm Hbw Hg.
  pose proof (us_sizes _ _ _ _ _ _ _ Hu) as Hvs. pose proof (us_dim _ _ _ _ _ _ _ Hu) as HD2.
  pose proof (grid_for_is _ _ _ _ _ _ _ _ Hvs (us_grid _ _ _ _ _ _ _ Hu)) as G0.
  destruct (self_nbh eps D rows ids B cs g radii mx n Hu Hr E Hne) as (G & Hp & T1 & T2 & T3 & _ & P1 & P2 & P3 & Hin & Hd & Hs).
  assert (Er : nradii n = all_dims D radii /\ gspts (ngrid n) = gspts g).
  { destruct (sorted_cloud_ok _ _ _ _ _ _ _ _ G0) as (p & Ep & Ep' & Hp'). specialize (Hp' GPU eps).
    pose proof (sbids_length _ _ _ _ _ _ _ _ G0) as Lb.
    assert (Hne' : gsbids g <> []) by (intros E'; apply Hne, length_zero_iff_nil; rewrite <- Lb, E'; reflexivity).
    pose proof (cloud_is _ _ _ _ _ _ _ Hp') as Hpi.
    destruct (mk_nbh_tf eps D rows ids B cs g eps (gspts g) (gsbids g) B p radii mx None Hu Hp' Hne'
      (ic_ids _ _ _ _ _ _ _ Hpi) Hr (or_intror (conj eq_refl Ep))) as (n' & E' & Eg & Es & _ & R & N1 & _).
    rewrite E in E'. injection E' as <-. auto. }
  destruct Er as [Er Es]. rewrite <- T1, <- T2 in Hin.
  assert (Hlt : Forall (fun q => fst q < N /\ snd q < N) (nnbs n)).
  { apply Forall_forall. intros [j i] H. apply Hin in H as (H1 & H2 & _). rewrite (sbids_length _ _ _ _ _ _ _ _ G) in H1, H2. auto. }
  assert (Hne0 : 0 < N) by (unfold N; destruct ids; [congruence|cbn; lia]).
  assert (Hends : length (rdata (nranges n)) = N) by apply Hd.
  pose proof (spts_length _ _ _ _ _ _ _ _ G) as Ls. fold N in Ls.
  assert (Hf : Forall (fun q => fst q < length (rdata (nranges n))) (nnbs n)).
  { rewrite Hends. eapply Forall_impl; [|exact Hlt]. cbv beta. tauto. }
  assert (Hd' : delimits (rdata (nranges n)) (nnbs n) (length (rdata (nranges n)))) by (rewrite Hends; exact Hd).
  assert (Lr : length (all_dims D radii) = D) by apply Hv.
  assert (Tt : is_tensor [length (rdata (nranges n)); D] (sorted_tensor n)).
  { unfold sorted_tensor. rewrite (ic_dim _ _ _ _ _ _ _ (ig_cloud _ _ _ _ _ _ _ _ G)), Ls, Hends. apply ttab_tensor. }
  assert (He : rdata (nranges n) <> []) by (intros E0; rewrite E0 in Hends; cbn in Hends; lia).
  assert (Hrg : ranged (rdata (nranges n)) (nnbs n)) by (apply delimits_ranged; [exact Hd'|lia]).
  assert (Hdens : forall x h, (forall p d, p < N -> d < D -> x p d = pts h p d) -> forall i, i < N ->
    cuda_density D (inverse_bandwidth mode N (map Rinv bw)) (fun d => nth d (map (fun r => / Q2R r)%R (nradii n)) 0%R) x (nnbs n) i = dens h i).
  { intros x h Hx i Hi. unfold dens, cuda_density. apply sum_over_ext. intros m Hm'. unfold cuda_kernel. apply product_over_ext.
    intros d Hdd. apply in_seq in Hdd. apply filter_In in Hm' as (Hm' & _). apply in_seq in Hm'.
    rewrite Forall_forall in Hlt. destruct (Hlt (nth m (nnbs n) (0, 0)) (nth_In (nnbs n) (0, 0) (proj2 Hm'))) as (F1 & _).
    rewrite !Hx by (auto; lia). rewrite Er. rewrite (nth_indep (map (fun r => / Q2R r)%R (all_dims D radii)) 0%R ((fun r => / Q2R r)%R 0%Q)) by (rewrite map_length; lia).
    now rewrite (map_nth (fun r => / Q2R r)%R). }
  assert (Hst : forall p d, p < N -> d < D -> tget (sorted_tensor n) [p; d] = Q2R (nth d (nth p (gspts g) []) 0%Q)).
  { intros p d H1 H2. unfold sorted_tensor. rewrite (ic_dim _ _ _ _ _ _ _ (ig_cloud _ _ _ _ _ _ _ _ G)), Ls, Es, tget_ttab; [reflexivity|].
    apply in_shape_cons. split; [lia|]. apply in_shape_cons. split; [lia|constructor]. }
  split.
  - unfold compute_pdf_wrapper. apply (density_gpu _ _ _ _ _ _ _ D); auto; [now rewrite map_length|now rewrite map_length, Er|].
    rewrite Hends. apply map_ext_in. intros i Hi. apply in_seq in Hi. apply Hdens; [|lia]. intros p d H1 H2. rewrite Hst by auto. unfold pts. ring.
  - unfold compute_pdf_gradient. rewrite <- Hends. apply (C47_gradient_proof active (sorted_tensor n)); auto.
    + now rewrite Hends.
    + now rewrite map_length.
    + now rewrite map_length, Er.
    + now rewrite Hends.
    + intros h. apply (density_gpu _ _ _ _ _ _ _ D); auto; [now rewrite map_length|now rewrite map_length, Er|split; [reflexivity|unfold moved; rewrite ttab_length; reflexivity]|].
      rewrite Hends. f_equal. apply map_ext_in. intros i Hi. apply in_seq in Hi. symmetry. apply Hdens; [|lia]. intros p d H1 H2.
      unfold moved. rewrite tget_ttab by (apply in_shape_cons; split; [lia|]; apply in_shape_cons; split; [lia|constructor]). now rewrite Hst.
Qed.

(** ** Concrete cases *)
Definition ex47_nbs : list (nat * nat) := [(0,0);(1,0);(1,1)].
Definition ex47_ends : list Z := [2;3]%Z.
Definition ex47_points : ten := Ten [2; 2] [0; 0; 1; 0]%R.
Lemma ex47_delimits : delimits ex47_ends ex47_nbs 2.
Proof. split; [reflexivity|]. split; [reflexivity|]. intros i Hi. do 2 (destruct i as [|i]; [cbn; repeat split; lia|]). lia. Qed.
Lemma ex47_fst : Forall (fun q => fst q < 2) ex47_nbs.
Proof. unfold ex47_nbs. repeat constructor; cbn; lia. Qed.
Lemma ex47_tensor : is_tensor [2; 2] ex47_points.
Proof. split; reflexivity. Qed.
Definition ex47_c : R := (0.39894228 * 0.39894228)%R.
Ltac ex47_norm := unfold cuda_density, cuda_kernel, rounded_normal, sum_over, product_over, inverse_bandwidth, ex47_c; cbn [rows_of_center ex47_nbs length seq filter nth fst snd Nat.eqb map fold_right];
  unfold tget, ex47_points; cbn [tshape tdata offset nprod fold_right nth Nat.add Nat.mul].
Example C47_density_ex_proof :
  delimits ex47_ends ex47_nbs 2 /\ is_tensor [2; 2] ex47_points /\
  forall active, 0 < active ->
    compute_pdf_op active ex47_points ex47_nbs ex47_ends [1; 2]%R [1; 1]%R KConstant (fun out =>
      nth 0 out 0%R = (2 * ex47_c * (1 + exp (- / 2)))%R /\ nth 1 out 0%R = (2 * ex47_c)%R).
Proof.
  split; [exact ex47_delimits|]. split; [exact ex47_tensor|]. intros active Ha.
  apply (density_gpu _ _ _ _ _ _ _ 2); auto; try discriminate; try lia; try exact ex47_tensor; try exact ex47_fst.
  - apply delimits_ranged; [exact ex47_delimits|discriminate].
  - cbn [ex47_ends length seq map nth]. assert (E0 : forall z, z = 0%R -> exp z = 1%R) by (intros z ->; apply exp_0). split.
    + ex47_norm. rewrite (E0 (- ((0 - 0) * 1 * 1 * ((0 - 0) * 1 * 1)) / 2)%R), (E0 (- ((0 - 0) * 2 * 1 * ((0 - 0) * 2 * 1)) / 2)%R) by lra.
      replace (- ((1 - 0) * 1 * 1 * ((1 - 0) * 1 * 1)) / 2)%R with (- / 2)%R by lra. ring.
    + ex47_norm. rewrite (E0 (- ((1 - 1) * 1 * 1 * ((1 - 1) * 1 * 1)) / 2)%R), (E0 (- ((0 - 0) * 2 * 1 * ((0 - 0) * 2 * 1)) / 2)%R) by lra. ring.
Qed.
Example C47_gradient_ex_proof :
  forall active v, 0 < active ->
    (exists L, forall h, compute_pdf_op active (moved 2 2 ex47_points v h) ex47_nbs ex47_ends [1; 1]%R [1; 1]%R KConstant (fun out => L h = dot1 2 [1; 0]%R out)) /\
    compute_pdf_grads_op active ex47_points ex47_nbs ex47_ends [1; 1]%R [1; 1]%R [1; 0]%R KConstant (fun t =>
      tget t [0; 0] = (ex47_c * exp (- / 2))%R /\ tget t [1; 0] = (- ex47_c * exp (- / 2))%R /\ tget t [1; 1] = 0%R).
Proof.
  intros active v Ha. split.
  - eexists (fun h => _). intros h. apply (density_gpu _ _ _ _ _ _ _ 2); auto; try discriminate; try lia; try exact ex47_fst.
    + apply ttab_tensor.
    + apply delimits_ranged; [exact ex47_delimits|discriminate].
  - apply (gradient_gpu _ _ _ _ _ _ _ _ 2); auto; try discriminate; try lia; try exact ex47_tensor; try exact ex47_fst.
    + apply delimits_ranged; [exact ex47_delimits|discriminate].
    + intros t Tt Ht. rewrite !Ht by (cbn; lia). unfold point_slope, slope. cbv zeta. assert (E0 : forall z, z = 0%R -> exp z = 1%R) by (intros z ->; apply exp_0).
      repeat split; ex47_norm;
      rewrite ?(E0 (- ((0 - 0) * 1 * 1 * ((0 - 0) * 1 * 1)) / 2)%R), ?(E0 (- ((1 - 1) * 1 * 1 * ((1 - 1) * 1 * 1)) / 2)%R) by lra;
      replace (- ((1 - 0) * 1 * 1 * ((1 - 0) * 1 * 1)) / 2)%R with (- / 2)%R by lra; ring.
Qed.
Example C47_agree_ex_proof :
  exists g n, usable (1#1000) 2 exN_rows exN_ids 2 [1#1] g /\ radii_match 2 [1#1] [1#1] /\ valid_sizes 2 [1#1] /\
    snd (mk_nbh (find_neighbors_tf GPU) g [1#1] None 0) = Ok n /\ length (nnbs n) = 10 /\
    forall active, 0 < active -> compute_pdf_wrapper active n [2; 1/2]%R KConstant (fun out =>
      within (1 / 100000000) (nth 3 out 0%R) (density 2 [2; 1/2]%R [1#1;1#1] exN_rows exN_ids 2)).
Proof.
  destruct exN_usable as (g & Hu & Hr & Eg). exists g.
  assert (Hv : valid_sizes 2 [1#1]) by (split; [reflexivity|repeat constructor]).
  assert (X : exists n, snd (mk_nbh (find_neighbors_tf GPU) g [1#1] None 0) = Ok n /\ length (nnbs n) = 10 /\ gsidx g = [4;5;3;2;0;1]).
  { clear Hu Hr. vm_compute in Eg. inversion Eg; subst g. eexists. split; [vm_compute; reflexivity|]. split; reflexivity. }
  destruct X as (n & En & Ln & Ex). exists n. split; [exact Hu|]. split; [exact Hr|]. split; [exact Hv|]. split; [exact En|]. split; [exact Ln|]. intros active Ha.
  pose proof (C47_agree_proof active GPU (1#1000) 2 exN_rows exN_ids 2 [1#1] g [1#1] 0 n [2; 1/2]%R Ha ltac:(lia) Hu Hr Hv ltac:(discriminate) En eq_refl ltac:(repeat constructor; lra)) as H.
  unfold compute_pdf_wrapper, compute_pdf_op in *. destruct H as (N & D & Hc & H). exists N, D. split; [exact Hc|]. intros out Lo. destruct (H out Lo) as (B & He). split; [exact B|].
  eapply every_run_weaken; [|exact He]. cbv beta. intros m (w & _ & _ & _ & Hk). destruct (Hk 3 ltac:(cbn; lia)) as (K1 & K2). rewrite K2, Ex in K1. exact K1.
Qed.
Example C47_attached_ex_proof :
  exists g n, usable (1#1000) 2 exN_rows exN_ids 2 [1#1] g /\ radii_match 2 [1#1] [1#1] /\ valid_sizes 2 [1#1] /\
    snd (mk_nbh (find_neighbors_tf GPU) g [1#1] None 0) = Ok n /\ length (nnbs n) = 10 /\
    forall active, 0 < active -> compute_pdf_gradient active n [2; 1/2]%R KConstant (repeat 1%R 6) (fun t => is_tensor [6; 2] t).
Proof.
  destruct exN_usable as (g & Hu & Hr & Eg). exists g.
  assert (Hv : valid_sizes 2 [1#1]) by (split; [reflexivity|repeat constructor]).
  assert (X : exists n, snd (mk_nbh (find_neighbors_tf GPU) g [1#1] None 0) = Ok n /\ length (nnbs n) = 10).
  { clear Hu Hr. vm_compute in Eg. inversion Eg; subst g. eexists. split; [vm_compute; reflexivity|]. reflexivity. }
  destruct X as (n & En & Ln). exists n. split; [exact Hu|]. split; [exact Hr|]. split; [exact Hv|]. split; [exact En|]. split; [exact Ln|]. intros active Ha.
  destruct (C47_attached_proof active (1#1000) 2 exN_rows exN_ids 2 [1#1] g [1#1] 0 n [2; 1/2]%R KConstant (repeat 1%R 6) (fun _ _ => 1%R)
    Ha ltac:(lia) Hu Hr Hv ltac:(discriminate) En ltac:(discriminate) eq_refl eq_refl) as [_ (N & D & Hc & Hg & Bp & He)].
  exists N, D. split; [exact Hc|]. split; [exact Hg|]. split; [exact Bp|]. eapply every_run_weaken; [|exact He]. cbv beta. tauto.
Qed.
