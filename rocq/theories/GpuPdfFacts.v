(** Facts about the CUDA density kernels. *)
From Coq Require Import List Arith ZArith QArith Lia Reals Lra Machin Bool.
From Verif Require Import Tensor TensorFacts PointCloud RTensor RTensorFacts Pdf SpecPdf PdfFacts Neighbors SpecNeighbors Layers LayerFacts Cuda CudaFacts MemFacts CudaUpdate GpuGrid GpuBasis
  GpuBasisFacts GpuBasisGradFacts SpecGpuBasis GpuBasisProofs GpuPdf SpecGpuPdf.
Import ListNotations.
Local Open Scope nat_scope.

Lemma oall_map {A B} (f : A -> option B) g l : (forall x, In x l -> f x = Some (g x)) -> oall (map f l) = Some (map g l).
Proof. induction l as [|x l IH]; intros H; [reflexivity|]. cbn. rewrite (H x) by now left. cbn. rewrite IH by (intros; apply H; now right). reflexivity. Qed.
Lemma fold_mult l a : fold_left Rmult l a = (a * rprod l)%R.
Proof. revert a. induction l as [|x l IH]; intros a; cbn; [unfold rprod; cbn; lra|]. rewrite IH. unfold rprod. cbn. lra. Qed.
Lemma rd_nth {A} i (l : list A) d : i < length l -> rd i l = Some (nth i l d).
Proof. intros H. unfold rd. now apply nth_error_nth'. Qed.
Lemma product_over_ext l f g : (forall i, In i l -> f i = g i) -> product_over l f = product_over l g.
Proof. intros H. unfold product_over. f_equal. now apply map_ext_in. Qed.
Lemma rd_tget N D t p d : is_tensor [N; D] t -> p < N -> d < D -> rd (p * D + d) (tdata t) = Some (tget t [p; d]).
Proof. intros T Hp Hd. rewrite (entry2 N D) by auto. apply rd_nth. rewrite (len2 N D) by auto. nia. Qed.
Lemma num_blocks_pos active n : 0 < active -> 0 < n -> num_blocks active 64 n <> 0.
Proof.
  intros Ha Hn. unfold num_blocks. pose proof (Nat.div_mod n 64 ltac:(lia)). destruct (Nat.eqb_spec (n mod 64) 0); lia.
Qed.

Section Runs.
  Context (D : nat) (mode : kde_mode) (invr invbw : list R) (points : ten) (nbs : list (nat * nat)) (ends : list Z).
  Notation N := (length ends).
  Context (Hmode : mode <> KNoPdf) (Hr : length invr = D) (Hb : length invbw = D) (Tp : is_tensor [N; D] points)
    (Hn : ranged ends nbs) (Hf : Forall (fun q => fst q < N) nbs).
  Notation s := (inverse_bandwidth mode N invbw).
  Notation r := (fun d => nth d invr 0%R).
  Notation x := (fun p d => tget points [p; d]).
  Notation nb := (fun m => fst (nth m nbs (0, 0))).

  Lemma bandwidth_val d : d < D -> cur_bandwidth mode invbw N d = Some (s d).
  Proof using Hmode Hb Hr Tp Hn Hf. intros H. unfold cur_bandwidth, inverse_bandwidth. destruct mode; auto; [|congruence]. apply rd_nth. lia. Qed.
  Lemma diff_val p i d : p < N -> i < N -> d < D ->
    diff_entry D mode invr invbw (tdata points) N p i d = Some ((x p d - x i d) * s d * r d)%R.
  Proof using Hmode Hb Hr Tp Hn Hf.
    intros Hp Hi Hd. unfold diff_entry, coordinate. rewrite (rd_tget N D), (rd_tget N D) by auto. cbn [obind]. rewrite bandwidth_val by auto. cbn [obind].
    rewrite (rd_nth _ _ 0%R) by lia. reflexivity.
  Qed.
  Lemma kernel_val p i d : p < N -> i < N -> d < D ->
    kernel_entry D mode invr invbw (tdata points) N p i d = Some (s d * rounded_normal ((x p d - x i d) * s d * r d))%R.
  Proof using Hmode Hb Hr Tp Hn Hf.
    intros Hp Hi Hd. unfold kernel_entry. rewrite diff_val by auto. cbn [obind]. rewrite bandwidth_val by auto. cbn [obind]. f_equal.
    unfold rounded_normal, gauss_literal. cbv beta. generalize ((tget points [p; d] - tget points [i; d]) * s d * nth d invr 0)%R. intros z.
    replace (z * z * - (1 / 2))%R with (- (z * z) / 2)%R by field. generalize (exp (- (z * z) / 2)), (s d). intros e0 s0. replace 0.39894228%R with (39894228 / 100000000)%R by lra. ring.
  Qed.
  Lemma local_val g p i : p < N -> i < N -> local_pdf D mode invr invbw (tdata points) N g p i = Some (g * cuda_kernel D s r x p i)%R.
  Proof using Hmode Hb Hr Tp Hn Hf.
    intros Hp Hi. unfold local_pdf. rewrite (oall_map _ (fun d => s d * rounded_normal ((x p d - x i d) * s d * r d))%R) by (intros d Hd; apply in_seq in Hd; apply kernel_val; auto; lia).
    cbn [option_map]. rewrite fold_mult. reflexivity.
  Qed.
  Lemma row_nb i m : i < N -> In m (sample_rows ends i) -> m < length nbs /\ nb m < N.
  Proof using Hmode Hb Hr Tp Hn Hf.
    intros Hi Hm. unfold sample_rows in Hm. apply in_seq in Hm. destruct Hn as (A & _). specialize (A i Hi).
    assert (L : m < length nbs) by lia. split; auto. rewrite Forall_forall in Hf. apply Hf, nth_In. auto.
  Qed.
  Lemma rows_val i : i < N -> sample_rows ends i = rows_of_center nbs i.
  Proof using Hmode Hb Hr Tp Hn Hf. intros Hi. symmetry. now apply ranged_rows. Qed.
  Lemma pdf_val i : i < N -> sample_pdf D mode invr invbw (tdata points) nbs ends N i = Some (cuda_density D s r x nbs i).
  Proof using Hmode Hb Hr Tp Hn Hf.
    intros Hi. unfold sample_pdf. rewrite (oall_map _ (fun m => cuda_kernel D s r x (nb m) i)).
    - cbn [option_map]. rewrite kahan_sum. unfold cuda_density. rewrite <- rows_val by auto. reflexivity.
    - intros m Hm. destruct (row_nb i m Hi Hm) as (L & Ln). rewrite (rd_nth _ _ (0, 0)) by auto. cbn [obind]. rewrite local_val by auto. f_equal. lra.
  Qed.
  Lemma pdf_runs blocks out : blocks <> 0 -> length out = N ->
    every_run (fun m => m = map (cuda_density D s r x nbs) (seq 0 N)) (out, flat_kernel blocks 64 N (pdf_body D mode invr invbw (tdata points) nbs ends N)).
  Proof using Hmode Hb Hr Tp Hn Hf.
    intros B L. assert (E : forall i, i < N -> pdf_body D mode invr invbw (tdata points) nbs ends N i = [wr i (cuda_density D s r x nbs i)]).
    { intros i Hi. unfold pdf_body. rewrite pdf_val by auto. reflexivity. }
    apply flat_kernel_runs; auto.
    - intros i j a a' Hi Hj Nij. rewrite !E by auto. intros [<-|[]] [<-|[]] m. now apply wr_comm.
    - rewrite <- (run_writes (cuda_density D s r x nbs) N out L). f_equal. apply flat_map_ext_in'. intros i Hi. apply in_seq in Hi. apply E. lia.
  Qed.

  Context (grads : list R) (Hg : length grads = N).
  (** The contribution of row [m] of center [i] along axis [d]. *)
  Definition slope (i m d : nat) : R := ((x (nb m) d - x i d) * s d * r d * s d * r d * (nth i grads 0 * cuda_kernel D s r x (nb m) i))%R.
  Lemma grad_val i m d : i < N -> In m (sample_rows ends i) -> d < D ->
    grad_entry D mode invr invbw (tdata points) nbs N grads i m d = Some (slope i m d).
  Proof using Hmode Hb Hr Tp Hn Hf Hg.
    intros Hi Hm Hd. destruct (row_nb i m Hi Hm) as (L & Ln). unfold grad_entry. rewrite (rd_nth i grads 0%R) by lia. cbn [obind].
    rewrite (rd_nth m nbs (0, 0)) by auto. cbn [obind]. rewrite local_val by auto. cbn [obind]. rewrite diff_val by auto. cbn [obind].
    rewrite bandwidth_val by auto. cbn [obind]. rewrite (rd_nth d invr 0%R) by lia. reflexivity.
  Qed.
  Lemma grad_sum_val i d : i < N -> d < D ->
    grad_sum D mode invr invbw (tdata points) nbs ends N grads i d = Some (sum_over (rows_of_center nbs i) (fun m => slope i m d)).
  Proof using Hmode Hb Hr Tp Hn Hf Hg.
    intros Hi Hd. unfold grad_sum. rewrite (oall_map _ (fun m => slope i m d)) by (intros m Hm; now apply grad_val).
    cbn [option_map]. rewrite kahan_sum, <- rows_val by auto. reflexivity.
  Qed.
  Definition adds (i : nat) : list (nat * R) :=
    flat_map (fun m => map (fun d => (nb m * D + d, (- slope i m d)%R)) (seq 0 D)) (rows_of_center nbs i) ++
    map (fun d => (i * D + d, sum_over (rows_of_center nbs i) (fun m => slope i m d))) (seq 0 D).
  Lemma grad_body_adds i : i < N ->
    grad_body D mode invr invbw (tdata points) nbs ends N grads i = map (fun u => atomic (fst u) (fun w => (w + snd u)%R)) (adds i).
  Proof using Hmode Hb Hr Tp Hn Hf Hg.
    intros Hi. unfold grad_body, adds. rewrite map_app. f_equal.
    - rewrite <- rows_val by auto. rewrite !flat_map_concat_map, concat_map, map_map. f_equal. apply map_ext_in. intros m Hm.
      rewrite map_map. apply map_ext_in. intros d Hd. apply in_seq in Hd. destruct (row_nb i m Hi Hm) as (L & Ln).
      rewrite (rd_nth m nbs (0, 0)) by auto. rewrite grad_val by (auto; lia). reflexivity.
    - rewrite map_map. apply map_ext_in. intros d Hd. apply in_seq in Hd. rewrite grad_sum_val by (auto; lia). reflexivity.
  Qed.
  Lemma adds_in i u : i < N -> In u (adds i) -> fst u < N * D.
  Proof using Hmode Hb Hr Tp Hn Hf Hg.
    intros Hi H. unfold adds in H. apply in_app_iff in H as [H|H].
    - apply in_flat_map in H as (m & Hm & H). apply in_map_iff in H as (d & <- & Hd). apply in_seq in Hd. rewrite <- rows_val in Hm by auto.
      destruct (row_nb i m Hi Hm) as (L & Ln). cbn [fst]. nia.
    - apply in_map_iff in H as (d & <- & Hd). apply in_seq in Hd. cbn [fst]. nia.
  Qed.

  Lemma fold_adds (us : list (nat * R)) k w :
    fold_left (fun e u => if fst u =? k then (e + snd u)%R else e) us w = (w + rsum (map (fun u => if (fst u =? k)%nat then snd u else 0) us))%R.
  Proof. revert w. induction us as [|u us IH]; intros w; cbn; [unfold rsum; cbn; lra|]. rewrite IH. unfold rsum. cbn. destruct (fst u =? k); lra. Qed.
  Lemma rsum_flat_map {A B} (f : B -> R) (g : A -> list B) l : rsum (map f (flat_map g l)) = rsum (map (fun a => rsum (map f (g a))) l).
  Proof. induction l as [|a l IH]; [reflexivity|]. cbn [flat_map]. rewrite map_app, rsum_app, IH. reflexivity. Qed.
  Lemma pick_axis p q d (f : nat -> R) : d < D ->
    rsum (map (fun e => if q * D + e =? p * D + d then f e else 0%R) (seq 0 D)) = if q =? p then f d else 0%R.
  Proof.
    intros Hd. change (sum_over (seq 0 D) (fun e => if q * D + e =? p * D + d then f e else 0%R) = if q =? p then f d else 0%R). destruct (Nat.eqb_spec q p) as [->|Nq].
    - rewrite <- (sum_pick_seq D d f Hd). apply sum_over_ext. intros e _.
      replace (p * D + e =? p * D + d) with (e =? d); auto. destruct (Nat.eqb_spec e d), (Nat.eqb_spec (p * D + e) (p * D + d)); auto; lia.
    - transitivity (sum_over (seq 0 D) (fun _ => 0%R)); [|apply sum_over_0]. apply sum_over_ext. intros e He. apply in_seq in He. destruct (Nat.eqb_spec (q * D + e) (p * D + d)) as [E|]; auto.
      exfalso. apply Nq. exact (proj1 (mixed q D e p d ltac:(lia) Hd E)).
  Qed.
  (** What the additions amount to. *)
  Definition point_slope (p d : nat) : R :=
    sum_over (seq 0 (length nbs)) (fun m => let i := snd (nth m nbs (0, 0)) in
      ((if nb m =? p then - slope i m d else 0) + (if i =? p then slope i m d else 0))%R).
  Lemma adds_val p d : p < N -> d < D ->
    rsum (map (fun u => if fst u =? p * D + d then snd u else 0%R) (flat_map adds (seq 0 N))) = point_slope p d.
  Proof using Hmode Hb Hr Tp Hn Hf Hg.
    intros Hp Hd. rewrite rsum_flat_map. unfold point_slope.
    rewrite <- (sum_by_center ends nbs (fun i m => (if nb m =? p then - slope i m d else 0) + (if i =? p then slope i m d else 0))%R Hn).
    rewrite <- sum_over_rsum. apply sum_over_ext. intros i Hi. unfold adds. rewrite map_app, rsum_app, rsum_flat_map, sum_over_add. f_equal.
    - rewrite <- sum_over_rsum. apply sum_over_ext. intros m Hm. rewrite map_map. cbn [fst snd]. now rewrite (pick_axis p (nb m) d (fun e => - slope i m e)%R).
    - rewrite map_map. cbn [fst snd]. rewrite (pick_axis p i d (fun e => sum_over (rows_of_center nbs i) (fun m => slope i m e))) by auto. now rewrite sum_if.
  Qed.

  Lemma grads_run blocks : blocks <> 0 ->
    every_run (fun m => length m = N * D /\ forall p d, p < N -> d < D -> nth (p * D + d) m 0%R = point_slope p d)
      (repeat 0%R (N * D), flat_kernel blocks 64 N (grad_body D mode invr invbw (tdata points) nbs ends N grads)).
  Proof using Hmode Hb Hr Tp Hn Hf Hg.
    intros B. destruct (run_atomics (map (fun u => (fst u, fun w => (w + snd u)%R)) (flat_map adds (seq 0 N))) (repeat 0%R (N * D))) as (m & E & L & V).
    { intros u Hu. apply in_map_iff in Hu as (u' & <- & Hu'). apply in_flat_map in Hu' as (i & Hi & Hu'). apply in_seq in Hi. rewrite repeat_length. apply (adds_in i); auto. lia. }
    apply every_run_weaken with (P := fun m' => m' = m).
    - intros m' ->. rewrite repeat_length in L. split; auto. intros p d Hp Hd. rewrite V.
      rewrite <- adds_val by auto. clear. generalize (flat_map adds (seq 0 N)). intros us.
      assert (Z : nth (p * D + d) (repeat 0%R (N * D)) 0%R = 0%R) by (destruct (Nat.lt_ge_cases (p * D + d) (N * D)); [apply nth_repeat|apply nth_overflow; rewrite repeat_length; auto]).
      rewrite Z. rewrite <- (Rplus_0_l (rsum _)), <- fold_adds. generalize 0%R. induction us as [|u us IH]; intros w; cbn; auto.
    - apply flat_kernel_runs; auto.
      + intros i j a a' Hi Hj _. rewrite !grad_body_adds by auto. intros Ha Ha'. apply in_map_iff in Ha as (u & <- & _). apply in_map_iff in Ha' as (u' & <- & _).
        apply atomic_comm. right. intros e. lra.
      + rewrite <- E. f_equal. rewrite map_map. cbn [fst snd]. rewrite !flat_map_concat_map, concat_map, map_map. f_equal. apply map_ext_in. intros i Hi. apply in_seq in Hi.
        apply grad_body_adds. lia.
  Qed.
End Runs.
