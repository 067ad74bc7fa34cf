(** Proofs that the layers turn sums of features into sums of outputs (C83). The
    statements are copied into PropertiesLinear.v. *)
From Coq Require Import String List Arith ZArith QArith Reals Qreals Lia Lra Bool Permutation.
From Verif Require Import Tensor TensorFacts Spec SpecText TextFacts PointCloud SpecCloud PointCloudFacts QFacts Grid SpecGrid GridFacts
  Neighbors SpecNeighbors NeighborFacts NeighborProofs Neighborhood NeighborhoodFacts NeighborhoodProofs
  Sampling SpecSampling SamplingFacts SamplingProofs Hierarchy SpecHierarchy HierarchyFacts Pdf SpecPdf PdfFacts PdfProofs
  RTensor RTensorFacts Layers SpecLayers LayerFacts LayerLink LayerProofs ConvProofs MoveProofs BlockFacts SpecLinear.
Import ListNotations.
Local Open Scope nat_scope.

Lemma sum_linear a b l f g : sum_over l (fun x => a * f x + b * g x)%R = (a * sum_over l f + b * sum_over l g)%R.
Proof. unfold sum_over. induction l as [|x l IH]; cbn [map fold_right]; [lra|]. rewrite IH. lra. Qed.

Lemma ws_linear a b C H W B1 B2 B :
  (forall c h, c < C -> h < H -> B c h = (a * B1 c h + b * B2 c h)%R) ->
  weighted_sum C H W B = (a * weighted_sum C H W B1 + b * weighted_sum C H W B2)%R.
Proof.
  intros E. unfold weighted_sum. rewrite <- sum_linear. apply sum_over_ext. intros c Hc. apply in_seq in Hc.
  rewrite <- sum_linear. apply sum_over_ext. intros h Hh. apply in_seq in Hh. rewrite E by lia. ring.
Qed.

Lemma near_lt D r rows ids crows cids i p : In p (near_points D r rows ids crows cids i) -> p < length ids.
Proof. intros H. apply filter_In in H as [H _]. apply in_seq in H. lia. Qed.

Lemma conv_linear a b D r rows ids crows cids i C H W F1 F2 F k :
  combined (length ids) C a b F1 F2 F ->
  let conv := fun F => weighted_sum C H W (fun c h => sum_over (near_points D r rows ids crows cids i) (fun p => fval F p c * k p h)%R) in
  conv F = (a * conv F1 + b * conv F2)%R.
Proof.
  intros E conv. apply ws_linear. intros c h Hc _. rewrite <- sum_linear. apply sum_over_ext. intros p Hp.
  rewrite (E p c) by (eauto using near_lt). ring.
Qed.

Lemma superposed_tables p rs rp n C a b e f1 f2 f :
  (forall i o, i < n -> o < C -> f i o = (a * f1 i o + b * f2 i o + e o)%R) ->
  superposed p rs rp n C a b e (returned p rs rp C (table n C f1)) (returned p rs rp C (table n C f2)) (returned p rs rp C (table n C f)).
Proof.
  intros E. exists (table n C f1), (table n C f2), (table n C f). do 3 (split; [apply matrix_table|]). do 3 (split; [reflexivity|]).
  intros i o Hi Ho. rewrite !fval_table by assumption. now apply E.
Qed.

Lemma mean_linear a b (l : list nat) f g : mean (map (fun j => a * f j + b * g j)%R l) = (a * mean (map f l) + b * mean (map g l))%R.
Proof.
  unfold mean. rewrite !map_length. pose proof (sum_linear a b l f g) as E. unfold sum_over in E. rewrite E. unfold Rdiv. ring.
Qed.

(** C83. If the features are a times some features plus b times other ones, the
    output of the convolutions with fixed kernels and of average pooling is a times
    the first output plus b times the second, in every layout. *)
Lemma C83_superposition_partial_proof :
  forall eps D r rows ids pin crows cids pout cin a b feats1 feats2 feats F1 F2 F return_sorted return_padded,
    workable eps D r rows ids pin crows cids pout ->
    given feats1 pin cin F1 -> given feats2 pin cin F2 -> given feats pin cin F -> combined (length ids) cin a b F1 F2 F ->
    let search := find_neighbors_tf GPU in let kde := compute_pdf_tf GPU in
    let sums := fun C (call : feat -> result feat) =>
      superposed pout return_sorted return_padded (length cids) C a b (fun _ => 0%R) (call feats1) (call feats2) (call feats) in
    (forall cout mlps sizes act f w bs fw layer bandwidth,
       mk_mcconv cin cout D mlps sizes act w bs fw = Ok layer -> 0 < cout -> activation act f -> (0 < bandwidth)%R ->
       sums cout (fun x => mcconv_call GPU eps search kde layer x pin pout r None bandwidth return_sorted return_padded)) /\
    (forall cout K interpolation wt kernel_points w wo spherical layer influence,
       mk_kpconv cin cout K D false interpolation
         (Some (ttab [K; D] (fun idx => match idx with [k; d] => kernel_points k d | _ => 0%R end))) spherical w wo = Ok layer ->
       0 < cin -> 0 < K -> weighting interpolation wt ->
       sums cout (fun x => o <- kpconv_call GPU eps search layer x pin pout r None influence return_sorted return_padded ;; Ok (fst o))) /\
    (forall cout hidden act f axis bias w w1 b1 w2 b2 bandwidth,
       2 <= length cids -> 0 < cin -> 0 < hidden -> activation act f -> (0 < bandwidth)%R ->
       sums cout (fun x => pointconv_call GPU eps search kde (mk_pointconv cin cout D hidden act axis bias w w1 b1 w2 b2) x pin pout r None
                             bandwidth return_sorted return_padded)) /\
    sums cin (fun x => average_pooling GPU eps search x pin pout (Some [r]) return_sorted return_padded).
Proof.
  intros eps D r rows ids pin crows cids pout cin a b feats1 feats2 feats F1 F2 F rs rp W G1 G2 G E search kde sums.
  split; [|split; [|split]].
  - intros cout mlps sizes act f w bs fw layer bw El Hc Ha Hb. unfold sums, search, kde; cbv beta.
    rewrite (C34_mcconv_partial_proof _ _ _ _ _ _ _ _ _ _ _ _ _ _ _ _ _ _ _ _ _ _ rs rp W El Hc Ha G1 Hb),
      (C34_mcconv_partial_proof _ _ _ _ _ _ _ _ _ _ _ _ _ _ _ _ _ _ _ _ _ _ rs rp W El Hc Ha G2 Hb),
      (C34_mcconv_partial_proof _ _ _ _ _ _ _ _ _ _ _ _ _ _ _ _ _ _ _ _ _ _ rs rp W El Hc Ha G Hb).
    apply superposed_tables. intros i o Hi Ho. rewrite Rplus_0_r. unfold mc_formula. exact (conv_linear a b D r rows ids crows cids i cin _ _ F1 F2 F _ E).
  - intros cout K interp wt kp w wo sph layer infl El Hc HK Hw. unfold sums, search, kde; cbv beta.
    destruct (C34_kpconv_partial_proof eps D r rows ids pin crows cids pout cin cout K false interp wt kp w wo sph layer feats1 F1 infl rs rp W El Hc HK Hw G1) as (s1 & E1 & _).
    destruct (C34_kpconv_partial_proof eps D r rows ids pin crows cids pout cin cout K false interp wt kp w wo sph layer feats2 F2 infl rs rp W El Hc HK Hw G2) as (s2 & E2 & _).
    destruct (C34_kpconv_partial_proof eps D r rows ids pin crows cids pout cin cout K false interp wt kp w wo sph layer feats F infl rs rp W El Hc HK Hw G) as (s3 & E3 & _).
    rewrite E1, E2, E3.
    assert (HB : forall (x : result feat) (s : kpstate), (o <- (o <- x ;; Ok (o, s)) ;; Ok (fst o)) = x) by (intros [x|x] s; reflexivity).
    rewrite !HB. apply superposed_tables. intros i o Hi Ho. rewrite Rplus_0_r. unfold kp_formula. exact (conv_linear a b D r rows ids crows cids i cin _ _ F1 F2 F _ E).
  - intros cout hidden act f axis bias w w1 b1 w2 b2 bw Hn Hc Hh Ha Hb. unfold sums, search, kde; cbv beta.
    set (dens := density D (repeat bw D) (repeat r D) rows ids).
    assert (Hm : forall i, i < length cids -> near_points D r rows ids crows cids i <> [] ->
       is_max (map dens (near_points D r rows ids crows cids i)) (red_max (map dens (near_points D r rows ids crows cids i)))).
    { intros i Hi Hne. apply dens_max; auto; [exact (wk_dim _ _ _ _ _ _ _ _ _ W)|exact (wk_radius _ _ _ _ _ _ _ _ _ W)|].
      apply Forall_forall. intros j Hj. eauto using near_lt. }
    rewrite (C34_pointconv_partial_proof eps D r rows ids pin crows cids pout cin cout hidden act f axis bias w w1 b1 w2 b2 feats1 F1 bw _ rs rp W Hn Hc Hh Ha G1 Hb Hm),
     (C34_pointconv_partial_proof eps D r rows ids pin crows cids pout cin cout hidden act f axis bias w w1 b1 w2 b2 feats2 F2 bw _ rs rp W Hn Hc Hh Ha G2 Hb Hm),
     (C34_pointconv_partial_proof eps D r rows ids pin crows cids pout cin cout hidden act f axis bias w w1 b1 w2 b2 feats F bw _ rs rp W Hn Hc Hh Ha G Hb Hm).
    apply superposed_tables. intros i o Hi Ho. rewrite Rplus_0_r. unfold pt_formula. exact (conv_linear a b D r rows ids crows cids i cin _ _ F1 F2 F _ E).
  - unfold sums, search, kde; cbv beta.
    destruct (C31_local_partial_proof eps D r rows ids pin crows cids pout [r] feats1 cin F1 rs rp W (or_introl eq_refl) G1) as (m1 & v1 & _ & A1 & V1).
    destruct (C31_local_partial_proof eps D r rows ids pin crows cids pout [r] feats2 cin F2 rs rp W (or_introl eq_refl) G2) as (m2 & v2 & _ & A2 & V2).
    destruct (C31_local_partial_proof eps D r rows ids pin crows cids pout [r] feats cin F rs rp W (or_introl eq_refl) G) as (m3 & v & _ & A & V).
    rewrite A1, A2, A. apply superposed_tables. intros i c Hi Hc. rewrite Rplus_0_r.
    specialize (V1 i c Hi Hc). specialize (V2 i c Hi Hc). specialize (V i c Hi Hc).
    pose proof (mean_linear a b (near_points D r rows ids crows cids i) (fun j => fval F1 j c) (fun j => fval F2 j c)) as M.
    assert (EM : map (fun j => fval F j c) (near_points D r rows ids crows cids i) =
                 map (fun j => a * fval F1 j c + b * fval F2 j c)%R (near_points D r rows ids crows cids i)).
    { apply map_ext_in. intros j Hj. apply E; eauto using near_lt. }
    cbv beta in M. rewrite <- EM in M. clear EM.
    destruct (near_points D r rows ids crows cids i) as [|j l]; cbn [map] in V1, V2, V, M.
    + destruct V1 as [_ ->], V2 as [_ ->], V as [_ ->]. ring.
    + destruct V1 as [_ ->], V2 as [_ ->], V as [_ ->]. exact M.
Qed.

(** C83, Conv1x1: the same up to the bias, which is added once. *)
Lemma C83_conv1x1_proof :
  forall p cin cout w bias layer a b feats1 feats2 feats F1 F2 F return_sorted return_padded,
    mk_conv1x1 cin cout w bias = Ok layer -> given feats1 p cin F1 -> given feats2 p cin F2 -> given feats p cin F ->
    combined (length (pts p)) cin a b F1 F2 F ->
    superposed p return_sorted return_padded (length (pts p)) cout a b (fun o => (1 - a - b) * bias [0%nat; o])%R
      (conv1x1_call layer feats1 p return_sorted return_padded) (conv1x1_call layer feats2 p return_sorted return_padded)
      (conv1x1_call layer feats p return_sorted return_padded).
Proof.
  intros p cin cout w bias layer a b feats1 feats2 feats F1 F2 F rs rp El G1 G2 G E.
  rewrite (C34_conv1x1_proof _ _ _ _ _ _ _ _ rs rp El G1), (C34_conv1x1_proof _ _ _ _ _ _ _ _ rs rp El G2), (C34_conv1x1_proof _ _ _ _ _ _ _ _ rs rp El G).
  apply superposed_tables. intros i o Hi Ho.
  assert (S : sum_over (seq 0 cin) (fun c => fval F i c * w [c; o])%R =
    (a * sum_over (seq 0 cin) (fun c => fval F1 i c * w [c; o]) + b * sum_over (seq 0 cin) (fun c => fval F2 i c * w [c; o]))%R).
  { rewrite <- sum_linear. apply sum_over_ext. intros c Hc. apply in_seq in Hc. rewrite (E i c) by lia. ring. }
  rewrite S. ring.
Qed.

Lemma exL_workable : workable (1#1000) 2 1 [[0#1;0#1]] [0] (seg 2 [[0#1;0#1]] [0] 1) [[0#1;0#1]] [0] (seg 2 [[0#1;0#1]] [0] 1).
Proof.
  constructor.
  - exists 1. split; [apply seg_cloud; repeat constructor|]. split; [repeat constructor|].
    exists [4%Z;4%Z]. split; [reflexivity|]. split; [vm_compute; discriminate|]. intros d Hd. destruct d as [|[|d]]; [| |lia]; (split; [cbn; lia|]);
    intros i j Hi Hj _; cbn in Hi, Hj;
    (destruct i as [|i]; [destruct j as [|j]; [vm_compute; discriminate|lia]|lia]).
  - exists 0%Q, 1. apply seg_cloud; repeat constructor.
  - lia.
  - reflexivity.
  - split; vm_compute; congruence.
  - split; [discriminate|vm_compute; reflexivity].
  - discriminate.
Qed.

Lemma exL_value f : (0 <= f <= 1)%R ->
  forall layer, mk_kpconv 1 1 1 2 true "linear" (Some (ttab [1; 2] (fun idx => match idx with [k; d] => (fun _ _ => 0%R) k d | _ => 0%R end)))
    (fun _ => Err ValueError) (fun _ => 1%R) (fun idx => match idx with [_; 0] => 1%R | _ => 0%R end) = Ok layer ->
  exists state, kpconv_call GPU (1#1000) (find_neighbors_tf GPU) layer (Feat 1 (inr [[f]])) (seg 2 [[0#1;0#1]] [0] 1) (seg 2 [[0#1;0#1]] [0] 1) 1 None None false false
    = Ok (Feat 1 (inr [[f * (1 - f)]%R]), state).
Proof.
  intros Hf layer El.
  assert (Hw : weighting "linear" (fun v s => Rmax 0 (1 - v / s))%R) by (left; split; reflexivity).
  assert (HG : given (Feat 1 (inr [[f]])) (seg 2 [[0#1;0#1]] [0] 1) 1 [[f]]) by (split; [reflexivity|split; reflexivity]).
  destruct (C34_kpconv_partial_proof (1#1000) 2 1 [[0#1;0#1]] [0] (seg 2 [[0#1;0#1]] [0] 1) [[0#1;0#1]] [0] (seg 2 [[0#1;0#1]] [0] 1) 1 1 1 true "linear" _ (fun _ _ => 0%R) _ _ _ layer
    (Feat 1 (inr [[f]])) [[f]] None false false exL_workable El (le_n 1) (le_n 1) Hw HG) as (state & E & _).
  exists state. rewrite E. unfold returned, format_output. cbn [snd bind]. f_equal. f_equal. f_equal. f_equal.
  unfold table. cbn [length seq map]. f_equal. f_equal.
  assert (En : near_points 2 1 [[0#1;0#1]] [0] [[0#1;0#1]] [0] 0 = [0]) by (vm_compute; reflexivity).
  assert (D0 : delta [[0#1;0#1]] [[0#1;0#1]] 0 0 0 = 0%R) by (unfold delta; ring).
  assert (D1 : delta [[0#1;0#1]] [[0#1;0#1]] 0 0 1 = 0%R) by (unfold delta; ring).
  assert (Q1 : Q2R 1 = 1%R) by (unfold Q2R; cbn; lra).
  unfold kp_formula, weighted_sum, norm, sum_over. cbn [seq map fold_right]. rewrite En. cbn [map fold_right]. rewrite D0, D1, Q1. unfold fval. cbn [nth].
  cbn [Nat.mul Nat.add].
  replace (sqrt ((0 / 1 - 0 * (3 / 4)) * (0 / 1 - 0 * (3 / 4)) + ((0 / 1 - 0 * (3 / 4)) * (0 / 1 - 0 * (3 / 4)) + 0)))%R with 0%R
    by (symmetry; replace (_ + _)%R with 0%R by field; apply sqrt_0).
  replace (Rmax 0 (1 - 0 / 1)) with 1%R by (symmetry; rewrite Rmax_right by lra; lra).
  match goal with |- context [sqrt ?x] => replace x with (f * f)%R by field end.
  rewrite sqrt_square by lra. rewrite Rmax_right by lra. lra.
Qed.

(** C83. A deformable KPConv is not linear: for one point and one kernel point in
    the middle, twice the features give 0 instead of twice the output 1/4. *)
Lemma C83_deformable_refuted_proof :
  exists layer state state2,
    mk_kpconv 1 1 1 2 true "linear" (Some (ttab [1; 2] (fun idx => match idx with [k; d] => (fun _ _ => 0%R) k d | _ => 0%R end)))
      (fun _ => Err ValueError) (fun _ => 1%R) (fun idx => match idx with [_; 0] => 1%R | _ => 0%R end) = Ok layer /\
    let cloud := seg 2 [[0#1;0#1]] [0] 1 in
    workable (1#1000) 2 1 [[0#1;0#1]] [0] cloud [[0#1;0#1]] [0] cloud /\
    kpconv_call GPU (1#1000) (find_neighbors_tf GPU) layer (Feat 1 (inr [[1 / 2]%R])) cloud cloud 1 None None false false
    = Ok (Feat 1 (inr [[1 / 4]%R]), state) /\
    kpconv_call GPU (1#1000) (find_neighbors_tf GPU) layer (Feat 1 (inr [[1]%R])) cloud cloud 1 None None false false
    = Ok (Feat 1 (inr [[0]%R]), state2).
Proof.
  eassert (El : mk_kpconv 1 1 1 2 true "linear" (Some (ttab [1; 2] (fun idx => match idx with [k; d] => (fun _ _ => 0%R) k d | _ => 0%R end)))
      (fun _ => Err ValueError) (fun _ => 1%R) (fun idx => match idx with [_; 0] => 1%R | _ => 0%R end) = Ok _) by reflexivity.
  destruct (exL_value (1/2) ltac:(lra) _ El) as (s1 & E1). destruct (exL_value 1 ltac:(lra) _ El) as (s2 & E2).
  eexists _, s1, s2. split; [exact El|]. split; [exact exL_workable|].
  rewrite E1, E2. split; [replace (1 / 2 * (1 - 1 / 2))%R with (1 / 4)%R by lra|replace (1 * (1 - 1))%R with 0%R by lra]; reflexivity.
Qed.

(** * Concrete cases *)
(** Twice the features minus the features in the other order of channels. *)
Definition exL_F : list (list R) := map (fun r => [2 * nth 0 r 0 - nth 1 r 0; 2 * nth 1 r 0 - nth 0 r 0]%R) exN_F.
Definition exL_swap : list (list R) := map (fun r => [nth 1 r 0; nth 0 r 0]%R) exN_F.
Example C83_superposition_partial_ex_proof :
  workable (1#1000) 2 1 exN_rows exN_ids (seg 2 exN_rows exN_ids 2) exN_centers exN_cids (seg 2 exN_centers exN_cids 2) /\
  given (Feat 2 (inr exN_F)) (seg 2 exN_rows exN_ids 2) 2 exN_F /\
  given (Feat 2 (inr exL_swap)) (seg 2 exN_rows exN_ids 2) 2 exL_swap /\
  given (Feat 2 (inr exL_F)) (seg 2 exN_rows exN_ids 2) 2 exL_F /\
  combined (length exN_ids) 2 2 (-1) exN_F exL_swap exL_F /\ fval exL_F 0 0 <> fval exN_F 0 0.
Proof.
  split; [exact exN_workable|]. split; [exact exN_given|]. split; [split; [reflexivity|split; reflexivity]|]. split; [split; [reflexivity|split; reflexivity]|].
  split.
  - intros j c Hj Hc. cbn in Hj. destruct c as [|[|c]]; [..|lia]; do 6 (destruct j as [|j]; [unfold fval; cbn [nth exL_F exL_swap exN_F map]; ring|]); lia.
  - unfold fval; cbn [nth exL_F exN_F map]. intros H. cbn in H. lra.
Qed.

Example C83_conv1x1_ex_proof :
  exists layer, mk_conv1x1 2 3 (fun idx => INR (hd 0 idx)) (fun _ => 1%R) = Ok layer /\
    given (Feat 2 (inr exN_F)) (seg 2 exN_rows exN_ids 2) 2 exN_F /\
    given (Feat 2 (inr exL_swap)) (seg 2 exN_rows exN_ids 2) 2 exL_swap /\
    given (Feat 2 (inr exL_F)) (seg 2 exN_rows exN_ids 2) 2 exL_F /\
    combined (length (pts (seg 2 exN_rows exN_ids 2))) 2 2 (-1) exN_F exL_swap exL_F.
Proof.
  destruct C83_superposition_partial_ex_proof as (_ & H1 & H2 & H3 & H4 & _). eexists. split; [reflexivity|]. auto.
Qed.
