(** Proofs about the regularization loss of a batch (C71). The statements are
    copied into PropertiesLoss.v. *)
From Coq Require Import String List Arith ZArith NArith QArith Reals Qreals Lia Lra Bool Permutation.
From Verif Require Import GpuBasis GpuPdf Cuda GpuGrid Tensor TensorFacts Spec SpecText TextFacts PointCloud SpecCloud PointCloudFacts QFacts Grid SpecGrid GridFacts
  Neighbors SpecNeighbors NeighborFacts NeighborProofs Neighborhood NeighborhoodFacts NeighborhoodProofs
  Sampling SpecSampling SamplingFacts SamplingProofs Hierarchy SpecHierarchy HierarchyFacts Pdf SpecPdf PdfFacts PdfProofs
  RTensor RTensorFacts Layers SpecLayers LayerFacts LayerLink LayerProofs ConvProofs MoveProofs BlockFacts
  SpecMatch MatchFacts SpecLayerMatch GpuBasisFacts GpuPdfProofs CudaLayers SpecCudaLayers CudaLayerProofs LayerMatchProofs SpecScale ScaleFacts ScaleProofs SpecLoss.
Import ListNotations.
Local Open Scope nat_scope.

(** The contribution of an output point: how far the points are from the kernel
    points, and how close the kernel points are to each other. *)
Definition point_loss (D : nat) (r : Q) rows ids crows cids (F : list (list R)) cin K (wt : R -> R -> R) (kp : nat -> nat -> R) wo (sigma : R) (i : nat) : R :=
  let start := fun (_ k d : nat) => (kp k d * (3 / 4))%R in
  let positions := fun i k d => (start i k d + kp_formula D r rows ids crows cids F cin K wo (fun v => wt v sigma) start r i (k * D + d)%nat)%R in
  (sum_over (seq 0 K) (fun k => fold_right Rmin (Q2R flt_max) (map (fun p =>
      (norm D (fun d => delta rows crows p i d / Q2R r - positions i k d) / sigma) ^ 2) (near_points D r rows ids crows cids i))) +
   sum_over (seq 0 K) (fun k => sum_over (seq 0 K) (fun k' =>
      if k =? k' then 0 else wt (norm D (fun d => positions i k' d - positions i k d)) sigma)))%R.

Lemma point_loss_match D s r t e e2 rows ids crows cids rows2 ids2 crows2 cids2 ps qs F F2 cin K wt kp wo sigma i i2 :
  (0 < s)%Q -> (0 < r)%Q ->
  scaled D s t e (rows, ids) e2 (rows2, ids2) ps -> scaled D s t e (crows, cids) e2 (crows2, cids2) qs -> rows_match ps F F2 ->
  In (i, i2) qs ->
  point_loss D r rows ids crows cids F cin K wt kp wo sigma i = point_loss D (s * r) rows2 ids2 crows2 cids2 F2 cin K wt kp wo sigma i2.
Proof.
  intros Hs Hr HU HL HF Hi.
  pose proof (scaled_similar D s t _ _ _ _ _ _ _ _ HU HL) as HS.
  pose proof (fun c => sc_kp D s r t e e2 (rows, ids) (crows, cids) (rows2, ids2) (crows2, cids2) ps qs F F2 Hs Hr HU HL HF cin K wo (fun v => wt v sigma)
    (fun _ k d => (kp k d * (3 / 4))%R) (fun _ k d => (kp k d * (3 / 4))%R) i i2 c Hi (fun k d _ _ => eq_refl)) as HK.
  cbn [fst snd] in HK. unfold point_loss. f_equal.
  - apply sum_over_ext. intros k Hk. apply rmin_perm.
    apply (sm_values D s e e2 (rows, ids) (crows, cids) (rows2, ids2) (crows2, cids2) ps qs Hs HS); [exact Hi|]. intros j j2 Hj.
    apply (f_equal (fun x => ((x / sigma) ^ 2)%R)). apply norm_ext. intros d Hd.
    rewrite <- HK. pose proof (sc_delta D s r t e e2 (rows, ids) (crows, cids) (rows2, ids2) (crows2, cids2) ps qs Hs Hr HU HL j j2 i i2 d Hj Hi Hd) as HD.
    cbn [fst snd] in HD. now rewrite HD.
  - apply sum_over_ext. intros k Hk. apply sum_over_ext. intros k' Hk'. destruct (k =? k'); [reflexivity|].
    apply (f_equal (fun x => wt x sigma)). apply norm_ext. intros d Hd. now rewrite <- !HK.
Qed.

(** A sum over the points is the sum over the elements of the sums over their
    points. *)
Lemma sum_split (es ids : list nat) (f : nat -> R) : NoDup es -> (forall i, i < length ids -> In (nth i ids 0) es) ->
  sum_over (seq 0 (length ids)) f = sum_over es (fun e => sum_over (members ids e) f).
Proof.
  intros Hnd Hin.
  assert (G : forall l, (forall i, In i l -> In (nth i ids 0) es) ->
    sum_over l f = sum_over es (fun e => sum_over (filter (fun j => nth j ids 0 =? e) l) f)).
  { induction l as [|i l IH]; intros Hl.
    - symmetry. apply (sum_over_0 es).
    - rewrite (sum_over_ext es _ (fun e => ((if nth i ids 0%nat =? e then f i else 0) + sum_over (filter (fun j => nth j ids 0%nat =? e) l) f)%R)).
      2:{ intros e _. cbn [filter]. destruct (nth i ids 0 =? e); [reflexivity|lra]. }
      rewrite sum_over_add, <- IH by (intros; apply Hl; now right). cbn [sum_over]. unfold sum_over at 1. cbn [map fold_right]. f_equal.
      specialize (Hl i (or_introl eq_refl)). clear -Hnd Hl. induction es as [|e es IH]; [contradiction|].
      inversion Hnd; subst. unfold sum_over. cbn [map fold_right]. fold (sum_over es (fun e => if nth i ids 0 =? e then f i else 0%R)).
      destruct (Nat.eqb_spec (nth i ids 0) e) as [E|E].
      + rewrite (sum_over_ext es _ (fun _ => 0%R)), sum_over_0; [lra|]. intros e' He'. destruct (Nat.eqb_spec (nth i ids 0) e') as [E'|E']; [|reflexivity].
        subst. contradiction.
      + destruct Hl as [Hl | Hl]; [congruence|]. rewrite <- IH; auto. lra. }
  apply G. intros i Hi. apply in_seq in Hi. apply Hin. lia.
Qed.

Lemma loss_pair rows ids crows cids rows2 ids2 crows2 cids2 D s r t e ps qs F F2 cin K wt kp wo sigma :
  (0 < s)%Q -> (0 < r)%Q ->
  scaled D s t e (rows, ids) 0 (rows2, ids2) ps -> scaled D s t e (crows, cids) 0 (crows2, cids2) qs -> rows_match ps F F2 ->
  Forall (fun x => x = 0) cids2 ->
  sum_over (members cids e) (point_loss D r rows ids crows cids F cin K wt kp wo sigma)
  = sum_over (seq 0 (length cids2)) (point_loss D (s * r) rows2 ids2 crows2 cids2 F2 cin K wt kp wo sigma).
Proof.
  intros Hs Hr HU HL HF H0. pose proof HL as ((P & P2) & _). cbn [snd] in P, P2.
  assert (E : members cids2 0 = seq 0 (length cids2)).
  { unfold members. rewrite (filter_ext_in _ (fun _ => true)); [induction (seq 0 (length cids2)); cbn; congruence|].
    intros j Hj. apply in_seq in Hj. apply Nat.eqb_eq. rewrite Forall_forall in H0. apply H0, nth_In. lia. }
  rewrite <- E, <- (sum_over_perm _ _ _ P), <- (sum_over_perm _ _ _ P2), !sum_over_rsum, !map_map. f_equal. apply map_ext_in.
  intros [i i2] Hi. exact (point_loss_match D s r t e 0 rows ids crows cids rows2 ids2 crows2 cids2 ps qs F F2 cin K wt kp wo sigma i i2 Hs Hr HU HL HF Hi).
Qed.

Lemma total_is D r cin cout K interpolation wt kp w wo spherical layer influence b :
  mk_kpconv cin cout K D true interpolation
    (Some (ttab [K; D] (fun idx => match idx with [k; d] => kp k d | _ => 0%R end))) spherical w wo = Ok layer ->
  0 < cin -> 0 < K -> weighting interpolation wt ->
  let sigma := match influence with None => 1%R | Some x => (x / Q2R r)%R end in
  let v := sum_over (seq 0 (length (i_cids b))) (point_loss D r (i_rows b) (i_ids b) (i_crows b) (i_cids b) (i_F b) cin K wt kp wo sigma) in
  fallback_loss layer D r influence cin b v /\
  ((cin < 8 \/ cin mod 8 = 0) -> K <= 64 -> cuda_loss layer D r influence cin b v).
Proof.
  intros El Hcin HK Hwt sigma v. split.
  - intros W Hg.
    destruct (C34_kpconv_partial_proof _ _ _ _ _ _ _ _ _ _ _ _ _ _ _ _ _ _ _ _ _ _ influence false false W El Hcin HK Hwt Hg) as (st & E & EL).
    do 2 eexists. split; [exact E|]. rewrite EL. apply (f_equal Ok). unfold v, point_loss. symmetry. apply sum_over_add.
  - intros H8 H64 active pactive bactive warp time Hdev W Hg.
    eapply (kpconv_runs active pactive bactive warp time (i_eps b)); [exact Hdev|exact W|exact El|split; [exact Hcin|exact H8]|split; [exact HK|exact H64]|exact Hwt|exact Hg|reflexivity|].
    intros st EL. rewrite EL. apply (f_equal Ok). unfold v, point_loss. symmetry. apply sum_over_add.
Qed.

(** C71. The regularization loss of a deformable KPConv layer for a batch is the
    sum, over the elements that have output points, of the losses for these clouds
    alone. The cloud of element [e] may be given in any order, translated, or
    multiplied by a positive number together with the radius and the influence
    distance. The losses are the same with the fallback and with the CUDA
    operations. *)
Lemma C71_loss_proof :
  forall D r cin cout K interpolation wt kernel_points w wo spherical layer influence b
         (s : nat -> Q) (t : nat -> nat -> Q) (c : nat -> conv_input),
    mk_kpconv cin cout K D true interpolation
      (Some (ttab [K; D] (fun idx => match idx with [k; d] => kernel_points k d | _ => 0%R end))) spherical w wo = Ok layer ->
    0 < cin -> 0 < K -> weighting interpolation wt -> (0 < r)%Q ->
    (forall e, In e (i_cids b) -> (0 < s e)%Q /\ only_element D (s e) (t e) e b (c e)) ->
    let cuda_sizes := (cin < 8 \/ cin mod 8 = 0) /\ K <= 64 in
    exists losses : nat -> R,
      let total := sum_over (nodup Nat.eq_dec (i_cids b)) losses in
      (fallback_loss layer D r influence cin b total /\
       (cuda_sizes -> cuda_loss layer D r influence cin b total)) /\
      forall e, In e (i_cids b) ->
        let influence_e := option_map (Rmult (Q2R (s e))) influence in
        fallback_loss layer D (s e * r) influence_e cin (c e) (losses e) /\
        (cuda_sizes -> cuda_loss layer D (s e * r) influence_e cin (c e) (losses e)).
Proof.
  intros D r cin cout K interpolation wt kp w wo spherical layer influence b s t c El Hcin HK Hwt Hr HC cuda_sizes.
  set (sigma := match influence with None => 1%R | Some x => (x / Q2R r)%R end).
  set (f := point_loss D r (i_rows b) (i_ids b) (i_crows b) (i_cids b) (i_F b) cin K wt kp wo sigma).
  exists (fun e => sum_over (members (i_cids b) e) f). cbv zeta.
  rewrite <- (sum_split (nodup Nat.eq_dec (i_cids b)) (i_cids b) f); [|apply NoDup_nodup|intros i Hi; apply nodup_In, nth_In, Hi].
  destruct (total_is D r cin cout K interpolation wt kp w wo spherical layer influence b El Hcin HK Hwt) as (H1 & H2). cbv zeta in H1, H2.
  split; [split; [exact H1|intros (H8 & H64); exact (H2 H8 H64)]|].
  intros e He. destruct (HC e He) as (Hs & ps & qs & HU & HL & HF & H0).
  destruct (total_is D (s e * r) cin cout K interpolation wt kp w wo spherical layer (option_map (Rmult (Q2R (s e))) influence) (c e) El Hcin HK Hwt) as (H3 & H4).
  cbv zeta in H3, H4. rewrite (sigma_scale (s e) r influence Hs Hr) in H3, H4. fold sigma in H3, H4.
  assert (E : sum_over (members (i_cids b) e) f
    = sum_over (seq 0 (length (i_cids (c e)))) (point_loss D (s e * r) (i_rows (c e)) (i_ids (c e)) (i_crows (c e)) (i_cids (c e)) (i_F (c e)) cin K wt kp wo sigma))
    by exact (loss_pair _ _ _ _ _ _ _ _ D (s e) r (t e) e ps qs _ _ cin K wt kp wo sigma Hs Hr HU HL HF H0).
  rewrite E. split; [exact H3|intros (H8 & H64); exact (H4 H8 H64)].
Qed.

(** Example: a batch of two clouds; the first one alone, and the second one alone
    in the other order, doubled and moved by (1, -2). *)
Definition ex71_batch : conv_input :=
  Input (1#1000) exN_rows exN_ids (seg 2 exN_rows exN_ids 2) exN_rows exN_ids (seg 2 exN_rows exN_ids 2) (Feat 2 (inr exN_F)) exN_F.
Definition ex71_first : list point := [[0#1;0#1];[1#2;1#2];[5#2;0#1];[3#1;3#1]].
Definition ex71_second : list point := [[14#5;-1#5];[2#1;-1#1]].
Definition ex71_F1 : list (list R) := [[1%R;2%R];[3%R;4%R];[5%R;6%R];[7%R;8%R]].
Definition ex71_F2 : list (list R) := [[11%R;12%R];[9%R;10%R]].
Definition ex71_alone (e : nat) : conv_input :=
  match e with
  | 0 => Input (1#1000) ex71_first [0;0;0;0] (seg 2 ex71_first [0;0;0;0] 1) ex71_first [0;0;0;0] (seg 2 ex71_first [0;0;0;0] 1) (Feat 2 (inr ex71_F1)) ex71_F1
  | _ => Input (1#1000) ex71_second [0;0] (seg 2 ex71_second [0;0] 1) ex71_second [0;0] (seg 2 ex71_second [0;0] 1) (Feat 2 (inr ex71_F2)) ex71_F2
  end.
Definition ex71_scale (e : nat) : Q := match e with 0 => 1 | _ => 2#1 end.
Definition ex71_move (e d : nat) : Q := match e with 0 => 0 | _ => nth d [1#1; -2#1] 0%Q end.
Lemma ex71_first_workable : workable (1#1000) 2 (1 * 1) ex71_first [0;0;0;0] (seg 2 ex71_first [0;0;0;0] 1) ex71_first [0;0;0;0] (seg 2 ex71_first [0;0;0;0] 1).
Proof.
  constructor.
  - exists 1. split; [apply seg_cloud; repeat constructor|]. split; [repeat constructor|].
    exists [5%Z;5%Z]. split; [reflexivity|]. split; [vm_compute; discriminate|]. intros d Hd. destruct d as [|[|d]]; [| |lia]; (split; [cbn; lia|]);
    intros i j Hi Hj _; cbn in Hi, Hj;
    do 4 (destruct i as [|i]; [do 4 (destruct j as [|j]; [vm_compute; discriminate|]); lia|]); lia.
  - exists (1#1000), 1. apply seg_cloud; repeat constructor.
  - lia.
  - reflexivity.
  - split; vm_compute; congruence.
  - split; [discriminate|vm_compute; reflexivity].
  - discriminate.
Qed.
Lemma ex71_second_workable : workable (1#1000) 2 ((2#1) * 1) ex71_second [0;0] (seg 2 ex71_second [0;0] 1) ex71_second [0;0] (seg 2 ex71_second [0;0] 1).
Proof.
  constructor.
  - exists 1. split; [apply seg_cloud; repeat constructor|]. split; [repeat constructor|].
    exists [3%Z;3%Z]. split; [reflexivity|]. split; [vm_compute; discriminate|]. intros d Hd. destruct d as [|[|d]]; [| |lia]; (split; [cbn; lia|]);
    intros i j Hi Hj _; cbn in Hi, Hj;
    do 2 (destruct i as [|i]; [do 2 (destruct j as [|j]; [vm_compute; discriminate|]); lia|]); lia.
  - exists (1#1000), 1. apply seg_cloud; repeat constructor.
  - lia.
  - reflexivity.
  - split; vm_compute; congruence.
  - split; [discriminate|vm_compute; reflexivity].
  - discriminate.
Qed.
Lemma ex71_only e : In e exN_ids -> (0 < ex71_scale e)%Q /\ only_element 2 (ex71_scale e) (ex71_move e) e ex71_batch (ex71_alone e).
Proof.
  intros He. assert (H : e = 0 \/ e = 1) by (cbn in He; intuition lia). clear He. destruct H as [-> | ->].
  - split; [reflexivity|]. exists [(0,0);(1,1);(2,2);(3,3)], [(0,0);(1,1);(2,2);(3,3)].
    assert (S : scaled 2 1 (ex71_move 0) 0 (exN_rows, exN_ids) 0 (ex71_first, [0;0;0;0]) [(0,0);(1,1);(2,2);(3,3)]).
    { split; [split; reflexivity|]. intros i j d [E|[E|[E|[E|[]]]]] Hd; injection E as <- <-; (destruct d as [|[|d]]; [vm_compute; reflexivity..|lia]). }
    split; [exact S|]. split; [exact S|]. split; [|repeat constructor].
    intros i j [E|[E|[E|[E|[]]]]]; injection E as <- <-; reflexivity.
  - split; [reflexivity|]. exists [(4,1);(5,0)], [(4,1);(5,0)].
    assert (S : scaled 2 (2#1) (ex71_move 1) 1 (exN_rows, exN_ids) 0 (ex71_second, [0;0]) [(4,1);(5,0)]).
    { split; [split; [reflexivity|apply perm_swap]|]. intros i j d [E|[E|[]]] Hd; injection E as <- <-; (destruct d as [|[|d]]; [vm_compute; reflexivity..|lia]). }
    split; [exact S|]. split; [exact S|]. split; [|repeat constructor].
    intros i j [E|[E|[]]]; injection E as <- <-; reflexivity.
Qed.
Example C71_loss_ex_proof :
  exists layer loss0 loss1,
    mk_kpconv 2 4 9 2 true "linear" (Some (ttab [9; 2] (fun idx => match idx with [k; d] => (fun k d => INR (k + d)) k d | _ => 0%R end)))
      (fun _ => Err ValueError) (fun idx => INR (hd 0 idx)) (fun idx => INR (hd 0 idx)) = Ok layer /\
    (exists o state,
       kpconv_call GPU (1#1000) (find_neighbors_tf GPU) layer (Feat 2 (inr exN_F)) (seg 2 exN_rows exN_ids 2) (seg 2 exN_rows exN_ids 2) 1 None None false false = Ok (o, state) /\
       regularization_loss GPU layer state = Ok (loss0 + loss1)%R) /\
    (exists o state,
       kpconv_call GPU (1#1000) (find_neighbors_tf GPU) layer (Feat 2 (inr ex71_F1)) (seg 2 ex71_first [0;0;0;0] 1) (seg 2 ex71_first [0;0;0;0] 1) 1 None None false false = Ok (o, state) /\
       regularization_loss GPU layer state = Ok loss0) /\
    (exists o state,
       kpconv_call GPU (1#1000) (find_neighbors_tf GPU) layer (Feat 2 (inr ex71_F2)) (seg 2 ex71_second [0;0] 1) (seg 2 ex71_second [0;0] 1) (2#1) None None false false = Ok (o, state) /\
       regularization_loss GPU layer state = Ok loss1).
Proof.
  assert (El : exists layer, mk_kpconv 2 4 9 2 true "linear" (Some (ttab [9; 2] (fun idx => match idx with [k; d] => (fun k d => INR (k + d)) k d | _ => 0%R end)))
      (fun _ => Err ValueError) (fun idx => INR (hd 0 idx)) (fun idx => INR (hd 0 idx)) = Ok layer) by (eexists; reflexivity).
  destruct El as (layer & El).
  destruct (C71_loss_proof 2 1 2 4 9 "linear" (fun v s => Rmax 0 (1 - v / s))%R (fun k d => INR (k + d)) (fun idx => INR (hd 0 idx)) (fun idx => INR (hd 0 idx))
    (fun _ => Err ValueError) layer None ex71_batch ex71_scale ex71_move ex71_alone El ltac:(lia) ltac:(lia) (or_introl (conj eq_refl eq_refl)) eq_refl ex71_only)
    as (losses & (Hb & _) & He).
  exists layer, (losses 0), (losses 1). split; [exact El|]. split; [|split].
  - assert (E : sum_over (nodup Nat.eq_dec (i_cids ex71_batch)) losses = (losses 0%nat + losses 1%nat)%R) by (cbn; lra).
    rewrite E in Hb. exact (Hb exN_self exN_given).
  - assert (I : In 0 exN_ids) by (left; reflexivity). destruct (He 0 I) as (H & _).
    refine (H ex71_first_workable _). split; [reflexivity|]. split; reflexivity.
  - assert (I : In 1 exN_ids) by (do 4 right; left; reflexivity). destruct (He 1 I) as (H & _).
    refine (H ex71_second_workable _). split; [reflexivity|]. split; reflexivity.
Qed.
