(** Proofs of the properties of the network of modelnet40_small.py with the CUDA
    operations (C65). The statements are copied into PropertiesCudaNetwork.v. *)
From Coq Require Import String List Arith ZArith NArith QArith Reals Qreals Lia Lra Bool Permutation.
From Verif Require Import GpuBasis GpuPdf Cuda GpuGrid Tensor TensorFacts Spec SpecText TextFacts PointCloud SpecCloud PointCloudFacts QFacts Grid SpecGrid GridFacts
  Neighbors SpecNeighbors NeighborFacts NeighborProofs Neighborhood NeighborhoodFacts NeighborhoodProofs
  Sampling SpecSampling SamplingFacts SamplingProofs Hierarchy SpecHierarchy HierarchyFacts HierarchyProofs LevelFacts CloudProofs Pdf SpecPdf PdfFacts PdfProofs
  RTensor RTensorFacts Kernels KernelProofs Layers SpecLayers LayerFacts LayerLink LayerProofs ConvProofs Blocks SpecBlocks BlockFacts BlockProofs
  Classifier SpecClassifier ClassifierFacts LastLevelFacts ClassifierProofs GpuNeighbors GpuSampling
  CudaLayers SpecCudaLayers CudaNetwork SpecCudaNetwork CudaHierarchyProofs CudaNetFacts.
Import ListNotations.
Local Open Scope nat_scope.

(** ** The loop *)
Section Small.
  Context (active : kernel -> nat) (pactive bactive warp : nat) (time : N).
  Context (eps : Q) (B : nat) (sizes : list nat) (h : hierarchy) (levels : list batch).
  Context (fs : list nat) (rs cs : list Q) (name mode : string) (t : conv_type) (vars : nat -> conv_vars) (ow ob : nat -> list nat -> R).
  Context (net : small_net) (bn : nat -> mat -> mat).
  Context (Hdev : device_ok active pactive bactive warp).
  Context (Hnet : mk_small fs rs cs name mode vars ow ob = Ok net) (Hn : conv_named name t).
  Context (Hpos : forall i, i < length rs -> cuda_channels (nth i fs 0)) (Hlast : 0 < nth (length rs) fs 0) (Hbn : forall k, keeps_shape (bn k)).
  Context (HL : length levels = S (length rs)) (Hcs : length cs = length rs) (Hrad : Forall (fun r => (0 < r)%Q) cs).
  Context (Hlev : forall i b, nth_error levels i = Some b ->
    exists q, nth_error (hclouds h) i = Some q /\ cuda_level (scan_limit active warp) eps B sizes b q).

  Notation chans := (fun i => nth i fs 0).
  Notation conv := (fun i r up lo X => cuda_formula t 4 8 (vars i) (nth i fs 0) (nth (S i) fs 0) r up lo X).
  Notation post := (small_post bn chans ow ob).

  Lemma small_loop_gpu_ok (P : feat -> Prop) : forall k i x F up pin, i + S k = length rs -> nth_error levels i = Some up ->
    nth_error (hclouds h) i = Some pin -> cuda_level (scan_limit active warp) eps B sizes up pin -> given x pin (nth i fs 0) F ->
    (forall bottom, nth_error levels (length rs) = Some bottom ->
      matrix (length (snd bottom)) (nth (length rs) fs 0) (encoded conv post i (skipn i cs) up (skipn (S i) levels) F) ->
      P (Feat (nth (length rs) fs 0) (inr (by_element B (snd bottom) (encoded conv post i (skipn i cs) up (skipn (S i) levels) F))))) ->
    small_loop_gpu active pactive bactive warp time eps net bn h (seq i (S k)) x P.
  Proof using All.
    pose proof (mk_small_inv _ _ _ _ _ _ _ _ _ Hnet) as (N1 & N2 & N3 & N4 & N5 & N6 & N7 & N8 & N9). cbv zeta in *.
    assert (Hp : forall i, i <= length rs -> 0 < nth i fs 0).
    { intros i Hi. destruct (Nat.eq_dec i (length rs)) as [->|e]; [exact Hlast|]. apply (Hpos i). lia. }
    induction k as [|k IH]; intros i x F up pin Hi Eu Ep Lu Hg HP.
    all: destruct (N9 i ltac:(lia)) as (c & Ec & El & Ho).
    all: destruct (nth_error levels (S i)) as [lo|] eqn:Elo; [|apply nth_error_None in Elo; lia].
    all: destruct (Hlev (S i) lo Elo) as (pout & Eq & Lo).
    all: destruct (nth_error cs i) as [r|] eqn:Er; [|apply nth_error_None in Er; lia].
    all: assert (Rp : (0 < r)%Q) by (rewrite Forall_forall in Hrad; exact (Hrad r (nth_error_In _ _ Er))).
    all: pose proof (cuda_level_work _ eps B sizes up lo pin pout r Lu Lo Rp) as W.
    all: assert (Hin : item fs i = Ok (nth i fs 0) /\ item fs (i + 1) = Ok (nth (S i) fs 0)).
    all: try (replace (i + 1) with (S i) in * by lia; destruct (item fs i) as [a|ea] eqn:Ea; destruct (item fs (S i)) as [b|eb] eqn:Eb;
      try (exfalso; destruct Hn as [[-> _]|[[-> _]|[-> _]]]; discriminate);
      apply item_inv in Ea; apply item_inv in Eb; destruct Ea as [_ ->]; destruct Eb as [_ ->]; split; reflexivity).
    all: destruct Hin as [Ei Eo]; pose proof (Hpos i ltac:(lia)) as Pi; pose proof (Hp (S i) ltac:(lia)) as Po; replace (i + 1) with (S i) in * by lia.
    all: rewrite Ei, Eo in El.
    all: match goal with |- context [small_loop_gpu _ _ _ _ _ _ _ _ _ (seq ?a (S ?m)) _] => change (seq a (S m)) with (a :: seq (S a) m) end.
    all: cbn [small_loop_gpu]; exists c; (split; [unfold conv_item; rewrite (item_ok _ _ _ Ec); reflexivity|]).
    all: exists pin; (split; [unfold h_getitem; rewrite py_nth_nat, Ep; reflexivity|]).
    all: exists pout; (split; [unfold h_getitem; replace (Z.of_nat i + 1)%Z with (Z.of_nat (S i)) by lia; rewrite py_nth_nat, Eq; reflexivity|]).
    all: exists r; (split; [rewrite N3; exact (item_ok _ _ _ Er)|]); rewrite N1.
    all: rewrite (skipn_nth cs i r Er), (skipn_nth levels (S i) lo Elo) in HP; cbn [encoded] in HP.
    all: pose proof (fun srt out P' => script_conv_gpu_ok active pactive bactive warp time eps name t 4 8 _ _ (vars i) c r up lo pin pout x F srt out P'
      Hdev Hn El W (cl_limit _ _ _ _ _ _ Lu) ltac:(cbn; tauto) Pi Po Hg) as Hconv.
    - destruct (Z.ltb_spec (Z.of_nat i) (Z.of_nat (length rs) - 1)); [lia|].
      assert (Es : S i = length rs) by lia. rewrite (skipn_all2 levels) in HP by lia.
      eapply Hconv; [|apply (HP lo)].
      + rewrite (returned_sorted eps 3 (fst lo) (snd lo) B pout) by (try apply Lo; apply (proj1 (cuda_formula_matrix _ _ _ _ _ _ _ _ _ _))). rewrite <- Es. reflexivity.
      + rewrite <- Es. exact Elo.
      + rewrite <- Es. apply cuda_formula_matrix.
    - destruct (Z.ltb_spec (Z.of_nat i) (Z.of_nat (length rs) - 1)); [|lia].
      eapply Hconv; [apply (returned_rows pout (length (snd lo))), cuda_formula_matrix|].
      destruct (Ho ltac:(lia)) as (n & o & En & En' & Eo').
      rewrite Eo in En'. apply ok_inj in En'. subst n.
      pose proof (ic_len _ _ _ _ _ _ _ (cloud_is _ _ _ _ _ _ _ (cl_cloud _ _ _ _ _ _ Lo))) as Ll.
      pose proof (ic_pts _ _ _ _ _ _ _ (cloud_is _ _ _ _ _ _ _ (cl_cloud _ _ _ _ _ _ Lo))) as Lp.
      assert (M1 : matrix (length (snd lo)) (nth (S i) fs 0) (activated (bn (i * 2)) (cuda_formula t 4 8 (vars i) (nth i fs 0) (nth (S i) fs 0) r up lo F)))
        by (apply activated_keeps; [apply Hbn|apply cuda_formula_matrix]).
      eexists. split.
      { rewrite activated_ok. cbn [bind]. unfold one_item. rewrite (item_ok _ _ _ En). cbn [bind].
        rewrite (conv1x1_ok (length (snd lo)) _ _ (ow i) (ob i) o) by (first [eassumption|rewrite Lp; exact Ll]). cbn [bind]. rewrite activated_ok. reflexivity. }
      destruct (skipn (S (S i)) levels) as [|lo2 rest] eqn:Erest.
      { exfalso. apply (f_equal (@length batch)) in Erest. rewrite skipn_length in Erest. cbn in Erest. lia. }
      rewrite <- Erest in HP.
      replace (activated (bn (i * 2 + 1)) (affine (length (snd lo)) (nth (S i) fs 0) (nth (S i) fs 0) (ow i) (ob i)
          (activated (bn (i * 2)) (cuda_formula t 4 8 (vars i) (nth i fs 0) (nth (S i) fs 0) r up lo F))))
        with (post i (length (snd lo)) (cuda_formula t 4 8 (vars i) (nth i fs 0) (nth (S i) fs 0) r up lo F))
        by (unfold small_post; now rewrite (Nat.mul_comm i 2)).
      apply (IH (S i) _ (post i (length (snd lo)) (cuda_formula t 4 8 (vars i) (nth i fs 0) (nth (S i) fs 0) r up lo F)) lo pout); auto; [lia|].
      apply (given_rows (length (snd lo))); [|rewrite Lp; exact Ll].
      unfold small_post. apply activated_keeps; [apply Hbn|apply affine_matrix].
  Qed.
End Small.

Lemma input_ids limit eps B V points sizes radii mode : cuda_input limit eps B V points sizes radii mode -> ids_of_sizes sizes <> [].
Proof.
  intros [_ [S1 S2] HB _ _ _ _]. pose proof (ids_nonempty sizes B S1) as H. intros E. rewrite E in H.
  apply (H ltac:(eapply Forall_impl; [|exact S2]; cbn; lia) 0). lia.
Qed.

(** The last level keeps one point per element if its radius exceeds the
    elements. *)
Lemma one_row {A} (a : A) mode eps rs r B rows ids data bottom (X : list A) : (0 < eps)%Q -> Forall (fun r => (0 < r)%Q) rs -> length rows = length ids -> ids <> [] ->
  chain (next_level mode eps 3) (map (fun r => repeat r 3) rs) ((rows, ids) :: data) ->
  nth_error rs (length rs - 1) = Some r -> one_sample mode eps r (rows, ids) -> nth_error ((rows, ids) :: data) (length rs) = Some bottom ->
  Forall (fun b => b < B) (snd bottom) -> all_nonempty B (snd bottom) -> length X = length (snd bottom) ->
  length (snd bottom) = B /\ forall b, b < B -> exists k, k < B /\ nth k (snd bottom) 0 = b /\ nth b (concat (map (fun b => element b X (snd bottom)) (seq 0 B))) a = nth k X a.
Proof.
  intros He Hr Hl Hne Hch Er Hone Eb HB HN HX.
  assert (Rp : (0 < r)%Q) by (rewrite Forall_forall in Hr; exact (Hr r (nth_error_In _ _ Er))).
  assert (Hpos : 0 < length rs) by (destruct rs; [discriminate|cbn; lia]).
  destruct (nth_error ((rows, ids) :: data) (length rs - 1)) as [up|] eqn:Eup.
  2:{ apply nth_error_None in Eup. assert (length rs < length ((rows, ids) :: data)) by (apply nth_error_Some; congruence). lia. }
  assert (ND : NoDup (snd bottom)).
  { apply (last_single mode eps 3 rs r rows ids data up bottom He Rp Hl Hne Hch eq_refl ltac:(lia)) with (k := length rs - 1); auto.
    replace (S (length rs - 1)) with (length rs) by lia. exact Eb. }
  pose proof (distinct_ids B _ ND HB HN) as Eln. split; [exact Eln|]. intros b Hb'.
  destruct (elements_single a B X (snd bottom) ND HB HN HX b Hb') as (k & K1 & K2 & K3).
  exists k. split; [rewrite Eln in K1; exact K1|]. split; [exact K2|exact K3].
Qed.

(** The call, for every postcondition. *)
Lemma small_runs :
  forall active sactive pactive bactive warp time eps B V points sizes feature_sizes sample_radii conv_radii name t mode vars ow ob net bn drop dw db features (P : feat -> Prop),
    let L := length sample_radii in
    let chans := fun i => nth i feature_sizes 0 in
    let u1 := nth (length feature_sizes - 2) feature_sizes 0 in
    let u2 := nth (length feature_sizes - 1) feature_sizes 0 in
    let input := (valid_rows sizes V points, ids_of_sizes sizes) in
    device_samples active sactive pactive bactive warp ->
    cuda_input (scan_limit active warp) eps B V points sizes sample_radii mode -> 0 < L ->
    length conv_radii = L -> Forall (fun r => (0 < r)%Q) conv_radii -> conv_named name t ->
    (forall i, i < L -> cuda_channels (chans i)) -> 0 < chans L ->
    mk_small feature_sizes sample_radii conv_radii name mode vars ow ob = Ok net ->
    (forall k, keeps_shape (bn k)) -> (forall k, keeps_shape (drop k)) ->
    length features = B * V -> Forall (fun row => length row = chans 0) features ->
    (forall out,
      (exists data, chain (next_level mode eps 3) (map (fun r => repeat r 3) sample_radii) (input :: data) /\
        let bottom := snd (last data input) in
        let conv := fun i r up lo X => cuda_formula t 4 8 (vars i) (chans i) (chans (S i)) r up lo X in
        let features_below := encoded conv (small_post bn chans ow ob) 0 conv_radii input data (rows_for V (snd input) features) in
        let encoding := by_element B bottom features_below in
        let logits := dense_head (fun X => drop 0 (activated (bn (2 * L - 2)) X)) (fun X => drop 1 (activated (bn (2 * L - 1)) X))
          dw db (length bottom) (chans L) u1 u2 encoding in
        matrix (length bottom) u2 logits /\ all_nonempty B bottom /\
        (forall r, nth_error sample_radii (L - 1) = Some r -> one_sample mode eps r input ->
           length bottom = B /\
           forall b, b < B -> exists k, k < B /\ nth k bottom 0 = b /\ nth b encoding [] = nth k features_below []) /\
        out = Feat u2 (inr logits)) ->
      P out) ->
    small_call_gpu active sactive pactive bactive warp time eps net bn drop dw db B
      (Padded [B] V points) (Feat (chans 0) (inl (Padded [B] V features))) sizes P.
Proof.
  intros active sactive pactive bactive warp time eps B V points sizes fs rs cs name t mode vars ow ob net bn drop dw db features P L chans u1 u2 input
    Hdev Hb HL Hc1 Hc2 Hn Hpos Hlast Hnet Hbn Hdr Hf1 Hf2 HP.
  pose proof (mk_small_inv _ _ _ _ _ _ _ _ _ Hnet) as (N1 & N2 & N3 & N4 & N5 & N6 & N7 & N8 & N9). cbv zeta in *. fold L in N1, N5, N9.
  unfold small_call_gpu. rewrite N2, N4.
  eapply script_hierarchy_gpu_ok; [exact Hdev|exact Hb|]. intros h data levels Hch Hil Hlen Hlev. fold input in levels. subst levels.
  assert (Hll : length (input :: data) = S L).
  { pose proof (chain_length _ _ _ Hch) as Y. rewrite map_length in Y. exact Y. }
  destruct (Hlev 0 input eq_refl) as (q0 & Eq0 & L0).
  assert (Hg : given (Feat (chans 0) (inl (Padded [B] V features))) q0 (nth 0 fs 0) (rows_for V (snd input) features)).
  { apply (cuda_given (scan_limit active warp) eps B sizes); auto; [apply Hb|]. eapply Forall_impl; [|apply (ci_sizes _ _ _ _ _ _ _ _ Hb)]. cbn. lia. }
  rewrite N1. replace L with (S (L - 1)) at 1 by lia.
  eapply (small_loop_gpu_ok active pactive bactive warp time eps B sizes h (input :: data) fs rs cs name mode t vars ow ob net bn (proj1 Hdev) Hnet Hn Hpos Hlast Hbn Hll Hc1 Hc2 Hlev
    _ (L - 1) 0 _ _ input q0 ltac:(fold L; lia) eq_refl Eq0 L0 Hg). intros bottom Ebot M.
  assert (Eb : last data input = bottom).
  { pose proof (last_nth data input) as H1. cbn [length] in Hll. replace (length data) with (length rs) in H1 by (fold L; lia).
    assert (X : Some (last data input) = Some bottom) by (rewrite <- H1; exact Ebot). now injection X. }
  cbn [skipn] in M |- *.
  destruct (Hlev _ _ Ebot) as (qb & _ & Lb). pose proof (ic_ids _ _ _ _ _ _ _ (cloud_is _ _ _ _ _ _ _ (cl_cloud _ _ _ _ _ _ Lb))) as HB.
  pose proof (by_element_matrix B (snd bottom) _ _ _ eq_refl HB M) as M'.
  eexists. split.
  { rewrite N5, N6, N7. replace (2 * (L - 1) + 2 - 2) with (2 * L - 2) by lia. replace (2 * (L - 1) + 2 - 1) with (2 * L - 1) by lia.
    exact (head_ok _ _ _ _ _ _ _ dw db _ _ (Hbn _) (Hbn _) (Hdr 0) (Hdr 1) M' eq_refl). }
  apply HP. exists data. split; [exact Hch|]. rewrite Eb. cbv zeta.
  split; [apply affine_matrix|]. split; [apply Lb|]. split; [|reflexivity].
  intros r Er Hone.
  exact (one_row [] mode eps rs r B (fst input) (snd input) data bottom _ (ci_eps _ _ _ _ _ _ _ _ Hb) (ci_radii _ _ _ _ _ _ _ _ Hb) Hil (input_ids _ _ _ _ _ _ _ _ Hb)
    Hch Er Hone Ebot HB (cl_all _ _ _ _ _ _ Lb) (proj1 M)).
Qed.

(** C65. The logits of the small network with the CUDA operations, for every
    device and every interleaving of the threads: those of C58, with a
    hierarchy as in C64 and the convolutions of C55. A batch of one cloud is
    allowed and there is no condition on the number of cells or on the order of
    the radii. *)
Lemma C65_small_partial_proof :
  forall active sactive pactive bactive warp time eps B V points sizes feature_sizes sample_radii conv_radii name t mode vars ow ob net bn drop dw db features,
    let L := length sample_radii in
    let chans := fun i => nth i feature_sizes 0 in
    let u1 := nth (length feature_sizes - 2) feature_sizes 0 in
    let u2 := nth (length feature_sizes - 1) feature_sizes 0 in
    let input := (valid_rows sizes V points, ids_of_sizes sizes) in
    device_samples active sactive pactive bactive warp ->
    cuda_input (scan_limit active warp) eps B V points sizes sample_radii mode -> 0 < L ->
    length conv_radii = L -> Forall (fun r => (0 < r)%Q) conv_radii -> conv_named name t ->
    (forall i, i < L -> cuda_channels (chans i)) -> 0 < chans L ->
    mk_small feature_sizes sample_radii conv_radii name mode vars ow ob = Ok net ->
    (forall k, keeps_shape (bn k)) -> (forall k, keeps_shape (drop k)) ->
    length features = B * V -> Forall (fun row => length row = chans 0) features ->
    small_call_gpu active sactive pactive bactive warp time eps net bn drop dw db B
      (Padded [B] V points) (Feat (chans 0) (inl (Padded [B] V features))) sizes (fun out =>
      exists data, chain (next_level mode eps 3) (map (fun r => repeat r 3) sample_radii) (input :: data) /\
        let bottom := snd (last data input) in
        let conv := fun i r up lo X => cuda_formula t 4 8 (vars i) (chans i) (chans (S i)) r up lo X in
        let features_below := encoded conv (small_post bn chans ow ob) 0 conv_radii input data (rows_for V (snd input) features) in
        let encoding := by_element B bottom features_below in
        let logits := dense_head (fun X => drop 0 (activated (bn (2 * L - 2)) X)) (fun X => drop 1 (activated (bn (2 * L - 1)) X))
          dw db (length bottom) (chans L) u1 u2 encoding in
        matrix (length bottom) u2 logits /\ all_nonempty B bottom /\
        (forall r, nth_error sample_radii (L - 1) = Some r -> one_sample mode eps r input ->
           length bottom = B /\
           forall b, b < B -> exists k, k < B /\ nth k bottom 0 = b /\ nth b encoding [] = nth k features_below []) /\
        out = Feat u2 (inr logits)).
Proof. intros. eapply small_runs; eauto. Qed.

(** ** Concrete cases: one cloud with two valid points, padded to three rows,
    which the fallback cannot sample to one point; radii 1 and 4. *)
Definition ex65_points : list point := [[0;0;0]; [2#1;0;0]; [9#1;9#1;9#1]]%Q.
Lemma ex65_input active warp radii : In radii [[1#1; 4#1]; [4#1]]%Q -> cuda_input (scan_limit active warp) (1#1000) 1 3 ex65_points [2] radii "poisson disk".
Proof.
  intros Hr. constructor.
  - split; [reflexivity|repeat constructor].
  - split; [reflexivity|]. constructor; [lia|constructor].
  - lia.
  - left. apply means_poisson. cbn; tauto.
  - reflexivity.
  - apply Nat.le_trans with (2 ^ 8 * 2); [apply Nat.leb_le; reflexivity|apply Nat.le_add_r].
  - destruct Hr as [<-|[<-|[]]]; repeat (constructor; [reflexivity|]); constructor.
Qed.
Lemma ex65_one : one_sample "poisson disk" (1#1000) (4#1) (valid_rows [2] 3 ex65_points, ids_of_sizes [2]).
Proof.
  left. split; [apply means_poisson; cbn; tauto|]. intros i j Hi Hj E. change (i < 2) in Hi. change (j < 2) in Hj.
  do 2 (destruct i as [|i]; [do 2 (destruct j as [|j]; [first [discriminate E|reflexivity]|]); lia|]). lia.
Qed.

(** One row of logits, for every device and every schedule. *)
Example C65_small_partial_ex_proof :
  forall active sactive pactive bactive warp time, device_samples active sactive pactive bactive warp ->
    cuda_input (scan_limit active warp) (1#1000) 1 3 ex65_points [2] [1#1; 4#1]%Q "poisson disk" /\
    one_sample "poisson disk" (1#1000) (4#1) (valid_rows [2] 3 ex65_points, ids_of_sizes [2]) /\
    forall vars ow ob dw db f, exists net,
      mk_small [1; 8; 8; 8; 3] [1#1; 4#1]%Q [1#1; 4#1]%Q "MCConv" "poisson disk" vars ow ob = Ok net /\
      small_call_gpu active sactive pactive bactive warp time (1#1000) net (fun _ X => X) (fun _ X => X) dw db 1
        (Padded [1] 3 ex65_points) (Feat 1 (inl (Padded [1] 3 (table 3 1 f)))) [2] (fun out =>
        exists logits, out = Feat 3 (inr logits) /\ length logits = 1).
Proof.
  intros active sactive pactive bactive warp time Hdev. pose proof (ex65_input active warp _ (or_introl eq_refl)) as Hb.
  split; [exact Hb|]. split; [exact ex65_one|]. intros vars ow ob dw db f.
  destruct (ex58_net _ _ "poisson disk" vars ow ob (or_intror (or_introl eq_refl))) as (net & En). exists net. split; [exact En|].
  assert (Hk : keeps_shape (fun X => X)) by (intros n c X HX; exact HX).
  apply (small_runs active sactive pactive bactive warp time _ _ _ _ _ [1; 8; 8; 8; 3] _ _ _ TMC _ vars ow ob net (fun _ X => X) (fun _ X => X) dw db (table 3 1 f) _ Hdev
    Hb ltac:(cbn; lia) eq_refl ltac:(repeat (constructor; [reflexivity|]); constructor) (or_introl (conj eq_refl eq_refl))
    ltac:(intros [|[|i]] Hi; cbn in *; [split; [lia|left; lia]|split; [lia|right; reflexivity]|lia]) ltac:(cbn; lia) En (fun _ => Hk) (fun _ => Hk)
    (proj1 (matrix_table 3 1 f)) (proj2 (matrix_table 3 1 f))).
  intros out (data & _ & [HM _] & _ & Hone & ->). eexists. split; [reflexivity|]. rewrite HM. apply (Hone (4#1)%Q eq_refl ex65_one).
Qed.
