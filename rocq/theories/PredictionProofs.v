(** Proofs that the prediction for a cloud depends on that cloud only (C60). The
    statements are copied verbatim into PropertiesPrediction.v. *)
From Coq Require Import String List Arith ZArith QArith Reals Qreals Lia Bool Permutation.
From Verif Require Import Tensor TensorFacts Spec SpecText TextFacts PointCloud SpecCloud PointCloudFacts QFacts Grid SpecGrid GridFacts
  Neighbors SpecNeighbors Sampling SpecSampling SamplingFacts SamplingProofs Hierarchy SpecHierarchy HierarchyFacts HierarchyProofs Pdf SpecPdf
  RTensor RTensorFacts Kernels Layers SpecLayers LayerFacts LayerLink LayerProofs
  Blocks SpecBlocks BlockFacts BlockProofs BatchProofs Classifier SpecClassifier ClassifierFacts LastLevelFacts ClassifierProofs LargeFacts LargeProofs
  SpecMatch MatchFacts MatchLevel MatchNet.
Import ListNotations.
Local Open Scope nat_scope.

Lemma encoded_length conv post : (forall i r up lo X, length (conv i r up lo X) = length (snd lo)) ->
  forall radii i up below X, length radii = length below -> below <> [] ->
    length (encoded conv post i radii up below X) = length (snd (last below up)).
Proof.
  intros H. induction radii as [|r radii IH]; intros i up below X HL Hn; [destruct below; [contradiction|discriminate]|].
  destruct below as [|lo rest]; [contradiction|]. cbn [encoded]. destruct rest as [|lo' rest]; [apply H|].
  rewrite (last_shift (lo' :: rest)). apply IH; [cbn in *; lia|discriminate].
Qed.
Lemma all_there B ids : all_nonempty B ids -> length ids = B -> Forall (fun b => b < B) ids /\ NoDup ids.
Proof.
  intros HA HL. assert (I1 : incl (seq 0 B) ids) by (intros x Hx; apply in_seq in Hx; apply HA; lia). split.
  - apply Forall_forall. intros x Hx. apply (NoDup_length_incl (seq_NoDup B 0)) in I1; [|rewrite seq_length; lia].
    specialize (I1 x Hx). apply in_seq in I1. lia.
  - apply (NoDup_incl_NoDup (seq_NoDup B 0)); [rewrite seq_length; lia|exact I1].
Qed.
Lemma by_element_length B ids X : all_nonempty B ids -> length ids = B -> length X = B -> length (by_element B ids X) = B.
Proof.
  intros HA HL LX. destruct (all_there B ids HA HL) as [HB _]. unfold by_element. rewrite (Permutation_length (elements_perm B X ids ltac:(lia) HB)). exact LX.
Qed.

Lemma level_fewer mode eps cs (up lo : batch) e : means mode average_names -> next_level mode eps 3 cs up lo ->
  length (members (snd lo) e) <= length (members (snd up) e).
Proof.
  intros Hm [(Hp & _)|(_ & H)].
  - pose proof (sample_mode_poisson _ Hp). pose proof (sample_mode_average _ Hm). congruence.
  - exact (average_fewer eps 3 cs up lo e H).
Qed.

(** The logits of one cloud in two batches, for every convolution that respects
    the pairing of the points. *)
Lemma small_core eps fs (rs cs : list Q) mode conv ow ob bn drop dw db B V points sizes F e B2 V2 points2 sizes2 F2 e2 s tr data data2 u1 u2 :
  let L := length rs in
  let chans := fun i => nth i fs 0 in
  let input := (valid_rows sizes V points, ids_of_sizes sizes) in
  let input2 := (valid_rows sizes2 V2 points2, ids_of_sizes sizes2) in
  let post := small_post bn chans ow ob in
  let X := encoded conv post 0 cs input data (rows_for V (ids_of_sizes sizes) F) in
  let X2 := encoded conv post 0 cs input2 data2 (rows_for V2 (ids_of_sizes sizes2) F2) in
  let bottom := snd (last data input) in
  let bottom2 := snd (last data2 input2) in
  let pre0 := fun X => drop 0 (activated (bn (2 * L - 2)) X) in
  let pre1 := fun X => drop 1 (activated (bn (2 * L - 1)) X) in
  means mode average_names -> 0 < L -> length cs = L -> (forall k, rowwise (bn k)) -> (forall k, rowwise (drop k)) ->
  (forall i r up lo X, matrix (length (snd lo)) (chans (S i)) (conv i r up lo X)) ->
  (forall i r up lo up2 lo2 ps qs X X2, matched 3 tr e up e2 up2 ps -> matched 3 tr e lo e2 lo2 qs -> rows_match ps X X2 ->
    rows_match qs (conv i r up lo X) (conv i r up2 lo2 X2)) ->
  length points = B * V -> length sizes = B -> Forall (fun n => 1 <= n <= V) sizes -> e < B ->
  length points2 = B2 * V2 -> length sizes2 = B2 -> Forall (fun n => 1 <= n <= V2) sizes2 -> e2 < B2 ->
  same_cloud 3 e V sizes points e2 V2 sizes2 points2 s tr -> same_rows e V (nth e sizes 0) F e2 V2 F2 s ->
  chain (next_level mode eps 3) (map (fun r => repeat r 3) rs) (input :: data) ->
  chain (next_level mode eps 3) (map (fun r => repeat r 3) rs) (input2 :: data2) ->
  all_nonempty B bottom -> length bottom = B -> all_nonempty B2 bottom2 -> length bottom2 = B2 ->
  (forall b, b < B -> exists k, k < B /\ nth k bottom 0 = b /\ nth b (by_element B bottom X) [] = nth k X []) ->
  (forall b, b < B2 -> exists k, k < B2 /\ nth k bottom2 0 = b /\ nth b (by_element B2 bottom2 X2) [] = nth k X2 []) ->
  nth e (dense_head pre0 pre1 dw db B (chans L) u1 u2 (by_element B bottom X)) []
  = nth e2 (dense_head pre0 pre1 dw db B2 (chans L) u1 u2 (by_element B2 bottom2 X2)) [].
Proof.
  intros L chans input input2 post X X2 bottom bottom2 pre0 pre1 Hm HL Hs Hbn Hdr Hmat Hconv P1 S1 S1' He P2 S2 S2' He2 Hcl Hrw Hch Hch2 HA N1 HA2 N2 K1 K2.
  destruct (input_match B V points sizes e B2 V2 points2 sizes2 e2 s tr F F2 P1 S1 S1' He P2 S2 S2' He2 Hcl) as [HU HF]. cbv zeta in HU, HF.
  specialize (HF Hrw). fold input input2 in HU.
  assert (Hpost : forall i up lo lo2 up2 r X X2 qs, matched 3 tr e lo e2 lo2 qs -> rows_match qs (conv i r up lo X) (conv i r up2 lo2 X2) ->
    rows_match qs (post i (length (snd lo)) (conv i r up lo X)) (post i (length (snd lo2)) (conv i r up2 lo2 X2))).
  { intros i up lo lo2 up2 r0 Y Y2 qs A1 A2. apply (post_match tr e e2); auto; apply Hmat. }
  assert (Hlen : length cs = length (map (fun r : Q => repeat r 3) rs)) by (rewrite map_length; exact Hs).
  destruct (encoded_match mode eps tr e e2 conv post Hm Hconv Hpost _ cs 0 input data input2 data2 _ _ _ Hlen Hch Hch2 HU HF)
    as (qs & HQ & HX).
  assert (LX : forall b bs X, chain (next_level mode eps 3) (map (fun r => repeat r 3) rs) (b :: bs) ->
    length (encoded conv post 0 cs b bs X) = length (snd (last bs b))).
  { intros b bs Y Hc. pose proof (chain_length _ _ _ Hc) as Hl. rewrite map_length in Hl. cbn [length] in Hl. fold L in Hl.
    apply encoded_length; [intros; apply Hmat|lia|]. intros ->. cbn in Hl. lia. }
  destruct (K1 e He) as (k & Kk & Ke & KE). destruct (K2 e2 He2) as (k2 & Kk2 & Ke2 & KE2).
  assert (Hp : exists j, In (k, j) qs).
  { apply (mate 3 tr e e2 (last data input) (last data2 input2) qs HQ); [fold bottom; lia|exact Ke]. }
  destruct Hp as (j & Hp). destruct (mt_lt 3 tr e e2 (last data input) (last data2 input2) qs HQ k j Hp) as (_ & (J1 & J2)).
  pose proof (proj2 (all_there B2 _ HA2 N2)) as ND.
  assert (Ej : j = k2) by (apply (NoDup_nth bottom2 0); [exact ND|exact J1|lia|exact (eq_trans J2 (eq_sym Ke2))]). subst j.
  apply head_nth; auto.
  - apply (rowwise_comp (drop 0)); auto using rowwise_activated.
  - apply (rowwise_comp (drop 1)); auto using rowwise_activated.
  - apply by_element_length; auto. unfold X. rewrite LX by exact Hch. exact N1.
  - apply by_element_length; auto. unfold X2. rewrite LX by exact Hch2. exact N2.
  - exact (eq_trans KE (eq_trans (HX _ _ Hp) (eq_sym KE2))).
Qed.

(** C60. The network of modelnet40_small.py outside of training, cell average
    sampling: if cloud [e2] of one call is cloud [e] of another call with the
    points (and their features) in another order and translated, then both get
    the same logits, whatever the other clouds of the two batches and the padded
    lengths are. *)
Lemma C60_small_proof :
  forall eps feature_sizes sample_radii conv_radii name t mode vars ow ob net bn drop dw db
    B V points sizes features fuel draws e B2 V2 points2 sizes2 features2 fuel2 draws2 e2 s tr,
    let L := length sample_radii in
    let chans := fun i => nth i feature_sizes 0 in
    let u2 := nth (length feature_sizes - 1) feature_sizes 0 in
    let input := (valid_rows sizes V points, ids_of_sizes sizes) in
    let input2 := (valid_rows sizes2 V2 points2, ids_of_sizes sizes2) in
    means mode average_names -> 0 < L -> conv_named name t -> (t = TPT -> 2 <= B /\ 2 <= B2) -> Forall (fun c => 0 < c) feature_sizes ->
    mk_small feature_sizes sample_radii conv_radii name mode vars ow ob = Ok net ->
    (forall k, rowwise (bn k)) -> (forall k, rowwise (drop k)) ->
    input_batch eps B V points sizes sample_radii mode fuel -> search_radii eps B input L conv_radii ->
    length features = B * V -> Forall (fun row => length row = chans 0) features ->
    input_batch eps B2 V2 points2 sizes2 sample_radii mode fuel2 -> search_radii eps B2 input2 L conv_radii ->
    length features2 = B2 * V2 -> Forall (fun row => length row = chans 0) features2 ->
    (forall r, nth_error sample_radii (L - 1) = Some r -> one_sample mode eps r input /\ one_sample mode eps r input2) ->
    e < B -> e2 < B2 -> same_cloud 3 e V sizes points e2 V2 sizes2 points2 s tr ->
    same_rows e V (nth e sizes 0) features e2 V2 features2 s ->
    exists logits logits2,
      small_call GPU eps (find_neighbors_tf GPU) (compute_pdf_tf GPU) net bn drop dw db fuel draws B
        (Padded [B] V points) (Feat (chans 0) (inl (Padded [B] V features))) sizes = Some (Ok (Feat u2 (inr logits))) /\
      small_call GPU eps (find_neighbors_tf GPU) (compute_pdf_tf GPU) net bn drop dw db fuel2 draws2 B2
        (Padded [B2] V2 points2) (Feat (chans 0) (inl (Padded [B2] V2 features2))) sizes2 = Some (Ok (Feat u2 (inr logits2))) /\
      matrix B u2 logits /\ matrix B2 u2 logits2 /\ nth e logits [] = nth e2 logits2 [].
Proof.
  intros eps fs rs cs name t mode vars ow ob net bn drop dw db B V points sizes F fuel draws e B2 V2 points2 sizes2 F2 fuel2 draws2 e2 s tr
    L chans u2 input input2 Hm HL Hn Ht Hpos Hnet Hbn Hdr Hb Hs Hf1 Hf2 Hb2 Hs2 Hf1' Hf2' Hone He He2 Hcl Hrw.
  destruct (C58_logits_partial_proof eps B V points sizes fs rs cs name t mode vars ow ob net bn drop dw db fuel draws F
    Hb HL Hs Hn (fun E => proj1 (Ht E)) Hpos Hnet (fun k => rowwise_keeps _ (Hbn k)) (fun k => rowwise_keeps _ (Hdr k)) Hf1 Hf2) as (data & Hch & HM & HA & H1 & E1).
  destruct (C58_logits_partial_proof eps B2 V2 points2 sizes2 fs rs cs name t mode vars ow ob net bn drop dw db fuel2 draws2 F2
    Hb2 HL Hs2 Hn (fun E => proj2 (Ht E)) Hpos Hnet (fun k => rowwise_keeps _ (Hbn k)) (fun k => rowwise_keeps _ (Hdr k)) Hf1' Hf2') as (data2 & Hch2 & HM2 & HA2 & H2 & E2).
  cbv zeta in *. fold L chans u2 in E1, E2, HM, HM2, H1, H2. fold input in Hch, HM, HA, H1, E1. fold input2 in Hch2, HM2, HA2, H2, E2.
  destruct (nth_error rs (L - 1)) as [r|] eqn:Er; [|apply nth_error_None in Er; lia]. destruct (Hone r eq_refl) as [O1 O2].
  destruct (H1 r eq_refl O1) as [N1 K1]. destruct (H2 r eq_refl O2) as [N2 K2]. clear H1 H2.
  eexists. eexists. split; [exact E1|]. split; [exact E2|]. rewrite N1 in HM. rewrite N2 in HM2. rewrite N1, N2.
  split; [exact HM|]. split; [exact HM2|]. clear E1 E2 HM HM2.
  destruct (ib_points _ _ _ _ _ _ _ _ Hb) as [P1 _]. destruct (ib_sizes _ _ _ _ _ _ _ _ Hb) as [S1 S1'].
  destruct (ib_points _ _ _ _ _ _ _ _ Hb2) as [P2 _]. destruct (ib_sizes _ _ _ _ _ _ _ _ Hb2) as [S2 S2'].
  apply (small_core eps fs rs cs mode (fun i r up lo X => script_formula t 4 8 (vars i) (chans i) (chans (S i)) r up lo X) ow ob bn drop dw db B V points sizes F e B2 V2 points2 sizes2 F2 e2 s tr data data2 _ u2
    Hm HL (proj1 Hs) Hbn Hdr); auto.
  - intros. apply formula_matrix.
  - intros i r0 up lo up2 lo2 ps qs X X2 A1 A2 A3. now apply (script_match _ _ _ _ _ _ _ tr e e2 up lo up2 lo2 ps qs).
Qed.

(** The same for the residual network. *)
Lemma large_core eps fs (rs cs : list Q) mode conv iv (sv bv : nat -> block_vars) bns bnb bn drop dw db B V points sizes F e B2 V2 points2 sizes2 F2 e2 s tr x data data2 u1 u2 :
  let L := length rs in
  let chans := fun i => nth i fs 0 in
  let input := (valid_rows sizes V points, ids_of_sizes sizes) in
  let input2 := (valid_rows sizes2 V2 points2, ids_of_sizes sizes2) in
  let strided := fun i p up lo X => block_formula (conv (bv_conv (sv i))) (bns i) (sv i) (chans (i - 1)) (chans i) p (Some p) up lo X in
  let plain := fun i c lo X => block_formula (conv (bv_conv (bv i))) (bnb i) (bv i) (chans i) (chans i) c None lo lo X in
  let first := nth 0 data input in
  let first2 := nth 0 data2 input2 in
  let c0 := nth 0 cs 0%Q in
  let start := plain 0 c0 first (conv iv 1 (chans 0) c0 first first (rows_for V (snd first) F)) in
  let start2 := plain 0 c0 first2 (conv iv 1 (chans 0) c0 first2 first2 (rows_for V2 (snd first2) F2)) in
  let pre0 := fun X => drop 0 (activated (bn 0) X) in
  let pre1 := activated (fun X => drop 1 (bn 1 X)) in
  means mode average_names -> 0 < L -> length cs = L ->
  (forall i k, rowwise (bns i k)) -> (forall i k, rowwise (bnb i k)) -> (forall k, rowwise (bn k)) -> (forall k, rowwise (drop k)) ->
  (forall v cin cout r up lo X, length (conv v cin cout r up lo X) = length (snd lo)) ->
  (forall v cin cout r up lo up2 lo2 ps qs X X2, matched 3 tr e up e2 up2 ps -> matched 3 tr e lo e2 lo2 qs -> rows_match ps X X2 ->
    rows_match qs (conv v cin cout r up lo X) (conv v cin cout r up2 lo2 X2)) ->
  length points = B * V -> length sizes = B -> Forall (fun n => 1 <= n <= V) sizes -> e < B ->
  length points2 = B2 * V2 -> length sizes2 = B2 -> Forall (fun n => 1 <= n <= V2) sizes2 -> e2 < B2 ->
  same_cloud 3 e V sizes points e2 V2 sizes2 points2 s tr ->
  (forall k, k < nth e sizes 0 -> nth (e * V + k) F [] = [x] /\ nth (e2 * V2 + k) F2 [] = [x]) ->
  chain (next_level mode eps 3) (map (fun r => repeat r 3) rs) (input :: data) ->
  chain (next_level mode eps 3) (map (fun r => repeat r 3) rs) (input2 :: data2) ->
  nth e (dense_head pre0 pre1 dw db B (chans (L - 1)) u1 u2
    (averaged B (snd (last data input)) (chans (L - 1)) (deeper strided plain 1 (tl rs) (tl cs) first (tl data) start))) []
  = nth e2 (dense_head pre0 pre1 dw db B2 (chans (L - 1)) u1 u2
    (averaged B2 (snd (last data2 input2)) (chans (L - 1)) (deeper strided plain 1 (tl rs) (tl cs) first2 (tl data2) start2))) [].
Proof.
  intros L chans input input2 strided plain first' first2' c0' start start2 pre0 pre1 Hm HL Hs Hbs Hbb Hbn Hdr Hcl' Hconv P1 S1 S1' He P2 S2 S2' He2 Hcl Hx Hch Hch2.
  destruct (input_match B V points sizes e B2 V2 points2 sizes2 e2 s tr F F2 P1 S1 S1' He P2 S2 S2' He2 Hcl) as [HU _]. cbv zeta in HU.
  fold input input2 in HU.
  pose proof (in_count B V points sizes e P1 S1 S1' He) as Q1. pose proof (in_count B2 V2 points2 sizes2 e2 P2 S2 S2' He2) as Q2.
  destruct rs as [|r0 rs]; [cbn in HL; lia|]. destruct cs as [|c0 cs]; [discriminate|].
  cbn [map] in Hch, Hch2. inversion Hch as [|? ? ? first rest N1 C1]; subst. inversion Hch2 as [|? ? ? first2 rest2 N2 C2]; subst.
  destruct (level_match _ _ _ _ _ _ _ _ _ _ _ Hm HU N1 N2) as (qs & HQ). unfold start, start2, first', first2', c0'. cbn [nth tl]. rewrite (last_shift rest), (last_shift rest2).
  assert (HF : rows_match qs (rows_for V (snd first) F) (rows_for V2 (snd first2) F2)).
  { intros i j Hp. destruct (mt_lt 3 tr e e2 first first2 qs HQ i j Hp) as ((I1 & I2) & (J1 & J2)).
    pose proof (rank_bound (snd first) e i I1 I2) as R1. pose proof (rank_bound (snd first2) e2 j J1 J2) as R2.
    pose proof (level_fewer _ _ _ _ _ e Hm N1) as G1. pose proof (level_fewer _ _ _ _ _ e2 Hm N2) as G2.
    cbn [snd input input2] in G1, G2. destruct Hcl as (En & _).
    unfold rows_for. rewrite !nth_map_seq by assumption. rewrite I2, J2.
    rewrite (proj1 (Hx (rank i (snd first)) ltac:(lia))), (proj2 (Hx (rank j (snd first2)) ltac:(lia))). reflexivity. }
  assert (Hplain : forall i c lo lo2 qs X X2, matched 3 tr e lo e2 lo2 qs -> length X = length (snd lo) -> length X2 = length (snd lo2) -> rows_match qs X X2 ->
    rows_match qs (block_formula (conv (bv_conv (bv i))) (bnb i) (bv i) (chans i) (chans i) c None lo lo X)
      (block_formula (conv (bv_conv (bv i))) (bnb i) (bv i) (chans i) (chans i) c None lo2 lo2 X2)).
  { intros i c lo lo2 qs' X X2 A1 A2 A3 A4. apply (block_match tr e e2 _ _ _ (Hconv _) (Hcl' _) (Hbb i) _ _ _ _ lo lo lo2 lo2 qs' qs'); auto. }
  assert (Hstr : forall i p up lo up2 lo2 ps qs X X2, matched 3 tr e up e2 up2 ps -> matched 3 tr e lo e2 lo2 qs ->
    length X = length (snd up) -> length X2 = length (snd up2) -> rows_match ps X X2 -> rows_match qs (strided i p up lo X) (strided i p up2 lo2 X2)).
  { intros i p up lo up2 lo2 ps qs' X X2 A1 A2 A3 A4 A5. apply (block_match tr e e2 _ _ _ (Hconv _) (Hcl' _) (Hbs i) _ _ _ _ up lo up2 lo2 ps qs'); auto. discriminate. }
  assert (Lpl : forall i c lo X, length (plain i c lo X) = length (snd lo)) by (intros; unfold plain; apply block_length).
  assert (Lst : forall i p up lo X, length (strided i p up lo X) = length (snd lo)) by (intros; unfold strided; apply block_length).
  destruct (deeper_match mode eps tr e e2 strided plain Hm Hstr Hplain Lst Lpl
    (map (fun r : Q => repeat r 3) rs) rs cs 1 first rest first2 rest2 qs
    (plain 0 c0 first (conv iv 1 (chans 0) c0 first first (rows_for V (snd first) F)))
    (plain 0 c0 first2 (conv iv 1 (chans 0) c0 first2 first2 (rows_for V2 (snd first2) F2)))) as (qs' & HQ' & HX); auto.
  - now rewrite map_length.
  - rewrite map_length. unfold L in Hs. cbn [length] in Hs. lia.
  - exact (Hplain 0 c0 first first2 qs _ _ HQ (Hcl' iv 1 (chans 0) c0 first first _) (Hcl' iv 1 (chans 0) c0 first2 first2 _)
      (Hconv iv 1 (chans 0) c0 first first first2 first2 qs qs _ _ HQ HQ HF)).
  - apply head_nth; auto.
    + apply (rowwise_comp (drop 0)); auto using rowwise_activated.
    + apply rowwise_activated, rowwise_comp; auto.
    + unfold averaged, table. now rewrite map_length, seq_length.
    + unfold averaged, table. now rewrite map_length, seq_length.
    + now apply (averaged_match 3 tr e e2 (last rest first) (last rest2 first2) qs').
Qed.

(** C60. The network of modelnet40.py outside of training, cell average sampling
    and constant features on the two clouds (the script passes ones): the same
    statement. *)
Lemma C60_large_proof :
  forall eps feature_sizes pool_radii conv_radii name t mode iv sv bv net bns bnb bn drop dw db
    B V points sizes features fuel draws e B2 V2 points2 sizes2 features2 fuel2 draws2 e2 s tr x,
    let L := length pool_radii in
    let chans := fun i => nth i feature_sizes 0 in
    let u2 := nth (length feature_sizes - 1) feature_sizes 0 in
    let input := (valid_rows sizes V points, ids_of_sizes sizes) in
    let input2 := (valid_rows sizes2 V2 points2, ids_of_sizes sizes2) in
    means mode average_names -> 0 < L -> conv_named name t -> (t = TPT -> 2 <= B /\ 2 <= B2) -> (forall i, i < L -> 4 <= chans i) ->
    mk_large feature_sizes pool_radii conv_radii name mode iv sv bv = Ok net ->
    (forall i k, rowwise (bns i k)) -> (forall i k, rowwise (bnb i k)) -> (forall k, rowwise (bn k)) -> (forall k, rowwise (drop k)) ->
    input_batch eps B V points sizes pool_radii mode fuel -> search_radii eps B input L conv_radii ->
    length features = B * V -> Forall (fun row => length row = 1) features ->
    input_batch eps B2 V2 points2 sizes2 pool_radii mode fuel2 -> search_radii eps B2 input2 L conv_radii ->
    length features2 = B2 * V2 -> Forall (fun row => length row = 1) features2 ->
    e < B -> e2 < B2 -> same_cloud 3 e V sizes points e2 V2 sizes2 points2 s tr ->
    (forall k, k < nth e sizes 0 -> nth (e * V + k) features [] = [x] /\ nth (e2 * V2 + k) features2 [] = [x]) ->
    exists logits logits2,
      large_call GPU eps (find_neighbors_tf GPU) (compute_pdf_tf GPU) net bns bnb bn drop dw db fuel draws B
        (Padded [B] V points) (Feat 1 (inl (Padded [B] V features))) sizes = Some (Ok (Feat u2 (inr logits))) /\
      large_call GPU eps (find_neighbors_tf GPU) (compute_pdf_tf GPU) net bns bnb bn drop dw db fuel2 draws2 B2
        (Padded [B2] V2 points2) (Feat 1 (inl (Padded [B2] V2 features2))) sizes2 = Some (Ok (Feat u2 (inr logits2))) /\
      matrix B u2 logits /\ matrix B2 u2 logits2 /\ nth e logits [] = nth e2 logits2 [].
Proof.
  intros eps fs rs cs name t mode iv sv bv net bns bnb bn drop dw db B V points sizes F fuel draws e B2 V2 points2 sizes2 F2 fuel2 draws2 e2 s tr x
    L chans u2 input input2 Hm HL Hn Ht Hpos Hnet Hbs Hbb Hbn Hdr Hb Hs Hf1 Hf2 Hb2 Hs2 Hf1' Hf2' He He2 Hcl Hx.
  destruct (C59_logits_partial_proof eps B V points sizes fs rs cs name t mode iv sv bv net bns bnb bn drop dw db fuel draws
    Hb HL Hs Hn (fun E => proj1 (Ht E)) Hpos Hnet (fun i k => rowwise_keeps _ (Hbs i k)) (fun i k => rowwise_keeps _ (Hbb i k)) (fun k => rowwise_keeps _ (Hbn k)) (fun k => rowwise_keeps _ (Hdr k)))
    as (data & Hch & Hcall).
  destruct (C59_logits_partial_proof eps B2 V2 points2 sizes2 fs rs cs name t mode iv sv bv net bns bnb bn drop dw db fuel2 draws2
    Hb2 HL Hs2 Hn (fun E => proj2 (Ht E)) Hpos Hnet (fun i k => rowwise_keeps _ (Hbs i k)) (fun i k => rowwise_keeps _ (Hbb i k)) (fun k => rowwise_keeps _ (Hbn k)) (fun k => rowwise_keeps _ (Hdr k)))
    as (data2 & Hch2 & Hcall2).
  destruct (Hcall F Hf1 Hf2) as [HM E1]. destruct (Hcall2 F2 Hf1' Hf2') as [HM2 E2]. clear Hcall Hcall2.
  cbv zeta in *. fold L chans u2 in E1, E2, HM, HM2. fold input in Hch, HM, E1. fold input2 in Hch2, HM2, E2.
  eexists. eexists. split; [exact E1|]. split; [exact E2|]. split; [exact HM|]. split; [exact HM2|]. clear E1 E2 HM HM2.
  destruct (ib_points _ _ _ _ _ _ _ _ Hb) as [P1 _]. destruct (ib_sizes _ _ _ _ _ _ _ _ Hb) as [S1 S1'].
  destruct (ib_points _ _ _ _ _ _ _ _ Hb2) as [P2 _]. destruct (ib_sizes _ _ _ _ _ _ _ _ Hb2) as [S2 S2'].
  apply (large_core eps fs rs cs mode (fun v cin cout r up lo X => script_formula t 1 16 v cin cout r up lo X) iv sv bv bns bnb bn drop dw db B V points sizes F e B2 V2 points2 sizes2 F2 e2 s tr x data data2 _ u2
    Hm HL (proj1 Hs) Hbs Hbb Hbn Hdr); auto.
  - intros. apply formula_matrix.
  - intros v cin cout r up lo up2 lo2 ps qs' X X2 A1 A2 A3. now apply (script_match _ _ _ _ _ _ _ tr e e2 up lo up2 lo2 ps qs').
Qed.

(** ** Concrete case: the two points of the first cloud of the examples of C58
    are the second cloud of another batch, in reverse order and moved by 1. *)
Definition ex60_points : list point := [[5#1;5#1;5#1]; [9#1;9#1;9#1]; [3#1;0;0]; [1#1;0;0]]%Q.
Definition ex60_sizes : list nat := [1; 2].
Definition ex60_move (d : nat) : Q := nth d [1#1; 0; 0]%Q 0%Q.
Lemma ex60_batches radii : In radii [[1#1]; [1#1; 4#1]]%Q ->
  input_batch (1#1000) 2 3 ex58_points ex58_sizes radii "cell average" 3 /\ input_batch (1#1000) 2 2 ex60_points ex60_sizes radii "cell average" 3.
Proof.
  intros Hr. split.
  - destruct (ex58_batch radii Hr) as [A1 A2 A3 _ A5]. split; auto. right. apply means_average. cbn; tauto.
  - split.
    + split; [reflexivity|repeat constructor].
    + split; [reflexivity|]. constructor; [lia|]. constructor; [lia|constructor].
    + lia.
    + right. apply means_average. cbn; tauto.
    + assert (G : Forall (good_sizes 3) [[1#1]; [4#1]]%Q).
      { constructor; [|constructor; [|constructor]]; (split; [discriminate|split; [cbn; lia|split]]);
          try (constructor; [reflexivity|constructor]); vm_compute; discriminate. }
      assert (C : Forall (fun l => few_cells (1#1000) 3 (filled_with_first 3 l) 2 (valid_rows ex60_sizes 2 ex60_points, ids_of_sizes ex60_sizes)) [[1#1]; [4#1]]%Q).
      { constructor; [|constructor; [|constructor]]; apply (few_cells_check _ _ _ _ _ _ [4;4;4]%Z); try reflexivity; vm_compute; discriminate. }
      constructor; [reflexivity|vm_compute; discriminate|lia|discriminate|reflexivity|cbn; lia| |].
      * destruct Hr as [<-|[<-|[]]]; cbn [map]; [inversion G; subst; constructor; [assumption|constructor]|exact G].
      * destruct Hr as [<-|[<-|[]]]; cbn [map]; [inversion C; subst; constructor; [assumption|constructor]|exact C].
Qed.
Lemma ex60_search : search_radii (1#1000) 2 (valid_rows ex60_sizes 2 ex60_points, ids_of_sizes ex60_sizes) 2 [1#1; 4#1]%Q.
Proof.
  assert (C1 : few_cells (1#1000) 3 (repeat (1#1)%Q 3) 2 (valid_rows ex60_sizes 2 ex60_points, ids_of_sizes ex60_sizes))
    by (apply (few_cells_check _ _ _ _ _ _ [4;4;4]%Z); try reflexivity; vm_compute; discriminate).
  assert (C2 : few_cells (1#1000) 3 (repeat (4#1)%Q 3) 2 (valid_rows ex60_sizes 2 ex60_points, ids_of_sizes ex60_sizes))
    by (apply (few_cells_check _ _ _ _ _ _ [4;4;4]%Z); try reflexivity; vm_compute; discriminate).
  split; [reflexivity|]. repeat (constructor; [split; [reflexivity|assumption]|]). constructor.
Qed.
Lemma ex60_one :
  one_sample "cell average" (1#1000) (4#1) (valid_rows ex58_sizes 3 ex58_points, ids_of_sizes ex58_sizes) /\
  one_sample "cell average" (1#1000) (4#1) (valid_rows ex60_sizes 2 ex60_points, ids_of_sizes ex60_sizes).
Proof.
  split; right; (split; [apply means_average; cbn; tauto|]); intros i j d Hi Hj Hd E; change (i < 3) in Hi; change (j < 3) in Hj;
    do 3 (destruct i as [|i]; [do 3 (destruct j as [|j]; [do 3 (destruct d as [|d]; [first [discriminate E|vm_compute; discriminate]|]); lia|]); lia|]); lia.
Qed.
Lemma ex60_same : same_cloud 3 0 3 ex58_sizes ex58_points 1 2 ex60_sizes ex60_points [1; 0] ex60_move.
Proof.
  split; [reflexivity|]. split; [constructor|]. intros k d Hk Hd. change (k < 2) in Hk.
  do 2 (destruct k as [|k]; [do 3 (destruct d as [|d]; [reflexivity|]); lia|]). lia.
Qed.
Lemma rowwise_id : rowwise (fun X => X).
Proof. exists (fun row => row). split; [reflexivity|]. intros X. symmetry. apply map_id. Qed.

Example C60_small_ex_proof :
  same_cloud 3 0 3 ex58_sizes ex58_points 1 2 ex60_sizes ex60_points [1; 0] ex60_move /\
  forall vars ow ob dw db draws draws2 f g, exists net logits logits2,
    mk_small [1; 8; 8; 8; 3] [1#1; 4#1]%Q [1#1; 4#1]%Q "MCConv" "cell average" vars ow ob = Ok net /\
    small_call GPU (1#1000) (find_neighbors_tf GPU) (compute_pdf_tf GPU) net (fun _ X => X) (fun _ X => X) dw db 3 draws 2
      (Padded [2] 3 ex58_points) (Feat 1 (inl (Padded [2] 3 [[f 0]; [f 1]; [0%R]; [g 0]; [g 1]; [g 2]]))) ex58_sizes = Some (Ok (Feat 3 (inr logits))) /\
    small_call GPU (1#1000) (find_neighbors_tf GPU) (compute_pdf_tf GPU) net (fun _ X => X) (fun _ X => X) dw db 3 draws2 2
      (Padded [2] 2 ex60_points) (Feat 1 (inl (Padded [2] 2 [[g 3]; [g 4]; [f 1]; [f 0]]))) ex60_sizes = Some (Ok (Feat 3 (inr logits2))) /\
    length logits = 2 /\ nth 0 logits [] = nth 1 logits2 [].
Proof.
  split; [exact ex60_same|]. intros vars ow ob dw db draws draws2 f g.
  destruct (ex60_batches _ (or_intror (or_introl eq_refl))) as [Hb Hb2]. pose proof (ex58_search _ _ (or_intror (or_introl eq_refl))) as Hs.
  destruct (ex58_net _ _ "cell average" vars ow ob (or_intror (or_introl eq_refl))) as (net & En).
  assert (Hm : means "cell average" average_names) by (apply means_average; cbn; tauto).
  destruct (C60_small_proof (1#1000) [1; 8; 8; 8; 3] [1#1; 4#1]%Q [1#1; 4#1]%Q "MCConv" TMC "cell average" vars ow ob net (fun _ X => X) (fun _ X => X) dw db
    2 3 ex58_points ex58_sizes [[f 0]; [f 1]; [0%R]; [g 0]; [g 1]; [g 2]] 3 draws 0 2 2 ex60_points ex60_sizes [[g 3]; [g 4]; [f 1]; [f 0]] 3 draws2 1 [1; 0] ex60_move
    Hm ltac:(cbn; lia) (or_introl (conj eq_refl eq_refl)) ltac:(discriminate) ltac:(repeat constructor) En (fun _ => rowwise_id) (fun _ => rowwise_id)
    Hb Hs eq_refl ltac:(repeat constructor) Hb2 ex60_search eq_refl ltac:(repeat constructor)) as (l & l2 & E1 & E2 & [M1 _] & _ & E).
  - intros r Er. injection Er as <-. exact ex60_one.
  - lia.
  - lia.
  - exact ex60_same.
  - intros [|[|k]] Hk; [reflexivity|reflexivity|cbn in Hk; lia].
  - exists net, l, l2. auto.
Qed.

Example C60_large_ex_proof :
  same_cloud 3 0 3 ex58_sizes ex58_points 1 2 ex60_sizes ex60_points [1; 0] ex60_move /\
  forall iv sv bv dw db draws draws2 g, exists net logits logits2,
    mk_large [4; 8; 8; 3] [1#1; 4#1]%Q [1#1; 4#1]%Q "MCConv" "cell average" iv sv bv = Ok net /\
    large_call GPU (1#1000) (find_neighbors_tf GPU) (compute_pdf_tf GPU) net (fun _ _ X => X) (fun _ _ X => X) (fun _ X => X) (fun _ X => X) dw db 3 draws 2
      (Padded [2] 3 ex58_points) (Feat 1 (inl (Padded [2] 3 [[1%R]; [1%R]; [0%R]; [g 0]; [g 1]; [g 2]]))) ex58_sizes = Some (Ok (Feat 3 (inr logits))) /\
    large_call GPU (1#1000) (find_neighbors_tf GPU) (compute_pdf_tf GPU) net (fun _ _ X => X) (fun _ _ X => X) (fun _ X => X) (fun _ X => X) dw db 3 draws2 2
      (Padded [2] 2 ex60_points) (Feat 1 (inl (Padded [2] 2 [[g 3]; [g 4]; [1%R]; [1%R]]))) ex60_sizes = Some (Ok (Feat 3 (inr logits2))) /\
    length logits = 2 /\ nth 0 logits [] = nth 1 logits2 [].
Proof.
  split; [exact ex60_same|]. intros iv sv bv dw db draws draws2 g.
  destruct (ex60_batches _ (or_intror (or_introl eq_refl))) as [Hb Hb2]. pose proof (ex58_search _ _ (or_intror (or_introl eq_refl))) as Hs.
  destruct (ex59_net _ _ "cell average" iv sv bv (or_intror (or_introl eq_refl))) as (net & En).
  assert (Hm : means "cell average" average_names) by (apply means_average; cbn; tauto).
  assert (Hpos : forall i, i < 2 -> 4 <= nth i [4; 8; 8; 3] 0) by (intros [|[|i]] Hi; cbn; lia).
  destruct (C60_large_proof (1#1000) [4; 8; 8; 3] [1#1; 4#1]%Q [1#1; 4#1]%Q "MCConv" TMC "cell average" iv sv bv net (fun _ _ X => X) (fun _ _ X => X) (fun _ X => X) (fun _ X => X) dw db
    2 3 ex58_points ex58_sizes [[1%R]; [1%R]; [0%R]; [g 0]; [g 1]; [g 2]] 3 draws 0 2 2 ex60_points ex60_sizes [[g 3]; [g 4]; [1%R]; [1%R]] 3 draws2 1 [1; 0] ex60_move 1%R
    Hm ltac:(cbn; lia) (or_introl (conj eq_refl eq_refl)) ltac:(discriminate) Hpos En (fun _ _ => rowwise_id) (fun _ _ => rowwise_id) (fun _ => rowwise_id) (fun _ => rowwise_id)
    Hb Hs eq_refl ltac:(repeat constructor) Hb2 ex60_search eq_refl ltac:(repeat constructor)) as (l & l2 & E1 & E2 & [M1 _] & _ & E).
  - lia.
  - lia.
  - exact ex60_same.
  - intros [|[|k]] Hk; [split; reflexivity|split; reflexivity|cbn in Hk; lia].
  - exists net, l, l2. auto.
Qed.
