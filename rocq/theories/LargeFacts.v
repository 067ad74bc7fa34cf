(** Facts about the network of modelnet40.py. *)
From Coq Require Import String List Arith ZArith QArith Reals Qreals Lia Lra Bool Permutation.
From Verif Require Import Tensor TensorFacts Spec SpecText TextFacts PointCloud SpecCloud PointCloudFacts QFacts Grid SpecGrid GridFacts
  Neighbors SpecNeighbors NeighborFacts NeighborProofs Neighborhood NeighborhoodFacts NeighborhoodProofs
  Sampling SpecSampling SamplingFacts SamplingProofs Hierarchy SpecHierarchy HierarchyFacts HierarchyProofs LevelFacts CloudProofs Pdf SpecPdf PdfFacts PdfProofs
  RTensor RTensorFacts Kernels KernelProofs Layers SpecLayers LayerFacts LayerLink LayerProofs ConvProofs Blocks SpecBlocks BlockFacts BlockProofs
  Classifier SpecClassifier ClassifierFacts LastLevelFacts ClassifierProofs.
Import ListNotations.
Local Open Scope nat_scope.

(** ** The blocks *)
Lemma pooled_ok eps r (up lo : batch) pin pout C X : workable eps 3 r (fst up) (snd up) pin (fst lo) (snd lo) pout ->
  given (Feat C (inr X)) pin C X ->
  max_pooling GPU eps (find_neighbors_tf GPU) (Feat C (inr X)) pin pout (Some [r]) false false = Ok (Feat C (inr (pooled r up lo C X))).
Proof.
  intros W Hg. unfold max_pooling.
  rewrite (local_pooling_table eps 3 r _ _ pin _ _ pout [r] _ C X false false red_max W (or_introl eq_refl) Hg red_max_perm).
  apply (returned_rows pout (length (snd lo))), matrix_table.
Qed.
Lemma mat_add_matrix n c X Y : matrix n c (mat_add n c X Y).
Proof. apply matrix_table. Qed.
Lemma mk_block_inv cin cout name strided v b : mk_block cin cout name strided v = Ok b ->
  mk_conv1x1 cin (cout / 4) (bv_dw v) (bv_db v) = Ok (bk_down b) /\
  script_layer name 1 16 32 15 (Ok (cout / 4)) (Ok (cout / 4)) (bv_conv v) = Ok (bk_conv b) /\
  mk_conv1x1 (cout / 4) cout (bv_uw v) (bv_ub v) = Ok (bk_up b) /\ bk_strided b = strided /\
  (cin = cout /\ bk_skip b = None \/ cin <> cout /\ exists o, bk_skip b = Some o /\ mk_conv1x1 cin cout (bv_sw v) (bv_sb v) = Ok o).
Proof.
  unfold mk_block. intros E. apply bind_ok in E. destruct E as (d & Ed & E). apply bind_ok in E. destruct E as (c & Ec & E).
  apply bind_ok in E. destruct E as (u & Eu & E). apply bind_ok in E. destruct E as (s & Es & E). apply ok_inj in E. subst b.
  cbn [bk_down bk_conv bk_up bk_strided bk_skip]. split; [exact Ed|]. split; [exact Ec|]. split; [exact Eu|]. split; [reflexivity|].
  destruct (Nat.eqb_spec cin cout).
  - apply ok_inj in Es. left. auto.
  - apply bind_ok in Es. destruct Es as (o & Eo & Es). apply ok_inj in Es. right. split; [auto|]. exists o. auto.
Qed.
Lemma block_ok eps name t cin cout pool v b bn r (up lo : batch) pin pout X :
  conv_named name t -> mk_block cin cout name (match pool with Some _ => true | None => false end) v = Ok b ->
  (forall k, keeps_shape (bn k)) -> 4 <= cout ->
  workable eps 3 r (fst up) (snd up) pin (fst lo) (snd lo) pout -> (t = TPT -> 2 <= length (snd lo)) ->
  length (pts pin) = length (snd up) -> length (pts pout) = length (snd lo) ->
  match pool with Some s => s = r | None => up = lo end ->
  matrix (length (snd up)) cin X ->
  block_call GPU eps (find_neighbors_tf GPU) (compute_pdf_tf GPU) b bn (Feat cin (inr X)) pin pout r (option_map (fun s => [s]) pool)
  = Ok (Feat cout (inr (block_formula (fun ci co r up lo X => script_formula t 1 16 (bv_conv v) ci co r up lo X) bn v cin cout r pool up lo X))).
Proof.
  intros Hn Eb Hbn Hc W H2 Lin Lout Hp HX.
  destruct (mk_block_inv _ _ _ _ _ _ Eb) as (B1 & B2 & B3 & B4 & B5).
  assert (Hi : 0 < cout / 4) by (apply Nat.div_str_pos; lia).
  set (n := length (snd up)) in *. set (m := length (snd lo)) in *. set (inner := cout / 4) in *.
  unfold block_call. rewrite activated_ok. cbn [bind].
  assert (M0 : matrix n cin (activated (bn 0) X)) by (apply activated_keeps; auto).
  rewrite (conv1x1_ok n cin inner (bv_dw v) (bv_db v)) by auto. cbn [bind]. rewrite activated_ok. cbn [bind].
  set (X1 := activated (bn 1) (affine n cin inner (bv_dw v) (bv_db v) (activated (bn 0) X))).
  assert (M1 : matrix n inner X1) by (apply activated_keeps; [apply Hbn|apply affine_matrix]).
  rewrite (script_conv_ok eps name t 1 16 inner inner (bv_conv v) (bk_conv b) r up lo pin pout (Feat inner (inr X1)) X1 false Hn B2 W H2 Hi Hi
    (given_rows n inner X1 pin M1 Lin)).
  rewrite (returned_rows pout m) by apply formula_matrix. cbn [bind]. rewrite activated_ok. cbn [bind].
  rewrite (conv1x1_ok m inner cout (bv_uw v) (bv_ub v)) by (first [eassumption|apply activated_keeps; [apply Hbn|apply formula_matrix]]). cbn [bind].
  rewrite B4.
  assert (Hskip : exists S1, matrix m cin S1 /\ S1 = match pool with Some s => pooled s up lo cin X | None => X end /\
    (if match pool with Some _ => true | None => false end
     then max_pooling GPU eps (find_neighbors_tf GPU) (Feat cin (inr X)) pin pout (option_map (fun s => [s]) pool) false false
     else Ok (Feat cin (inr X))) = Ok (Feat cin (inr S1))).
  { destruct pool as [s|].
    - subst s. exists (pooled r up lo cin X). split; [apply matrix_table|]. split; [reflexivity|]. cbn [option_map].
      apply pooled_ok; auto. now apply (given_rows n).
    - subst lo. exists X. split; [exact HX|]. split; reflexivity. }
  destruct Hskip as (S1 & M2 & E1 & E2). rewrite E2. cbn [bind]. unfold block_formula. rewrite <- E1. cbv zeta. fold n m inner.
  destruct B5 as [[-> Ek]|[Hne (o & Ek & Eo)]]; rewrite Ek; cbn [bind].
  - rewrite Nat.eqb_refl. apply (add_features_ok m); auto. apply affine_matrix.
  - destruct (Nat.eqb_spec cin cout); [contradiction|]. rewrite activated_ok. cbn [bind].
    rewrite (conv1x1_ok m cin cout (bv_sw v) (bv_sb v)) by (first [eassumption|apply activated_keeps; auto]). cbn [bind].
    apply (add_features_ok m); apply affine_matrix.
Qed.

Lemma block_single eps cin cout pool v b bn r (up lo : batch) pin pout X :
  mk_block cin cout "PointConv" (match pool with Some _ => true | None => false end) v = Ok b ->
  (forall k, keeps_shape (bn k)) ->
  workable eps 3 r (fst up) (snd up) pin (fst lo) (snd lo) pout -> length (snd lo) = 1 ->
  length (pts pin) = length (snd up) -> matrix (length (snd up)) cin X ->
  block_call GPU eps (find_neighbors_tf GPU) (compute_pdf_tf GPU) b bn (Feat cin (inr X)) pin pout r (option_map (fun s => [s]) pool) = Err InvalidArgument.
Proof.
  intros Eb Hbn W H1 Lin HX. destruct (mk_block_inv _ _ _ _ _ _ Eb) as (B1 & B2 & _).
  set (n := length (snd up)) in *. set (inner := cout / 4) in *.
  unfold block_call. rewrite activated_ok. cbn [bind].
  assert (M0 : matrix n cin (activated (bn 0) X)) by (apply activated_keeps; auto).
  rewrite (conv1x1_ok n cin inner (bv_dw v) (bv_db v)) by auto. cbn [bind]. rewrite activated_ok. cbn [bind].
  set (X1 := activated (bn 1) (affine n cin inner (bv_dw v) (bv_db v) (activated (bn 0) X))).
  assert (M1 : matrix n inner X1) by (apply activated_keeps; [apply Hbn|apply affine_matrix]).
  rewrite (point_conv_single eps 1 16 inner inner (bv_conv v) (bk_conv b) r up lo pin pout (Feat inner (inr X1)) X1 false B2 W H1
    (given_rows n inner X1 pin M1 Lin)). reflexivity.
Qed.

(** ** The constructor *)
Lemma concat_single {A} : forall (ls : list (list A)) i x, (forall j l, nth_error ls j = Some l -> length l = 1) ->
  nth_error ls i = Some [x] -> nth_error (concat ls) i = Some x.
Proof.
  induction ls as [|l ls IH]; intros i x H E; [destruct i; discriminate|].
  pose proof (H 0 l eq_refl) as Hl. destruct l as [|a [|? ?]]; try discriminate. destruct i as [|i]; cbn in E |- *; [injection E as ->; reflexivity|].
  apply IH; auto. intros j m Ej. exact (H (S j) m Ej).
Qed.
Lemma mk_large_inv fs ps cs name mode iv sv bv net : mk_large fs ps cs name mode iv sv bv = Ok net ->
  let L := length ps in
  ln_levels net = L /\ ln_radii net = ps /\ ln_conv_radii net = cs /\ ln_mode net = mode /\
  ln_units1 net = nth (length fs - 2) fs 0 /\ ln_units2 net = nth (length fs - 1) fs 0 /\
  (0 < L -> exists c, nth_error (ln_init net) 0 = Some c /\ script_layer name 1 16 32 15 (Ok 1) (item fs 0) iv = Ok c) /\
  (forall i, i < L -> i < length fs) /\
  (forall i, 0 < i < L -> exists b, nth_error (ln_strided net) (i - 1) = Some b /\ mk_block (nth (i - 1) fs 0) (nth i fs 0) name true (sv i) = Ok b) /\
  (forall i, i < L -> exists b, nth_error (ln_blocks net) i = Some b /\ mk_block (nth i fs 0) (nth i fs 0) name false (bv i) = Ok b).
Proof.
  intros E L. unfold mk_large in E. fold L in E.
  apply bind_ok in E. destruct E as (ls & El & E). apply bind_ok in E. destruct E as (u1 & E1 & E). apply bind_ok in E. destruct E as (u2 & E2 & E).
  apply ok_inj in E. subst net. cbn [ln_levels ln_radii ln_conv_radii ln_mode ln_units1 ln_units2 ln_init ln_strided ln_blocks].
  change (-2)%Z with (- Z.of_nat 2)%Z in E1. change (-1)%Z with (- Z.of_nat 1)%Z in E2.
  apply py_back in E1; [|lia]. apply py_back in E2; [|lia]. apply build_nth in El. destruct El as [Ll Hl].
  split; [reflexivity|]. split; [reflexivity|]. split; [reflexivity|]. split; [reflexivity|]. split; [tauto|]. split; [tauto|].
  assert (Hf : forall i, i < L -> exists a s b, nth_error ls i = Some (a, s, b) /\ i < length fs /\
    mk_block (nth i fs 0) (nth i fs 0) name false (bv i) = Ok b /\
    (i = 0 -> s = [] /\ exists c, a = [c] /\ script_layer name 1 16 32 15 (Ok 1) (item fs 0) iv = Ok c) /\
    (0 < i -> a = [] /\ exists d, s = [d] /\ mk_block (nth (i - 1) fs 0) (nth i fs 0) name true (sv i) = Ok d)).
  { intros i Hi. destruct (Hl i Hi) as (x & Ex & Ef). rewrite Nat.add_0_l in Ef. apply bind_ok in Ef. destruct Ef as ((a & s) & Ea & Ef).
    apply bind_ok in Ef. destruct Ef as (n & En & Ef). apply bind_ok in Ef. destruct Ef as (b & Eb & Ef). apply ok_inj in Ef. cbn [fst snd] in Ef.
    apply item_inv in En. destruct En as [En ->]. exists a, s, b. split; [rewrite Ex, <- Ef; reflexivity|]. split; [exact En|]. split; [exact Eb|].
    destruct (Nat.eqb_spec i 0) as [->|e].
    - apply bind_ok in Ea. destruct Ea as (c & Ec & Ea). apply ok_inj in Ea. injection Ea as <- <-. split; [|lia]. intros _. split; [reflexivity|]. exists c. auto.
    - apply bind_ok in Ea. destruct Ea as (m & Em & Ea). apply bind_ok in Ea. destruct Ea as (n & En' & Ea).
      apply bind_ok in Ea. destruct Ea as (d & Ed & Ea). apply ok_inj in Ea. injection Ea as <- <-.
      apply item_inv in Em. apply item_inv in En'. destruct Em as [_ ->]. destruct En' as [_ ->]. split; [lia|]. intros _. split; [reflexivity|]. exists d. auto. }
  split; [|split; [|split]].
  - intros HL. destruct (Hf 0 HL) as (a & s & b & Ex & _ & _ & H0 & _). destruct (H0 eq_refl) as (_ & c & -> & Ec). exists c. split; [|exact Ec].
    destruct ls as [|x ls]; [discriminate|]. cbn in Ex. injection Ex as ->. reflexivity.
  - intros i Hi. destruct (Hf i Hi) as (a & s & b & _ & H & _). exact H.
  - intros i Hi. destruct (Hf i ltac:(lia)) as (a & s & b & Ex & _ & _ & _ & H1). destruct (H1 ltac:(lia)) as (_ & d & -> & Ed). exists d. split; [|exact Ed].
    destruct ls as [|x ls]; [destruct i; discriminate|]. destruct (Hf 0 ltac:(lia)) as (a0 & s0 & b0 & Ex0 & _ & _ & H0 & _).
    destruct (H0 eq_refl) as (-> & _). cbn in Ex0. injection Ex0 as ->. cbn [map fst snd concat app].
    apply concat_single.
    + intros j l Ej. rewrite nth_error_map in Ej. destruct (nth_error ls j) as [y|] eqn:Ey; [|discriminate]. injection Ej as <-.
      assert (Hj : S j < L) by (rewrite <- Ll; cbn [length]; apply (proj1 (Nat.succ_lt_mono _ _)), nth_error_Some; congruence).
      destruct (Hf (S j) Hj) as (a1 & s1 & b1 & Ex1 & _ & _ & _ & H2). cbn [nth_error] in Ex1. rewrite Ey in Ex1. injection Ex1 as ->.
      destruct (H2 ltac:(lia)) as (_ & d1 & -> & _). reflexivity.
    + destruct i as [|i]; [lia|]. cbn [nth_error] in Ex. rewrite Nat.sub_succ, Nat.sub_0_r, nth_error_map, Ex. reflexivity.
  - intros i Hi. destruct (Hf i Hi) as (a & s & b & Ex & _ & Eb & _). exists b. split; [|exact Eb]. now rewrite nth_error_map, Ex.
Qed.

(** ** The loop below the first level *)
Section Large.
  Context (eps : Q) (B : nat) (sizes : list nat) (h : hierarchy) (levels : list batch).
  Context (fs : list nat) (ps cs : list Q) (name mode : string) (t : conv_type) (iv : conv_vars) (sv bv : nat -> block_vars).
  Context (net : large_net) (bns bnb : nat -> nat -> mat -> mat).
  Context (Hnet : mk_large fs ps cs name mode iv sv bv = Ok net) (Hn : conv_named name t) (HB1 : 1 <= B).
  Context (Hpos : forall i, i < length ps -> 4 <= nth i fs 0) (Hbs : forall i k, keeps_shape (bns i k)) (Hbb : forall i k, keeps_shape (bnb i k)).
  Context (HL : length levels = S (length ps)) (Hcs : length cs = length ps).
  Context (Hlev : forall i b, nth_error levels i = Some b -> exists q, nth_error (hclouds h) i = Some q /\ level_cloud eps B sizes b q).
  Context (Hwork : forall i j r up lo pin pout, In r cs \/ In r ps -> nth_error levels i = Some up -> nth_error levels j = Some lo ->
    level_cloud eps B sizes up pin -> level_cloud eps B sizes lo pout ->
    workable eps 3 r (fst up) (snd up) pin (fst lo) (snd lo) pout).

  Notation conv v := (fun ci co r up lo X => script_formula t 1 16 (bv_conv v) ci co r up lo X).
  Notation strided := (fun i p up lo X => block_formula (conv (sv i)) (bns i) (sv i) (nth (i - 1) fs 0) (nth i fs 0) p (Some p) up lo X).
  Notation plain := (fun i c lo X => block_formula (conv (bv i)) (bnb i) (bv i) (nth i fs 0) (nth i fs 0) c None lo lo X).
  Notation loop := (large_loop GPU eps (find_neighbors_tf GPU) (compute_pdf_tf GPU) net bns bnb h).

  Lemma level_length b q : level_cloud eps B sizes b q -> length (pts q) = length (snd b).
  Proof.
    intros Lo. pose proof (ic_len _ _ _ _ _ _ _ (cloud_is _ _ _ _ _ _ _ (lc_cloud _ _ _ _ _ Lo))) as Ll.
    pose proof (ic_pts _ _ _ _ _ _ _ (cloud_is _ _ _ _ _ _ _ (lc_cloud _ _ _ _ _ Lo))) as Lp. now rewrite Lp.
  Qed.
  Lemma level_case b q : level_cloud eps B sizes b q -> (t = TPT /\ name = "PointConv"%string /\ length (snd b) = 1) \/ (t = TPT -> 2 <= length (snd b)).
  Proof using HB1 Hn.
    clear - HB1 Hn. intros Lo.
    assert (1 <= length (snd b)) by (pose proof (lc_all _ _ _ _ _ Lo 0 HB1) as X; destruct (snd b); [destruct X|cbn; lia]).
    destruct (Nat.eq_dec (length (snd b)) 1); [|right; intros _; lia].
    destruct Hn as [[_ ->]|[[-> ->]|[_ ->]]]; [right; discriminate|left; auto|right; discriminate].
  Qed.
  Lemma deeper_either : forall k i X up, 0 < i -> i + k = length ps -> nth_error levels i = Some up ->
    matrix (length (snd up)) (nth (i - 1) fs 0) X ->
    (t = TPT /\ (exists j b, i < j /\ nth_error levels j = Some b /\ length (snd b) = 1) /\
     loop (seq i k) (Feat (nth (i - 1) fs 0) (inr X)) = Err InvalidArgument) \/
    exists bottom, nth_error levels (length ps) = Some bottom /\
      (t = TPT -> forall j b, i < j -> nth_error levels j = Some b -> 2 <= length (snd b)) /\
      matrix (length (snd bottom)) (nth (length ps - 1) fs 0) (deeper strided plain i (skipn i ps) (skipn i cs) up (skipn (S i) levels) X) /\
      loop (seq i k) (Feat (nth (i - 1) fs 0) (inr X))
      = Ok (Feat (nth (length ps - 1) fs 0) (inr (deeper strided plain i (skipn i ps) (skipn i cs) up (skipn (S i) levels) X))).
  Proof using All.
    pose proof (mk_large_inv _ _ _ _ _ _ _ _ _ Hnet) as (N1 & N2 & N3 & N4 & N5 & N6 & N7 & N8 & N9 & N10). cbv zeta in *.
    induction k as [|k IH]; intros i X up Hi0 Hi Eu HX.
    - right. exists up. replace i with (length ps) in * by lia. split; [exact Eu|]. split.
      { intros _ j b Hj Ej. assert (j < length levels) by (apply nth_error_Some; congruence). lia. }
      rewrite (skipn_all2 ps) by lia. split; [exact HX|]. reflexivity.
    - destruct (nth_error levels (S i)) as [lo|] eqn:Elo; [|apply nth_error_None in Elo; lia].
      destruct (Hlev i up Eu) as (pin & Ep & Lu). destruct (Hlev (S i) lo Elo) as (pout & Eq & Lo).
      destruct (nth_error cs i) as [c|] eqn:Ec; [|apply nth_error_None in Ec; lia].
      destruct (nth_error ps i) as [p|] eqn:Epp; [|apply nth_error_None in Epp; lia].
      destruct (N9 i ltac:(lia)) as (b1 & Eb1 & Mb1). destruct (N10 i ltac:(lia)) as (b2 & Eb2 & Mb2).
      change (seq i (S k)) with (i :: seq (S i) k). cbn [large_loop]. unfold h_getitem.
      replace (Z.of_nat i + 1)%Z with (Z.of_nat (S i)) by lia. rewrite !py_nth_nat, Ep, Eq. cbn [bind].
      destruct (Nat.eqb_spec i 0); [lia|]. rewrite (item_ok _ _ _ Eb1). cbn [bind]. rewrite N2, (item_ok _ _ _ Epp). cbn [bind].
      pose proof (Hwork i (S i) p up lo pin pout (or_intror (nth_error_In _ _ Epp)) Eu Elo Lu Lo) as W1.
      pose proof (Hwork (S i) (S i) c lo lo pout pout (or_introl (nth_error_In _ _ Ec)) Elo Elo Lo Lo) as W2.
      destruct (level_case lo pout Lo) as [(T1 & T2 & T3)|H2].
      { left. split; [exact T1|]. split; [exists (S i), lo; split; [lia|]; split; [exact Elo|exact T3]|]. rewrite T2 in Mb1.
        pose proof (block_single eps (nth (i - 1) fs 0) (nth i fs 0) (Some p) (sv i) b1 (bns i) p up lo pin pout X Mb1 (Hbs i) W1 T3 (level_length _ _ Lu) HX) as Q1.
        cbn [option_map] in Q1. rewrite Q1. reflexivity. }
      pose proof (block_ok eps name t (nth (i - 1) fs 0) (nth i fs 0) (Some p) (sv i) b1 (bns i) p up lo pin pout X Hn Mb1 (Hbs i) (Hpos i ltac:(lia)) W1 H2
        (level_length _ _ Lu) (level_length _ _ Lo) eq_refl HX) as Q1. cbn [option_map] in Q1. rewrite Q1. cbn [bind].
      rewrite (item_ok _ _ _ Eb2). cbn [bind]. rewrite N3, (item_ok _ _ _ Ec). cbn [bind].
      set (X1 := block_formula (conv (sv i)) (bns i) (sv i) (nth (i - 1) fs 0) (nth i fs 0) p (Some p) up lo X).
      assert (M1 : matrix (length (snd lo)) (nth i fs 0) X1) by apply mat_add_matrix.
      pose proof (block_ok eps name t (nth i fs 0) (nth i fs 0) None (bv i) b2 (bnb i) c lo lo pout pout X1 Hn Mb2 (Hbb i) (Hpos i ltac:(lia)) W2 H2
        (level_length _ _ Lo) (level_length _ _ Lo) eq_refl M1) as Q2. cbn [option_map] in Q2. rewrite Q2. cbn [bind].
      rewrite (skipn_nth ps i p Epp), (skipn_nth cs i c Ec), (skipn_nth levels (S i) lo Elo). cbn [deeper]. fold X1.
      specialize (IH (S i) (block_formula (conv (bv i)) (bnb i) (bv i) (nth i fs 0) (nth i fs 0) c None lo lo X1) lo ltac:(lia) ltac:(lia) Elo).
      rewrite Nat.sub_succ, Nat.sub_0_r in IH. destruct IH as [(T1 & (j & b & J1 & J2) & E)|(bottom & E1 & E2 & E3)]; [apply mat_add_matrix| |].
      + left. split; [exact T1|]. split; [exists j, b; split; [lia|exact J2]|exact E].
      + right. exists bottom. split; [exact E1|]. split; [|exact E3].
        intros T j b Hj Ej. destruct (Nat.eq_dec j (S i)) as [->|e]; [rewrite Elo in Ej; injection Ej as <-; auto|]. apply (E2 T j); [lia|exact Ej].
  Qed.
End Large.
