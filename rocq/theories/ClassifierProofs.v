(** Proofs of the properties of the network of modelnet40_small.py (C58). The
    statements are copied verbatim into PropertiesClassifier.v. *)
From Coq Require Import String List Arith ZArith QArith Reals Qreals Lia Lra Bool Permutation.
From Verif Require Import Tensor TensorFacts Spec SpecText TextFacts PointCloud SpecCloud PointCloudFacts QFacts Grid SpecGrid GridFacts
  Neighbors SpecNeighbors NeighborFacts NeighborProofs Neighborhood NeighborhoodFacts NeighborhoodProofs
  Sampling SpecSampling SamplingFacts SamplingProofs Hierarchy SpecHierarchy HierarchyFacts HierarchyProofs LevelFacts CloudProofs Pdf SpecPdf PdfFacts PdfProofs
  RTensor RTensorFacts Kernels KernelProofs Layers SpecLayers LayerFacts LayerLink LayerProofs ConvProofs Blocks SpecBlocks BlockFacts BlockProofs
  Classifier SpecClassifier ClassifierFacts LastLevelFacts.
Import ListNotations.
Local Open Scope nat_scope.

Lemma build_nth {A} (f : nat -> result A) n : forall k l, build f (seq k n) = Ok l ->
  length l = n /\ forall i, i < n -> exists x, nth_error l i = Some x /\ f (k + i) = Ok x.
Proof.
  induction n as [|n IH]; intros k l E.
  - cbn in E. apply ok_inj in E. subst l. split; [reflexivity|lia].
  - destruct (build_cons f k n l E) as (x & m & -> & E1 & E2). destruct (IH _ _ E2) as [H1 H2]. split; [cbn [length]; lia|].
    intros [|i] Hi; [exists x; rewrite Nat.add_0_r; auto|]. destruct (H2 i ltac:(lia)) as (y & E3 & E4). exists y.
    cbn [nth_error]. now rewrite Nat.add_succ_r.
Qed.
Lemma concat_pairs {A} : forall (ls : list (list A)) i l k, nth_error ls i = Some l ->
  (forall j x, j < i -> nth_error ls j = Some x -> length x = 2) -> k < length l -> nth_error (concat ls) (2 * i + k) = nth_error l k.
Proof.
  induction ls as [|a ls IH]; intros i l k E H2 Hk; [destruct i; discriminate|]. destruct i as [|i].
  - cbn in E. injection E as ->. cbn [concat]. rewrite nth_error_app1 by (cbn; lia). reflexivity.
  - cbn [nth_error] in E. cbn [concat]. pose proof (H2 0 a ltac:(lia) eq_refl) as La.
    rewrite nth_error_app2 by lia. replace (2 * S i + k - length a) with (2 * i + k) by lia. apply IH; auto.
    intros j x Hj Ex. apply (H2 (S j) x); [lia|exact Ex].
Qed.
Lemma item_ok {A} (l : list A) i x : nth_error l i = Some x -> item l i = Ok x.
Proof. intros E. unfold item. now rewrite py_nth_nat, E. Qed.
Lemma item_inv l i x : item l i = Ok x -> i < length l /\ x = nth i l 0.
Proof.
  unfold item. rewrite py_nth_nat. destruct (nth_error l i) eqn:E; [|discriminate]. intros H. injection H as <-. split.
  - apply nth_error_Some. congruence.
  - symmetry. now apply nth_error_nth.
Qed.
Lemma py_back (l : list nat) k x : 0 < k -> py_nth l (- Z.of_nat k) = Ok x -> k <= length l /\ x = nth (length l - k) l 0.
Proof.
  intros Hk. unfold py_nth. destruct (Z.ltb_spec (- Z.of_nat k) 0); [|lia].
  destruct (Z.ltb_spec (- Z.of_nat k + Z.of_nat (length l)) 0); [discriminate|].
  replace (Z.to_nat (- Z.of_nat k + Z.of_nat (length l))) with (length l - k) by lia.
  destruct (nth_error l (length l - k)) eqn:E; [|discriminate]. intros H1. injection H1 as <-. split; [lia|]. symmetry. now apply nth_error_nth.
Qed.
Lemma skipn_nth {A} : forall (l : list A) i x, nth_error l i = Some x -> skipn i l = x :: skipn (S i) l.
Proof. induction l as [|a l IH]; intros [|i] x E; cbn in E; try discriminate; [now injection E as ->|]. cbn [skipn]. rewrite (IH _ _ E). destruct l; [destruct i; discriminate|reflexivity]. Qed.

(** ** The constructor *)
Lemma mk_small_inv fs rs cs name mode vars ow ob net : mk_small fs rs cs name mode vars ow ob = Ok net ->
  let L := length rs in
  sn_levels net = L /\ sn_radii net = rs /\ sn_conv_radii net = cs /\ sn_mode net = mode /\ sn_norms net = 2 * (L - 1) + 2 /\
  sn_units1 net = nth (length fs - 2) fs 0 /\ sn_units2 net = nth (length fs - 1) fs 0 /\ 2 <= length fs /\
  forall i, i < L -> exists c, nth_error (sn_layers net) (i * 2) = Some (inl c) /\
    script_layer name 4 8 32 15 (item fs i) (item fs (i + 1)) (vars i) = Ok c /\
    (i < L - 1 -> exists n o, nth_error (sn_layers net) (i * 2 + 1) = Some (inr o) /\ item fs (i + 1) = Ok n /\ mk_conv1x1 n n (ow i) (ob i) = Ok o).
Proof.
  intros E L. unfold mk_small in E. fold L in E.
  apply bind_ok in E. destruct E as (ls & El & E). apply bind_ok in E. destruct E as (u1 & E1 & E). apply bind_ok in E. destruct E as (u2 & E2 & E).
  apply ok_inj in E. subst net. cbn [sn_levels sn_radii sn_conv_radii sn_mode sn_norms sn_units1 sn_units2 sn_layers].
  change (-2)%Z with (- Z.of_nat 2)%Z in E1. change (-1)%Z with (- Z.of_nat 1)%Z in E2.
  apply py_back in E1; [|lia]. apply py_back in E2; [|lia].
  split; [reflexivity|]. split; [reflexivity|]. split; [reflexivity|]. split; [reflexivity|]. split; [reflexivity|].
  split; [tauto|]. split; [tauto|]. split; [tauto|]. intros i Hi. apply build_nth in El. destruct El as [Ll Hl].
  assert (Hf : forall j, j < L -> exists x c, nth_error ls j = Some x /\
     script_layer name 4 8 32 15 (item fs j) (item fs (j + 1)) (vars j) = Ok c /\
     (j < L - 1 -> exists n o, x = [inl c; inr o] /\ item fs (j + 1) = Ok n /\ mk_conv1x1 n n (ow j) (ob j) = Ok o) /\
     (j = L - 1 -> x = [inl c])).
  { intros j Hj. destruct (Hl j Hj) as (x & Ex & Ef). rewrite Nat.add_0_l in Ef. apply bind_ok in Ef. destruct Ef as (c & Ec & Ef).
    exists x, c. split; [exact Ex|]. split; [exact Ec|]. destruct (Z.ltb_spec (Z.of_nat j) (Z.of_nat L - 1)).
    - apply bind_ok in Ef. destruct Ef as (n & En & Ef). apply bind_ok in Ef. destruct Ef as (o & Eo & Ef). apply ok_inj in Ef.
      split; [intros _; exists n, o; auto|lia].
    - apply ok_inj in Ef. split; [lia|auto]. }
  destruct (Hf i Hi) as (x & c & Ex & Ec & Hm & Hz). exists c.
  assert (H2 : forall j y, j < i -> nth_error ls j = Some y -> length y = 2).
  { intros j y Hj Ey. destruct (Hf j ltac:(lia)) as (y' & c' & Ey' & _ & Hm' & _). rewrite Ey in Ey'. injection Ey' as <-.
    destruct (Hm' ltac:(lia)) as (n & o & -> & _). reflexivity. }
  assert (Hx : 0 < length x /\ nth_error x 0 = Some (inl c)).
  { destruct (Nat.eq_dec i (L - 1)) as [e|e]; [rewrite (Hz e); cbn; split; [lia|auto]|].
    destruct (Hm ltac:(lia)) as (n & o & -> & _). cbn. split; [lia|auto]. }
  split; [|split; [exact Ec|]].
  - replace (i * 2) with (2 * i + 0) by lia. rewrite (concat_pairs ls i x 0) by (try tauto; auto). apply Hx.
  - intros Hi'. destruct (Hm Hi') as (n & o & Ex' & En & Eo). exists n, o. split; [|auto].
    replace (i * 2 + 1) with (2 * i + 1) by lia. rewrite (concat_pairs ls i x 1); auto; rewrite Ex'; [reflexivity|cbn; lia].
Qed.

(** ** The loop *)
Section Small.
  Context (eps : Q) (B : nat) (sizes : list nat) (h : hierarchy) (levels : list batch).
  Context (fs : list nat) (rs cs : list Q) (name mode : string) (t : conv_type) (vars : nat -> conv_vars) (ow ob : nat -> list nat -> R).
  Context (net : small_net) (bn : nat -> mat -> mat).
  Context (Hnet : mk_small fs rs cs name mode vars ow ob = Ok net) (Hn : conv_named name t) (HB1 : 1 <= B).
  Context (Hpos : Forall (fun c => 0 < c) fs) (Hbn : forall k, keeps_shape (bn k)).
  Context (HL : length levels = S (length rs)) (Hcs : length cs = length rs).
  Context (Hlev : forall i b, nth_error levels i = Some b -> exists q, nth_error (hclouds h) i = Some q /\ level_cloud eps B sizes b q).
  Context (Hwork : forall i j r up lo pin pout, In r cs -> nth_error levels i = Some up -> nth_error levels j = Some lo ->
    level_cloud eps B sizes up pin -> level_cloud eps B sizes lo pout ->
    workable eps 3 r (fst up) (snd up) pin (fst lo) (snd lo) pout).

  Notation chans := (fun i => nth i fs 0).
  Notation conv := (fun i r up lo X => script_formula t 4 8 (vars i) (nth i fs 0) (nth (S i) fs 0) r up lo X).
  Notation post := (small_post bn chans ow ob).

  (** The features of the last level, or a PointConv with one output point. *)
  Lemma small_loop_either : forall k i x F up pin, i + S k = length rs -> nth_error levels i = Some up ->
    nth_error (hclouds h) i = Some pin -> level_cloud eps B sizes up pin -> given x pin (nth i fs 0) F ->
    (t = TPT /\ (exists j b, i < j /\ nth_error levels j = Some b /\ length (snd b) = 1) /\
     small_loop GPU eps (find_neighbors_tf GPU) (compute_pdf_tf GPU) net bn h (seq i (S k)) x = Err InvalidArgument) \/
    exists bottom, nth_error levels (length rs) = Some bottom /\
      (t = TPT -> forall j b, i < j -> nth_error levels j = Some b -> 2 <= length (snd b)) /\
      matrix (length (snd bottom)) (nth (length rs) fs 0) (encoded conv post i (skipn i cs) up (skipn (S i) levels) F) /\
      small_loop GPU eps (find_neighbors_tf GPU) (compute_pdf_tf GPU) net bn h (seq i (S k)) x
      = Ok (Feat (nth (length rs) fs 0) (inr (by_element B (snd bottom) (encoded conv post i (skipn i cs) up (skipn (S i) levels) F)))).
  Proof using All.
    pose proof (mk_small_inv _ _ _ _ _ _ _ _ _ Hnet) as (N1 & N2 & N3 & N4 & N5 & N6 & N7 & N8 & N9). cbv zeta in *.
    assert (Hp : forall i x, item fs i = Ok x -> 0 < nth i fs 0).
    { intros i x Ei. apply item_inv in Ei. destruct Ei as [Ei _]. rewrite Forall_forall in Hpos. apply Hpos, nth_In, Ei. }
    induction k as [|k IH]; intros i x F up pin Hi Eu Ep Lu Hg.
    all: destruct (N9 i ltac:(lia)) as (c & Ec & El & Ho).
    all: destruct (nth_error levels (S i)) as [lo|] eqn:Elo; [|apply nth_error_None in Elo; lia].
    all: destruct (Hlev (S i) lo Elo) as (pout & Eq & Lo).
    all: destruct (nth_error cs i) as [r|] eqn:Er; [|apply nth_error_None in Er; lia].
    all: pose proof (Hwork i (S i) r up lo pin pout (nth_error_In _ _ Er) Eu Elo Lu Lo) as W.
    all: assert (Hin : item fs i = Ok (nth i fs 0) /\ item fs (i + 1) = Ok (nth (S i) fs 0)).
    all: try (replace (i + 1) with (S i) in * by lia; destruct (item fs i) as [a|ea] eqn:Ea; destruct (item fs (S i)) as [b|eb] eqn:Eb;
      try (exfalso; destruct Hn as [[-> _]|[[-> _]|[-> _]]]; discriminate);
      apply item_inv in Ea; apply item_inv in Eb; destruct Ea as [_ ->]; destruct Eb as [_ ->]; split; reflexivity).
    all: destruct Hin as [Ei Eo]; pose proof (Hp _ _ Ei) as Pi; pose proof (Hp _ _ Eo) as Po; replace (i + 1) with (S i) in * by lia.
    all: rewrite Ei, Eo in El.
    all: assert (Hcase : t = TPT /\ length (snd lo) = 1 \/ (t = TPT -> 2 <= length (snd lo))).
    1,3: assert (1 <= length (snd lo)) by (pose proof (lc_all _ _ _ _ _ Lo 0 HB1) as X; destruct (snd lo); [destruct X|cbn; lia]).
    1,2: destruct (Nat.eq_dec (length (snd lo)) 1); [destruct t; first [left; split; [reflexivity|assumption]|right; discriminate]|right; intros _; lia].
    all: match goal with |- context [small_loop _ _ _ _ _ _ _ (seq ?a (S ?m)) _] => change (seq a (S m)) with (a :: seq (S a) m) end.
    all: cbn [small_loop]; unfold conv_item; rewrite (item_ok _ _ _ Ec); cbn [bind]; unfold h_getitem.
    all: replace (Z.of_nat i + 1)%Z with (Z.of_nat (S i)) by lia; rewrite !py_nth_nat, Ep, Eq; cbn [bind].
    all: rewrite N3, (item_ok _ _ _ Er); cbn [bind]; rewrite N1.
    all: rewrite (skipn_nth cs i r Er), (skipn_nth levels (S i) lo Elo); cbn [encoded].
    all: destruct Hcase as [[T1 T2]|Hcase]; [left; split; [exact T1|]; split; [exists (S i), lo; split; [lia|]; split; [exact Elo|exact T2]|];
      assert (En : name = "PointConv"%string) by (destruct Hn as [[_ X]|[[X _]|[_ X]]]; [congruence|exact X|congruence]); rewrite En in El;
      pose proof (fun srt => point_conv_single eps 4 8 _ _ (vars i) c r up lo pin pout x F srt El W T2 Hg) as Hs; rewrite !Hs; destruct (_ <? _)%Z; reflexivity|].
    all: pose proof (fun srt => script_conv_ok eps name t 4 8 _ _ (vars i) c r up lo pin pout x F srt Hn El W Hcase Pi Po Hg) as Hconv.
    - right. destruct (Z.ltb_spec (Z.of_nat i) (Z.of_nat (length rs) - 1)); [lia|].
      rewrite Hconv. assert (Es : S i = length rs) by lia. rewrite (skipn_all2 levels) by lia.
      exists lo. rewrite <- Es. split; [exact Elo|]. split; [|split; [apply formula_matrix|]].
      { intros T j b Hj Ej. destruct (Nat.eq_dec j (S i)) as [->|e]; [rewrite Elo in Ej; injection Ej as <-; auto|].
        assert (j < length levels) by (apply nth_error_Some; congruence). lia. }
      rewrite (returned_sorted eps 3 (fst lo) (snd lo) B pout) by (try apply Lo; apply (proj1 (formula_matrix _ _ _ _ _ _ _ _ _ _))). reflexivity.
    - destruct (Z.ltb_spec (Z.of_nat i) (Z.of_nat (length rs) - 1)); [|lia].
      rewrite Hconv. rewrite (returned_rows pout (length (snd lo))) by apply formula_matrix. cbn [bind]. rewrite activated_ok. cbn [bind].
      destruct (Ho ltac:(lia)) as (n & o & En & En' & Eo'). unfold one_item. rewrite (item_ok _ _ _ En). cbn [bind].
      rewrite Eo in En'. apply ok_inj in En'. subst n.
      pose proof (ic_len _ _ _ _ _ _ _ (cloud_is _ _ _ _ _ _ _ (lc_cloud _ _ _ _ _ Lo))) as Ll.
      pose proof (ic_pts _ _ _ _ _ _ _ (cloud_is _ _ _ _ _ _ _ (lc_cloud _ _ _ _ _ Lo))) as Lp.
      assert (M1 : matrix (length (snd lo)) (nth (S i) fs 0) (activated (bn (i * 2)) (script_formula t 4 8 (vars i) (nth i fs 0) (nth (S i) fs 0) r up lo F)))
        by (apply activated_keeps; [apply Hbn|apply formula_matrix]).
      rewrite (conv1x1_ok (length (snd lo)) _ _ (ow i) (ob i) o) by (first [eassumption|rewrite Lp; exact Ll]). cbn [bind]. rewrite activated_ok. cbn [bind].
      destruct (skipn (S (S i)) levels) as [|lo2 rest] eqn:Erest.
      { exfalso. apply (f_equal (@length batch)) in Erest. rewrite skipn_length in Erest. cbn in Erest. lia. }
      rewrite <- Erest.
      replace (activated (bn (i * 2 + 1)) (affine (length (snd lo)) (nth (S i) fs 0) (nth (S i) fs 0) (ow i) (ob i)
          (activated (bn (i * 2)) (script_formula t 4 8 (vars i) (nth i fs 0) (nth (S i) fs 0) r up lo F))))
        with (post i (length (snd lo)) (script_formula t 4 8 (vars i) (nth i fs 0) (nth (S i) fs 0) r up lo F))
        by (unfold small_post; now rewrite (Nat.mul_comm i 2)).
      match goal with |- context [small_loop _ _ _ _ _ _ _ _ ?y = Err _] => set (y0 := y) end.
      destruct (IH (S i) y0 (post i (length (snd lo)) (script_formula t 4 8 (vars i) (nth i fs 0) (nth (S i) fs 0) r up lo F)) lo pout ltac:(lia) Elo Eq Lo)
        as [(T1 & (j & b & J1 & J2) & E)|(bottom & E1 & E2 & E3 & E4)].
      + apply (given_rows (length (snd lo))); [|rewrite Lp; exact Ll]. unfold small_post. apply activated_keeps; [apply Hbn|apply affine_matrix].
      + left. split; [exact T1|]. split; [exists j, b; split; [lia|exact J2]|exact E].
      + right. exists bottom. split; [exact E1|]. split; [|split; [exact E3|exact E4]].
        intros T j b Hj Ej. destruct (Nat.eq_dec j (S i)) as [->|e]; [rewrite Elo in Ej; injection Ej as <-; auto|]. apply (E2 T j); [lia|exact Ej].
  Qed.
End Small.

Lemma last_cons {A} : forall (l : list A) x a, last (x :: l) a = last l x.
Proof.
  induction l as [|y l IH]; intros x a; [reflexivity|]. change (last (x :: y :: l) a) with (last (y :: l) a). now rewrite !IH.
Qed.
Lemma last_nth {A} : forall (data : list A) x, nth_error (x :: data) (length data) = Some (last data x).
Proof.
  induction data as [|y data IH]; intros x; [reflexivity|]. rewrite last_cons. exact (IH y).
Qed.
Lemma input_facts eps B V points sizes radii mode fuel : input_batch eps B V points sizes radii mode fuel ->
  length (valid_rows sizes V points) = length (ids_of_sizes sizes).
Proof. intros H. apply (padded_facts eps B V points sizes radii mode fuel), input_padded, H. Qed.

(** Any two levels can be searched with the radii of the layers. *)
Lemma levels_search eps B V points sizes radii mode fuel data cs :
  let input := (valid_rows sizes V points, ids_of_sizes sizes) in
  padded_input eps B V points sizes radii mode fuel ->
  chain (next_level mode eps 3) (map (fun r => repeat r 3) radii) (input :: data) ->
  Forall (fun r => (0 < r)%Q /\ few_cells eps 3 (repeat r 3) B input) cs ->
  forall i j r up lo pin pout, In r cs -> nth_error (input :: data) i = Some up -> nth_error (input :: data) j = Some lo ->
    level_cloud eps B sizes up pin -> level_cloud eps B sizes lo pout ->
    workable eps 3 r (fst up) (snd up) pin (fst lo) (snd lo) pout.
Proof.
  intros input Hb Hch Hcs i j r up lo pin pout Hr Eu El Lu Ll. rewrite Forall_forall in Hcs. destruct (Hcs r Hr) as [R1 R2].
  pose proof (padded_facts _ _ _ _ _ _ _ _ Hb) as HL. pose proof (pi_build _ _ _ _ _ _ _ _ Hb) as [].
  eapply level_workable; eauto; first [apply Lu|apply Ll].
Qed.
Lemma levels_work eps B V points sizes radii mode fuel data cs :
  let input := (valid_rows sizes V points, ids_of_sizes sizes) in
  input_batch eps B V points sizes radii mode fuel ->
  chain (next_level mode eps 3) (map (fun r => repeat r 3) radii) (input :: data) ->
  Forall (fun r => (0 < r)%Q /\ few_cells eps 3 (repeat r 3) B input) cs ->
  forall i j r up lo pin pout, In r cs -> nth_error (input :: data) i = Some up -> nth_error (input :: data) j = Some lo ->
    level_cloud eps B sizes up pin -> level_cloud eps B sizes lo pout ->
    workable eps 3 r (fst up) (snd up) pin (fst lo) (snd lo) pout.
Proof. intros input Hb. cbv zeta. apply levels_search with (1 := input_padded _ _ _ _ _ _ _ _ Hb). Qed.

Lemma head_ok n c u1 u2 bn0 bn1 (drop : nat -> mat -> mat) dw db X X' : keeps_shape bn0 -> keeps_shape bn1 -> keeps_shape (drop 0) -> keeps_shape (drop 1) ->
  matrix n c X -> X' = X ->
  (x1 <- on_rows (fun Y => drop 0 (leaky_layer (bn0 Y))) (Feat c (inr X)) ;;
   x2 <- dense u1 (dw 0) (db 0) x1 ;;
   x3 <- on_rows (fun Y => drop 1 (leaky_layer (bn1 Y))) x2 ;;
   dense u2 (dw 1) (db 1) x3)
  = Ok (Feat u2 (inr (dense_head (fun Y => drop 0 (activated bn0 Y)) (fun Y => drop 1 (activated bn1 Y)) dw db n c u1 u2 X'))).
Proof.
  intros H1 H2 H3 H4 HX ->. unfold on_rows at 1. cbn [frows fch bind].
  rewrite (dense_ok n) by (apply H3, (activated_keeps bn0 H1), HX). cbn [bind]. unfold on_rows. cbn [frows fch bind].
  rewrite (dense_ok n) by (apply H4, (activated_keeps bn1 H2), affine_matrix). reflexivity.
Qed.

Lemma chain_prefix {A C} (R : A -> C -> C -> Prop) : forall l xs y, chain R xs (y :: l) -> forall k b, nth_error (y :: l) k = Some b ->
  chain R (firstn k xs) (y :: firstn k l) /\ last (firstn k l) y = b.
Proof.
  induction l as [|z l IH]; intros xs y Hc k b E.
  - destruct k as [|k]; [|destruct k; discriminate]. injection E as <-. cbn. split; [constructor|reflexivity].
  - destruct k as [|k]; [injection E as <-; cbn; split; [constructor|reflexivity]|].
    inversion Hc as [|x xs' y' z' ys HR Hc']; subst. destruct (IH xs' z Hc' k b E) as [H1 H2]. cbn [firstn].
    split; [now constructor|]. now rewrite last_cons.
Qed.

Lemma single_no_elements mode eps D xs input data B : chain (next_level mode eps D) xs (input :: data) -> length (fst input) = length (snd input) ->
  all_nonempty B (snd input) -> 2 <= B -> length (snd (last data input)) = 1 -> False.
Proof. intros Hch HL HN HB H1. pose proof (two_elements B _ HB (chain_elements _ _ _ _ _ _ B Hch HL HN)). lia. Qed.

(** C58, every batch, one cloud included: a row of logits per point of the last
    level, or an exception that a level with a single point causes. With Poisson
    disk sampling that is any level but the last one, which has to be sampled
    again, with PointConv any level but the first one, which a convolution has
    to fill. *)
Lemma C58_every_batch_partial_proof :
  forall eps B V points sizes feature_sizes sample_radii conv_radii name t mode vars ow ob net bn drop dw db fuel draws features,
    let L := length sample_radii in
    let chans := fun i => nth i feature_sizes 0 in
    let u1 := nth (length feature_sizes - 2) feature_sizes 0 in
    let u2 := nth (length feature_sizes - 1) feature_sizes 0 in
    let input := (valid_rows sizes V points, ids_of_sizes sizes) in
    padded_input eps B V points sizes sample_radii mode fuel -> 0 < L ->
    search_radii eps B input L conv_radii -> conv_named name t -> Forall (fun c => 0 < c) feature_sizes ->
    mk_small feature_sizes sample_radii conv_radii name mode vars ow ob = Ok net ->
    (forall k, keeps_shape (bn k)) -> (forall k, keeps_shape (drop k)) ->
    length features = B * V -> Forall (fun row => length row = chans 0) features ->
    (exists k data, k <= L /\ (means mode poisson_names /\ k < L \/ t = TPT /\ 0 < k) /\
       chain (next_level mode eps 3) (firstn k (map (fun r => repeat r 3) sample_radii)) (input :: data) /\
       length (snd (last data input)) = 1 /\
       small_call GPU eps (find_neighbors_tf GPU) (compute_pdf_tf GPU) net bn drop dw db fuel draws B
         (Padded [B] V points) (Feat (chans 0) (inl (Padded [B] V features))) sizes
       = Some (Err InvalidArgument)) \/
    exists data, chain (next_level mode eps 3) (map (fun r => repeat r 3) sample_radii) (input :: data) /\
      (means mode poisson_names -> forall k b, k < L -> nth_error (input :: data) k = Some b -> 2 <= length (snd b)) /\
      (t = TPT -> forall k b, 0 < k -> nth_error (input :: data) k = Some b -> 2 <= length (snd b)) /\
      let bottom := snd (last data input) in
      let conv := fun i r up lo X => script_formula t 4 8 (vars i) (chans i) (chans (S i)) r up lo X in
      let features_below := encoded conv (small_post bn chans ow ob) 0 conv_radii input data (rows_for V (snd input) features) in
      let encoding := by_element B bottom features_below in
      let logits := dense_head (fun X => drop 0 (activated (bn (2 * L - 2)) X)) (fun X => drop 1 (activated (bn (2 * L - 1)) X))
        dw db (length bottom) (chans L) u1 u2 encoding in
      matrix (length bottom) u2 logits /\ all_nonempty B bottom /\
      (forall r, nth_error sample_radii (L - 1) = Some r -> one_sample mode eps r input ->
         length bottom = B /\
         forall b, b < B -> exists k, k < B /\ nth k bottom 0 = b /\ nth b encoding [] = nth k features_below []) /\
      small_call GPU eps (find_neighbors_tf GPU) (compute_pdf_tf GPU) net bn drop dw db fuel draws B
        (Padded [B] V points) (Feat (chans 0) (inl (Padded [B] V features))) sizes
      = Some (Ok (Feat u2 (inr logits))).
Proof.
  intros eps B V points sizes fs rs cs name t mode vars ow ob net bn drop dw db fuel draws features L chans u1 u2 input
    Hb HL [Hc1 Hc2] Hn Hpos Hnet Hbn Hdr Hf1 Hf2.
  pose proof (mk_small_inv _ _ _ _ _ _ _ _ _ Hnet) as (N1 & N2 & N3 & N4 & N5 & N6 & N7 & N8 & N9). cbv zeta in *. fold L in N1, N5, N9.
  destruct (script_hierarchy_either eps B V points sizes rs mode fuel draws Hb) as [(k & data & Eh & Hpo & Hk & Hch & H1)|(h & data & Eh & Hch & Hlen & H2p & Hlev)].
  { left. exists k, data. split; [fold L in Hk; lia|]. split; [now left|]. split; [exact Hch|]. split; [exact H1|]. unfold small_call. rewrite N2, N4, Eh. reflexivity. }
  cbv zeta in *. fold input in Hch, Hlen, H2p, Hlev.
  assert (Hll : length (input :: data) = S L).
  { pose proof (chain_length _ _ _ Hch) as Y. rewrite map_length in Y. exact Y. }
  pose proof (levels_search _ _ _ _ _ _ _ _ _ _ Hb Hch Hc2) as Hwork. cbv zeta in Hwork. fold input in Hwork.
  destruct (Hlev 0 input eq_refl) as (q0 & Eq0 & L0).
  assert (Hg : given (Feat (chans 0) (inl (Padded [B] V features))) q0 (nth 0 fs 0) (rows_for V (snd input) features)).
  { apply (level_given eps B sizes); auto; [apply Hb|]. eapply Forall_impl; [|apply (pi_sizes _ _ _ _ _ _ _ _ Hb)]. cbn. lia. }
  destruct (small_loop_either eps B sizes h (input :: data) fs rs cs name mode t vars ow ob net bn Hnet Hn (pi_clouds _ _ _ _ _ _ _ _ Hb) Hpos Hbn Hll Hc1 Hlev Hwork
    (L - 1) 0 _ _ input q0 ltac:(fold L; lia) eq_refl Eq0 L0 Hg) as [(T1 & (j & b & J1 & J2 & J3) & E)|(bottom & Ebot & H2t & M & E)].
  { left. destruct (chain_prefix _ _ _ _ Hch j b J2) as [Hpre Elast]. exists j, (firstn j data).
    assert (Hj : j < length (input :: data)).
    { apply nth_error_Some. intros X. pose proof (eq_trans (eq_sym J2) X) as Y. discriminate Y. }
    split; [rewrite Hll in Hj; lia|]. split; [right; split; [exact T1|exact J1]|]. split; [exact Hpre|]. split; [exact (eq_trans (f_equal (fun b : batch => length (snd b)) Elast) J3)|].
    unfold small_call. rewrite N1, N2, N4, Eh. f_equal. replace (S (L - 1)) with L in E by lia. rewrite E. reflexivity. }
  right. exists data. split; [exact Hch|]. split; [exact H2p|]. split; [exact H2t|]. cbv zeta.
  assert (Eb : last data input = bottom).
  { pose proof (last_nth data input) as H1. cbn [length] in Hll. replace (length data) with (length rs) in H1 by (fold L; lia).
    assert (X : Some (last data input) = Some bottom) by (rewrite <- H1; exact Ebot). now injection X. }
  rewrite Eb. cbn [skipn] in M, E. replace (S (L - 1)) with L in E by lia.
  destruct (Hlev _ _ Ebot) as (qb & _ & Lb). pose proof (ic_ids _ _ _ _ _ _ _ (cloud_is _ _ _ _ _ _ _ (lc_cloud _ _ _ _ _ Lb))) as HB.
  pose proof (by_element_matrix B (snd bottom) _ _ _ eq_refl HB M) as M'.
  split; [apply affine_matrix|]. split; [apply Lb|]. split.
  { intros r Er Hone. pose proof (padded_facts _ _ _ _ _ _ _ _ Hb) as Hil. destruct (pi_build _ _ _ _ _ _ _ _ Hb) as [I1 _ _ I4 _ _ I7 _].
    assert (Rp : (0 < r)%Q).
    { rewrite Forall_forall in I7. destruct (I7 [r]) as (_ & _ & X & _); [exact (in_map (fun x : Q => [x]) _ _ (nth_error_In _ _ Er))|]. now inversion X. }
    destruct (nth_error (input :: data) (L - 1)) as [up|] eqn:Eup; [|apply nth_error_None in Eup; lia].
    assert (ND : NoDup (snd bottom)).
    { apply (last_single mode eps 3 rs r (fst input) (snd input) data up bottom I1 Rp Hil I4 Hch eq_refl ltac:(lia)) with (k := L - 1); auto.
      replace (S (L - 1)) with L by lia. exact Ebot. }
    pose proof (distinct_ids B _ ND HB (lc_all _ _ _ _ _ Lb)) as Eln. split; [exact Eln|]. intros b Hb'.
    destruct (elements_single (@nil R) B _ (snd bottom) ND HB (lc_all _ _ _ _ _ Lb) (proj1 M) b Hb') as (k & K1 & K2 & K3).
    exists k. split; [rewrite Eln in K1; exact K1|]. split; [exact K2|exact K3]. }
  unfold small_call. rewrite N1, N2, N4, Eh. f_equal. fold L. rewrite E. cbn [bind].
  rewrite N5, N6, N7. replace (2 * (L - 1) + 2 - 2) with (2 * L - 2) by lia. replace (2 * (L - 1) + 2 - 1) with (2 * L - 1) by lia.
  exact (head_ok _ _ _ _ _ _ _ dw db _ _ (Hbn _) (Hbn _) (Hdr 0) (Hdr 1) M' eq_refl).
Qed.

(** C58. The logits: the convolutions along the hierarchy with normalisation,
    activation and an affine map of the channels between them, the rows of the
    last level sorted by batch element, then the two dense layers. The input
    features belong to the points of the same rows. There is one row of logits
    per point of the last level, thus at least one per element; exactly one per
    element, in the order of the elements, if the last radius exceeds the size
    of the elements. *)
Lemma C58_logits_partial_proof :
  forall eps B V points sizes feature_sizes sample_radii conv_radii name t mode vars ow ob net bn drop dw db fuel draws features,
    let L := length sample_radii in
    let chans := fun i => nth i feature_sizes 0 in
    let u1 := nth (length feature_sizes - 2) feature_sizes 0 in
    let u2 := nth (length feature_sizes - 1) feature_sizes 0 in
    let input := (valid_rows sizes V points, ids_of_sizes sizes) in
    input_batch eps B V points sizes sample_radii mode fuel -> 0 < L ->
    search_radii eps B input L conv_radii -> conv_named name t -> (t = TPT -> 2 <= B) -> Forall (fun c => 0 < c) feature_sizes ->
    mk_small feature_sizes sample_radii conv_radii name mode vars ow ob = Ok net ->
    (forall k, keeps_shape (bn k)) -> (forall k, keeps_shape (drop k)) ->
    length features = B * V -> Forall (fun row => length row = chans 0) features ->
    exists data, chain (next_level mode eps 3) (map (fun r => repeat r 3) sample_radii) (input :: data) /\
      let bottom := snd (last data input) in
      let conv := fun i r up lo X => script_formula t 4 8 (vars i) (chans i) (chans (S i)) r up lo X in
      let features_below := encoded conv (small_post bn chans ow ob) 0 conv_radii input data (rows_for V (snd input) features) in
      let encoding := by_element B bottom features_below in
      let logits := dense_head (fun X => drop 0 (activated (bn (2 * L - 2)) X)) (fun X => drop 1 (activated (bn (2 * L - 1)) X))
        dw db (length bottom) (chans L) u1 u2 encoding in
      matrix (length bottom) u2 logits /\ all_nonempty B bottom /\
      (forall r, nth_error sample_radii (L - 1) = Some r -> one_sample mode eps r input ->
         length bottom = B /\
         forall b, b < B -> exists k, k < B /\ nth k bottom 0 = b /\ nth b encoding [] = nth k features_below []) /\
      small_call GPU eps (find_neighbors_tf GPU) (compute_pdf_tf GPU) net bn drop dw db fuel draws B
        (Padded [B] V points) (Feat (chans 0) (inl (Padded [B] V features))) sizes
      = Some (Ok (Feat u2 (inr logits))).
Proof.
  intros eps B V points sizes fs rs cs name t mode vars ow ob net bn drop dw db fuel draws features L chans u1 u2 input
    Hb HL Hs Hn Ht Hpos Hnet Hbn Hdr Hf1 Hf2.
  destruct (C58_every_batch_partial_proof eps B V points sizes fs rs cs name t mode vars ow ob net bn drop dw db fuel draws features
    (input_padded _ _ _ _ _ _ _ _ Hb) HL Hs Hn Hpos Hnet Hbn Hdr Hf1 Hf2) as [(k & data & _ & Hcase & Hch & H1 & _)|(data & Hch & _ & _ & H)].
  - exfalso. destruct (ib_sizes _ _ _ _ _ _ _ _ Hb) as [S1 S2]. destruct (ib_clouds _ _ _ _ _ _ _ _ Hb) as [_ HB].
    exact (single_no_elements _ _ _ _ _ _ B Hch (input_facts _ _ _ _ _ _ _ _ Hb)
      (ids_nonempty sizes B S1 (Forall_impl _ (fun n Hn => proj1 Hn) S2)) ltac:(destruct Hcase as [[Hp _]|[Hp _]]; auto) H1).
  - exists data. split; [exact Hch|exact H].
Qed.

(** C58 refuted: if no two points of an element are closer than the radius of
    the only level, there is a row of logits for every point of the batch, thus
    more rows than elements as soon as an element has two points. *)
Lemma C58_rows_refuted_proof :
  forall eps B V points sizes feature_sizes r conv_radii name t mode vars ow ob net bn drop dw db fuel draws features,
    let input := (valid_rows sizes V points, ids_of_sizes sizes) in
    let u2 := nth (length feature_sizes - 1) feature_sizes 0 in
    input_batch eps B V points sizes [r] mode fuel -> means mode poisson_names ->
    search_radii eps B input 1 conv_radii -> conv_named name t -> Forall (fun c => 0 < c) feature_sizes ->
    mk_small feature_sizes [r] conv_radii name mode vars ow ob = Ok net ->
    (forall k, keeps_shape (bn k)) -> (forall k, keeps_shape (drop k)) ->
    length features = B * V -> Forall (fun row => length row = nth 0 feature_sizes 0) features ->
    (forall i j, i < length (snd input) -> j < length (snd input) -> i <> j -> nth i (snd input) 0 = nth j (snd input) 0 ->
       (r * r <= dist2 3 (nth i (fst input) []) (nth j (fst input) []))%Q) ->
    (exists b, 1 < nth b sizes 0) ->
    exists logits,
      small_call GPU eps (find_neighbors_tf GPU) (compute_pdf_tf GPU) net bn drop dw db fuel draws B
        (Padded [B] V points) (Feat (nth 0 feature_sizes 0) (inl (Padded [B] V features))) sizes
      = Some (Ok (Feat u2 (inr logits))) /\ length logits = length (snd input) /\ B < length logits.
Proof.
  intros eps B V points sizes fs r cs name t mode vars ow ob net bn drop dw db fuel draws features input u2
    Hb Hm Hc Hn Hpos Hnet Hbn Hdr Hf1 Hf2 Hsep [b0 Hb0].
  destruct (C58_logits_partial_proof eps B V points sizes fs [r] cs name t mode vars ow ob net bn drop dw db fuel draws features
    Hb ltac:(cbn; lia) Hc Hn (fun _ => proj2 (ib_clouds _ _ _ _ _ _ _ _ Hb) Hm) Hpos Hnet Hbn Hdr Hf1 Hf2) as (data & Hch & [HM _] & _ & _ & E).
  eexists. split; [exact E|]. rewrite HM. clear E HM. fold input in Hch |- *.
  assert (Hall : length (snd input) <= length (snd (last data input)) <= length (snd input)).
  { cbn [map] in Hch. inversion Hch as [|x xs y z ys Hnx Hrest]; subst. inversion Hrest; subst. cbn [last].
    destruct Hnx as [(_ & sel & (N1 & N2 & _ & N4) & _ & E2)|(Ha & _)].
    - rewrite E2, map_length. split.
      + rewrite <- (seq_length (length (snd input)) 0). apply NoDup_incl_length; [apply seq_NoDup|]. intros j Hj. apply in_seq in Hj.
        destruct (N4 j ltac:(lia)) as (i & I1 & I2 & I3). destruct (Nat.eq_dec j i) as [->|e]; [exact I1|]. exfalso.
        rewrite Forall_forall in N2. specialize (Hsep j i ltac:(lia) (N2 i I1) e I2). cbn [nth repeat] in I3.
        apply (Qlt_irrefl (r * r)%Q). eapply Qle_lt_trans; eauto.
      + rewrite <- (seq_length (length (snd input)) 0). apply NoDup_incl_length; [exact N1|]. intros j Hj. rewrite Forall_forall in N2.
        apply in_seq. specialize (N2 j Hj). lia.
    - pose proof (sample_mode_poisson _ Hm). pose proof (sample_mode_average _ Ha). congruence. }
  split; [lia|]. enough (B < length (snd input)) by lia. clear - Hb Hb0. cbn [snd input].
  destruct (ib_sizes _ _ _ _ _ _ _ _ Hb) as [<- Hs]. clear Hb. revert b0 Hb0. unfold ids_of_sizes.
  assert (Hge : forall k (l : list nat), Forall (fun n => 1 <= n <= V) l -> length l <= length (concat (map (fun b => repeat b (nth (b - k) l 0)) (seq k (length l)))) /\
    forall b0, 1 < nth b0 l 0 -> length l < length (concat (map (fun b => repeat b (nth (b - k) l 0)) (seq k (length l))))).
  { intros k l. revert k. induction l as [|n l IH]; intros k Hl; [cbn; split; [lia|intros [|b]; cbn; lia]|].
    inversion Hl as [|? ? H1 H2]; subst. cbv beta in H1. specialize (IH (S k) H2). cbn [length seq map concat]. rewrite app_length, repeat_length, Nat.sub_diag. change (nth 0 (n :: l) 0) with n.
    replace (map (fun b => repeat b (nth (b - k) (n :: l) 0)) (seq (S k) (length l))) with (map (fun b => repeat b (nth (b - S k) l 0)) (seq (S k) (length l))).
    2:{ apply map_ext_in. intros b Hb. apply in_seq in Hb. f_equal. replace (b - k) with (S (b - S k)) by lia. reflexivity. }
    destruct IH as [I1 I2]. split; [lia|]. intros [|b0] Hb; cbn [nth] in Hb; [lia|]. specialize (I2 b0 Hb). lia. }
  intros b0 Hb0. destruct (Hge 0 sizes Hs) as [_ H]. specialize (H b0 Hb0).
  erewrite map_ext; [exact H|]. intros b. cbv beta. now rewrite Nat.sub_0_r.
Qed.

(** C58. A name that is none of the three is rejected by the constructor. *)
Lemma C58_unknown_proof :
  forall feature_sizes r sample_radii conv_radii name mode vars ow ob,
    ~ (exists t, conv_named name t) ->
    mk_small feature_sizes (r :: sample_radii) conv_radii name mode vars ow ob = Err ValueError.
Proof.
  intros fs r rs cs name mode vars ow ob Hno. unfold mk_small. cbn [length seq build].
  assert (E : forall i o v, script_layer name 4 8 32 15 i o v = Err ValueError).
  { intros i o v. unfold script_layer.
    destruct (String.eqb_spec name "MCConv") as [->|_]; [destruct Hno; exists TMC; left; auto|].
    destruct (String.eqb_spec name "PointConv") as [->|_]; [destruct Hno; exists TPT; right; left; auto|].
    destruct (String.eqb_spec name "KPConv") as [->|_]; [destruct Hno; exists TKP; right; right; auto|]. reflexivity. }
  rewrite E. reflexivity.
Qed.

(** ** Concrete cases: two elements with two points and one point, padded to
    three rows; radii 1 and 4. *)
Definition ex58_points : list point :=
  [[0;0;0]; [2#1;0;0]; [9#1;9#1;9#1]; [0;1#1;0]; [9#1;9#1;9#1]; [9#1;9#1;9#1]]%Q.
Definition ex58_sizes : list nat := [2; 1].
Lemma ex58_batch radii : In radii [[1#1]; [1#1; 4#1]]%Q -> input_batch (1#1000) 2 3 ex58_points ex58_sizes radii "poisson disk" 3.
Proof.
  intros Hr. split.
  - split; [reflexivity|repeat constructor].
  - split; [reflexivity|]. constructor; [lia|]. constructor; [lia|constructor].
  - lia.
  - left. apply means_poisson. cbn; tauto.
  - assert (G : Forall (good_sizes 3) [[1#1]; [4#1]]%Q).
    { constructor; [|constructor; [|constructor]]; (split; [discriminate|split; [cbn; lia|split]]);
        try (constructor; [reflexivity|constructor]); vm_compute; discriminate. }
    assert (C : Forall (fun l => few_cells (1#1000) 3 (filled_with_first 3 l) 2 (valid_rows ex58_sizes 3 ex58_points, ids_of_sizes ex58_sizes)) [[1#1]; [4#1]]%Q).
    { constructor; [|constructor; [|constructor]]; apply (few_cells_check _ _ _ _ _ _ [4;4;4]%Z); try reflexivity; vm_compute; discriminate. }
    constructor; [reflexivity|vm_compute; discriminate|lia|discriminate|reflexivity|cbn; lia| |].
    + destruct Hr as [<-|[<-|[]]]; cbn [map]; [inversion G; subst; constructor; [assumption|constructor]|exact G].
    + destruct Hr as [<-|[<-|[]]]; cbn [map]; [inversion C; subst; constructor; [assumption|constructor]|exact C].
Qed.
Lemma ex58_search n radii : In (n, radii) [(1, [1#1]%Q); (2, [1#1; 4#1]%Q)] ->
  search_radii (1#1000) 2 (valid_rows ex58_sizes 3 ex58_points, ids_of_sizes ex58_sizes) n radii.
Proof.
  assert (C1 : few_cells (1#1000) 3 (repeat (1#1)%Q 3) 2 (valid_rows ex58_sizes 3 ex58_points, ids_of_sizes ex58_sizes))
    by (apply (few_cells_check _ _ _ _ _ _ [4;4;4]%Z); try reflexivity; vm_compute; discriminate).
  assert (C2 : few_cells (1#1000) 3 (repeat (4#1)%Q 3) 2 (valid_rows ex58_sizes 3 ex58_points, ids_of_sizes ex58_sizes))
    by (apply (few_cells_check _ _ _ _ _ _ [4;4;4]%Z); try reflexivity; vm_compute; discriminate).
  intros [E|[E|[]]]; injection E as <- <-; (split; [reflexivity|]); repeat (constructor; [split; [reflexivity|assumption]|]); constructor.
Qed.
Lemma ex58_net fs rs mode vars ow ob : In (fs, rs) [([1; 8; 8; 3], [1#1]%Q); ([1; 8; 8; 8; 3], [1#1; 4#1]%Q)] ->
  exists net, mk_small fs rs rs "MCConv" mode vars ow ob = Ok net.
Proof. intros [E|[E|[]]]; injection E as <- <-; eexists; unfold mk_small; cbn; reflexivity. Qed.
Lemma ex58_one : one_sample "poisson disk" (1#1000) (4#1) (valid_rows ex58_sizes 3 ex58_points, ids_of_sizes ex58_sizes).
Proof.
  left. split; [apply means_poisson; cbn; tauto|]. intros i j Hi Hj E. change (i < 3) in Hi. change (j < 3) in Hj.
  do 3 (destruct i as [|i]; [do 3 (destruct j as [|j]; [first [discriminate E|reflexivity]|]); lia|]). lia.
Qed.

(** Two levels, one row of logits per element. *)
Example C58_logits_partial_ex_proof :
  input_batch (1#1000) 2 3 ex58_points ex58_sizes [1#1; 4#1]%Q "poisson disk" 3 /\
  search_radii (1#1000) 2 (valid_rows ex58_sizes 3 ex58_points, ids_of_sizes ex58_sizes) 2 [1#1; 4#1]%Q /\
  one_sample "poisson disk" (1#1000) (4#1) (valid_rows ex58_sizes 3 ex58_points, ids_of_sizes ex58_sizes) /\
  forall vars ow ob dw db draws f, exists net logits,
    mk_small [1; 8; 8; 8; 3] [1#1; 4#1]%Q [1#1; 4#1]%Q "MCConv" "poisson disk" vars ow ob = Ok net /\
    small_call GPU (1#1000) (find_neighbors_tf GPU) (compute_pdf_tf GPU) net (fun _ X => X) (fun _ X => X) dw db 3 draws 2
      (Padded [2] 3 ex58_points) (Feat 1 (inl (Padded [2] 3 (table 6 1 f)))) ex58_sizes = Some (Ok (Feat 3 (inr logits))) /\
    length logits = 2.
Proof.
  pose proof (ex58_batch _ (or_intror (or_introl eq_refl))) as Hb. pose proof (ex58_search _ _ (or_intror (or_introl eq_refl))) as Hs.
  split; [exact Hb|]. split; [exact Hs|]. split; [exact ex58_one|]. intros vars ow ob dw db draws f.
  destruct (ex58_net _ _ "poisson disk" vars ow ob (or_intror (or_introl eq_refl))) as (net & En).
  destruct (C58_logits_partial_proof _ _ _ _ _ [1; 8; 8; 8; 3] _ _ _ TMC _ vars ow ob net (fun _ X => X) (fun _ X => X) dw db _ draws (table 6 1 f)
    Hb ltac:(cbn; lia) Hs (or_introl (conj eq_refl eq_refl)) ltac:(discriminate) ltac:(repeat constructor) En ltac:(intros k n c X HX; exact HX) ltac:(intros k n c X HX; exact HX)
    ltac:(apply matrix_table) ltac:(apply matrix_table)) as (data & _ & [HM _] & _ & Hone & E).
  exists net. eexists. split; [exact En|]. split; [exact E|]. rewrite HM. apply (Hone (4#1)%Q eq_refl ex58_one).
Qed.

(** One level with a radius smaller than the first element: three rows of
    logits for two elements. *)
Example C58_rows_refuted_ex_proof :
  input_batch (1#1000) 2 3 ex58_points ex58_sizes [1#1]%Q "poisson disk" 3 /\
  search_radii (1#1000) 2 (valid_rows ex58_sizes 3 ex58_points, ids_of_sizes ex58_sizes) 1 [1#1]%Q /\
  forall vars ow ob dw db draws f, exists net logits,
    mk_small [1; 8; 8; 3] [1#1]%Q [1#1]%Q "MCConv" "poisson disk" vars ow ob = Ok net /\
    small_call GPU (1#1000) (find_neighbors_tf GPU) (compute_pdf_tf GPU) net (fun _ X => X) (fun _ X => X) dw db 3 draws 2
      (Padded [2] 3 ex58_points) (Feat 1 (inl (Padded [2] 3 (table 6 1 f)))) ex58_sizes = Some (Ok (Feat 3 (inr logits))) /\
    length logits = 3.
Proof.
  pose proof (ex58_batch _ (or_introl eq_refl)) as Hb. pose proof (ex58_search _ _ (or_introl eq_refl)) as Hs.
  split; [exact Hb|]. split; [exact Hs|]. intros vars ow ob dw db draws f.
  destruct (ex58_net _ _ "poisson disk" vars ow ob (or_introl eq_refl)) as (net & En).
  destruct (C58_rows_refuted_proof _ _ _ _ _ [1; 8; 8; 3] _ _ _ TMC _ vars ow ob net (fun _ X => X) (fun _ X => X) dw db _ draws (table 6 1 f)
    Hb ltac:(apply means_poisson; cbn; tauto) Hs (or_introl (conj eq_refl eq_refl)) ltac:(repeat constructor) En ltac:(intros k n c X HX; exact HX) ltac:(intros k n c X HX; exact HX)
    ltac:(apply matrix_table) ltac:(apply matrix_table)) as (logits & E & HM & _).
  - intros i j Hi Hj Hij Eij. change (i < 3) in Hi. change (j < 3) in Hj.
    do 3 (destruct i as [|i]; [do 3 (destruct j as [|j]; [first [discriminate Eij|congruence|vm_compute; discriminate]|]); lia|]). lia.
  - exists 0. cbn. lia.
  - exists net, logits. split; [exact En|]. split; [exact E|]. rewrite HM. reflexivity.
Qed.

Example C58_unknown_ex_proof :
  forall vars ow ob, mk_small [1; 8; 8; 3] [1#1]%Q [1#1]%Q "mcconv" "poisson disk" vars ow ob = Err ValueError.
Proof. intros. reflexivity. Qed.
