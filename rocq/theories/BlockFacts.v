(** Facts about the residual networks: convolutions inside the blocks, the
    loops, and the neighborhoods the networks build. *)
From Coq Require Import String List Arith ZArith QArith Reals Qreals Lia Lra Bool Permutation.
From Verif Require Import Tensor TensorFacts Spec SpecText TextFacts PointCloud SpecCloud PointCloudFacts QFacts Grid SpecGrid GridFacts
  Neighbors SpecNeighbors NeighborFacts NeighborProofs Neighborhood NeighborhoodFacts NeighborhoodProofs
  Sampling SpecSampling SamplingFacts SamplingProofs Hierarchy SpecHierarchy HierarchyFacts Pdf SpecPdf PdfFacts PdfProofs
  RTensor RTensorFacts Layers SpecLayers LayerFacts LayerLink LayerProofs ConvProofs Blocks SpecBlocks.
Import ListNotations.
Local Open Scope nat_scope.

Local Notation search := (find_neighbors_tf GPU).
Local Notation kde := (compute_pdf_tf GPU).

(** * Matrices *)
Lemma matrix_table n c f : matrix n c (table n c f).
Proof.
  split; unfold table; [now rewrite map_length, seq_length|]. apply Forall_map, Forall_forall. intros i _.
  now rewrite map_length, seq_length.
Qed.
Lemma table_fval n c F : matrix n c F -> table n c (fval F) = F.
Proof.
  intros [E H]. unfold table, fval. subst n. apply nth_ext with (d := []) (d' := []); [now rewrite map_length, seq_length|].
  intros i Hi. rewrite map_length, seq_length in Hi.
  rewrite (QFacts.nth_map_seq (fun i => map (fun c0 => nth c0 (nth i F []) 0%R) (seq 0 c))) by exact Hi.
  rewrite Forall_forall in H. pose proof (H _ (nth_In F [] Hi)) as L. rewrite <- L. symmetry. apply nth_map_seq'.
Qed.
Lemma fval_table n c f i j : i < n -> j < c -> fval (table n c f) i j = f i j.
Proof.
  intros Hi Hj. unfold fval, table. rewrite (QFacts.nth_map_seq (fun i => map (f i) (seq 0 c))) by exact Hi.
  now rewrite (QFacts.nth_map_seq (f i)) by exact Hj.
Qed.
Lemma to_rows_of_rows n c F : matrix n c F -> to_rows (of_rows c F) = F.
Proof. intros H. rewrite of_rows_ttab, to_rows_ttab. destruct H as [E H]. rewrite E. apply table_fval. now split. Qed.
Lemma as_feat_of_rows n c F : matrix n c F -> as_feat (of_rows c F) = Ok (Feat c (inr F)).
Proof. intros H. unfold as_feat. rewrite of_rows_ttab at 1. rewrite ttab_shape. now rewrite (to_rows_of_rows n). Qed.
Lemma pre_ok bn act k n c F : matrix n c F -> pre bn act k (of_rows c F) = Ok (of_rows c (preactivation bn act k F)).
Proof. intros H. unfold pre. rewrite of_rows_ttab at 1. rewrite ttab_shape. now rewrite (to_rows_of_rows n). Qed.
Lemma preactivation_matrix bn act k n c F : (forall j, keeps_shape (bn j)) -> keeps_shape act -> matrix n c F ->
  matrix n c (preactivation bn act k F).
Proof. intros H1 H2 H. unfold preactivation. apply H2, H1, H. Qed.
Lemma given_rows n c F p : matrix n c F -> length (pts p) = n -> given (Feat c (inr F)) p c F.
Proof.
  intros [E _] Hn. split; [reflexivity|]. cbn [frows flatten_features]. split; [|lia].
  replace (length F =? length (pts p)) with true; [reflexivity|]. symmetry. apply Nat.eqb_eq. lia.
Qed.
Lemma of_rows_table n c f : of_rows c (table n c f) = ttab [n; c] (fun idx => match idx with [i; j] => f i j | _ => 0%R end).
Proof.
  rewrite of_rows_ttab. replace (length (table n c f)) with n by (symmetry; apply (matrix_table n c f)).
  apply ttab_ext. intros idx Hi. idx_inv. now apply fval_table.
Qed.
Lemma layer_rows n c F p : matrix n c F -> layer_output (of_rows c F) p false false = Ok (Feat c (inr F)).
Proof.
  intros H. rewrite of_rows_ttab, layer_output_table. unfold returned. cbn [format_output snd].
  do 3 f_equal. destruct H as [E H]. rewrite E. apply table_fval. now split.
Qed.
Lemma add_rows n c X Y : matrix n c X -> matrix n c Y -> tbin Rplus (of_rows c X) (of_rows c Y) = Ok (of_rows c (mat_add n c X Y)).
Proof.
  intros [EX HX] [EY HY]. unfold mat_add. rewrite of_rows_table, !of_rows_ttab, EX, EY.
  rewrite (tbin_ttab _ _ _ [n; c]) by bc. f_equal. apply ttab_ext. intros idx Hi. idx_inv. cbn [bc_index].
  now rewrite !bc_self by lia.
Qed.

(** * Shortcuts and 1x1 convolutions *)
Lemma conv1x1_rows n cin cout w b l F p : mk_conv1x1 cin cout w b = Ok l -> matrix n cin F -> length (pts p) = n ->
  shortcut_layer (Some l) (of_rows cin F) p = Ok (of_rows cout (affine n cin cout w b F)).
Proof.
  intros El HF Hn. unfold shortcut_layer. rewrite (as_feat_of_rows n) by exact HF. cbn [bind].
  rewrite (C34_conv1x1_proof p _ cin cout F w b l false false El (given_rows n cin F p HF Hn)). rewrite Hn.
  reflexivity.
Qed.
Lemma shortcut_ok projection n c pw pb k s F p : mk_shortcut projection c pw pb k = Ok s -> matrix n c F -> length (pts p) = n ->
  shortcut_layer s (of_rows c F) p = Ok (of_rows c (shortcut projection n c pw pb k F)).
Proof.
  intros Es HF Hn. unfold mk_shortcut in Es. destruct projection.
  - destruct (mk_conv1x1 c c (pw k) (pb k)) as [l|] eqn:El; [|discriminate]. injection Es as <-.
    now apply (conv1x1_rows n c c (pw k) (pb k)).
  - injection Es as <-. reflexivity.
Qed.
Lemma shortcut_matrix projection n c pw pb k F : matrix n c F -> matrix n c (shortcut projection n c pw pb k F).
Proof. intros H. destruct projection; [apply matrix_table|exact H]. Qed.

(** * Neighborhoods ready for a convolution *)
Section Ready.
  Context (D : nat) (r : Q) (bw : R) (rows : list point) (ids : list nat) (crows : list point) (cids : list nat).
  Let dens := density D (repeat bw D) (repeat r D) rows ids.

  Definition ready (x : dnbh) : Prop :=
    pairs_of D r rows ids crows cids (dn x) /\ rshape (nranges (dn x)) = shape_of (length cids) /\
    snd (get_pdf GPU search kde x (repeat bw D) KConstant false) = Ok (map (fun q => dens (fst q)) (norig (dn x))).

  Lemma ready_again x : ready x -> ready (fst (get_pdf GPU search kde x (repeat bw D) KConstant false)).
  Proof.
    intros (H1 & H2 & H3). unfold get_pdf in *. destruct (dpdf x) as [v|] eqn:E; cbn [fst snd] in *.
    - split; [exact H1|]. split; [exact H2|]. unfold get_pdf. rewrite E. exact H3.
    - unfold compute_pdf in *.
      match goal with H : snd (let '(x', r) := match ?z with _ => _ end in _) = _ |- _ => destruct z as [pdf|e] end; cbn [fst snd bind dpdf] in *; [|discriminate].
      injection H3 as H3. split; [exact H1|]. split; [exact H2|]. cbn [get_pdf dpdf snd dn]. now rewrite H3.
  Qed.

  Context (orows : list point) (pin pout : pc).
  Context (Ein : pts pin = rows) (Din : dim pin = D) (Lin : length rows = length ids).
  Context (Eout : pts pout = orows) (Dout : dim pout = D) (Lout : length orows = length cids).

  Lemma diffs_moved n : pairs_of D r rows ids crows cids n ->
    point_diffs pin pout n = Ok (ttab [length (norig n); D] (fun idx => match idx with
      | [m; d] => let q := nth m (norig n) (0, 0) in delta rows orows (fst q) (snd q) d | _ => 0%R end)).
  Proof using Ein Din Lin Eout Dout Lout.
    intros Hp. unfold point_diffs.
    rewrite (coords_ttab pin rows Ein), (coords_ttab pout orows Eout), Din, Dout.
    rewrite tgather_ttab by (rewrite Lin; apply (pairs_fst _ _ _ _ _ _ _ Hp)). cbn [bind].
    rewrite tgather_ttab by (rewrite Lout; apply (pairs_snd _ _ _ _ _ _ _ Hp)). cbn [bind]. rewrite !map_length.
    rewrite (tbin_ttab _ _ _ [length (norig n); D]) by bc. f_equal. apply ttab_ext. intros idx Hi. idx_inv.
    cbn [bc_index]. rewrite !bc_self by lia.
    rewrite (map_nth fst (norig n) (0, 0)), (map_nth snd (norig n) (0, 0)). reflexivity.
  Qed.
  Lemma scaled_moved n r' : pairs_of D r rows ids crows cids n ->
    scaled_diffs D pin pout r' n = Ok (ttab [length (norig n); D] (fun idx => match idx with
      | [m; d] => let q := nth m (norig n) (0, 0) in (delta rows orows (fst q) (snd q) d / Q2R r')%R | _ => 0%R end)).
  Proof using Ein Din Lin Eout Dout Lout.
    intros Hp. unfold scaled_diffs. rewrite diffs_moved by auto. cbn [bind].
    rewrite (tbin_ttab _ _ _ [length (norig n); D]) by bc. f_equal. apply ttab_ext. intros idx Hi. idx_inv.
    cbn [bc_index]. now rewrite !bc_self by lia.
  Qed.

  (** A convolution in a block. *)
  Lemma mc_block eps cin cout mlps sizes act a w b fw l F r' x :
    mk_mcconv cin cout D mlps sizes act w b fw = Ok l -> 0 < cout -> activation act a -> matrix (length ids) cin F -> ready x ->
    exists y, ready y /\
    block_conv GPU eps search kde (LMC l) (of_rows cin F) pin pout r' x bw
    = (y, Ok (of_rows cout (table (length cids) cout
        (mc_formula_over (near_points D r rows ids crows cids) D rows orows F cin cout mlps sizes a w b fw r' dens)))).
  Proof using Ein Din Lin Eout Dout Lout.
    intros El Hc Ha HF Hx. pose proof Hx as (P & _ & Hpdf).
    exists (fst (get_pdf GPU search kde x (repeat bw D) KConstant false)). split; [now apply ready_again|].
    pose proof El as El'. apply mk_mcconv_inv in El'. destruct El' as (_ & _ & _ & _ & _ & _ & Eq).
    unfold block_conv. replace (mc_dims l) with D by now rewrite Eq. f_equal.
    rewrite (as_feat_of_rows (length ids)) by exact HF. cbn [bind].
    unfold mcconv_call. replace (mc_in l) with cin by now rewrite Eq. replace (mc_dims l) with D by now rewrite Eq.
    cbn [fch]. rewrite Nat.eqb_refl. cbn [negb].
    rewrite (given_flat _ pin cin F) by (apply (given_rows (length ids)); [exact HF|rewrite Ein; exact Lin]).
    cbn [bind layer_nbh]. rewrite Hpdf. cbn [bind]. rewrite (scaled_moved (dn x) r' P). cbn [bind].
    rewrite Ein, Lin.
    rewrite (monte_carlo_ok D r rows ids crows cids (dn x) P GPU cin cout D mlps sizes act a w b fw l
       (fun q d => (delta rows orows (fst q) (snd q) d / Q2R r')%R)); auto using activation_name; [|lia].
    cbn [bind]. rewrite layer_output_table. reflexivity.
  Qed.

  Lemma pt_block eps cin cout hidden act a axis bias w w1 b1 w2 b2 mx F r' x :
    2 <= length cids -> 0 < cin -> 0 < hidden -> activation act a -> matrix (length ids) cin F ->
    2 <= D -> (0 < r)%Q -> (0 < bw)%R ->
    (forall i, i < length cids -> near_points D r rows ids crows cids i <> [] ->
       is_max (map dens (near_points D r rows ids crows cids i)) (mx i)) ->
    ready x ->
    exists y, ready y /\
    block_conv GPU eps search kde (LPT (mk_pointconv cin cout D hidden act axis bias w w1 b1 w2 b2)) (of_rows cin F) pin pout r' x bw
    = (y, Ok (of_rows cout (table (length cids) cout
        (pt_formula_over (near_points D r rows ids crows cids) D rows orows F cin hidden a axis bias w w1 b1 w2 b2 dens mx)))).
  Proof using Ein Din Lin Eout Dout Lout.
    intros Hn Hcin Hhid Ha HF HD Hr Hb Hmx Hx. pose proof Hx as (P & Hrs & Hpdf).
    exists (fst (get_pdf GPU search kde x (repeat bw D) KConstant false)). split; [now apply ready_again|].
    set (l := mk_pointconv cin cout D hidden act axis bias w w1 b1 w2 b2).
    unfold block_conv. change (pt_dims l) with D. f_equal.
    rewrite (as_feat_of_rows (length ids)) by exact HF. cbn [bind].
    unfold pointconv_call. change (pt_dims l) with D.
    rewrite (given_flat _ pin cin F) by (apply (given_rows (length ids)); [exact HF|rewrite Ein; exact Lin]).
    cbn [bind layer_nbh]. rewrite Hpdf. cbn [bind]. rewrite (diffs_moved (dn x) P). cbn [bind].
    rewrite Ein, Lin.
    assert (Hrs' : rshape (nranges (dn x)) = [length cids]).
    { rewrite Hrs. unfold shape_of. destruct (length cids) as [|[|k]]; [lia..|reflexivity]. }
    unfold l.
    rewrite (point_conv_ok D r rows ids crows cids (dn x) P GPU cin cout hidden act a axis bias w w1 b1 w2 b2
       (fun q d => delta rows orows (fst q) (snd q) d)); auto using activation_name; [|lia|lia].
    cbn [bind]. rewrite layer_output_table. unfold returned. cbn [format_output snd bind as_ten frows fch].
    f_equal. f_equal. unfold table. apply map_ext_in. intros i Hin. apply in_seq in Hin.
    apply map_ext. intros o. unfold pt_formula_over, weighted_sum. apply sum_over_ext. intros c _. apply sum_over_ext. intros h _.
    f_equal. apply sum_over_ext. intros p Hp. cbn [fst snd].
    assert (Em : red_max (map (fun p => dens p) (near_points D r rows ids crows cids i)) = mx i).
    { assert (Hne' : near_points D r rows ids crows cids i <> []) by (intros E; rewrite E in Hp; exact Hp).
      eapply max_unique; [|apply Hmx; [lia|exact Hne']]. change (map dens) with (map (fun p => dens p)). apply red_max_ok.
      - intros E. apply map_eq_nil in E. auto.
      - apply Forall_map, Forall_forall. intros j Hj. apply Rle_trans with 0%R.
        + unfold rlowest. assert (0 <= Q2R flt_max)%R; [|lra]. replace 0%R with (Q2R 0) by (unfold Q2R; cbn; lra).
          apply Qle_Rle. unfold flt_max. vm_compute. discriminate.
        + apply Rlt_le, density_pos.
          * apply repeat_length.
          * apply Forall_forall. intros y Hy. apply repeat_spec in Hy. now subst.
          * now rewrite nth_repeat_lt by lia.
          * unfold near_points in Hj. apply filter_In in Hj as [Hj _]. apply in_seq in Hj. lia. }
    rewrite Em. reflexivity.
  Qed.
End Ready.

(** Both kinds of convolutions. *)
Lemma layer_block eps D r bw rows ids crows cids orows pin pout t cin cout args a l mx F r' x :
  pts pin = rows -> dim pin = D -> length rows = length ids ->
  pts pout = orows -> dim pout = D -> length orows = length cids ->
  new_layer cin cout D t args = Ok l -> 0 < cin -> 0 < cout -> applicable (length cids) args a ->
  matrix (length ids) cin F -> 2 <= D -> (0 < r)%Q -> (0 < bw)%R ->
  largest (near_points D r rows ids crows cids) (length cids) (density D (repeat bw D) (repeat r D) rows ids) mx ->
  ready D r bw rows ids crows cids x ->
  let out := layer_formula (near_points D r rows ids crows cids) D rows orows r' (density D (repeat bw D) (repeat r D) rows ids) mx
               (length cids) cin cout args a F in
  exists y, ready D r bw rows ids crows cids y /\ matrix (length cids) cout out /\
    block_conv GPU eps search kde l (of_rows cin F) pin pout r' x bw = (y, Ok (of_rows cout out)).
Proof.
  intros E1 E2 E3 E4 E5 E6 El Hcin Hcout Ha HF HD Hr Hb Hmx Hx out. unfold out, layer_formula.
  destruct t, args; cbn [new_layer applicable] in El, Ha; try discriminate; try contradiction.
  - destruct (mk_mcconv cin cout D mlps sizes act w b fw) as [l'|] eqn:El'; [|discriminate]. injection El as <-.
    destruct (mc_block D r bw rows ids crows cids orows pin pout E1 E2 E3 E4 E5 E6 eps cin cout mlps sizes act a w b fw l' F r' x El' Hcout Ha HF Hx)
      as (y & Hy & Ey). exists y. split; [exact Hy|]. split; [apply matrix_table|exact Ey].
  - injection El as <-. destruct Ha as (Ha & Hh & Hn).
    destruct (pt_block D r bw rows ids crows cids orows pin pout E1 E2 E3 E4 E5 E6 eps cin cout hidden act a axis bias w w1 b1 w2 b2 mx F r' x
      Hn Hcin Hh Ha HF HD Hr Hb Hmx Hx) as (y & Hy & Ey). exists y. split; [exact Hy|]. split; [apply matrix_table|exact Ey].
Qed.

Lemma layer_formula_ext nb nb' D rows crows r dens mx mx' n cin cout args a F :
  (forall i, i < n -> nb i = nb' i) -> (forall i, i < n -> mx i = mx' i) ->
  layer_formula nb D rows crows r dens mx n cin cout args a F = layer_formula nb' D rows crows r dens mx' n cin cout args a F.
Proof.
  intros H1 H2. unfold layer_formula. destruct args; [|reflexivity|]; unfold table; apply map_ext_in; intros i Hi; apply in_seq in Hi;
    apply map_ext; intros o.
  - unfold mc_formula_over. rewrite (H1 i) by lia. reflexivity.
  - unfold pt_formula_over. rewrite (H1 i), (H2 i) by lia. reflexivity.
Qed.

(** * The loops *)
Lemma build_cons {A} (f : nat -> result A) k n l : build f (seq k (S n)) = Ok l ->
  exists a rest, l = a :: rest /\ f k = Ok a /\ build f (seq (S k) n) = Ok rest.
Proof.
  cbn [seq build]. destruct (f k) as [a|] eqn:E; [|discriminate]. cbn [bind].
  destruct (build f (seq (S k) n)) as [rest|] eqn:E'; [|discriminate]. cbn [bind]. injection 1 as <-. eauto.
Qed.

Lemma resnet_loop_ok eps (inv : dnbh -> Prop) conv bn act p r bw C t args projection pw pb N :
  (forall j, keeps_shape (bn j)) -> keeps_shape act -> length (pts p) = N ->
  (forall k l F x, new_layer C C (dim p) t (args k) = Ok l -> matrix N C F -> inv x -> exists y, inv y /\ matrix N C (conv k F) /\
     block_conv GPU eps search kde l (of_rows C F) p p r x bw = (y, Ok (of_rows C (conv k F)))) ->
  forall n i bs x F,
  build (fun i => a <- new_layer C C (dim p) t (args (2 * i)) ;; b <- new_layer C C (dim p) t (args (2 * i + 1)) ;;
                  s <- mk_shortcut projection C pw pb i ;; Ok (a, b, s)) (seq i n) = Ok bs ->
  inv x -> matrix N C F ->
  let Y := fold_left (fun X k => mat_add N C (two_convolutions bn act conv k X) (shortcut projection N C pw pb k X)) (seq i n) F in
  matrix N C Y /\ resnet_loop GPU eps search kde bn act p r bw i bs x (of_rows C F) = Ok (of_rows C Y).
Proof.
  intros Hbn Hact Hp Hconv n. induction n as [|n IH]; intros i bs x F Eb Hx HF.
  - cbn in Eb. injection Eb as <-. split; [exact HF|reflexivity].
  - apply build_cons in Eb as (b & rest & -> & Eb & Er).
    destruct (new_layer C C (dim p) t (args (2 * i))) as [l1|] eqn:E1; [|discriminate]. cbn [bind] in Eb.
    destruct (new_layer C C (dim p) t (args (2 * i + 1))) as [l2|] eqn:E2; [|discriminate]. cbn [bind] in Eb.
    destruct (mk_shortcut projection C pw pb i) as [s|] eqn:Es; [|discriminate]. injection Eb as <-.
    cbn [resnet_loop]. rewrite (pre_ok bn act _ N) by exact HF. cbn [bind].
    pose proof (preactivation_matrix bn act (2 * i) N C F Hbn Hact HF) as H1.
    destruct (Hconv (2 * i) l1 _ x E1 H1 Hx) as (x1 & Hx1 & H2 & ->). cbn [bind].
    rewrite (pre_ok bn act _ N) by exact H2. cbn [bind].
    pose proof (preactivation_matrix bn act (2 * i + 1) N C _ Hbn Hact H2) as H3.
    destruct (Hconv (2 * i + 1) l2 _ x1 E2 H3 Hx1) as (x2 & Hx2 & H4 & ->). cbn [bind].
    rewrite (shortcut_ok projection N C pw pb i s F p Es HF Hp). cbn [bind].
    rewrite (add_rows N) by (try exact H4; apply shortcut_matrix, HF). cbn [bind seq fold_left].
    apply (IH (S i) rest x2 _ Er Hx2). apply matrix_table.
Qed.

Lemma bottle_neck_loop_ok eps (inv : dnbh -> Prop) conv bn act p r bw C M projection pw pb dw db uw ub N
  (bs : list (conv_layer * option conv1x1 * conv1x1 * conv1x1)) :
  (forall j, keeps_shape (bn j)) -> keeps_shape act -> length (pts p) = N ->
  forall i,
  (forall k, k < length bs -> exists a s d u, nth_error bs k = Some (a, s, d, u) /\
     mk_shortcut projection C pw pb (i + k) = Ok s /\ mk_conv1x1 C M (dw (i + k)) (db (i + k)) = Ok d /\
     mk_conv1x1 M C (uw (i + k)) (ub (i + k)) = Ok u /\
     forall F x, matrix N M F -> inv x -> exists y, inv y /\ matrix N M (conv (i + k) F) /\
       block_conv GPU eps search kde a (of_rows M F) p p r x bw = (y, Ok (of_rows M (conv (i + k) F)))) ->
  forall x F, inv x -> matrix N C F ->
  let Y := fold_left (fun X k => mat_add N C (narrow_convolution bn act N C M dw db uw ub conv k X) (shortcut projection N C pw pb k X))
             (seq i (length bs)) F in
  matrix N C Y /\ bottle_neck_loop GPU eps search kde bn act p r bw i bs x (of_rows C F) = Ok (of_rows C Y).
Proof.
  intros Hbn Hact Hp. induction bs as [|b bs IH]; intros i Hbs x F Hx HF.
  - split; [exact HF|reflexivity].
  - destruct (Hbs 0 ltac:(cbn; lia)) as (a & s & d & u & E & Es & Ed & Eu & Hconv). cbn in E. injection E as ->.
    rewrite Nat.add_0_r in *.
    cbn [bottle_neck_loop]. rewrite (pre_ok bn act _ N) by exact HF. cbn [bind].
    pose proof (preactivation_matrix bn act (3 * i) N C F Hbn Hact HF) as H1.
    rewrite (conv1x1_rows N C M (dw i) (db i) d _ p Ed H1 Hp). cbn [bind].
    pose proof (matrix_table N M : forall f, _) as Ht.
    rewrite (pre_ok bn act _ N) by apply matrix_table. cbn [bind].
    pose proof (preactivation_matrix bn act (3 * i + 1) N M _ Hbn Hact (Ht (fun i0 o => sum_over (seq 0 C) (fun c => fval (preactivation bn act (3 * i) F) i0 c * dw i [c; o]) + db i [0%nat; o])%R)) as H2.
    fold (affine N C M (dw i) (db i) (preactivation bn act (3 * i) F)) in H2.
    destruct (Hconv _ x H2 Hx) as (x1 & Hx1 & H3 & ->). cbn [bind].
    rewrite (pre_ok bn act _ N) by exact H3. cbn [bind].
    pose proof (preactivation_matrix bn act (3 * i + 2) N M _ Hbn Hact H3) as H4.
    rewrite (conv1x1_rows N M C (uw i) (ub i) u _ p Eu H4 Hp). cbn [bind].
    rewrite (shortcut_ok projection N C pw pb i s F p Es HF Hp). cbn [bind].
    rewrite (add_rows N) by (try apply matrix_table; apply shortcut_matrix, HF). cbn [bind length seq fold_left].
    apply (IH (S i)); [|exact Hx1|apply matrix_table].
    intros k Hk. destruct (Hbs (S k) ltac:(cbn; lia)) as (a' & s' & d' & u' & E' & R). exists a', s', d', u'. split; [exact E'|].
    replace (S i + k) with (i + S k) by lia. exact R.
Qed.

Lemma spatial_loop_ok eps (inv0 inv1 inv2 : dnbh -> Prop) down middle up bn act p q r0 r1 r2 bw C t args projection pw pb N M :
  (forall j, keeps_shape (bn j)) -> keeps_shape act -> length (pts p) = N ->
  (forall k l F x, new_layer C C (dim p) t (args (3 * k + 2)) = Ok l -> matrix N C F -> inv0 x -> exists y, inv0 y /\ matrix M C (down k F) /\
     block_conv GPU eps search kde l (of_rows C F) p q r0 x bw = (y, Ok (of_rows C (down k F)))) ->
  (forall k l F x, new_layer C C (dim p) t (args (3 * k + 1)) = Ok l -> matrix M C F -> inv1 x -> exists y, inv1 y /\ matrix M C (middle k F) /\
     block_conv GPU eps search kde l (of_rows C F) q q r1 x bw = (y, Ok (of_rows C (middle k F)))) ->
  (forall k l F x, new_layer C C (dim p) t (args (3 * k)) = Ok l -> matrix M C F -> inv2 x -> exists y, inv2 y /\ matrix N C (up k F) /\
     block_conv GPU eps search kde l (of_rows C F) q p r2 x bw = (y, Ok (of_rows C (up k F)))) ->
  forall n i bs x0 x1 x2 F,
  build (fun i => u <- new_layer C C (dim p) t (args (3 * i)) ;; m <- new_layer C C (dim p) t (args (3 * i + 1)) ;;
                  d <- new_layer C C (dim p) t (args (3 * i + 2)) ;;
                  s <- mk_shortcut projection C pw pb i ;; Ok (u, m, d, s)) (seq i n) = Ok bs ->
  inv0 x0 -> inv1 x1 -> inv2 x2 -> matrix N C F ->
  let Y := fold_left (fun X k => mat_add N C (coarse_convolution bn act down middle up k X) (shortcut projection N C pw pb k X)) (seq i n) F in
  matrix N C Y /\ spatial_loop GPU eps search kde bn act p q r0 r1 r2 bw i bs (x0, x1, x2) (of_rows C F) = Ok (of_rows C Y).
Proof.
  intros Hbn Hact Hp Hd Hm Hu n. induction n as [|n IH]; intros i bs x0 x1 x2 F Eb Hx0 Hx1 Hx2 HF.
  - cbn in Eb. injection Eb as <-. split; [exact HF|reflexivity].
  - apply build_cons in Eb as (b & rest & -> & Eb & Er).
    destruct (new_layer C C (dim p) t (args (3 * i))) as [lu|] eqn:E1; [|discriminate]. cbn [bind] in Eb.
    destruct (new_layer C C (dim p) t (args (3 * i + 1))) as [lm|] eqn:E2; [|discriminate]. cbn [bind] in Eb.
    destruct (new_layer C C (dim p) t (args (3 * i + 2))) as [ld|] eqn:E3; [|discriminate]. cbn [bind] in Eb.
    destruct (mk_shortcut projection C pw pb i) as [s|] eqn:Es; [|discriminate]. injection Eb as <-.
    cbn [spatial_loop]. rewrite (pre_ok bn act _ N) by exact HF. cbn [bind].
    pose proof (preactivation_matrix bn act (3 * i) N C F Hbn Hact HF) as H1.
    destruct (Hd i ld _ x0 E3 H1 Hx0) as (y0 & Hy0 & H2 & ->). cbn [bind].
    rewrite (pre_ok bn act _ M) by exact H2. cbn [bind].
    pose proof (preactivation_matrix bn act (3 * i + 1) M C _ Hbn Hact H2) as H3.
    destruct (Hm i lm _ x1 E2 H3 Hx1) as (y1 & Hy1 & H4 & ->). cbn [bind].
    rewrite (pre_ok bn act _ M) by exact H4. cbn [bind].
    pose proof (preactivation_matrix bn act (3 * i + 2) M C _ Hbn Hact H4) as H5.
    destruct (Hu i lu _ x2 E1 H5 Hx2) as (y2 & Hy2 & H6 & ->). cbn [bind].
    rewrite (shortcut_ok projection N C pw pb i s F p Es HF Hp). cbn [bind].
    rewrite (add_rows N) by (try exact H6; apply shortcut_matrix, HF). cbn [bind seq fold_left].
    apply (IH (S i) rest y0 y1 y2 _ Er Hy0 Hy1 Hy2). apply matrix_table.
Qed.

(** * The neighborhoods *)
Lemma pdf_ready eps D r bw rows ids B g ceps crows cids CB cp sample n :
  usable eps D rows ids B (repeat r D) g -> (0 < r)%Q -> (0 < bw)%R -> ids <> [] -> valid_sizes D (repeat r D) ->
  radii_match D (repeat r D) (repeat r D) ->
  cloud GPU ceps D crows cids CB cp -> cids <> [] -> Forall (fun b => b < B) cids ->
  (sample = Some cp \/ sample = None /\ sorted_cloud g = Ok cp) ->
  snd (mk_nbh search g (repeat r D) sample 0) = Ok n ->
  ready D r bw rows ids crows cids (DNbh n None).
Proof.
  intros Hu Hr Hb Hne Hv Hm Hc Hcne HcB Hs En. pose proof (us_dim _ _ _ _ _ _ _ Hu) as HD.
  destruct (mk_nbh_tf eps D rows ids B (repeat r D) g ceps crows cids CB cp (repeat r D) 0 sample Hu Hc Hcne HcB Hm Hs)
    as (n' & E' & _ & Es & _ & _ & N1 & N2 & N3 & Ef & _).
  rewrite En in E'. injection E' as <-.
  pose proof (grid_for_is _ _ _ _ _ _ _ _ (us_sizes _ _ _ _ _ _ _ Hu) (us_grid _ _ _ _ _ _ _ Hu)) as G.
  rewrite all_dims_repeat, (nth_repeat_lt r) in N3 by lia.
  destruct (to_original_spec _ _ _ _ _ _ _ _ _ crows cids (nnbs n) G N1 N3) as [O1 O2]. rewrite <- N2 in O1, O2.
  pose proof (cloud_is _ _ _ _ _ _ _ Hc) as Hpi.
  split; [|split]; cbn [dn].
  - constructor; auto.
    + now rewrite N2, to_original_snd.
    + rewrite Es, (ic_pts _ _ _ _ _ _ _ Hpi). apply Hpi.
  - destruct D as [|[|D']]; [lia..|].
    destruct (find_tf_sound GPU eps (S (S D')) rows ids B _ g G crows cids cp (repeat r (S (S D'))) 0
     (ic_pts _ _ _ _ _ _ _ Hpi) (ic_bids _ _ _ _ _ _ _ Hpi) (ic_dim _ _ _ _ _ _ _ Hpi) (ic_len _ _ _ _ _ _ _ Hpi)
     (ic_rows _ _ _ _ _ _ _ Hpi) HcB r r (repeat r D') eq_refl Hr Hr (nranges n) (nnbs n) Ef)
    as (_ & _ & _ & Hsh & _). exact Hsh.
  - assert (Hvb : valid_bandwidth D (repeat bw D)).
    { split; rewrite all_axes_repeat; [apply repeat_length|]. apply Forall_forall. intros x Hx. apply repeat_spec in Hx. now subst. }
    assert (Hs' : sample = None \/ sample = Some cp /\ cloud GPU ceps D crows cids CB cp /\ cids <> [] /\ Forall (fun b => b < B) cids).
    { destruct Hs as [-> | [-> _]]; [right|left]; auto. }
    rewrite (C28_get_pdf_partial_proof GPU eps D rows ids B (repeat r D) g ceps crows cids CB cp (repeat r D) 0 sample n []
       (repeat bw D) KConstant false Hu Hm Hv Hne Hs' En (Forall_nil _) Hvb : snd (get_pdf _ _ _ (DNbh n None) _ _ _) = _).
    cbn [effective fold_left fst snd]. f_equal. apply map_ext. intros q. unfold row_density.
    rewrite all_axes_repeat, all_dims_repeat. field.
Qed.

Lemma passed_ready eps D r bw rows ids pin crows cids pout g n :
  workable eps D r rows ids pin crows cids pout -> (0 < bw)%R ->
  mk_grid GPU eps pin (repeat r D) = Ok g -> snd (mk_nbh search g (repeat r D) (Some pout) 0) = Ok n ->
  ready D r bw rows ids crows cids (DNbh n None).
Proof.
  intros W Hb Eg En. destruct (workable_nbh _ _ _ _ _ _ _ _ _ W) as (g' & n' & B & Eg' & HcB & Hu & En' & Hm & Hv & _ & _).
  rewrite Eg in Eg'. injection Eg' as <-. destruct W as [_ (ceps & CB & Ho) HD Hr _ [Hne HN] Hcne].
  eapply pdf_ready; eauto.
Qed.

(** The sorted points as centers. *)
Lemma own_ready eps D r bw rows ids p crows cids pout :
  workable eps D r rows ids p crows cids pout -> (0 < bw)%R ->
  exists g x, mk_grid GPU eps p (repeat r D) = Ok g /\ own_nbh GPU eps search D p r = Ok x /\
    ready D r bw rows ids (gspts g) (gsbids g) x /\ length (gsbids g) = length ids /\
    Permutation (gsidx g) (seq 0 (length ids)) /\
    (forall i, i < length ids -> near_points D r rows ids (gspts g) (gsbids g) i = near_points D r rows ids rows ids (nth i (gsidx g) 0)).
Proof.
  intros W Hb. destruct (workable_nbh _ _ _ _ _ _ _ _ _ W) as (g & _ & B & Eg & _ & Hu & _ & Hm & Hv & _ & _).
  destruct W as [_ _ HD Hr _ [Hne HN] _].
  pose proof (grid_for_is _ _ _ _ _ _ _ _ (us_sizes _ _ _ _ _ _ _ Hu) (us_grid _ _ _ _ _ _ _ Hu)) as G.
  destruct (sorted_cloud_ok _ _ _ _ _ _ _ _ G) as (c & Ec & _ & Hc). specialize (Hc GPU eps).
  pose proof (sbids_length _ _ _ _ _ _ _ _ G) as Lb.
  assert (Hne' : gsbids g <> []) by (intros E; apply Hne, length_zero_iff_nil; rewrite <- Lb, E; reflexivity).
  pose proof (cloud_is _ _ _ _ _ _ _ Hc) as Hpi.
  destruct (mk_nbh_tf eps D rows ids B (repeat r D) g eps (gspts g) (gsbids g) B c (repeat r D) 0 None Hu Hc Hne' (ic_ids _ _ _ _ _ _ _ Hpi) Hm
     (or_intror (conj eq_refl Ec))) as (n & En & _).
  exists g, (DNbh n None). split; [exact Eg|]. split; [unfold own_nbh; rewrite Eg; cbn [bind]; rewrite En; reflexivity|].
  split; [eapply pdf_ready; eauto; apply (ic_ids _ _ _ _ _ _ _ Hpi)|]. split; [exact Lb|].
  split; [rewrite (ig_sidx _ _ _ _ _ _ _ _ G)|].
  - rewrite <- (ig_sidx _ _ _ _ _ _ _ _ G). eapply sidx_perm; eauto.
  - intros i Hi. unfold near_points. apply filter_ext. intros j.
    rewrite (ig_sbids _ _ _ _ _ _ _ _ G), (ig_spts _ _ _ _ _ _ _ _ G).
    rewrite (map_sidx _ _ _ _ _ _ _ _ G (fun i => nth i ids 0)) by exact Hi.
    rewrite (map_sidx _ _ _ _ _ _ _ _ G (fun i => nth i rows [])) by exact Hi. reflexivity.
Qed.

(** The transposed neighborhood of a downsampled cloud. *)
Lemma transposed_ready eps D r bw rows ids p crows cids q g n :
  workable eps D r rows ids p crows cids q -> workable eps D r crows cids q rows ids p -> (0 < bw)%R ->
  mk_grid GPU eps p (repeat r D) = Ok g -> snd (mk_nbh search g (repeat r D) (Some q) 0) = Ok n ->
  exists t, transpose GPU eps search n = Ok t /\ ready D r bw crows cids rows ids (DNbh t None).
Proof.
  intros W W' Hb Eg En. destruct (workable_nbh _ _ _ _ _ _ _ _ _ W) as (g' & n' & B & Eg' & HcB & Hu & En' & Hm & Hv & _ & _).
  rewrite Eg in Eg'. injection Eg' as <-. rewrite En in En'. injection En' as <-.
  destruct (workable_nbh _ _ _ _ _ _ _ _ _ W') as (g2 & n2 & B2 & Eg2 & HB2 & Hu2 & _ & _ & _ & _ & _).
  destruct W as [_ (ceps & CB & Ho) HD Hr _ [Hne HN] Hcne].
  destruct (mk_nbh_tf eps D rows ids B (repeat r D) g ceps crows cids CB q (repeat r D) 0 (Some q) Hu Ho Hcne HcB Hm (or_introl eq_refl))
    as (n' & E' & Egr & Es & Ee & Er & _). rewrite En in E'. injection E' as <-.
  assert (Hgc : cloud GPU eps D rows ids B (gcloud (ngrid n))).
  { rewrite Egr. apply (grid_for_cloud _ _ _ _ _ _ (repeat r D)). apply find_tf_grid_for. apply (us_grid _ _ _ _ _ _ _ Hu). }
  assert (Eb : bcast D (repeat r D) = repeat r D) by apply all_dims_repeat.
  unfold transpose. rewrite Ee, Es, Er, Eb, Eg2. cbn [bind].
  destruct (mk_nbh_tf eps D crows cids B2 (repeat r D) g2 eps rows ids B (gcloud (ngrid n)) (repeat r D) 0
     (Some (gcloud (ngrid n))) Hu2 Hgc Hne HB2 Hm (or_introl eq_refl)) as (t & Et & _).
  exists t. split; [exact Et|]. eapply (pdf_ready eps D r bw crows cids B2 g2); eauto.
Qed.

(** A convolution of a cloud with the sorted points as centers. *)
Lemma own_block eps D r bw rows ids p t C args a l mx (s : list nat) spts sbids at_ F r' x :
  pts p = rows -> dim p = D -> length rows = length ids ->
  new_layer C C D t args = Ok l -> 0 < C -> applicable (length ids) args a ->
  matrix (length ids) C F -> 2 <= D -> (0 < r)%Q -> (0 < bw)%R ->
  largest (near_points D r rows ids rows ids) (length ids) (density D (repeat bw D) (repeat r D) rows ids) mx ->
  length sbids = length ids -> Permutation s (seq 0 (length ids)) ->
  (forall i, i < length ids -> near_points D r rows ids spts sbids i = near_points D r rows ids rows ids (nth i s 0)) ->
  (forall i, i < length ids -> at_ i = nth i s 0) ->
  ready D r bw rows ids spts sbids x ->
  let out := layer_formula (fun i => near_points D r rows ids rows ids (at_ i)) D rows rows r' (density D (repeat bw D) (repeat r D) rows ids)
               (fun i => mx (at_ i)) (length ids) C C args a F in
  exists y, ready D r bw rows ids spts sbids y /\ matrix (length ids) C out /\
    block_conv GPU eps search kde l (of_rows C F) p p r' x bw = (y, Ok (of_rows C out)).
Proof.
  intros Ep Ed El Enew HC Ha HF HD Hr Hb Hmx Lb Hperm Hnear Hat Hx out.
  assert (Hne : forall i, i < length ids -> nth i s 0 < length ids).
  { intros i Hi'. assert (HI : In (nth i s 0) s) by (apply nth_In; rewrite (Permutation_length Hperm), seq_length; exact Hi').
    apply (Permutation_in _ Hperm) in HI. apply in_seq in HI. lia. }
  unfold out.
  rewrite (layer_formula_ext (fun i => near_points D r rows ids rows ids (at_ i)) (near_points D r rows ids spts sbids)
             _ _ _ _ _ (fun i => mx (at_ i)) (fun i => mx (nth i s 0))).
  2:{ intros i Hi'. rewrite Hnear, Hat by exact Hi'. reflexivity. }
  2:{ intros i Hi'. now rewrite Hat. }
  rewrite <- Lb in Ha.
  destruct (layer_block eps D r bw rows ids spts sbids rows p p t C C args a l (fun i => mx (nth i s 0)) F r' x) as (y & H1 & H2 & H3); auto.
  - now rewrite Lb.
  - intros i Hi' Hn'. rewrite Lb in Hi'. rewrite Hnear in * by exact Hi'. apply Hmx; auto.
  - exists y. rewrite Lb in H2, H3. auto.
Qed.
