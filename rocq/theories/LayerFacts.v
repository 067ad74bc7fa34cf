(** Facts about the layer model. *)
From Coq Require Import String List Arith ZArith QArith Reals Qreals Bool Lia Lra Permutation.
From Verif Require Import Tensor TensorFacts PointCloud Spec SpecCloud SpecGrid Grid GridFacts Neighbors SpecNeighbors
  Neighborhood NeighborhoodFacts Pdf SpecPdf PdfFacts RTensor RTensorFacts Layers SpecLayers.
Import ListNotations.
Local Open Scope nat_scope.
Local Arguments nprod : simpl never.

Lemma sum_over_rsum l f : sum_over l f = rsum (map f l).
Proof. reflexivity. Qed.
Lemma sum_over_perm l m f : Permutation l m -> sum_over l f = sum_over m f.
Proof. intros H. apply rsum_perm. now apply Permutation_map. Qed.
Lemma sum_over_ext l f g : (forall x, In x l -> f x = g x) -> sum_over l f = sum_over l g.
Proof. intros H. unfold sum_over. f_equal. now apply map_ext_in. Qed.

(** The sum over the positions of a list is the sum over its entries. *)
Lemma positions_map {A} (d : A) (P : A -> bool) (G : A -> R) (l : list A) :
  map (fun k => G (nth k l d)) (filter (fun k => P (nth k l d)) (seq 0 (length l))) = map G (filter P l).
Proof.
  transitivity (map G (filter P (map (fun k => nth k l d) (seq 0 (length l))))).
  - now rewrite filter_map_swap, map_map.
  - now rewrite TensorFacts.map_nth_seq.
Qed.

Lemma near_points_In D r rows ids crows cids i j : i < length cids ->
  In j (near_points D r rows ids crows cids i) <-> near D r rows ids crows cids j i.
Proof.
  intros Hi. unfold near_points, near. rewrite filter_In, in_seq, andb_true_iff, Nat.eqb_eq, negb_true_iff.
  split.
  - intros (H1 & H2 & H3). repeat split; auto; [lia|]. apply Qnot_le_lt. intros H. apply Qle_bool_iff in H. congruence.
  - intros (H1 & _ & H2 & H3). repeat split; auto; [lia|]. apply not_true_is_false. intros H. apply Qle_bool_iff in H.
    now apply Qlt_not_le in H3.
Qed.

(** The pairs of a neighborhood relate the points of [rows] to the centers
    [crows] within [r]. *)
Record pairs_of (D : nat) (r : Q) (rows : list point) (ids : list nat) (crows : list point) (cids : list nat)
  (n : nbh) : Prop := {
  po_nodup : NoDup (norig n);
  po_in : forall j i, In (j, i) (norig n) <-> near D r rows ids crows cids j i;
  po_snd : map snd (nnbs n) = map snd (norig n);
  po_num : length (pts (nsampled n)) = length cids }.

Section Pairs.
  Context (D : nat) (r : Q) (rows : list point) (ids : list nat) (crows : list point) (cids : list nat) (n : nbh).
  Context (Hp : pairs_of D r rows ids crows cids n).

  Lemma pairs_center i : i < length cids ->
    Permutation (filter (fun q => snd q =? i) (norig n))
                (map (fun p => (p, i)) (near_points D r rows ids crows cids i)).
  Proof.
    intros Hi. apply NoDup_Permutation.
    - apply TensorFacts.NoDup_filter, Hp.
    - apply FinFun.Injective_map_NoDup; [intros a b E; congruence|]. apply TensorFacts.NoDup_filter, seq_NoDup.
    - intros [j k]. rewrite filter_In, in_map_iff. cbn [snd]. rewrite Nat.eqb_eq. split.
      + intros [H ->]. exists j. split; [reflexivity|]. apply near_points_In; auto. now apply (po_in _ _ _ _ _ _ _ Hp).
      + intros (x & E & H). injection E as -> <-. split; [|reflexivity]. apply (po_in _ _ _ _ _ _ _ Hp).
        now apply near_points_In in H.
  Qed.

  Lemma pairs_sum (G : nat * nat -> R) i : i < length cids ->
    rsum (map (fun k => G (nth k (norig n) (0, 0)))
              (filter (fun k => nth k (map snd (norig n)) 0 =? i) (seq 0 (length (norig n)))))
    = sum_over (near_points D r rows ids crows cids i) (fun p => G (p, i)).
  Proof.
    intros Hi.
    rewrite (filter_ext _ (fun k => snd (nth k (norig n) (0, 0)) =? i)) by (intros k; now rewrite (map_nth snd (norig n) (0, 0))).
    rewrite (positions_map (0, 0) (fun q => snd q =? i)).
    rewrite (rsum_perm _ _ (Permutation_map G (pairs_center i Hi))), map_map. reflexivity.
  Qed.

  Lemma pairs_fst : Forall (fun i => i < length ids) (map fst (norig n)).
  Proof.
    apply Forall_forall. intros i Hi. apply in_map_iff in Hi. destruct Hi as ([j k] & <- & H). cbn.
    apply (po_in _ _ _ _ _ _ _ Hp) in H. apply H.
  Qed.
  Lemma pairs_snd : Forall (fun i => i < length cids) (map snd (norig n)).
  Proof.
    apply Forall_forall. intros i Hi. apply in_map_iff in Hi. destruct Hi as ([j k] & <- & H). cbn.
    apply (po_in _ _ _ _ _ _ _ Hp) in H. apply H.
  Qed.

  (** custom_ops_tf.py:423-446 on tables. *)
  Lemma basis_proj_pairs dev C K (f : list nat -> R) (B : nat * nat -> nat -> R) b :
    (forall m k, m < length (norig n) -> k < K -> b [m; k] = B (nth m (norig n) (0, 0)) k) ->
    basis_proj dev (ttab [length (norig n); K] b) (ttab [length ids; C] f) n =
    Ok (ttab [length cids; C; K] (fun idx => match idx with
      | [i; c; k] => sum_over (near_points D r rows ids crows cids i) (fun p => f [p; c] * B (p, i) k)%R
      | _ => 0%R end)).
  Proof.
    intros Hb. unfold basis_proj. rewrite tgather_ttab by apply pairs_fst. cbn [bind]. rewrite map_length.
    rewrite texpand_end, texpand_mid.
    rewrite (tbin_ttab _ _ _ [length (norig n); C; K]).
    2:{ bc. }
    cbn [bind]. rewrite tsegment_ttab.
    - rewrite (po_num _ _ _ _ _ _ _ Hp), (po_snd _ _ _ _ _ _ _ Hp). f_equal. apply ttab_ext. intros idx Hi. idx_inv.
      etransitivity; [|exact (pairs_sum (fun q => f [fst q; i0] * B q i1)%R i ltac:(auto))]. f_equal.
      apply map_ext_in. intros k Hk. apply filter_In in Hk. destruct Hk as [Hk _]. apply in_seq in Hk.
      cbn [bc_index nth]. rewrite !bc_self by lia. cbn [Nat.eqb].
      rewrite Hb by lia. now rewrite (map_nth fst (norig n) (0, 0)).
    - now rewrite (po_snd _ _ _ _ _ _ _ Hp), !map_length.
    - rewrite (po_num _ _ _ _ _ _ _ Hp), (po_snd _ _ _ _ _ _ _ Hp). apply pairs_snd.
  Qed.
End Pairs.

Lemma coords_ttab p rows : pts p = rows ->
  coords p = ttab [length rows; dim p] (fun idx => match idx with [i; d] => Q2R (xc rows i d) | _ => 0%R end).
Proof.
  intros <-. unfold coords, of_rows. rewrite map_length. apply ttab_ext. intros idx Hi. idx_inv.
  rewrite (nth_indep _ [] (map Q2R [])) by now rewrite map_length. rewrite (map_nth (map Q2R)).
  rewrite <- RMicromega.Q2R_0 at 1. rewrite map_nth. reflexivity.
Qed.

Lemma of_rows_ttab c F : of_rows c F = ttab [length F; c] (fun idx => match idx with [i; j] => fval F i j | _ => 0%R end).
Proof. reflexivity. Qed.

Lemma point_diffs_pairs D r rows ids crows cids n pin pout :
  pairs_of D r rows ids crows cids n -> pts pin = rows -> dim pin = D -> length rows = length ids ->
  pts pout = crows -> dim pout = D -> length crows = length cids ->
  point_diffs pin pout n = Ok (ttab [length (norig n); D] (fun idx => match idx with
    | [m; d] => let q := nth m (norig n) (0, 0) in delta rows crows (fst q) (snd q) d | _ => 0%R end)).
Proof.
  intros Hp E1 E2 L1 E3 E4 L2. unfold point_diffs.
  rewrite (coords_ttab pin rows E1), (coords_ttab pout crows E3), E2, E4.
  rewrite tgather_ttab by (rewrite L1; apply (pairs_fst _ _ _ _ _ _ _ Hp)). cbn [bind].
  rewrite tgather_ttab by (rewrite L2; apply (pairs_snd _ _ _ _ _ _ _ Hp)). cbn [bind]. rewrite !map_length.
  rewrite (tbin_ttab _ _ _ [length (norig n); D]) by bc. f_equal. apply ttab_ext. intros idx Hi. idx_inv.
  cbn [bc_index]. rewrite !bc_self by lia.
  rewrite (map_nth fst (norig n) (0, 0)), (map_nth snd (norig n) (0, 0)). reflexivity.
Qed.

Lemma scaled_diffs_pairs D r0 r rows ids crows cids n pin pout :
  pairs_of D r0 rows ids crows cids n -> pts pin = rows -> dim pin = D -> length rows = length ids ->
  pts pout = crows -> dim pout = D -> length crows = length cids ->
  scaled_diffs D pin pout r n = Ok (ttab [length (norig n); D] (fun idx => match idx with
    | [m; d] => let q := nth m (norig n) (0, 0) in (delta rows crows (fst q) (snd q) d / Q2R r)%R | _ => 0%R end)).
Proof.
  intros Hp E1 E2 L1 E3 E4 L2. unfold scaled_diffs.
  rewrite (point_diffs_pairs D r0 rows ids crows cids n pin pout) by auto. cbn [bind].
  rewrite (tbin_ttab _ _ _ [length (norig n); D]) by bc. f_equal. apply ttab_ext. intros idx Hi. idx_inv.
  cbn [bc_index]. now rewrite !bc_self by lia.
Qed.

(** * MCConv *)
Lemma last_cons_nat (s : nat) rest prev : last (s :: rest) prev = last rest s.
Proof.
  revert s prev. induction rest as [|a rest IH]; intros s prev; [reflexivity|].
  change (last (s :: a :: rest) prev) with (last (a :: rest) prev). now rewrite !IH.
Qed.

Lemma mlp_ext act w b m k prev sizes x y h : (forall i, i < prev -> x i = y i) ->
  h < last sizes prev -> mlp act w b m k prev sizes x h = mlp act w b m k prev sizes y h.
Proof.
  revert k prev x y. induction sizes as [|s rest IH]; intros k prev x y E Hh; [apply E, Hh|].
  cbn [mlp]. rewrite last_cons_nat in Hh. apply IH; [|exact Hh].
  intros j Hj. f_equal. f_equal. apply sum_over_ext. intros i Hi. apply in_seq in Hi. rewrite E by lia. reflexivity.
Qed.

Lemma mc_hidden_ok act a w b mlps M k prev sizes (X : nat -> nat -> nat -> R) : non_linearity act = Ok a ->
  mc_hidden act (mc_variables mlps k prev sizes w b)
    (ttab [mlps; M; prev] (fun idx => match idx with [m; j; d] => X m j d | _ => 0%R end))
  = Ok (ttab [mlps; M; last sizes prev] (fun idx => match idx with
        | [m; j; h] => mlp a w b m k prev sizes (X m j) h | _ => 0%R end)).
Proof.
  intros Ea. revert k prev X. induction sizes as [|s rest IH]; intros k prev X; [reflexivity|].
  cbn [mc_variables mc_hidden]. rewrite tmatmul3_ttab. cbn [bind].
  rewrite (tbin_ttab _ _ _ [mlps; M; s]) by bc. cbn [bind]. rewrite Ea. cbn [bind]. rewrite tmap_ttab.
  rewrite (ttab_ext _ _ (fun idx => match idx with [m; j; h] =>
    a (sum_over (seq 0 prev) (fun i => X m j i * w k [m; i; h]) + b k [m; 0%nat; h])%R | _ => 0%R end)).
  - rewrite IH. rewrite last_cons_nat. reflexivity.
  - intros idx Hi. idx_inv. cbn [bc_index]. rewrite !bc_self by lia. reflexivity.
Qed.

Lemma seq_map_add n s : seq s n = map (fun i => s + i) (seq 0 n).
Proof.
  revert s. induction n as [|n IH]; intros s; [reflexivity|]. cbn [seq map]. f_equal; [lia|].
  rewrite (IH (S s)), (IH 1), map_map. apply map_ext. intros i. lia.
Qed.

Lemma sum_over_app l m f : sum_over (l ++ m) f = (sum_over l f + sum_over m f)%R.
Proof. unfold sum_over. rewrite map_app. apply rsum_app. Qed.
Lemma sum_over_map {A} (l : list A) (g : A -> nat) f : sum_over (map g l) f = rsum (map (fun x => f (g x)) l).
Proof. unfold sum_over. now rewrite map_map. Qed.

Lemma sum_split C H g : sum_over (seq 0 (C * H)) g = sum_over (seq 0 C) (fun c => sum_over (seq 0 H) (fun h => g (c * H + h))).
Proof.
  induction C as [|C IH]; [reflexivity|].
  replace (S C * H) with (C * H + H) by lia. rewrite seq_add, sum_over_app, IH.
  rewrite Nat.add_0_l, (seq_map_add H (C * H)), sum_over_map.
  replace (seq 0 (S C)) with (seq 0 C ++ [C]) by (rewrite <- seq_S; reflexivity). rewrite sum_over_app.
  f_equal. unfold sum_over at 1. cbn [map fold_right]. rewrite Rplus_0_r. reflexivity.
Qed.

Lemma divmod_mul c h H : h < H -> (c * H + h) / H = c /\ (c * H + h) mod H = h.
Proof.
  intros Hh. split.
  - symmetry. apply (Nat.div_unique _ _ _ h); lia.
  - symmetry. apply (Nat.mod_unique _ _ c h); lia.
Qed.

Lemma mk_mcconv_inv cin cout dims mlps sizes act w b fw l : mk_mcconv cin cout dims mlps sizes act w b fw = Ok l ->
  mlps <> 0 /\ cout = mlps * (cout / mlps) /\ sizes <> [] /\ cin <> 0 /\ dims <> 0 /\ last sizes 0 <> 0 /\
  l = MCConv cin cout dims mlps sizes act (mc_variables mlps 0 dims sizes w b)
          (ttab [mlps; last sizes 0 * cin; cout / mlps] fw).
Proof.
  unfold mk_mcconv. destruct (Nat.eqb_spec mlps 0) as [|H0]; [discriminate|].
  destruct (Nat.eqb_spec (cout mod mlps) 0) as [Hm|]; [|discriminate]. cbn [negb].
  destruct sizes as [|s rest] eqn:Es; [discriminate|]. rewrite <- Es. cbn [orb].
  destruct (existsb (Nat.eqb 0) (cin :: dims :: sizes)) eqn:Ex; [discriminate|]. intros E. injection E as <-.
  assert (Hx : forall x, In x (cin :: dims :: sizes) -> x <> 0).
  { intros x Hx ->. assert (existsb (Nat.eqb 0) (cin :: dims :: sizes) = true); [|congruence].
    apply existsb_exists. exists 0. auto. }
  split; [exact H0|]. split; [pose proof (Nat.div_mod cout mlps H0); lia|].
  split; [congruence|]. split; [apply Hx; now left|]. split; [apply Hx; right; now left|].
  split; [|reflexivity]. apply Hx. right. right. rewrite Es. destruct (exists_last (l := s :: rest)) as (q & z & ->); [discriminate|].
  rewrite last_last. apply in_or_app. right. now left.
Qed.

Section MC.
  Context (D : nat) (r : Q) (rows : list point) (ids : list nat) (crows : list point) (cids : list nat) (n : nbh).
  Context (Hp : pairs_of D r rows ids crows cids n).

  Lemma monte_carlo_ok dev cin cout dims mlps sizes act a w b fw l (X : nat * nat -> nat -> R) (Pd : nat * nat -> R) f x :
    mk_mcconv cin cout dims mlps sizes act w b fw = Ok l -> cout <> 0 -> non_linearity act = Ok a ->
    (forall m d, m < length (norig n) -> d < dims -> x [m; d] = X (nth m (norig n) (0, 0)) d) ->
    let H := last sizes 0 in let P := cout / mlps in
    monte_carlo_conv dev l (ttab [length (norig n); dims] x) n (map Pd (norig n)) (ttab [length ids; cin] f)
    = Ok (ttab [length cids; cout] (fun idx => match idx with
        | [i; o] => weighted_sum cin H (fun c h => fw [o / P; c * H + h; o mod P])
                      (fun c h => sum_over (near_points D r rows ids crows cids i) (fun p =>
                         f [p; c] * (mlp a w b (o / P) 0 dims sizes (X (p, i)) h / Pd (p, i)))%R)
        | _ => 0%R end)).
  Proof.
    intros El Hc Ea Hx H P. apply mk_mcconv_inv in El. destruct El as (Hm & Hcout & Hs & Hin & Hd & HH & ->).
    fold H in HH. fold H. fold P. fold P in Hcout. assert (HP : P <> 0) by nia.
    set (M := length (norig n)) in *. set (N := length cids).
    unfold monte_carlo_conv, mc_basis, mc_output. cbn [mc_sizes mc_dims mc_mlps mc_act mc_layers mc_in mc_final mc_out]. fold H.
    rewrite (treshape_infer_ttab [M; dims] [1] M [dims] x (fun idx => match idx with [_; m; d] => [m; d] | _ => [] end)).
    2:{ rewrite !nprod_cons, nprod_nil. lia. }
    2:{ rewrite !nprod_cons, nprod_nil. lia. }
    2:{ cbn [app]. intros idx Hi. idx_inv. split; [in_sh|]. cbn [offset]. rewrite !nprod_cons, nprod_nil. nia. }
    cbn [bind app]. rewrite ttile0_ttab. cbn [bind].
    rewrite (ttab_ext _ _ (fun idx => match idx with [m; j; d] => (fun _ j d => X (nth j (norig n) (0, 0)) d) m j d | _ => 0%R end))
      by (intros idx Hi; idx_inv; apply Hx; auto).
    rewrite (mc_hidden_ok act a) by auto. cbn [bind].
    assert (EH : last sizes dims = H).
    { unfold H. destruct sizes; [contradiction|]. now rewrite !last_cons_nat. }
    rewrite EH, ttranspose_102. cbn [bind].
    rewrite (treshape_infer_ttab [M; mlps; H] [] M [H * mlps] _ (fun idx => match idx with [m; k] => [m; k / H; k mod H] | _ => [] end)).
    2:{ rewrite !nprod_cons, nprod_nil. nia. }
    2:{ rewrite !nprod_cons, nprod_nil. nia. }
    2:{ cbn [app]. intros idx Hi. idx_inv. split.
        - in_sh; [apply Nat.div_lt_upper_bound; lia|apply Nat.mod_upper_bound; lia].
        - cbn [offset]. rewrite !nprod_cons, nprod_nil. pose proof (Nat.div_mod i0 H HH). nia. }
    cbn [bind app]. rewrite of_rows_ttab, !map_length. fold M.
    rewrite (tbin_ttab _ _ _ [M; H * mlps]) by bc. cbn [bind].
    rewrite (basis_proj_pairs D r rows ids crows cids n Hp dev cin (H * mlps) f
      (fun q k => (mlp a w b (k / H) 0 dims sizes (X q) (k mod H) / Pd q)%R)).
    2:{ intros m k Hm' Hk. cbn [bc_index]. rewrite !bc_self by auto. cbn [Nat.eqb]. f_equal. unfold fval.
        rewrite (nth_indep _ [] [0%R]) by now rewrite !map_length. rewrite map_map.
        rewrite (nth_indep _ [0%R] ((fun q => [Pd q]) (0, 0))) by now rewrite map_length.
        rewrite (map_nth (fun q => [Pd q])). reflexivity. }
    cbn [bind]. fold N.
    rewrite (treshape_infer_ttab [N; cin; H * mlps] [] N [cin; mlps; H] _
      (fun idx => match idx with [i; c; m; h] => [i; c; m * H + h] | _ => [] end)).
    2:{ rewrite !nprod_cons, nprod_nil. nia. }
    2:{ rewrite !nprod_cons, nprod_nil. nia. }
    2:{ cbn [app]. intros idx Hi. idx_inv. split; [in_sh; nia|]. cbn [offset]. rewrite !nprod_cons, nprod_nil. nia. }
    cbn [bind app]. rewrite ttranspose_2013. cbn [bind].
    rewrite (treshape_infer_ttab [mlps; N; cin; H] [mlps] N [cin * H] _
      (fun idx => match idx with [m; i; k] => [m; i; k / H; k mod H] | _ => [] end)).
    2:{ rewrite !nprod_cons, nprod_nil. nia. }
    2:{ rewrite !nprod_cons, nprod_nil. nia. }
    2:{ cbn [app]. intros idx Hi. idx_inv. split.
        - in_sh; [apply Nat.div_lt_upper_bound; lia|apply Nat.mod_upper_bound; lia].
        - cbn [offset]. rewrite !nprod_cons, nprod_nil. pose proof (Nat.div_mod i1 H HH). nia. }
    cbn [bind app]. rewrite (Nat.mul_comm H cin), tmatmul3_ttab. cbn [bind].
    rewrite ttranspose_102. cbn [bind].
    rewrite (treshape_infer_ttab [N; mlps; P] [] N [cout] _
      (fun idx => match idx with [i; o] => [i; o / P; o mod P] | _ => [] end)).
    2:{ rewrite !nprod_cons, nprod_nil. nia. }
    2:{ rewrite !nprod_cons, nprod_nil. nia. }
    2:{ cbn [app]. intros idx Hi. idx_inv. split.
        - in_sh; [apply Nat.div_lt_upper_bound; lia|apply Nat.mod_upper_bound; lia].
        - cbn [offset]. rewrite !nprod_cons, nprod_nil. pose proof (Nat.div_mod i0 P HP). nia. }
    cbn [app]. f_equal. apply ttab_ext. intros idx Hi. idx_inv. fold (sum_over (seq 0 (cin * H))).
    change (rsum (map ?g (seq 0 (cin * H)))) with (sum_over (seq 0 (cin * H)) g).
    rewrite sum_split. unfold weighted_sum. apply sum_over_ext. intros c Hc'. apply sum_over_ext. intros h Hh.
    apply in_seq in Hc', Hh. destruct (divmod_mul c h H) as [D1 D2]; [lia|]. rewrite D1, D2.
    destruct (divmod_mul (i0 / P) h H) as [D3 D4]; [lia|]. rewrite Rmult_comm. f_equal.
    apply sum_over_ext. intros p _. now rewrite D3, D4.
  Qed.
End MC.

(** * KPConv *)
Lemma kp_pad_ok num M g : exists e, kp_pad num (ttab [M; num] g) =
  Ok (ttab [M; num + e] (fun idx => match idx with [i; j] => if j <? num then g [i; j] else 0%R | _ => 0%R end)).
Proof.
  unfold kp_pad. destruct (num <? 8); [eexists; apply tpad1_ttab|].
  destruct ((8 <? num) && (num <? 16)); [eexists; apply tpad1_ttab|].
  destruct ((16 <? num) && (num <? 32)); [eexists; apply tpad1_ttab|].
  destruct ((32 <? num) && (num <? 64)); [eexists; apply tpad1_ttab|].
  exists 0. rewrite Nat.add_0_r. f_equal. apply ttab_ext. intros idx Hi. idx_inv.
  destruct (Nat.ltb_spec i0 num); [reflexivity|lia].
Qed.

Section KP.
  Context (D : nat) (r : Q) (rows : list point) (ids : list nat) (crows : list point) (cids : list nat) (n : nbh).
  Context (Hp : pairs_of D r rows ids crows cids n).
  Context (l : kpconv) (kpt : nat -> nat -> R).
  Context (Hk : kp_points l = ttab [kp_num l; kp_dims l] (fun idx => match idx with [k; d] => kpt k d | _ => 0%R end)).
  Context (Hin : kp_in l <> 0) (Hnum : kp_num l <> 0).

  Lemma kp_dists_ok x (X : nat * nat -> nat -> R) :
    (forall m d, m < length (norig n) -> d < kp_dims l -> x [m; d] = X (nth m (norig n) (0, 0)) d) ->
    kp_dists l (ttab [length (norig n); kp_dims l] x) None = Ok (ttab [length (norig n); kp_num l] (fun idx =>
      match idx with [m; k] => norm (kp_dims l) (fun d => X (nth m (norig n) (0%nat, 0%nat)) d - kpt k d)%R | _ => 0%R end)).
  Proof using Hk.
    clear Hp Hin Hnum. intros Hx. unfold kp_dists. rewrite Hk, texpand_front, texpand_mid. cbn [bind].
    rewrite (tbin_ttab _ _ _ [length (norig n); kp_num l; kp_dims l]) by bc. cbn [bind].
    change [length (norig n); kp_num l; kp_dims l] with ([length (norig n); kp_num l] ++ [kp_dims l]).
    rewrite tnorm_ttab. f_equal. apply ttab_ext. intros idx Hi. idx_inv. unfold norm. f_equal.
    apply sum_over_ext. intros d Hd. apply in_seq in Hd. cbn [app bc_index].
    rewrite !bc_self by lia. cbn [Nat.eqb]. now rewrite Hx by lia.
  Qed.

  Lemma kp_dists_moved x (X : nat * nat -> nat -> R) (O : nat -> nat -> nat -> R) o :
    (forall m d, m < length (norig n) -> d < kp_dims l -> x [m; d] = X (nth m (norig n) (0, 0)) d) ->
    (forall m k d, m < length (norig n) -> k < kp_num l -> d < kp_dims l -> o [m; k; d] = O (snd (nth m (norig n) (0, 0))) k d) ->
    kp_dists l (ttab [length (norig n); kp_dims l] x) (Some (ttab [length (norig n); kp_num l; kp_dims l] o)) =
    Ok (ttab [length (norig n); kp_num l] (fun idx =>
      match idx with [m; k] => let q := nth m (norig n) (0, 0) in
         norm (kp_dims l) (fun d => X q d - (kpt k d + O (snd q) k d))%R | _ => 0%R end)).
  Proof using Hk.
    clear Hp Hin Hnum. intros Hx Ho. unfold kp_dists. rewrite Hk, texpand_front, texpand_mid.
    rewrite (tbin_ttab _ _ _ [length (norig n); kp_num l; kp_dims l]) by bc. cbn [bind].
    rewrite (tbin_ttab _ _ _ [length (norig n); kp_num l; kp_dims l]) by bc. cbn [bind].
    change [length (norig n); kp_num l; kp_dims l] with ([length (norig n); kp_num l] ++ [kp_dims l]).
    rewrite tnorm_ttab. f_equal. apply ttab_ext. intros idx Hi. idx_inv. unfold norm. f_equal.
    apply sum_over_ext. intros d Hd. apply in_seq in Hd. cbn [app bc_index].
    rewrite !(bc_self (length (norig n)) i), !(bc_self (kp_num l) i0), !(bc_self (kp_dims l) d) by lia. cbn [Nat.eqb].
    rewrite ?(bc_self (kp_num l) i0), ?(bc_self (kp_dims l) d) by lia. now rewrite Hx, Ho by lia.
  Qed.

  Lemma kp_aggregate_ok dev sigma f w wout d (Ds : nat * nat -> nat -> R) :
    (forall m k, m < length (norig n) -> k < kp_num l -> d [m; k] = Ds (nth m (norig n) (0, 0)) k) ->
    kp_aggregate dev l (ttab [length (norig n); kp_num l] d) sigma n (ttab [length ids; kp_in l] f)
      (ttab [kp_num l * kp_in l; wout] w)
    = Ok (ttab [length cids; wout] (fun idx => match idx with
        | [i; o] => weighted_sum (kp_in l) (kp_num l) (fun c k => w [c * kp_num l + k; o])
             (fun c k => sum_over (near_points D r rows ids crows cids i)
                (fun p => f [p; c] * kp_weighting l (Ds (p, i) k) sigma)%R)
        | _ => 0%R end)).
  Proof using Hp Hin Hnum.
    clear Hk. intros Hd. unfold kp_aggregate, kp_basis, kp_output. rewrite tmap_ttab.
    destruct (kp_pad_ok (kp_num l) (length (norig n)) (fun idx => kp_weighting l (d idx) sigma)) as [e ->]. cbn [bind].
    rewrite (basis_proj_pairs D r rows ids crows cids n Hp dev (kp_in l) (kp_num l + e) f
      (fun q k => if k <? kp_num l then kp_weighting l (Ds q k) sigma else 0%R)).
    2:{ intros m k Hm' Hk'. destruct (Nat.ltb_spec k (kp_num l)); [|reflexivity]. now rewrite Hd by lia. }
    cbn [bind]. rewrite ttake2_ttab by lia. cbn [bind].
    rewrite (treshape_infer_ttab [length cids; kp_in l; kp_num l] [] (length cids) [kp_in l * kp_num l] _
      (fun idx => match idx with [i; k] => [i; k / kp_num l; k mod kp_num l] | _ => [] end)).
    2:{ rewrite !nprod_cons, nprod_nil. nia. }
    2:{ rewrite !nprod_cons, nprod_nil. nia. }
    2:{ cbn [app]. intros idx Hi. idx_inv. split.
        - in_sh; [apply Nat.div_lt_upper_bound; lia|apply Nat.mod_upper_bound; lia].
        - cbn [offset]. rewrite !nprod_cons, nprod_nil. pose proof (Nat.div_mod i0 (kp_num l) Hnum). nia. }
    cbn [bind app]. rewrite (Nat.mul_comm (kp_num l) (kp_in l)), tmatmul2_ttab. f_equal.
    apply ttab_ext. intros idx Hi. idx_inv.
    match goal with |- rsum (map ?g _) = _ => change (sum_over (seq 0 (kp_in l * kp_num l)) g = weighted_sum (kp_in l) (kp_num l) (fun c k => w [c * kp_num l + k; i0])
             (fun c k => sum_over (near_points D r rows ids crows cids i)
                (fun p => f [p; c] * kp_weighting l (Ds (p, i) k) sigma)%R)) end.
    rewrite sum_split. unfold weighted_sum. apply sum_over_ext. intros c Hc. apply sum_over_ext. intros k Hk'.
    apply in_seq in Hc, Hk'. destruct (divmod_mul c k (kp_num l)) as [D1 D2]; [lia|]. rewrite D1, D2.
    destruct (Nat.ltb_spec k (kp_num l)); [|lia]. apply Rmult_comm.
  Qed.
End KP.

(** Sums of all entries. *)
Lemma flat_map_sum {A} (g : nat -> list A) (f : A -> R) l : rsum (map f (flat_map g l)) = sum_over l (fun i => rsum (map f (g i))).
Proof. induction l as [|a l IH]; [reflexivity|]. cbn [flat_map map]. rewrite map_app, rsum_app, IH. reflexivity. Qed.
Lemma total_cons n sh f : rsum (tdata (ttab (n :: sh) f)) = sum_over (seq 0 n) (fun i => rsum (tdata (ttab sh (fun r => f (i :: r))))).
Proof. cbn [ttab tdata all_indices]. rewrite flat_map_sum. apply sum_over_ext. intros i _. now rewrite map_map. Qed.
Lemma total2 n m f : rsum (tdata (ttab [n; m] f)) = sum_over (seq 0 n) (fun i => sum_over (seq 0 m) (fun j => f [i; j])).
Proof.
  rewrite total_cons. apply sum_over_ext. intros i _. rewrite total_cons. apply sum_over_ext. intros j _. cbn. apply Rplus_0_r.
Qed.
Lemma total3 n m k f : rsum (tdata (ttab [n; m; k] f)) =
  sum_over (seq 0 n) (fun i => sum_over (seq 0 m) (fun j => sum_over (seq 0 k) (fun l => f [i; j; l]))).
Proof. rewrite total_cons. apply sum_over_ext. intros i _. now rewrite total2. Qed.

(** * Reductions *)
Lemma red_max_ok l : l <> [] -> Forall (fun x => (rlowest <= x)%R) l -> is_max l (red_max l).
Proof.
  intros Hne Hl. induction l as [|a l IH]; [contradiction|]. inversion Hl as [|? ? Ha Hl']; subst. clear Hne Hl.
  destruct l as [|b l].
  - cbn. rewrite Rmax_left by exact Ha. split; [now left|]. constructor; [lra|constructor].
  - destruct (IH ltac:(discriminate) Hl') as [H1 H2]. change (red_max (a :: b :: l)) with (Rmax a (red_max (b :: l))).
    split.
    + destruct (Rle_dec a (red_max (b :: l))); [rewrite Rmax_right by auto; now right|rewrite Rmax_left by lra; now left].
    + constructor; [apply Rmax_l|]. eapply Forall_impl; [|exact H2]. intros x Hx. eapply Rle_trans; [exact Hx|apply Rmax_r].
Qed.
Lemma red_max_perm l m : Permutation l m -> red_max l = red_max m.
Proof.
  unfold red_max. induction 1; cbn [fold_right]; [reflexivity|now f_equal| |congruence].
  rewrite !Rmax_assoc. f_equal. apply Rmax_comm.
Qed.
Lemma red_min_perm l m : Permutation l m -> red_min l = red_min m.
Proof.
  unfold red_min. induction 1; cbn [fold_right]; [reflexivity|now f_equal| |congruence].
  rewrite !Rmin_assoc. f_equal. apply Rmin_comm.
Qed.
Lemma red_mean_perm l m : Permutation l m -> red_mean l = red_mean m.
Proof. intros H. unfold red_mean. now rewrite (rsum_perm _ _ H), (Permutation_length H). Qed.
Lemma red_mean_ok l : l <> [] -> red_mean l = mean l.
Proof. intros H. unfold red_mean, mean. destruct l; [contradiction|]. rewrite Nat.max_l by (cbn; lia). reflexivity. Qed.

Section Reduce.
  Context (D : nat) (r : Q) (rows : list point) (ids : list nat) (crows : list point) (cids : list nat) (n : nbh).
  Context (Hp : pairs_of D r rows ids crows cids n).
  (** Segment reductions over the centers. *)
  Lemma pairs_red (red : list R -> R) (G : nat * nat -> R) i :
    (forall l m, Permutation l m -> red l = red m) -> i < length cids ->
    red (map (fun k => G (nth k (norig n) (0, 0)))
              (filter (fun k => nth k (map snd (norig n)) 0 =? i) (seq 0 (length (norig n)))))
    = red (map (fun p => G (p, i)) (near_points D r rows ids crows cids i)).
  Proof.
    intros Hr Hi.
    rewrite (filter_ext _ (fun k => snd (nth k (norig n) (0, 0)) =? i)) by (intros k; now rewrite (map_nth snd (norig n) (0, 0))).
    rewrite (positions_map (0, 0) (fun q => snd q =? i)).
    rewrite (Hr _ _ (Permutation_map G (pairs_center _ _ _ _ _ _ _ Hp i Hi))), map_map. reflexivity.
  Qed.

  Lemma pool_pairs dev (red : list R -> R) C f : (forall l m, Permutation l m -> red l = red m) ->
    (nb <- tgather (ttab [length ids; C] f) (map fst (norig n)) ;;
     tsegment dev red nb (map snd (norig n)) (length cids)) =
    Ok (ttab [length cids; C] (fun idx => match idx with
      | [i; c] => red (map (fun p => f [p; c]) (near_points D r rows ids crows cids i)) | _ => 0%R end)).
  Proof.
    intros Hr. rewrite tgather_ttab by apply (pairs_fst _ _ _ _ _ _ _ Hp). cbn [bind]. rewrite map_length.
    rewrite tsegment_ttab by (try apply (pairs_snd _ _ _ _ _ _ _ Hp); apply map_length). f_equal.
    apply ttab_ext. intros idx Hi. idx_inv.
    etransitivity; [|exact (pairs_red red (fun q => f [fst q; i0]) i Hr ltac:(auto))]. f_equal. apply map_ext. intros k.
    now rewrite (map_nth fst (norig n) (0, 0)).
  Qed.
End Reduce.

(** * PointConv *)
Section PT.
  Context (D : nat) (r : Q) (rows : list point) (ids : list nat) (crows : list point) (cids : list nat) (n : nbh).
  Context (Hp : pairs_of D r rows ids crows cids n).

  Lemma pdf_column (Pd : nat * nat -> R) : of_rows 1 (map (fun v => [v]) (map Pd (norig n))) =
    ttab [length (norig n); 1] (fun idx => match idx with [m; _] => Pd (nth m (norig n) (0, 0)) | _ => 0%R end).
  Proof using.
    clear Hp. rewrite of_rows_ttab, !map_length. apply ttab_ext. intros idx Hi. idx_inv. unfold fval.
    rewrite (nth_indep _ [] [0%R]) by now rewrite !map_length. rewrite map_map.
    rewrite (nth_indep _ [0%R] ((fun q => [Pd q]) (0, 0))) by now rewrite map_length.
    rewrite (map_nth (fun q => [Pd q])). destruct i0; [reflexivity|lia].
  Qed.

  Lemma point_conv_ok dev cin cout H act a axis bias w w1 b1 w2 b2 (X : nat * nat -> nat -> R) (Pd : nat * nat -> R) f x :
    rshape (nranges n) = [length cids] -> non_linearity act = Ok a -> cin <> 0 -> H <> 0 ->
    (forall m d, m < length (norig n) -> d < D -> x [m; d] = X (nth m (norig n) (0, 0)) d) ->
    point_conv dev (mk_pointconv cin cout D H act axis bias w w1 b1 w2 b2)
      (ttab [length (norig n); D] x) n (map Pd (norig n)) (ttab [length ids; cin] f)
    = Ok (ttab [length cids; cout] (fun idx => match idx with
        | [i; o] => weighted_sum cin H (fun c h => w [c * H + h; o])
            (fun c h => sum_over (near_points D r rows ids crows cids i) (fun p =>
               f [p; c] * (a (sum_over (seq 0 D) (fun d => X (p, i) d * axis [d; h]) + bias [0%nat; h])
               / (sum_over (seq 0 16) (fun k => Rmax 0 (Pd (p, i) / red_max (map (fun p => Pd (p, i)) (near_points D r rows ids crows cids i))
                     * w1 [0%nat; k] + b1 [0%nat; k]) * w2 [k; 0%nat]) + b2 [0%nat; 0%nat])))%R)
        | _ => 0%R end)).
  Proof.
    intros Hs Ea Hin HH Hx. set (M := length (norig n)) in *.
    unfold point_conv, pt_basis, pt_output, mk_pointconv. cbn [pt_axis pt_bias pt_act pt_w1 pt_b1 pt_w2 pt_b2 pt_in pt_hidden pt_w].
    rewrite tmatmul2_ttab. cbn [bind]. rewrite (tbin_ttab _ _ _ [M; H]) by bc. cbn [bind]. rewrite Ea. cbn [bind].
    rewrite Hs. cbn [bind]. rewrite pdf_column. fold M.
    rewrite tsegment_ttab by (try apply (pairs_snd _ _ _ _ _ _ _ Hp); apply map_length). cbn [bind].
    rewrite tgather_ttab by apply (pairs_snd _ _ _ _ _ _ _ Hp). cbn [bind]. rewrite map_length. fold M.
    rewrite (tbin_ttab _ _ _ [M; 1]) by bc. cbn [bind].
    rewrite tmatmul2_ttab. cbn [bind]. rewrite (tbin_ttab _ _ _ [M; 16]) by bc. cbn [bind]. rewrite tmap_ttab.
    rewrite tmatmul2_ttab. cbn [bind]. rewrite (tbin_ttab _ _ _ [M; 1]) by bc. cbn [bind]. rewrite tmap_ttab.
    rewrite (tbin_ttab _ _ _ [M; H]) by bc. cbn [bind].
    rewrite (basis_proj_pairs D r rows ids crows cids n Hp dev cin H f (fun q h =>
      (a (sum_over (seq 0 D) (fun d => X q d * axis [d; h]) + bias [0%nat; h])
       / (sum_over (seq 0 16) (fun k => Rmax 0 (Pd q / red_max (map (fun p => Pd (p, snd q)) (near_points D r rows ids crows cids (snd q)))
             * w1 [0%nat; k] + b1 [0%nat; k]) * w2 [k; 0%nat]) + b2 [0%nat; 0%nat]))%R)).
    2:{ intros m h Hm Hh. fold M in Hm. cbn [bc_index]. rewrite ?(bc_self M m), ?(bc_self H h) by auto. cbn [Nat.eqb].
        rewrite ?(bc_self M m), ?(bc_self H h) by auto. f_equal.
        - f_equal. f_equal. unfold sum_over. change (fold_right Rplus 0%R) with rsum. f_equal. apply map_ext_in.
          intros d Hd. apply in_seq in Hd. now rewrite Hx by lia.
        - f_equal. f_equal. unfold sum_over. change (fold_right Rplus 0%R) with rsum. f_equal. apply map_ext_in.
          intros k Hk. apply in_seq in Hk. f_equal. cbn [bc_index].
          rewrite ?(bc_self M m), ?(bc_self 16 k) by lia. cbn [Nat.eqb]. rewrite ?(bc_self M m), ?(bc_self 16 k) by lia.
          unfold relu. f_equal. f_equal. cbn [seq map]. unfold rsum. cbn [fold_right]. rewrite Rplus_0_r. f_equal. f_equal.
          cbn [bc_index]. rewrite ?(bc_self M m) by lia. cbn [Nat.eqb].
          assert (Esnd : nth m (map snd (norig n)) 0 = snd (nth m (norig n) (0, 0))) by exact (map_nth snd (norig n) (0, 0) m).
          rewrite ?(bc_self M m) by lia. rewrite Esnd.
          apply (pairs_red D r rows ids crows cids n Hp red_max Pd); [apply red_max_perm|].
          pose proof (pairs_snd _ _ _ _ _ _ _ Hp) as HF. rewrite Forall_forall in HF. apply HF. rewrite <- Esnd. apply nth_In.
          rewrite map_length. exact Hm. }
    cbn [bind].
    rewrite (treshape_infer_ttab [length cids; cin; H] [] (length cids) [cin * H] _
      (fun idx => match idx with [i; k] => [i; k / H; k mod H] | _ => [] end)).
    2:{ rewrite !nprod_cons, nprod_nil. nia. }
    2:{ rewrite !nprod_cons, nprod_nil. nia. }
    2:{ cbn [app]. intros idx Hi. idx_inv. split.
        - in_sh; [apply Nat.div_lt_upper_bound; lia|apply Nat.mod_upper_bound; lia].
        - cbn [offset]. rewrite !nprod_cons, nprod_nil. pose proof (Nat.div_mod i0 H HH). nia. }
    cbn [bind app]. rewrite (Nat.mul_comm H cin), tmatmul2_ttab. f_equal.
    apply ttab_ext. intros idx Hi. idx_inv.
    match goal with |- rsum (map ?g _) = ?z => change (sum_over (seq 0 (cin * H)) g = z) end.
    rewrite sum_split. unfold weighted_sum. apply sum_over_ext. intros c Hc. apply sum_over_ext. intros h Hh.
    apply in_seq in Hc, Hh. destruct (divmod_mul c h H) as [D1 D2]; [lia|]. rewrite D1, D2. apply Rmult_comm.
  Qed.
End PT.
