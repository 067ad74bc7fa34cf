(** Proofs of the layer properties (C30, C31, C34). The statements are copied
    verbatim into PropertiesLayers.v. *)
From Coq Require Import String List Arith ZArith QArith Reals Qreals Lia Lra Bool Permutation.
From Verif Require Import Tensor TensorFacts Spec SpecText TextFacts PointCloud SpecCloud PointCloudFacts QFacts Grid SpecGrid GridFacts
  Neighbors SpecNeighbors NeighborFacts NeighborProofs Neighborhood NeighborhoodFacts NeighborhoodProofs
  Sampling SpecSampling SamplingFacts SamplingProofs Hierarchy SpecHierarchy HierarchyFacts Pdf SpecPdf PdfFacts PdfProofs
  RTensor RTensorFacts Layers SpecLayers LayerFacts LayerLink.
Import ListNotations.
Local Open Scope nat_scope.

Lemma Permutation_filter' {A} (P : A -> bool) l m : Permutation l m -> Permutation (filter P l) (filter P m).
Proof.
  induction 1 as [|a l m _ IH|a b l|l m k _ IH1 _ IH2]; cbn.
  - constructor.
  - destruct (P a); [now constructor|exact IH].
  - destruct (P a), (P b); try apply Permutation_refl. apply perm_swap.
  - now apply perm_trans with (filter P m).
Qed.

(** * C30 *)

(** C30. For any neighborhood object whose indices are in range, entry i, c, k
    of the projection is the sum over the rows m of the neighbor list with
    center i of the feature c of the neighbor times entry k of basis row m. *)
Lemma C30_projection_proof :
  forall dev n N C K f b,
    length (norig n) = length (nnbs n) ->
    Forall (fun q => fst q < N) (norig n) -> Forall (fun q => snd q < length (pts (nsampled n))) (nnbs n) ->
    basis_proj dev (ttab [length (nnbs n); K] b) (ttab [N; C] f) n =
    Ok (ttab [length (pts (nsampled n)); C; K] (fun idx => match idx with
      | [i; c; k] => sum_over (filter (fun m => snd (nth m (nnbs n) (0, 0)) =? i) (seq 0 (length (nnbs n))))
                       (fun m => f [fst (nth m (norig n) (0%nat, 0%nat)); c] * b [m; k])%R
      | _ => 0%R end)).
Proof.
  intros dev n N C K f b Hl H1 H2. unfold basis_proj. rewrite tgather_ttab by now apply Forall_map. cbn [bind]. rewrite map_length, Hl.
  rewrite texpand_end, texpand_mid. rewrite (tbin_ttab _ _ _ [length (nnbs n); C; K]) by bc.
  cbn [bind]. rewrite tsegment_ttab; [|now rewrite map_length|now apply Forall_map]. f_equal. apply ttab_ext. intros idx Hi. idx_inv.
  rewrite sum_over_rsum.
  rewrite (filter_ext _ (fun k => snd (nth k (nnbs n) (0, 0)) =? i)) by (intros k; now rewrite (map_nth snd (nnbs n) (0, 0))).
  f_equal. apply map_ext_in. intros k Hk. apply filter_In in Hk. destruct Hk as [Hk _]. apply in_seq in Hk.
  cbn [bc_index nth]. rewrite !bc_self by lia. cbn [Nat.eqb]. now rewrite (map_nth fst (norig n) (0, 0)).
Qed.


Lemma exN_nbh : exists g n, usable (1#1000) 2 exN_rows exN_ids 2 [1#1] g /\ radii_match 2 [1#1] [1#1] /\
  mk_grid GPU (1#1000) (seg 2 exN_rows exN_ids 2) [1#1] = Ok g /\
  snd (mk_nbh (find_neighbors_tf GPU) g [1#1] (Some (seg 2 exN_centers exN_cids 2)) 0) = Ok n /\
  norig n = [(0,0);(1,1);(4,4)] /\ nnbs n = [(4,0);(5,1);(0,4)] /\ pts (nsampled n) = exN_centers.
Proof.
  destruct exN_usable as (g & Hu & Hr & Eg). exists g. eexists. split; [exact Hu|]. split; [exact Hr|]. split; [exact Eg|].
  vm_compute in Eg. inversion Eg; subst g. clear. split; [vm_compute; reflexivity|]. split; [reflexivity|]. split; reflexivity.
Qed.

Example C30_projection_ex_proof :
  exists n, norig n = [(0,0);(1,1);(4,4)] /\ nnbs n = [(4,0);(5,1);(0,4)] /\ length (pts (nsampled n)) = 5 /\
    forall dev f b, exists t, basis_proj dev (ttab [3; 8] b) (ttab [6; 4] f) n = Ok t /\ tshape t = [5; 4; 8] /\
      tget t [4; 3; 7] = (f [4; 3]%nat * b [2; 7]%nat)%R /\ tget t [2; 3; 7] = 0%R.
Proof.
  destruct exN_nbh as (g & n & _ & _ & _ & _ & E1 & E2 & E3). exists n. rewrite E3. split; [exact E1|]. split; [exact E2|]. split; [reflexivity|].
  intros dev f b. eexists. split.
  - pose proof (C30_projection_proof dev n 6 4 8 f b) as H. rewrite E1, E2, E3 in H. apply H; [reflexivity|repeat constructor; cbn; lia..].
  - split; [reflexivity|]. rewrite !tget_ttab by in_sh. cbn. split; [apply Rplus_0_r|reflexivity].
Qed.

(** C30. For the neighborhood of a grid with given centers, and a basis whose
    rows belong to the rows of the neighbor list: sum over the points within
    the radius of the center; zero without neighbors. *)
Lemma C30_neighborhood_partial_proof :
  forall dev eps D rows ids B cs g ceps crows cids CB cp radii max_neighbors n C K f basis,
    usable eps D rows ids B cs g -> cloud GPU ceps D crows cids CB cp ->
    cids <> [] -> Forall (fun b => b < B) cids -> radii_match D radii cs ->
    snd (mk_nbh (find_neighbors_tf GPU) g radii (Some cp) max_neighbors) = Ok n ->
    let r := nth 0 (all_dims D radii) 0%Q in
    exists t,
      basis_proj dev (ttab [length (norig n); K] (fun idx => match idx with
          | [m; k] => basis (nth m (norig n) (0, 0)) k | _ => 0%R end)) (ttab [length ids; C] f) n = Ok t /\
      tshape t = [length cids; C; K] /\
      forall i c k, i < length cids -> c < C -> k < K ->
        tget t [i; c; k] = sum_over (near_points D r rows ids crows cids i) (fun p => f [p; c] * basis (p, i) k)%R /\
        ((forall p, ~ near D r rows ids crows cids p i) -> tget t [i; c; k] = 0%R).
Proof.
  intros dev eps D rows ids B cs g ceps crows cids CB cp radii mx n C K f basis Hu Hc Hne HcB Hr E r.
  destruct (nbh_pairs _ _ _ _ _ _ _ _ _ _ _ _ _ _ _ Hu Hc Hne HcB Hr E) as [P _]. fold r in P.
  eexists. split; [apply (basis_proj_pairs D r rows ids crows cids n P dev C K f basis); intros; reflexivity|].
  split; [reflexivity|]. intros i c k Hi Hc' Hk. rewrite tget_ttab by in_sh. split; [reflexivity|]. intros Hno.
  destruct (near_points D r rows ids crows cids i) as [|p l] eqn:El; [reflexivity|].
  exfalso. apply (Hno p). apply near_points_In; [exact Hi|]. rewrite El. now left.
Qed.

Example C30_neighborhood_partial_ex_proof :
  exists g n, usable (1#1000) 2 exN_rows exN_ids 2 [1#1] g /\ radii_match 2 [1#1] [1#1] /\
    cloud GPU 0 2 exN_centers exN_cids 2 (seg 2 exN_centers exN_cids 2) /\ Forall (fun b => b < 2) exN_cids /\
    snd (mk_nbh (find_neighbors_tf GPU) g [1#1] (Some (seg 2 exN_centers exN_cids 2)) 0) = Ok n /\
    map (near_points 2 1 exN_rows exN_ids exN_centers exN_cids) (seq 0 5) = [[0];[1];[];[];[4]].
Proof.
  destruct exN_nbh as (g & n & H1 & H2 & _ & H3 & _). exists g, n. split; [exact H1|]. split; [exact H2|].
  split; [apply seg_cloud; repeat constructor|]. split; [repeat constructor|]. split; [exact H3|]. vm_compute. reflexivity.
Qed.

(** C30. The projection is linear in the features and in the basis. *)
Lemma C30_bilinear_proof :
  forall dev n N C K f f1 f2 b b1 b2 x y,
    length (norig n) = length (nnbs n) ->
    Forall (fun q => fst q < N) (norig n) -> Forall (fun q => snd q < length (pts (nsampled n))) (nnbs n) ->
    let proj := fun b f => basis_proj dev (ttab [length (nnbs n); K] b) (ttab [N; C] f) n in
    let combine := fun (g1 g2 : list nat -> R) idx => (x * g1 idx + y * g2 idx)%R in
    exists t t1 t2 s s1 s2,
      proj b (combine f1 f2) = Ok t /\ proj b f1 = Ok t1 /\ proj b f2 = Ok t2 /\
      proj (combine b1 b2) f = Ok s /\ proj b1 f = Ok s1 /\ proj b2 f = Ok s2 /\
      forall idx, in_shape [length (pts (nsampled n)); C; K] idx ->
        tget t idx = (x * tget t1 idx + y * tget t2 idx)%R /\
        tget s idx = (x * tget s1 idx + y * tget s2 idx)%R.
Proof.
  intros dev n N C K f f1 f2 b b1 b2 x y Hl H1 H2 proj comb.
  assert (L : forall l g h k, (forall m, g m = x * h m + y * k m)%R ->
    sum_over l g = (x * sum_over l h + y * sum_over l k)%R).
  { intros l g h k Hg. unfold sum_over. induction l as [|a l IH]; cbn; [lra|]. rewrite IH, Hg. lra. }
  do 6 eexists. do 6 (split; [unfold proj; now apply C30_projection_proof|]).
  intros idx Hi. rewrite !tget_ttab by exact Hi. idx_inv. split; apply L; intros m; unfold comb; ring.
Qed.

(** C30. The result does not depend on the order of the rows of the neighbor
    list, if the basis rows are ordered likewise. *)
Lemma C30_order_proof :
  forall dev n n' s N C K f b b',
    length (norig n) = length (nnbs n) -> Permutation s (seq 0 (length (nnbs n))) ->
    Forall (fun q => fst q < N) (norig n) -> Forall (fun q => snd q < length (pts (nsampled n))) (nnbs n) ->
    nsampled n' = nsampled n ->
    norig n' = map (fun m => nth m (norig n) (0, 0)) s -> nnbs n' = map (fun m => nth m (nnbs n) (0, 0)) s ->
    (forall m k, m < length (nnbs n) -> k < K -> b' [m; k] = b [nth m s 0; k]) ->
    basis_proj dev (ttab [length (nnbs n'); K] b') (ttab [N; C] f) n' =
    basis_proj dev (ttab [length (nnbs n); K] b) (ttab [N; C] f) n.
Proof.
  intros dev n n' s N C K f b b' Hl Hs H1 H2 Es Eo En Hb.
  assert (Ls : length s = length (nnbs n)) by (rewrite (Permutation_length Hs); apply seq_length).
  assert (Ln : length (nnbs n') = length (nnbs n)) by (rewrite En, map_length; exact Ls).
  assert (Hlt : forall m, m < length (nnbs n) -> nth m s 0 < length (nnbs n)).
  { intros m Hm. assert (H : In (nth m s 0) s) by (apply nth_In; lia). apply (Permutation_in _ Hs), in_seq in H. lia. }
  assert (Hno : forall m, m < length (nnbs n) -> nth m (norig n') (0, 0) = nth (nth m s 0) (norig n) (0, 0)).
  { intros m Hm. rewrite Eo, (nth_indep _ (0, 0) ((fun m => nth m (norig n) (0, 0)) 0)) by (rewrite map_length; lia).
    apply (map_nth (fun m => nth m (norig n) (0, 0))). }
  assert (Hnn : forall m, m < length (nnbs n) -> nth m (nnbs n') (0, 0) = nth (nth m s 0) (nnbs n) (0, 0)).
  { intros m Hm. rewrite En, (nth_indep _ (0, 0) ((fun m => nth m (nnbs n) (0, 0)) 0)) by (rewrite map_length; lia).
    apply (map_nth (fun m => nth m (nnbs n) (0, 0))). }
  assert (Hsl : Forall (fun m => m < length (nnbs n)) s).
  { apply Forall_forall. intros m Hm. apply (Permutation_in _ Hs), in_seq in Hm. lia. }
  rewrite !C30_projection_proof; auto.
  - rewrite Es, Ln. f_equal. apply ttab_ext. intros idx Hi. idx_inv. rewrite !sum_over_rsum.
    set (G := fun m => (f [fst (nth m (norig n) (0%nat, 0%nat)); i0] * b [m; i1])%R).
    set (P := fun m => snd (nth m (nnbs n) (0, 0)) =? i).
    transitivity (rsum (map (fun m => G (nth m s 0)) (filter (fun m => P (nth m s 0)) (seq 0 (length s))))).
    + rewrite Ls. rewrite (filter_ext_in (fun m => snd (nth m (nnbs n') (0, 0)) =? i) (fun m => P (nth m s 0)))
        by (intros m Hm; apply in_seq in Hm; unfold P; rewrite Hnn by lia; reflexivity).
      f_equal. apply map_ext_in. intros m Hm. apply filter_In in Hm. destruct Hm as [Hm _]. apply in_seq in Hm. unfold G.
      rewrite Hno, Hb by lia. reflexivity.
    + rewrite (positions_map 0 P G s). apply rsum_perm, Permutation_map.
      now apply Permutation_filter'.
  - rewrite Eo, En, !map_length. reflexivity.
  - rewrite Eo. apply Forall_map. eapply Forall_impl; [|exact Hsl]. intros m Hm. rewrite Forall_forall in H1. apply H1, nth_In. cbv beta in Hm. lia.
  - rewrite Es, En. apply Forall_map. eapply Forall_impl; [|exact Hsl]. intros m Hm. rewrite Forall_forall in H2. apply H2, nth_In. exact Hm.
Qed.

Example C30_bilinear_ex_proof :
  exists n, length (norig n) = length (nnbs n) /\ length (nnbs n) = 3 /\
    Forall (fun q => fst q < 6) (norig n) /\ Forall (fun q => snd q < length (pts (nsampled n))) (nnbs n).
Proof.
  destruct exN_nbh as (g & n & _ & _ & _ & _ & E1 & E2 & E3). exists n. rewrite E1, E2, E3.
  split; [reflexivity|]. split; [reflexivity|]. split; repeat constructor; cbn; lia.
Qed.

Example C30_order_ex_proof :
  exists n n', norig n = [(0,0);(1,1);(4,4)] /\ norig n' = [(4,4);(0,0);(1,1)] /\ nsampled n' = nsampled n /\
    norig n' = map (fun m => nth m (norig n) (0, 0)) [2;0;1] /\ nnbs n' = map (fun m => nth m (nnbs n) (0, 0)) [2;0;1] /\
    Permutation [2;0;1] (seq 0 (length (nnbs n))).
Proof.
  destruct exN_nbh as (g & n & _ & _ & _ & _ & E1 & E2 & E3). exists n.
  exists (Nbh (ngrid n) (nequal n) (nsampled n) (nradii n) (nmax n) (nranges n) [(0,4);(4,0);(5,1)] [(4,4);(0,0);(1,1)]).
  cbn [norig nsampled nnbs]. rewrite E1, E2. repeat (split; [reflexivity|]).
  apply NoDup_Permutation; [repeat constructor; cbn; lia|apply seq_NoDup|]. intros x. cbn. lia.
Qed.

(** * C31 *)
Lemma given_flat feats p C F : given feats p C F -> flat_features feats p = Ok (ttab [length (pts p); C] (fun idx => match idx with
  | [i; j] => fval F i j | _ => 0%R end)).
Proof. intros (E1 & E2 & E3). unfold flat_features. rewrite E2. cbn [bind]. rewrite E1, of_rows_ttab, E3. reflexivity. Qed.

Lemma layer_output_table n c f p srt pad : layer_output (ttab [n; c] f) p srt pad = returned p srt pad c (table n c (fun i j => f [i; j])).
Proof. unfold layer_output. rewrite ttab_shape, to_rows_ttab. unfold returned, table. destruct (snd _); reflexivity. Qed.

Lemma max_unique l v v' : is_max l v -> is_max l v' -> v = v'.
Proof. intros [H1 H2] [H3 H4]. rewrite Forall_forall in H2, H4. apply Rle_antisym; auto. Qed.

Lemma offset_row_major sh idx : offset sh idx = row_major sh idx.
Proof. reflexivity. Qed.
Lemma offset_snoc sh idx C c : length idx = length sh -> offset (sh ++ [C]) (idx ++ [c]) = offset sh idx * C + c.
Proof.
  revert idx. induction sh as [|n sh IH]; intros [|i idx] H; cbn [app offset length] in *; try discriminate.
  - cbn. lia.
  - rewrite IH by lia. rewrite nprod_app. replace (nprod [C]) with C by (rewrite nprod_cons, nprod_nil; lia). lia.
Qed.
Lemma in_shape_length sh idx : in_shape sh idx -> length idx = length sh.
Proof. induction 1; cbn; congruence. Qed.
Lemma in_shape_snoc sh C idx : in_shape (sh ++ [C]) idx -> exists i c, idx = i ++ [c] /\ in_shape sh i /\ c < C.
Proof.
  revert idx. induction sh as [|n sh IH]; intros idx H; cbn [app] in H.
  - inversion H as [|? c ? r Hc Hr]; subst. inversion Hr; subst. exists [], c. split; [reflexivity|]. split; [constructor|exact Hc].
  - inversion H as [|? k ? r Hk Hr]; subst. destruct (IH r Hr) as (i & c & -> & Hi & Hc). exists (k :: i), c.
    split; [reflexivity|]. split; [now constructor|exact Hc].
Qed.
Lemma in_shape_snoc' sh C i c : in_shape sh i -> c < C -> in_shape (sh ++ [C]) (i ++ [c]).
Proof. intros H Hc. apply Forall2_app; [exact H|]. constructor; [exact Hc|constructor]. Qed.

Lemma batch_reshape sh C f : nprod sh <> 0 ->
  exists t, treshape_infer (ttab [nprod sh; C] f) sh [] = Ok t /\ tshape t = sh ++ [C] /\
    forall idx c, in_shape sh idx -> c < C -> tget t (idx ++ [c]) = f [row_major sh idx; c].
Proof.
  intros H0.
  rewrite (treshape_infer_ttab [nprod sh; C] sh C [] f (fun idx => [row_major sh (removelast idx); last idx 0])).
  - eexists. split; [reflexivity|]. split; [reflexivity|]. intros idx c Hi Hc.
    rewrite tget_ttab by now apply in_shape_snoc'. now rewrite removelast_last, last_last.
  - rewrite nprod_nil. lia.
  - rewrite !nprod_cons, nprod_nil. lia.
  - intros idx Hi. apply in_shape_snoc in Hi as (i & c & -> & Hi & Hc). rewrite removelast_last, last_last. split.
    + pose proof (row_major_lt sh i Hi). in_sh.
    + rewrite offset_snoc by now apply in_shape_length. rewrite (offset_row_major sh i). generalize (row_major sh i). intros k. cbn. lia.
Qed.

Lemma members_In ids b : In b ids <-> members ids b <> [].
Proof.
  split.
  - intros H E. apply (In_nth _ _ 0) in H as (j & Hj & Eb).
    assert (Hm : In j (members ids b)) by (apply filter_In; split; [apply in_seq; lia|now apply Nat.eqb_eq]).
    rewrite E in Hm. exact Hm.
  - intros H. destruct (members ids b) as [|j l] eqn:E; [contradiction|].
    assert (Hj : In j (members ids b)) by (rewrite E; now left). apply filter_In in Hj as [H1 H2].
    apply in_seq in H1. apply Nat.eqb_eq in H2. subst b. apply nth_In. lia.
Qed.

Lemma global_pooling_table dev eps D rows ids B p feats C F red pad : cloud GPU eps D rows ids B p -> given feats p C F ->
  global_pooling dev red feats p pad =
    (let o := ttab [B; C] (fun idx => match idx with
       | [b; c] => red (map (fun j => fval F j c) (members ids b)) | _ => 0%R end) in
     if pad then match bshape p with None => Err ValueError | Some sh => treshape_infer o sh [] end else Ok o).
Proof.
  intros Hc Hg. pose proof (cloud_is _ _ _ _ _ _ _ Hc) as Hi. unfold global_pooling. rewrite (given_flat _ _ _ _ Hg). cbn [bind].
  rewrite (ic_pts _ _ _ _ _ _ _ Hi), (ic_len _ _ _ _ _ _ _ Hi), (ic_bids _ _ _ _ _ _ _ Hi), (ic_bsize _ _ _ _ _ _ _ Hi).
  rewrite tsegment_ttab by (try reflexivity; apply Hi). cbn [bind].
  rewrite (ttab_ext [B; C] _ (fun idx => match idx with
       | [b; c] => red (map (fun j => fval F j c) (members ids b)) | _ => 0%R end)) by (intros idx Hx; now idx_inv).
  reflexivity.
Qed.

(** C31, global pooling: row b holds the largest entry respectively the mean
    of each feature over the points of element b; for an element without
    points the lowest float respectively 0. With return_padded the rows are
    arranged in the batch shape. *)
Lemma C31_global_proof :
  forall dev eps D rows ids B p feats C F, cloud GPU eps D rows ids B p -> given feats p C F ->
    let values := fun b c => map (fun j => fval F j c) (members ids b) in
    exists mx av,
      global_max_pooling dev feats p false = Ok mx /\ global_average_pooling dev feats p false = Ok av /\
      tshape mx = [B; C] /\ tshape av = [B; C] /\
      (forall b c, b < B -> c < C -> In b ids ->
         (Forall (fun v => (- Q2R flt_max <= v)%R) (values b c) -> is_max (values b c) (tget mx [b; c])) /\
         tget av [b; c] = mean (values b c)) /\
      (forall b c, b < B -> c < C -> ~ In b ids -> tget mx [b; c] = (- Q2R flt_max)%R /\ tget av [b; c] = 0%R) /\
      (forall sh, bshape p = Some sh -> nprod sh = B -> B <> 0 ->
         exists mx' av', global_max_pooling dev feats p true = Ok mx' /\ global_average_pooling dev feats p true = Ok av' /\
           tshape mx' = sh ++ [C] /\ tshape av' = sh ++ [C] /\
           forall idx c, in_shape sh idx -> c < C ->
             tget mx' (idx ++ [c]) = tget mx [row_major sh idx; c] /\ tget av' (idx ++ [c]) = tget av [row_major sh idx; c]).
Proof.
  intros dev eps D rows ids B p feats C F Hc Hg values. pose proof (cloud_is _ _ _ _ _ _ _ Hc) as Hi.
  assert (Hp : forall red pad, global_pooling dev red feats p pad =
    (let o := ttab [B; C] (fun idx => match idx with [b; c] => red (values b c) | _ => 0%R end) in
     if pad then match bshape p with None => Err ValueError | Some sh => treshape_infer o sh [] end else Ok o)).
  { intros red pad. now apply (global_pooling_table dev eps D rows). }
  unfold global_max_pooling, global_average_pooling. rewrite !Hp. cbv zeta.
  do 2 eexists. split; [reflexivity|]. split; [reflexivity|]. split; [reflexivity|]. split; [reflexivity|].
  split; [|split].
  - intros b c Hb Hc' Hin. rewrite !tget_ttab by in_sh.
    assert (Hne : values b c <> []) by (unfold values; intros E; apply map_eq_nil in E; now apply members_In in Hin).
    split; [now apply red_max_ok|now apply red_mean_ok].
  - intros b c Hb Hc' Hin. rewrite !tget_ttab by in_sh. unfold values.
    destruct (members ids b) as [|j l] eqn:E; [|exfalso; apply Hin, members_In; rewrite E; discriminate].
    split; [reflexivity|]. unfold red_mean. cbn. lra.
  - intros sh Es En HB. rewrite Es, <- En.
    destruct (batch_reshape sh C (fun idx => match idx with [b; c] => red_max (values b c) | _ => 0%R end)) as (m & E1 & E2 & E3); [lia|].
    destruct (batch_reshape sh C (fun idx => match idx with [b; c] => red_mean (values b c) | _ => 0%R end)) as (m' & E1' & E2' & E3'); [lia|].
    exists m, m'. split; [exact E1|]. split; [exact E1'|]. split; [exact E2|]. split; [exact E2'|].
    intros idx c Hx Hc'. pose proof (row_major_lt sh idx Hx). rewrite !tget_ttab by in_sh. split; [now apply E3|now apply E3'].
Qed.

(** C31. return_padded fails for a cloud whose batch shape was never set. *)
Lemma C31_padded_refuted_proof :
  forall dev eps D rows ids B p feats C F, cloud GPU eps D rows ids B p -> given feats p C F -> bshape p = None ->
    global_max_pooling dev feats p true = Err ValueError /\ global_average_pooling dev feats p true = Err ValueError.
Proof.
  intros dev eps D rows ids B p feats C F Hc Hg Hs. pose proof (cloud_is _ _ _ _ _ _ _ Hc) as Hi.
  unfold global_max_pooling, global_average_pooling, global_pooling. rewrite (given_flat _ _ _ _ Hg). cbn [bind].
  rewrite (ic_pts _ _ _ _ _ _ _ Hi), (ic_len _ _ _ _ _ _ _ Hi), (ic_bids _ _ _ _ _ _ _ Hi), (ic_bsize _ _ _ _ _ _ _ Hi).
  rewrite !tsegment_ttab by (try reflexivity; apply Hi). cbn [bind]. now rewrite Hs.
Qed.

Example C31_global_ex_proof :
  exists p, init (PN 1 (Padded [2;1] 2 [[1#1];[2#1];[3#1];[4#1]])) None None (Some (ITensor [2;1] [2;1])) = Ok p /\
    cloud GPU 0 1 [[1#1];[2#1];[3#1]] [0;0;1] 2 p /\ bshape p = Some [2;1] /\
    given (Feat 1 (inr [[5%R];[7%R];[4%R]])) p 1 [[5%R];[7%R];[4%R]] /\
    map (fun j => fval [[5%R];[7%R];[4%R]] j 0) (members [0;0;1] 0) = [5%R;7%R].
Proof.
  eexists. split; [vm_compute; reflexivity|]. split.
  { apply (cloud_new GPU 0 1 _ _ 2 (PN 1 (Padded [2;1] 2 [[1#1];[2#1];[3#1];[4#1]])) None None (Some (ITensor [2;1] [2;1])));
      [vm_compute; reflexivity|reflexivity..|repeat constructor|repeat constructor]. }
  split; [reflexivity|]. split; [|reflexivity]. split; [reflexivity|]. split; reflexivity.
Qed.

Example C31_padded_refuted_ex_proof :
  exists p, init (P2 1 [[1#1];[2#1];[3#1]]) (Some [0;0;1]) None None = Ok p /\ bshape p = None /\
    cloud GPU 0 1 [[1#1];[2#1];[3#1]] [0;0;1] 2 p /\ given (Feat 1 (inr [[5%R];[7%R];[4%R]])) p 1 [[5%R];[7%R];[4%R]].
Proof.
  eexists. split; [vm_compute; reflexivity|]. split; [reflexivity|]. split.
  { apply (cloud_new GPU 0 1 _ _ 2 (P2 1 [[1#1];[2#1];[3#1]]) (Some [0;0;1]) None None);
      [vm_compute; reflexivity|reflexivity..|repeat constructor|repeat constructor]. }
  split; [reflexivity|]. split; reflexivity.
Qed.

Lemma local_pooling_table eps D r rows ids pin crows cids pout radii feats C F srt pad red :
  workable eps D r rows ids pin crows cids pout -> radii = [r] \/ radii = repeat r D -> given feats pin C F ->
  (forall l m, Permutation l m -> red l = red m) ->
  local_pooling GPU eps (find_neighbors_tf GPU) red feats pin pout (Some radii) srt pad =
  returned pout srt pad C (table (length cids) C (fun i c => red (map (fun j => fval F j c) (near_points D r rows ids crows cids i)))).
Proof.
  intros W Hrad Hg Hred.
  destruct (workable_nbh _ _ _ _ _ _ _ _ _ W) as (g & n & B & Eg & HcB & Hu & En & Hm & Hv & P1 & P2).
  destruct W as [(B' & Hc & _) (ceps & CB & Ho) HD _ _ _ _].
  pose proof (cloud_is _ _ _ _ _ _ _ Hc) as Hi. pose proof (cloud_is _ _ _ _ _ _ _ Ho) as Hio.
  assert (Eb : bcast D radii = repeat r D).
  { destruct Hrad as [-> | ->]; [reflexivity|apply all_dims_repeat]. }
  unfold local_pooling. rewrite (given_flat _ _ _ _ Hg). cbn [bind].
  rewrite (ic_dim _ _ _ _ _ _ _ Hi), Eb, Eg. cbn [bind]. rewrite En. cbn [bind].
  rewrite (ic_pts _ _ _ _ _ _ _ Hi), (ic_len _ _ _ _ _ _ _ Hi), (ic_pts _ _ _ _ _ _ _ Hio), (ic_len _ _ _ _ _ _ _ Hio).
  rewrite tgather_ttab by apply (pairs_fst _ _ _ _ _ _ _ P1). cbn [bind].
  pose proof (pool_pairs D r rows ids crows cids n P1 GPU red C (fun idx => match idx with [i; j] => fval F i j | _ => 0%R end) Hred) as Hpool.
  rewrite tgather_ttab in Hpool by apply (pairs_fst _ _ _ _ _ _ _ P1). cbn [bind] in Hpool. rewrite Hpool. cbn [bind].
  apply layer_output_table.
Qed.

(** C31, local pooling: row i holds the largest entry respectively the mean of
    each feature over the points within the radius of center i; without such
    points the lowest float respectively 0. *)
Lemma C31_local_partial_proof :
  forall eps D r rows ids pin crows cids pout radii feats C F return_sorted return_padded,
    workable eps D r rows ids pin crows cids pout -> radii = [r] \/ radii = repeat r D -> given feats pin C F ->
    let search := find_neighbors_tf GPU in
    let values := fun i c => map (fun j => fval F j c) (near_points D r rows ids crows cids i) in
    exists mx av,
      max_pooling GPU eps search feats pin pout (Some radii) return_sorted return_padded
        = returned pout return_sorted return_padded C (table (length cids) C mx) /\
      average_pooling GPU eps search feats pin pout (Some radii) return_sorted return_padded
        = returned pout return_sorted return_padded C (table (length cids) C av) /\
      forall i c, i < length cids -> c < C ->
        if values i c then mx i c = (- Q2R flt_max)%R /\ av i c = 0%R
        else (Forall (fun v => (- Q2R flt_max <= v)%R) (values i c) -> is_max (values i c) (mx i c)) /\
             av i c = mean (values i c).
Proof.
  intros eps D r rows ids pin crows cids pout radii feats C F srt pad W Hrad Hg search values.
  assert (Hp : forall red, (forall l m, Permutation l m -> red l = red m) ->
    local_pooling GPU eps search red feats pin pout (Some radii) srt pad =
    returned pout srt pad C (table (length cids) C (fun i c => red (values i c))))
    by (intros red; now apply local_pooling_table).
  exists (fun i c => red_max (values i c)), (fun i c => red_mean (values i c)).
  split; [apply Hp, red_max_perm|]. split; [apply Hp, red_mean_perm|].
  intros i c Hi' Hc'. destruct (values i c) as [|v l]; [split; [reflexivity|unfold red_mean; cbn; lra]|].
  split; [intros HF; now apply red_max_ok|now apply red_mean_ok].
Qed.

(** C31. A radius given as a plain number is rejected, although the
    documentation allows it. *)
Lemma C31_scalar_radius_refuted_proof :
  forall dev eps search pin pout feats C F return_sorted return_padded, given feats pin C F ->
    max_pooling dev eps search feats pin pout None return_sorted return_padded = Err IndexError /\
    average_pooling dev eps search feats pin pout None return_sorted return_padded = Err IndexError.
Proof.
  intros dev eps search pin pout feats C F srt pad Hg. unfold max_pooling, average_pooling, local_pooling.
  rewrite (given_flat _ _ _ _ Hg). split; reflexivity.
Qed.

(** The two clouds of the examples. *)
Definition exN_F : list (list R) := [[1%R;2%R];[3%R;4%R];[5%R;6%R];[7%R;8%R];[9%R;10%R];[11%R;12%R]].
Lemma exN_workable : workable (1#1000) 2 1 exN_rows exN_ids (seg 2 exN_rows exN_ids 2) exN_centers exN_cids (seg 2 exN_centers exN_cids 2).
Proof.
  constructor.
  - exists 2. split; [apply seg_cloud; repeat constructor|]. split; [repeat constructor|].
    exists [4%Z;4%Z]. split; [reflexivity|]. split; [vm_compute; discriminate|]. intros d Hd. destruct d as [|[|d]]; [| |lia]; (split; [cbn; lia|]);
    intros i j Hi Hj _; cbn in Hi, Hj;
    do 6 (destruct i as [|i]; [do 6 (destruct j as [|j]; [vm_compute; discriminate|]); lia|]); lia.
  - exists 0%Q, 2. apply seg_cloud; repeat constructor.
  - lia.
  - reflexivity.
  - split; vm_compute; congruence.
  - split; [discriminate|vm_compute; reflexivity].
  - discriminate.
Qed.
Lemma exN_given : given (Feat 2 (inr exN_F)) (seg 2 exN_rows exN_ids 2) 2 exN_F.
Proof. split; [reflexivity|]. split; reflexivity. Qed.

Example C31_local_partial_ex_proof :
  workable (1#1000) 2 1 exN_rows exN_ids (seg 2 exN_rows exN_ids 2) exN_centers exN_cids (seg 2 exN_centers exN_cids 2) /\
  given (Feat 2 (inr exN_F)) (seg 2 exN_rows exN_ids 2) 2 exN_F /\
  map (near_points 2 1 exN_rows exN_ids exN_centers exN_cids) (seq 0 5) = [[0];[1];[];[];[4]].
Proof. split; [exact exN_workable|]. split; [exact exN_given|]. vm_compute. reflexivity. Qed.
Example C31_scalar_radius_refuted_ex_proof :
  given (Feat 2 (inr exN_F)) (seg 2 exN_rows exN_ids 2) 2 exN_F /\
  max_pooling GPU (1#1000) (find_neighbors_tf GPU) (Feat 2 (inr exN_F)) (seg 2 exN_rows exN_ids 2) (seg 2 exN_centers exN_cids 2) None false false
    = Err IndexError.
Proof. split; [exact exN_given|]. exact (proj1 (C31_scalar_radius_refuted_proof _ _ _ _ _ _ _ _ false false exN_given)). Qed.
