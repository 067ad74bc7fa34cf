(** Proofs about local pooling entirely in float32 (C80). The statements are
    copied into PropertiesFloatPooling.v. *)
From Coq Require Import String List Arith ZArith NArith QArith Qabs Qround Qreals Reals Lia Lra Bool Permutation.
From Verif Require Import Tensor TensorFacts Spec SpecText TextFacts PointCloud SpecCloud History PointCloudFacts QFacts Grid SpecGrid GridFacts Neighbors SpecNeighbors NeighborFacts NeighborProofs Neighborhood NeighborhoodFacts
  SamplingFacts SamplingProofs Pdf SpecPdf PdfFacts PdfProofs RTensor RTensorFacts Layers SpecLayers LayerFacts LayerLink LayerProofs
  Float FloatFacts FloatGrid SpecFloat KeyGridFacts FloatGridFacts FloatProofs FloatNorm FloatSampling SpecFloatSampling FloatSampleProofs FloatNormProofs FloatAverageProofs
  FloatLayers SpecFloatLayers FloatPoolProofs FloatPooling SpecFloatPooling.
Import ListNotations.
Local Open Scope nat_scope.

Lemma float_grid D p l : 2 <= D -> dim p = D -> mk_grid32 GPU p (bcast D l) = mk_grid32 GPU p l.
Proof. intros HD E. unfold mk_grid32. rewrite E, bcast_rounded by exact HD. reflexivity. Qed.
Lemma float_search test g c D l : 2 <= D -> dim (gcloud g) = D -> find_neighbors32 GPU test g c (bcast D l) = find_neighbors32 GPU test g c l.
Proof. intros HD E. unfold find_neighbors32. cbv zeta. rewrite E, bcast_rounded by exact HD. reflexivity. Qed.

(** The pooling reduces, for each center, the points the search returns. *)
Definition found_for (g : grid) (nbs : list (nat * nat)) (i : nat) : list nat :=
  map (fun q => nth (fst q) (gsidx g) 0) (filter (fun q => snd q =? i) nbs).

Section Run.
  Context (test : point -> point -> bool) (eps : Q) (D : nat) (rows : list point) (ids : list nat) (B : nat) (p : pc) (r : Q) (g : grid).
  Context (ceps : Q) (crows : list point) (cids : list nat) (CB : nat) (cp : pc) (rg : ranges) (nbs : list (nat * nat)).
  Context (feats : feat) (C : nat) (F : list (list R)).
  Hypothesis Hc : cloud GPU eps D rows ids B p.
  Hypothesis Hcc : cloud GPU ceps D crows cids CB cp.
  Hypothesis HD : 2 <= D.
  Hypothesis E : mk_grid32 GPU p [r] = Ok g.
  Hypothesis Es : snd (find_neighbors32 GPU test g cp [r]) = Ok (rg, nbs).
  Hypothesis Hn : forall j i, In (j, i) nbs -> j < length ids /\ i < length cids.
  Hypothesis Hg : given feats p C F.

  Lemma pooling_run red srt pad :
    local_pooling32 test red feats p cp (Some [r]) srt pad =
    returned cp srt pad C (table (length cids) C (fun i c => red (map (fun j => fval F j c) (found_for g nbs i)))).
  Proof using Hc Hcc HD E Es Hn Hg.
    assert (Hi := cloud_is _ _ _ _ _ _ _ Hc). assert (Hio := cloud_is _ _ _ _ _ _ _ Hcc).
    assert (G := mk_grid32_is GPU eps D rows ids B p [r] g Hi E).
    assert (Pm := float_perm eps D rows ids B p r g Hc E).
    assert (Li : length (gsidx g) = length ids) by (rewrite (Permutation_length Pm), seq_length; reflexivity).
    assert (Lt : forall j, j < length ids -> nth j (gsidx g) 0 < length ids).
    { intros j Hj. assert (X : In (nth j (gsidx g) 0) (gsidx g)) by (apply nth_In; lia). apply (Permutation_in _ Pm), in_seq in X. lia. }
    set (orig := map (fun q => (nth (fst q) (gsidx g) 0, snd q)) nbs).
    assert (O1 : Forall (fun j => j < length ids) (map fst orig)).
    { apply Forall_map, Forall_map, Forall_forall. intros [j i] H. cbn [fst snd]. apply Lt, (Hn j i H). }
    assert (O2 : Forall (fun i => i < length cids) (map snd orig)).
    { apply Forall_map, Forall_map, Forall_forall. intros [j i] H. cbn [fst snd]. apply (Hn j i H). }
    assert (En : exists n, snd (mk_nbh (search32 test) g (bcast D [r]) (Some cp) 0) = Ok n /\ norig n = orig).
    { unfold mk_nbh. rewrite (h_dim _ _ _ _ _ _ G). replace (bcast D (bcast D [r])) with (bcast D [r]) by (symmetry; apply all_dims_repeat).
      unfold search32. destruct (find32_grid test g cp [r]) as (_ & _ & _ & K4).
      rewrite float_search by (exact HD || apply (h_dim _ _ _ _ _ _ G)).
      destruct (find_neighbors32 GPU test g cp [r]) as [g' rs]. cbn [fst snd] in *. rewrite Es. cbn [bind fst snd].
      assert (Ll : Forall (fun i => i < length (gsidx g')) (map fst nbs)).
      { apply Forall_map, Forall_forall. intros [j i] Hj. rewrite K4, Li. now apply (Hn j i). }
      unfold original_ids. rewrite (gather_map _ _ 0 Ll). cbn [bind]. eexists. split; [reflexivity|]. cbn [norig]. rewrite K4. unfold orig.
      clear. induction nbs as [|q l IH]; [reflexivity|]. cbn [map combine]. now rewrite IH. }
    destruct En as (n & En & Eo).
    unfold local_pooling32. rewrite (given_flat _ _ _ _ Hg). cbn [bind].
    rewrite (ic_dim _ _ _ _ _ _ _ Hi). rewrite float_grid by (exact HD || apply (ic_dim _ _ _ _ _ _ _ Hi)). rewrite E. cbn [bind]. rewrite En. cbn [bind].
    rewrite (ic_pts _ _ _ _ _ _ _ Hi), (ic_len _ _ _ _ _ _ _ Hi), (ic_pts _ _ _ _ _ _ _ Hio), (ic_len _ _ _ _ _ _ _ Hio), Eo.
    rewrite tgather_ttab by exact O1. cbn [bind]. rewrite map_length.
    rewrite tsegment_ttab by (try exact O2; apply map_length). cbn [bind].
    rewrite layer_output_table. f_equal. unfold table. apply map_ext_in. intros i _. apply map_ext. intros c. f_equal.
    unfold found_for. rewrite map_map.
    rewrite (filter_ext _ (fun k => snd (nth k orig (0, 0)) =? i)) by (intros k; now rewrite (map_nth snd orig (0, 0))).
    transitivity (map (fun q => fval F (fst q) c) (filter (fun q => snd q =? i) orig)).
    - rewrite <- (positions_map (0, 0) (fun q => snd q =? i) (fun q => fval F (fst q) c)). apply map_ext. intros k. now rewrite (map_nth fst orig (0, 0)).
    - unfold orig. clear. induction nbs as [|q l IH]; [reflexivity|]. cbn [map filter snd]. destruct (snd q =? i); cbn [map fst snd]; [f_equal|]; exact IH.
  Qed.
End Run.

Section Between.
  Context (test : point -> point -> bool) (eps : Q) (D : nat) (rows : list point) (ids : list nat) (B : nat) (p : pc) (r : Q) (g : grid).
  Context (crows : list point) (cids : list nat) (small large : Q) (nbs : list (nat * nat)).
  Hypothesis Hc : cloud GPU eps D rows ids B p.
  Hypothesis E : mk_grid32 GPU p [r] = Ok g.
  Hypothesis Nd : NoDup nbs.
  Hypothesis N1 : forall j i, In (j, i) nbs -> near D large (gspts g) (gsbids g) crows cids j i.
  Hypothesis N2 : forall j i, near D small (gspts g) (gsbids g) crows cids j i -> In (j, i) nbs.

  Lemma sorted_near rad j i : j < length ids -> near D rad (gspts g) (gsbids g) crows cids j i <-> near D rad rows ids crows cids (nth j (gsidx g) 0) i.
  Proof using Hc E.
    intros Hj. assert (G := mk_grid32_is GPU eps D rows ids B p [r] g (cloud_is _ _ _ _ _ _ _ Hc) E).
    assert (Pm := float_perm eps D rows ids B p r g Hc E). destruct (float_points eps D rows ids B p r g Hc E) as (_ & Lp & Lb).
    assert (Li : length (gsidx g) = length ids) by (rewrite (Permutation_length Pm), seq_length; reflexivity).
    assert (X : nth j (gsidx g) 0 < length ids).
    { assert (X : In (nth j (gsidx g) 0) (gsidx g)) by (apply nth_In; lia). apply (Permutation_in _ Pm), in_seq in X. lia. }
    assert (A1 : nth j (gspts g) [] = nth (nth j (gsidx g) 0) rows []).
    { rewrite (h_spts _ _ _ _ _ _ G). rewrite (nth_indep _ [] (nth 0 rows [])) by (rewrite map_length; lia). now rewrite (map_nth (fun k => nth k rows [])). }
    assert (A2 : nth j (gsbids g) 0 = nth (nth j (gsidx g) 0) ids 0).
    { rewrite (h_sbids _ _ _ _ _ _ G). rewrite (nth_indep _ 0 (nth 0 ids 0)) by (rewrite map_length; lia). now rewrite (map_nth (fun k => nth k ids 0)). }
    unfold near. rewrite A1, A2, Lb. tauto.
  Qed.
  Lemma found_between i : neighbors_between D small large rows ids crows cids i (found_for g nbs i).
  Proof using Hc E Nd N1 N2.
    assert (Pm := float_perm eps D rows ids B p r g Hc E). destruct (float_points eps D rows ids B p r g Hc E) as (_ & Lp & Lb).
    assert (Li : length (gsidx g) = length ids) by (rewrite (Permutation_length Pm), seq_length; reflexivity).
    assert (Ns : NoDup (gsidx g)) by (apply (Permutation_NoDup (Permutation_sym Pm)), seq_NoDup).
    unfold found_for. split; [|split].
    - assert (H : forall l, NoDup l -> (forall j i', In (j, i') l -> j < length ids /\ i' = i) -> NoDup (map (fun q : nat * nat => nth (fst q) (gsidx g) 0) l)).
      { induction 1 as [|[j k] l Hq Hl IH]; intros HB; [constructor|]. cbn [map fst]. constructor; [|apply IH; intros; apply HB; now right].
        intros Hin. apply in_map_iff in Hin as ([j' k'] & Eq & Hin). cbn [fst] in Eq. destruct (HB j k (or_introl eq_refl)) as [Hj ->]. destruct (HB j' k' (or_intror Hin)) as [Hj' ->].
        rewrite NoDup_nth in Ns. apply Ns in Eq; [|lia|lia]. subst j'. now apply Hq. }
      apply H; [now apply NoDup_filter|]. intros j i' Hin. apply filter_In in Hin as [Hin Hi]. cbn [snd] in Hi. apply Nat.eqb_eq in Hi. split; [|exact Hi].
      destruct (N1 j i' Hin) as [Hj _]. lia.
    - intros j Hj. apply in_map_iff in Hj as ([j' i'] & <- & Hin). apply filter_In in Hin as [Hin Hi]. cbn [fst snd] in *. apply Nat.eqb_eq in Hi. subst i'.
      apply sorted_near; [destruct (N1 j' i Hin) as [Hj _]; lia|]. now apply N1.
    - intros j Hj. assert (In j (gsidx g)) as X. { apply (Permutation_in _ (Permutation_sym Pm)), in_seq. destruct Hj. lia. }
      apply (In_nth _ _ 0) in X as (k & Hk & <-). apply in_map_iff. exists (k, i). split; [reflexivity|]. apply filter_In. split; [|apply Nat.eqb_refl].
      apply N2. apply sorted_near; [lia|exact Hj].
  Qed.
End Between.

(** * The theorems *)
(** C80, partial. Local pooling in float32: row i reduces the features of points
    of the element of center i, namely every point within the radius reduced by a
    fraction of (m + D + 12) / 2^22, and no point beyond the radius enlarged by a
    fraction of (D + 12) / 2^24. The average of these features is computed up to
    the rounding error, their maximum exactly; without points the result is 0
    respectively the lowest float. Partial: the hypotheses of C54_distances. *)
Lemma C80_pooling_partial_proof :
  forall test eps D rows ids B p r g ceps crows cids CB cp m feats C F red return_sorted return_padded,
    cloud GPU eps D rows ids B p -> float32_batch D rows ids -> mk_grid32 GPU p [r] = Ok g -> 2 <= D <= 1024 ->
    (Z.of_nat (length ids) <= 2 ^ 23)%Z -> (Z.of_nat B * product (gnc g) <= 2 ^ 31)%Z ->
    (forall lo i d, i < length ids -> d < D -> lower_corner32 D rows ids (nth i ids 0) lo ->
       Qfloor (position32 (nth d lo 0%Q) (nth d (gcells g) 0%Q) (xc rows i d)) <> nth d (gnc g) 0%Z) ->
    cloud GPU ceps D crows cids CB cp -> cids <> [] -> Forall (fun b => b < B) cids ->
    is_float32 r -> (pow2 (-50) <= r)%Q -> (nth 0 (gnc g) 0 <= m)%Z -> (nth 1 (gnc g) 0 <= m)%Z -> (0 <= m <= 2 ^ 21)%Z ->
    compares32 D r test rows crows ->
    given feats p C F -> float32_features F -> averaging32 red ->
    let small := ((1 - inject_Z (m + Z.of_nat D + 12) * (1 # 4194304)) * r)%Q in
    let large := ((1 + inject_Z (Z.of_nat D + 12) * (1 # 16777216)) * r)%Q in
    exists found mx av,
      (forall i, i < length cids -> neighbors_between D small large rows ids crows cids i (found i)) /\
      local_pooling32 test red_max feats p cp (Some [r]) return_sorted return_padded
        = returned cp return_sorted return_padded C (table (length cids) C mx) /\
      local_pooling32 test red feats p cp (Some [r]) return_sorted return_padded
        = returned cp return_sorted return_padded C (table (length cids) C av) /\
      forall i c, i < length cids -> c < C ->
        let values := map (fun j => fval F j c) (found i) in
        if values then mx i c = (- Q2R flt_max)%R /\ av i c = 0%R
        else (Forall (fun v => (- Q2R flt_max <= v)%R) values -> is_max values (mx i c)) /\ average32 values (av i c).
Proof.
  intros test eps D rows ids B p r g ceps crows cids CB cp m feats C F red srt pad Hc Hf E HD HN Ho Hfit Hcc Hne HcB Hr Hlow Hm0 Hm1 Hm Ht Hg HF Hred small large.
  destruct (C54_distances_partial_proof test eps D rows ids B p r g ceps crows cids CB cp m Hc Hf E HD) as (rg & nbs & Es & _ & Nd & N1 & N2); auto; [lia|].
  destruct (float_points eps D rows ids B p r g Hc E) as (_ & _ & Lb).
  assert (Hn : forall j i, In (j, i) nbs -> j < length ids /\ i < length cids).
  { intros j i H. destruct (N1 j i H) as (Hj & Hi & _). lia. }
  assert (Hrun := pooling_run test eps D rows ids B p r g ceps crows cids CB cp rg nbs feats C F Hc Hcc ltac:(lia) E Es Hn Hg).
  assert (Hb : forall i, neighbors_between D small large rows ids crows cids i (found_for g nbs i)) by (intros i; now apply (found_between eps D rows ids B p r g)).
  exists (found_for g nbs), (fun i c => red_max (map (fun j => fval F j c) (found_for g nbs i))), (fun i c => red (map (fun j => fval F j c) (found_for g nbs i))).
  split; [intros i _; apply Hb|]. split; [apply Hrun|]. split; [apply Hrun|]. intros i c Hi Hc'. cbv zeta.
  assert (Hlen : (Z.of_nat (length (found_for g nbs i)) <= 2 ^ 23)%Z).
  { destruct (Hb i) as (Hd & H1 & _). assert (X : incl (found_for g nbs i) (seq 0 (length ids))) by (intros j Hj; apply in_seq; destruct (H1 j Hj); lia).
    apply NoDup_incl_length in X; [|exact Hd]. rewrite seq_length in X. lia. }
  assert (P := pooled_average red F c (found_for g nbs i) (found_for g nbs i) Hred HF (Permutation_refl _) Hlen).
  destruct (map (fun j => fval F j c) (found_for g nbs i)) as [|v l] eqn:El.
  - split; [reflexivity|]. exact P.
  - split; [|exact P]. intros HB. apply red_max_ok; [discriminate|exact HB].
Qed.

Lemma red_max_below l : Forall (fun x => (x <= 0)%R) l -> (red_max l <= 0)%R.
Proof.
  assert (Q2R flt_max >= 0)%R by (rewrite <- RMicromega.Q2R_0; apply Rle_ge, Qle_Rle; vm_compute; discriminate).
  unfold red_max, rlowest. induction 1 as [|x l Hx Hl IH]; cbn [fold_right]; [lra|]. now apply Rmax_lub.
Qed.

(** C80, every neighbor, refuted: with the exact distance as test, the maximum
    over the points within the radius is not returned, since the search misses a
    point (C54_search_refuted). *)
Definition ex80_F : list (list R) := [[0%R]; [0%R]; [0%R]; [0%R]; [0%R]; [0%R]; [1%R]; [0%R]].
Lemma C80_missed_refuted_proof :
  exists rows ids p r crows cids cp feats F,
    cloud GPU 0 2 rows ids 1 p /\ float32_batch 2 rows ids /\ is_float32 r /\
    cloud GPU 0 2 crows cids 1 cp /\ float32_batch 2 crows cids /\ given feats p 1 F /\ float32_features F /\
    exists mx j, local_pooling32 (fun a b => norm_lt a b r) red_max feats p cp (Some [r]) false false = returned cp false false 1 (table (length cids) 1 mx) /\
      near 2 r rows ids crows cids j 0 /\ (mx 0%nat 0%nat < fval F j 0)%R.
Proof.
  destruct (mk_grid32 GPU ex54_cloud [f32 (7 # 10)]) as [g|] eqn:Eg; [|vm_compute in Eg; discriminate].
  set (crows := [[ex54_mid; ex54_low]; [2 # 1; 1 # 2]]%Q : list point). set (cids := [0;0]).
  assert (Hc : cloud GPU 0 2 ex54_rows ex54_ids 1 ex54_cloud) by (apply seg_cloud; [reflexivity|repeat constructor|repeat constructor]).
  assert (Hcc : cloud GPU 0 2 crows cids 1 (seg 2 crows cids 1)) by (apply seg_cloud; [reflexivity|repeat constructor|repeat constructor]).
  assert (Hg : given (Feat 1 (inr ex80_F)) ex54_cloud 1 ex80_F) by (split; [reflexivity|split; reflexivity]).
  exists ex54_rows, ex54_ids, ex54_cloud, (f32 (7 # 10)), crows, cids, (seg 2 crows cids 1), (Feat 1 (inr ex80_F)), ex80_F.
  split; [exact Hc|]. split; [exact ex54_batch|]. split; [apply f32_f32|]. split; [exact Hcc|].
  split. { intros i d Hi Hd. change (length cids) with 2%nat in Hi. do 2 (destruct i as [|i]; [destruct d as [|[|d]]; [vm_compute; reflexivity..|lia]|]). lia. }
  split; [exact Hg|]. split. { repeat constructor; first [apply (whole_float 0)|apply (whole_float 1)]; vm_compute; reflexivity. }
  assert (Hs : exists rg nbs, snd (find_neighbors32 GPU (fun a b => norm_lt a b (f32 (7 # 10))) g (seg 2 crows cids 1) [f32 (7 # 10)]) = Ok (rg, nbs) /\
    forallb (fun q => (fst q <? 8) && (snd q <? 2)) nbs = true /\ existsb (Nat.eqb 6) (found_for g nbs 0) = false).
  { vm_compute in Eg. inversion Eg; subst g; clear Eg. do 2 eexists. split; [vm_compute; reflexivity|]. split; vm_compute; reflexivity. }
  destruct Hs as (rg & nbs & Es & Hn & Hno). rewrite forallb_forall in Hn.
  exists (fun i c => red_max (map (fun j => fval ex80_F j c) (found_for g nbs i))), 6.
  split; [|split].
  - apply (pooling_run _ 0 2 ex54_rows ex54_ids 1 ex54_cloud _ g 0 crows cids 1 _ rg nbs _ 1 ex80_F Hc Hcc (le_n 2) Eg Es); [|exact Hg].
    intros j i H. specialize (Hn _ H). cbn [fst snd] in Hn. apply andb_prop in Hn as [Ha Hb]. apply Nat.ltb_lt in Ha, Hb. split; [exact Ha|exact Hb].
  - split; [cbn; lia|]. split; [cbn; lia|]. split; [reflexivity|]. vm_compute. reflexivity.
  - change (fval ex80_F 6 0) with 1%R. apply Rle_lt_trans with 0%R; [|lra]. apply red_max_below, Forall_map, Forall_forall. intros j Hj.
    assert (Hj6 : j <> 6). { intros ->. assert (X : existsb (Nat.eqb 6) (found_for g nbs 0) = true) by (apply existsb_exists; exists 6; split; [exact Hj|reflexivity]). congruence. }
    unfold fval, ex80_F. do 6 (destruct j as [|j]; [cbn; lra|]). destruct j as [|j]; [lia|]. destruct j as [|j]; [cbn; lra|]. destruct j; cbn; lra.
Qed.

(** * Concrete cases *)
Definition ex80_centers : list point := [[1; 1]; [4; 5]]%Q.
Definition ex80_feats : list (list R) := [[1%R; 2%R]; [3%R; 5%R]; [8%R; (-1)%R]].
Example C80_pooling_partial_ex_proof :
  exists g, cloud GPU 0 2 ex75_rows [0; 0; 0] 1 (seg 2 ex75_rows [0; 0; 0] 1) /\ float32_batch 2 ex75_rows [0; 0; 0] /\
    mk_grid32 GPU (seg 2 ex75_rows [0; 0; 0] 1) [7%Q] = Ok g /\ gnc g = [1; 2]%Z /\
    (forall lo i d, i < 3 -> d < 2 -> lower_corner32 2 ex75_rows [0; 0; 0] (nth i [0; 0; 0] 0) lo ->
       Qfloor (position32 (nth d lo 0%Q) (nth d (gcells g) 0%Q) (xc ex75_rows i d)) <> nth d (gnc g) 0%Z) /\
    cloud GPU 0 2 ex80_centers [0; 0] 1 (seg 2 ex80_centers [0; 0] 1) /\ is_float32 7 /\
    compares32 2 7 (fun a b => norm_lt a b 7) ex75_rows ex80_centers /\
    given (Feat 2 (inr ex80_feats)) (seg 2 ex75_rows [0; 0; 0] 1) 2 ex80_feats /\ float32_features ex80_feats /\ averaging32 tail_red /\
    exists rg nbs, snd (find_neighbors32 GPU (fun a b => norm_lt a b 7) g (seg 2 ex80_centers [0; 0] 1) [7%Q]) = Ok (rg, nbs) /\ nbs = [(1, 0); (2, 0); (0, 1); (1, 1); (2, 1)].
Proof.
  destruct C75_distances_partial_ex_proof as (g & H1 & H2 & H3 & H4 & H5 & H6 & _ & H7 & _).
  exists g. split; [exact H1|]. split; [exact H2|]. split; [exact H3|]. split; [exact H4|]. split; [exact H5|].
  split; [apply seg_cloud; [reflexivity|repeat constructor|repeat constructor]|]. split; [exact H6|].
  split. { intros p c Hp Hc. apply H7; [exact Hp|]. cbn in Hc |- *. tauto. }
  split; [split; [reflexivity|split; reflexivity]|]. split.
  { repeat constructor; first [apply (whole_float 1)|apply (whole_float 2)|apply (whole_float 3)|apply (whole_float 5)|apply (whole_float 8)|apply (whole_float (-1))]; vm_compute; reflexivity. }
  split; [exact tail_red_ok|]. vm_compute in H3. inversion H3; subst g. do 2 eexists. split; [vm_compute; reflexivity|reflexivity].
Qed.
Example C80_missed_refuted_ex_proof :
  near 2 (f32 (7 # 10)) ex54_rows ex54_ids [[ex54_mid; ex54_low]; [2 # 1; 1 # 2]]%Q [0; 0] 6 0 /\ fval ex80_F 6 0 = 1%R.
Proof. split; [|reflexivity]. split; [cbn; lia|]. split; [cbn; lia|]. split; [reflexivity|]. vm_compute. reflexivity. Qed.
