(** Facts about the neighborhood objects. *)
From Coq Require Import List Arith ZArith QArith Qround Lia Lqa Bool Permutation Sorted.
From Verif Require Import Tensor TensorFacts Spec PointCloud SpecCloud History PointCloudFacts QFacts
  Grid SpecGrid GridFacts GridProofs Neighbors SpecNeighbors NeighborFacts NeighborProofs Neighborhood.
Import ListNotations.
Local Open Scope nat_scope.

Lemma NoDup_map_inj_in {A B} (f : A -> B) l :
  (forall x y, In x l -> In y l -> f x = f y -> x = y) -> NoDup l -> NoDup (map f l).
Proof.
  intros Hf H. induction H as [|a l Ha H IH]; cbn; constructor.
  - intros Hin. apply in_map_iff in Hin as (y & E & Hy). apply Ha.
    rewrite (Hf a y) by (cbn; auto). exact Hy.
  - apply IH. intros; apply Hf; cbn; auto.
Qed.

Lemma bcast_bcast D l : bcast D (bcast D l) = bcast D l.
Proof.
  destruct l as [|x [|y l]]; try reflexivity. cbn. destruct D as [|[|D]]; reflexivity.
Qed.

(** The cloud of a grid is a cloud of the same batch. *)
Lemma grid_for_cloud dev eps D rows ids B cs g :
  grid_for dev eps D rows ids B cs g -> cloud dev eps D rows ids B (gcloud g).
Proof.
  induction 1 as [p g Hc E|g H IH|g o H IH].
  - apply cloud_aabb in Hc. unfold mk_grid in E.
    destruct (get_aabb dev eps p) as [p' [a|e]]; cbn in E, Hc; [|discriminate].
    destruct (negb (length _ =? _)); [discriminate|]. destruct (negb _); [discriminate|].
    repeat match type of E with (bind ?x _) = _ => destruct x; cbn [bind] in E; [|discriminate] end.
    inversion E. exact Hc.
  - unfold get_DS. destruct (gds g); [exact IH|]. destruct (build_grid_ds _ _ _ _); exact IH.
  - cbn. now apply cloud_call.
Qed.

(** What a search does to the grid. *)
Lemma find_tf_grid dev g cp radii mx : 
  fst (find_neighbors_tf dev g cp radii mx) = g \/ fst (find_neighbors_tf dev g cp radii mx) = fst (get_DS dev g).
Proof.
  unfold find_neighbors_tf. destruct (bcast _ radii) as [|r0 [|r1 rr]]; try (now left).
  destruct (_ || _ || _)%bool; [now left|]. destruct (gather _ _); [|now left].
  destruct (get_DS dev g). now right.
Qed.

Lemma get_DS_same dev g :
  let g' := fst (get_DS dev g) in
  gcloud g' = gcloud g /\ gcells g' = gcells g /\ gbox g' = gbox g /\ gnc g' = gnc g /\ gkeys g' = gkeys g /\
  gsidx g' = gsidx g /\ gskeys g' = gskeys g /\ gspts g' = gspts g /\ gsbids g' = gsbids g.
Proof. unfold get_DS. destruct (gds g); [repeat split|]. destruct (build_grid_ds _ _ _ _); repeat split. Qed.

Lemma find_tf_same dev g cp radii mx :
  let g' := fst (find_neighbors_tf dev g cp radii mx) in
  gcloud g' = gcloud g /\ gcells g' = gcells g /\ gbox g' = gbox g /\ gnc g' = gnc g /\ gkeys g' = gkeys g /\
  gsidx g' = gsidx g /\ gskeys g' = gskeys g /\ gspts g' = gspts g /\ gsbids g' = gsbids g.
Proof.
  destruct (find_tf_grid dev g cp radii mx) as [-> | ->]; [repeat split|apply get_DS_same].
Qed.

Lemma find_tf_grid_for dev eps D rows ids B cs g cp radii mx :
  grid_for dev eps D rows ids B cs g ->
  grid_for dev eps D rows ids B cs (fst (find_neighbors_tf dev g cp radii mx)).
Proof.
  intros H. destruct (find_tf_grid dev g cp radii mx) as [-> | ->]; [exact H|now apply grid_get_DS].
Qed.

Lemma find_tf_bcast dev g cp radii mx :
  find_neighbors_tf dev g cp (bcast (dim (gcloud g)) radii) mx = find_neighbors_tf dev g cp radii mx.
Proof. unfold find_neighbors_tf. now rewrite bcast_bcast. Qed.

(** The cloud of sorted points. *)
Lemma sorted_cloud_ok dev eps D rows ids B cells g :
  is_grid dev eps D rows ids B cells g ->
  exists p, sorted_cloud g = Ok p /\ p = seg D (gspts g) (gsbids g) B /\
    forall dev' eps', cloud dev' eps' D (gspts g) (gsbids g) B p.
Proof.
  intros G. pose proof (ig_cloud _ _ _ _ _ _ _ _ G) as C.
  exists (seg D (gspts g) (gsbids g) B).
  assert (L : length (gspts g) = length (gsbids g))
    by (now rewrite (spts_length _ _ _ _ _ _ _ _ G), (sbids_length _ _ _ _ _ _ _ _ G)).
  split; [|split; [reflexivity|]].
  - unfold sorted_cloud, init. rewrite (ic_dim _ _ _ _ _ _ _ C), (ic_bsize _ _ _ _ _ _ _ C).
    cbn. rewrite L, Nat.eqb_refl. reflexivity.
  - intros dev' eps'. apply seg_cloud; [exact L| |].
    + rewrite (ig_sbids _ _ _ _ _ _ _ _ G). apply Forall_forall. intros b Hb.
      apply in_map_iff in Hb as (i & <- & Hi). pose proof (ic_ids _ _ _ _ _ _ _ C) as HF.
      rewrite Forall_forall in HF. apply HF, nth_In.
      pose proof (sidx_perm _ _ _ _ _ _ _ _ G) as P. apply (Permutation_in _ P), in_seq in Hi. lia.
    + rewrite (ig_spts _ _ _ _ _ _ _ _ G). apply Forall_forall. intros b Hb.
      apply in_map_iff in Hb as (i & <- & Hi). pose proof (ic_rows _ _ _ _ _ _ _ C) as HF.
      rewrite Forall_forall in HF. apply HF, nth_In.
      pose proof (sidx_perm _ _ _ _ _ _ _ _ G) as P. apply (Permutation_in _ P), in_seq in Hi.
      rewrite (g_len _ _ _ _ _ _ _ _ G). lia.
Qed.

(** The original ids. *)
Lemma original_ids_ok dev eps D rows ids B cells g nbs :
  is_grid dev eps D rows ids B cells g ->
  Forall (fun q => fst q < length ids) nbs ->
  original_ids g nbs = Ok (map (fun q => (nth (fst q) (gsidx g) 0, snd q)) nbs).
Proof.
  intros G H. unfold original_ids. rewrite (gather_map _ _ 0).
  - cbn [bind]. f_equal. rewrite map_map. clear H. induction nbs as [|q nbs IH]; [reflexivity|]. cbn. now rewrite IH.
  - rewrite (sidx_length _ _ _ _ _ _ _ _ G). apply Forall_map. exact H.
Qed.

Definition to_original (g : grid) (q : nat * nat) : nat * nat := (nth (fst q) (gsidx g) 0, snd q).

Lemma near_original dev eps D rows ids B cells g r crows cids j i :
  is_grid dev eps D rows ids B cells g -> j < length ids ->
  (near D r (gspts g) (gsbids g) crows cids j i <-> near D r rows ids crows cids (nth j (gsidx g) 0) i).
Proof.
  intros G Hj. unfold near. rewrite (sbids_length _ _ _ _ _ _ _ _ G), (spts_nth _ _ _ _ _ _ _ _ G j Hj),
    (sbids_nth _ _ _ _ _ _ _ _ G j Hj).
  pose proof (sidx_lt _ _ _ _ _ _ _ _ G j Hj). tauto.
Qed.

Lemma to_original_spec dev eps D rows ids B cells g r crows cids nbs :
  is_grid dev eps D rows ids B cells g ->
  NoDup nbs -> (forall j i, In (j, i) nbs <-> near D r (gspts g) (gsbids g) crows cids j i) ->
  NoDup (map (to_original g) nbs) /\
  forall j i, In (j, i) (map (to_original g) nbs) <-> near D r rows ids crows cids j i.
Proof.
  intros G Hn Hin.
  assert (Hb : forall j i, In (j, i) nbs -> j < length ids).
  { intros j i H. apply Hin in H as (H & _). now rewrite (sbids_length _ _ _ _ _ _ _ _ G) in H. }
  split.
  - apply NoDup_map_inj_in; [|exact Hn]. intros [j i] [j' i'] H H' E. inversion E as [[E1 E2]].
    f_equal. apply (NoDup_nth (gsidx g) 0); try rewrite (sidx_length _ _ _ _ _ _ _ _ G); eauto.
    apply (sidx_NoDup _ _ _ _ _ _ _ _ G).
  - intros j i. rewrite in_map_iff. split.
    + intros ([k i'] & E & H). inversion E; subst. apply (near_original _ _ _ _ _ _ _ _ _ _ _ _ _ G); [eauto|]. now apply Hin.
    + intros H. assert (Hj : j < length ids) by apply H.
      pose proof (sidx_perm _ _ _ _ _ _ _ _ G) as P.
      assert (Hjin : In j (gsidx g)) by (apply (Permutation_in _ (Permutation_sym P)), in_seq; lia).
      apply (In_nth _ _ 0) in Hjin as (k & Hk & Ek). rewrite (sidx_length _ _ _ _ _ _ _ _ G) in Hk.
      exists (k, i). split; [unfold to_original; cbn; now rewrite Ek|].
      apply Hin. apply (near_original _ _ _ _ _ _ _ _ _ _ _ _ _ G); [exact Hk|]. now rewrite Ek.
Qed.

(** * The constructor *)
Lemma mk_nbh_tf eps D rows ids B cs g ceps crows cids CB cp radii mx sample :
  usable eps D rows ids B cs g -> cloud GPU ceps D crows cids CB cp ->
  cids <> [] -> Forall (fun b => b < B) cids -> radii_match D radii cs ->
  (sample = Some cp \/ sample = None /\ sorted_cloud g = Ok cp) ->
  exists n, snd (mk_nbh (find_neighbors_tf GPU) g radii sample mx) = Ok n /\
    ngrid n = fst (find_neighbors_tf GPU g cp radii mx) /\ nsampled n = cp /\
    nequal n = (match sample with None => true | Some _ => false end) /\
    nradii n = bcast D radii /\
    NoDup (nnbs n) /\ norig n = map (to_original g) (nnbs n) /\
    (forall j i, In (j, i) (nnbs n) <-> near D (nth 0 (all_dims D radii) 0%Q) (gspts g) (gsbids g) crows cids j i) /\
    snd (find_neighbors_tf GPU g cp radii mx) = Ok (nranges n, nnbs n) /\
    (forall rsi, snd (compute_neighborhoods (find_neighbors_tf GPU) g radii sample mx rsi) =
       Ok (if rsi then nnbs n else norig n, nranges n)).
Proof.
  intros [Hg Hv HD He Hf HN Ho] Hc Hne HcB (Hr0 & Hr1 & Hr) Hs.
  pose proof (grid_for_is _ _ _ _ _ _ _ _ Hv Hg) as G.
  destruct (C14_neighbors_partial_proof eps D rows ids B cs g ceps crows cids CB cp radii mx Hg Hv HD He Hf HN Ho Hc Hne HcB Hr0 Hr1 Hr)
    as (rg & nbs & A1 & A2 & A3).
  assert (Es : (match sample with Some p => Ok p | None => sorted_cloud g end) = Ok cp).
  { destruct Hs as [-> | [-> E]]; [reflexivity|exact E]. }
  assert (Ed : dim (gcloud g) = D) by apply (ic_dim _ _ _ _ _ _ _ (ig_cloud _ _ _ _ _ _ _ _ G)).
  assert (Eb : find_neighbors_tf GPU g cp (bcast (dim (gcloud g)) radii) mx = find_neighbors_tf GPU g cp radii mx)
    by apply find_tf_bcast.
  pose proof (find_tf_same GPU g cp radii mx) as Hsame. cbn in Hsame. destruct Hsame as (_&_&_&_&_&Sx&_).
  assert (Eo : original_ids (fst (find_neighbors_tf GPU g cp radii mx)) nbs = Ok (map (to_original g) nbs)).
  { unfold original_ids. rewrite Sx. apply (original_ids_ok _ _ _ _ _ _ _ _ _ G).
    apply Forall_forall. intros [j i] H. apply A3 in H as (H & _). now rewrite (sbids_length _ _ _ _ _ _ _ _ G) in H. }
  exists (Nbh (fst (find_neighbors_tf GPU g cp radii mx)) (match sample with None => true | Some _ => false end) cp
     (bcast D radii) mx rg nbs (map (to_original g) nbs)).
  unfold mk_nbh, compute_neighborhoods. rewrite Es, Eb.
  destruct (find_neighbors_tf GPU g cp radii mx) as [g' rs]. cbn [fst snd] in *. subst rs. cbn [bind fst snd].
  rewrite Eo, Ed. cbn [bind]. repeat (split; [now auto|]). intros [|]; reflexivity.
Qed.
