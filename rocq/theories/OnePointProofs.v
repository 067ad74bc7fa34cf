(** Properties C25, C58 and C59 for every batch: a hierarchy with Poisson disk
    sampling fails exactly when a level above the last one has a single point.
    The statements are copied into PropertiesOnePoint.v. *)
From Coq Require Import String List Arith ZArith QArith Reals Qreals Lia Lqa Bool Permutation.
From Verif Require Import Tensor TensorFacts Spec SpecText TextFacts PointCloud SpecCloud History PointCloudFacts QFacts CloudProofs Grid SpecGrid GridFacts GridProofs
  Neighbors SpecNeighbors NeighborFacts NeighborProofs Neighborhood NeighborhoodFacts
  Sampling SpecSampling SamplingFacts SamplingProofs Hierarchy SpecHierarchy HierarchyFacts HierarchyProofs.
Import ListNotations.
Local Open Scope nat_scope.

Lemma last_of {A} : forall (l : list A) x a, last (x :: l) a = last l x.
Proof. induction l as [|y l IH]; intros x a; [reflexivity|]. change (last (x :: y :: l) a) with (last (y :: l) a). now rewrite !IH. Qed.

Section Fails.
  Variables (eps : Q) (D B : nat) (mode : string) (fuel : nat) (draws : nat -> nat -> nat) (shape : option (list nat)).
  Hypothesis Heps : (0 < eps)%Q.
  Hypothesis Hfl : (eps <= flt_max)%Q.
  Hypothesis HD : 2 <= D.
  Hypothesis Hmode : means mode poisson_names \/ means mode average_names.

  Lemma levels_err sizes : forall l rows ids p e,
    cloud GPU eps D rows ids B p -> (forall s, shape = Some s -> nprod s = B) ->
    ids <> [] -> (Z.of_nat (length ids) < 2 ^ 31 - 1)%Z -> length ids <= fuel ->
    Forall (good_sizes D) sizes -> Forall (fun l => few_cells eps D (filled_with_first D l) B (rows, ids)) sizes ->
    levels GPU eps (find_neighbors_tf GPU) fuel draws mode D shape l p (map CVector sizes) = Some (Err e) ->
    exists k data, k < length sizes /\
      chain (next_level mode eps D) (firstn k (map (filled_with_first D) sizes)) ((rows, ids) :: data) /\
      length (snd (last data (rows, ids))) = 1.
  Proof using Heps Hfl HD Hmode.
    induction sizes as [|s sizes IH]; intros l rows ids p e Hc Hpr Hne HN HF Hgs Hfc E; [discriminate E|].
    apply Forall_cons_iff in Hgs as [Hs Hgs]. apply Forall_cons_iff in Hfc as [Hf Hfc].
    destruct (level_sample eps D B rows ids p s mode GPU fuel (draws l) Heps Hfl HD Hc Hs Hne HN Hf Hmode HF)
      as (g & n & Eg & Hgc & En & Hperm & P1 & P2 & Hone & Hmore).
    assert (Hcase : (2 <= length ids \/ means mode average_names) \/ length ids = 1).
    { destruct Hmode as [Hm|Hm]; [|now left; right]. destruct ids as [|a [|b ids']]; [congruence|now right|left; left; cbn; lia]. }
    destruct Hcase as [H2|H1]; cycle 1.
    { exists 0, []. split; [cbn; lia|]. split; [constructor|exact H1]. }
    cbn [map levels] in E. rewrite (tile_ok GPU D s) in E by apply Hs. cbn [bind] in E. rewrite Eg in E. cbn [bind] in E. rewrite En in E. cbn [bind] in E.
    destruct (Hmore H2) as (o & rows' & ids' & Es & Hnx). rewrite Es in E.
    pose proof (cloud_is _ _ _ _ _ _ _ Hc) as Ci.
    pose proof (ic_len _ _ _ _ _ _ _ Ci) as HL. pose proof (ic_ids _ _ _ _ _ _ _ Ci) as HB. pose proof (ic_rows _ _ _ _ _ _ _ Ci) as HR.
    destruct (next_level_reps mode eps D _ (rows, ids) (rows', ids') HL Hnx) as (sel & Sn & Sl & Ei & HL' & Hin). cbn [fst snd] in *.
    pose proof (next_level_rows mode eps D _ (rows, ids) (rows', ids') HL HR Hnx) as HR'. cbn [fst snd] in *.
    assert (HB' : Forall (fun b => b < B) ids').
    { rewrite Ei. apply Forall_map. eapply Forall_impl; [|exact Sl]. intros i Hi. cbv beta in *. rewrite Forall_forall in HB. apply HB, nth_In, Hi. }
    assert (Hne' : ids' <> []).
    { destruct ids as [|a ids0]; [congruence|]. intros E'. specialize (Hin a (or_introl eq_refl)). rewrite E' in Hin. destruct Hin. }
    assert (Hlen' : length ids' <= length ids) by (rewrite Ei, map_length; now apply select_length).
    set (q := seg D rows' ids' B) in *.
    assert (Hq : cloud GPU eps D rows' ids' B q) by (now apply seg_cloud).
    assert (Hset : exists q', set_batch_shape q shape = (q', Ok tt) /\ cloud GPU eps D rows' ids' B q').
    { pose proof (cloud_call _ _ _ _ _ _ _ (OpSetShape shape) Hq) as Hq'. cbn [step] in Hq'.
      exists (fst (set_batch_shape q shape)). split; [|exact Hq'].
      unfold set_batch_shape. destruct shape as [sh|]; [|reflexivity].
      cbn [bsize q seg]. rewrite (Hpr sh eq_refl), Nat.eqb_refl. reflexivity. }
    destruct Hset as (q' & Eset & Hq'). rewrite Eset in E.
    assert (Hfc' : Forall (fun l => few_cells eps D (filled_with_first D l) B (rows', ids')) sizes).
    { eapply Forall_impl; [|exact Hfc]. intros c Hfew. eapply next_level_few; [|exact Hnx|exact Hfew]. exact HL. }
    destruct (levels GPU eps (find_neighbors_tf GPU) fuel draws mode D shape (S l) q' (map CVector sizes)) as [[[[ps css] ns]|e']|] eqn:Er; try discriminate E.
    destruct (IH (S l) rows' ids' q' e' Hq' Hpr Hne' ltac:(lia) ltac:(lia) Hgs Hfc' Er) as (k & data & Hk & Hch & H1).
    exists (S k), ((rows', ids') :: data). split; [cbn; lia|]. split.
    - cbn [map firstn]. now constructor.
    - now rewrite last_of.
  Qed.
End Fails.

(** C25, for every input: the constructor either returns a hierarchy as in
    C25_structure_partial whose Poisson levels above the last one have two or
    more points, or it fails because a level above the last one has one point. *)
Lemma C25_either_proof :
  forall eps D rows ids B p sizes mode fuel draws,
    cloud GPU eps D rows ids B p -> buildable eps D rows ids B sizes fuel ->
    means mode poisson_names \/ means mode average_names ->
    (exists k data, mk_hierarchy GPU eps (find_neighbors_tf GPU) fuel draws p (map CVector sizes) mode = Some (Err InvalidArgument) /\
       means mode poisson_names /\ k < length sizes /\
       chain (next_level mode eps D) (firstn k (map (filled_with_first D) sizes)) ((rows, ids) :: data) /\
       length (snd (last data (rows, ids))) = 1) \/
    exists h data,
      mk_hierarchy GPU eps (find_neighbors_tf GPU) fuel draws p (map CVector sizes) mode = Some (Ok h) /\
      chain (next_level mode eps D) (map (filled_with_first D) sizes) ((rows, ids) :: data) /\
      Forall2 (fun b q => cloud GPU eps D (fst b) (snd b) B q /\ bshape q = bshape p) ((rows, ids) :: data) (hclouds h) /\
      hcells h = map (filled_with_first D) sizes /\
      (means mode poisson_names -> forall k b, k < length sizes -> nth_error ((rows, ids) :: data) k = Some b -> 2 <= length (snd b)).
Proof.
  intros eps D rows ids B p sizes mode fuel draws Hc Hb Hm.
  destruct (hierarchy_gen eps D rows ids B p sizes mode fuel draws Hc Hb Hm) as ([h|e] & Er & Hr).
  - right. destruct Hr as ((Ecs & data & Hch & Hcl & _ & _ & _ & _ & _ & H2) & _ & _). exists h, data. auto.
  - left. destruct Hr as (-> & Hpo & _). destruct Hb as [He Hf HD Hne HN HF Hs Hfc].
    pose proof Er as Er'. unfold mk_hierarchy in Er'.
    destruct (get_aabb_cloud _ _ _ _ _ _ _ (cloud_is _ _ _ _ _ _ _ Hc)) as (p' & a & Ea & Hi & _).
    pose proof (cloud_aabb _ _ _ _ _ _ _ Hc) as Hc'. destruct (ga_shape GPU eps p) as [Es _].
    rewrite Ea in *. cbn [fst] in *. rewrite (ic_dim _ _ _ _ _ _ _ Hi), Es in Er'.
    destruct (levels GPU eps (find_neighbors_tf GPU) fuel draws mode D (bshape p) 0 p' (map CVector sizes)) as [[[[ps css] ns]|e']|] eqn:El; try discriminate Er'.
    destruct (levels_err eps D B mode fuel draws (bshape p) He Hf HD Hm sizes 0 rows ids p' e' Hc'
      (fun s => cloud_shape_fits _ _ _ _ _ _ _ s Hc) Hne HN HF Hs Hfc El) as (k & data & Hk & Hch & H1).
    exists k, data. auto.
Qed.

(** One element with the points 0, 2 and 6 on an axis, Poisson disk sampling.
    Radii 3, 8, 1: the last of the three samplings finds one point, the call
    fails. Radii 3, 8: three levels. *)
Definition exO_rows : list point := [[0#1;0#1];[2#1;0#1];[6#1;0#1]].
Lemma exO_buildable l : In l [[[3#1];[8#1];[1#1]]; [[3#1];[8#1]]]%Q -> buildable (1#1000) 2 exO_rows [0;0;0] 1 l 3.
Proof.
  intros Hl.
  assert (G : Forall (good_sizes 2) [[3#1];[8#1];[1#1]]%Q).
  { repeat constructor; try discriminate. }
  assert (C : Forall (fun l => few_cells (1#1000) 2 (filled_with_first 2 l) 1 (exO_rows, [0;0;0])) [[3#1];[8#1];[1#1]]%Q).
  { repeat (constructor; [apply (few_cells_check _ _ _ _ _ _ [8;8]%Z); try reflexivity; vm_compute; discriminate|]). constructor. }
  assert (forall x, In x l -> In x [[3#1];[8#1];[1#1]]%Q).
  { destruct Hl as [<-|[<-|[]]]; intros x Hx; cbn in *; tauto. }
  rewrite Forall_forall in G, C.
  constructor; [reflexivity|vm_compute; discriminate|lia|discriminate|reflexivity|cbn; lia| |]; apply Forall_forall; auto.
Qed.
Example C25_either_ex_proof :
  let p := seg 2 exO_rows [0;0;0] 1 in
  cloud GPU (1#1000) 2 exO_rows [0;0;0] 1 p /\ means "poisson" poisson_names /\
  buildable (1#1000) 2 exO_rows [0;0;0] 1 [[3#1];[8#1];[1#1]] 3 /\ buildable (1#1000) 2 exO_rows [0;0;0] 1 [[3#1];[8#1]] 3 /\
  mk_hierarchy GPU (1#1000) (find_neighbors_tf GPU) 3 (fun _ k => k) p [CVector [3#1]; CVector [8#1]; CVector [1#1]] "poisson" = Some (Err InvalidArgument) /\
  exists h, mk_hierarchy GPU (1#1000) (find_neighbors_tf GPU) 3 (fun _ k => k) p [CVector [3#1]; CVector [8#1]] "poisson" = Some (Ok h) /\
    map (fun q => length (pts q)) (hclouds h) = [3; 2; 1].
Proof.
  cbv zeta. split; [apply seg_cloud; [reflexivity|repeat constructor|repeat constructor]|].
  split; [apply means_poisson; cbn; tauto|]. split; [apply exO_buildable; cbn; tauto|]. split; [apply exO_buildable; cbn; tauto|].
  split; [vm_compute; reflexivity|]. eexists. split; [vm_compute; reflexivity|]. vm_compute. reflexivity.
Qed.
