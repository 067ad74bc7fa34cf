(** Properties C25, C26 and C49: point hierarchies. *)
From Coq Require Import String Ascii List Arith ZArith QArith Qround Lia Lqa Bool Permutation Sorted.
From Verif Require Import Tensor TensorFacts Spec PointCloud SpecCloud History PointCloudFacts QFacts CloudProofs
  Grid SpecGrid GridFacts GridProofs Neighbors SpecNeighbors NeighborFacts NeighborProofs
  Neighborhood NeighborhoodFacts Sampling SpecSampling SamplingFacts SamplingProofs Hierarchy SpecHierarchy HierarchyFacts.
Import ListNotations.
Local Open Scope nat_scope.

Lemma next_thinned mode eps D cs up lo : length (fst up) = length (snd up) ->
  next_level mode eps D cs up lo -> thinned up lo.
Proof.
  intros HL H. destruct (next_level_reps _ _ _ _ _ _ HL H) as (sel & Hn & Hl & E & _ & Hin).
  split; [|exact Hin]. intros e. rewrite E. now apply select_count.
Qed.

Lemma thinned_refl b : thinned b b.
Proof. split; auto. Qed.
Lemma thinned_trans a b c : thinned a b -> thinned b c -> thinned a c.
Proof. intros [H1 H2] [H3 H4]. split; [|auto]. intros e. specialize (H1 e). specialize (H3 e). lia. Qed.

Lemma subset_refl b : length (fst b) = length (snd b) -> subset_of b b.
Proof.
  intros HL. exists (seq 0 (length (snd b))). split; [apply seq_NoDup|]. split.
  - apply Forall_forall. intros i Hi. apply in_seq in Hi. lia.
  - split; [rewrite <- HL|]; now rewrite map_nth_seq.
Qed.
Lemma subset_trans a b c : length (fst a) = length (snd a) -> subset_of a b -> subset_of b c -> subset_of a c.
Proof.
  intros HL (s & N1 & F1 & P1 & I1) (t & N2 & F2 & P2 & I2). rewrite Forall_forall in F1, F2.
  assert (Lb : length (snd b) = length s) by (rewrite I1; apply map_length). rewrite Lb in F2.
  exists (map (fun i => nth i s 0) t). split; [|split; [|split]].
  - clear -N1 N2 F2. induction t as [|x t IH]; cbn; [constructor|]. inversion N2; subst. constructor.
    + rewrite in_map_iff. intros (y & E & Hy).
      assert (y = x); [|now subst]. apply (proj1 (NoDup_nth s 0) N1); auto; apply F2; [now right|now left].
    + apply IH; [assumption|]. intros i Hi. apply F2. now right.
  - apply Forall_forall. intros i Hi. apply in_map_iff in Hi as (j & <- & Hj). apply F1, nth_In, F2, Hj.
  - rewrite P2, P1, map_map. apply map_ext_in. intros j Hj.
    rewrite (nth_indep (map (fun i => nth i (fst a) []) s) [] ((fun i => nth i (fst a) []) 0)) by (rewrite map_length; apply F2, Hj).
    now rewrite (map_nth (fun i => nth i (fst a) [])).
  - rewrite I2, I1, map_map. apply map_ext_in. intros j Hj.
    rewrite (nth_indep (map (fun i => nth i (snd a) 0) s) 0 ((fun i => nth i (snd a) 0) 0)) by (rewrite map_length; apply F2, Hj).
    now rewrite (map_nth (fun i => nth i (snd a) 0)).
Qed.
Lemma next_subset mode eps D cs up lo : means mode poisson_names ->
  next_level mode eps D cs up lo -> subset_of up lo.
Proof.
  intros Hm [(_ & sel & (Hn & Hl & _) & E1 & E2)|(H & _)].
  - exists sel. auto.
  - pose proof (sample_mode_poisson _ Hm). pose proof (sample_mode_average _ H). congruence.
Qed.

Lemma chain_head {A C} (R : A -> C -> C -> Prop) xs l : chain R xs l -> l <> [].
Proof. intros H. inversion H; discriminate. Qed.

Lemma chain_length {A C} (R : A -> C -> C -> Prop) xs l : chain R xs l -> length l = S (length xs).
Proof. induction 1; cbn in *; lia. Qed.

(** A transitive relation implied by every link holds between any two levels. *)
Lemma chain_any {A C} (R : A -> C -> C -> Prop) (P : C -> Prop) (T : C -> C -> Prop) xs l :
  (forall x y z, P y -> R x y z -> P z /\ T y z) -> (forall y, P y -> T y y) ->
  (forall x y z, P x -> T x y -> T y z -> T x z) ->
  chain R xs l -> (forall y, hd_error l = Some y -> P y) ->
  forall i j y z, i <= j -> nth_error l i = Some y -> nth_error l j = Some z -> T y z.
Proof.
  intros Hs Hr Ht. induction 1 as [y|x xs y z ys HR Hc IH]; intros HP.
  - intros [|i] [|j] a b Hij E1 E2; cbn in *; try (destruct i; discriminate); try (destruct j; discriminate).
    inversion E1; inversion E2; subst. apply Hr. apply HP. exact E1.
  - specialize (HP y eq_refl). destruct (Hs x y z HP HR) as [Pz Tz].
    assert (IH' := IH (fun y E => match E in _ = o return match o with Some u => P u | None => True end with eq_refl => Pz end)).
    intros [|i] [|j] a b Hij E1 E2; cbn in E1, E2; try lia.
    + inversion E1; inversion E2; subst. now apply Hr.
    + inversion E1; subst. apply (Ht a z b HP Tz). apply (IH' 0 j); [lia|reflexivity|exact E2].
    + apply (IH' i j); [lia|exact E1|exact E2].
Qed.

(** * Construction *)
Section Construct.
  Variables (eps : Q) (D B : nat) (mode : string) (fuel : nat) (draws : nat -> nat -> nat) (shape : option (list nat)).
  Hypothesis Heps : (0 < eps)%Q.
  Hypothesis Hfl : (eps <= flt_max)%Q.
  Hypothesis HD : 2 <= D.
  Hypothesis Hmode : means mode poisson_names \/ means mode average_names.

  Definition structure (sizes : list (list Q)) (rows : list point) (ids : list nat) (p : pc)
    (o : list pc * list (list Q) * list nbh) : Prop :=
    let '(ps, css, ns) := o in
    css = map (filled_with_first D) sizes /\
    exists data, chain (next_level mode eps D) (map (filled_with_first D) sizes) ((rows, ids) :: data) /\
      Forall2 (fun b q => cloud GPU eps D (fst b) (snd b) B q /\ bshape q = shape) ((rows, ids) :: data) ps /\
      length ns = length sizes /\
      (forall i n b, nth_error ns i = Some n -> nth_error ((rows, ids) :: data) i = Some b -> reordered b (nsampled n)) /\
      (all_nonempty B ids -> good p -> Forall good ps) /\
      (forall q, hd_error ps = Some q -> unflatten q = unflatten p) /\
      (forall q, In q (tl ps) -> unflatten q = None) /\
      (means mode poisson_names -> forall i b, i < length sizes ->
         nth_error ((rows, ids) :: data) i = Some b -> 2 <= length (snd b)).

  Lemma levels_gen sizes : forall l rows ids p,
    cloud GPU eps D rows ids B p -> bshape p = shape -> (forall s, shape = Some s -> nprod s = B) ->
    ids <> [] -> (Z.of_nat (length ids) < 2 ^ 31 - 1)%Z -> length ids <= fuel ->
    Forall (good_sizes D) sizes -> Forall (fun l => few_cells eps D (filled_with_first D l) B (rows, ids)) sizes ->
    exists r, levels GPU eps (find_neighbors_tf GPU) fuel draws mode D shape l p (map CVector sizes) = Some r /\
      match r with
      | Ok o => structure sizes rows ids p o
      | Err e => e = InvalidArgument /\ means mode poisson_names /\ forall a b, In a ids -> In b ids -> a = b
      end.
  Proof using Heps Hfl HD Hmode.
    induction sizes as [|s sizes IH]; intros l rows ids p Hc Hsh Hpr Hne HN HF Hgs Hfc.
    - exists (Ok ([p], [], [])). split; [reflexivity|]. split; [reflexivity|]. exists []. split; [constructor|].
      split; [repeat constructor; auto|]. split; [reflexivity|]. split; [intros [|i] n b E; discriminate|].
      split; [intros _ G; now constructor|]. split; [intros q E; inversion E; now subst|]. split; [intros q []|]. intros _ i b Hi. cbn in Hi. lia.
    - apply Forall_cons_iff in Hgs as [Hs Hgs]. apply Forall_cons_iff in Hfc as [Hf Hfc].
      destruct (level_sample eps D B rows ids p s mode GPU fuel (draws l) Heps Hfl HD Hc Hs Hne HN Hf Hmode HF)
        as (g & n & Eg & Hgc & En & Hperm & P1 & P2 & Hone & Hmore).
      cbn [map levels]. rewrite (tile_ok GPU D s) by apply Hs. cbn [bind]. rewrite Eg. cbn [bind]. rewrite En. cbn [bind].
      assert (Hcase : (2 <= length ids \/ means mode average_names) \/ (means mode poisson_names /\ length ids = 1)).
      { destruct Hmode as [Hm|Hm]; [|now left; right]. destruct ids as [|a [|b ids']]; [congruence|right; now split|left; left; cbn; lia]. }
      destruct Hcase as [H2|[Hm H1]]; cycle 1.
      { rewrite (Hone Hm H1). eexists. split; [reflexivity|]. split; [reflexivity|]. split; [exact Hm|].
        destruct ids as [|a [|b ids']]; try discriminate. intros x y [->|[]] [->|[]]. reflexivity. }
      destruct (Hmore H2) as (o & rows' & ids' & Es & Hnx). rewrite Es.
      pose proof (cloud_is _ _ _ _ _ _ _ Hc) as Ci.
      pose proof (ic_len _ _ _ _ _ _ _ Ci) as HL. pose proof (ic_ids _ _ _ _ _ _ _ Ci) as HB. pose proof (ic_rows _ _ _ _ _ _ _ Ci) as HR.
      destruct (next_level_reps mode eps D _ (rows, ids) (rows', ids') HL Hnx) as (sel & Sn & Sl & Ei & HL' & Hin). cbn [fst snd] in *.
      pose proof (next_level_rows mode eps D _ (rows, ids) (rows', ids') HL HR Hnx) as HR'. cbn [fst snd] in *.
      assert (HB' : Forall (fun b => b < B) ids').
      { rewrite Ei. apply Forall_map. eapply Forall_impl; [|exact Sl]. intros i Hi. cbv beta in *. rewrite Forall_forall in HB. apply HB, nth_In, Hi. }
      assert (Hne' : ids' <> []).
      { destruct ids as [|a ids0]; [congruence|]. intros E. specialize (Hin a (or_introl eq_refl)). rewrite E in Hin. destruct Hin. }
      assert (Hlen' : length ids' <= length ids) by (rewrite Ei, map_length; now apply select_length).
      set (q := seg D rows' ids' B) in *.
      assert (Hq : cloud GPU eps D rows' ids' B q) by (now apply seg_cloud).
      assert (Hset : exists q', set_batch_shape q shape = (q', Ok tt) /\ cloud GPU eps D rows' ids' B q' /\ bshape q' = shape /\
        (all_nonempty B ids' -> good q') /\ unflatten q' = None).
      { pose proof (cloud_call _ _ _ _ _ _ _ (OpSetShape shape) Hq) as Hq'. cbn [step] in Hq'.
        assert (Gq : all_nonempty B ids' -> good q).
        { intros Ha. apply (init_segmented_ids_good D rows' ids' (Some B) q); auto.
          unfold init. cbn. rewrite HL', Nat.eqb_refl. reflexivity. }
        assert (Gq' : all_nonempty B ids' -> good (fst (set_batch_shape q shape))).
        { intros Ha. now apply set_batch_shape_good, Gq. }
        exists (fst (set_batch_shape q shape)). split; [|split; [exact Hq'|]].
        - unfold set_batch_shape. destruct shape as [sh|]; [|reflexivity].
          cbn [bsize q seg]. rewrite (Hpr sh eq_refl), Nat.eqb_refl. reflexivity.
        - split; [|split; [exact Gq'|]]; unfold set_batch_shape; destruct shape as [sh|]; try reflexivity;
          cbn [bsize q seg]; rewrite (Hpr sh eq_refl), Nat.eqb_refl; reflexivity. }
      destruct Hset as (q' & Eset & Hq' & Hsh' & Gq' & Psz). rewrite Eset.
      assert (Hfc' : Forall (fun l => few_cells eps D (filled_with_first D l) B (rows', ids')) sizes).
      { eapply Forall_impl; [|exact Hfc]. intros c Hfew. eapply next_level_few; [|exact Hnx|exact Hfew]. exact HL. }
      destruct (IH (S l) rows' ids' q' Hq' Hsh' Hpr Hne' ltac:(lia) ltac:(lia) Hgs Hfc') as (r & Er & Hr). rewrite Er.
      destruct r as [[[ps css] ns]|e]; cycle 1.
      { exists (Err e). split; [reflexivity|]. destruct Hr as (-> & Hm & Hone'). split; [reflexivity|]. split; [exact Hm|]. intros a b Ha Hb. auto. }
      eexists. split; [reflexivity|]. destruct Hr as (-> & data & Hch & Hcl & Hns & Hre & Hgd & Hhd & Hps & H2p).
      split; [reflexivity|]. exists ((rows', ids') :: data). split; [now constructor|].
      pose proof (mk_grid_gcloud _ _ _ _ _ Eg) as Egc. destruct (ga_shape GPU eps p) as [Gs _]. rewrite <- Egc in Gs.
      split; [|split; [|split; [|split; [|split; [|split]]]]].
      + constructor; [|exact Hcl]. cbn [fst snd]. split; [exact Hgc|]. congruence.
      + cbn. now rewrite Hns.
      + intros [|i] m b E1 E2; cbn in E1.
        * inversion E1; inversion E2; subst. exists (gsidx g). auto.
        * apply (Hre i); auto.
      + intros Ha G. assert (Ha' : all_nonempty B ids') by (intros b Hb; auto).
        constructor; [|exact (Hgd Ha' (Gq' Ha'))]. rewrite Egc. now apply get_aabb_good.
      + intros x E. inversion E. subst x. rewrite Egc. unfold get_aabb.
        destruct (paabb p); [reflexivity|]. destruct (make_aabb _ _ _); reflexivity.
      + cbn [tl]. intros x Hx. destruct ps as [|p0 ps]; [destruct Hx|].
        cbn [tl] in Hps. destruct Hx as [<-|Hx]; [|now apply Hps].
        rewrite (Hhd p0 eq_refl). exact Psz.
      + intros Hm [|i] b Hi E.
        * inversion E. subst b. cbn [snd]. destruct H2 as [H2|H2]; [exact H2|].
          pose proof (sample_mode_poisson _ Hm). pose proof (sample_mode_average _ H2). congruence.
        * apply (H2p Hm i); [cbn in Hi; lia|exact E].
  Qed.
End Construct.

Lemma F2_length {A C} (R : A -> C -> Prop) l m : Forall2 R l m -> length l = length m.
Proof. induction 1; cbn; congruence. Qed.
Lemma F2_nth {A C} (R : A -> C -> Prop) l m i a : Forall2 R l m -> nth_error l i = Some a ->
  exists c, nth_error m i = Some c /\ R a c.
Proof. intros H. revert i. induction H; intros [|i] E; cbn in *; try discriminate; eauto. inversion E; subst; eauto. Qed.
Lemma py_nth_nat {A} (l : list A) i : py_nth l (Z.of_nat i) = match nth_error l i with Some x => Ok x | None => Err IndexError end.
Proof.
  unfold py_nth. destruct (Z.ltb_spec (Z.of_nat i) 0); [lia|]. destruct (Z.ltb_spec (Z.of_nat i) 0); [lia|]. now rewrite Nat2Z.id.
Qed.

Lemma hierarchy_gen eps D rows ids B p sizes mode fuel draws :
  cloud GPU eps D rows ids B p -> buildable eps D rows ids B sizes fuel ->
  means mode poisson_names \/ means mode average_names ->
  exists r, mk_hierarchy GPU eps (find_neighbors_tf GPU) fuel draws p (map CVector sizes) mode = Some r /\
    match r with
    | Ok h => structure eps D B mode (bshape p) sizes rows ids (fst (get_aabb GPU eps p)) (hclouds h, hcells h, hnbhs h) /\
              hdim h = D /\ hbshape h = bshape p
    | Err e => e = InvalidArgument /\ means mode poisson_names /\ forall a b, In a ids -> In b ids -> a = b
    end.
Proof.
  intros Hc [He Hf HD Hne HN HF Hs Hfc] Hm. unfold mk_hierarchy.
  destruct (get_aabb_cloud _ _ _ _ _ _ _ (cloud_is _ _ _ _ _ _ _ Hc)) as (p' & a & Ea & Hi & _).
  pose proof (cloud_aabb _ _ _ _ _ _ _ Hc) as Hc'. destruct (ga_shape GPU eps p) as [Es _].
  rewrite Ea in *. cbn [fst] in *. rewrite (ic_dim _ _ _ _ _ _ _ Hi), Es.
  destruct (levels_gen eps D B mode fuel draws (bshape p) He Hf HD Hm sizes 0 rows ids p' Hc' Es
    (fun s => cloud_shape_fits _ _ _ _ _ _ _ s Hc) Hne HN HF Hs Hfc) as (r & Er & Hr). rewrite Er.
  destruct r as [[[ps css] ns]|e]; eexists; (split; [reflexivity|]); [|exact Hr]. cbn. auto.
Qed.

Lemma structure_any eps D mode sizes rows ids data :
  chain (next_level mode eps D) (map (filled_with_first D) sizes) ((rows, ids) :: data) ->
  length rows = length ids ->
  forall i j b b', i <= j -> nth_error ((rows, ids) :: data) i = Some b -> nth_error ((rows, ids) :: data) j = Some b' ->
    thinned b b' /\ (means mode poisson_names -> subset_of b b').
Proof.
  intros Hch HL i j b b' Hij E1 E2. split; [|intros Hm].
  - eapply (chain_any (next_level mode eps D) (fun b => length (fst b) = length (snd b)) thinned); [| | |exact Hch| |exact Hij|exact E1|exact E2].
    + intros x y z Hy HR. split; [|eapply next_thinned; eauto]. destruct (next_level_reps _ _ _ _ _ _ Hy HR) as (_ & _ & _ & _ & H & _). exact H.
    + intros; apply thinned_refl.
    + intros x y z _. apply thinned_trans.
    + intros y Ey. inversion Ey. exact HL.
  - eapply (chain_any (next_level mode eps D) (fun b => length (fst b) = length (snd b)) subset_of); [| | |exact Hch| |exact Hij|exact E1|exact E2].
    + intros x y z Hy HR. split; [|eapply next_subset; eauto]. destruct (next_level_reps _ _ _ _ _ _ Hy HR) as (_ & _ & _ & _ & H & _). exact H.
    + intros y Hy. now apply subset_refl.
    + intros x y z. apply subset_trans.
    + intros y Ey. inversion Ey. exact HL.
Qed.

(** C25. The hierarchy has one level more than there are cell sizes, level 0
    is the given cloud, every level keeps batch size and batch shape and is the
    Poisson sample respectively the cell average of the level above; between any
    two levels no element gains points or becomes empty, and with Poisson
    sampling the lower one is a subset of the upper one. *)
Lemma C25_hierarchy_partial_proof :
  forall eps D rows ids B p sizes mode fuel draws,
    cloud GPU eps D rows ids B p -> buildable eps D rows ids B sizes fuel ->
    (means mode average_names \/ means mode poisson_names /\ exists a b, In a ids /\ In b ids /\ a <> b) ->
    exists h data,
      mk_hierarchy GPU eps (find_neighbors_tf GPU) fuel draws p (map CVector sizes) mode = Some (Ok h) /\
      h_len h = S (length sizes) /\
      chain (next_level mode eps D) (map (filled_with_first D) sizes) ((rows, ids) :: data) /\
      (forall i b, nth_error ((rows, ids) :: data) i = Some b ->
         exists q, h_getitem h (Z.of_nat i) = Ok q /\
           cloud GPU eps D (fst b) (snd b) B q /\ bshape q = bshape p) /\
      (forall i j b b', i <= j -> nth_error ((rows, ids) :: data) i = Some b ->
         nth_error ((rows, ids) :: data) j = Some b' ->
         thinned b b' /\ (means mode poisson_names -> subset_of b b')).
Proof.
  intros eps D rows ids B p sizes mode fuel draws Hc Hb Hm.
  destruct (hierarchy_gen eps D rows ids B p sizes mode fuel draws Hc Hb ltac:(tauto)) as (r & Er & Hr).
  destruct r as [h|e]; cycle 1.
  { destruct Hr as (_ & Hp & Hone). destruct Hm as [Hm|(_ & a & b & Ha & Hb' & Hn)]; [|destruct Hn; auto].
    pose proof (sample_mode_poisson _ Hp). pose proof (sample_mode_average _ Hm). congruence. }
  destruct Hr as ((_ & data & Hch & Hcl & _) & _ & _). exists h, data. split; [exact Er|].
  split; [|split; [exact Hch|split]].
  - unfold h_len. pose proof (F2_length _ _ _ Hcl) as X. pose proof (chain_length _ _ _ Hch) as Y.
    rewrite map_length in Y. exact (eq_trans (eq_sym X) Y).
  - intros i b Hi. unfold h_getitem. rewrite py_nth_nat. destruct (F2_nth _ _ _ _ _ Hcl Hi) as (q & -> & H). eauto.
  - eapply structure_any; [exact Hch|]. apply (ic_len _ _ _ _ _ _ _ (cloud_is _ _ _ _ _ _ _ Hc)).
Qed.

(** Two elements, cell sizes 1 and then 4: three levels. *)
Definition exH_sizes : list (list Q) := [[1#1]; [4#1]].
Lemma few_cells_check eps D cs B rows ids nc :
  length nc = D -> (Z.of_nat B * product nc <= 2 ^ 31)%Z ->
  forallb (fun d => (1 <=? nth d nc 0)%Z &&
    forallb (fun i => forallb (fun j => negb (Nat.eqb (nth i ids 0) (nth j ids 0)) ||
      Qle_bool (xc rows i d - xc rows j d + (2 # 1) * eps)%Q (inject_Z (nth d nc 0%Z) * nth d cs 0)%Q)
      (seq 0 (length ids))) (seq 0 (length ids))) (seq 0 D) = true ->
  few_cells eps D cs B (rows, ids).
Proof.
  intros Hl Hp Hc. exists nc. split; [exact Hl|]. split; [exact Hp|]. intros d Hd. rewrite forallb_forall in Hc.
  specialize (Hc d ltac:(apply in_seq; lia)). apply andb_true_iff in Hc as [H1 H2]. split; [now apply Z.leb_le|].
  intros i j Hi Hj E. cbn [fst snd] in *. rewrite forallb_forall in H2. specialize (H2 i ltac:(apply in_seq; lia)).
  rewrite forallb_forall in H2. specialize (H2 j ltac:(apply in_seq; lia)). rewrite E, Nat.eqb_refl in H2. cbn in H2.
  now apply Qle_bool_iff.
Qed.

Lemma exH_buildable : buildable (1#1000) 2 exN_rows exN_ids 2 exH_sizes 6.
Proof.
  constructor.
  - reflexivity.
  - vm_compute. discriminate.
  - lia.
  - discriminate.
  - reflexivity.
  - cbn. lia.
  - constructor; [|constructor; [|constructor]]; (split; [discriminate|split; [cbn; lia|split]]);
      try (constructor; [reflexivity|constructor]); vm_compute; discriminate.
  - constructor; [|constructor; [|constructor]];
      apply (few_cells_check _ _ _ _ _ _ [4;4]%Z); try reflexivity; vm_compute; discriminate.
Qed.

Example C25_hierarchy_partial_ex_proof :
  cloud GPU (1#1000) 2 exN_rows exN_ids 2 (seg 2 exN_rows exN_ids 2) /\
  buildable (1#1000) 2 exN_rows exN_ids 2 [[1#1]; [4#1]] 6 /\
  (means "Poisson" poisson_names /\ exists a b, In a exN_ids /\ In b exN_ids /\ a <> b) /\
  exists h, mk_hierarchy GPU (1#1000) (find_neighbors_tf GPU) 6 (fun _ k => k) (seg 2 exN_rows exN_ids 2)
    [CVector [1#1]; CVector [4#1]] "Poisson" = Some (Ok h) /\
    map (fun q => length (pts q)) (hclouds h) = [6; 4; 2].
Proof.
  split; [apply seg_cloud; [reflexivity|repeat constructor|repeat constructor]|]. split; [exact exH_buildable|].
  split; [split; [apply means_poisson; now left|]|].
  - exists 0, 1. split; [now left|]. split; [unfold exN_ids; cbn; tauto|discriminate].
  - eexists. split; [vm_compute; reflexivity|]. vm_compute. reflexivity.
Qed.

(** C25, for every input: whenever the constructor returns it has this
    structure, it always terminates, and the only exception is the one of a
    Poisson level with a single point. *)
Lemma C25_structure_partial_proof :
  forall eps D rows ids B p sizes mode fuel draws,
    cloud GPU eps D rows ids B p -> buildable eps D rows ids B sizes fuel ->
    means mode poisson_names \/ means mode average_names ->
    (mk_hierarchy GPU eps (find_neighbors_tf GPU) fuel draws p (map CVector sizes) mode = Some (Err InvalidArgument) /\
       means mode poisson_names /\ forall a b, In a ids -> In b ids -> a = b) \/
    exists h data,
      mk_hierarchy GPU eps (find_neighbors_tf GPU) fuel draws p (map CVector sizes) mode = Some (Ok h) /\
      chain (next_level mode eps D) (map (filled_with_first D) sizes) ((rows, ids) :: data) /\
      Forall2 (fun b q => cloud GPU eps D (fst b) (snd b) B q /\ bshape q = bshape p) ((rows, ids) :: data) (hclouds h) /\
      hcells h = map (filled_with_first D) sizes.
Proof.
  intros eps D rows ids B p sizes mode fuel draws Hc Hb Hm.
  destruct (hierarchy_gen eps D rows ids B p sizes mode fuel draws Hc Hb Hm) as ([h|e] & Er & Hr).
  - right. destruct Hr as ((Ecs & data & Hch & Hcl & _) & _ & _). exists h, data. auto.
  - left. destruct Hr as (-> & H). auto.
Qed.

Example C25_structure_partial_ex_proof :
  cloud GPU (1#1000) 2 exN_rows exN_ids 2 (seg 2 exN_rows exN_ids 2) /\
  buildable (1#1000) 2 exN_rows exN_ids 2 [[1#1]; [4#1]] 6 /\
  exists h, mk_hierarchy GPU (1#1000) (find_neighbors_tf GPU) 6 (fun _ k => k) (seg 2 exN_rows exN_ids 2)
    [CVector [1#1]; CVector [4#1]] "cell average" = Some (Ok h) /\
    map (fun q => length (pts q)) (hclouds h) = [6; 4; 2].
Proof.
  split; [apply seg_cloud; [reflexivity|repeat constructor|repeat constructor]|]. split; [exact exH_buildable|].
  eexists. split; [vm_compute; reflexivity|]. vm_compute. reflexivity.
Qed.

(** C25 refuted: if the points of a batch with one element lie within the first
    cell size of each other, a Poisson hierarchy with two or more levels cannot
    be built: the first level has one point and the second one fails. *)
Lemma C25_single_point_refuted_proof :
  forall eps D rows ids B p s s2 sizes mode fuel draws,
    cloud GPU eps D rows ids B p -> buildable eps D rows ids B (s :: s2 :: sizes) fuel ->
    means mode poisson_names -> (forall a b, In a ids -> In b ids -> a = b) ->
    (forall i j, i < length ids -> j < length ids ->
       (dist2 D (nth i rows []) (nth j rows []) < nth 0 s 0 * nth 0 s 0)%Q) ->
    mk_hierarchy GPU eps (find_neighbors_tf GPU) fuel draws p (map CVector (s :: s2 :: sizes)) mode
      = Some (Err InvalidArgument).
Proof.
  intros eps D rows ids B p s s2 sizes mode fuel draws Hc Hb Hm H1 Hd.
  destruct (hierarchy_gen eps D rows ids B p (s :: s2 :: sizes) mode fuel draws Hc Hb (or_introl Hm)) as ([h|e] & Er & Hr).
  2:{ rewrite Er. now destruct Hr as (-> & _). }
  exfalso. destruct Hr as ((_ & data & Hch & _ & _ & _ & _ & _ & _ & H2) & _ & _).
  cbn [map] in Hch. inversion Hch as [|x xs y z ys HR Hch']; subst.
  specialize (H2 Hm 1 z ltac:(cbn; lia) eq_refl).
  destruct HR as [(_ & sel & (Hn & Hl & Hfar & _) & _ & E2)|(Ha & _)].
  2:{ pose proof (sample_mode_poisson _ Hm). pose proof (sample_mode_average _ Ha). congruence. }
  cbn [fst snd] in *. rewrite E2, map_length in H2.
  destruct sel as [|i [|j sel]]; cbn in H2; try lia.
  assert (Hij : i <> j) by (inversion Hn; subst; intros ->; cbn in *; tauto).
  rewrite Forall_forall in Hl. assert (Hi := Hl i (or_introl eq_refl)). assert (Hj := Hl j (or_intror (or_introl eq_refl))).
  specialize (Hfar i j (or_introl eq_refl) (or_intror (or_introl eq_refl)) Hij (H1 _ _ (nth_In _ 0 Hi) (nth_In _ 0 Hj))).
  specialize (Hd i j Hi Hj).
  destruct Hb as [_ _ _ _ _ _ Hs _]. apply Forall_cons_iff in Hs as [(Hs & _) _].
  replace (nth 0 (filled_with_first D s) 0%Q) with (nth 0 s 0%Q) in Hfar by (destruct s; [congruence|reflexivity]). lra.
Qed.

Example C25_single_point_refuted_ex_proof :
  let rows := [[0#1;0#1];[1#2;1#2];[1#4;0#1]] in
  buildable (1#1000) 2 rows [0;0;0] 1 [[1#1];[1#1]] 3 /\
  (forall i j, i < 3 -> j < 3 -> (dist2 2 (nth i rows []) (nth j rows []) < nth 0 [1#1] 0 * nth 0 [1#1] 0)%Q) /\
  mk_hierarchy GPU (1#1000) (find_neighbors_tf GPU) 3 (fun _ k => k) (seg 2 rows [0;0;0] 1)
    [CVector [1#1]; CVector [1#1]] "poisson" = Some (Err InvalidArgument).
Proof.
  cbv zeta. split; [|split].
  - constructor.
    + reflexivity.
    + vm_compute. discriminate.
    + lia.
    + discriminate.
    + reflexivity.
    + cbn. lia.
    + constructor; [|constructor; [|constructor]]; (split; [discriminate|split; [cbn; lia|split]]);
        try (constructor; [reflexivity|constructor]); vm_compute; discriminate.
    + constructor; [|constructor; [|constructor]];
        apply (few_cells_check _ _ _ _ _ _ [1;1]%Z); try reflexivity; vm_compute; discriminate.
  - intros i j Hi Hj. destruct i as [|[|[|i]]]; try lia; destruct j as [|[|[|j]]]; try lia; reflexivity.
  - vm_compute. reflexivity.
Qed.

(** * Queries on a hierarchy *)
Lemma each_ok {A} (f : pc -> pc * result A) (v : pc -> A) ps :
  (forall q, In q ps -> snd (f q) = Ok (v q)) ->
  each_level f ps = (map (fun q => fst (f q)) ps, Ok (map v ps)).
Proof.
  induction ps as [|q ps IH]; intros H; cbn; [reflexivity|].
  pose proof (H q (or_introl eq_refl)) as Hq. destruct (f q) as [q' x]. cbn in Hq. subst x.
  rewrite IH by (intros; apply H; now right). reflexivity.
Qed.

Lemma F2_map_eq {A C E} (R : A -> C -> Prop) (f : A -> E) (g : C -> E) l m :
  Forall2 R l m -> (forall a c, R a c -> f a = g c) -> map f l = map g m.
Proof. intros H Hf. induction H; cbn; [reflexivity|]. f_equal; auto. Qed.
Lemma F2_map_r {A C E} (R : A -> C -> Prop) (S : A -> E -> Prop) (g : C -> E) l m :
  Forall2 R l m -> (forall a c, R a c -> S a (g c)) -> Forall2 S l (map g m).
Proof. intros H Hf. induction H; cbn; constructor; auto. Qed.
Lemma F2_impl {A C} (R S : A -> C -> Prop) l m : Forall2 R l m -> (forall a c, R a c -> S a c) -> Forall2 S l m.
Proof. intros H Hf. induction H; constructor; auto. Qed.
Lemma F2_and {A C} (R : A -> C -> Prop) (P : C -> Prop) l m : Forall2 R l m -> Forall P m -> Forall2 (fun a c => R a c /\ P c) l m.
Proof. intros H. induction H; intros HP; constructor; inversion HP; subst; auto. Qed.
Lemma F2_In_r {A C} (R : A -> C -> Prop) l m c : Forall2 R l m -> In c m -> exists a, In a l /\ R a c.
Proof.
  induction 1 as [|a c' l m Hr H IH]; intros Hi; [destruct Hi|]. destruct Hi as [->|Hi]; [exists a; split; [now left|exact Hr]|].
  destruct (IH Hi) as (a' & Ha & H'). exists a'. split; [now right|exact H'].
Qed.

(** C50. A hierarchy answers every query level by level: points of one
    element, sizes, padded layouts, and a change of the batch shape reaches every
    level or is rejected as a whole. *)
Lemma C50_queries_partial_proof :
  forall pa ia bs sz D rows ids B p0 eps ops sizes mode fuel draws h,
    describes pa ia bs sz D rows ids B -> init pa ia bs sz = Ok p0 ->
    Forall (fun r => length r = D) rows -> all_nonempty B ids ->
    buildable eps D rows ids B sizes fuel ->
    means mode poisson_names \/ means mode average_names ->
    let p := run GPU eps p0 ops in
    mk_hierarchy GPU eps (find_neighbors_tf GPU) fuel draws p (map CVector sizes) mode = Some (Ok h) ->
    exists data, let levels := (rows, ids) :: data in
      chain (next_level mode eps D) (map (filled_with_first D) sizes) levels /\
      (forall b, b < B ->
         h_get_points_id h (IdInt (Z.of_nat b)) = Ok (map (fun l => element b (fst l) (snd l)) levels)) /\
      (exists ts, snd (h_get_sizes h) = Ok ts /\
         Forall2 (fun l t => ivals t = true_sizes B (snd l) /\ nprod (ishape t) = B /\
                             forall s, bshape p = Some s -> ishape t = s) levels ts) /\
      (forall m os, snd (h_get_points_all h m) = Ok os ->
         Forall2 (fun l o => nprod (pshape o) = B /\ prows o = padded_layout (repeat 0%Q D) (pV o) B (fst l) (snd l)) levels os) /\
      (ops = [] -> forall m, exists os, snd (h_get_points_all h m) = Ok os) /\
      (forall s, fold_right Nat.mul 1 s = B ->
         let h' := fst (h_set_batch_shape h (Some s)) in
         snd (h_set_batch_shape h (Some s)) = Ok tt /\
         snd (h_get_sizes h') = Ok (map (fun l => ITensor s (true_sizes B (snd l))) levels) /\
         forall idx, in_shape s idx ->
           h_get_points_id h' (IdMulti (map Z.of_nat idx))
             = Ok (map (fun l => element (row_major s idx) (fst l) (snd l)) levels)) /\
      (forall s, fold_right Nat.mul 1 s <> B -> h_set_batch_shape h (Some s) = (h, Err InvalidArgument)).
Proof.
  intros pa ia bs sz D rows ids B p0 eps ops sizes mode fuel draws h Hds Hin HR Hall Hb Hm p Eh.
  destruct (describes_init _ _ _ _ _ _ _ _ Hds) as (p0' & E0 & [G A1 A2 A3 A4 A5] & Hu).
  rewrite Hin in E0. inversion E0. subst p0'. clear E0.
  assert (I0 : inv GPU eps p0 p0).
  { constructor; [exact G|apply same_data_refl|]. unfold aabb_ok. now rewrite A5. }
  pose proof (run_inv GPU eps p0 p0 ops I0) as [Gq Sq _]. fold p in Gq, Sq.
  assert (Hc : cloud GPU eps D rows ids B p).
  { assert (H0 : cloud GPU eps D rows ids B p0).
    { eapply cloud_new; eauto; [rewrite <- A1, <- A3; apply G|rewrite <- A3, <- A4; apply G]. }
    subst p. clear -H0. unfold run. revert p0 H0. induction ops as [|o ops IH]; cbn; auto. intros p0 H0. apply IH. now apply cloud_call. }
  destruct (hierarchy_gen eps D rows ids B p sizes mode fuel draws Hc Hb Hm) as (r & Er & Hr).
  rewrite Eh in Er. inversion Er. subst r. clear Er. destruct Hr as ((_ & data & Hch & Hcl & _ & _ & Hg & Hhd & Htl & _) & _ & _).
  exists data. cbv zeta. set (lv := (rows, ids) :: data) in *. split; [exact Hch|].
  assert (Hgood : Forall good (hclouds h)) by (apply Hg; [exact Hall|now apply get_aabb_good]).
  assert (HF : Forall2 (fun l q => (pts q = fst l /\ bids q = snd l /\ bsize q = B /\ dim q = D /\ bshape q = bshape p) /\ good q) lv (hclouds h)).
  { apply F2_and; [|exact Hgood]. eapply F2_impl; [exact Hcl|]. intros l q [Hq Hs]. cbv beta in *.
    destruct (cloud_is _ _ _ _ _ _ _ Hq). auto. }
  clear Hcl Hg Hgood.
  assert (Hone : forall b, b < B -> forall ps, Forall2 (fun l q => (pts q = fst l /\ bids q = snd l /\ bsize q = B /\ dim q = D) /\ good q) lv ps ->
     snd (each_level (fun q => (q, get_points_id q (IdInt (Z.of_nat b)))) ps) = Ok (map (fun l => element b (fst l) (snd l)) lv)).
  { intros b Hlt ps H. rewrite (each_ok _ (fun q => element b (pts q) (bids q))).
    - cbn [snd]. f_equal. symmetry. eapply F2_map_eq; [exact H|]. cbv beta. intros l q ((-> & -> & _) & _). reflexivity.
    - intros q Hq. destruct (F2_In_r _ _ _ _ H Hq) as (l & _ & (_ & _ & E3 & _) & Gl). cbn [snd].
      rewrite get_points_int; [now rewrite Nat2Z.id|apply Gl|lia]. }
  split; [|split; [|split; [|split; [|split]]]].
  - intros b Hlt. apply Hone; [exact Hlt|]. eapply F2_impl; [exact HF|]. tauto.
  - unfold h_get_sizes. rewrite (each_ok _ (fun q => ITensor (out_shape q) (true_sizes (bsize q) (bids q)))).
    + cbn [snd]. eexists. split; [reflexivity|]. eapply F2_map_r; [exact HF|]. cbv beta.
      intros l q ((E1 & E2 & E3 & E4 & E5) & Gl). cbn [ivals ishape]. rewrite E2, E3. split; [reflexivity|].
      split; [rewrite <- E3; now apply out_shape_prod|]. intros s Hs. rewrite <- E5 in Hs. unfold out_shape.
      destruct (psizes q) as [t|] eqn:Et; [now apply (g_bsizes q Gl)|now rewrite Hs].
    + intros q Hq. destruct (F2_In_r _ _ _ _ HF Hq) as (l & _ & _ & Gl). now rewrite (get_sizes_good q Gl).
  - intros m os. unfold h_get_points_all. set (f := fun q => get_points_all q None).
    assert (K : forall ps, Forall2 (fun l q => (pts q = fst l /\ bids q = snd l /\ bsize q = B /\ dim q = D /\ bshape q = bshape p) /\ good q) lv ps ->
      forall os, snd (each_level f ps) = Ok os ->
      Forall2 (fun l o => nprod (pshape o) = B /\ prows o = padded_layout (repeat 0%Q D) (pV o) B (fst l) (snd l)) lv os).
    { clear. intros ps H. induction H as [|l q lv ps Hlq H IH]; intros os E; cbn [each_level] in E.
      - inversion E. constructor.
      - destruct (f q) as [q' [o|e]] eqn:Ef; [|discriminate].
        destruct (each_level f ps) as [ps' [os'|e]]; cbn [bind snd] in E; [|discriminate]. inversion E. subst os.
        constructor; [|now apply IH]. destruct Hlq as ((E1 & E2 & E3 & E4 & E5) & Gl).
        assert (Eo : snd (get_points_all q None) = Ok o) by (unfold f in Ef; now rewrite Ef).
        destruct (get_points_all_inv q None o Gl Eo) as [_ ->]. cbn [pshape pV prows].
        rewrite E1, E2, E3, E4. split; [|reflexivity]. unfold unfl_shape, closure.
        pose proof (g_unfl q Gl) as Hu. destruct (unflatten q) as [[s V z|mr]|]; [rewrite <- E3; tauto| |];
          (rewrite <- E3; now apply out_shape_prod). }
    intros Ho. apply (K (hclouds h)); [exact HF|]. destruct (each_level f (hclouds h)) as [ps r]. exact Ho.
  - intros -> m. cbn [run fold_left] in p. unfold h_get_points_all.
    assert (K : forall q, In q (hclouds h) -> exists o, snd (get_points_all q None) = Ok o).
    { intros q Hq. destruct (F2_In_r _ _ _ _ HF Hq) as (l & _ & _ & Gl). eexists. apply get_points_all_spec; [exact Gl|].
      assert (Hw : unflatten q = None -> wide_enough q (unfl_width q (closure q None))).
      { intros E. unfold closure. rewrite E. cbn [unfl_width]. apply default_width_ok. }
      destruct (hclouds h) as [|q0 qs] eqn:Eq; [destruct Hq|]. destruct Hq as [<-|Hq]; [|apply Hw, Htl, Hq].
      pose proof (Hhd q0 eq_refl) as E1.
      assert (E2 : unflatten (fst (get_aabb GPU eps p)) = unflatten p0).
      { unfold p, run, get_aabb. cbn. rewrite A5. destruct (make_aabb _ _ _); reflexivity. }
      rewrite E2 in E1. destruct pa as [k|D' rs|D' t]; [apply Hw; rewrite E1; tauto..|]. destruct Hu as (U1 & _). rewrite U1 in E1.
      pose proof (g_unfl q0 Gl) as Hu'. rewrite E1 in Hu'. unfold closure, wide_enough. rewrite E1. cbn [unfl_width].
      destruct Hu' as (U2 & _ & U3 & _). now rewrite <- U2. }
    clear -K. induction (hclouds h) as [|q qs IH]; [now exists []|]. cbn [each_level].
    destruct (K q (or_introl eq_refl)) as (o & Eo). destruct (get_points_all q None) as [q' r]. cbn in Eo. subst r.
    destruct IH as (os & Eos); [intros; apply K; now right|].
    destruct (each_level (fun p => get_points_all p None) qs) as [qs' r']. cbn in *. subst r'. eexists. reflexivity.
  - intros s Hs. change (nprod s = B) in Hs. cbv zeta.
    assert (Hset : forall q, good q -> bsize q = B -> snd (set_batch_shape q (Some s)) = Ok tt /\ bshape (fst (set_batch_shape q (Some s))) = Some s).
    { intros q Gl E3. unfold set_batch_shape. rewrite E3, Hs, Nat.eqb_refl. cbn [negb psizes set_shapes].
      pose proof (g_sizes q Gl) as Hz. destruct (psizes q) as [t|]; [|now split].
      unfold reshape. destruct Hz as [Hv _]. rewrite Hv, true_sizes_length, E3, Hs, Nat.eqb_refl. now split. }
    assert (Ee : each_level (fun q => set_batch_shape q (Some s)) (hclouds h) =
      (map (fun q => fst (set_batch_shape q (Some s))) (hclouds h), Ok (map (fun _ => tt) (hclouds h)))).
    { apply each_ok. intros q Hq. destruct (F2_In_r _ _ _ _ HF Hq) as (l & _ & (_ & _ & E3 & _) & Gl). now apply Hset. }
    unfold h_set_batch_shape. rewrite Ee. cbn [fst snd bind]. split; [reflexivity|].
    assert (HF' : Forall2 (fun l q => (pts q = fst l /\ bids q = snd l /\ bsize q = B /\ dim q = D /\ bshape q = Some s) /\ good q) lv
       (map (fun q => fst (set_batch_shape q (Some s))) (hclouds h))).
    { eapply F2_map_r; [exact HF|]. cbv beta. intros l q ((E1 & E2 & E3 & E4 & E5) & Gl).
      destruct (set_batch_shape_good q (Some s) Gl) as [G' (S1 & S2 & S3 & S4 & S5)].
      destruct (Hset q Gl E3) as [_ Hb']. split; [|exact G']. repeat split; congruence. }
    split.
    + unfold h_get_sizes. cbn [hclouds set_clouds]. rewrite (each_ok _ (fun q => ITensor (out_shape q) (true_sizes (bsize q) (bids q)))).
      * cbn [snd]. f_equal. symmetry. eapply F2_map_eq; [exact HF'|]. cbv beta. intros l q ((E1 & E2 & E3 & E4 & E5) & Gl).
        rewrite E2, E3. f_equal. unfold out_shape. destruct (psizes q) as [t|] eqn:Et; [symmetry; now apply (g_bsizes q Gl)|now rewrite E5].
      * intros q Hq. destruct (F2_In_r _ _ _ _ HF' Hq) as (l & _ & _ & Gl). now rewrite (get_sizes_good q Gl).
    + intros idx Hi. unfold h_get_points_id. cbn [hclouds set_clouds].
      rewrite <- (Hone (row_major s idx)) with (ps := map (fun q => fst (set_batch_shape q (Some s))) (hclouds h)).
      * f_equal. assert (K : forall q, In q (map (fun q => fst (set_batch_shape q (Some s))) (hclouds h)) ->
          get_points_id q (IdMulti (map Z.of_nat idx)) = get_points_id q (IdInt (Z.of_nat (row_major s idx)))).
        { intros q Hq. destruct (F2_In_r _ _ _ _ HF' Hq) as (l & _ & (_ & _ & _ & _ & E5) & Gl).
          unfold get_points_id. rewrite (g_bseg q Gl s E5), (segment_id_row_major s idx 0 Hi). reflexivity. }
        clear -K. induction (map _ _) as [|q qs IH]; [reflexivity|]. cbn [each_level]. rewrite K by now left.
        destruct (get_points_id q _); [|reflexivity]. rewrite IH; [reflexivity|]. intros; apply K; now right.
      * rewrite <- Hs. now apply row_major_lt.
      * eapply F2_impl; [exact HF'|]. tauto.
  - intros s Hs. change (nprod s <> B) in Hs. unfold h_set_batch_shape.
    inversion HF as [|l q lv' qs ((_ & _ & E3 & _) & _) HF' El Eq]. cbn [each_level].
    unfold set_batch_shape at 1. rewrite E3. destruct (Nat.eqb_spec (nprod s) B); [congruence|]. cbn [negb bind].
    unfold set_clouds. rewrite Eq. now destruct h.
Qed.

Example C50_queries_partial_ex_proof :
  describes (P2 2 exN_rows) (Some exN_ids) (Some 2) None 2 exN_rows exN_ids 2 /\ all_nonempty 2 exN_ids /\
  Forall (fun r => length r = 2) exN_rows /\ buildable (1#1000) 2 exN_rows exN_ids 2 [[1#1]; [4#1]] 6 /\
  exists h, mk_hierarchy GPU (1#1000) (find_neighbors_tf GPU) 6 (fun _ k => k) (seg 2 exN_rows exN_ids 2)
    [CVector [1#1]; CVector [4#1]] "cell_average" = Some (Ok h) /\
    snd (h_get_sizes h) = Ok [ITensor [2] [4;2]; ITensor [2] [3;1]; ITensor [2] [1;1]].
Proof.
  assert (Ha : all_nonempty 2 exN_ids) by (intros [|[|b]] Hb; try lia; unfold exN_ids; cbn; tauto).
  split; [apply by_ids; [reflexivity|repeat constructor|exact Ha|now left]|]. split; [exact Ha|].
  split; [repeat constructor|]. split; [exact exH_buildable|].
  eexists. split; [vm_compute; reflexivity|]. vm_compute. reflexivity.
Qed.

(** C50 refuted: with an empty element the sizes cannot be queried, the
    sampled levels have lost the element. *)
Lemma C50_empty_element_refuted_proof :
  exists p h, init (PN 2 (Padded [3] 2 [[0#1;0#1];[4#1;4#1];[0#1;0#1];[0#1;0#1];[1#1;1#1];[1#1;3#1]])) None None (Some (ITensor [3] [2;0;2])) = Ok p /\
    snd (get_sizes p) = Ok (ITensor [3] [2;0;2]) /\
    mk_hierarchy GPU (1#1000) (find_neighbors_tf GPU) 4 (fun _ k => k) p [CVector [1#1]] "cell_average" = Some (Ok h) /\
    snd (h_get_sizes h) = Err InvalidArgument.
Proof.
  eexists. eexists. split; [vm_compute; reflexivity|]. split; [vm_compute; reflexivity|].
  split; [vm_compute; reflexivity|]. vm_compute. reflexivity.
Qed.

(** * Cell sizes *)

(** C26, for one size or one size per dimension: every level uses the given
    sizes followed by copies of the last one. *)
Lemma C26_cell_sizes_partial_proof :
  forall eps D rows ids B p sizes mode fuel draws h,
    cloud GPU eps D rows ids B p -> buildable eps D rows ids B sizes fuel ->
    means mode poisson_names \/ means mode average_names ->
    Forall (fun l => length l = 1 \/ length l = D) sizes ->
    mk_hierarchy GPU eps (find_neighbors_tf GPU) fuel draws p (map CVector sizes) mode = Some (Ok h) ->
    hcells h = map (filled_with_last D) sizes.
Proof.
  intros eps D rows ids B p sizes mode fuel draws h Hc Hb Hm Hl Eh.
  destruct (C25_structure_partial_proof eps D rows ids B p sizes mode fuel draws Hc Hb Hm) as [(E & _)|(h' & data & E & _ & _ & Hcs)];
    rewrite Eh in E; inversion E; subst. rewrite Hcs. apply map_ext_in. intros l Hi. rewrite Forall_forall in Hl.
  unfold filled_with_first, filled_with_last. destruct (Hl l Hi) as [H|H].
  - destruct l as [|x [|]]; try discriminate. reflexivity.
  - rewrite H, Nat.sub_diag. reflexivity.
Qed.

Example C26_cell_sizes_partial_ex_proof :
  buildable (1#1000) 2 exN_rows exN_ids 2 [[1#1]; [4#1]] 6 /\
  Forall (fun l : list Q => length l = 1 \/ length l = 2) [[1#1]; [4#1]] /\
  exists h, mk_hierarchy GPU (1#1000) (find_neighbors_tf GPU) 6 (fun _ k => k) (seg 2 exN_rows exN_ids 2)
    [CVector [1#1]; CVector [4#1]] "cell average" = Some (Ok h) /\ hcells h = [[1#1;1#1];[4#1;4#1]].
Proof.
  split; [exact exH_buildable|]. split; [repeat constructor|].
  eexists. split; [vm_compute; reflexivity|]. vm_compute. reflexivity.
Qed.

(** C26 refuted: with some but not all sizes given, the missing ones are copies
    of the first instead of the last one. *)
Lemma C26_last_value_refuted_proof :
  forall eps D rows ids B p sizes mode fuel draws h i l,
    cloud GPU eps D rows ids B p -> buildable eps D rows ids B sizes fuel ->
    means mode poisson_names \/ means mode average_names ->
    mk_hierarchy GPU eps (find_neighbors_tf GPU) fuel draws p (map CVector sizes) mode = Some (Ok h) ->
    nth_error sizes i = Some l -> length l < D -> last l 0%Q <> nth 0 l 0%Q ->
    nth i (hcells h) [] = filled_with_first D l /\ nth i (hcells h) [] <> filled_with_last D l.
Proof.
  intros eps D rows ids B p sizes mode fuel draws h i l Hc Hb Hm Eh Hi Hl Hne.
  destruct (C25_structure_partial_proof eps D rows ids B p sizes mode fuel draws Hc Hb Hm) as [(E & _)|(h' & data & E & _ & _ & Hcs)];
    rewrite Eh in E; inversion E; subst.
  assert (En : nth i (hcells h') [] = filled_with_first D l).
  { rewrite Hcs. apply nth_error_nth. now rewrite (map_nth_error _ _ _ Hi). }
  split; [exact En|]. rewrite En. unfold filled_with_first, filled_with_last. intros X. apply app_inv_head in X.
  destruct (D - length l) eqn:Ed; [lia|]. cbn in X. inversion X. congruence.
Qed.

Definition ex3_rows : list point := [[0#1;0#1;0#1];[1#2;1#2;5#2];[5#2;0#1;1#1]].
Example C26_last_value_refuted_ex_proof :
  buildable (1#1000) 3 ex3_rows [0;0;1] 2 [[1#1;2#1]] 3 /\ length [1#1;2#1] < 3 /\
  exists h, mk_hierarchy GPU (1#1000) (find_neighbors_tf GPU) 3 (fun _ k => k) (seg 3 ex3_rows [0;0;1] 2)
    [CVector [1#1;2#1]] "poisson" = Some (Ok h) /\ hcells h = [[1#1;2#1;1#1]].
Proof.
  split; [|split; [cbn; lia|]].
  - constructor.
    + reflexivity.
    + vm_compute. discriminate.
    + lia.
    + discriminate.
    + reflexivity.
    + cbn. lia.
    + constructor; [|constructor]. split; [discriminate|]. split; [cbn; lia|]. split; [repeat constructor|].
      vm_compute. discriminate.
    + constructor; [|constructor]. apply (few_cells_check _ _ _ _ _ _ [4;4;4]%Z); try reflexivity; vm_compute; discriminate.
  - eexists. split; [vm_compute; reflexivity|]. vm_compute. reflexivity.
Qed.

(** C26. More sizes than dimensions, and a bare number (allowed by the
    documentation), are rejected, on any device and for any search. *)
Lemma C26_rejected_proof :
  forall dev eps search fuel draws D rows ids B p rest mode,
    cloud dev eps D rows ids B p ->
    (forall l, D < length l ->
       mk_hierarchy dev eps search fuel draws p (CVector l :: rest) mode = Some (Err InvalidArgument)) /\
    (forall c, mk_hierarchy dev eps search fuel draws p (CScalar c :: rest) mode = Some (Err InvalidArgument)).
Proof.
  intros dev eps search fuel draws D rows ids B p rest mode Hc.
  destruct (get_aabb_cloud _ _ _ _ _ _ _ (cloud_is _ _ _ _ _ _ _ Hc)) as (p' & a & Ea & Hi & _).
  unfold mk_hierarchy. rewrite Ea, (ic_dim _ _ _ _ _ _ _ Hi). split.
  - intros l Hl. cbn [levels]. now rewrite (tile_too_many dev D l Hl).
  - reflexivity.
Qed.

Example C26_rejected_ex_proof :
  cloud GPU (1#1000) 2 exN_rows exN_ids 2 (seg 2 exN_rows exN_ids 2) /\ 2 < length [1#1;1#1;1#1].
Proof. split; [apply seg_cloud; [reflexivity|repeat constructor|repeat constructor]|cbn; lia]. Qed.

(** * Neighborhoods *)

(** C49 refuted: the neighborhood of level [i] has the points of level [i] as
    centers, not those of level [i+1]; asking for all transposed
    neighborhoods raises AttributeError, and so does the last documented index
    with an IndexError. *)
Lemma C49_neighborhoods_refuted_proof :
  forall eps D rows ids B p sizes mode fuel draws h,
    cloud GPU eps D rows ids B p -> buildable eps D rows ids B sizes fuel ->
    means mode poisson_names \/ means mode average_names ->
    mk_hierarchy GPU eps (find_neighbors_tf GPU) fuel draws p (map CVector sizes) mode = Some (Ok h) ->
    exists data, chain (next_level mode eps D) (map (filled_with_first D) sizes) ((rows, ids) :: data) /\
      (forall i, i < length sizes -> exists n up lo,
         h_get_neighborhood GPU eps (find_neighbors_tf GPU) h (Some (Z.of_nat i)) false = Ok [n] /\
         nth_error ((rows, ids) :: data) i = Some up /\ nth_error ((rows, ids) :: data) (S i) = Some lo /\
         reordered up (nsampled n) /\
         (length (snd lo) <> length (snd up) -> ~ reordered lo (nsampled n))) /\
      (sizes <> [] -> h_get_neighborhood GPU eps (find_neighbors_tf GPU) h None true = Err AttributeError) /\
      h_get_neighborhood GPU eps (find_neighbors_tf GPU) h (Some (Z.of_nat (h_len h) - 1)%Z) false = Err IndexError.
Proof.
  intros eps D rows ids B p sizes mode fuel draws h Hc Hb Hm Eh.
  destruct (hierarchy_gen eps D rows ids B p sizes mode fuel draws Hc Hb Hm) as (r & Er & Hr).
  rewrite Eh in Er. inversion Er. subst r. destruct Hr as ((_ & data & Hch & Hcl & Hns & Hre & _) & _ & _).
  exists data. split; [exact Hch|]. pose proof (chain_length _ _ _ Hch) as HL. rewrite map_length in HL.
  assert (HL' : @length (list point * list nat) data = length sizes) by (injection HL; auto). clear HL.
  split; [|split].
  - intros i Hi. unfold h_get_neighborhood. rewrite py_nth_nat.
    destruct (nth_error (hnbhs h) i) as [n|] eqn:En; [|apply nth_error_None in En; lia].
    destruct (nth_error ((rows, ids) :: data) i) as [up|] eqn:Eu.
    2:{ apply nth_error_None in Eu. exfalso. clear -Eu HL' Hi. cbn [length] in Eu. lia. }
    destruct (nth_error ((rows, ids) :: data) (S i)) as [lo|] eqn:El.
    2:{ apply nth_error_None in El. exfalso. clear -El HL' Hi. cbn [length] in El. lia. }
    exists n, up, lo. specialize (Hre i n up En Eu). split; [reflexivity|]. split; [reflexivity|]. split; [reflexivity|].
    split; [exact Hre|].
    intros Hne (s' & Hp' & _ & E'). destruct Hre as (s & Hp & _ & E). apply Hne.
    apply Permutation_length in Hp, Hp'. rewrite seq_length in Hp, Hp'.
    rewrite E in E'. apply (f_equal (@length nat)) in E'. rewrite !map_length in E'. lia.
  - intros Hs. unfold h_get_neighborhood. destruct (hnbhs h); [destruct sizes; [congruence|discriminate]|reflexivity].
  - pose proof (F2_length _ _ _ Hcl) as HF. unfold h_get_neighborhood, h_len.
    replace (Z.of_nat (length (hclouds h)) - 1)%Z with (Z.of_nat (length sizes)).
    2:{ rewrite <- HF. clear -HL'. cbn [length]. lia. }
    rewrite py_nth_nat. assert (E : nth_error (hnbhs h) (length sizes) = None) by (apply nth_error_None; lia).
    now rewrite E.
Qed.

Example C49_neighborhoods_refuted_ex_proof :
  buildable (1#1000) 2 exN_rows exN_ids 2 [[1#1]; [4#1]] 6 /\
  exists h n, mk_hierarchy GPU (1#1000) (find_neighbors_tf GPU) 6 (fun _ k => k) (seg 2 exN_rows exN_ids 2)
    [CVector [1#1]; CVector [4#1]] "Poisson" = Some (Ok h) /\
    h_get_neighborhood GPU (1#1000) (find_neighbors_tf GPU) h (Some 0%Z) false = Ok [n] /\
    length (pts (nsampled n)) = 6 /\ map (fun q => length (pts q)) (hclouds h) = [6; 4; 2].
Proof.
  split; [exact exH_buildable|]. eexists. eexists. split; [vm_compute; reflexivity|].
  split; [vm_compute; reflexivity|]. split; vm_compute; reflexivity.
Qed.
