(** Property C57: pooling between the levels of a hierarchy misses nothing. *)
From Coq Require Import String List Arith ZArith QArith Reals Qreals Lia Bool Permutation.
From Verif Require Import Tensor TensorFacts Spec PointCloud SpecCloud History PointCloudFacts QFacts CloudProofs
  Grid SpecGrid GridFacts GridProofs Neighbors SpecNeighbors NeighborFacts NeighborProofs
  Neighborhood NeighborhoodFacts Sampling SpecSampling SamplingFacts SamplingProofs Hierarchy SpecHierarchy HierarchyFacts
  HierarchyProofs Pdf SpecPdf RTensor Layers SpecLayers LayerFacts LayerProofs LevelFacts CoverFacts.
Import ListNotations.
Local Open Scope nat_scope.

Lemma Qlt_square a b c : (0 < a)%Q -> (a <= b)%Q -> (c < a * a)%Q -> (c < b * b)%Q.
Proof. intros H1 H2 H3. eapply Qlt_le_trans; [exact H3|]. apply Qmult_le_compat_nonneg; split; auto; now apply Qlt_le_weak. Qed.

Lemma filled_nth D s d : s <> [] -> length s <= D -> d < D -> In (nth d (filled_with_first D s) 0%Q) s.
Proof.
  intros Hs HL Hd. unfold filled_with_first. destruct (Nat.lt_ge_cases d (length s)) as [H|H].
  - rewrite app_nth1 by exact H. now apply nth_In.
  - rewrite app_nth2 by exact H. assert (E : nth (d - length s) (repeat (nth 0 s 0%Q) (D - length s)) 0%Q = nth 0 s 0%Q).
    { apply (repeat_spec (D - length s)), nth_In. rewrite repeat_length. lia. }
    rewrite E. apply nth_In. destruct s; [congruence|cbn; lia].
Qed.
Lemma filled_length D s : s <> [] -> length s <= D -> length (filled_with_first D s) = D.
Proof. intros Hs HL. unfold filled_with_first. rewrite app_length, repeat_length. lia. Qed.
Lemma filled_first D s : s <> [] -> nth 0 (filled_with_first D s) 0%Q = nth 0 s 0%Q.
Proof. destruct s; [congruence|reflexivity]. Qed.

(** Every output point has an input point closer than the radius. *)
Lemma covers mode eps D s r up lo : good_sizes D s -> Forall (fun c => (c <= r)%Q) s ->
  means mode poisson_names \/ D <= 4 -> length (fst up) = length (snd up) ->
  next_level mode eps D (filled_with_first D s) up lo ->
  forall k, k < length (snd lo) -> exists j, near D r (fst up) (snd up) (fst lo) (snd lo) j k.
Proof.
  intros (Hs & Hl & Hp & _) Hr Hm HL Hx k Hk. rewrite Forall_forall in Hr, Hp.
  assert (H0 : In (nth 0 s 0%Q) s) by (apply nth_In; destruct s; [congruence|cbn; lia]).
  destruct Hx as [(_ & sel & (_ & Hsel & _ & _) & E1 & E2)|(Ha & low & gr & _ & (Hpm & _ & Hsame) & L1 & L2 & H)].
  - rewrite E2, map_length in Hk. exists (nth k sel 0). rewrite Forall_forall in Hsel.
    unfold near. rewrite E1, E2, map_length.
    rewrite (nth_indep (map (fun i => nth i (snd up) 0) sel) 0 (nth 0 (snd up) 0)) by (now rewrite map_length).
    rewrite (nth_indep (map (fun i => nth i (fst up) []) sel) [] (nth 0 (fst up) [])) by (now rewrite map_length).
    rewrite (map_nth (fun i => nth i (snd up) 0)), (map_nth (fun i => nth i (fst up) [])). split; [apply Hsel, nth_In, Hk|]. split; [exact Hk|]. split; [reflexivity|].
    apply (Qlt_square (nth 0 s 0%Q)); auto. rewrite dist2_self. apply Qmult_lt_0_compat; auto.
  - rewrite L2 in Hk. destruct (H k Hk) as [Hmean Hin].
    assert (HD : D <= 4).
    { destruct Hm as [Hm|Hm]; [|exact Hm]. pose proof (sample_mode_poisson _ Hm). pose proof (sample_mode_average _ Ha). congruence. }
    assert (Hgr : forall i, In i (nth k gr []) -> i < length (snd up)).
    { intros i Hi. assert (In i (concat gr)) by (apply in_concat; exists (nth k gr []); split; [now apply nth_In|exact Hi]).
      eapply Permutation_in in H1; [|exact Hpm]. apply in_seq in H1. lia. }
    destruct (nth k gr []) as [|i0 g0] eqn:Eg; [now destruct Hmean as (_ & X & _)|].
    set (b := nth k (snd lo) 0). set (cs := filled_with_first D s) in *.
    assert (Hr0 : (0 < r)%Q) by (eapply Qlt_le_trans; [apply Hp, H0|apply Hr, H0]).
    assert (Hcl : exists i, In i (i0 :: g0) /\ (dist2 D (nth i (fst up) []) (nth k (fst lo) []) < r * r)%Q).
    { apply (mean_close D (fst up) (i0 :: g0) (nth k (fst lo) []) r
        (fun d => nth d (low b) 0 + inject_Z (cell (low b) cs (nth k (fst lo) []) d) * nth d cs 0)%Q HD Hr0 Hmean).
      intros i d Hi Hd. destruct (Hin i Hi) as [Eb Ec]. specialize (Ec d Hd). fold b in Eb. rewrite <- Eb in Ec.
      pose proof (filled_nth D s d Hs Hl Hd) as Hf.
      destruct (cell_interval (low b) cs (nth i (fst up) []) d _ (Hp _ Hf) (eq_sym Ec)) as [I1 I2].
      split; [exact I1|]. eapply Qlt_le_trans; [exact I2|]. apply Qplus_le_compat; [apply Qle_refl|]. apply Hr, Hf. }
    destruct Hcl as (i & Hi & Hd). exists i. unfold near. destruct (Hin i Hi) as [Eb _]. rewrite L2. auto.
Qed.

(** Every input point is closer than the radius to some output point. *)
Lemma contributes mode eps D s r up lo : 1 <= D -> good_sizes D s -> (nth 0 s 0 <= r)%Q ->
  means mode poisson_names \/ (fold_right Qplus 0 (map (fun c => c * c) (filled_with_first D s)) <= r * r)%Q ->
  length (fst up) = length (snd up) -> next_level mode eps D (filled_with_first D s) up lo ->
  forall j, j < length (snd up) -> exists k, near D r (fst up) (snd up) (fst lo) (snd lo) j k.
Proof.
  intros HD (Hs & Hl & Hp & _) Hr Hm HL Hx j Hj. rewrite Forall_forall in Hp.
  assert (H0 : In (nth 0 s 0%Q) s) by (apply nth_In; destruct s; [congruence|cbn; lia]).
  destruct Hx as [(_ & sel & (_ & Hsel & _ & Hcov) & E1 & E2)|(Ha & low & gr & _ & (Hpm & _ & Hsame) & L1 & L2 & H)].
  - destruct (Hcov j Hj) as (i & Hi & Ei & Hd). apply (In_nth _ _ 0) in Hi as (k & Hk & Ek). exists k.
    unfold near. rewrite E1, E2, map_length.
    rewrite (nth_indep (map (fun i => nth i (snd up) 0) sel) 0 (nth 0 (snd up) 0)) by (now rewrite map_length).
    rewrite (nth_indep (map (fun i => nth i (fst up) []) sel) [] (nth 0 (fst up) [])) by (now rewrite map_length).
    rewrite (map_nth (fun i => nth i (snd up) 0)), (map_nth (fun i => nth i (fst up) [])), Ek. split; [exact Hj|]. split; [exact Hk|]. split; [exact Ei|].
    rewrite filled_first in Hd by exact Hs. apply (Qlt_square (nth 0 s 0%Q)); auto.
  - destruct Hm as [Hm|Hm].
    { pose proof (sample_mode_poisson _ Hm). pose proof (sample_mode_average _ Ha). congruence. }
    assert (Hin : In j (concat gr)) by (eapply Permutation_in; [symmetry; exact Hpm|apply in_seq; lia]).
    apply in_concat in Hin as (grp & Hg & Hjg). apply (In_nth _ _ []) in Hg as (k & Hk & Ek). exists k.
    destruct (H k Hk) as [Hmean Hin]. rewrite Ek in Hin. destruct (Hin j Hjg) as [Eb Ec].
    set (cs := filled_with_first D s) in *.
    split; [exact Hj|]. split; [now rewrite L2|]. split; [now symmetry|].
    eapply Qlt_le_trans; [|exact Hm]. set (lw := low (nth j (snd up) 0)) in *.
    apply (dist2_diagonal D cs _ _ (fun d => nth d lw 0 + inject_Z (cell lw cs (nth k (fst lo) []) d) * nth d cs 0)%Q HD);
      [now apply filled_length| |]; intros d Hd; apply cell_interval; try (apply Hp, filled_nth; auto); [|reflexivity].
    symmetry. now apply Ec.
Qed.

(** C57. Between neighboring levels of a hierarchy, pooling with a radius not
    smaller than the cell sizes of the lower level misses nothing. With Poisson
    sampling, or if the radius is at least the diagonal of a cell, every point of
    the upper level contributes to some point of the lower one. With Poisson
    sampling, or in at most four dimensions, every point of the lower level has
    such contributions, so that every entry of the pooled features is the
    largest one respectively the mean of actual features. *)
Lemma C57_pooling_partial_proof :
  forall eps D rows ids B p sizes mode fuel draws h,
    cloud GPU eps D rows ids B p -> buildable eps D rows ids B sizes fuel ->
    means mode poisson_names \/ means mode average_names ->
    mk_hierarchy GPU eps (find_neighbors_tf GPU) fuel draws p (map CVector sizes) mode = Some (Ok h) ->
    exists data, let levels := (rows, ids) :: data in
      chain (next_level mode eps D) (map (filled_with_first D) sizes) levels /\
      forall i s r up lo,
        nth_error sizes i = Some s -> nth_error levels i = Some up -> nth_error levels (S i) = Some lo ->
        Forall (fun c => (c <= r)%Q) s -> few_cells eps D (repeat r D) B (rows, ids) ->
        let near := near_points D r (fst up) (snd up) (fst lo) (snd lo) in
        exists pin pout,
          h_getitem h (Z.of_nat i) = Ok pin /\ h_getitem h (Z.of_nat (S i)) = Ok pout /\
          cloud GPU eps D (fst up) (snd up) B pin /\ cloud GPU eps D (fst lo) (snd lo) B pout /\
          (means mode poisson_names \/ (fold_right Qplus 0 (map (fun c => c * c) (filled_with_first D s)) <= r * r)%Q ->
             forall j, j < length (snd up) -> exists k, k < length (snd lo) /\ In j (near k)) /\
          (means mode poisson_names \/ D <= 4 ->
             (forall k, k < length (snd lo) -> near k <> []) /\
             forall feats C F return_sorted return_padded, given feats pin C F ->
               let values := fun k c => map (fun j => fval F j c) (near k) in
               exists mx av,
                 max_pooling GPU eps (find_neighbors_tf GPU) feats pin pout (Some [r]) return_sorted return_padded
                   = returned pout return_sorted return_padded C (table (length (snd lo)) C mx) /\
                 average_pooling GPU eps (find_neighbors_tf GPU) feats pin pout (Some [r]) return_sorted return_padded
                   = returned pout return_sorted return_padded C (table (length (snd lo)) C av) /\
                 forall k c, k < length (snd lo) -> c < C ->
                   (Forall (fun v => (- Q2R flt_max <= v)%R) (values k c) -> is_max (values k c) (mx k c)) /\
                   av k c = mean (values k c)).
Proof.
  intros eps D rows ids B p sizes mode fuel draws h Hc Hb Hm Eh.
  destruct (hierarchy_gen eps D rows ids B p sizes mode fuel draws Hc Hb Hm) as (r0 & Er & Hr). rewrite Eh in Er.
  inversion Er. subst r0. destruct Hr as ((_ & data & Hch & Hcl & _) & _ & _). exists data. cbv zeta. split; [exact Hch|].
  intros i s r up lo Es Eu El Hsr Hfew.
  destruct Hb as [He Hf HD Hne HN HF Hs Hfc].
  assert (HL : length rows = length ids) by (apply (ic_len _ _ _ _ _ _ _ (cloud_is _ _ _ _ _ _ _ Hc))).
  destruct (F2_nth _ _ _ _ _ Hcl Eu) as (pin & Epin & Cin & _). destruct (F2_nth _ _ _ _ _ Hcl El) as (pout & Epout & Cout & _).
  assert (Hgs : good_sizes D s) by (rewrite Forall_forall in Hs; apply Hs; eapply nth_error_In; exact Es).
  assert (Hlink : next_level mode eps D (filled_with_first D s) up lo).
  { apply (chain_link _ _ _ Hch i); auto. rewrite nth_error_map, Es. reflexivity. }
  pose proof (level_inherits _ _ _ _ _ _ _ HL Hne Hch i up Eu) as [U1 U2 U3].
  assert (Hr0 : (nth 0 s 0 <= r)%Q).
  { rewrite Forall_forall in Hsr. apply Hsr, nth_In. destruct Hgs as (Hs0 & _). destruct s; [congruence|cbn; lia]. }
  exists pin, pout. unfold h_getitem. rewrite !py_nth_nat, Epin, Epout.
  split; [reflexivity|]. split; [reflexivity|]. split; [exact Cin|]. split; [exact Cout|]. split.
  - intros Hd j Hj. destruct (contributes mode eps D s r up lo ltac:(lia) Hgs Hr0 Hd U1 Hlink j Hj) as (k & Hk).
    exists k. assert (Hk' := Hk). destruct Hk' as (_ & H & _). split; [exact H|]. now apply near_points_In.
  - intros Hd.
    assert (Hnon : forall k, k < length (snd lo) -> near_points D r (fst up) (snd up) (fst lo) (snd lo) k <> []).
    { intros k Hk E. destruct (covers mode eps D s r up lo Hgs Hsr Hd U1 Hlink k Hk) as (j & Hj).
      apply near_points_In in Hj; [|exact Hk]. rewrite E in Hj. destruct Hj. }
    split; [exact Hnon|]. intros feats C F srt pad HF'.
    assert (Hrpos : (0 < r)%Q).
    { eapply Qlt_le_trans; [|exact Hr0]. destruct Hgs as (Hs0 & _ & Hp & _). rewrite Forall_forall in Hp. apply Hp, nth_In.
      destruct s; [congruence|cbn; lia]. }
    assert (W := level_workable mode eps D _ rows ids data B r i (S i) up lo pin pout HL Hne HN He Hf HD Hch Hrpos Hfew Eu El Cin Cout).
    destruct (C31_local_partial_proof eps D r (fst up) (snd up) pin (fst lo) (snd lo) pout [r] feats C F srt pad W (or_introl eq_refl) HF')
      as (mx & av & E1 & E2 & Hv).
    exists mx, av. split; [exact E1|]. split; [exact E2|]. intros k c Hk Hcc. specialize (Hv k c Hk Hcc). specialize (Hnon k Hk).
    destruct (near_points D r (fst up) (snd up) (fst lo) (snd lo) k) as [|j l]; [congruence|exact Hv].
Qed.

Example C57_pooling_partial_ex_proof :
  cloud GPU (1#1000) 2 exN_rows exN_ids 2 (seg 2 exN_rows exN_ids 2) /\
  buildable (1#1000) 2 exN_rows exN_ids 2 [[1#1]; [4#1]] 6 /\
  few_cells (1#1000) 2 (repeat (3#2) 2) 2 (exN_rows, exN_ids) /\
  (fold_right Qplus 0 (map (fun c => c * c) (filled_with_first 2 [1#1])) <= (3#2) * (3#2))%Q /\
  exists h pin pout, mk_hierarchy GPU (1#1000) (find_neighbors_tf GPU) 6 (fun _ k => k) (seg 2 exN_rows exN_ids 2)
    [CVector [1#1]; CVector [4#1]] "cell average" = Some (Ok h) /\
    h_getitem h 0 = Ok pin /\ h_getitem h 1 = Ok pout /\
    map (near_points 2 (3#2) (pts pin) (bids pin) (pts pout) (bids pout)) (seq 0 4) = [[4;5];[3];[2];[0;1]].
Proof.
  split; [apply seg_cloud; [reflexivity|repeat constructor|repeat constructor]|]. split; [exact exH_buildable|].
  split; [apply (few_cells_check _ _ _ _ _ _ [4;4]%Z); try reflexivity; vm_compute; discriminate|].
  split; [vm_compute; discriminate|].
  eexists. eexists. eexists. split; [vm_compute; reflexivity|]. split; [vm_compute; reflexivity|]. split; [vm_compute; reflexivity|].
  vm_compute. reflexivity.
Qed.

(** C57 refuted in five dimensions: two points near opposite corners of one
    cell, cell average. No point is within the cell size of the mean, and max
    pooling with this radius returns the lowest float. *)
Definition exV_rows : list point := [repeat 0%Q 5; repeat (99#100) 5].
Lemma C57_five_refuted_proof :
  exists rows ids p h pin pout feats F,
    cloud GPU (1#1000) 5 rows ids 1 p /\ buildable (1#1000) 5 rows ids 1 [[1#1]] 2 /\
    mk_hierarchy GPU (1#1000) (find_neighbors_tf GPU) 2 (fun _ k => k) p [CVector [1#1]] "average" = Some (Ok h) /\
    h_getitem h 0 = Ok pin /\ h_getitem h 1 = Ok pout /\ length (pts pout) = 1 /\
    near_points 5 1 (pts pin) (bids pin) (pts pout) (bids pout) 0 = [] /\
    given feats pin 1 F /\ F = [[2%R]; [3%R]] /\
    max_pooling GPU (1#1000) (find_neighbors_tf GPU) feats pin pout (Some [1%Q]) false false
      = Ok (Feat 1 (inr [[(- Q2R flt_max)%R]])).
Proof.
  assert (Hc : cloud GPU (1#1000) 5 exV_rows [0;0] 1 (seg 5 exV_rows [0;0] 1))
    by (apply seg_cloud; [reflexivity|repeat constructor|repeat constructor]).
  assert (Hfew : few_cells (1#1000) 5 (repeat 1%Q 5) 1 (exV_rows, [0;0]))
    by (apply (few_cells_check _ _ _ _ _ _ [1;1;1;1;1]%Z); try reflexivity; vm_compute; discriminate).
  assert (Hb : buildable (1#1000) 5 exV_rows [0;0] 1 [[1#1]] 2).
  { constructor; [reflexivity|vm_compute; discriminate|lia|discriminate|reflexivity|cbn; lia| |].
    - constructor; [|constructor]. split; [discriminate|split; [cbn; lia|split]]; [constructor; [reflexivity|constructor]|vm_compute; discriminate].
    - constructor; [exact Hfew|constructor]. }
  assert (Hm : means "average" average_names) by (apply means_average; now left).
  destruct (hierarchy_gen _ _ _ _ _ _ _ _ _ (fun _ k => k) Hc Hb (or_intror Hm)) as (r0 & Er & Hr).
  assert (Ev : exists h pin pout, r0 = Ok h /\ h_getitem h 0 = Ok pin /\ h_getitem h 1 = Ok pout /\ hclouds h = [pin; pout] /\
    length (pts pout) = 1 /\ near_points 5 1 (pts pin) (bids pin) (pts pout) (bids pout) 0 = [] /\ length (pts pin) = 2).
  { revert Er. clear. intros Er.
    match type of Er with ?l = _ => let v := eval vm_compute in l in assert (E : l = v) by (vm_compute; reflexivity) end.
    rewrite E in Er. clear E. inversion Er. eexists. eexists. eexists. split; [reflexivity|]. cbn [hclouds].
    split; [vm_compute; reflexivity|]. split; [vm_compute; reflexivity|]. split; [reflexivity|]. split; [reflexivity|].
    split; [vm_compute; reflexivity|reflexivity]. }
  destruct Ev as (h & pin & pout & -> & E0 & E1 & Eh & Lo & Enear & Li).
  exists exV_rows, [0;0], (seg 5 exV_rows [0;0] 1), h, pin, pout, (Feat 1 (inr [[2%R]; [3%R]])), [[2%R]; [3%R]].
  split; [exact Hc|]. split; [exact Hb|]. split; [exact Er|]. split; [exact E0|]. split; [exact E1|]. split; [exact Lo|].
  split; [exact Enear|].
  assert (HG : given (Feat 1 (inr [[2%R]; [3%R]])) pin 1 [[2%R]; [3%R]]).
  { split; [reflexivity|]. split; [|symmetry; exact Li]. cbn [frows]. unfold flatten_features. rewrite Li. reflexivity. }
  split; [exact HG|]. split; [reflexivity|].
  destruct Hr as ((_ & data & Hch & Hcl & _) & _ & _). rewrite Eh in Hcl.
  destruct data as [|b1 [|b2 data]]; [inversion Hch| |inversion Hch as [|? ? ? ? ? _ H]; inversion H].
  inversion Hcl as [|? ? ? ? [C0 _] H']; subst. inversion H' as [|? ? ? ? [C1 _] _]; subst. cbn [fst snd] in C0.
  assert (I0 := cloud_is _ _ _ _ _ _ _ C0). assert (I1 := cloud_is _ _ _ _ _ _ _ C1).
  rewrite (ic_pts _ _ _ _ _ _ _ I0), (ic_bids _ _ _ _ _ _ _ I0), (ic_pts _ _ _ _ _ _ _ I1), (ic_bids _ _ _ _ _ _ _ I1) in Enear.
  assert (W : workable (1#1000) 5 1 exV_rows [0;0] pin (fst b1) (snd b1) pout).
  { eapply (level_workable "average" (1#1000) 5 _ exV_rows [0;0] [b1] 1 1 0 1 (exV_rows, [0;0]) b1);
      [reflexivity|discriminate|reflexivity|reflexivity|vm_compute; discriminate|lia|exact Hch|reflexivity|exact Hfew|reflexivity|reflexivity|exact C0|exact C1]. }
  assert (L1 : length (snd b1) = 1).
  { rewrite <- (ic_len _ _ _ _ _ _ _ I1), <- (ic_pts _ _ _ _ _ _ _ I1). exact Lo. }
  destruct (C31_local_partial_proof _ _ _ _ _ _ _ _ _ [1%Q] _ _ _ false false W (or_introl eq_refl) HG) as (mx & av & Emx & _ & Hv).
  rewrite Emx. specialize (Hv 0 0 ltac:(lia) ltac:(lia)). rewrite Enear in Hv. cbn [map] in Hv. destruct Hv as [Hv _].
  rewrite L1. unfold returned, format_output, table. cbn [seq map snd]. now rewrite Hv.
Qed.

(** C57 refuted for the cell average with a radius of the cell size: a point far
    from the other nine points of its cell contributes to no output. *)
Definition exW_rows : list point := repeat [0#1;0#1] 9 ++ [[99#100;99#100]].
Lemma C57_lost_refuted_proof :
  exists rows ids p h pin pout,
    cloud GPU (1#1000) 2 rows ids 1 p /\ buildable (1#1000) 2 rows ids 1 [[1#1]] 10 /\
    mk_hierarchy GPU (1#1000) (find_neighbors_tf GPU) 10 (fun _ k => k) p [CVector [1#1]] "average" = Some (Ok h) /\
    h_getitem h 0 = Ok pin /\ h_getitem h 1 = Ok pout /\ length (pts pin) = 10 /\
    forall k, k < length (pts pout) -> ~ In 9 (near_points 2 1 (pts pin) (bids pin) (pts pout) (bids pout) k).
Proof.
  assert (Hc : cloud GPU (1#1000) 2 exW_rows (repeat 0 10) 1 (seg 2 exW_rows (repeat 0 10) 1))
    by (apply seg_cloud; [reflexivity|repeat constructor|repeat constructor]).
  exists exW_rows, (repeat 0 10), (seg 2 exW_rows (repeat 0 10) 1). eexists. eexists. eexists.
  split; [exact Hc|]. split.
  { constructor; [reflexivity|vm_compute; discriminate|lia|discriminate|reflexivity|cbn; lia| |].
    - constructor; [|constructor]. split; [discriminate|split; [cbn; lia|split]]; [constructor; [reflexivity|constructor]|vm_compute; discriminate].
    - constructor; [|constructor]. apply (few_cells_check _ _ _ _ _ _ [1;1]%Z); try reflexivity; vm_compute; discriminate. }
  split; [vm_compute; reflexivity|]. split; [vm_compute; reflexivity|]. split; [vm_compute; reflexivity|]. split; [reflexivity|].
  intros [|k] Hk; [|cbn in Hk; lia]. intros H. vm_compute in H. repeat (destruct H as [H|H]; [discriminate|]). exact H.
Qed.
