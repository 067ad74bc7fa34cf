(** Facts about the hierarchy model. *)
From Coq Require Import String Ascii List Arith ZArith QArith Qround Lia Lqa Bool Permutation Sorted.
From Verif Require Import Tensor TensorFacts Spec PointCloud SpecCloud History PointCloudFacts QFacts
  Grid SpecGrid GridFacts GridProofs Neighbors SpecNeighbors NeighborFacts NeighborProofs
  Neighborhood NeighborhoodFacts Sampling SpecSampling SamplingFacts SamplingProofs Hierarchy SpecHierarchy.
Import ListNotations.
Local Open Scope nat_scope.

(** * Cell sizes *)
Lemma tile_ok dev D l : l <> [] -> length l <= D -> tile_cell_sizes dev D (CVector l) = Ok (filled_with_first D l).
Proof.
  intros Hn Hl. unfold tile_cell_sizes, filled_with_first. destruct l as [|x l]; [congruence|].
  destruct (Nat.ltb_spec (length (x :: l)) D).
  - cbn [nth_error Nat.sub bind nth]. destruct (Nat.ltb_spec (length (x :: l)) (D + 1)); [reflexivity|lia].
  - cbn [bind]. replace (D - length (x :: l)) with 0 by lia. cbn [repeat]. rewrite app_nil_r.
    destruct (Nat.ltb_spec (length (x :: l)) (D + 1)); [reflexivity|lia].
Qed.

Lemma tile_too_many dev D l : D < length l -> tile_cell_sizes dev D (CVector l) = Err InvalidArgument.
Proof.
  intros H. unfold tile_cell_sizes. destruct (Nat.ltb_spec (length l) D); [lia|]. cbn [bind].
  destruct (Nat.ltb_spec (length l) (D + 1)); [lia|reflexivity].
Qed.

Lemma filled_length D l : length l <= D -> length (filled_with_first D l) = D.
Proof. intros H. unfold filled_with_first. rewrite app_length, repeat_length. lia. Qed.

Lemma all_dims_id D l : length l = D -> 2 <= D -> all_dims D l = l.
Proof. destruct l as [|a [|b l]]; cbn; intros; try reflexivity; lia. Qed.

Lemma filled_good D l : 2 <= D -> good_sizes D l ->
  valid_sizes D (filled_with_first D l) /\ radii_match D (filled_with_first D l) (filled_with_first D l).
Proof.
  intros HD (Hn & Hl & Hp & H01).
  pose proof (filled_length D l Hl) as HL. unfold valid_sizes, radii_match. rewrite all_dims_id by assumption.
  assert (E0 : nth 0 (filled_with_first D l) 0%Q = nth 0 l 0%Q) by (destruct l; [congruence|reflexivity]).
  assert (P0 : (0 < nth 0 l 0)%Q) by (destruct l; [congruence|]; now inversion Hp).
  split; [split; [exact HL|]|split; [reflexivity|split; [reflexivity|]]].
  - apply Forall_app. split; [exact Hp|]. apply Forall_forall. intros c Hc. apply repeat_spec in Hc. now subst.
  - rewrite E0. destruct l as [|a [|b l]]; [congruence| |].
    + unfold filled_with_first. destruct D as [|[|D]]; [lia..|]. cbn. apply Qle_refl.
    + exact H01.
Qed.

(** * Few cells *)
Lemma zprod_mono l m : length l = length m -> (forall d, d < length l -> (1 <= nth d l 0 <= nth d m 0)%Z) ->
  (1 <= zprod l <= zprod m)%Z.
Proof.
  revert m. induction l as [|a l IH]; intros [|b m] HL H; cbn in HL; try lia; [cbn; lia|].
  pose proof (H 0 ltac:(cbn; lia)) as H0. cbn in H0.
  assert (H1 : (1 <= zprod l <= zprod m)%Z).
  { apply IH; [lia|]. intros d Hd. apply (H (S d)). cbn. lia. }
  cbn [zprod fold_right] in *. unfold zprod in *. cbn. nia.
Qed.

Lemma few_cells_grid dev eps D rows ids B cells g :
  (0 <= eps)%Q -> (eps <= flt_max)%Q -> is_grid dev eps D rows ids B cells g ->
  few_cells eps D cells B (rows, ids) -> (Z.of_nat B * product (gnc g) <= 2 ^ 31)%Z.
Proof.
  intros He Hfl G (nc & Ln & Hp & Hnc).
  assert (Hm : (1 <= zprod (gnc g) <= zprod nc)%Z).
  { apply zprod_mono; [now rewrite (nc_length _ _ _ _ _ _ _ _ G)|].
    rewrite (nc_length _ _ _ _ _ _ _ _ G). intros d Hd.
    assert (Hc : cells_needed eps cells rows ids d (nth d (gnc g) 0%Z)).
    { rewrite (ig_nc _ _ _ _ _ _ _ _ G). eapply num_cells_needed; eauto;
        first [ apply (g_len _ _ _ _ _ _ _ _ G) | apply (g_idsB _ _ _ _ _ _ _ _ G)
          | exact (ig_min _ _ _ _ _ _ _ _ G) | exact (ig_max _ _ _ _ _ _ _ _ G) | exact (ig_cells_pos _ _ _ _ _ _ _ _ G)]. }
    destruct Hc as [[H1 _] H2]. split; [exact H1|]. apply H2. apply (Hnc d Hd). }
  change (product (gnc g)) with (zprod (gnc g)). change (product nc) with (zprod nc) in Hp. nia.
Qed.

(** * One level *)
Record level_ok (eps : Q) (D B : nat) (b : batch) : Prop := {
  lo_ne : snd b <> [];
  lo_n : (Z.of_nat (length (snd b)) < 2 ^ 31 - 1)%Z }.

Lemma level_usable eps D B rows ids p l g :
  (0 < eps)%Q -> (eps <= flt_max)%Q -> 2 <= D -> cloud GPU eps D rows ids B p -> good_sizes D l ->
  (Z.of_nat (length ids) < 2 ^ 31 - 1)%Z -> few_cells eps D (filled_with_first D l) B (rows, ids) ->
  mk_grid GPU eps p (filled_with_first D l) = Ok g ->
  usable eps D rows ids B (filled_with_first D l) g.
Proof.
  intros He Hfl HD Hc Hs HN Hfc Eg. destruct (filled_good D l HD Hs) as [Hv Hr].
  assert (Hg : grid_for GPU eps D rows ids B (filled_with_first D l) g) by (eapply grid_new; eauto).
  constructor; auto.
  - apply Qlt_le_weak, He.
  - now left.
  - pose proof (grid_for_is _ _ _ _ _ _ _ _ Hv Hg) as G.
    change (bcast D (filled_with_first D l)) with (all_dims D (filled_with_first D l)) in G.
    rewrite all_dims_id in G by (auto; apply filled_length, Hs).
    eapply few_cells_grid; eauto. apply Qlt_le_weak, He.
Qed.

Lemma level_sample eps D B rows ids p l mode dev fuel draws :
  (0 < eps)%Q -> (eps <= flt_max)%Q -> 2 <= D -> cloud GPU eps D rows ids B p -> good_sizes D l ->
  ids <> [] -> (Z.of_nat (length ids) < 2 ^ 31 - 1)%Z -> few_cells eps D (filled_with_first D l) B (rows, ids) ->
  means mode poisson_names \/ means mode average_names -> length ids <= fuel ->
  exists g n, mk_grid GPU eps p (filled_with_first D l) = Ok g /\
    cloud GPU eps D rows ids B (gcloud g) /\
    snd (mk_nbh (find_neighbors_tf GPU) g (filled_with_first D l) None 0) = Ok n /\
    Permutation (gsidx g) (seq 0 (length ids)) /\
    pts (nsampled n) = map (fun i => nth i rows []) (gsidx g) /\
    bids (nsampled n) = map (fun i => nth i ids 0) (gsidx g) /\
    (means mode poisson_names -> length ids = 1 ->
       sample dev fuel draws n mode = Some (Err InvalidArgument)) /\
    (2 <= length ids \/ means mode average_names ->
       exists o rows' ids', sample dev fuel draws n mode = Some (Ok (seg D rows' ids' B, o)) /\
         next_level mode eps D (filled_with_first D l) (rows, ids) (rows', ids')).
Proof.
  intros He Hfl HD Hc Hs Hne HN Hfc Hm HF. destruct (filled_good D l HD Hs) as [Hv Hr].
  set (cs := filled_with_first D l) in *.
  assert (Eall : all_dims D cs = cs) by (apply all_dims_id; [apply filled_length, Hs|exact HD]).
  destruct (mk_grid_ok GPU eps D rows ids B p cs (cloud_is _ _ _ _ _ _ _ Hc) Hv) as (g & Eg & G & _).
  pose proof (level_usable eps D B rows ids p l g He Hfl HD Hc Hs HN Hfc Eg) as Hu. fold cs in Hu.
  assert (Hgc : cloud GPU eps D rows ids B (gcloud g)) by (eapply grid_for_cloud; apply Hu).
  destruct (sorted_cloud_ok _ _ _ _ _ _ _ _ G) as (sp & Ep & _ & Hp). specialize (Hp GPU eps).
  assert (Hne' : gsbids g <> []).
  { intros E. apply Hne, length_zero_iff_nil. rewrite <- (sbids_length _ _ _ _ _ _ _ _ G), E. reflexivity. }
  destruct (mk_nbh_tf eps D rows ids B cs g eps (gspts g) (gsbids g) B sp cs 0 None Hu Hp Hne'
    (ic_ids _ _ _ _ _ _ _ (cloud_is _ _ _ _ _ _ _ Hp)) Hr (or_intror (conj eq_refl Ep))) as (n & E & _).
  destruct (self_nbh eps D rows ids B cs g cs 0 n Hu Hr E Hne)
    as (Gn & _ & _ & _ & Hsx & Hnc & P1 & P2 & P3 & _ & _ & Hsh).
  exists g, n. split; [exact Eg|]. split; [exact Hgc|]. split; [exact E|].
  split; [apply (sidx_perm _ _ _ _ _ _ _ _ G)|].
  split; [rewrite P1; apply (ig_spts _ _ _ _ _ _ _ _ G)|]. split; [rewrite P2; apply (ig_sbids _ _ _ _ _ _ _ _ G)|].
  split.
  - intros Hpo H1. rewrite H1 in Hsh.
    unfold sample. rewrite (sample_mode_poisson _ Hpo). cbn [sampling_tf]. unfold sampling_poisson. now rewrite Hsh.
  - intros H2. destruct Hm as [Hm|Hm].
    + assert (HN2 : 2 <= length ids).
      { destruct H2 as [H2|H2]; [exact H2|]. pose proof (sample_mode_poisson _ Hm). pose proof (sample_mode_average _ H2). congruence. }
      destruct (poisson_seg eps D rows ids B cs g cs 0 n mode dev fuel draws Hu Hr E HN2 HF Hm)
        as (sel & Es & Hps & Hq).
      do 3 eexists. split; [exact Es|]. left. split; [exact Hm|]. exists sel. cbn [fst snd].
      rewrite Eall in Hps. auto.
    + rewrite <- Eall in Hfc.
      assert (Hov : (Z.of_nat B * zprod (gnc (ngrid n)) <= 2 ^ 31)%Z) by (rewrite Hnc; apply (us_cells _ _ _ _ _ _ _ Hu)).
      destruct (average_ok GPU eps D rows ids B _ (ngrid n) n eq_refl (us_eps _ _ _ _ _ _ _ Hu) Gn (us_fits _ _ _ _ _ _ _ Hu) Hov)
        as (out & oids & sel & Ea & HA & _).
      exists None, out, oids. split; [|right; split; [exact Hm|rewrite Eall in HA; exact HA]].
      unfold sample. rewrite (sample_mode_average _ Hm). cbn [sampling_tf]. rewrite Ea. cbn [omap bind Nat.eqb].
      rewrite (sampled_cloud_ok n D), P3.
      * reflexivity.
      * apply (ic_dim _ _ _ _ _ _ _ (ig_cloud _ _ _ _ _ _ _ _ Gn)).
      * destruct HA as (lo & gr & _ & _ & H1' & H2' & _). congruence.
Qed.

(** * Consequences of the level relation *)
Lemma filter_map_length {A C} (f : A -> C) P l : length (filter P (map f l)) = length (filter (fun i => P (f i)) l).
Proof. induction l as [|a l IH]; cbn; [reflexivity|]. destruct (P (f a)); cbn; now rewrite IH. Qed.

Lemma count_occ_filter l b : count_occ Nat.eq_dec l b = length (filter (Nat.eqb b) l).
Proof.
  induction l as [|a l IH]; cbn; [reflexivity|]. destruct (Nat.eq_dec a b) as [->|H].
  - rewrite Nat.eqb_refl. cbn. now rewrite IH.
  - destruct (Nat.eqb_spec b a); [congruence|]. exact IH.
Qed.

Lemma map_nth_seq {A} (l : list A) d : map (fun i => nth i l d) (seq 0 (length l)) = l.
Proof.
  induction l as [|a l IH]; cbn [length seq map nth]; [reflexivity|]. f_equal.
  rewrite <- seq_shift, map_map. exact IH.
Qed.

Lemma select_count sel ids b : NoDup sel -> Forall (fun i => i < length ids) sel ->
  count_occ Nat.eq_dec (map (fun i => nth i ids 0) sel) b <= count_occ Nat.eq_dec ids b.
Proof.
  intros Hn Hl. assert (E : count_occ Nat.eq_dec ids b = count_occ Nat.eq_dec (map (fun i => nth i ids 0) (seq 0 (length ids))) b)
    by (now rewrite map_nth_seq).
  rewrite E, !count_occ_filter, !filter_map_length.
  apply NoDup_incl_length; [now apply NoDup_filter|]. intros i Hi. apply filter_In in Hi as [Hi Eb].
  apply filter_In. split; [|exact Eb]. apply in_seq. rewrite Forall_forall in Hl. specialize (Hl i Hi). lia.
Qed.

Lemma select_length sel (ids : list nat) : NoDup sel -> Forall (fun i => i < length ids) sel -> length sel <= length ids.
Proof.
  intros Hn Hl. rewrite <- (seq_length (length ids) 0). apply NoDup_incl_length; [exact Hn|]. intros i Hi.
  apply in_seq. rewrite Forall_forall in Hl. specialize (Hl i Hi). lia.
Qed.

(** Heads of the groups of a partition. *)
Lemma heads_nodup (gr : list (list nat)) : NoDup (concat gr) -> Forall (fun g => g <> []) gr -> NoDup (map (hd 0) gr).
Proof.
  induction gr as [|g gr IH]; cbn; intros Hn Hf; [constructor|]. inversion Hf as [|? ? Hg Hf']; subst.
  destruct g as [|x g]; [congruence|]. cbn in *. inversion Hn as [|? ? Hx Hn']; subst. constructor.
  - intros Hi. apply Hx. apply in_or_app. right. apply in_map_iff in Hi as (h & E & Hh).
    apply in_concat. exists h. split; [exact Hh|]. rewrite Forall_forall in Hf'. specialize (Hf' h Hh).
    destruct h; [congruence|]. cbn in E. subst. now left.
  - apply IH; [|exact Hf']. clear -Hn'. induction g as [|y g IHg]; [exact Hn'|]. inversion Hn'; subst. auto.
Qed.

Lemma mean_le D rows grp p d u : is_mean D rows grp p -> d < D ->
  (forall i, In i grp -> (xc rows i d <= u)%Q) -> (nth d p 0 <= u)%Q.
Proof.
  intros (_ & Hne & Hm) Hd Hu. specialize (Hm d Hd).
  assert (Hs : (fold_right Qplus 0 (map (fun i => xc rows i d) grp) <= inject_Z (Z.of_nat (length grp)) * u)%Q).
  { clear -Hu. induction grp as [|a grp IH]; [cbn [map fold_right length Z.of_nat]; change (inject_Z 0) with 0%Q; lra|].
    cbn [map fold_right]. specialize (IH (fun i Hi => Hu i (or_intror Hi))). pose proof (Hu a (or_introl eq_refl)).
    change (length (a :: grp)) with (S (length grp)). rewrite Nat2Z.inj_succ. unfold Z.succ. rewrite inject_Z_plus.
    change (inject_Z 1) with 1%Q. lra. }
  rewrite <- Hm in Hs. apply Qmult_lt_0_le_reg_r with (z := inject_Z (Z.of_nat (length grp))); [|lra].
  destruct grp; [congruence|]. change 0%Q with (inject_Z 0). rewrite <- Zlt_Qlt. cbn [length]. lia.
Qed.

Lemma mean_ge D rows grp p d u : is_mean D rows grp p -> d < D ->
  (forall i, In i grp -> (u <= xc rows i d)%Q) -> (u <= nth d p 0)%Q.
Proof.
  intros (_ & Hne & Hm) Hd Hu. specialize (Hm d Hd).
  assert (Hs : (inject_Z (Z.of_nat (length grp)) * u <= fold_right Qplus 0 (map (fun i => xc rows i d) grp))%Q).
  { clear -Hu. induction grp as [|a grp IH]; [cbn [map fold_right length Z.of_nat]; change (inject_Z 0) with 0%Q; lra|].
    cbn [map fold_right]. specialize (IH (fun i Hi => Hu i (or_intror Hi))). pose proof (Hu a (or_introl eq_refl)).
    change (length (a :: grp)) with (S (length grp)). rewrite Nat2Z.inj_succ. unfold Z.succ. rewrite inject_Z_plus.
    change (inject_Z 1) with 1%Q. lra. }
  rewrite <- Hm in Hs. apply Qmult_lt_0_le_reg_r with (z := inject_Z (Z.of_nat (length grp))); [|lra].
  destruct grp; [congruence|]. change 0%Q with (inject_Z 0). rewrite <- Zlt_Qlt. cbn [length]. lia.
Qed.

(** A lower level is made of a selection of the upper points, each possibly
    moved to the mean of points of the same element. *)
Lemma next_level_reps mode eps D cs up lo : length (fst up) = length (snd up) ->
  next_level mode eps D cs up lo ->
  exists sel, NoDup sel /\ Forall (fun i => i < length (snd up)) sel /\
    snd lo = map (fun i => nth i (snd up) 0) sel /\ length (fst lo) = length (snd lo) /\
    (forall b, In b (snd up) -> In b (snd lo)).
Proof.
  intros HL [(_ & sel & (Hn & Hl & _ & Hc) & E1 & E2)|(_ & low & gr & _ & (Hp & Hne & _) & L1 & L2 & Hk)].
  - exists sel. repeat split; auto; [now rewrite E1, E2, !map_length|].
    intros b Hb. apply (In_nth _ _ 0) in Hb as (j & Hj & <-). destruct (Hc j Hj) as (i & Hi & E & _). rewrite E2, E.
    now apply (in_map (fun i => nth i (snd up) 0)).
  - assert (Hsl : forall k, k < length gr -> nth k gr [] <> []).
    { intros k Hk'. rewrite Forall_forall in Hne. apply Hne, nth_In, Hk'. }
    assert (Hin : forall k, k < length gr -> In (hd 0 (nth k gr [])) (nth k gr [])).
    { intros k Hk'. specialize (Hsl k Hk'). destruct (nth k gr []); [congruence|now left]. }
    assert (Hlt : forall g i, In g gr -> In i g -> i < length (snd up)).
    { intros g i Hg Hi. assert (In i (seq 0 (length (snd up)))) as H; [|apply in_seq in H; lia].
      eapply Permutation_in; [exact Hp|]. apply in_concat. eauto. }
    exists (map (hd 0) gr). split; [|split; [|split; [|split; [congruence|]]]].
    + apply heads_nodup; [|exact Hne]. eapply Permutation_NoDup; [apply Permutation_sym, Hp|apply seq_NoDup].
    + apply Forall_forall. intros i Hi. apply in_map_iff in Hi as (g & <- & Hg). apply (Hlt g); [exact Hg|].
      rewrite Forall_forall in Hne. specialize (Hne g Hg). destruct g; [congruence|now left].
    + apply (nth_ext _ _ 0 0); [now rewrite !map_length|]. intros k Hk'. rewrite L2 in Hk'.
      destruct (Hk k Hk') as [_ H]. destruct (H _ (Hin k Hk')) as [-> _].
      rewrite map_map. rewrite (nth_indep (map (fun x => nth (hd 0 x) (snd up) 0) gr) 0 ((fun x => nth (hd 0 x) (snd up) 0) [])) by (now rewrite map_length).
      now rewrite (map_nth (fun x => nth (hd 0 x) (snd up) 0)).
    + intros b Hb. apply (In_nth _ _ 0) in Hb as (j & Hj & <-).
      assert (Hc : In j (concat gr)).
      { eapply Permutation_in; [apply Permutation_sym, Hp|]. apply in_seq. lia. }
      apply in_concat in Hc as (g & Hg & Hjg). apply (In_nth _ _ []) in Hg as (k & Hk' & <-).
      destruct (Hk k Hk') as [_ H]. destruct (H _ Hjg) as [<- _]. apply nth_In. now rewrite L2.
Qed.

Lemma next_level_rows mode eps D cs up lo : length (fst up) = length (snd up) ->
  Forall (fun r => length r = D) (fst up) -> next_level mode eps D cs up lo -> Forall (fun r => length r = D) (fst lo).
Proof.
  intros HL Hr [(_ & sel & (_ & Hl & _) & E1 & _)|(_ & low & gr & _ & _ & L1 & _ & Hk)].
  - rewrite E1. apply Forall_map. eapply Forall_impl; [|exact Hl]. intros i Hi. cbv beta in *. rewrite Forall_forall in Hr.
    apply Hr, nth_In. lia.
  - apply Forall_forall. intros r Hi. apply (In_nth _ _ []) in Hi as (k & Hk' & <-). rewrite L1 in Hk'.
    apply (Hk k Hk').
Qed.

Lemma next_level_few mode eps D cs up lo B cs' : length (fst up) = length (snd up) ->
  next_level mode eps D cs up lo -> few_cells eps D cs' B up -> few_cells eps D cs' B lo.
Proof.
  intros HL Hn (nc & Ln & Hp & Hnc). exists nc. split; [exact Ln|]. split; [exact Hp|]. intros d Hd.
  destruct (Hnc d Hd) as [H1 H]. split; [exact H1|]. clear Hnc H1 Hp. intros i j Hi Hj E.
  destruct Hn as [(_ & sel & (Hn & Hl & _ & Hc) & E1 & E2)|(_ & low & gr & _ & (Hpm & Hne & _) & L1 & L2 & Hk)].
  - rewrite E1, E2 in *. rewrite map_length in Hi, Hj. unfold xc.
    rewrite (nth_indep _ 0 (nth 0 (snd up) 0)), map_nth with (f := fun i => nth i (snd up) 0) in E by (now rewrite map_length).
    rewrite (nth_indep (map _ _) 0 (nth 0 (snd up) 0)), map_nth with (f := fun i => nth i (snd up) 0) in E by (now rewrite map_length).
    rewrite !(nth_indep (map _ _) [] (nth 0 (fst up) [])) by (now rewrite map_length).
    rewrite !(map_nth (fun i => nth i (fst up) [])).
    rewrite Forall_forall in Hl. apply H; auto using nth_In.
  - rewrite L2 in Hi, Hj. unfold xc at 1 2.
    destruct (Hk i Hi) as [Mi Ei]. destruct (Hk j Hj) as [Mj Ej].
    assert (Hlt : forall k a, k < length gr -> In a (nth k gr []) -> a < length (snd up)).
    { intros k a Hk' Ha. assert (In a (seq 0 (length (snd up)))) as X; [|apply in_seq in X; lia].
      eapply Permutation_in; [exact Hpm|]. apply in_concat. exists (nth k gr []). auto using nth_In. }
    set (K := (inject_Z (nth d nc 0%Z) * nth d cs' 0)%Q) in *.
    assert (A : (nth d (nth i (fst lo) []) 0 - K + (2#1) * eps <= nth d (nth j (fst lo) []) 0)%Q); [|lra].
    apply (mean_ge _ _ _ _ d _ Mj Hd). intros b Hb.
    assert (A : (nth d (nth i (fst lo) []) 0 <= xc (fst up) b d + K - (2#1) * eps)%Q); [|lra].
    apply (mean_le _ _ _ _ d _ Mi Hd). intros a Ha.
    pose proof (H a b (Hlt i a Hi Ha) (Hlt j b Hj Hb)) as X. destruct (Ei a Ha) as [Ea _]. destruct (Ej b Hb) as [Eb _].
    specialize (X ltac:(congruence)). lra.
Qed.

(** * Batch shapes *)
Lemma gs_shape p : bshape (fst (get_sizes p)) = bshape p /\ bsize (fst (get_sizes p)) = bsize p.
Proof.
  unfold get_sizes. destruct (psizes p); [now split|]. destruct (unique_with_counts _ _). destruct (gather _ _); [|now split].
  destruct (bshape p) eqn:E; [|cbn; now rewrite E]. destruct (reshape _ _); cbn; now rewrite E.
Qed.
Lemma gu_shape p m : bshape (fst (get_unflatten p m)) = bshape p /\ bsize (fst (get_unflatten p m)) = bsize p.
Proof. unfold get_unflatten. destruct (unflatten p); now split. Qed.
Lemma au_shape {A} (z : A) p u d : bshape (fst (apply_unflatten z p u d)) = bshape p /\ bsize (fst (apply_unflatten z p u d)) = bsize p.
Proof.
  unfold apply_unflatten. destruct u; [now split|]. destruct (gather d (sidx p)); [|now split].
  pose proof (gs_shape p) as H. destruct (get_sizes p). exact H.
Qed.
Lemma ga_shape dev eps p : bshape (fst (get_aabb dev eps p)) = bshape p /\ bsize (fst (get_aabb dev eps p)) = bsize p.
Proof. unfold get_aabb. destruct (paabb p); [now split|]. destruct (make_aabb _ _ _); now split. Qed.

Definition shape_fits (p : pc) : Prop := forall s, bshape p = Some s -> nprod s = bsize p.

Lemma step_shape_fits dev eps p o : shape_fits p -> shape_fits (step dev eps p o).
Proof.
  intros H. assert (K : forall q, bshape q = bshape p /\ bsize q = bsize p -> shape_fits q).
  { intros q [E1 E2] s Hs. rewrite E2. apply H. congruence. }
  destruct o as [id|m| |m|data| |s|f|f rs rp]; cbn [step].
  - exact H.
  - apply K. unfold get_points_all. pose proof (gu_shape p m) as H1. destruct (get_unflatten p m) as [p1 u]. cbn [fst] in H1.
    pose proof (au_shape (zero_point (dim p1)) p1 u (pts p1)) as H2. destruct H1, H2. split; congruence.
  - apply K, gs_shape.
  - apply K, gu_shape.
  - apply K. pose proof (gu_shape p None) as H1. destruct (get_unflatten p None) as [p1 u]. cbn [fst] in H1.
    pose proof (au_shape (zero_point (dim p1)) p1 u data) as H2. destruct H1, H2. split; congruence.
  - apply K, ga_shape.
  - unfold set_batch_shape. destruct s as [s|]; [|intros s Hs; discriminate].
    destruct (Nat.eqb_spec (nprod s) (bsize p)) as [E|E]; cbn [negb]; [|exact H]. cbn.
    destruct (psizes p) as [t|]; [destruct (reshape t s)|]; cbn; intros s' Hs; cbn in *; congruence.
  - unfold flatten_features. destruct f as [t|rows]; [|exact H].
    pose proof (gs_shape p) as H1. destruct (get_sizes p) as [p1 r]. now apply K.
  - unfold format_output. destruct rp; [|destruct rs; exact H].
    pose proof (gu_shape p None) as H1. destruct (get_unflatten p None) as [p1 u]. cbn [fst] in H1.
    pose proof (au_shape (zero_point (dim p)) p1 u f) as H2. destruct (apply_unflatten (zero_point (dim p)) p1 u f) as [p2 r].
    cbn [fst] in *. apply K. destruct H1, H2. split; congruence.
Qed.

Lemma init_shape_fits pa ia bs sz p : init pa ia bs sz = Ok p -> shape_fits p.
Proof.
  unfold init. intros E. destruct (check_valid_point_cloud_input pa sz ia); cbn [bind] in E; [|discriminate].
  destruct pa as [l|D rows|D t]; [discriminate| |].
  - unfold init_from_segmented in E. destruct ia as [l|].
    + destruct bs, l; inversion E; intros s Hs; discriminate.
    + destruct sz; [|discriminate]. destruct (1 <? _); [discriminate|].
      match type of E with bind ?x _ = _ => destruct x; cbn [bind] in E; [|discriminate] end. inversion E; intros s Hs; discriminate.
  - unfold init_from_padded in E.
    destruct (Nat.eqb_spec (match bs with Some b => b | None => nprod (pshape t) end) (nprod (pshape t))) as [Eb|]; [|discriminate].
    cbn [negb] in E. repeat match type of E with (bind ?x _) = _ => destruct x; cbn [bind] in E; [|discriminate] end.
    inversion E. intros s Hs. cbn in *. congruence.
Qed.

Lemma cloud_shape_fits dev eps D rows ids B p s : cloud dev eps D rows ids B p -> bshape p = Some s -> nprod s = B.
Proof.
  intros H Hs. rewrite <- (ic_bsize _ _ _ _ _ _ _ (cloud_is _ _ _ _ _ _ _ H)). revert s Hs. change (shape_fits p).
  induction H as [pa ia bs sz p Hi| p o Hc IH]; [eapply init_shape_fits, Hi|now apply step_shape_fits].
Qed.

Lemma mk_grid_gcloud dev eps p cs g : mk_grid dev eps p cs = Ok g -> gcloud g = fst (get_aabb dev eps p).
Proof.
  unfold mk_grid. destruct (get_aabb dev eps p) as [p' [a|e]]; cbn; [|discriminate].
  destruct (negb (length _ =? _)); [discriminate|]. destruct (negb _); [discriminate|]. intros E.
  repeat match type of E with (bind ?x _) = _ => destruct x; cbn [bind] in E; [|discriminate] end.
  now inversion E.
Qed.
