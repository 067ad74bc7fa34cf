(** Proofs of the point cloud properties (C01-C10). The statements are copied
    verbatim into PropertiesCloud.v. *)
From Coq Require Import List Arith ZArith QArith Qminmax Lia Lqa Bool Permutation Sorted.
From Verif Require Import Tensor TensorFacts Spec PointCloud SpecCloud History PointCloudFacts QFacts.
Import ListNotations.
Local Open Scope nat_scope.

Local Arguments mask_rows : simpl never.
Local Arguments valid_rows : simpl never.
Local Arguments ids_of_sizes : simpl never.
Local Arguments nprod : simpl never.

(** * Linking the specification to the model *)

Lemma block_ids_spec sizes : block_ids 0 sizes = ids_of_sizes sizes.
Proof.
  unfold block_ids, ids_of_sizes. f_equal.
  rewrite (combine_nth_seq (seq 0 (length sizes)) sizes 0 0) by apply seq_length.
  rewrite map_map, seq_length. apply map_ext_in. intros b Hb. apply in_seq in Hb. cbn [fst snd].
  now rewrite seq_nth by lia.
Qed.

Lemma skipn_add {A} a b (l : list A) : skipn (a + b) l = skipn b (skipn a l).
Proof. revert l; induction a as [|a IH]; intros [|x l]; cbn; auto. now rewrite skipn_nil. Qed.

Lemma valid_rows_spec {A} sizes V (rows : list A) :
  length rows = length sizes * V -> Forall (fun n => n <= V) sizes ->
  mask_rows sizes V rows = valid_rows sizes V rows.
Proof.
  unfold mask_rows, valid_rows, sequence_mask.
  revert rows; induction sizes as [|n s IH]; intros rows H HV; [reflexivity|].
  inversion HV as [|? ? Hn HV']; subst.
  cbn [map concat length seq]. cbn [length Nat.mul] in H.
  rewrite <- (firstn_skipn V rows) at 1.
  rewrite mask_select_app by (rewrite map_length, seq_length, firstn_length; lia).
  rewrite mask_select_row by (rewrite firstn_length; lia).
  rewrite IH by (rewrite ?skipn_length; auto; lia).
  cbn [nth Nat.mul skipn]. f_equal.
  - rewrite firstn_firstn. f_equal. lia.
  - f_equal. rewrite <- seq_shift, map_map. apply map_ext. intros b. cbn [nth].
    change (S b * V) with (V + b * V). now rewrite skipn_add.
Qed.

Lemma valid_rows_full {A} V n (rows : list A) :
  length rows = n * V -> valid_rows (repeat V n) V rows = rows.
Proof.
  unfold valid_rows. rewrite repeat_length.
  revert rows; induction n as [|n IH]; intros rows H; cbn in H.
  - destruct rows; [reflexivity|discriminate].
  - cbn [seq map concat nth repeat Nat.mul skipn].
    transitivity (firstn V rows ++ skipn V rows); [|apply firstn_skipn]. f_equal.
    transitivity (concat (map (fun b => firstn (nth b (repeat V n) 0) (skipn (b * V) (skipn V rows))) (seq 0 n)));
      [|apply IH; rewrite skipn_length; lia].
    rewrite <- seq_shift, map_map. f_equal. apply map_ext. intros b. cbn [nth].
    change (S b * V) with (V + b * V). now rewrite skipn_add.
Qed.

Lemma ids_sizes_true sizes : true_sizes (length sizes) (ids_of_sizes sizes) = sizes.
Proof. rewrite <- block_ids_spec. apply block_ids_true_sizes. Qed.

(** The state right after construction. *)
Record fresh (p : pc) (D : nat) (rows : list point) (ids : list nat) (B : nat) : Prop := {
  f_good : good p;
  f_pts : pts p = rows;
  f_dim : dim p = D;
  f_ids : bids p = ids;
  f_B : bsize p = B;
  f_aabb : paabb p = None }.

Lemma describes_init points ids bs sizes D rows bids B :
  describes points ids bs sizes D rows bids B ->
  exists p, init points ids bs sizes = Ok p /\ fresh p D rows bids B /\
    match points with
    | PN _ t => unflatten p = Some (UPadded (pshape t) (pV t) (true_sizes B bids)) /\
                bshape p = Some (pshape t) /\ segshape p = Some (pshape t) /\
                psizes p = Some (ITensor (pshape t) (true_sizes B bids))
    | _ => unflatten p = None /\ bshape p = None /\ segshape p = None /\
           match sizes with None => psizes p = None | Some s => psizes p = Some s end
    end.
Proof.
  intros H. destruct H as [D rows ids B bs Hl HB HN Hbs|D rows ids B bs Hl HB Hbs|D rows sizes B bs HB Hs Hbs
    |D shape V rows sizes ids bs Hr Hs HV Hbs|D shape V rows ids bs Hr Hbs].
  - assert (EB : (match bs with Some b => b | None => list_max0 ids + 1 end) = B).
    { destruct Hbs as [-> | [-> Hne]]; [reflexivity|].
      pose proof (list_max0_In ids Hne) as Hm. rewrite Forall_forall in HB. specialize (HB _ Hm).
      assert (In (B - 1) ids) as Hb by (apply HN; lia). apply list_max0_ge in Hb. lia. }
    rewrite init_segmented_ids; [|exact Hl|destruct Hbs as [->|[-> ?]]; auto].
    rewrite EB. eexists. split; [reflexivity|]. split; [|cbn; auto].
    constructor; try reflexivity. constructor; cbn; auto; intros; discriminate.
  - unfold init. cbn. rewrite Hl, Nat.eqb_refl. cbn.
    assert (E : exists p, (match bs, ids with None, [] => Err OutOfScope | _, _ =>
        Ok (PC rows D ids (match bs with Some b => b | None => list_max0 ids + 1 end) None None
              (Some (ITensor [B] (true_sizes B ids))) None None (argsort_ids ids)) end) = Ok p /\
        p = PC rows D ids B None None (Some (ITensor [B] (true_sizes B ids))) None None (argsort_ids ids)).
    { destruct Hbs as [-> | (-> & Hpos & Hin)].
      - destruct ids; eexists; split; reflexivity.
      - assert (EB : list_max0 ids + 1 = B).
        { rewrite Forall_forall in HB.
          assert (Hne : ids <> []) by (intros ->; destruct Hin).
          pose proof (HB _ (list_max0_In ids Hne)). apply list_max0_ge in Hin. lia. }
        rewrite EB. destruct ids; [destruct Hin|]. eexists; split; reflexivity. }
    destruct E as (p & E & Ep). exists p. split.
    { rewrite <- E. destruct bs, ids; reflexivity. }
    subst p. split; [|cbn; auto].
    constructor; try reflexivity. constructor; cbn; auto; try (intros; discriminate).
    split; [reflexivity|unfold nprod; cbn; lia].
  - destruct (init_segmented_sizes D rows sizes B bs HB Hs Hbs)
      as (p & E & G & H1 & H2 & H3 & H4 & H5 & H6 & H7 & H8).
    exists p. split; [exact E|]. rewrite block_ids_spec in H2.
    assert (Ha : paabb p = None).
    { unfold init in E. cbn in E.
      destruct (tf_repeat _ sizes); cbn in E; [|discriminate]. now inversion E. }
    split; [now constructor|]. auto.
  - destruct (init_padded_ok D (Padded shape V rows) (Some sizes) bs ids)
      as (p & E & G & H1 & H2 & H3 & H4 & H5 & H6 & H7 & H8); cbn; auto.
    exists p. split; [exact E|]. cbn in *. rewrite block_ids_spec in H2.
    rewrite valid_rows_spec in H1 by (rewrite ?Hs; assumption).
    assert (Hts : true_sizes (nprod shape) (ids_of_sizes sizes) = sizes)
      by (rewrite <- Hs; apply ids_sizes_true).
    assert (Ha : paabb p = None).
    { unfold init in E. cbn in E. unfold init_from_padded in E.
      destruct (negb _); [discriminate|]. destruct (flatten_batch_to_2d _ _); cbn in E; [|discriminate].
      destruct (tf_repeat _ _); cbn in E; [|discriminate]. now inversion E. }
    split; [now constructor|]. rewrite Hts. auto.
  - destruct (init_padded_ok D (Padded shape V rows) None bs ids)
      as (p & E & G & H1 & H2 & H3 & H4 & H5 & H6 & H7 & H8); cbn; auto.
    { apply repeat_length. }
    { apply Forall_forall. intros x Hx. apply repeat_spec in Hx. lia. }
    exists p. split; [exact E|]. cbn in *. rewrite block_ids_spec in H2.
    rewrite valid_rows_spec in H1.
    2: { now rewrite repeat_length. }
    2: { apply Forall_forall. intros x Hx. apply repeat_spec in Hx. lia. }
    rewrite valid_rows_full in H1 by exact Hr.
    assert (Hts : true_sizes (nprod shape) (ids_of_sizes (repeat V (nprod shape))) = repeat V (nprod shape)).
    { rewrite <- (ids_sizes_true (repeat V (nprod shape))) at 2. now rewrite repeat_length. }
    assert (Ha : paabb p = None).
    { unfold init in E. cbn in E. unfold init_from_padded in E.
      destruct (negb _); [discriminate|]. destruct (flatten_batch_to_2d _ _); cbn in E; [|discriminate].
      destruct (tf_repeat _ _); cbn in E; [|discriminate]. now inversion E. }
    split; [now constructor|]. rewrite Hts. auto.
Qed.

(** * Invariant over histories *)

Definition wide_op (B : nat) (ids : list nat) (o : op) : Prop :=
  match o with
  | OpPointsAll (Some v) | OpUnflatten (Some v) => Forall (fun n => n <= v) (true_sizes B ids)
  | _ => True
  end.

Definition unfl_ok (p : pc) : Prop :=
  match unflatten p with Some (USeg (Some v)) => wide_enough p v | _ => True end.

Definition box_of (dev : device) (eps : Q) (p : pc) : result (list point * list point) :=
  match make_aabb dev eps p with Ok a => Ok (amin a, amax a) | Err e => Err e end.

Definition aabb_ok (dev : device) (eps : Q) (p : pc) : Prop :=
  match paabb p with
  | Some a => box_of dev eps p = Ok (amin a, amax a)
  | None => True
  end.

Record inv (dev : device) (eps : Q) (p0 p : pc) : Prop := {
  i_good : good p;
  i_same : same_data p0 p;
  i_aabb : aabb_ok dev eps p }.

Lemma make_aabb_box dev eps p p' :
  same_data p p' -> box_of dev eps p' = box_of dev eps p.
Proof.
  intros (H1&H2&H3&H4&H5). unfold box_of, make_aabb. rewrite H1, H2, H3, H4.
  destruct (unsorted_segment dev (red_min (dim p)) _ _ _); cbn; [|reflexivity].
  destruct (unsorted_segment dev (red_max (dim p)) _ _ _); reflexivity.
Qed.

Lemma paabb_get_sizes p : paabb (fst (get_sizes p)) = paabb p.
Proof.
  unfold get_sizes. destruct (psizes p); [reflexivity|].
  destruct (unique_with_counts _ _). destruct (gather _ _); [|reflexivity].
  destruct (bshape p); [|reflexivity]. destruct (reshape _ _); reflexivity.
Qed.

Lemma paabb_unflatten p m : paabb (fst (get_unflatten p m)) = paabb p.
Proof. unfold get_unflatten. destruct (unflatten p); reflexivity. Qed.

Lemma paabb_apply {A} (z : A) p u d : paabb (fst (apply_unflatten z p u d)) = paabb p.
Proof.
  unfold apply_unflatten. destruct u; [reflexivity|]. destruct (gather d (sidx p)); [|reflexivity].
  pose proof (paabb_get_sizes p) as H. destruct (get_sizes p). exact H.
Qed.

Lemma step_inv dev eps p0 p o : inv dev eps p0 p -> inv dev eps p0 (step dev eps p o).
Proof.
  intros [G S Ha].
  assert (Hgen : forall p', good p' /\ same_data p p' -> paabb p' = paabb p -> inv dev eps p0 p').
  { intros p' [G' S'] E. constructor; [exact G'|eapply same_data_trans; eassumption|].
    unfold aabb_ok in *. rewrite E. destruct (paabb p); [|exact I].
    rewrite (make_aabb_box dev eps p p' S'). exact Ha. }
  destruct o as [id|m| |m|data| |s|f|f rs rp]; cbn [step].
  - now constructor.
  - apply Hgen; [now apply get_points_all_good|]. unfold get_points_all.
    pose proof (paabb_unflatten p m) as H1. destruct (get_unflatten p m) as [p1 u]. cbn in H1.
    rewrite paabb_apply. exact H1.
  - apply Hgen; [now apply get_sizes_keeps_good|apply paabb_get_sizes].
  - apply Hgen; [now apply get_unflatten_good|apply paabb_unflatten].
  - pose proof (get_unflatten_good p None G) as [G1 S1].
    pose proof (paabb_unflatten p None) as H1.
    destruct (get_unflatten p None) as [p1 u]. cbn [fst] in *.
    pose proof (apply_unflatten_good (zero_point (dim p1)) p1 u data G1) as [G2 S2].
    apply Hgen; [split; [exact G2|eapply same_data_trans; eassumption]|]. rewrite paabb_apply. exact H1.
  - pose proof (get_aabb_good dev eps p G) as [G1 S1].
    constructor; [exact G1|eapply same_data_trans; eassumption|].
    unfold aabb_ok in *. rewrite (make_aabb_box dev eps p _ S1).
    unfold get_aabb in *. destruct (paabb p) as [a|] eqn:E; cbn [fst].
    + rewrite E. exact Ha.
    + destruct (make_aabb dev eps p) as [a|e] eqn:Em; cbn.
      * unfold box_of. now rewrite Em.
      * now rewrite E.
  - apply Hgen; [now apply set_batch_shape_good|]. unfold set_batch_shape.
    destruct s as [s|]; [|reflexivity]. destruct (negb _); [reflexivity|]. cbn.
    destruct (psizes p) as [t|]; [|reflexivity]. destruct (reshape t s); reflexivity.
  - unfold flatten_features. destruct f as [t|rows]; [|cbn; now constructor].
    pose proof (get_sizes_keeps_good p G) as H1. pose proof (paabb_get_sizes p) as H2.
    destruct (get_sizes p) as [p1 r]. cbn [fst] in *. now apply Hgen.
  - unfold format_output. destruct rp; [|destruct rs; cbn; now constructor].
    pose proof (get_unflatten_good p None G) as [G1 S1].
    pose proof (paabb_unflatten p None) as H1.
    destruct (get_unflatten p None) as [p1 u]. cbn [fst] in *.
    pose proof (apply_unflatten_good (zero_point (dim p)) p1 u f G1) as [G2 S2].
    pose proof (paabb_apply (zero_point (dim p)) p1 u f) as H2.
    destruct (apply_unflatten (zero_point (dim p)) p1 u f) as [p2 r]. cbn [fst] in *.
    apply Hgen; [split; [exact G2|eapply same_data_trans; eassumption]|]. congruence.
Qed.

Lemma run_inv dev eps p0 p ops : inv dev eps p0 p -> inv dev eps p0 (run dev eps p ops).
Proof.
  unfold run. revert p; induction ops as [|o ops IH]; intros p H; cbn; [exact H|].
  apply IH. now apply step_inv.
Qed.

Lemma unflatten_get_sizes p : unflatten (fst (get_sizes p)) = unflatten p.
Proof.
  unfold get_sizes. destruct (psizes p); [reflexivity|].
  destruct (unique_with_counts _ _). destruct (gather _ _); [|reflexivity].
  destruct (bshape p); [|reflexivity]. destruct (reshape _ _); reflexivity.
Qed.

Lemma unflatten_apply {A} (z : A) p u d : unflatten (fst (apply_unflatten z p u d)) = unflatten p.
Proof.
  unfold apply_unflatten. destruct u; [reflexivity|]. destruct (gather d (sidx p)); [|reflexivity].
  pose proof (unflatten_get_sizes p) as H. destruct (get_sizes p). exact H.
Qed.

Lemma unflatten_get p m :
  unflatten (fst (get_unflatten p m))
  = match unflatten p with Some u => Some u | None => Some (USeg m) end /\
  Some (snd (get_unflatten p m)) = unflatten (fst (get_unflatten p m)).
Proof. unfold get_unflatten. destruct (unflatten p) eqn:E; cbn; now rewrite ?E. Qed.

Lemma step_unflatten dev eps p o :
  unflatten (step dev eps p o)
  = match unflatten p with
    | Some u => Some u
    | None => match request o with Some m => Some (USeg m) | None => None end
    end.
Proof.
  destruct o as [id|m| |m|data| |s|f|f rs rp]; cbn [step request].
  - now destruct (unflatten p).
  - unfold get_points_all. pose proof (unflatten_get p m) as [H _].
    destruct (get_unflatten p m) as [p1 u]. cbn in H. rewrite unflatten_apply. exact H.
  - rewrite unflatten_get_sizes. now destruct (unflatten p).
  - apply unflatten_get.
  - pose proof (unflatten_get p None) as [H _].
    destruct (get_unflatten p None) as [p1 u]. cbn in H. rewrite unflatten_apply. exact H.
  - unfold get_aabb. destruct (paabb p); [cbn; now destruct (unflatten p)|].
    destruct (make_aabb dev eps p); cbn; destruct (unflatten p); reflexivity.
  - assert (E : unflatten (fst (set_batch_shape p s)) = unflatten p).
    { unfold set_batch_shape.
      destruct s as [s|]; [|reflexivity]. destruct (negb _); [reflexivity|]. cbn.
      destruct (psizes p) as [t|]; [|reflexivity]. destruct (reshape t s); reflexivity. }
    rewrite E. now destruct (unflatten p).
  - unfold flatten_features. destruct f as [t|rows]; [|cbn; now destruct (unflatten p)].
    pose proof (unflatten_get_sizes p) as H2. destruct (get_sizes p) as [p1 r]. cbn [fst] in *.
    rewrite H2. now destruct (unflatten p).
  - unfold format_output. destruct rp; [|destruct rs; cbn; now destruct (unflatten p)].
    pose proof (unflatten_get p None) as [H _].
    destruct (get_unflatten p None) as [p1 u]. cbn [fst] in *.
    pose proof (unflatten_apply (zero_point (dim p)) p1 u f) as H2.
    destruct (apply_unflatten (zero_point (dim p)) p1 u f) as [p2 r]. cbn [fst] in *. congruence.
Qed.

Lemma run_unflatten dev eps p ops :
  unflatten (run dev eps p ops)
  = match unflatten p with
    | Some u => Some u
    | None => match first_request ops with Some m => Some (USeg m) | None => None end
    end.
Proof.
  unfold run. revert p; induction ops as [|o ops IH]; intros p; cbn [fold_left first_request].
  - now destruct (unflatten p).
  - rewrite IH, step_unflatten. destruct (unflatten p); [reflexivity|].
    destruct (request o); reflexivity.
Qed.

(** get_points() in terms of the cached closure. *)
Definition closure (p : pc) (m : option nat) : unfl :=
  match unflatten p with Some u => u | None => USeg m end.

Lemma out_shape_set p m : out_shape (fst (get_unflatten p m)) = out_shape p.
Proof. unfold get_unflatten. destruct (unflatten p); reflexivity. Qed.

Lemma get_points_all_spec p m :
  good p -> wide_enough p (unfl_width p (closure p m)) ->
  snd (get_points_all p m)
  = Ok (Padded (unfl_shape p (closure p m)) (unfl_width p (closure p m))
         (padded_layout (zero_point (dim p)) (unfl_width p (closure p m)) (bsize p) (pts p) (bids p))).
Proof.
  intros G HV. unfold get_points_all.
  pose proof (get_unflatten_good p m G) as [G1 S1].
  assert (Eu : snd (get_unflatten p m) = closure p m) by (unfold get_unflatten, closure; now destruct (unflatten p)).
  pose proof (out_shape_set p m) as Eo.
  destruct (get_unflatten p m) as [p1 u] eqn:E. cbn [fst snd] in *. subst u.
  destruct S1 as (H1&H2&H3&H4&H5).
  assert (Hw : unfl_width p1 (closure p m) = unfl_width p (closure p m)).
  { unfold unfl_width. now rewrite H3, H4. }
  assert (Hs : unfl_shape p1 (closure p m) = unfl_shape p (closure p m)).
  { unfold unfl_shape. now rewrite Eo. }
  rewrite apply_unflatten_spec.
  - now rewrite Hw, Hs, H1, H2, H3, H4.
  - exact G1.
  - apply G1.
  - pose proof (g_unfl p G) as Hu. unfold closure. destruct (unflatten p) as [[s V sz|mr]|]; try exact I.
    rewrite H3, H4. tauto.
  - unfold wide_enough in *. now rewrite Hw, H3, H4.
Qed.

Lemma sequence_mask_count_le sizes V : length (filter id (sequence_mask sizes V)) <= sum sizes.
Proof.
  induction sizes as [|n sz IH]; [reflexivity|].
  unfold sequence_mask. cbn [map concat].
  rewrite mask_row, !filter_app, filter_id_repeat_true, filter_id_repeat_false, app_nil_r.
  rewrite app_length, repeat_length. fold (sequence_mask sz V). cbn. unfold sum in IH. lia.
Qed.

Lemma sequence_mask_count_lt sizes V :
  ~ Forall (fun n => n <= V) sizes -> length (filter id (sequence_mask sizes V)) < sum sizes.
Proof.
  induction sizes as [|n sz IH]; intros HF; [exfalso; apply HF; constructor|].
  pose proof (sequence_mask_count_le sz V) as Hle.
  unfold sequence_mask. cbn [map concat].
  rewrite mask_row, !filter_app, filter_id_repeat_true, filter_id_repeat_false, app_nil_r.
  rewrite app_length, repeat_length. fold (sequence_mask sz V).
  change (sum (n :: sz)) with (n + sum sz).
  destruct (le_dec n V) as [Hn|Hn]; [|lia].
  assert (length (filter id (sequence_mask sz V)) < sum sz); [|lia].
  apply IH. intros HF2. apply HF. constructor; assumption.
Qed.

Lemma mask_scatter_err {A} (z : A) m d e : mask_scatter z m d = Err e -> e = InvalidArgument.
Proof.
  revert d e; induction m as [|b m IH]; intros d e H; cbn in H.
  - destruct d; congruence.
  - destruct b.
    + destruct d as [|x d]; [congruence|].
      destruct (mask_scatter z m d) eqn:E; cbn in H; [congruence|]. inversion H; subst. eauto.
    + destruct (mask_scatter z m d) eqn:E; cbn in H; [congruence|]. inversion H; subst. eauto.
Qed.

(** A requested width below the largest size is rejected. *)
Lemma apply_unflatten_narrow {A} (z : A) p v data :
  good p -> length data = length (bids p) -> ~ wide_enough p v ->
  snd (apply_unflatten z p (USeg (Some v)) data) = Err InvalidArgument.
Proof.
  intros G Hl HV. unfold apply_unflatten. rewrite (g_sidx p G).
  rewrite (gather_sorted data (bids p) (bsize p) Hl (g_ids p G)).
  rewrite (get_sizes_good p G). cbn [snd bind]. unfold unflatten_2d_to_batch. cbn [ivals ishape].
  destruct (mask_scatter _ _ _) as [r|e] eqn:E; cbn [bind].
  - exfalso. apply mask_scatter_length in E as [E _].
    rewrite (Permutation_length (elements_perm (bsize p) data (bids p) Hl (g_ids p G))) in E.
    pose proof (sequence_mask_count_lt _ _ HV). rewrite (true_sizes_sum _ _ (g_ids p G)) in H. lia.
  - now apply mask_scatter_err in E as ->.
Qed.

Lemma get_points_all_narrow p m :
  good p -> ~ wide_enough p (unfl_width p (closure p m)) ->
  snd (get_points_all p m) = Err InvalidArgument.
Proof.
  intros G HV. unfold get_points_all.
  pose proof (get_unflatten_good p m G) as [G1 S1].
  assert (Eu : snd (get_unflatten p m) = closure p m) by (unfold get_unflatten, closure; now destruct (unflatten p)).
  destruct (get_unflatten p m) as [p1 u] eqn:E. cbn [fst snd] in *. subst u.
  destruct S1 as (H1&H2&H3&H4&H5).
  assert (Hex : exists v, closure p m = USeg (Some v)).
  { pose proof (g_unfl p G) as Hu. unfold closure in *.
    destruct (unflatten p) as [[s V sz|[v|]]|]; [|eauto| |].
    - exfalso. apply HV. destruct Hu as (-> & _ & Hu & _). exact Hu.
    - exfalso. apply HV, default_width_ok.
    - destruct m as [v|]; [eauto|]. exfalso. apply HV, default_width_ok. }
  destruct Hex as [v Ev]. rewrite Ev in *. apply apply_unflatten_narrow; [exact G1|apply G1|].
  unfold wide_enough in *. cbn [unfl_width] in HV. now rewrite H3, H4.
Qed.

Lemma get_points_all_inv p m o :
  good p -> snd (get_points_all p m) = Ok o ->
  wide_enough p (unfl_width p (closure p m)) /\
  o = Padded (unfl_shape p (closure p m)) (unfl_width p (closure p m))
         (padded_layout (zero_point (dim p)) (unfl_width p (closure p m)) (bsize p) (pts p) (bids p)).
Proof.
  intros G Ho.
  destruct (Forall_dec (fun n => n <= unfl_width p (closure p m))
      (fun n => le_dec n (unfl_width p (closure p m))) (true_sizes (bsize p) (bids p))) as [HF|HF].
  - split; [exact HF|]. rewrite (get_points_all_spec p m G HF) in Ho. now inversion Ho.
  - rewrite (get_points_all_narrow p m G HF) in Ho. discriminate.
Qed.

(** * Theorems *)

(** C01. Padded construction followed by get_points() gives back the valid
    rows at the same positions and zeros elsewhere, in the same shape,
    whatever [batch_ids], [batch_size] and [max_num_points] are passed. *)
Lemma C01_padded_round_trip_proof :
  forall (D : nat) (shape : list nat) (V : nat) (rows : list point) (sizes : list nat)
         (ids : option (list nat)) (bs m : option nat),
    length rows = nprod shape * V -> length sizes = nprod shape ->
    Forall (fun n => n <= V) sizes -> bs = None \/ bs = Some (nprod shape) ->
    exists p out,
      init (PN D (Padded shape V rows)) ids bs (Some (ITensor shape sizes)) = Ok p /\
      snd (get_points_all p m) = Ok out /\
      pshape out = shape /\ pV out = V /\ length (prows out) = length rows /\
      forall b j, b < nprod shape -> j < V ->
        nth (b * V + j) (prows out) [] =
        if j <? nth b sizes 0 then nth (b * V + j) rows [] else repeat 0%Q D.
Proof.
  intros D shape V rows sizes ids bs m Hr Hs HV Hbs.
  destruct (init_padded_ok D (Padded shape V rows) (Some sizes) bs ids)
      as (p & E & G & H1 & H2 & H3 & H4 & H5 & H6 & H7 & H8); cbn; auto.
  cbn in *. exists p.
  unfold get_points_all, get_unflatten. rewrite H8. cbn [apply_unflatten snd].
  unfold unflatten_padded. rewrite H1. unfold mask_rows.
  rewrite mask_scatter_select by (rewrite sequence_mask_length; lia).
  eexists. split; [exact E|]. cbn [bind pshape pV prows]. split; [reflexivity|].
  split; [reflexivity|]. split; [reflexivity|]. split.
  - cbn [prows]. rewrite map_length, combine_length, sequence_mask_length. lia.
  - cbn [prows]. intros b j Hb Hj.
    assert (Hk : b * V + j < length rows).
    { rewrite Hr. assert (S b * V <= nprod shape * V) by (apply Nat.mul_le_mono_r; lia).
      cbn in *. lia. }
    etransitivity; [apply (nth_map_combine _ _ _ _ _ false []); rewrite sequence_mask_length; lia|].
    cbn [fst snd].
    rewrite sequence_mask_nth by lia. rewrite H3. reflexivity.
Qed.

Example C01_padded_round_trip_ex_proof :
  exists p out,
    init (PN 1 (Padded [2] 3 [[1#1];[2#1];[3#1];[4#1];[5#1];[6#1]]))
         None None (Some (ITensor [2] [2;1])) = Ok p /\
    snd (get_points_all p None) = Ok out /\
    prows out = [[1#1];[2#1];[0#1];[4#1];[0#1];[0#1]].
Proof. eexists. eexists. split; [reflexivity|]. split; reflexivity. Qed.

(** C02. Any two consistent descriptions of the same batch give clouds that
    agree in points, batch ids, batch size, dimension, sizes, and padded
    retrieval of a common width. *)
Lemma C02_constructions_agree_proof :
  forall pa1 ia1 bs1 sz1 pa2 ia2 bs2 sz2 D rows ids B,
    describes pa1 ia1 bs1 sz1 D rows ids B ->
    describes pa2 ia2 bs2 sz2 D rows ids B ->
    exists p1 p2,
      init pa1 ia1 bs1 sz1 = Ok p1 /\ init pa2 ia2 bs2 sz2 = Ok p2 /\
      pts p1 = pts p2 /\ bids p1 = bids p2 /\ bsize p1 = bsize p2 /\ dim p1 = dim p2 /\
      sidx p1 = sidx p2 /\
      (forall id, get_points_id p1 (IdInt id) = get_points_id p2 (IdInt id)) /\
      (exists t1 t2, snd (get_sizes p1) = Ok t1 /\ snd (get_sizes p2) = Ok t2 /\ ivals t1 = ivals t2) /\
      (forall m1 m2 o1 o2,
        snd (get_points_all p1 m1) = Ok o1 -> snd (get_points_all p2 m2) = Ok o2 ->
        pV o1 = pV o2 -> prows o1 = prows o2).
Proof.
  intros pa1 ia1 bs1 sz1 pa2 ia2 bs2 sz2 D rows ids B H1 H2.
  destruct (describes_init _ _ _ _ _ _ _ _ H1) as (p1 & E1 & [G1 A1 A2 A3 A4 A5] & _).
  destruct (describes_init _ _ _ _ _ _ _ _ H2) as (p2 & E2 & [G2 B1 B2 B3 B4 B5] & _).
  exists p1, p2. split; [exact E1|]. split; [exact E2|].
  split; [congruence|]. split; [congruence|]. split; [congruence|]. split; [congruence|].
  split; [rewrite (g_sidx p1 G1), (g_sidx p2 G2); congruence|].
  split.
  { intros id. unfold get_points_id. now rewrite A1, A3, A4, B1, B3, B4. }
  split.
  { rewrite (get_sizes_good p1 G1), (get_sizes_good p2 G2). cbn.
    eexists. eexists. split; [reflexivity|]. split; [reflexivity|]. cbn. congruence. }
  intros m1 m2 o1 o2 Ho1 Ho2 HV.
  apply get_points_all_inv in Ho1 as [_ ->]; [|exact G1].
  apply get_points_all_inv in Ho2 as [_ ->]; [|exact G2].
  cbn [pV prows] in *. rewrite HV. congruence.
Qed.

Example C02_constructions_agree_ex_proof :
  let rows := [[1#1];[2#1];[3#1]] in
  describes (PN 1 (Padded [2;1] 2 [[1#1];[2#1];[3#1];[9#1]])) None None (Some (ITensor [2;1] [2;1]))
            1 rows [0;0;1] 2 /\
  describes (P2 1 rows) None None (Some (ITensor [2] [2;1])) 1 rows [0;0;1] 2 /\
  describes (P2 1 rows) (Some [0;0;1]) None None 1 rows [0;0;1] 2.
Proof.
  cbv zeta. split; [|split].
  - apply (by_padding 1 [2;1] 2 [[1#1];[2#1];[3#1];[9#1]] [2;1]); try reflexivity; [|now left].
    repeat constructor.
  - apply (by_sizes 1 _ [2;1]); try reflexivity. now left.
  - apply by_ids; try reflexivity.
    + repeat constructor.
    + intros b Hb. destruct b as [|[|b]]; cbn; auto. lia.
    + right. split; [reflexivity|discriminate].
Qed.

(** C03. Points given in any batch order: the padded retrieval holds, per
    element, its points in original order followed by zeros; and the elements
    together are the given points. *)
Lemma C03_unsorted_round_trip_proof :
  forall (D B : nat) (rows : list point) (ids : list nat) (bs m : option nat),
    length rows = length ids -> Forall (fun b => b < B) ids -> all_nonempty B ids ->
    bs = Some B \/ bs = None /\ ids <> [] ->
    (forall v, m = Some v -> Forall (fun n => n <= v) (true_sizes B ids)) ->
    Permutation (concat (map (fun b => element b rows ids) (seq 0 B))) rows /\
    exists p out,
      init (P2 D rows) (Some ids) bs None = Ok p /\
      snd (get_points_all p m) = Ok out /\
      pshape out = [B] /\
      pV out = match m with Some v => v | None => list_max (true_sizes B ids) end /\
      prows out = concat (map (fun b => zero_padded (repeat 0%Q D) (pV out) (element b rows ids)) (seq 0 B)).
Proof.
  intros D B rows ids bs m Hl HB HN Hbs Hm. split; [now apply elements_perm|].
  destruct (describes_init _ _ _ _ _ _ _ _ (by_ids D rows ids B bs Hl HB HN Hbs))
    as (p & E & [G A1 A2 A3 A4 A5] & Hu & Hb & _ & Hs).
  exists p. eexists. split; [exact E|].
  assert (Hc : closure p m = USeg m) by (unfold closure; now rewrite Hu).
  rewrite get_points_all_spec; [|exact G|].
  - rewrite Hc. split; [reflexivity|]. cbn [pshape pV prows unfl_shape].
    split; [unfold out_shape; now rewrite Hs, Hb, A4|].
    split; [cbn [unfl_width]; rewrite A3, A4; destruct m; reflexivity|].
    rewrite A1, A2, A3, A4. reflexivity.
  - rewrite Hc. unfold wide_enough. rewrite A3, A4. destruct m as [v|]; cbn [unfl_width].
    + now apply Hm.
    + rewrite A3, A4. apply Forall_forall. intros x Hx. now apply list_max0_ge.
Qed.

Example C03_unsorted_round_trip_ex_proof :
  exists p out,
    init (P2 1 [[1#1];[2#1];[3#1];[4#1]]) (Some [1;0;1;1]) None None = Ok p /\
    snd (get_points_all p None) = Ok out /\
    pshape out = [2] /\ prows out = [[2#1];[0#1];[0#1];[1#1];[3#1];[4#1]].
Proof. eexists. eexists. split; [reflexivity|]. split; [reflexivity|]. split; reflexivity. Qed.

(** C03, other branch: a requested width below the largest element is an error. *)
Lemma C03_too_narrow_proof :
  forall (D B : nat) (rows : list point) (ids : list nat) (v : nat),
    length rows = length ids -> Forall (fun b => b < B) ids -> all_nonempty B ids ->
    (exists b, b < B /\ v < count_occ Nat.eq_dec ids b) ->
    exists p, init (P2 D rows) (Some ids) (Some B) None = Ok p /\
              snd (get_points_all p (Some v)) = Err InvalidArgument.
Proof.
  intros D B rows ids v Hl HB HN (b & Hb & Hv).
  destruct (describes_init _ _ _ _ _ _ _ _ (by_ids D rows ids B (Some B) Hl HB HN (or_introl eq_refl)))
    as (p & E & [G A1 A2 A3 A4 A5] & Hu & _).
  exists p. split; [exact E|]. apply get_points_all_narrow; [exact G|].
  unfold closure. rewrite Hu. cbn [unfl_width]. unfold wide_enough. rewrite A3, A4.
  intros HF. rewrite Forall_forall in HF.
  specialize (HF (count_occ Nat.eq_dec ids b)).
  assert (count_occ Nat.eq_dec ids b <= v); [|lia]. apply HF.
  unfold true_sizes. apply in_map_iff. exists b. split; [reflexivity|apply in_seq; lia].
Qed.

Example C03_too_narrow_ex_proof :
  Forall (fun b => b < 2) [1;0;1] /\ all_nonempty 2 [1;0;1] /\
  exists b, b < 2 /\ 1 < count_occ Nat.eq_dec [1;0;1] b.
Proof.
  split; [repeat constructor|]. split.
  - intros b Hb. destruct b as [|[|b]]; cbn; auto. lia.
  - exists 1. cbn. lia.
Qed.

(** C04, the part that holds: when no element is empty get_sizes() returns
    the number of points of every element; the entries sum to the number of
    points. *)
Lemma C04_sizes_partial_proof :
  forall (D B : nat) (rows : list point) (ids : list nat),
    length rows = length ids -> Forall (fun b => b < B) ids -> all_nonempty B ids ->
    exists p, init (P2 D rows) (Some ids) (Some B) None = Ok p /\
      snd (get_sizes p) = Ok (ITensor [B] (map (fun b => count_occ Nat.eq_dec ids b) (seq 0 B))) /\
      sum (map (fun b => count_occ Nat.eq_dec ids b) (seq 0 B)) = length rows.
Proof.
  intros D B rows ids Hl HB HN.
  destruct (describes_init _ _ _ _ _ _ _ _ (by_ids D rows ids B (Some B) Hl HB HN (or_introl eq_refl)))
    as (p & E & [G A1 A2 A3 A4 A5] & Hu & Hb & _ & Hs).
  exists p. split; [exact E|]. split.
  - rewrite (get_sizes_good p G). cbn. unfold out_shape. now rewrite Hs, Hb, A3, A4.
  - rewrite Hl. now apply true_sizes_sum.
Qed.

Example C04_sizes_partial_ex_proof :
  Forall (fun b => b < 3) [2;0;1;2] /\ all_nonempty 3 [2;0;1;2].
Proof.
  split; [repeat constructor|]. intros b Hb. destruct b as [|[|[|b]]]; cbn; auto. lia.
Qed.

(** C04, what the code computes in general: the sizes of the non-empty
    elements only. It is correct exactly when no element is empty. *)
Lemma C04_sizes_exact_proof :
  forall (D B : nat) (rows : list point) (ids : list nat),
    length rows = length ids -> Forall (fun b => b < B) ids ->
    exists p t, init (P2 D rows) (Some ids) (Some B) None = Ok p /\
      snd (get_sizes p) = Ok t /\
      ivals t = filter (fun n => negb (n =? 0)) (map (fun b => count_occ Nat.eq_dec ids b) (seq 0 B)) /\
      (ivals t = map (fun b => count_occ Nat.eq_dec ids b) (seq 0 B) <-> all_nonempty B ids).
Proof.
  intros D B rows ids Hl HB. rewrite init_segmented_ids by (auto; exact I).
  eexists. eexists. split; [reflexivity|]. unfold get_sizes. cbn [psizes bids bshape].
  pose proof (counts_sorted ids B HB) as Hc.
  destruct (unique_with_counts Nat.eqb ids) as [u c]. cbn [fst snd] in Hc. rewrite Hc. cbn [snd].
  split; [reflexivity|]. cbn [ivals]. split; [reflexivity|]. split.
  - intros H. apply nonempty_sizes_inv. unfold nonempty_sizes, true_sizes.
    refine (eq_trans (f_equal (@length _) H) _). now rewrite map_length, seq_length.
  - intros H. exact (nonempty_sizes_all B ids H).
Qed.

Example C04_sizes_exact_ex_proof :
  Forall (fun b => b < 3) [2;0;2] /\ ~ all_nonempty 3 [2;0;2].
Proof.
  split; [repeat constructor|]. intros H. specialize (H 1 ltac:(lia)). cbn in H. lia.
Qed.

(** C04 refuted: with an empty element in the batch get_sizes() drops it. *)
Lemma C04_sizes_refuted_proof :
  exists (D B : nat) (rows : list point) (ids : list nat) p t,
    length rows = length ids /\ Forall (fun b => b < B) ids /\
    init (P2 D rows) (Some ids) (Some B) None = Ok p /\
    snd (get_sizes p) = Ok t /\
    length (ivals t) <> B /\ ivals t <> map (fun b => count_occ Nat.eq_dec ids b) (seq 0 B).
Proof.
  exists 1, 3, [[1#1];[2#1]], [0;2].
  eexists. eexists. split; [reflexivity|]. split; [repeat constructor|]. split; [reflexivity|].
  split; [reflexivity|]. cbn. split; [lia|discriminate].
Qed.

(** C04 consequence: with a batch shape set, such a cloud cannot report its
    sizes or be converted to padded form at all. *)
Lemma C04_sizes_shape_refuted_proof :
  exists (D B : nat) (rows : list point) (ids : list nat) p p',
    init (P2 D rows) (Some ids) (Some B) None = Ok p /\
    set_batch_shape p (Some [B]) = (p', Ok tt) /\
    snd (get_sizes p') = Err InvalidArgument /\
    snd (get_points_all p' None) = Err InvalidArgument.
Proof.
  exists 1, 3, [[1#1];[2#1]], [0;2].
  eexists. eexists. split; [reflexivity|]. split; [reflexivity|]. split; reflexivity.
Qed.

(** C05. get_points(id) for an id in range: exactly the points of that
    element, in order; over all ids the results partition the cloud; ids
    above the batch size raise IndexError. *)
Lemma C05_get_points_id_partial_proof :
  forall pa ia bs sz D rows ids B,
    describes pa ia bs sz D rows ids B ->
    exists p, init pa ia bs sz = Ok p /\
      (forall b, b < B -> get_points_id p (IdInt (Z.of_nat b)) = Ok (element b rows ids)) /\
      (forall i, (Z.of_nat B < i)%Z -> get_points_id p (IdInt i) = Err IndexError) /\
      Permutation (concat (map (fun b => element b rows ids) (seq 0 B))) rows.
Proof.
  intros pa ia bs sz D rows ids B H.
  destruct (describes_init _ _ _ _ _ _ _ _ H) as (p & E & [G A1 A2 A3 A4 A5] & _).
  exists p. split; [exact E|]. split; [|split].
  - intros b Hb. rewrite get_points_int; [|apply G|rewrite A4; lia].
    now rewrite Nat2Z.id, A1, A3.
  - intros i Hi. apply get_points_int_big. now rewrite A4.
  - rewrite <- A1, <- A3, <- A4. apply elements_perm; apply G.
Qed.

Example C05_get_points_id_partial_ex_proof :
  describes (P2 1 [[1#1];[2#1];[3#1]]) (Some [1;0;1]) None None 1 [[1#1];[2#1];[3#1]] [1;0;1] 2.
Proof.
  apply by_ids; try reflexivity.
  - repeat constructor.
  - intros b Hb. destruct b as [|[|b]]; cbn; auto. lia.
  - right. split; [reflexivity|discriminate].
Qed.

(** C05 refuted: id = batch_size and negative ids are accepted and give an
    empty result, for every consistent cloud. *)
Lemma C05_get_points_id_refuted_proof :
  forall pa ia bs sz D rows ids B,
    describes pa ia bs sz D rows ids B ->
    exists p, init pa ia bs sz = Ok p /\
      get_points_id p (IdInt (Z.of_nat B)) = Ok [] /\
      get_points_id p (IdInt (-1)) = Ok [].
Proof.
  intros pa ia bs sz D rows ids B H.
  destruct (describes_init _ _ _ _ _ _ _ _ H) as (p & E & [G A1 A2 A3 A4 A5] & _).
  exists p. split; [exact E|]. split.
  - rewrite get_points_int; [|apply G|rewrite A4; lia].
    rewrite Nat2Z.id, A1, A3. f_equal. unfold element.
    rewrite filter_none; [reflexivity|]. intros [a b] Hin. cbn. apply in_combine_r in Hin.
    pose proof (g_ids p G) as HF. rewrite A3, A4, Forall_forall in HF. specialize (HF b Hin).
    apply Nat.eqb_neq. lia.
  - apply get_points_int_neg; [apply G|lia].
Qed.

Example C05_get_points_id_refuted_ex_proof :
  describes (P2 1 [[1#1];[2#1];[3#1]]) (Some [1;0;1]) None None 1 [[1#1];[2#1];[3#1]] [1;0;1] 2.
Proof. exact C05_get_points_id_partial_ex_proof. Qed.

(** C06. After any history of method calls (failing ones included): points,
    ids and batch size are unchanged, get_sizes() reports the true sizes,
    get_points(id) is unaffected, the bounding box is the one of a fresh cloud,
    and get_points() yields the true layout at the width of the first request. *)
Lemma C06_history_partial_proof :
  forall pa ia bs sz D rows ids B dev eps ops,
    describes pa ia bs sz D rows ids B ->
    exists p, init pa ia bs sz = Ok p /\
      let q := run dev eps p ops in
      pts q = rows /\ bids q = ids /\ bsize q = B /\ dim q = D /\
      (exists t, snd (get_sizes q) = Ok t /\ ivals t = true_sizes B ids /\ nprod (ishape t) = B) /\
      (forall i, get_points_id q (IdInt i) = get_points_id p (IdInt i)) /\
      (forall a, snd (get_aabb dev eps q) = Ok a ->
         exists a0, snd (get_aabb dev eps p) = Ok a0 /\ amin a = amin a0 /\ amax a = amax a0) /\
      (forall m o, snd (get_points_all q m) = Ok o ->
         nprod (pshape o) = B /\
         prows o = padded_layout (repeat 0%Q D) (pV o) B rows ids) /\
      (forall m,
         Forall (fun o => match o with OpPointsAll (Some v) | OpUnflatten (Some v) =>
                            Forall (fun n => n <= v) (true_sizes B ids) | _ => True end)
                (ops ++ [OpPointsAll m]) ->
         exists o, snd (get_points_all q m) = Ok o /\
           (pV o = match pa with
                   | PN _ t => pV t
                   | _ => match first_request (ops ++ [OpPointsAll m]) with
                          | Some (Some v) => v
                          | _ => list_max (true_sizes B ids)
                          end
                   end)).
Proof.
  intros pa ia bs sz D rows ids B dev eps ops H.
  destruct (describes_init _ _ _ _ _ _ _ _ H) as (p & E & [G A1 A2 A3 A4 A5] & Hu).
  exists p. split; [exact E|].
  assert (I0 : inv dev eps p p).
  { constructor; [exact G|apply same_data_refl|]. unfold aabb_ok. now rewrite A5. }
  pose proof (run_inv dev eps p p ops I0) as [Gq Sq Aq].
  pose proof (run_unflatten dev eps p ops) as Uq.
  set (q := run dev eps p ops) in *.
  pose proof Sq as (S1&S2&S3&S4&S5).
  cbv zeta. split; [congruence|]. split; [congruence|]. split; [congruence|]. split; [congruence|].
  split; [|split; [|split; [|split]]].
  - rewrite (get_sizes_good q Gq). eexists. split; [reflexivity|]. cbn.
    rewrite S3, S4, A3, A4. split; [reflexivity|]. rewrite <- A4, <- S4. now apply out_shape_prod.
  - intros i. unfold get_points_id. now rewrite S1, S3, S4.
  - intros a Ha. unfold get_aabb. rewrite A5.
    assert (Hb : box_of dev eps p = Ok (amin a, amax a)).
    { rewrite <- (make_aabb_box dev eps p q Sq). unfold aabb_ok in Aq. unfold get_aabb in Ha.
      destruct (paabb q) as [a1|]; [cbn in Ha; inversion Ha; subst; exact Aq|].
      unfold box_of. destruct (make_aabb dev eps q); cbn in Ha; [|discriminate].
      inversion Ha. reflexivity. }
    unfold box_of in Hb. destruct (make_aabb dev eps p) as [a0|]; [|discriminate].
    exists a0. inversion Hb. cbn. auto.
  - intros m o Ho. apply get_points_all_inv in Ho as [HV ->]; [|exact Gq]. cbn [pshape pV prows].
    split; [|now rewrite S1, S2, S3, S4, A1, A2, A3, A4].
    rewrite <- A4, <- S4. unfold unfl_shape, closure. pose proof (g_unfl q Gq) as Hg.
    destruct (unflatten q) as [[s V z|mr]|]; [apply Hg|now apply out_shape_prod|now apply out_shape_prod].
  - intros m HW.
    assert (Hreq : forall v, first_request (ops ++ [OpPointsAll m]) = Some (Some v) ->
      Forall (fun n => n <= v) (true_sizes B ids)).
    { clear -HW. induction (ops ++ [OpPointsAll m]) as [|o l IH]; intros v Hv; [discriminate|].
      inversion HW as [|? ? Ho Hl]; subst. cbn [first_request] in Hv.
      destruct o as [i|mm| |mm|dd| |ss|ff|ff rs [|]]; cbn [request] in Hv; try (now apply IH);
        try discriminate; inversion Hv; subst; exact Ho. }
    assert (Hcl : closure q m = match unflatten p with
       | Some u => u
       | None => match first_request (ops ++ [OpPointsAll m]) with Some x => USeg x | None => USeg m end end).
    { unfold closure. rewrite Uq. destruct (unflatten p); [reflexivity|].
      assert (Ef : first_request (ops ++ [OpPointsAll m])
        = match first_request ops with Some x => Some x | None => Some m end).
      { clear. induction ops as [|o l IH]; [reflexivity|]. cbn [app first_request].
        destruct (request o); [reflexivity|exact IH]. }
      rewrite Ef. destruct (first_request ops); reflexivity. }
    assert (Ef2 : first_request (ops ++ [OpPointsAll m]) <> None).
    { clear. induction ops as [|o l IH]; [discriminate|]. cbn [app first_request].
      destruct (request o); [discriminate|exact IH]. }
    assert (Hw : wide_enough q (unfl_width q (closure q m))).
    { rewrite Hcl. unfold wide_enough. rewrite S3, S4, A3, A4.
      pose proof (g_unfl p G) as Hg. destruct (unflatten p) as [[s V z|mr]|] eqn:Eup.
      - cbn [unfl_width]. destruct Hg as (Hz & _ & Hg & _). rewrite Hz, A3, A4 in Hg. exact Hg.
      - exfalso. destruct pa; destruct Hu as [Hu _]; discriminate.
      - destruct (first_request (ops ++ [OpPointsAll m])) as [[v|]|]; [|..|congruence]; cbn [unfl_width].
        + now apply Hreq.
        + rewrite S3, S4, A3, A4. apply Forall_forall. intros x Hx. now apply list_max0_ge. }
    rewrite (get_points_all_spec q m Gq Hw). eexists. split; [reflexivity|]. cbn [pV].
    rewrite Hcl. destruct pa as [n|D' r'|D' t]; destruct Hu as [Hu Hu']; rewrite Hu; cbn [unfl_width].
    + destruct (first_request (ops ++ [OpPointsAll m])) as [[v|]|]; [reflexivity| |congruence].
      cbn [unfl_width]. now rewrite S3, S4, A3, A4.
    + destruct (first_request (ops ++ [OpPointsAll m])) as [[v|]|]; [reflexivity| |congruence].
      cbn [unfl_width]. now rewrite S3, S4, A3, A4.
    + reflexivity.
Qed.

Example C06_history_partial_ex_proof :
  describes (P2 1 [[1#1];[2#1];[3#1]]) (Some [1;0;1]) None None 1 [[1#1];[2#1];[3#1]] [1;0;1] 2 /\
  Forall (fun o => match o with OpPointsAll (Some v) | OpUnflatten (Some v) =>
                            Forall (fun n => n <= v) (true_sizes 2 [1;0;1]) | _ => True end)
    ([OpSizes; OpPointsAll (Some 4); OpSetShape (Some [1;2]); OpAABB] ++ [OpPointsAll None]).
Proof.
  split; [exact C05_get_points_id_partial_ex_proof|]. repeat constructor.
Qed.

(** C06 refuted: the width of get_points(max_num_points) depends on earlier
    calls. *)
Lemma C06_history_refuted_proof :
  exists (rows : list point) (ids : list nat) p p' o o',
    init (P2 1 rows) (Some ids) None None = Ok p /\
    get_points_all p None = (p', Ok o) /\
    snd (get_points_all p' (Some 5)) = Ok o' /\ pV o' <> 5 /\
    (exists o'', snd (get_points_all p (Some 5)) = Ok o'' /\ pV o'' = 5).
Proof.
  exists [[1#1];[2#1];[3#1]], [1;0;1]. do 4 eexists.
  split; [reflexivity|]. split; [reflexivity|]. split; [reflexivity|]. split; [cbn; lia|].
  eexists. split; reflexivity.
Qed.

(** C06 refuted for padded clouds: max_num_points is ignored, and so is a
    batch shape set later. *)
Lemma C06_padded_width_refuted_proof :
  exists (t : padded point) p p' o o',
    init (PN 1 t) None None None = Ok p /\
    snd (get_points_all p (Some 5)) = Ok o /\ pV o <> 5 /\
    set_batch_shape p (Some [2;1]) = (p', Ok tt) /\
    snd (get_points_all p' None) = Ok o' /\ pshape o' <> [2;1].
Proof.
  exists (Padded [2] 1 [[1#1];[2#1]]). do 4 eexists.
  split; [reflexivity|]. split; [reflexivity|]. split; [cbn; lia|]. split; [reflexivity|].
  split; [reflexivity|]. cbn. discriminate.
Qed.

(** C07. set_batch_shape accepts exactly the shapes whose product is the
    batch size, afterwards multi-indices address elements in row-major order,
    out-of-range ones are rejected, and the sizes have that shape. *)
Lemma C07_set_batch_shape_proof :
  forall pa ia bs sz D rows ids B dev eps ops (s : list nat),
    describes pa ia bs sz D rows ids B ->
    exists p, init pa ia bs sz = Ok p /\
      let q := run dev eps p ops in
      (snd (set_batch_shape q (Some s)) = Ok tt <-> fold_right Nat.mul 1 s = B) /\
      (fold_right Nat.mul 1 s <> B -> set_batch_shape q (Some s) = (q, Err InvalidArgument)) /\
      (fold_right Nat.mul 1 s = B ->
       let q' := fst (set_batch_shape q (Some s)) in
       snd (get_sizes q') = Ok (ITensor s (true_sizes B ids)) /\
       (forall idx, in_shape s idx ->
          get_points_id q' (IdMulti (map Z.of_nat idx)) = Ok (element (row_major s idx) rows ids)) /\
       (forall idx, length idx = length s -> ~ in_shape s idx ->
          get_points_id q' (IdMulti (map Z.of_nat idx)) = Err InvalidArgument)).
Proof.
  intros pa ia bs sz D rows ids B dev eps ops s H.
  destruct (describes_init _ _ _ _ _ _ _ _ H) as (p & E & [G A1 A2 A3 A4 A5] & Hu).
  exists p. split; [exact E|].
  assert (I0 : inv dev eps p p).
  { constructor; [exact G|apply same_data_refl|]. unfold aabb_ok. now rewrite A5. }
  pose proof (run_inv dev eps p p ops I0) as [Gq Sq Aq].
  set (q := run dev eps p ops) in *. pose proof Sq as (S1&S2&S3&S4&S5).
  cbv zeta. change (fold_right Nat.mul 1 s) with (nprod s).
  assert (Hno : nprod s <> B -> set_batch_shape q (Some s) = (q, Err InvalidArgument)).
  { intros Hn. unfold set_batch_shape. rewrite S4, A4.
    destruct (Nat.eqb_spec (nprod s) B); [congruence|reflexivity]. }
  assert (Hyes : nprod s = B -> snd (set_batch_shape q (Some s)) = Ok tt).
  { intros Hy. unfold set_batch_shape. rewrite S4, A4, Hy, Nat.eqb_refl. cbn [negb psizes set_shapes].
    pose proof (g_sizes q Gq) as Hs. destruct (psizes q) as [t|]; [|reflexivity].
    unfold reshape. destruct Hs as [Hv _]. rewrite Hv, true_sizes_length, S4, A4, Hy, Nat.eqb_refl. reflexivity. }
  split; [split; [|exact Hyes]|split; [exact Hno|]].
  - intros Ho. destruct (Nat.eq_dec (nprod s) B); [assumption|]. rewrite Hno in Ho by assumption. discriminate.
  - intros Hy. pose proof (set_batch_shape_good q (Some s) Gq) as [Gn Sn].
    assert (Hbs : bshape (fst (set_batch_shape q (Some s))) = Some s).
    { unfold set_batch_shape. rewrite S4, A4, Hy, Nat.eqb_refl. cbn [negb psizes set_shapes].
      destruct (psizes q) as [t|]; [|reflexivity]. destruct (reshape t s); reflexivity. }
    set (q' := fst (set_batch_shape q (Some s))) in *.
    destruct Sn as (N1&N2&N3&N4&N5).
    split; [|split].
    + rewrite (get_sizes_good q' Gn). cbn [snd]. do 2 f_equal; [|congruence].
      unfold out_shape. destruct (psizes q') as [t|] eqn:Et; [now apply (g_bsizes q' Gn)|now rewrite Hbs].
    + intros idx Hi. unfold get_points_id. rewrite (g_bseg q' Gn s Hbs).
      rewrite (segment_id_row_major s idx 0 Hi). cbn [bind Nat.mul Nat.add].
      pose proof (row_major_lt s idx Hi).
      pose proof (get_points_int q' (Z.of_nat (row_major s idx)) (g_len q' Gn)) as Hp.
      unfold get_points_id in Hp. cbn [bind] in Hp. rewrite Hp.
      * rewrite Nat2Z.id. do 2 f_equal; congruence.
      * rewrite N4, S4, A4. lia.
    + intros idx Hl Hn. unfold get_points_id. rewrite (g_bseg q' Gn s Hbs).
      rewrite segment_id_out; [reflexivity|now symmetry|exact Hn].
Qed.

Example C07_set_batch_shape_ex_proof :
  describes (P2 1 [[1#1];[2#1];[3#1];[4#1]]) None None (Some (ITensor [4] [1;1;1;1]))
     1 [[1#1];[2#1];[3#1];[4#1]] [0;1;2;3] 4 /\
  fold_right Nat.mul 1 [2;2] = 4 /\ in_shape [2;2] [1;0] /\ row_major [2;2] [1;0] = 2.
Proof.
  split; [|split; [reflexivity|split; [|reflexivity]]].
  - apply (by_sizes 1 _ [1;1;1;1]); try reflexivity. now left.
  - repeat constructor.
Qed.

(** C08. The decision table of the constructor: which exception each
    malformed input gives; every consistent input is accepted. *)
Lemma C08_validation_partial_proof :
  (forall n ids bs sz, init (P1 n) ids bs sz = Err ValueError) /\
  (forall D rows bs, init (P2 D rows) None bs None = Err ValueError) /\
  (forall D rows ids bs sz, length rows <> length ids ->
     init (P2 D rows) (Some ids) bs sz = Err AssertionError) /\
  (forall D t ids bs s, ishape s <> pshape t -> (bs = None \/ bs = Some (nprod (pshape t))) ->
     init (PN D t) ids bs (Some s) = Err ValueError) /\
  (forall D t ids b sz, b <> nprod (pshape t) ->
     init (PN D t) ids (Some b) sz = Err InvalidArgument) /\
  (forall pa ia bs sz D rows ids B, describes pa ia bs sz D rows ids B ->
     exists p, init pa ia bs sz = Ok p /\ pts p = rows /\ bids p = ids /\ bsize p = B /\ dim p = D).
Proof.
  split; [|split; [|split; [|split; [|split]]]].
  - intros. reflexivity.
  - intros. reflexivity.
  - intros D rows ids bs sz Hn. unfold init. cbn.
    destruct (Nat.eqb_spec (length rows) (length ids)); [congruence|].
    destruct sz; reflexivity.
  - intros D t ids bs s Hn Hbs. unfold init. cbn [check_valid_point_cloud_input bind].
    unfold init_from_padded.
    replace (match bs with Some b => b | None => nprod (pshape t) end) with (nprod (pshape t))
      by (destruct Hbs as [-> | ->]; reflexivity).
    rewrite Nat.eqb_refl. cbn [negb]. unfold flatten_batch_to_2d.
    destruct (list_eqb Nat.eqb (ishape s) (pshape t)) eqn:El; [|reflexivity].
    apply list_eqb_eq in El. congruence.
  - intros D t ids b sz Hn. unfold init. cbn [check_valid_point_cloud_input bind].
    unfold init_from_padded. destruct (Nat.eqb_spec b (nprod (pshape t))); [congruence|reflexivity].
  - intros pa ia bs sz D rows ids B H.
    destruct (describes_init _ _ _ _ _ _ _ _ H) as (p & E & [G A1 A2 A3 A4 A5] & _).
    exists p. auto.
Qed.

Example C08_validation_partial_ex_proof :
  length [[1#1];[2#1]] <> length [0] /\
  describes (P2 1 [[1#1];[2#1]]) None (Some 2) (Some (ITensor [2] [1;1])) 1 [[1#1];[2#1]] [0;1] 2.
Proof.
  split; [cbn; lia|]. apply (by_sizes 1 _ [1;1]); try reflexivity. now right.
Qed.

(** C08 refuted: sizes that do not sum to the number of points, and sizes
    beyond the padding width, are accepted; the resulting cloud has more batch
    ids than points. *)
Lemma C08_validation_refuted_proof :
  (exists rows sizes p, sum sizes <> length rows /\
     init (P2 1 rows) None None (Some (ITensor [length sizes] sizes)) = Ok p /\
     length (bids p) <> length (pts p)) /\
  (exists V rows sizes p, ~ Forall (fun n => n <= V) sizes /\
     init (PN 1 (Padded [length sizes] V rows)) None None (Some (ITensor [length sizes] sizes)) = Ok p /\
     length (bids p) <> length (pts p)).
Proof.
  split.
  - exists [[1#1];[2#1];[3#1]], [1;4]. eexists. split; [cbn; lia|]. split; [reflexivity|]. vm_compute. discriminate.
  - exists 1, [[1#1];[2#1]], [1;2]. eexists. split.
    + intros H. inversion H as [|? ? _ H2]; subst. inversion H2; lia.
    + split; [reflexivity|]. vm_compute. discriminate.
Qed.

(** C09. Padded features are flattened so that row i belongs to point i, for
    any order of batch ids and after any history of calls. *)
Lemma C09_flatten_features_proof :
  forall (A : Type) (d : A) pa ia bs sz D rows ids B dev eps ops (t : padded A),
    describes pa ia bs sz D rows ids B ->
    exists p, init pa ia bs sz = Ok p /\
      let q := run dev eps p ops in
      forall shape, (exists s, snd (get_sizes q) = Ok s /\ ishape s = shape) ->
      pshape t = shape -> length (prows t) = B * pV t ->
      Forall (fun n => n <= pV t) (true_sizes B ids) ->
      exists f, snd (flatten_features (inl t) q) = Ok f /\ length f = length rows /\
        forall i, i < length rows ->
          nth i f d = nth (nth i ids 0 * pV t + rank i ids) (prows t) d.
Proof.
  intros A d pa ia bs sz D rows ids B dev eps ops t H.
  destruct (describes_init _ _ _ _ _ _ _ _ H) as (p & E & [G A1 A2 A3 A4 A5] & Hu).
  exists p. split; [exact E|].
  assert (I0 : inv dev eps p p).
  { constructor; [exact G|apply same_data_refl|]. unfold aabb_ok. now rewrite A5. }
  pose proof (run_inv dev eps p p ops I0) as [Gq Sq Aq].
  set (q := run dev eps p ops) in *. pose proof Sq as (S1&S2&S3&S4&S5).
  cbv zeta. intros shape (s & Hs & Hsh) Ht Hr HV.
  rewrite (get_sizes_good q Gq) in Hs. inversion Hs; subst s. cbn in Hsh.
  assert (Hlen : length rows = length (bids q)) by (rewrite S3, <- A1; apply G).
  rewrite Hlen. rewrite <- A3, <- S3.
  apply flatten_features_spec; [exact Gq|congruence|congruence|].
  unfold wide_enough. now rewrite S3, S4, A3, A4.
Qed.

Example C09_flatten_features_ex_proof :
  exists p, init (P2 1 [[1#1];[2#1];[3#1]]) (Some [1;0;1]) None None = Ok p /\
    snd (flatten_features (inl (Padded [2] 3 [10;99;99;20;30;99])) p) = Ok [20;10;30].
Proof. eexists. split; reflexivity. Qed.

(** C09. Formatting a layer's output in padded layout and flattening it
    again returns it unchanged; and the padded output holds row i of the
    features at the place of point i. *)
Lemma C09_format_flatten_inverse_proof :
  forall (A : Type) (zero : A) D rows ids B bs dev eps ops (f : list A),
    describes (P2 D rows) (Some ids) bs None D rows ids B ->
    first_request ops = None ->
    length f = length rows ->
    exists p, init (P2 D rows) (Some ids) bs None = Ok p /\
      let q := run dev eps p ops in
      exists q' t,
        format_output zero f q false true = (q', Ok (inl t)) /\
        prows t = padded_layout zero (pV t) B f ids /\
        snd (flatten_features (inl t) q') = Ok f.
Proof.
  intros A zero D rows ids B bs dev eps ops f H Hreq Hf.
  destruct (describes_init _ _ _ _ _ _ _ _ H) as (p & E & [G A1 A2 A3 A4 A5] & Hu).
  exists p. split; [exact E|].
  assert (I0 : inv dev eps p p).
  { constructor; [exact G|apply same_data_refl|]. unfold aabb_ok. now rewrite A5. }
  pose proof (run_inv dev eps p p ops I0) as [Gq Sq Aq].
  pose proof (run_unflatten dev eps p ops) as Uq.
  set (q := run dev eps p ops) in *. pose proof Sq as (S1&S2&S3&S4&S5).
  cbv zeta. destruct Hu as [Hu _]. rewrite Hu, Hreq in Uq.
  unfold format_output, get_unflatten. rewrite Uq. cbn [fst snd].
  set (q1 := set_unflatten q (Some (USeg None))).
  assert (G1 : good q1) by (constructor; cbn; apply Gq || exact I).
  assert (Hfl : length f = length (bids q1)).
  { cbn. rewrite Hf, S3, <- A1. apply G. }
  pose proof (apply_unflatten_spec zero q1 (USeg None) f G1 Hfl I (default_width_ok q1)) as Ha.
  pose proof (apply_unflatten_good zero q1 (USeg None) f G1) as [G2 S2'].
  destruct (apply_unflatten zero q1 (USeg None) f) as [q2 r] eqn:Ea. cbn [fst snd] in *. subst r.
  exists q2. eexists. split; [reflexivity|]. cbn [pV prows].
  destruct S2' as (T1&T2&T3&T4&T5). cbn in T1, T2, T3, T4.
  assert (Hq2 : q2 = fst (get_sizes q1)).
  { unfold apply_unflatten in Ea. destruct (gather f (sidx q1)) as [gd|] eqn:Eg.
    - destruct (get_sizes q1). inversion Ea. reflexivity.
    - exfalso. rewrite (g_sidx q1 G1), (gather_sorted f (bids q1) (bsize q1) Hfl (g_ids q1 G1)) in Eg. discriminate. }
  assert (Ho : out_shape q2 = out_shape q1).
  { rewrite Hq2, (get_sizes_good q1 G1). reflexivity. }
  split; [cbn; congruence|].
  replace (unfl_shape q1 (USeg None)) with (out_shape q2).
  replace (bids q1) with (bids q2) by (cbn; congruence).
  replace (bsize q1) with (bsize q2) by (cbn; congruence).
  apply flatten_layout; [exact G2|rewrite T3; exact Hfl|].
  unfold wide_enough. rewrite T3, T4. apply (default_width_ok q1).
Qed.

Example C09_format_flatten_inverse_ex_proof :
  describes (P2 1 [[1#1];[2#1];[3#1]]) (Some [1;0;1]) None None 1 [[1#1];[2#1];[3#1]] [1;0;1] 2 /\
  first_request [OpSizes; OpSetShape (Some [2;1])] = None.
Proof. split; [exact C05_get_points_id_partial_ex_proof|reflexivity]. Qed.

(** C09. return_sorted lists the rows element by element; 2D features with
    the right number of rows are returned unchanged, others rejected. *)
Lemma C09_sorted_and_flat_proof :
  forall (A : Type) (zero : A) pa ia bs sz D rows ids B (f : list A),
    describes pa ia bs sz D rows ids B ->
    exists p, init pa ia bs sz = Ok p /\
      (length f = length rows ->
        snd (format_output zero f p true false)
          = Ok (inr (concat (map (fun b => element b f ids) (seq 0 B)))) /\
        snd (format_output zero f p false false) = Ok (inr f) /\
        snd (flatten_features (inr f) p) = Ok f) /\
      (length f <> length rows -> snd (flatten_features (inr f) p) = Err InvalidArgument).
Proof.
  intros A zero pa ia bs sz D rows ids B f H.
  destruct (describes_init _ _ _ _ _ _ _ _ H) as (p & E & [G A1 A2 A3 A4 A5] & Hu).
  exists p. split; [exact E|]. split.
  - intros Hf. split; [|split; [reflexivity|]].
    + unfold format_output. cbn [snd]. rewrite (g_sidx p G).
      rewrite (gather_sorted f (bids p) (bsize p)); [|rewrite Hf, <- A1; apply G|apply G].
      cbn [bind]. now rewrite A3, A4.
    + cbn. now rewrite A1, Hf, Nat.eqb_refl.
  - intros Hf. cbn. rewrite A1. destruct (Nat.eqb_spec (length f) (length rows)); [congruence|reflexivity].
Qed.

Example C09_sorted_and_flat_ex_proof :
  exists p, init (P2 1 [[1#1];[2#1];[3#1]]) (Some [1;0;1]) None None = Ok p /\
    snd (format_output 0 [10;20;30] p true false) = Ok (inr [20;10;30]).
Proof. eexists. split; reflexivity. Qed.

(** * Bounding box *)

Definition rows_dim (D : nat) (rows : list point) : Prop := Forall (fun r => length r = D) rows.

Lemma make_aabb_ok dev eps p :
  good p -> exists a, make_aabb dev eps p = Ok a /\
    amin a = map (fun b => map (fun x => x - eps)%Q (red_min (dim p) (element b (pts p) (bids p)))) (seq 0 (bsize p)) /\
    amax a = map (fun b => map (fun x => x + eps)%Q (red_max (dim p) (element b (pts p) (bids p)))) (seq 0 (bsize p)) /\
    abshape a = bshape p.
Proof.
  intros G. unfold make_aabb, unsorted_segment.
  rewrite (g_len p G), Nat.eqb_refl. cbn [negb].
  assert (Hd : (match dev with CPU => negb (forallb (fun i => i <? bsize p) (bids p)) | GPU => false end) = false).
  { destruct dev; [|reflexivity]. apply negb_false_iff, forallb_forall. intros i Hi.
    pose proof (g_ids p G) as HF. rewrite Forall_forall in HF. apply Nat.ltb_lt. now apply HF. }
  rewrite Hd. cbn [bind]. eexists. split; [reflexivity|]. cbn [amin amax abshape].
  rewrite !map_map. repeat split; reflexivity.
Qed.

Lemma element_In {A} b (rows : list A) ids i d :
  length rows = length ids -> i < length ids -> nth i ids 0 = b -> In (nth i rows d) (element b rows ids).
Proof.
  intros Hl Hi Hb. apply (segment_In b rows ids). exists i. split.
  - apply nth_error_nth'. lia.
  - rewrite <- Hb. now apply nth_error_nth'.
Qed.

Lemma element_In_inv {A} b (rows : list A) ids x d :
  length rows = length ids -> In x (element b rows ids) ->
  exists i, i < length ids /\ nth i ids 0 = b /\ nth i rows d = x.
Proof.
  intros Hl H. apply (segment_In b rows ids) in H as (i & H1 & H2).
  exists i. assert (i < length ids) by (apply nth_error_Some; congruence).
  split; [assumption|]. split.
  - now apply nth_error_nth.
  - now apply nth_error_nth.
Qed.

Lemma coord_map (f : Q -> Q) (p : point) d : d < length p -> coord (map f p) d = f (coord p d).
Proof.
  intros H. unfold coord. rewrite (nth_indep _ 0%Q (f 0%Q)) by now rewrite map_length.
  apply map_nth.
Qed.

(** C10. The box of element b contains every point of b with margin eps on
    each side, touches the extreme points up to exactly that margin, and
    get_diameter bounds all distances inside the element. *)
Lemma C10_aabb_proof :
  forall pa ia bs sz D rows ids B dev eps ops,
    describes pa ia bs sz D rows ids B -> (0 <= eps)%Q ->
    exists p a, init pa ia bs sz = Ok p /\
      snd (get_aabb dev eps (run dev eps p ops)) = Ok a /\
      length (amin a) = B /\ length (amax a) = B /\
      (forall i d, i < length rows -> d < D ->
         let b := nth i ids 0 in
         (coord (nth b (amin a) []) d <= coord (nth i rows []) d - eps /\
          coord (nth i rows []) d + eps <= coord (nth b (amax a) []) d)%Q) /\
      (forall b d, In b ids -> d < D ->
         (exists i, i < length rows /\ nth i ids 0 = b /\
            (coord (nth b (amin a) []) d == coord (nth i rows []) d - eps)%Q) /\
         (exists i, i < length rows /\ nth i ids 0 = b /\
            (coord (nth b (amax a) []) d == coord (nth i rows []) d + eps)%Q)).
Proof.
  intros pa ia bs sz D rows ids B dev eps ops H Heps.
  destruct (describes_init _ _ _ _ _ _ _ _ H) as (p & E & [G A1 A2 A3 A4 A5] & Hu).
  assert (I0 : inv dev eps p p).
  { constructor; [exact G|apply same_data_refl|]. unfold aabb_ok. now rewrite A5. }
  pose proof (run_inv dev eps p p ops I0) as [Gq Sq Aq].
  set (q := run dev eps p ops) in *. pose proof Sq as (S1&S2&S3&S4&S5).
  assert (Hex : exists a, snd (get_aabb dev eps q) = Ok a /\
    amin a = map (fun b => map (fun x => x - eps)%Q (red_min D (element b rows ids))) (seq 0 B) /\
    amax a = map (fun b => map (fun x => x + eps)%Q (red_max D (element b rows ids))) (seq 0 B)).
  { destruct (make_aabb_ok dev eps q Gq) as (a & Ea & Hmin & Hmax & _).
    rewrite S1, S2, S3, S4, A1, A2, A3, A4 in Hmin, Hmax.
    unfold get_aabb. unfold aabb_ok, box_of in Aq. destruct (paabb q) as [a1|].
    - exists a1. split; [reflexivity|]. rewrite Ea in Aq. inversion Aq. split; congruence.
    - rewrite Ea. exists a. auto. }
  destruct Hex as (a & Ha & Hmin & Hmax). exists p, a.
  split; [exact E|]. split; [exact Ha|].
  split; [rewrite Hmin; now rewrite map_length, seq_length|].
  split; [rewrite Hmax; now rewrite map_length, seq_length|].
  assert (Hlen : length rows = length ids) by (rewrite <- A1, <- A3; apply G).
  assert (HB : forall b, In b ids -> b < B).
  { pose proof (g_ids p G) as HF. rewrite A3, A4, Forall_forall in HF. exact HF. }
  split.
  - intros i d Hi Hd b. subst b. set (b := nth i ids 0).
    assert (Hb : b < B) by (apply HB, nth_In; lia).
    assert (Hin : In (nth i rows []) (element b rows ids)) by (apply element_In; [exact Hlen|lia|reflexivity]).
    rewrite Hmin, Hmax, !nth_map_seq by exact Hb.
    rewrite !coord_map by (rewrite ?red_min_length, ?red_max_length; exact Hd).
    pose proof (red_min_le D _ d _ Hd Hin). pose proof (red_max_ge D _ d _ Hd Hin). lra.
  - intros b d Hbin Hd. pose proof (HB b Hbin) as Hb.
    rewrite Hmin, Hmax, !nth_map_seq by exact Hb.
    rewrite !coord_map by (rewrite ?red_min_length, ?red_max_length; exact Hd).
    assert (Hne : element b rows ids <> []).
    { intros Hn. apply (f_equal (@length _)) in Hn. rewrite element_length in Hn by exact Hlen.
      apply (count_occ_In Nat.eq_dec) in Hbin. cbn in Hn. lia. }
    split.
    + destruct (red_min_attained D _ d Hd Hne) as (r & Hr & Er).
      destruct (element_In_inv b rows ids r [] Hlen Hr) as (i & Hi & Hbi & <-).
      exists i. split; [lia|]. split; [exact Hbi|]. lra.
    + destruct (red_max_attained D _ d Hd Hne) as (r & Hr & Er).
      destruct (element_In_inv b rows ids r [] Hlen Hr) as (i & Hi & Hbi & <-).
      exists i. split; [lia|]. split; [exact Hbi|]. lra.
Qed.

Example C10_aabb_ex_proof :
  exists p a, init (P2 2 [[1#1;5#1];[2#1;0#1];[3#1;7#1]]) (Some [1;0;1]) None None = Ok p /\
    snd (get_aabb CPU 0 p) = Ok a /\ amax a = [[2#1;0#1];[3#1;7#1]].
Proof. eexists. eexists. split; [reflexivity|]. split; reflexivity. Qed.

(** C10. The (squared) diameter bounds the squared distance of any two points
    of an element, strictly if the margin is positive. *)
Lemma C10_diameter_proof :
  forall pa ia bs sz D rows ids B dev eps,
    describes pa ia bs sz D rows ids B -> (0 <= eps)%Q ->
    Forall (fun r => length r = D) rows ->
    exists p a s diam, init pa ia bs sz = Ok p /\
      snd (get_aabb dev eps p) = Ok a /\ get_diameter_sq a = Ok (s, diam) /\
      length diam = B /\ nprod s = B /\
      forall i j, i < length rows -> j < length rows -> nth i ids 0 = nth j ids 0 ->
        (dist2 D (nth i rows []) (nth j rows []) <= nth (nth i ids 0%nat) diam 0)%Q /\
        ((0 < eps)%Q -> 0 < D ->
         (dist2 D (nth i rows []) (nth j rows []) < nth (nth i ids 0%nat) diam 0)%Q).
Proof.
  intros pa ia bs sz D rows ids B dev eps H Heps Hdim.
  destruct (C10_aabb_proof pa ia bs sz D rows ids B dev eps [] H Heps)
    as (p & a & E & Ha & Lmin & Lmax & Hin & _).
  cbn [run fold_left] in Ha.
  destruct (describes_init _ _ _ _ _ _ _ _ H) as (p' & E' & [G A1 A2 A3 A4 A5] & Hu).
  rewrite E in E'. inversion E'; subst p'. clear E'.
  assert (Hsh : get_diameter_sq a = Ok (match bshape p with Some s => s | None => [B] end,
     map (fun p => sq_dist (fst p) (snd p)) (combine (amax a) (amin a)))).
  { unfold get_diameter_sq. unfold get_aabb in Ha. rewrite A5 in Ha.
    destruct (make_aabb_ok dev eps p G) as (a' & Ea & _ & _ & Hs). rewrite Ea in Ha. cbn in Ha.
    inversion Ha; subst a'. rewrite Hs.
    rewrite map_length, combine_length, Lmin, Lmax, Nat.min_id.
    destruct (bshape p) as [s|] eqn:Eb; [|reflexivity].
    rewrite (g_bshape p G s Eb), A4, Nat.eqb_refl. reflexivity. }
  exists p, a. eexists. eexists. split; [exact E|]. split; [exact Ha|]. split; [exact Hsh|].
  split; [rewrite map_length, combine_length, Lmin, Lmax; lia|]. split.
  { destruct (bshape p) as [s|] eqn:Eb; [rewrite (g_bshape p G s Eb); exact A4|]. unfold nprod. cbn. lia. }
  intros i j Hi Hj Hij.
  assert (Hlen : length rows = length ids) by (rewrite <- A1, <- A3; apply G).
  assert (Hb : nth i ids 0 < B).
  { pose proof (g_ids p G) as HF. rewrite A3, A4, Forall_forall in HF. apply HF, nth_In. lia. }
  rewrite (nth_map_combine _ _ _ _ _ [] []) by lia. cbn [fst snd].
  rewrite Forall_forall in Hdim.
  assert (Li : length (nth i rows []) = D) by (apply Hdim, nth_In; lia).
  assert (Lj : length (nth j rows []) = D) by (apply Hdim, nth_In; lia).
  (* box corners have D coordinates *)
  assert (Lc : length (nth (nth i ids 0) (amin a) []) = D /\ length (nth (nth i ids 0) (amax a) []) = D).
  { unfold get_aabb in Ha. rewrite A5 in Ha.
    destruct (make_aabb_ok dev eps p G) as (a' & Ea & Hmin & Hmax & _). rewrite Ea in Ha. cbn in Ha.
    inversion Ha; subst a'. rewrite Hmin, Hmax, !nth_map_seq, !map_length, red_min_length, red_max_length
      by (rewrite A4; exact Hb). split; exact A2. }
  destruct Lc as [Lc1 Lc2].
  rewrite (sq_dist_coords D) by assumption. change (dist2 D (nth i rows []) (nth j rows [])) with
    (Qsum (map (fun d => (coord (nth i rows []) d - coord (nth j rows []) d) * (coord (nth i rows []) d - coord (nth j rows []) d)) (seq 0 D)))%Q.
  assert (Hc : forall d, d < D ->
    let x := coord (nth i rows []) d in let y := coord (nth j rows []) d in
    let m := coord (nth (nth i ids 0) (amin a) []) d in let M := coord (nth (nth i ids 0) (amax a) []) d in
    (m <= x - eps /\ m <= y - eps /\ x + eps <= M /\ y + eps <= M)%Q).
  { intros d Hd. cbv zeta. destruct (Hin i d Hi Hd) as [X1 X2]. destruct (Hin j d Hj Hd) as [Y1 Y2].
    rewrite <- Hij in Y1, Y2. auto. }
  split.
  - apply Qsum_le. intros d Hd. apply in_seq in Hd.
    destruct (Hc d ltac:(lia)) as (Q1 & Q2 & Q3 & Q4). apply sq_mono; lra.
  - intros He HD. apply Qsum_lt with (a := 0).
    + intros d Hd. apply in_seq in Hd.
      destruct (Hc d ltac:(lia)) as (Q1 & Q2 & Q3 & Q4). apply sq_mono; lra.
    + apply in_seq. lia.
    + destruct (Hc 0 ltac:(lia)) as (Q1 & Q2 & Q3 & Q4).
      set (x := coord (nth i rows []) 0) in *. set (y := coord (nth j rows []) 0) in *.
      set (m := coord (nth (nth i ids 0) (amin a) []) 0) in *.
      set (M := coord (nth (nth i ids 0) (amax a) []) 0) in *.
      assert (Hu1 : (x - y < M - m)%Q) by lra. assert (Hu2 : (- (M - m) < x - y)%Q) by lra.
      clear -Hu1 Hu2. nra.
Qed.

Example C10_diameter_ex_proof :
  exists p a s diam,
    init (P2 2 [[1#1;5#1];[2#1;0#1];[3#1;7#1]]) (Some [1;0;1]) None None = Ok p /\
    snd (get_aabb CPU 0 p) = Ok a /\ get_diameter_sq a = Ok (s, diam) /\
    Forall2 Qeq diam [0#1; 8#1].
Proof.
  do 4 eexists. split; [reflexivity|]. split; [reflexivity|]. split; [reflexivity|].
  repeat constructor.
Qed.

(** C10 refuted: a batch shape set after the first get_AABB() is not used by
    get_diameter(). *)
Lemma C10_diameter_shape_refuted_proof :
  exists rows p p1 p2 a a' s d,
    init (P2 1 rows) (Some [0;1]) None None = Ok p /\
    get_aabb CPU 0 p = (p1, Ok a) /\ set_batch_shape p1 (Some [2;1]) = (p2, Ok tt) /\
    snd (get_aabb CPU 0 p2) = Ok a' /\ get_diameter_sq a' = Ok (s, d) /\ s <> [2;1].
Proof.
  exists [[1#1];[2#1]]. do 7 eexists. split; [reflexivity|]. split; [reflexivity|].
  split; [reflexivity|]. split; [reflexivity|]. split; [reflexivity|]. discriminate.
Qed.
