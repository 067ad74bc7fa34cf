(** Facts about the model of PointCloud.py. *)
From Coq Require Import List Arith ZArith QArith Qminmax Lia Bool Permutation Sorted.
From Verif Require Import Tensor TensorFacts PointCloud Spec.
Import ListNotations.
Local Open Scope nat_scope.

Global Arguments true_sizes : simpl never.
Global Arguments block_ids : simpl never.
Global Arguments element : simpl never.
Global Arguments padded_layout : simpl never.

Lemma count_count_occ b l : count Nat.eqb b l = count_occ Nat.eq_dec l b.
Proof.
  induction l as [|x l IH]; [reflexivity|]. cbn.
  destruct (Nat.eq_dec x b), (Nat.eqb_spec b x); cbn; lia || congruence.
Qed.

Lemma element_length {A} b (rows : list A) ids :
  length rows = length ids -> length (element b rows ids) = count_occ Nat.eq_dec ids b.
Proof.
  unfold element. rewrite map_length. revert ids.
  induction rows as [|r rows IH]; intros [|i ids] H; cbn in *; try lia.
  specialize (IH ids ltac:(lia)).
  destruct (Nat.eqb_spec i b), (Nat.eq_dec i b); cbn; lia || congruence.
Qed.

Lemma true_sizes_length B ids : length (true_sizes B ids) = B.
Proof. unfold true_sizes. now rewrite map_length, seq_length. Qed.

Lemma true_sizes_elements {A} B (rows : list A) ids :
  length rows = length ids ->
  true_sizes B ids = map (@length A) (map (fun b => element b rows ids) (seq 0 B)).
Proof.
  intros H. unfold true_sizes. rewrite map_map. apply map_ext. intros b.
  symmetry. now apply element_length.
Qed.

Lemma elements_perm {A} B (rows : list A) ids :
  length rows = length ids -> Forall (fun b => b < B) ids ->
  Permutation (concat (map (fun b => element b rows ids) (seq 0 B))) rows.
Proof.
  intros H HB.
  transitivity (map fst (combine rows ids)); [|now rewrite combine_map_fst].
  unfold element. rewrite <- (map_map (fun b => filter (fun p => snd p =? b) (combine rows ids)) (map fst)).
  rewrite <- concat_map. apply Permutation_map.
  apply (concat_filter_perm (@snd A nat)).
  intros [a b] Hin. apply in_combine_r in Hin. cbn. rewrite Forall_forall in HB. now apply HB.
Qed.

Lemma true_sizes_sum B ids :
  Forall (fun b => b < B) ids -> sum (true_sizes B ids) = length ids.
Proof.
  intros HB. rewrite (true_sizes_elements B ids ids eq_refl).
  unfold sum. rewrite <- length_concat.
  apply Permutation_length. now apply elements_perm.
Qed.

(** The sorted index list gathers the elements one after the other. *)
Lemma gather_sorted {A} (data : list A) ids B :
  length data = length ids -> Forall (fun b => b < B) ids ->
  gather data (argsort_ids ids) = Ok (concat (map (fun b => element b data ids) (seq 0 B))).
Proof.
  intros H HB. unfold argsort_ids.
  destruct data as [|d0 data0] eqn:Ed.
  - destruct ids; [|discriminate]. cbn. f_equal. clear.
    induction (seq 0 B); [reflexivity|]. exact IHl.
  - rewrite <- Ed in *. rewrite (gather_map data _ d0).
    + f_equal. rewrite (argsort_ids_eq ids B HB), concat_map, map_map. f_equal.
      apply map_ext. intros b. symmetry. now apply (segment_positions b data ids d0).
    + rewrite H. apply argsort_lt.
Qed.

(** * get_sizes *)

Lemma combine_diag {A} (u : list A) x y : In (x, y) (combine u u) -> x = y.
Proof.
  induction u as [|a u IH]; cbn; [tauto|]. intros [E|H]; [congruence|auto].
Qed.

Lemma uniq_sorted ids B :
  Forall (fun b => b < B) ids ->
  gather (uniq Nat.eqb ids) (argsort Nat.leb (uniq Nat.eqb ids))
  = Ok (filter (fun b => existsb (Nat.eqb b) ids) (seq 0 B)).
Proof.
  intros HB. set (u := uniq Nat.eqb ids).
  assert (Hu : Forall (fun b => b < B) u).
  { apply Forall_forall. intros x Hx. apply (proj1 (uniq_In _ Nat_eqb_spec' ids x)) in Hx.
    rewrite Forall_forall in HB. now apply HB. }
  change (argsort Nat.leb u) with (argsort_ids u).
  rewrite (gather_sorted u u B eq_refl Hu). f_equal.
  assert (NDu : NoDup u) by apply (uniq_NoDup _ Nat_eqb_spec').
  apply (sorted_perm_unique lt); [intros a; lia|intros a b c; lia| | |].
  - apply concat_sorted.
    + intros b _. unfold element.
      assert (Hall : forall x, In x (map fst (filter (fun p => snd p =? b) (combine u u))) -> x = b).
      { intros x Hx. apply in_map_iff in Hx as ([y z] & <- & Hx). apply filter_In in Hx as [Hx E].
        cbn in *. apply Nat.eqb_eq in E. subst z. now apply combine_diag in Hx. }
      assert (Hlen : length (map fst (filter (fun p => snd p =? b) (combine u u))) <= 1).
      { change (length (element b u u) <= 1). rewrite element_length by reflexivity.
        apply (NoDup_count_occ Nat.eq_dec). exact NDu. }
      destruct (map fst (filter (fun p => snd p =? b) (combine u u))) as [|x [|y l]];
        [constructor| repeat constructor | cbn in Hlen; lia].
    + intros b c x y Hbc Hx Hy. unfold element in *.
      assert (Hkey : forall b x, In x (map fst (filter (fun p => snd p =? b) (combine u u))) -> x = b).
      { clear. intros b x Hx. apply in_map_iff in Hx as ([y z] & <- & Hx). apply filter_In in Hx as [Hx E].
        cbn in *. apply Nat.eqb_eq in E. subst z. now apply combine_diag in Hx. }
      apply Hkey in Hx, Hy. lia.
  - apply StronglySorted_filter, seq_sorted.
  - rewrite (elements_perm B u u eq_refl Hu). apply NoDup_Permutation.
    + exact NDu.
    + apply NoDup_filter, seq_NoDup.
    + intros x. unfold u. rewrite (uniq_In _ Nat_eqb_spec'), filter_In, in_seq.
      rewrite (existsb_eqb _ Nat_eqb_spec'). split; [|tauto].
      intros Hx. split; [|exact Hx]. rewrite Forall_forall in HB. specialize (HB x Hx). lia.
Qed.

(** What get_sizes computes for a cloud without stored sizes, in general: the
    counts of the non-empty elements. *)
Definition nonempty_sizes (B : nat) (ids : list nat) : list nat :=
  filter (fun n => negb (Nat.eqb n 0)) (true_sizes B ids).

Lemma existsb_count b ids : existsb (Nat.eqb b) ids = negb (Nat.eqb (count_occ Nat.eq_dec ids b) 0).
Proof.
  apply eq_true_iff_eq. rewrite (existsb_eqb _ Nat_eqb_spec'), negb_true_iff, Nat.eqb_neq.
  rewrite (count_occ_In Nat.eq_dec). lia.
Qed.

Lemma counts_sorted ids B :
  Forall (fun b => b < B) ids ->
  gather (snd (unique_with_counts Nat.eqb ids)) (argsort Nat.leb (fst (unique_with_counts Nat.eqb ids)))
  = Ok (nonempty_sizes B ids).
Proof.
  intros HB. unfold unique_with_counts. cbn [fst snd].
  rewrite (map_ext _ (fun b => count_occ Nat.eq_dec ids b)) by (intros; apply count_count_occ).
  rewrite gather_fmap, (uniq_sorted ids B HB). f_equal.
  unfold nonempty_sizes, true_sizes. rewrite filter_map_swap. f_equal.
  apply filter_ext. intros b. apply existsb_count.
Qed.

Lemma nonempty_sizes_all B ids : all_nonempty B ids -> nonempty_sizes B ids = true_sizes B ids.
Proof.
  intros H. apply filter_all. intros n Hn. unfold true_sizes in Hn.
  apply in_map_iff in Hn as (b & <- & Hb). apply in_seq in Hb.
  assert (In b ids) as Hin by (apply H; lia).
  apply (count_occ_In Nat.eq_dec) in Hin. apply negb_true_iff, Nat.eqb_neq. lia.
Qed.

Lemma filter_length_all {A} (f : A -> bool) l :
  length (filter f l) = length l -> forall x, In x l -> f x = true.
Proof.
  induction l as [|a l IH]; intros H x Hx; [destruct Hx|]. cbn in H.
  assert (length (filter f l) <= length l).
  { clear. induction l as [|b l IH]; cbn; [lia|]. destruct (f b); cbn; lia. }
  destruct (f a) eqn:E; cbn in H; [|lia].
  destruct Hx as [->|Hx]; [exact E|]. apply IH; [lia|exact Hx].
Qed.

Lemma nonempty_sizes_inv B ids : length (nonempty_sizes B ids) = B -> all_nonempty B ids.
Proof.
  intros H b Hb. unfold nonempty_sizes in H.
  rewrite <- (true_sizes_length B ids) in H at 2.
  pose proof (filter_length_all _ _ H (count_occ Nat.eq_dec ids b)) as Hc.
  specialize (Hc ltac:(unfold true_sizes; apply in_map_iff; exists b; split; [reflexivity|apply in_seq; lia])).
  apply negb_true_iff, Nat.eqb_neq in Hc. apply (count_occ_In Nat.eq_dec). lia.
Qed.

(** * Well-formed clouds *)

(** Invariant of clouds built from consistent input. *)
Record good (p : pc) : Prop := {
  g_len : length (pts p) = length (bids p);
  g_ids : Forall (fun b => b < bsize p) (bids p);
  g_sidx : sidx p = argsort_ids (bids p);
  g_sizes : match psizes p with
            | Some t => ivals t = true_sizes (bsize p) (bids p) /\ nprod (ishape t) = bsize p
            | None => all_nonempty (bsize p) (bids p)
            end;
  g_bshape : forall s, bshape p = Some s -> nprod s = bsize p;
  g_bsizes : forall s t, bshape p = Some s -> psizes p = Some t -> ishape t = s;
  g_seg : forall s, segshape p = Some s -> nprod s = bsize p;
  g_bseg : forall s, bshape p = Some s -> segshape p = Some s;
  g_unfl : match unflatten p with
           | Some (UPadded s V sz) =>
             sz = true_sizes (bsize p) (bids p) /\ nprod s = bsize p /\ Forall (fun n => n <= V) sz /\
             StronglySorted le (bids p)
           | _ => True
           end }.

Definition out_shape (p : pc) : list nat :=
  match psizes p with
  | Some t => ishape t
  | None => match bshape p with Some s => s | None => [bsize p] end
  end.

Lemma get_sizes_good p :
  good p ->
  get_sizes p = (set_psizes p (Some (ITensor (out_shape p) (true_sizes (bsize p) (bids p)))),
                 Ok (ITensor (out_shape p) (true_sizes (bsize p) (bids p)))).
Proof.
  intros G. unfold get_sizes, out_shape. pose proof (g_sizes p G) as Hs.
  destruct (psizes p) as [[sh v]|] eqn:E; cbn in Hs.
  - destruct Hs as [-> Hp]. cbn. f_equal. destruct p; cbn in *. now rewrite E.
  - pose proof (counts_sorted (bids p) (bsize p) (g_ids p G)) as Hc.
    destruct (unique_with_counts Nat.eqb (bids p)) as [ids cnts] eqn:Eu. cbn [fst snd] in Hc.
    rewrite Hc, (nonempty_sizes_all _ _ Hs).
    destruct (bshape p) as [s|] eqn:Eb.
    + unfold reshape. cbn [ivals]. rewrite true_sizes_length.
      rewrite (g_bshape p G s Eb), Nat.eqb_refl. reflexivity.
    + now rewrite true_sizes_length.
Qed.

Lemma out_shape_prod p : good p -> nprod (out_shape p) = bsize p.
Proof.
  intros G. unfold out_shape. pose proof (g_sizes p G) as Hs.
  destruct (psizes p) as [t|]; [apply Hs|].
  destruct (bshape p) as [s|] eqn:E; [now apply (g_bshape p G)|]. cbn. lia.
Qed.

(** [p'] differs from [p] at most in caches and shapes. *)
Definition same_data (p p' : pc) : Prop :=
  pts p' = pts p /\ dim p' = dim p /\ bids p' = bids p /\ bsize p' = bsize p /\ sidx p' = sidx p.

Lemma same_data_refl p : same_data p p.
Proof. repeat split. Qed.
Lemma same_data_trans p q r : same_data p q -> same_data q r -> same_data p r.
Proof. unfold same_data. intros (H1&H2&H3&H4&H5) (J1&J2&J3&J4&J5). repeat split; congruence. Qed.

Lemma get_sizes_keeps_good p : good p -> good (fst (get_sizes p)) /\ same_data p (fst (get_sizes p)).
Proof.
  intros G. rewrite (get_sizes_good p G). cbn [fst]. split; [|repeat split].
  pose proof (out_shape_prod p G) as Hp.
  constructor; cbn; try apply G.
  - split; [reflexivity|exact Hp].
  - intros s t Hb Ht. inversion Ht; subst; cbn. unfold out_shape.
    destruct (psizes p) as [t'|] eqn:E; [|now rewrite Hb].
    now apply (g_bsizes p G).
Qed.

Lemma set_batch_shape_good p s :
  good p -> good (fst (set_batch_shape p s)) /\ same_data p (fst (set_batch_shape p s)).
Proof.
  intros G. unfold set_batch_shape. destruct s as [s|].
  - destruct (Nat.eqb_spec (nprod s) (bsize p)) as [E|E]; cbn [negb]; [|split; [exact G|apply same_data_refl]].
    cbn [psizes set_shapes].
    assert (Gs : psizes p = None -> good (set_shapes p (Some s) (Some s))).
    { intros En. constructor; cbn; try apply G.
      - intros s' H; now inversion H; subst.
      - intros s' t H1 H2. congruence.
      - intros s' H; now inversion H; subst.
      - intros s' H; now inversion H; subst. }
    pose proof (g_sizes p G) as Hs.
    destruct (psizes p) as [t|] eqn:Et; [|split; [now apply Gs|repeat split]].
    unfold reshape. destruct Hs as [Hv Hp].
    rewrite Hv, true_sizes_length, E, Nat.eqb_refl. cbn [fst]. split; [|repeat split].
    constructor; cbn; try apply G.
    + split; [reflexivity|exact E].
    + intros s' H; now inversion H; subst.
    + intros s' t' H1 H2. inversion H1; inversion H2; subst; reflexivity.
    + intros s' H; now inversion H; subst.
    + intros s' H; now inversion H; subst.
  - cbn. split; [|repeat split]. constructor; cbn; try apply G; intros; discriminate.
Qed.

Lemma get_unflatten_good p m :
  good p -> good (fst (get_unflatten p m)) /\ same_data p (fst (get_unflatten p m)).
Proof.
  intros G. unfold get_unflatten. destruct (unflatten p) as [u|] eqn:E; cbn.
  - split; [exact G|apply same_data_refl].
  - split; [|repeat split]. constructor; cbn; try apply G. exact I.
Qed.

Lemma apply_unflatten_good {A} (z : A) p u data :
  good p -> good (fst (apply_unflatten z p u data)) /\ same_data p (fst (apply_unflatten z p u data)).
Proof.
  intros G. unfold apply_unflatten. destruct u as [s V sz|m]; cbn; [split; [exact G|apply same_data_refl]|].
  destruct (gather data (sidx p)) as [d|e]; [|split; [exact G|apply same_data_refl]].
  pose proof (get_sizes_keeps_good p G) as H. destruct (get_sizes p) as [p' r]. exact H.
Qed.

Lemma get_aabb_good dev eps p :
  good p -> good (fst (get_aabb dev eps p)) /\ same_data p (fst (get_aabb dev eps p)).
Proof.
  intros G. unfold get_aabb. destruct (paabb p); [split; [exact G|apply same_data_refl]|].
  destruct (make_aabb dev eps p); cbn; [|split; [exact G|apply same_data_refl]].
  split; [|repeat split]. constructor; cbn; apply G.
Qed.

Lemma get_points_all_good p m :
  good p -> good (fst (get_points_all p m)) /\ same_data p (fst (get_points_all p m)).
Proof.
  intros G. unfold get_points_all. pose proof (get_unflatten_good p m G) as [G1 S1].
  destruct (get_unflatten p m) as [p1 u]. cbn [fst] in *.
  pose proof (apply_unflatten_good (zero_point (dim p1)) p1 u (pts p1) G1) as [G2 S2].
  split; [exact G2|]. eapply same_data_trans; eassumption.
Qed.

(** * Unflattening *)

Lemma zero_padded_pad {A} (z : A) V l : zero_padded z V l = pad z V l.
Proof. reflexivity. Qed.

Lemma padded_layout_scatter {A} (z : A) V B (rows : list A) ids :
  length rows = length ids -> Forall (fun n => n <= V) (true_sizes B ids) ->
  mask_scatter z (sequence_mask (true_sizes B ids) V)
    (concat (map (fun b => element b rows ids) (seq 0 B)))
  = Ok (padded_layout z V B rows ids).
Proof.
  intros H HV. rewrite (true_sizes_elements B rows ids H) in *.
  rewrite mask_scatter_blocks.
  - unfold padded_layout. now rewrite map_map.
  - apply Forall_forall. intros l Hl. rewrite Forall_forall in HV. apply HV. now apply in_map.
Qed.

(** Width of the padded tensor a closure produces. *)
Definition unfl_width (p : pc) (u : unfl) : nat :=
  match u with
  | UPadded _ V _ => V
  | USeg (Some v) => v
  | USeg None => list_max0 (true_sizes (bsize p) (bids p))
  end.
Definition unfl_shape (p : pc) (u : unfl) : list nat :=
  match u with UPadded s _ _ => s | USeg _ => out_shape p end.

Definition wide_enough (p : pc) (V : nat) : Prop :=
  Forall (fun n => n <= V) (true_sizes (bsize p) (bids p)).

(** Clouds whose rows are already sorted by batch id (all padded clouds). *)
Lemma elements_sorted {A} B (rows : list A) ids :
  length rows = length ids -> Forall (fun b => b < B) ids -> StronglySorted le ids ->
  concat (map (fun b => element b rows ids) (seq 0 B)) = rows.
Proof.
  intros H HB HS. pose proof (gather_sorted rows ids B H HB) as E.
  unfold argsort_ids in E. rewrite (argsort_ids_sorted ids HS), <- H, gather_seq in E.
  injection E as E'. symmetry. exact E'.
Qed.

Lemma apply_unflatten_spec {A} (z : A) p u data :
  good p -> length data = length (bids p) ->
  (match u with
   | UPadded s V sz => sz = true_sizes (bsize p) (bids p) /\ StronglySorted le (bids p)
   | USeg _ => True end) ->
  wide_enough p (unfl_width p u) ->
  snd (apply_unflatten z p u data)
  = Ok (Padded (unfl_shape p u) (unfl_width p u)
          (padded_layout z (unfl_width p u) (bsize p) data (bids p))).
Proof.
  intros G Hl Hu HV. unfold wide_enough in HV. destruct u as [s V sz|m]; cbn [unfl_width unfl_shape] in *.
  - destruct Hu as [-> HS]. cbn. unfold unflatten_padded.
    pose proof (padded_layout_scatter z V (bsize p) data (bids p) Hl HV) as E.
    rewrite (elements_sorted (bsize p) data (bids p) Hl (g_ids p G) HS) in E. now rewrite E.
  - unfold apply_unflatten. rewrite (g_sidx p G).
    rewrite (gather_sorted data (bids p) (bsize p) Hl (g_ids p G)).
    rewrite (get_sizes_good p G). cbn [snd bind]. unfold unflatten_2d_to_batch. cbn [ivals ishape].
    destruct m as [v|]; cbn [unfl_width] in *; rewrite padded_layout_scatter by assumption; reflexivity.
Qed.

Lemma default_width_ok p : wide_enough p (list_max0 (true_sizes (bsize p) (bids p))).
Proof. apply Forall_forall. intros x Hx. now apply list_max0_ge. Qed.

Lemma padded_layout_nth {A} (z : A) V B (rows : list A) ids b j d :
  length rows = length ids -> Forall (fun n => n <= V) (true_sizes B ids) ->
  b < B -> j < V ->
  nth (b * V + j) (padded_layout z V B rows ids) d
  = if j <? count_occ Nat.eq_dec ids b then nth j (element b rows ids) d else z.
Proof.
  intros Hl HV Hb Hj. unfold padded_layout.
  assert (Hlen : forall b, b < B -> length (zero_padded z V (element b rows ids)) = V).
  { intros c Hc. apply pad_length. rewrite element_length by exact Hl.
    rewrite Forall_forall in HV. apply HV. unfold true_sizes. apply in_map_iff. exists c.
    split; [reflexivity|apply in_seq; lia]. }
  assert (Hgen : forall k n, k + n <= B -> b - k < n -> k <= b ->
    nth ((b - k) * V + j) (concat (map (fun b => zero_padded z V (element b rows ids)) (seq k n))) d
    = nth j (zero_padded z V (element b rows ids)) d).
  { intros k n. revert k. induction n as [|n IH]; intros k H1 H2 H3; [lia|].
    cbn [seq map concat]. destruct (Nat.eq_dec b k) as [->|Hn].
    - rewrite Nat.sub_diag. cbn [Nat.mul Nat.add]. apply app_nth1. rewrite Hlen by lia. exact Hj.
    - rewrite app_nth2; rewrite Hlen by lia.
      + replace ((b - k) * V + j - V) with ((b - S k) * V + j).
        * apply IH; lia.
        * replace (b - k) with (S (b - S k)) by lia. generalize (b - S k) as q. intros q. rewrite Nat.mul_succ_l. generalize (q * V). lia.
      + replace (b - k) with (S (b - S k)) by lia. generalize (b - S k) as q. intros q. rewrite Nat.mul_succ_l. generalize (q * V). lia. }
  specialize (Hgen 0 B ltac:(lia)). rewrite Nat.sub_0_r in Hgen. rewrite Hgen by lia.
  unfold zero_padded. destruct (Nat.ltb_spec j (count_occ Nat.eq_dec ids b)) as [H|H].
  - apply app_nth1. now rewrite element_length.
  - rewrite app_nth2; rewrite element_length by exact Hl; [|exact H].
    rewrite nth_indep with (d' := z).
    + apply nth_repeat.
    + rewrite repeat_length. lia.
Qed.

(** * Constructors *)

Lemma block_ids_true_sizes sizes : true_sizes (length sizes) (block_ids 0 sizes) = sizes.
Proof.
  unfold true_sizes. transitivity (map (fun i => nth i sizes 0) (seq 0 (length sizes))); [|apply map_nth_seq]. apply map_ext. intros b.
  rewrite <- count_count_occ, block_ids_count. now rewrite Nat.sub_0_r.
Qed.

Lemma init_segmented_ids D rows ids bs :
  length rows = length ids ->
  (match bs with Some b => True | None => ids <> [] end) ->
  init (P2 D rows) (Some ids) bs None
  = Ok (PC rows D ids (match bs with Some b => b | None => list_max0 ids + 1 end)
           None None None None None (argsort_ids ids)).
Proof.
  intros Hl Hb. unfold init. cbn. rewrite Hl, Nat.eqb_refl. cbn.
  destruct bs as [b|]; [reflexivity|]. destruct ids; [congruence|reflexivity].
Qed.

Lemma init_segmented_ids_good D rows ids bs p :
  init (P2 D rows) (Some ids) bs None = Ok p ->
  (match bs with Some B => Forall (fun b => b < B) ids | None => True end) ->
  all_nonempty (bsize p) ids ->
  good p /\ pts p = rows /\ bids p = ids /\ dim p = D /\
  bsize p = match bs with Some b => b | None => list_max0 ids + 1 end.
Proof.
  intros H HB HN. unfold init in H. cbn in H.
  destruct (Nat.eqb_spec (length rows) (length ids)) as [El|]; [|discriminate]. cbn in H.
  assert (Hp : p = PC rows D ids (match bs with Some b => b | None => list_max0 ids + 1 end)
           None None None None None (argsort_ids ids)).
  { destruct bs as [b|]; [now inversion H|]. destruct ids; [discriminate|now inversion H]. }
  clear H. subst p. cbn in *. split; [|repeat split].
  constructor; cbn; try (intros; discriminate); try reflexivity; try exact I; try exact El; try exact HN.
  destruct bs as [b|]; [exact HB|]. apply Forall_forall. intros x Hx.
  apply list_max0_ge in Hx. lia.
Qed.

Lemma init_segmented_sizes D rows sizes B bs :
  length sizes = B -> sum sizes = length rows -> (bs = None \/ bs = Some B) ->
  exists p, init (P2 D rows) None bs (Some (ITensor [B] sizes)) = Ok p /\
  good p /\ pts p = rows /\ bids p = block_ids 0 sizes /\ dim p = D /\ bsize p = B
  /\ psizes p = Some (ITensor [B] sizes) /\ unflatten p = None /\ bshape p = None /\ segshape p = None.
Proof.
  intros HB Hs Hbs. unfold init. cbn.
  assert (E : (match bs with Some b => b | None => B * 1 end) = B) by (destruct Hbs as [-> | ->]; lia).
  rewrite E, (tf_repeat_seq' sizes B HB). cbn. eexists. split; [reflexivity|]. cbn.
  split; [|repeat split].
  constructor; cbn; try (intros; discriminate); try reflexivity; try exact I.
  - rewrite block_ids_length. symmetry. exact Hs.
  - apply Forall_forall. intros x Hx. apply block_ids_range in Hx. lia.
  - rewrite <- HB, block_ids_true_sizes. split; [reflexivity|lia].
Qed.

(** Padded construction. *)
Definition sizes_or_full (t : padded point) (sizes : option (list nat)) : list nat :=
  match sizes with Some s => s | None => repeat (pV t) (nprod (pshape t)) end.

Definition mask_rows {A} (sizes : list nat) (V : nat) (rows : list A) : list A :=
  mask_select (sequence_mask sizes V) rows.

Lemma mask_select_length {A} m (d : list A) :
  length m = length d -> length (mask_select m d) = length (filter id m).
Proof.
  revert d; induction m as [|b m IH]; intros [|x d] H; cbn in *; try lia.
  destruct b; cbn; rewrite IH by lia; reflexivity.
Qed.

Lemma filter_id_repeat_true n : filter id (repeat true n) = repeat true n.
Proof. induction n; cbn; congruence. Qed.
Lemma filter_id_repeat_false n : filter id (repeat false n) = [].
Proof. induction n; cbn; congruence. Qed.

Lemma sequence_mask_length sizes V : length (sequence_mask sizes V) = length sizes * V.
Proof.
  unfold sequence_mask. induction sizes as [|n s IH]; [reflexivity|].
  cbn [map concat length]. rewrite app_length, map_length, seq_length, IH. reflexivity.
Qed.

Lemma sequence_mask_count sizes V :
  Forall (fun n => n <= V) sizes -> length (filter id (sequence_mask sizes V)) = sum sizes.
Proof.
  unfold sequence_mask, sum. induction sizes as [|n s IH]; intros H; [reflexivity|].
  inversion H; subst. cbn [map concat fold_right].
  rewrite mask_row, !filter_app, filter_id_repeat_true, filter_id_repeat_false, app_nil_r.
  rewrite app_length, repeat_length, Nat.min_l by assumption. f_equal. now apply IH.
Qed.

Lemma init_padded_ok D t sizes bs ids :
  length (prows t) = nprod (pshape t) * pV t ->
  length (sizes_or_full t sizes) = nprod (pshape t) ->
  Forall (fun n => n <= pV t) (sizes_or_full t sizes) ->
  (bs = None \/ bs = Some (nprod (pshape t))) ->
  exists p,
    init (PN D t) ids bs (option_map (ITensor (pshape t)) sizes) = Ok p /\
    good p /\ pts p = mask_rows (sizes_or_full t sizes) (pV t) (prows t) /\
    bids p = block_ids 0 (sizes_or_full t sizes) /\ dim p = D /\
    bsize p = nprod (pshape t) /\
    psizes p = Some (ITensor (pshape t) (sizes_or_full t sizes)) /\
    bshape p = Some (pshape t) /\ segshape p = Some (pshape t) /\
    unflatten p = Some (UPadded (pshape t) (pV t) (sizes_or_full t sizes)).
Proof.
  intros Hr Hs HV Hbs. unfold init. cbn [check_valid_point_cloud_input bind]. unfold init_from_padded.
  replace (match bs with Some b => b | None => nprod (pshape t) end) with (nprod (pshape t))
    by (destruct Hbs as [-> | ->]; reflexivity).
  rewrite Nat.eqb_refl. cbn [negb].
  replace (match option_map (ITensor (pshape t)) sizes with Some s => s
           | None => ITensor (pshape t) (repeat (pV t) (nprod (pshape t))) end)
    with (ITensor (pshape t) (sizes_or_full t sizes)) by (destruct sizes; reflexivity).
  unfold flatten_batch_to_2d. cbn [ishape ivals]. rewrite list_eqb_refl. cbn [bind].
  rewrite (tf_repeat_seq' _ _ Hs). cbn [bind]. eexists. split; [reflexivity|]. cbn.
  split; [|repeat split].
  constructor; cbn; try reflexivity.
  - rewrite mask_select_length.
    + rewrite sequence_mask_count by exact HV. now rewrite block_ids_length.
    + rewrite sequence_mask_length, Hr, Hs. reflexivity.
  - apply Forall_forall. intros x Hx. apply block_ids_range in Hx. lia.
  - rewrite <- Hs, block_ids_true_sizes. now split.
  - intros s H; now inversion H.
  - intros s t' H1 H2; inversion H1; inversion H2; now subst.
  - intros s H; now inversion H.
  - intros s H; now inversion H.
  - rewrite <- Hs at 1. rewrite block_ids_true_sizes. repeat split; auto. apply block_ids_sorted.
Qed.

Lemma mask_scatter_select {A} (z : A) m (d : list A) :
  length m = length d ->
  mask_scatter z m (mask_select m d) = Ok (map (fun p : bool * A => if fst p then snd p else z) (combine m d)).
Proof.
  revert d; induction m as [|b m IH]; intros [|x d] H; cbn in *; try lia; [reflexivity|].
  destruct b; cbn; rewrite IH by lia; reflexivity.
Qed.

Lemma sequence_mask_nth sizes V b j :
  b < length sizes -> j < V -> nth (b * V + j) (sequence_mask sizes V) false = (j <? nth b sizes 0).
Proof.
  unfold sequence_mask. revert b; induction sizes as [|n s IH]; intros b Hb Hj; cbn in Hb; [lia|].
  cbn [map concat]. destruct b as [|b].
  - cbn [Nat.mul Nat.add]. rewrite app_nth1 by now rewrite map_length, seq_length.
    rewrite (nth_indep _ false (0 <? n)) by now rewrite map_length, seq_length.
    rewrite (map_nth (fun j => j <? n)), seq_nth by exact Hj. reflexivity.
  - rewrite app_nth2; rewrite map_length, seq_length; cbn; [|lia].
    replace (V + b * V + j - V) with (b * V + j) by lia. apply IH; lia.
Qed.

(** * get_points(id) *)

Lemma get_points_int p i :
  length (pts p) = length (bids p) -> (0 <= i <= Z.of_nat (bsize p))%Z ->
  get_points_id p (IdInt i) = Ok (element (Z.to_nat i) (pts p) (bids p)).
Proof.
  intros Hl Hi. unfold get_points_id. cbn [bind].
  destruct (Z.ltb_spec (Z.of_nat (bsize p)) i); [lia|].
  rewrite Hl, Nat.eqb_refl. cbn [negb]. f_equal. unfold element.
  rewrite (mask_select_combine (fun b => Z.eqb (Z.of_nat b) i)). f_equal. apply filter_ext.
  intros [a b]. cbn. destruct (Z.eqb_spec (Z.of_nat b) i), (Nat.eqb_spec b (Z.to_nat i)); lia || reflexivity.
Qed.

Lemma get_points_int_big p i :
  (Z.of_nat (bsize p) < i)%Z -> get_points_id p (IdInt i) = Err IndexError.
Proof.
  intros Hi. unfold get_points_id. cbn [bind].
  destruct (Z.ltb_spec (Z.of_nat (bsize p)) i); [reflexivity|lia].
Qed.

Lemma get_points_int_neg p i :
  length (pts p) = length (bids p) -> (i < 0)%Z -> get_points_id p (IdInt i) = Ok [].
Proof.
  intros Hl Hi. unfold get_points_id. cbn [bind].
  destruct (Z.ltb_spec (Z.of_nat (bsize p)) i); [lia|].
  rewrite Hl, Nat.eqb_refl. cbn [negb]. f_equal.
  rewrite (mask_select_combine (fun b => Z.eqb (Z.of_nat b) i)).
  rewrite filter_none; [reflexivity|]. intros [a b] _. cbn. apply Z.eqb_neq. lia.
Qed.

Lemma get_points_same p p' id :
  same_data p p' -> segshape p' = segshape p -> get_points_id p' id = get_points_id p id.
Proof.
  intros (H1&H2&H3&H4&H5) Hs. unfold get_points_id. now rewrite H1, H3, H4, Hs.
Qed.

Lemma segment_id_row_major shape idx acc :
  in_shape shape idx ->
  segment_id shape (map Z.of_nat idx) acc = Ok (acc * nprod shape + row_major shape idx).
Proof.
  intros H. revert acc; induction H as [|n i s r Hni H IH]; intros acc; cbn.
  - f_equal. lia.
  - destruct (Z.ltb_spec (Z.of_nat i) 0); [lia|].
    destruct (Z.leb_spec 0 (Z.of_nat i)); [|lia].
    destruct (Z.ltb_spec (Z.of_nat i) (Z.of_nat n)); [|lia]. cbn [andb].
    rewrite Nat2Z.id, IH. f_equal. unfold nprod. ring.
Qed.

Lemma row_major_lt shape idx : in_shape shape idx -> row_major shape idx < nprod shape.
Proof.
  intros H; induction H as [|n i s r Hni H IH]; cbn; [lia|].
  fold (nprod s). assert (row_major s r < nprod s) by exact IH. nia.
Qed.

Lemma segment_id_out shape idx acc :
  length shape = length idx -> ~ in_shape shape idx ->
  segment_id shape (map Z.of_nat idx) acc = Err InvalidArgument.
Proof.
  revert idx acc; induction shape as [|n s IH]; intros [|i r] acc Hl Hn; cbn in Hl; try lia.
  - exfalso. apply Hn. constructor.
  - cbn. destruct (Z.ltb_spec (Z.of_nat i) 0); [lia|].
    destruct (Z.leb_spec 0 (Z.of_nat i)); [|lia].
    destruct (Z.ltb_spec (Z.of_nat i) (Z.of_nat n)); cbn [andb]; [|reflexivity].
    apply IH; [lia|]. intros Hr. apply Hn. constructor; [lia|exact Hr].
Qed.

(** * Features *)

Lemma element_nth_rank {A} (rows : list A) ids i d :
  length rows = length ids -> i < length ids ->
  nth (rank i ids) (element (nth i ids 0) rows ids) d = nth i rows d /\
  rank i ids < count_occ Nat.eq_dec ids (nth i ids 0).
Proof.
  unfold rank, element.
  revert ids i; induction rows as [|r rows IH]; intros [|b ids] i Hl Hi; cbn in Hl, Hi; try lia.
  destruct i as [|i].
  - cbn. rewrite Nat.eqb_refl. cbn. destruct (Nat.eq_dec b b); [|congruence]. split; [reflexivity|lia].
  - specialize (IH ids i ltac:(lia) ltac:(lia)). cbn.
    destruct (Nat.eqb_spec b (nth i ids 0)) as [E|E]; destruct (Nat.eq_dec b (nth i ids 0)); try congruence; cbn.
    all: split; [tauto|lia].

Qed.

Lemma rank_exists ids b j :
  j < count_occ Nat.eq_dec ids b -> exists i, i < length ids /\ nth i ids 0 = b /\ rank i ids = j.
Proof.
  revert j. induction ids as [|c ids IH]; intros j Hmk; cbn in Hmk; [lia|].
  destruct (Nat.eq_dec c b) as [->|n].
  - destruct j as [|j].
    + exists 0. cbn. repeat split; lia.
    + destruct (IH j ltac:(lia)) as (i & Hi & Hn & Hr). exists (S i).
      cbn. split; [lia|]. split; [exact Hn|]. unfold rank in *. cbn. rewrite Hn in *.
      destruct (Nat.eq_dec b b); [lia|congruence].
  - destruct (IH j Hmk) as (i & Hi & Hn & Hr). exists (S i). cbn. split; [lia|]. split; [exact Hn|].
    unfold rank in *. cbn. rewrite Hn in *. destruct (Nat.eq_dec c b); [congruence|exact Hr].
Qed.

(** If padded data is the layout of [rows], flattening it returns [rows]. *)
Lemma flatten_layout {A} (z : A) (p : pc) V (rows : list A) :
  good p -> length rows = length (bids p) -> wide_enough p V ->
  snd (flatten_features (inl (Padded (out_shape p) V (padded_layout z V (bsize p) rows (bids p)))) p)
  = Ok rows.
Proof.
  intros G Hl HV. unfold flatten_features. rewrite (get_sizes_good p G). cbn [snd bind].
  unfold flatten_batch_to_2d. cbn [ishape ivals pshape pV prows]. rewrite list_eqb_refl. cbn [bind].
  pose proof (padded_layout_scatter z V (bsize p) rows (bids p) Hl HV) as E.
  apply mask_select_scatter in E. rewrite E. cbn. rewrite (g_sidx p G).
  apply gather_invert.
  - rewrite Hl. apply argsort_perm.
  - now apply gather_sorted; [|apply G].
Qed.

(** General padded features: valid rows are read, padding is ignored. *)
Lemma flatten_features_spec {A} (p : pc) (t : padded A) (d : A) :
  good p -> pshape t = out_shape p -> length (prows t) = bsize p * pV t -> wide_enough p (pV t) ->
  exists f, snd (flatten_features (inl t) p) = Ok f /\ length f = length (bids p) /\
    forall i, i < length (bids p) ->
      nth i f d = nth (nth i (bids p) 0 * pV t + rank i (bids p)) (prows t) d.
Proof.
  intros G Hs Hr HV.
  set (V := pV t) in *. set (ids := bids p) in *.
  set (rows := map (fun i => nth (nth i ids 0 * V + rank i ids) (prows t) d) (seq 0 (length ids))).
  assert (Hl : length rows = length ids) by (unfold rows; now rewrite map_length, seq_length).
  assert (Hnth : forall i, i < length ids -> nth i rows d = nth (nth i ids 0 * V + rank i ids) (prows t) d).
  { intros i Hi. unfold rows.
    rewrite (nth_indep _ d (nth (nth 0 ids 0 * V + rank 0 ids) (prows t) d)) by now rewrite map_length, seq_length.
    rewrite (map_nth (fun i => nth (nth i ids 0 * V + rank i ids) (prows t) d)). now rewrite seq_nth. }
  exists rows. split; [|split; [exact Hl|exact Hnth]].
  (* the padding of t does not matter: compare with the layout of rows *)
  pose proof (flatten_layout d p V rows G Hl HV) as E.
  unfold flatten_features in *. rewrite (get_sizes_good p G) in *. cbn [snd bind] in *.
  unfold flatten_batch_to_2d in *. cbn [ishape ivals pshape pV prows] in *.
  rewrite Hs, list_eqb_refl in *. fold V. rewrite <- E. cbn [bind]. f_equal.
  fold ids.
  assert (Hm : forall m (a b : list A), length m = length a -> length m = length b ->
    (forall k, k < length m -> nth k m false = true -> nth k a d = nth k b d) ->
    mask_select m a = mask_select m b).
  { clear. induction m as [|c m IH]; intros [|x a] [|y b] Ha Hb H; cbn in *; try lia; [reflexivity|].
    destruct c.
    - f_equal; [apply (H 0); [lia|reflexivity]|]. apply IH; try lia. intros k Hk Hm. apply (H (S k)); [lia|exact Hm].
    - apply IH; try lia. intros k Hk Hm. apply (H (S k)); [lia|exact Hm]. }
  assert (Hlay : length (padded_layout d V (bsize p) rows ids) = bsize p * V).
  { pose proof (padded_layout_scatter d V (bsize p) rows ids Hl HV) as Es.
    apply mask_scatter_length in Es as [_ Es]. rewrite Es, sequence_mask_length, true_sizes_length. reflexivity. }
  apply Hm; rewrite sequence_mask_length, true_sizes_length; [lia|lia|].
  intros k Hk Hmk. destruct (Nat.eq_dec V 0) as [V0|V0]; [rewrite V0 in Hk; lia|].
  pose proof (Nat.div_mod k V V0) as Hdm. pose proof (Nat.mod_upper_bound k V V0) as Hj.
  set (b := k / V) in *. set (j := k mod V) in *.
  assert (Hb : b < bsize p) by (apply Nat.div_lt_upper_bound; lia).
  replace k with (b * V + j) in * by lia.
  rewrite sequence_mask_nth in Hmk by (rewrite ?true_sizes_length; assumption).
  apply Nat.ltb_lt in Hmk. unfold true_sizes in Hmk.
  rewrite (nth_indep _ 0 (count_occ Nat.eq_dec ids 0)) in Hmk by now rewrite map_length, seq_length.
  rewrite (map_nth (fun b => count_occ Nat.eq_dec ids b)), seq_nth in Hmk by exact Hb. cbn in Hmk.
  rewrite padded_layout_nth by assumption.
  destruct (Nat.ltb_spec j (count_occ Nat.eq_dec ids b)); [|lia].
  (* the j-th point of element b *)
  assert (Hex : exists i, i < length ids /\ nth i ids 0 = b /\ rank i ids = j).
  { now apply rank_exists. }
  destruct Hex as (i & Hi & Hn & Hrk).
  pose proof (element_nth_rank rows ids i d Hl Hi) as [He _]. rewrite Hn, Hrk in He. rewrite He, (Hnth i Hi).
  now rewrite Hn, Hrk.
Qed.
