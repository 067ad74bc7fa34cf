(** Facts about the density inside neighborhoods: the index tensors of the
    code enumerate, block by block, all pairs of rows of one center. *)
From Coq Require Import List Arith ZArith QArith Reals Qreals Lia Bool.
From Verif Require Import Tensor TensorFacts Spec PointCloud SpecCloud
  Grid SpecGrid Neighbors SpecNeighbors Neighborhood Pdf SpecPdf PdfFacts.
Import ListNotations.
Local Open Scope nat_scope.

Fixpoint offsets {A} (s : nat) (bl : list (list A)) : list nat :=
  match bl with [] => [] | b :: r => s :: offsets (s + length b) r end.
Lemma offsets_length {A} s (bl : list (list A)) : length (offsets s bl) = length bl.
Proof. revert s; induction bl; intros; cbn; auto. Qed.
Lemma offsets_nth {A} (bl : list (list A)) : forall s i, i < length bl ->
  nth i (offsets s bl) 0 = s + length (concat (firstn i bl)).
Proof.
  induction bl as [|b bl IH]; intros s [|i] H; cbn in *; try lia.
  rewrite IH by lia. rewrite app_length. lia.
Qed.

Lemma firstn_S_nth {A} (bl : list (list A)) j : j < length bl -> firstn (S j) bl = firstn j bl ++ [nth j bl []].
Proof.
  revert bl; induction j as [|j IH]; intros [|b bl] H; cbn in *; try lia; [reflexivity|]. now rewrite <- IH by lia.
Qed.
Lemma seq_shift' s n : map (Nat.add s) (seq 0 n) = seq s n.
Proof.
  revert s; induction n as [|n IH]; intros s; [reflexivity|]. cbn. rewrite Nat.add_0_r. f_equal.
  rewrite <- seq_shift, map_map, <- (IH (S s)). apply map_ext. intros; lia.
Qed.

(** * Ranges in terms of blocks *)
Section Del.
  Variables (ends : list Z) (nbs : list (nat * nat)) (M : nat).
  Hypothesis Hd : delimits ends nbs M.
  Let bl := map (fun i => filter (fun q => Nat.eqb (snd q) i) nbs) (seq 0 M).

  Lemma bl_nth i : i < M -> nth i bl [] = filter (fun q => Nat.eqb (snd q) i) nbs.
  Proof using. intros H. unfold bl. now rewrite nth_map_seq. Qed.
  Lemma bl_length : length bl = M.
  Proof using. unfold bl. now rewrite map_length, seq_length. Qed.

  Lemma firstn_blocks i : i < M ->
    nth i ends 0%Z = Z.of_nat (length (concat (firstn (S i) bl))) /\
    firstn (Z.to_nat (nth i ends 0%Z)) nbs = concat (firstn (S i) bl).
  Proof using Hd.
    destruct Hd as (Hl & Hlast & H). pose proof bl_length as Lb.
    assert (Hstep : forall i, i < M -> firstn (S i) bl = firstn i bl ++ [nth i bl []]).
    { intros j Hj. apply firstn_S_nth. lia. }
    induction i as [|i IH]; intros Hi; specialize (H _ Hi); cbv zeta in H; destruct H as (H1 & H2 & H3);
      rewrite <- bl_nth in H3 by exact Hi; rewrite Hstep by exact Hi.
    - cbn [firstn app concat]. rewrite app_nil_r. unfold slice in H3. cbn [skipn Z.to_nat] in H3. rewrite Nat.sub_0_r in H3.
      split; [|exact H3]. rewrite <- H3, firstn_length. lia.
    - destruct IH as [I1 I2]; [lia|]. rewrite concat_app. cbn [concat]. rewrite app_nil_r.
      set (s := nth i ends 0%Z) in *. set (e := nth (S i) ends 0%Z) in *.
      assert (E : firstn (Z.to_nat e) nbs = concat (firstn (S i) bl) ++ nth (S i) bl []).
      { rewrite <- I2, <- H3. unfold slice. rewrite <- (firstn_skipn (Z.to_nat s) nbs) at 1.
        rewrite firstn_app, firstn_firstn, firstn_length. f_equal; f_equal; lia. }
      split; [|exact E]. rewrite <- E, firstn_length. lia.
  Qed.

  Lemma nbs_blocks : 0 < M -> nbs = concat bl.
  Proof using Hd.
    intros HM. destruct Hd as (Hl & Hlast & H). destruct (firstn_blocks (M - 1)) as [H1 H2]; [lia|].
    replace (S (M - 1)) with (length bl) in H2 by (rewrite bl_length; lia). rewrite firstn_all in H2.
    rewrite Hlast, Nat2Z.id, firstn_all in H2 by exact HM. exact H2.
  Qed.

  Lemma starts_offsets : 0 < M -> 0%Z :: removelast ends = map Z.of_nat (offsets 0 bl).
  Proof using Hd.
    intros HM. pose proof Hd as (Hl & _ & _). pose proof bl_length as Lb.
    assert (Lr : length (removelast ends) = M - 1).
    { destruct ends as [|x r]; [cbn in *; lia|]. rewrite (app_removelast_last 0%Z (l := x :: r)) in Hl by discriminate.
      rewrite app_length in Hl. cbn [length] in Hl. lia. }
    apply (nth_ext _ _ 0%Z (Z.of_nat 0)).
    - cbn [length]. rewrite map_length, offsets_length, Lr. lia.
    - intros i Hi. cbn [length] in Hi. rewrite map_nth, offsets_nth by lia. destruct i as [|i]; [reflexivity|].
      cbn [nth]. rewrite Nat.add_0_l. destruct (firstn_blocks i) as [H1 _]; [lia|]. rewrite <- H1.
      rewrite (app_removelast_last 0%Z (l := ends)) at 2 by (intros ->; cbn in Hl; lia).
      rewrite app_nth1 by lia. reflexivity.
  Qed.

  Lemma sizes_blocks : 0 < M ->
    map (fun p => (fst p - snd p)%Z) (combine ends (0%Z :: removelast ends)) = map (fun b => Z.of_nat (length b)) bl.
  Proof using Hd.
    intros HM. rewrite starts_offsets by exact HM. pose proof Hd as (Hl & _ & _). pose proof bl_length as Lb.
    assert (Lo : length (map Z.of_nat (offsets 0 bl)) = M) by (now rewrite map_length, offsets_length).
    apply (nth_ext _ _ 0%Z (Z.of_nat (length (@nil (nat * nat))))).
    - rewrite !map_length, combine_length, Hl, Lo. lia.
    - rewrite map_length, combine_length, Hl, Lo, Nat.min_id. intros i Hi.
      rewrite (nth_map_combine _ _ _ i _ 0%Z 0%Z) by lia.
      rewrite (map_nth (fun b => Z.of_nat (length b))). cbn [fst snd].
      rewrite (map_nth Z.of_nat _ 0), offsets_nth by lia. destruct (firstn_blocks i) as [H1 _]; [exact Hi|].
      rewrite H1, firstn_S_nth by lia. rewrite concat_app, app_length. cbn [concat]. rewrite app_nil_r. lia.
  Qed.
End Del.

(** * The index tensors, block by block *)
Lemma tf_repeat_zip {A} (data : list A) reps : length reps = length data ->
  tf_repeat data reps = Ok (concat (map (fun p => repeat (fst p) (snd p)) (combine data reps))).
Proof.
  intros H. unfold tf_repeat.
  assert (E : (match reps with [r] => repeat r (length data) | _ => reps end) = reps).
  { destruct reps as [|r [|r' l]]; try reflexivity. rewrite <- H. reflexivity. }
  rewrite E, H, Nat.eqb_refl. reflexivity.
Qed.

Lemma repeat_map_const {A B} (x : B) (l : list A) : map (fun _ => x) l = repeat x (length l).
Proof. induction l; cbn; congruence. Qed.

Lemma concat_map_concat {A B} (f : A -> list B) ll : concat (map f (concat ll)) = concat (map (fun l => concat (map f l)) ll).
Proof. induction ll as [|l ll IH]; [reflexivity|]. cbn. now rewrite map_app, concat_app, IH. Qed.

(** rows with the size of their block *)
Definition with_size {A} (bl : list (list A)) : list (A * nat) := concat (map (fun b => map (fun a => (a, length b)) b) bl).

Lemma with_size_length {A} (bl : list (list A)) : length (with_size bl) = length (concat bl).
Proof. induction bl as [|b bl IH]; [reflexivity|]. unfold with_size in *. cbn. now rewrite !app_length, map_length, IH. Qed.
Lemma with_size_fst {A} (bl : list (list A)) : map fst (with_size bl) = concat bl.
Proof.
  induction bl as [|b bl IH]; [reflexivity|]. unfold with_size in *. cbn. rewrite map_app, map_map, IH. cbn.
  now rewrite map_id.
Qed.
Lemma with_size_snd {A} (bl : list (list A)) : map snd (with_size bl) = concat (map (fun b => repeat (length b) (length b)) bl).
Proof.
  induction bl as [|b bl IH]; [reflexivity|]. unfold with_size in *. cbn. rewrite map_app, map_map, IH. cbn.
  now rewrite repeat_map_const.
Qed.

Lemma repeat_sizes {A} (bl : list (list A)) :
  tf_repeat (map (@length A) bl) (map (@length A) bl) = Ok (map snd (with_size bl)).
Proof.
  rewrite tf_repeat_zip by reflexivity. rewrite with_size_snd. do 2 f_equal.
  induction bl as [|b bl IH]; [reflexivity|]. cbn. now rewrite IH.
Qed.

Lemma repeat_data {A C} (f : A -> C) (bl : list (list A)) :
  tf_repeat (map f (concat bl)) (map snd (with_size bl))
  = Ok (concat (map (fun b => concat (map (fun a => repeat (f a) (length b)) b)) bl)).
Proof.
  rewrite tf_repeat_zip by (now rewrite !map_length, with_size_length).
  rewrite <- (with_size_fst bl), map_map, combine_maps, map_map. cbn [fst snd]. f_equal. unfold with_size.
  rewrite concat_map_concat, map_map. f_equal. apply map_ext. intros b. now rewrite map_map.
Qed.

Lemma repeat_starts {A} s (bl : list (list A)) :
  tf_repeat (map Z.of_nat (offsets s bl)) (map (@length A) bl)
  = Ok (concat (map (fun p => repeat (Z.of_nat (fst p)) (length (snd p))) (combine (offsets s bl) bl))).
Proof.
  rewrite tf_repeat_zip by (now rewrite !map_length, offsets_length). do 2 f_equal.
  revert s; induction bl as [|b bl IH]; intros s; [reflexivity|]. cbn. now rewrite IH.
Qed.

Lemma length_blocks_seq {A} s (bl : list (list A)) :
  length (concat (map (fun p => repeat (Z.of_nat (fst p)) (length (snd p))) (combine (offsets s bl) bl))) = length (concat bl).
Proof. revert s; induction bl as [|b bl IH]; intros s; [reflexivity|]. cbn. now rewrite !app_length, repeat_length, IH. Qed.

Lemma concat_repeat_map {A B} (l : list B) (b : list A) : concat (map (fun _ => l) b) = concat (repeat l (length b)).
Proof. now rewrite repeat_map_const. Qed.

Lemma mask_rows {A} V s (bl : list (list A)) : Forall (fun b => length b <= V) bl ->
  mask_select (sequence_mask (map snd (with_size bl)) V)
    (concat (map (fun z => map (fun j => (Z.of_nat j + z)%Z) (seq 0 V))
       (concat (map (fun p => repeat (Z.of_nat (fst p)) (length (snd p))) (combine (offsets s bl) bl)))))
  = map Z.of_nat (concat (map (fun p => concat (map (fun _ => seq (fst p) (length (snd p))) (snd p))) (combine (offsets s bl) bl))).
Proof.
  revert s; induction bl as [|b bl IH]; intros s HF; [reflexivity|].
  inversion HF as [|? ? Hb HF' E1]. unfold with_size. cbn [map concat offsets combine fst snd].
  rewrite !map_app, concat_app. unfold sequence_mask. rewrite map_app, concat_app.
  rewrite mask_select_app.
  - f_equal; [|apply IH, HF']. fold (sequence_mask (map snd (map (fun a => (a, length b)) b)) V).
    rewrite mask_select_blocks.
    + rewrite map_map. cbn [snd]. rewrite repeat_map_const.
      assert (G : forall k, concat (map (fun p => firstn (fst p) (snd p))
         (combine (repeat (length b) k) (map (fun z => map (fun j => (Z.of_nat j + z)%Z) (seq 0 V)) (repeat (Z.of_nat s) k))))
         = map Z.of_nat (concat (repeat (seq s (length b)) k))).
      { induction k as [|k IHk]; [reflexivity|]. cbn. rewrite IHk, map_app. f_equal.
        rewrite firstn_map. replace V with (length b + (V - length b)) by lia.
        rewrite seq_app, firstn_app, seq_length, Nat.sub_diag, firstn_O, app_nil_r, firstn_all2 by (now rewrite seq_length).
        rewrite <- (seq_shift' s), map_map. apply map_ext. intros. lia. }
      rewrite G. now rewrite concat_repeat_map.
    + now rewrite !map_length, repeat_length.
    + apply Forall_map, Forall_forall. intros. now rewrite map_length, seq_length.
  - assert (G : forall (f : nat -> list bool) (h : Z -> list Z), (forall n z, length (f n) = length (h z)) -> 
      length (concat (map f (map snd (map (fun a : A => (a, length b)) b)))) = length (concat (map h (repeat (Z.of_nat s) (length b))))).
    { intros f h Hf. generalize (length b) at 1. clear -Hf. intros m. induction b as [|a b IHb]; [reflexivity|]. cbn. rewrite !app_length, IHb. f_equal. apply Hf. }
    apply G. intros. now rewrite !map_length.
Qed.

Lemma combine_fst_lt {A} s (bl : list (list A)) : Forall (fun i => s <= i < s + length (concat bl))
  (concat (map (fun p => concat (map (fun _ => seq (fst p) (length (snd p))) (snd p))) (combine (offsets s bl) bl))).
Proof.
  revert s; induction bl as [|b bl IH]; intros s; [constructor|]. cbn [offsets combine map concat fst snd].
  rewrite app_length. apply Forall_app. split.
  - apply Forall_forall. intros i H. apply in_concat in H as (l & Hl & Hi). apply in_map_iff in Hl as (_ & <- & _).
    apply in_seq in Hi. lia.
  - eapply Forall_impl; [|apply IH]. cbv beta. lia.
Qed.

Lemma gather_rows {A C} (f : A -> C) (d : C) (bl : list (list A)) :
  gather (map f (concat bl))
    (concat (map (fun p => concat (map (fun _ => seq (fst p) (length (snd p))) (snd p))) (combine (offsets 0 bl) bl)))
  = Ok (concat (map (fun b => concat (map (fun _ => map f b) b)) bl)).
Proof.
  rewrite (gather_map _ _ d).
  2:{ rewrite map_length. eapply Forall_impl; [|apply combine_fst_lt]. cbv beta. lia. }
  f_equal.
  assert (G : forall bl pre, map (fun i => nth i (map f (pre ++ concat bl)) d)
      (concat (map (fun p => concat (map (fun _ => seq (fst p) (length (snd p))) (snd p))) (combine (offsets (length pre) bl) bl)))
    = concat (map (fun b => concat (map (fun _ => map f b) b)) bl)).
  { clear bl. induction bl as [|b bl IH]; intros pre; [reflexivity|]. cbn [offsets combine map concat fst snd].
    rewrite map_app. f_equal.
    - rewrite concat_map, map_map. f_equal. apply map_ext. intros _.
      rewrite <- (seq_shift' (length pre)), map_map, !map_app.
      transitivity (map (fun i => nth i (map f b) d) (seq 0 (length (map f b)))); [|apply TensorFacts.map_nth_seq].
      rewrite map_length. apply map_ext_in.
      intros i Hi. apply in_seq in Hi. rewrite app_nth2; rewrite map_length; [|lia].
      rewrite app_nth1 by (rewrite map_length; lia). f_equal. lia.
    - rewrite app_assoc. rewrite <- app_length. apply IH. }
  apply (G bl []).
Qed.

Lemma combine_const {A C} (x : A) (l : list C) n : length l = n -> combine (repeat x n) l = map (fun y => (x, y)) l.
Proof. revert n; induction l as [|y l IH]; intros [|n] H; cbn in *; try lia; [reflexivity|]. rewrite IH by lia. reflexivity. Qed.

(** All pairs of one block. *)
Lemma pairs_blocks {A P C} (f h : A -> P) (K : P * P -> C) (bl : list (list A)) :
  map K (combine (concat (map (fun b => concat (map (fun a => repeat (f a) (length b)) b)) bl))
                 (concat (map (fun b => concat (map (fun _ => map h b) b)) bl)))
  = concat (concat (map (fun b => map (fun a => map (fun c => K (f a, h c)) b) b) bl)).
Proof.
  induction bl as [|b bl IH]; [reflexivity|]. cbn [map concat].
  assert (L : forall l : list A, length (concat (map (fun a => repeat (f a) (length b)) l)) = length (concat (map (fun _ => map h b) l))).
  { induction l as [|a l IHl]; [reflexivity|]. cbn. now rewrite !app_length, IHl, repeat_length, map_length. }
  rewrite combine_app by apply L. rewrite map_app, concat_app, IH. f_equal.
  assert (G : forall l : list A, map K (combine (concat (map (fun a => repeat (f a) (length b)) l)) (concat (map (fun _ => map h b) l)))
     = concat (map (fun a => map (fun c => K (f a, h c)) b) l)).
  { induction l as [|a l IHl]; [reflexivity|]. cbn [map concat].
    rewrite combine_app by (now rewrite repeat_length, map_length).
    rewrite map_app, IHl. f_equal. rewrite combine_const by (now rewrite map_length). now rewrite !map_map. }
  apply G.
Qed.

Lemma list_max0_blocks {A} (bl : list (list A)) : Forall (fun b => length b <= list_max0 (map (@length A) bl)) bl.
Proof. apply Forall_forall. intros b Hb. apply list_max0_ge. now apply in_map. Qed.

Section Inside.
  Variables (n : nbh) (D M : nat) (bw : list R).
  Let nbs := nnbs n.
  Let points := gspts (ngrid n).
  Hypothesis Hshape : rshape (nranges n) = [M].
  Hypothesis HM : 0 < M.
  Hypothesis Hd : delimits (rdata (nranges n)) nbs M.
  Hypothesis HD : dim (gcloud (ngrid n)) = D.
  Hypothesis Hin : Forall (fun q => fst q < length points) nbs.
  Hypothesis Hbw : length bw = D.
  Hypothesis Hr : length (nradii n) = D.

  Lemma inside_ok dev mode :
    compute_pdf_inside dev n bw mode = Ok (map (fun q =>
      (rsum (map (fun q' => kernel D bw (nradii n) (nth (fst q) points []) (nth (fst q') points []))
        (filter (fun q' => Nat.eqb (snd q') (snd q)) nbs)) / rprod bw)%R) nbs).
  Proof using Hshape HM Hd HD Hin Hbw Hr.
    unfold compute_pdf_inside. rewrite Hshape, HD. fold nbs points.
    pose proof Hd as (Hl & _ & _).
    rewrite (sizes_blocks _ _ _ Hd HM), (starts_offsets _ _ _ Hd HM).
    set (bl := map (fun i => filter (fun q => Nat.eqb (snd q) i) nbs) (seq 0 M)).
    assert (Eb : nbs = concat bl) by (apply (nbs_blocks _ _ _ Hd HM)).
    assert (Hnn : forallb (fun z => (0 <=? z)%Z) (map (fun b : list (nat * nat) => Z.of_nat (length b)) bl) = true).
    { apply forallb_forall. intros z Hz. apply in_map_iff in Hz as (b & <- & _). apply Z.leb_le; lia. }
    rewrite Hnn. cbn [negb].
    destruct (rdata (nranges n)) as [|e0 er] eqn:Ee; [cbn in Hl; lia|]. clear Ee.
    rewrite map_map. rewrite (map_ext (fun x => Z.to_nat (Z.of_nat (length x))) (@length (nat * nat))) by (intros; lia).
    rewrite repeat_sizes. cbn [bind]. rewrite Eb. rewrite repeat_data. cbn [bind]. rewrite repeat_starts. cbn [bind].
    rewrite length_blocks_seq, Nat.eqb_refl. cbn [negb].
    rewrite (mask_rows _ _ bl (list_max0_blocks bl)).
    assert (Hnn2 : forall l, forallb (fun z => (0 <=? z)%Z) (map Z.of_nat l) = true).
    { intros l. apply forallb_forall. intros z Hz. apply in_map_iff in Hz as (b & <- & _). apply Z.leb_le; lia. }
    rewrite Hnn2. cbn [negb]. rewrite map_map, (map_ext (fun x => Z.to_nat (Z.of_nat x)) (fun x => x)), map_id by (intros; lia).
    rewrite (gather_rows fst 0 bl). cbn [bind].
    assert (HinB : forall b a, In b bl -> In a b -> fst a < length points).
    { intros b a Hb Ha. rewrite Eb in Hin. rewrite Forall_forall in Hin. apply Hin, in_concat. eauto. }
    rewrite (gather_map points _ []).
    2:{ apply Forall_forall. intros i Hi. apply in_concat in Hi as (l & Hl' & Hi). apply in_map_iff in Hl' as (b & <- & Hb).
        apply in_concat in Hi as (l & Hl' & Hi). apply in_map_iff in Hl' as (a & <- & Ha). apply repeat_spec in Hi. subst. eauto. }
    cbn [bind]. rewrite (gather_map points _ []).
    2:{ apply Forall_forall. intros i Hi. apply in_concat in Hi as (l & Hl' & Hi). apply in_map_iff in Hl' as (b & <- & Hb).
        apply in_concat in Hi as (l & Hl' & Hi). apply in_map_iff in Hl' as (a & <- & Ha). apply in_map_iff in Hi as (c & <- & Hc). eauto. }
    cbn [bind]. rewrite rel_ok by assumption. cbn [bind].
    set (rel := map (fun d => (nth d bw 0 * Q2R (nth d (nradii n) 0%Q))%R) (seq 0 D)).
    set (K := fun q : list Q * list Q => rprod (map (fun d => gauss ((Q2R (nth d (fst q) 0%Q) - Q2R (nth d (snd q) 0%Q)) / nth d rel 0)%R) (seq 0 D))).
    set (pt := fun i => nth i points []).
    assert (E1 : map pt (concat (map (fun b : list (nat*nat) => concat (map (fun a => repeat (fst a) (length b)) b)) bl))
      = concat (map (fun b => concat (map (fun a => repeat (pt (fst a)) (length b)) b)) bl)).
    { rewrite concat_map, map_map. f_equal. apply map_ext. intros b. rewrite concat_map, map_map. f_equal. apply map_ext. intros a.
      generalize (length b). induction n0; cbn; congruence. }
    assert (E2 : map pt (concat (map (fun b : list (nat*nat) => concat (map (fun _ => map fst b) b)) bl))
      = concat (map (fun b => concat (map (fun _ => map (fun a => pt (fst a)) b) b)) bl)).
    { rewrite concat_map, map_map. f_equal. apply map_ext. intros b. rewrite concat_map, map_map. f_equal. apply map_ext. intros a.
      now rewrite map_map. }
    rewrite E1, E2, (pairs_blocks (fun a => pt (fst a)) (fun a => pt (fst a)) K bl).
    set (VB := concat (map _ bl)).
    assert (Ls : map (@length R) VB = map snd (with_size bl)).
    { unfold VB. rewrite with_size_snd, concat_map, map_map. f_equal. apply map_ext. intros b. rewrite map_map.
      erewrite map_ext; [apply repeat_map_const|]. intros a. cbv beta. now rewrite map_length. }
    assert (Lv : length VB = length (concat bl)).
    { rewrite <- (map_length (@length R)), Ls, map_length. apply with_size_length. }
    rewrite (tf_repeat_seq' _ _ (eq_trans (map_length _ _) (with_size_length bl))). cbn [bind]. rewrite <- Ls.
    rewrite useg_ok.
    - cbn [bind]. f_equal. rewrite map_map. rewrite <- Lv.
      assert (E3 : map (fun x => (rsum (segment x (concat VB) (block_ids 0 (map (@length R) VB))) / rprod bw)%R) (seq 0 (length VB))
         = map (fun v => (rsum v / rprod bw)%R) VB).
      { rewrite (map_seq_nth (fun v => (rsum v / rprod bw)%R) VB []). apply map_ext. intros s. rewrite segment_blocks. cbn. now rewrite Nat.sub_0_r. }
      rewrite E3. unfold VB. rewrite !concat_map, !map_map. f_equal. apply map_ext_in. intros b Hb. rewrite map_map.
      apply map_ext_in. intros a Ha. do 2 f_equal.
      assert (Hb' : b = filter (fun q' => Nat.eqb (snd q') (snd a)) (concat bl)).
      { unfold bl in Hb. apply in_map_iff in Hb as (i & Ei & _). rewrite <- Eb. rewrite <- Ei in Ha. apply filter_In in Ha as [_ Ha].
        apply Nat.eqb_eq in Ha. now rewrite Ha, Ei. }
      rewrite <- Hb'. apply map_ext. intros c. unfold K, kernel, product_over. cbn [fst snd].
      change (fold_right Rmult 1%R) with rprod. f_equal. apply map_ext_in. intros d Hd'. apply in_seq in Hd'.
      rewrite std_normal_gauss. unfold rel. rewrite nth_map_seq by lia. reflexivity.
    - rewrite block_ids_length, length_concat. reflexivity.
    - rewrite <- Lv, Forall_forall. intros i Hi. apply block_ids_range in Hi. rewrite map_length in Hi. lia.
  Qed.
End Inside.
