(** The whole CUDA neighbor search in terms of the points found per sample and
    offset. *)
From Coq Require Import List Arith ZArith NArith QArith Lia Bool Permutation.
From Verif Require Import Tensor TensorFacts PointCloud QFacts Grid GridFacts Neighbors NeighborFacts Cuda CudaFacts AddFacts GpuGrid GpuGridFacts
  GpuScan SpecGpu GpuScanFacts GpuScanRuns GpuScanProofs GpuNeighbors GpuCountFacts SlotFacts GpuStoreFacts LimitFacts GpuNeighborFacts.
Import ListNotations.
Local Open Scope nat_scope.

Lemma groups_offsets D : supported D -> concat (offset_groups D) = offsets D /\ Forall (fun g => length g = 9) (offset_groups D) /\
  (length (offset_groups D) = 1 /\ D <= 3 \/ 1 < length (offset_groups D) /\ 4 <= D).
Proof.
  unfold supported. intros H. assert (C : D = 2 \/ D = 3 \/ D = 4 \/ D = 5 \/ D = 6) by lia.
  destruct C as [->|[->|[->|[->| ->]]]]; (split; [vm_compute; reflexivity|]); (split; [|vm_compute; lia]);
    apply Forall_forall; intros g Hg;
    match goal with Hg : In g (offset_groups ?d) |- _ =>
      assert (F : forallb (fun x => length x =? 9) (offset_groups d) = true) by (vm_compute; reflexivity) end;
    rewrite forallb_forall in F; apply Nat.eqb_eq; apply (F g Hg).
Qed.

Lemma firstn_S {A} (l : list A) i d : i < length l -> firstn (S i) l = firstn i l ++ [nth i l d].
Proof. revert i. induction l as [|x l IH]; intros [|i] H; cbn in *; auto; try lia. rewrite <- IH by lia. reflexivity. Qed.

Lemma sum_of_app a b : sum_of (a ++ b) = (sum_of a + sum_of b)%Z.
Proof. unfold sum_of. induction a as [|x a IH]; cbn [app fold_right]; [lia|]. rewrite IH. lia. Qed.

(** Start of the rows of sample [s] when [L] are the rows of all samples. *)
Definition start_of (L : list (list nat)) (s : nat) : nat := length (concat (firstn s L)).
Lemma start_step (f : nat -> list nat) N s : s < N -> start_of (map f (seq 0 N)) (s + 1) = start_of (map f (seq 0 N)) s + length (f s).
Proof.
  intros Hs. unfold start_of. rewrite Nat.add_1_r, (firstn_S _ s []) by (rewrite map_length, seq_length; auto).
  rewrite concat_app, app_length.
  cbn [concat]. rewrite app_nil_r. f_equal. now rewrite QFacts.nth_map_seq.
Qed.
Lemma start_ext (f g : nat -> list nat) N s : (forall i, i < N -> length (f i) = length (g i)) -> s <= N ->
  start_of (map f (seq 0 N)) s = start_of (map g (seq 0 N)) s.
Proof.
  intros H. induction s as [|s IH]; intros Hs; [reflexivity|]. rewrite <- (Nat.add_1_r s), !start_step by lia. rewrite IH, H by lia. reflexivity.
Qed.

Lemma rows_tagged (A : nat -> list nat) N (cnt : list Z) (out : list (nat * nat)) :
  let S := start_of (map A (seq 0 N)) in
  length cnt = N -> length out = S N ->
  (forall s, s < N -> nth_error cnt s = Some (Z.of_nat (S s + length (A s)))) ->
  (forall s k, s < N -> k < length (A s) -> nth_error out (S s + k) = Some (nth k (A s) 0, s)) ->
  cnt = cum_ends 0 (map A (seq 0 N)) /\ out = tagged 0 (map A (seq 0 N)).
Proof.
  intros S Lc Lo Hc Ho. set (bl := map A (seq 0 N)) in *. assert (Lb : length bl = N) by (unfold bl; now rewrite map_length, seq_length). split.
  - apply list_eq_nth; [now rewrite cum_ends_length, Lb|]. rewrite Lc. intros i x Hi. rewrite (nth_error_nth _ _ x (Hc i Hi)).
    rewrite (nth_indep _ x 0%Z) by (rewrite cum_ends_length; lia). rewrite cum_ends_nth by lia.
    change (length (concat (firstn (Datatypes.S i) bl))) with (S (Datatypes.S i)). rewrite <- Nat.add_1_r. unfold S, bl. rewrite start_step by auto. lia.
  - assert (Pre : forall s, s <= N -> firstn (S s) out = tagged 0 (map A (seq 0 s))).
    { induction s as [|s IH]; intros Hs; [reflexivity|]. rewrite <- Nat.add_1_r.
      assert (Es : S (s + 1) = S s + length (A s)) by (unfold S, bl; apply start_step; lia).
      assert (Le : S (s + 1) <= S N).
      { assert (X : forall a b, a <= b -> b <= N -> S a <= S b).
        { intros a b Hab. induction Hab as [|b Hab IH']; intros Hb; auto. specialize (IH' ltac:(lia)). rewrite <- Nat.add_1_r.
          unfold S, bl in *. rewrite start_step by lia. lia. }
        apply X; lia. }
      rewrite seq_app, map_app, tagged_app, map_length, seq_length. cbn [Nat.add seq map tagged]. rewrite app_nil_r.
      rewrite Es. rewrite <- (firstn_skipn (S s) (firstn (S s + length (A s)) out)). rewrite firstn_firstn, Nat.min_l by lia. rewrite IH by lia. f_equal.
      apply nth_error_ext. intros k. destruct (Nat.lt_ge_cases k (length (A s))) as [Hk|Hk].
      - rewrite nth_error_map, (nth_error_nth' (A s) k 0) by auto. cbn [option_map]. rewrite <- (Ho s k) by lia.
        rewrite <- (firstn_skipn (S s + length (A s)) out) at 2.
        rewrite nth_error_app1 by (rewrite firstn_length_le; lia).
        rewrite <- (firstn_skipn (S s) (firstn (S s + length (A s)) out)) at 2.
        assert (L1 : length (firstn (S s) (firstn (S s + length (A s)) out)) = S s) by (rewrite !firstn_length; lia).
        rewrite nth_error_app2 by lia. f_equal. lia.
      - replace (nth_error (map (fun j => (j, s)) (A s)) k) with (@None (nat * nat)) by (symmetry; apply nth_error_None; rewrite map_length; auto).
        apply nth_error_None. rewrite skipn_length, firstn_length_le by lia. lia. }
    unfold bl. rewrite <- (Pre N) by lia. rewrite firstn_all2; auto. lia.
Qed.

(** The two passes, from any keys of the samples and any comparison. *)
Lemma search_op_ok (active : kernel -> nat) warp D time near samples pts keys ds nc skeys k (P : list Z -> list (nat * nat) -> Prop) :
  (forall k, active k <> 0) -> warp <> 0 -> (exists q, 2 ^ 8 * 2 = q * (2 * warp)) ->
  length samples <= 2 ^ 8 * 2 + active KScan * (2 * warp) -> samples <> [] ->
  supported D -> length skeys = length samples ->
  let N := length samples in
  Forall (good D samples pts keys nc ds skeys) (offsets D) ->
  (k = 0 \/ forall s, s < N -> length (found_all D samples pts keys nc ds near skeys s (offsets D)) <= k) ->
  (forall A, (forall s, s < N -> Permutation (A s) (found_all D samples pts keys nc ds near skeys s (offsets D))) ->
     P (cum_ends 0 (map A (seq 0 N))) (tagged 0 (map A (seq 0 N)))) ->
  search_op active warp D time near samples pts keys nc ds skeys k P.
Proof.
  intros Ha Hw Hq Hlen Hne HD Lsk N Hgood Hk HP.
  assert (HN : N <> 0) by (unfold N; destruct samples; cbn; congruence).
  unfold search_op. cbv zeta. fold N.
  destruct (groups_offsets D HD) as (Ecat & F9 & Hone).
  assert (FG : Forall (group D samples pts keys nc ds skeys) (offset_groups D)).
  { rewrite Forall_forall in *. intros g Hg. split; [auto|]. apply Forall_forall. intros o Ho. apply Hgood. rewrite <- Ecat. apply in_concat. eauto. }
  apply count_pass_ok; auto. { apply repeat_length. }
  set (F := fun s => found_all D samples pts keys nc ds near skeys s (offsets D)) in *.
  set (counts := map _ _).
  assert (Ec : counts = map (fun s => Z.of_nat (length (F s))) (seq 0 N)).
  { apply map_ext. intros s. rewrite nth_repeat, Ecat. reflexivity. }
  set (S := start_of (map F (seq 0 N))).
  assert (Sum : forall s, s <= N -> sum_of (firstn s counts) = Z.of_nat (S s)).
  { intros s. induction s as [|s IH]; intros Hs; [reflexivity|].
    rewrite (firstn_S _ s 0%Z) by (rewrite Ec, map_length, seq_length; lia).
    rewrite sum_of_app, IH by lia. rewrite Ec, QFacts.nth_map_seq by lia. rewrite <- (Nat.add_1_r s). unfold S. rewrite start_step by lia. unfold sum_of. cbn [fold_right]. lia. }
  assert (Lcn : length counts = N) by (rewrite Ec; now rewrite map_length, seq_length).
  assert (Hstarts : forall s, s < N -> nth_error (map (rsum (val counts) 0) (seq 0 (length counts))) s = Some (Z.of_nat (S s))).
  { intros s Hs. rewrite Lcn, nth_error_map, (nth_error_nth' (seq 0 N) s 0) by (rewrite seq_length; auto). rewrite seq_nth by auto.
    cbn [option_map Nat.add]. now rewrite rsum_firstn, Sum by lia. }
  assert (Htot : rsum (val counts) 0 (length counts) = Z.of_nat (S N)) by (rewrite rsum_firstn, Lcn, Sum; auto).
  match goal with |- (if _ then ?X else _) => enough (R : X) end.
  { destruct (Nat.eqb_spec k 0) as [E0|E0]; auto. apply elem_wise_min_ok; auto.
    { intros E. rewrite E in Lcn. cbn in Lcn. lia. }
    replace (map (fun v => Z.min v (Z.of_nat k)) counts) with counts; auto. rewrite Ec, map_map. apply map_ext_in. intros s Hs. apply in_seq in Hs.
    destruct Hk as [Hk|Hk]; [lia|]. specialize (Hk s ltac:(lia)). unfold F. lia. }
  unfold scan_alg. apply scan_levels_ok; auto.
  { intros E. rewrite E in Lcn. cbn in Lcn. lia. }
  { rewrite Lcn. exact Hlen. }
  rewrite Htot, Nat2Z.id. set (starts := map (rsum (val counts) 0) (seq 0 (length counts))) in *. assert (Lst : length starts = N) by (unfold starts; now rewrite map_length, seq_length).
  assert (St0 : stored D samples pts keys nc ds near skeys S [] (fun _ => []) starts (repeat (0, 0) (S N))).
  { split; [exact Lst|]. split; [now rewrite repeat_length|]. split; [intros; apply Permutation_refl|]. split.
    - intros s Hs. rewrite Hstarts by auto. cbn [length]. now rewrite Nat.add_0_r.
    - intros s q _ Hq0. cbn in Hq0. lia. }
  assert (Fit : forall s, s < N -> S s + length (found_all D samples pts keys nc ds near skeys s ([] ++ concat (offset_groups D))) <= S (s + 1)).
  { intros s Hs. cbn [app]. rewrite Ecat. unfold S. rewrite start_step by auto. fold (F s). lia. }
  assert (End : forall A c o, stored D samples pts keys nc ds near skeys S ([] ++ concat (offset_groups D)) A c o -> P c o).
  { intros A c o (Lc & Lo & PA & Hc & Ho). cbn [app] in PA. rewrite Ecat in PA.
    assert (Es : forall s, s <= N -> S s = start_of (map A (seq 0 N)) s).
    { intros s Hs. unfold S. apply start_ext; auto. intros i Hi. symmetry. apply Permutation_length. apply PA. exact Hi. }
    destruct (rows_tagged A N c o) as [-> ->]; auto.
    - rewrite <- Es by auto. auto.
    - intros s Hs. rewrite <- Es by lia. auto.
    - intros s q Hs Hq0. rewrite <- Es by lia. auto. }
  destruct Hone as [(H1 & _)|(H1 & _)].
  - rewrite H1. cbn [Nat.ltb Nat.leb]. destruct (offset_groups D) as [|offs [|? ?]]; try discriminate. cbn [store_pass map last].
    inversion FG as [|? ? G _]; subst. cbn [concat] in Fit, End. rewrite app_nil_r in Fit, End.
    eapply store_ok with (done := []); eauto.
    destruct Hk as [Hk|Hk]; auto. right. intros s Hs. specialize (Hk s Hs). rewrite <- Ecat in Hk. cbn [concat] in Hk. now rewrite app_nil_r in Hk.
  - replace (1 <? length (offset_groups D)) with true by (symmetry; apply Nat.ltb_lt; auto).
    eapply store_pass_ok with (done := []); eauto. now rewrite Ecat.
Qed.

Lemma find_neighbors_op_ok (active : kernel -> nat) warp D time samples sids pts keys ds nc sl inv invr k (P : list Z -> list (nat * nat) -> Prop) :
  (forall k, active k <> 0) -> warp <> 0 -> (exists q, 2 ^ 8 * 2 = q * (2 * warp)) ->
  length samples <= 2 ^ 8 * 2 + active KScan * (2 * warp) -> samples <> [] ->
  supported D -> length nc = D -> Forall (fun p => length p = D) pts -> Forall (fun lo => length lo = D) sl ->
  length inv = D -> length invr = D -> length sids = length samples -> length keys = length pts -> Forall (fun b => b < length sl) sids ->
  let N := length samples in
  let skeys := map (fun i => gpu_key nc (gpu_cell D (nth (nth i sids 0) sl []) inv nc (nth i samples [])) (nth i sids 0)) (seq 0 N) in
  Forall (good D samples pts keys nc ds skeys) (offsets D) ->
  (k = 0 \/ forall s, s < N -> length (found_all D samples pts keys nc ds (closer D invr) skeys s (offsets D)) <= k) ->
  (forall A, (forall s, s < N -> Permutation (A s) (found_all D samples pts keys nc ds (closer D invr) skeys s (offsets D))) ->
     P (cum_ends 0 (map A (seq 0 N))) (tagged 0 (map A (seq 0 N)))) ->
  find_neighbors_op active warp D time samples sids pts keys ds nc sl inv invr k P.
Proof.
  intros Ha Hw Hq Hlen Hne HD Hnc Hpts Hsl Hinv Hinvr Hsids Hkeys Hb N skeys Hgood Hk HP.
  assert (Lsk : length skeys = length samples) by (unfold skeys; now rewrite map_length, seq_length).
  unfold find_neighbors_op. do 8 (split; [auto|]). apply compute_keys_op_ok; auto.
  { destruct sids; [destruct samples; [congruence|discriminate]|discriminate]. }
  fold N. fold skeys. apply search_op_ok; auto.
Qed.
