(** The kernels of the CUDA neighbor search, one by one. *)
From Coq Require Import List Arith ZArith Lia Bool Permutation.
From Verif Require Import Tensor TensorFacts PointCloud Cuda CudaFacts MemFacts AddFacts GpuGrid GpuGridFacts GpuNeighbors GpuCountFacts SlotFacts.
Import ListNotations.

(** ** Kernels in which every iteration writes its own entry or nothing *)
Definition opt_write {A} (o : nat -> option A) (i : nat) : action (list A) :=
  fun m => match o i with None => Some m | Some r => wr i r m end.
Lemma opt_writes_run {A} (o : nat -> option A) d n l : length l = n ->
  run_all (flat_map (fun i => [opt_write o i]) (seq 0 n)) l = Some (map (fun i => match o i with None => nth i l d | Some r => r end) (seq 0 n)).
Proof.
  intros L. set (f := fun i => match o i with None => nth i l d | Some r => r end).
  assert (H : forall k, k <= n -> run_all (flat_map (fun i => [opt_write o i]) (seq 0 k)) l = Some (map f (seq 0 k) ++ skipn k l)).
  { induction k as [|k IH]; intros Hk; [reflexivity|]. rewrite seq_S, flat_map_app, run_all_app, IH by lia. cbn [obind flat_map app run_all].
    destruct (skipn k l) as [|x r] eqn:E.
    - exfalso. apply (f_equal (@length _)) in E. rewrite skipn_length in E. cbn in E. lia.
    - assert (Ex : nth k l d = x).
      { rewrite <- (firstn_skipn k l), E. rewrite app_nth2; rewrite firstn_length_le by lia; [|lia]. rewrite Nat.sub_diag. reflexivity. }
      cbn [Nat.add]. rewrite map_app, <- app_assoc. cbn [map app]. rewrite <- (skipn_S _ _ _ _ E).
      assert (Ef : f k = match o k with None => nth k l d | Some r => r end) by reflexivity.
      unfold opt_write. rewrite Ef. destruct (o k) as [v|].
      + pose proof (wr_app (map f (seq 0 k)) x v r) as W. rewrite map_length, seq_length in W. rewrite W. reflexivity.
      + rewrite Ex. reflexivity. }
  rewrite H by auto. rewrite skipn_all2 by lia. now rewrite app_nil_r.
Qed.
Lemma opt_body_runs {A} (body : nat -> list (action (list A))) (o : nat -> option A) d blocks bsize n l :
  blocks <> 0 -> bsize <> 0 -> length l = n ->
  (forall i, i < n -> exists g, body i = [g] /\ forall m, g m = opt_write o i m) ->
  every_run (fun m' => m' = map (fun i => match o i with None => nth i l d | Some r => r end) (seq 0 n)) (l, flat_kernel blocks bsize n body).
Proof.
  intros Hb Hs L H. apply flat_kernel_runs; auto.
  - intros i j a a' Hi Hj N Ia Ia'. destruct (H i Hi) as (g & E & G), (H j Hj) as (g' & E' & G'). rewrite E in Ia. rewrite E' in Ia'.
    destruct Ia as [<-|[]], Ia' as [<-|[]]. intros m. rewrite G, G'. unfold opt_write.
    destruct (o i) as [v|] eqn:Ei, (o j) as [w|] eqn:Ej; cbn.
    + transitivity (obind (wr i v m) (wr j w)); [destruct (wr i v m); cbn; auto; rewrite G'; unfold opt_write; now rewrite Ej|].
      rewrite wr_comm by auto. destruct (wr j w m); cbn; auto. rewrite G. unfold opt_write. now rewrite Ei.
    + transitivity (wr i v m); [destruct (wr i v m); cbn; auto; rewrite G'; unfold opt_write; now rewrite Ej|].
      rewrite G. unfold opt_write. now rewrite Ei.
    + rewrite G'. unfold opt_write. rewrite Ej. destruct (wr j w m); cbn; auto. rewrite G. unfold opt_write. now rewrite Ei.
    + rewrite G, G'. unfold opt_write. now rewrite Ei, Ej.
  - rewrite <- (opt_writes_run o d n l L).
    assert (X : forall xs m, (forall i, In i xs -> i < n) -> run_all (flat_map body xs) m = run_all (flat_map (fun i => [opt_write o i]) xs) m).
    { induction xs as [|i xs IH]; intros m Hx; auto. cbn [flat_map]. destruct (H i (Hx i (or_introl eq_refl))) as (g & E & G).
      rewrite E. cbn [app run_all]. rewrite G. destruct (opt_write o i m); cbn; auto. apply IH. intros; apply Hx; right; auto. }
    apply X. intros i Hi. apply in_seq in Hi. lia.
Qed.

Lemma nth_error_ext {A} (l l' : list A) : (forall i, nth_error l i = nth_error l' i) -> l = l'.
Proof.
  revert l'. induction l as [|x l IH]; intros [|y l'] H; auto; try (specialize (H 0); discriminate).
  f_equal; [specialize (H 0); cbn in H; congruence|]. apply IH. intros i. apply (H (S i)).
Qed.

(** ** The kernel that stores the rows *)
(** The items of sample [s] among [per] items per sample. *)
Definition sample_rows (per n : nat) (h : nat -> list nat) (s : nat) : list nat :=
  flat_map (fun i => if i / per =? s then h i else []) (seq 0 n).
Lemma sample_rows_eq per N h s : per <> 0 -> s < N -> sample_rows per (N * per) h s = flat_map (fun t => h (t + per * s)) (seq 0 per).
Proof.
  intros Hp Hs. unfold sample_rows. rewrite <- seq_blocks, flat_map_flat_map.
  assert (X : forall x, flat_map (fun i => if i / per =? s then h i else []) (map (fun t => t + per * x) (seq 0 per)) =
     if x =? s then flat_map (fun t => h (t + per * s)) (seq 0 per) else []).
  { intros x. assert (Q : forall l, (forall t, In t l -> t < per) -> flat_map (fun i => if i / per =? s then h i else []) (map (fun t => t + per * x) l) =
       if x =? s then flat_map (fun t => h (t + per * s)) l else []).
    { induction l as [|t l IH]; intros Hl; [now destruct (x =? s)|]. cbn [map flat_map]. rewrite IH by (intros; apply Hl; right; auto).
      replace ((t + per * x) / per) with x.
      2:{ rewrite (Nat.mul_comm per x), Nat.div_add by auto. rewrite Nat.div_small by (apply Hl; left; auto). lia. }
      destruct (Nat.eqb_spec x s) as [->|]; auto. }
    apply Q. intros t Ht. apply in_seq in Ht. lia. }
  rewrite (flat_map_ext _ _ X). destruct (in_split s (seq 0 N)) as (a & b & E); [apply in_seq; lia|].
  assert (ND : NoDup (seq 0 N)) by apply seq_NoDup. rewrite E in ND |- *. rewrite flat_map_app. cbn [flat_map]. rewrite Nat.eqb_refl.
  apply NoDup_remove_2 in ND. rewrite in_app_iff in ND.
  assert (Z : forall l, ~ In s l -> flat_map (fun x => if x =? s then flat_map (fun t => h (t + per * s)) (seq 0 per) else []) l = []).
  { intros l Hl. apply flat_map_nil. intros x Hx. destruct (Nat.eqb_spec x s); auto. subst. tauto. }
  rewrite !Z by tauto. now rewrite app_nil_r.
Qed.
Lemma sample_rows_len per n h s : Z.of_nat (length (sample_rows per n h s)) = tot (fun i => if (i / per =? s)%nat then Z.of_nat (length (h i)) else 0%Z) (seq 0 n).
Proof.
  unfold sample_rows. induction (seq 0 n) as [|i l IH]; auto. cbn [flat_map]. rewrite app_length, Nat2Z.inj_add, IH, tot_cons.
  destruct (i / per =? s); cbn [length]; lia.
Qed.

Section Store.
  Variables (bs per n blocks N : nat) (fnd : nat -> option (list nat)).
  Hypothesis Hbs : bs <> 0.
  Hypothesis Hblocks : blocks <> 0.
  Hypothesis Hper : per <> 0.
  Hypothesis Hn : n = N * per.
  Hypothesis Hf : forall i, i < n -> exists l, fnd i = Some l.
  Let h := hits fnd.
  Let item i := map (fun j => (j, i / per)) (h i).
  Let todo g := flat_map item (strided g (blocks * bs) n).

  Lemma store_descs : thread_kernel blocks bs n (store_body per fnd) =
    desc_kernel sact (map (fun b => map (fun t => sprog (t + bs * b) (None, todo (t + bs * b))) (seq 0 bs)) (seq 0 blocks)).
  Proof.
    unfold thread_kernel, desc_kernel. rewrite map_map. apply map_ext. intros b. rewrite map_map. apply map_ext. intros t.
    set (g := t + bs * b). unfold flat_thread. f_equal. unfold sprog, todo. cbn [fst snd app].
    assert (X : forall l, (forall i, In i l -> i < n) -> flat_map (store_body per fnd g) l =
       map sact (flat_map (fun r => [SAlloc g (snd r); SStore g (fst r) (snd r)]) (flat_map item l))).
    { induction l as [|i l IH]; intros Hl; auto. cbn [flat_map]. rewrite flat_map_app, map_app, IH by (intros; apply Hl; right; auto). f_equal.
      unfold store_body, item, h, hits. destruct (Hf i (Hl i (or_introl eq_refl))) as (js & ->). clear.
      induction js as [|j js IH]; auto. cbn [map flat_map app fst snd sact]. now rewrite IH. }
    apply X. intros i Hi. apply strided_in in Hi; [tauto|]. nia.
  Qed.

  Lemma store_rows s : rows_for s (flat_map item (seq 0 n)) = sample_rows per n h s.
  Proof.
    unfold sample_rows. induction (seq 0 n) as [|i l IH]; auto. cbn [flat_map]. rewrite rows_for_app, IH. f_equal.
    unfold item. clear. unfold rows_for. induction (h i) as [|j js IH]; cbn; [now destruct (i / per =? s)|].
    destruct (i / per =? s) eqn:E; cbn; rewrite IH; auto.
  Qed.

  (** Rows are stored from [lo s] on; the intervals of different samples are
      kept apart by the bounds [S s]. *)
  Theorem store_kernel_runs (lo S : nat -> nat) cnt regs out0 (P : smem -> Prop) :
    length cnt = N -> length regs = blocks * bs -> length out0 = S N ->
    (forall s, s < N -> nth_error cnt s = Some (Z.of_nat (lo s))) ->
    (forall s, s < N -> S s <= lo s /\ lo s + length (sample_rows per n h s) <= S (s + 1)) ->
    (forall m A, (forall s, s < N -> Permutation (A s) (sample_rows per n h s)) -> length (sm_cnt m) = N ->
       (forall s, s < N -> nth_error (sm_cnt m) s = Some (Z.of_nat (lo s + length (sample_rows per n h s)))) ->
       placed N (S N) lo out0 A (sm_out m) -> P m) ->
    every_run P (SMem cnt regs out0, thread_kernel blocks bs n (store_body per fnd)).
  Proof.
    intros Lc Lr Lo Hc Hlo HP. rewrite store_descs.
    assert (Sm : forall a b, a <= b -> b <= N -> S a <= S b).
    { intros a b Hab. induction Hab as [|b Hab IH]; intros Hb; auto. specialize (IH ltac:(lia)). specialize (Hlo b ltac:(lia)). rewrite Nat.add_1_r in Hlo. lia. }
    eapply (slots_run N (S N) lo (flat_map item (seq 0 n)) out0) with (todo := map todo (seq 0 (blocks * bs))).
    - intros r Hr. apply in_flat_map in Hr. destruct Hr as (i & Hi & Hr). apply in_seq in Hi. unfold item in Hr. apply in_map_iff in Hr.
      destruct Hr as (j & <- & _). cbn. apply Nat.div_lt_upper_bound; auto. lia.
    - auto.
    - intros s Hs. rewrite store_rows. destruct (Hlo s Hs). specialize (Sm (s + 1) N). lia.
    - intros s s' k k' Hs Hs' Hk Hk' E. rewrite store_rows in Hk, Hk'. destruct (Hlo s Hs), (Hlo s' Hs').
      destruct (lt_eq_lt_dec s s') as [[C|C]|C]; [|subst; lia|].
      + specialize (Sm (s + 1) s'). lia.
      + specialize (Sm (s' + 1) s). lia.
    - transitivity (map (fun g => sprog g (None, todo g)) (seq 0 (blocks * bs))).
      + rewrite <- seq_blocks, flat_map_concat_map, concat_map, map_map. f_equal. apply map_ext. intros b. rewrite map_map. reflexivity.
      + apply nth_error_ext. intros g. rewrite progs_nth, !nth_error_map. destruct (Nat.lt_ge_cases g (blocks * bs)) as [Hg|Hg].
        * rewrite (nth_error_nth' (seq 0 (blocks * bs)) g 0) by (rewrite seq_length; auto). rewrite seq_nth by auto. reflexivity.
        * replace (nth_error (seq 0 (blocks * bs)) g) with (@None nat) by (symmetry; apply nth_error_None; rewrite seq_length; auto). reflexivity.
    - rewrite <- flat_map_concat_map. unfold todo. rewrite <- flat_map_flat_map. apply Permutation_flat_map. apply strided_all. nia.
    - now rewrite map_length, seq_length.
    - auto.
    - auto.
    - intros m A HA Lm Hm Hpl. apply (HP m A); auto.
      + intros s Hs. rewrite <- store_rows. auto.
      + intros s Hs. rewrite <- store_rows. auto.
  Qed.
End Store.
