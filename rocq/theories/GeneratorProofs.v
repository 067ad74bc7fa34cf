(** Proofs of the properties of the training data generator (C48). *)
From Coq Require Import List Arith ZArith QArith Lia Bool Permutation.
From Verif Require Import Tensor TensorFacts Generator SpecGenerator.
Import ListNotations.
Local Open Scope nat_scope.

Lemma call_fields g s d : models (fst (call g s d)) = models g /\ labels (fst (call g s d)) = labels g /\ batch (fst (call g s d)) = batch g /\
  augment (fst (call g s d)) = augment g /\ order (fst (call g s d)) = order g.
Proof. unfold call. destruct (get_item g s d (position g)); cbn; auto. Qed.
Lemma in_use_inv points ls B aug samples g : in_use points ls B aug samples g ->
  models g = points /\ labels g = ls /\ batch g = B /\ augment g = aug /\ Permutation (order g) (seq 0 (length points)).
Proof.
  induction 1 as [perm P|g d H (A & E & C & D & F)|g i H IH|g perm H (A & E & C & D & F) P]; cbn [gen_step].
  - cbn. repeat split; auto.
  - destruct (call_fields g samples d) as (-> & -> & -> & -> & ->). repeat split; auto.
  - exact IH.
  - cbn. rewrite A, E, C, D. repeat split; auto.
Qed.

Lemma scaled_stretched s row : scaled s row = stretched s row.
Proof.
  unfold scaled, stretched. revert s. induction row as [|x row IH]; intros [|y s]; cbn [combine map length Nat.min seq]; try reflexivity.
  rewrite IH. cbn [nth fst snd]. f_equal. rewrite <- seq_shift, map_map. reflexivity.
Qed.
Lemma item_ok g samples indices s b j m l : nth_error indices b = Some j -> nth_error (models g) j = Some m -> nth_error (labels g) j = Some l ->
  samples <= length m -> item g samples indices s b = Ok (shown (augment g) samples s m, l).
Proof.
  intros E1 E2 E3 L. unfold item. rewrite E1, E2, E3. unfold assign_rows. rewrite firstn_length, Nat.min_l, Nat.eqb_refl by auto. cbn [bind].
  unfold shown. rewrite (map_ext _ _ (scaled_stretched s)). reflexivity.
Qed.
Lemma items_ok g samples indices draws (f : nat -> list (list Q) * nat) bs : (forall b, In b bs -> item g samples indices (draws b) b = Ok (f b)) ->
  items g samples indices draws bs = Ok (map f bs).
Proof.
  induction bs as [|b bs IH]; intros H; cbn; auto. rewrite H by (left; auto). cbn [bind]. rewrite IH by (intros; apply H; right; auto). reflexivity.
Qed.
Lemma get_items_ok g samples draws (f : nat -> batch_data) is : (forall i, In i is -> get_item g samples (draws i) i = Ok (f i)) ->
  get_items g samples draws is = Ok (map f is).
Proof.
  induction is as [|b bs IH]; intros H; cbn; auto. rewrite H by (left; auto). cbn [bind]. rewrite IH by (intros; apply H; right; auto). reflexivity.
Qed.
Lemma nth_error_take {A} n (l : list A) i : i < n -> nth_error (firstn n l) i = nth_error l i.
Proof. revert l i. induction n as [|n IH]; intros [|a l] [|i] H; cbn; auto; try lia. apply IH. lia. Qed.
Lemma nth_error_drop {A} n (l : list A) i : nth_error (skipn n l) i = nth_error l (n + i).
Proof. revert l. induction n as [|n IH]; intros [|a l]; cbn; auto. now destruct i. Qed.

Section Epoch.
  Variables (points : list (list (list Q))) (ls : list nat) (B samples : nat) (aug : bool) (g : generator).
  Hypothesis HB : B <> 0.
  Hypothesis HL : length ls = length points.
  Hypothesis HS : Forall (fun m => samples <= length m) points.
  Hypothesis HG : in_use points ls B aug samples g.
  Let N := length points.

  Definition the_slot (draws : nat -> nat -> list Q) (i b : nat) : list (list Q) * nat :=
    let j := nth (i * B + b) (order g) 0 in (shown aug samples (draws i b) (nth j points []), nth j ls 0).
  Lemma order_lt k : k < N -> nth k (order g) 0 < N.
  Proof.
    intros H. destruct (in_use_inv _ _ _ _ _ _ HG) as (_ & _ & _ & _ & P).
    assert (In (nth k (order g) 0) (seq 0 N)) as I; [|apply in_seq in I; lia].
    eapply Permutation_in; [exact P|]. apply nth_In. rewrite (Permutation_length P), seq_length. exact H.
  Qed.
  Lemma order_length : length (order g) = N.
  Proof. destruct (in_use_inv _ _ _ _ _ _ HG) as (_ & _ & _ & _ & P). rewrite (Permutation_length P). apply seq_length. Qed.
  Lemma get_item_ok draws i : i < N / B -> get_item g samples (draws i) i =
    Ok (Batch (map (the_slot draws i) (seq 0 B)) (repeat (repeat [1%Q] samples) B)).
  Proof.
    intros Hi. destruct (in_use_inv _ _ _ _ _ _ HG) as (E1 & E2 & E3 & E4 & P).
    unfold get_item. rewrite E3. rewrite (items_ok _ _ _ _ (the_slot draws i)); [reflexivity|].
    intros b Hb. apply in_seq in Hb. pose proof (Nat.mul_div_le N B HB). assert (Hk : i * B + b < N) by nia.
    unfold the_slot. rewrite <- E4. apply (item_ok _ _ _ _ _ (nth (i * B + b) (order g) 0)).
    - rewrite nth_error_take by lia. rewrite nth_error_drop. apply nth_error_nth'. rewrite order_length. exact Hk.
    - rewrite E1. apply nth_error_nth'. now apply order_lt.
    - rewrite E2. apply nth_error_nth'. rewrite HL. now apply order_lt.
    - apply (proj1 (Forall_forall _ points) HS). apply nth_In. now apply order_lt.
  Qed.
  Lemma get_item_past draws i : N / B <= i -> get_item g samples draws i = Err IndexError.
  Proof.
    intros Hi. destruct (in_use_inv _ _ _ _ _ _ HG) as (E1 & E2 & E3 & E4 & P).
    unfold get_item. rewrite E3. set (idx := firstn B (skipn (i * B) (order g))).
    assert (Li : length idx < B).
    { unfold idx. rewrite firstn_length, skipn_length, order_length. pose proof (Nat.div_mod N B HB). pose proof (Nat.mod_upper_bound N B HB). nia. }
    assert (V : forall b, b < length idx -> exists x, item g samples idx (draws b) b = Ok x).
    { intros b Hb. assert (Lk : i * B + b < N).
      { unfold idx in Hb. rewrite firstn_length, skipn_length, order_length in Hb. lia. }
      eexists. apply (item_ok _ _ _ _ _ (nth (i * B + b) (order g) 0)).
      - unfold idx. rewrite nth_error_take by lia. rewrite nth_error_drop. apply nth_error_nth'. rewrite order_length. exact Lk.
      - rewrite E1. apply (nth_error_nth' points _ []). now apply order_lt.
      - rewrite E2. apply (nth_error_nth' ls _ 0). rewrite HL. now apply order_lt.
      - apply (proj1 (Forall_forall _ points) HS). apply nth_In. now apply order_lt. }
    assert (G : forall n s, s <= length idx < s + n -> items g samples idx draws (seq s n) = Err IndexError).
    { clear -V. induction n as [|n IH]; intros s H; [lia|]. cbn [seq items]. destruct (Nat.eq_dec s (length idx)) as [->|Hn].
      - unfold item at 1. replace (nth_error idx (length idx)) with (@None nat) by (symmetry; apply nth_error_None; lia). reflexivity.
      - destruct (V s) as (x & ->); [lia|]. cbn [bind]. rewrite IH by lia. reflexivity. }
    rewrite G by lia. reflexivity.
  Qed.
End Epoch.

(** C48. In every epoch, whatever was drawn and done before, the batches show
    [floor(N / B) * B] different models, each with its own label and constant
    features; if [B] divides [N] every model is shown. *)
Lemma C48_epoch_proof :
  forall points ls B samples aug g draws,
    B <> 0 -> length ls = length points -> Forall (fun m => samples <= length m) points ->
    in_use points ls B aug samples g ->
    exists batches js,
      iterate g samples draws = Ok batches /\ length batches = length points / B /\
      NoDup js /\ length js = length points / B * B /\ Forall (fun j => j < length points) js /\
      (length points mod B = 0 -> Permutation js (seq 0 (length points))) /\
      forall i, i < length points / B -> exists d,
        nth_error batches i = Some d /\ length (slots d) = B /\ ones d = repeat (repeat [1%Q] samples) B /\
        forall b, b < B -> let j := nth (i * B + b) js 0 in
          nth_error (slots d) b = Some (shown aug samples (draws i b) (nth j points []), nth j ls 0).
Proof.
  intros points ls B samples aug g draws HB HL HS HG. destruct (in_use_inv _ _ _ _ _ _ HG) as (E1 & E2 & E3 & E4 & P).
  set (N := length points) in *. set (n := N / B). assert (Hn : n * B <= N) by (unfold n; pose proof (Nat.mul_div_le N B HB); lia).
  assert (LO : length (order g) = N) by (rewrite (Permutation_length P); apply seq_length).
  set (f := fun i => Batch (map (the_slot points ls B samples aug g draws i) (seq 0 B)) (repeat (repeat [1%Q] samples) B)).
  exists (map f (seq 0 n)), (firstn (n * B) (order g)). split; [|split; [|split; [|split; [|split; [|split]]]]].
  - unfold iterate, num_batches. rewrite E3, E1. destruct (Nat.eqb_spec B 0); [congruence|]. cbn [bind]. apply get_items_ok.
    intros i Hi. apply in_seq in Hi. apply (get_item_ok points ls B samples aug g HB HL HS HG). fold N. fold n. lia.
  - now rewrite map_length, seq_length.
  - assert (ND : NoDup (order g)) by (eapply Permutation_NoDup; [symmetry; exact P|apply seq_NoDup]).
    rewrite <- (firstn_skipn (n * B) (order g)) in ND. clear -ND. induction (firstn (n * B) (order g)) as [|a l IH]; [constructor|]. cbn [app] in ND. inversion ND; subst.
    constructor; auto. intros X. apply H1. apply in_or_app. auto.
  - rewrite firstn_length. lia.
  - apply Forall_forall. intros j Hj. assert (In j (order g)) by (rewrite <- (firstn_skipn (n * B) (order g)); apply in_or_app; auto).
    eapply Permutation_in in H; [|exact P]. apply in_seq in H. lia.
  - intros M. assert (n * B = N) by (unfold n; pose proof (Nat.div_mod N B HB); lia). rewrite firstn_all2 by lia. exact P.
  - intros i Hi. exists (f i). split; [|split; [|split]].
    + rewrite nth_error_map, (nth_error_nth' (seq 0 n) i 0) by (rewrite seq_length; exact Hi). rewrite seq_nth by exact Hi. reflexivity.
    + cbn. now rewrite map_length, seq_length.
    + reflexivity.
    + intros b Hb. cbn [f slots]. rewrite nth_error_map, (nth_error_nth' (seq 0 B) b 0) by (rewrite seq_length; exact Hb). rewrite seq_nth by exact Hb.
      cbn [option_map Nat.add]. unfold the_slot. cbv zeta. assert (i * B + b < n * B) by nia.
      assert (EN : nth (i * B + b) (firstn (n * B) (order g)) 0 = nth (i * B + b) (order g) 0).
      { rewrite <- (firstn_skipn (n * B) (order g)) at 2. rewrite app_nth1; auto. rewrite firstn_length. lia. }
      rewrite EN. reflexivity.
Qed.

(** C48. After a shuffle the successive calls give the batches of the epoch one
    after the other, and further calls raise an IndexError. *)
Lemma C48_calls_proof :
  forall points ls B samples aug g draws perm k,
    B <> 0 -> length ls = length points -> Forall (fun m => samples <= length m) points ->
    in_use points ls B aug samples g -> Permutation perm (seq 0 (length points)) ->
    exists batches, iterate (on_epoch_end perm g) samples draws = Ok batches /\
      snd (calls k (on_epoch_end perm g) samples draws) =
        map Ok (firstn k batches) ++ repeat (Err IndexError) (k - length batches).
Proof.
  intros points ls B samples aug g draws perm k HB HL HS HG HP.
  assert (HG' : in_use points ls B aug samples (on_epoch_end perm g)) by exact (in_use_end _ _ _ _ _ g perm HG HP).
  destruct (in_use_inv _ _ _ _ _ _ HG') as (E1 & E2 & E3 & E4 & P). set (g0 := on_epoch_end perm g) in *.
  set (n := length points / B).
  set (f := fun i => Batch (map (the_slot points ls B samples aug g0 draws i) (seq 0 B)) (repeat (repeat [1%Q] samples) B)).
  exists (map f (seq 0 n)). split.
  - unfold iterate, num_batches. rewrite E3, E1. destruct (Nat.eqb_spec B 0); [congruence|]. cbn [bind]. apply get_items_ok.
    intros i Hi. apply in_seq in Hi. apply (get_item_ok points ls B samples aug g0 HB HL HS HG'). fold n. lia.
  - assert (G : forall k g1 p, in_use points ls B aug samples g1 -> order g1 = order g0 -> position g1 = p ->
      snd (calls k g1 samples draws) = map Ok (firstn k (map f (seq p (n - p)))) ++ repeat (Err IndexError) (k - (n - p))).
    { clear k. induction k as [|k IH]; intros g1 p U Eo Ep; [reflexivity|]. cbn [calls]. unfold call. rewrite Ep.
      destruct (Nat.lt_ge_cases p n) as [H|H].
      - rewrite (get_item_ok points ls B samples aug g1 HB HL HS U draws p H).
        set (g2 := Generator (models g1) (labels g1) (batch g1) (augment g1) (order g1) (S p)).
        assert (U2 : in_use points ls B aug samples g2).
        { pose proof (in_use_call _ _ _ _ _ g1 (draws p) U) as U2. cbn [gen_step] in U2. unfold call in U2. rewrite Ep in U2.
          rewrite (get_item_ok points ls B samples aug g1 HB HL HS U draws p H) in U2. exact U2. }
        specialize (IH g2 (S p) U2 Eo eq_refl). destruct (calls k g2 samples draws) as [g3 r]. cbn [snd] in IH |- *. rewrite IH.
        replace (n - p) with (S (n - S p)) by lia. cbn [seq map firstn app Nat.sub]. f_equal.
        unfold f, the_slot. rewrite Eo. reflexivity.
      - rewrite (get_item_past points ls B samples aug g1 HB HL HS U (draws p) p H).
        specialize (IH g1 p U Eo Ep). destruct (calls k g1 samples draws) as [g3 r]. cbn [snd] in IH |- *. rewrite IH.
        replace (n - p) with 0 by lia. rewrite !Nat.sub_0_r. cbn [seq map firstn repeat]. rewrite firstn_nil. reflexivity. }
    rewrite map_length, seq_length. rewrite (G k g0 0 HG' eq_refl eq_refl). rewrite Nat.sub_0_r. reflexivity.
Qed.

(** The training loops iterate over the generator without ending an epoch:
    without augmentation every epoch shows the same batches in the same order. *)
Lemma C48_never_reshuffled_proof :
  forall points ls B samples g draws epochs,
    B <> 0 -> length ls = length points -> Forall (fun m => samples <= length m) points ->
    in_use points ls B false samples g ->
    exists batches, training_epochs epochs g samples draws = repeat (Ok batches) epochs.
Proof.
  intros points ls B samples g draws epochs HB HL HS HG. destruct (in_use_inv _ _ _ _ _ _ HG) as (E1 & E2 & E3 & E4 & P).
  set (n := length points / B).
  set (f := fun i => Batch (map (the_slot points ls B samples false g (fun _ _ => []) i) (seq 0 B)) (repeat (repeat [1%Q] samples) B)).
  exists (map f (seq 0 n)). unfold training_epochs. generalize 0 at 1. induction epochs as [|k IH]; intros s; [reflexivity|]. cbn [seq map repeat]. f_equal; [|apply IH].
  unfold iterate, num_batches. rewrite E3, E1. destruct (Nat.eqb_spec B 0); [congruence|]. cbn [bind]. apply get_items_ok.
  intros i Hi. apply in_seq in Hi. rewrite (get_item_ok points ls B samples false g HB HL HS HG) by (fold n; lia). reflexivity.
Qed.

Definition ex_models : list (list (list Q)) := [[[1]; [2]]; [[3]; [4]]; [[5]; [6]]; [[7]; [8]]; [[9]; [10]]]%Q.
Example C48_epoch_example_proof :
  let g := new_generator ex_models [0; 1; 0; 2; 1] 2 false [3; 1; 4; 0; 2] in
  in_use ex_models [0; 1; 0; 2; 1] 2 false 1 g /\
  iterate g 1 (fun _ _ => []) = Ok [Batch [([[7%Q]], 2); ([[3%Q]], 1)] [[[1%Q]]; [[1%Q]]]; Batch [([[9%Q]], 1); ([[1%Q]], 0)] [[[1%Q]]; [[1%Q]]]].
Proof.
  split; [|reflexivity]. apply in_use_new. cbn. apply NoDup_Permutation.
  - repeat constructor; cbn; lia.
  - repeat constructor; cbn; lia.
  - intros x. cbn. lia.
Qed.
Example C48_calls_example_proof :
  let g := new_generator ex_models [0; 1; 0; 2; 1] 2 false [3; 1; 4; 0; 2] in
  map (fun r => match r with Ok d => Some (map snd (slots d)) | Err _ => None end) (snd (calls 3 g 1 (fun _ _ => []))) = [Some [2; 1]; Some [1; 0]; None].
Proof. reflexivity. Qed.
(** Three epochs. *)
Example C48_never_reshuffled_ex_proof :
  let g := new_generator ex_models [0; 1; 0; 2; 1] 2 false [3; 1; 4; 0; 2] in
  in_use ex_models [0; 1; 0; 2; 1] 2 false 1 g /\ Forall (fun m => 1 <= length m) ex_models /\
  training_epochs 3 g 1 (fun _ _ _ => []) =
    repeat (Ok [Batch [([[7%Q]], 2); ([[3%Q]], 1)] [[[1%Q]]; [[1%Q]]]; Batch [([[9%Q]], 1); ([[1%Q]], 0)] [[[1%Q]]; [[1%Q]]]]) 3.
Proof. split; [apply C48_epoch_example_proof|]. split; [repeat constructor|reflexivity]. Qed.
