(** Lemmas about the evaluation on the test set. *)
From Coq Require Import List Arith ZArith QArith Reals Qreals Lia Lra Bool Permutation.
From Verif Require Import Tensor TensorFacts PointCloud Spec Pdf RTensor Layers SpecLayers Generator SpecGenerator GeneratorProofs Training SpecTraining.
Import ListNotations.
Local Open Scope nat_scope.

(** ** Sums *)
Lemma rs_app l m : rsum (l ++ m) = (rsum l + rsum m)%R.
Proof. unfold rsum. induction l as [|x l IH]; cbn; [lra|]. rewrite IH. lra. Qed.
Lemma rs_perm l m : Permutation l m -> rsum l = rsum m.
Proof. unfold rsum. induction 1; cbn; lra. Qed.
Lemma rs_scale c l : rsum (map (fun x => (x / c)%R) l) = (rsum l / c)%R.
Proof. unfold rsum. induction l as [|x l IH]; cbn; [lra|]. rewrite IH. lra. Qed.
Lemma rs_concat ls : rsum (concat ls) = rsum (map rsum ls).
Proof. induction ls as [|l ls IH]; cbn; [reflexivity|]. rewrite rs_app, IH. reflexivity. Qed.
Lemma rs_exp l : l <> [] -> (0 < rsum (map exp l))%R.
Proof.
  assert (H : forall l, (0 <= rsum (map exp l))%R).
  { induction l0 as [|x l0 IH]; cbn; [lra|]. pose proof (exp_pos x). unfold rsum in IH. lra. }
  destruct l as [|x l]; [congruence|]. intros _. cbn. pose proof (exp_pos x). specialize (H l). unfold rsum in H. lra.
Qed.

(** ** The predicted class *)
Lemma predicted_unique s k k' : predicted s k -> predicted s k' -> k = k'.
Proof.
  intros (A & B & C) (A' & B' & C'). destruct (lt_eq_lt_dec k k') as [[H|H]|H]; auto; exfalso.
  - specialize (C' _ H). specialize (B k' A'). lra.
  - specialize (C _ H). specialize (B' k A). lra.
Qed.
Lemma predicted_snoc_new p k x : predicted p k -> (nth k p 0 < x)%R -> predicted (p ++ [x]) (length p).
Proof.
  intros (A & B & C) H. rewrite <- (Nat.add_0_r (length p)) at 1. unfold predicted. rewrite app_length. cbn [length]. rewrite (app_nth2 p [x]) by lia. replace (length p + 0 - length p) with 0 by lia. cbn [nth].
  split; [lia|]. split.
  - intros j Hj. destruct (Nat.lt_ge_cases j (length p)) as [L|L]; [rewrite app_nth1 by auto; specialize (B j L); lra|].
    rewrite app_nth2 by auto. replace (j - length p) with 0 by lia. cbn. lra.
  - intros j Hj. rewrite app_nth1 by lia. specialize (B j ltac:(lia)). lra.
Qed.
Lemma predicted_snoc_old p k x : predicted p k -> ~ (nth k p 0 < x)%R -> predicted (p ++ [x]) k.
Proof.
  intros (A & B & C) H. unfold predicted. rewrite app_length. cbn [length]. rewrite (app_nth1 p [x]) by auto. split; [lia|]. split.
  - intros j Hj. destruct (Nat.lt_ge_cases j (length p)) as [L|L]; [rewrite app_nth1 by auto; auto|].
    rewrite app_nth2 by auto. replace (j - length p) with 0 by lia. cbn. lra.
  - intros j Hj. rewrite app_nth1 by lia. auto.
Qed.
Lemma argmax_from_ok r : forall p k, predicted p k -> predicted (p ++ r) (argmax_from (length p) (k, nth k p 0%R) r).
Proof.
  induction r as [|x r IH]; intros p k H; [rewrite app_nil_r; exact H|]. cbn [argmax_from snd].
  replace (p ++ x :: r) with ((p ++ [x]) ++ r) by (rewrite <- app_assoc; reflexivity).
  replace (S (length p)) with (length (p ++ [x])) by (rewrite app_length; cbn; lia).
  destruct (Rlt_dec (nth k p 0%R) x) as [L|L].
  - replace (length p, x) with (length p, nth (length p) (p ++ [x]) 0%R).
    + apply IH. eapply predicted_snoc_new; eauto.
    + f_equal. rewrite app_nth2, Nat.sub_diag by lia. reflexivity.
  - replace (k, nth k p 0%R) with (k, nth k (p ++ [x]) 0%R).
    + apply IH. eapply predicted_snoc_old; eauto.
    + f_equal. apply app_nth1. apply H.
Qed.
Lemma argmax_ok s : s <> [] -> predicted s (argmax s).
Proof.
  destruct s as [|x r]; [congruence|]. intros _. cbn [argmax]. apply (argmax_from_ok r [x] 0).
  split; [cbn; lia|]. split; [|intros j Hj; lia]. intros j Hj. destruct j; cbn in *; [lra|lia].
Qed.
Lemma softmax_nth s j : j < length s -> nth j (softmax s) 0%R = (exp (nth j s 0) / rsum (map exp s))%R.
Proof.
  intros H. unfold softmax. rewrite (nth_indep _ 0%R (exp 0 / rsum (map exp s))%R) by (rewrite map_length; auto).
  exact (map_nth (fun x => (exp x / rsum (map exp s))%R) s 0%R j).
Qed.
Lemma softmax_length s : length (softmax s) = length s.
Proof. apply map_length. Qed.
Lemma softmax_predicted s k : predicted (softmax s) k <-> predicted s k.
Proof.
  assert (M : s <> [] -> forall i j, i < length s -> j < length s ->
    ((nth i (softmax s) 0 < nth j (softmax s) 0)%R <-> (nth i s 0 < nth j s 0)%R)).
  { intros N i j Hi Hj. rewrite !softmax_nth by auto. pose proof (rs_exp s N) as P. set (S0 := rsum (map exp s)) in *. split; intros H.
    - apply exp_lt_inv. apply Rmult_lt_reg_r with (/ S0)%R; [apply Rinv_0_lt_compat; auto|exact H].
    - apply Rmult_lt_compat_r; [apply Rinv_0_lt_compat; auto|]. now apply exp_increasing. }
  assert (W : s <> [] -> forall i j, i < length s -> j < length s ->
    ((nth i (softmax s) 0 <= nth j (softmax s) 0)%R <-> (nth i s 0 <= nth j s 0)%R)).
  { intros N i j Hi Hj. specialize (M N j i Hj Hi). split; intros H; apply Rnot_lt_le; intros X; apply M in X; lra. }
  unfold predicted. rewrite softmax_length. split; intros (A & B & C); (assert (N : s <> []) by (intros ->; cbn in A; lia)); (split; [auto|split]);
    intros j Hj; first [now apply W; auto|now apply M; [auto|lia|lia|auto]].
Qed.
Lemma softmax_probabilities s : softmax s = probabilities s.
Proof.
  unfold probabilities. apply (nth_ext _ _ 0%R 0%R).
  - now rewrite softmax_length, map_length, seq_length.
  - intros n Hn. rewrite softmax_length in Hn. rewrite softmax_nth by auto.
    rewrite (nth_indep (map _ (seq 0 _)) 0%R (probability s 0)) by (rewrite map_length, seq_length; auto).
    rewrite map_nth, seq_nth by auto. reflexivity.
Qed.
Lemma argmax_hit s k : s <> [] -> (argmax (softmax s) =? k) = true <-> predicted s k.
Proof.
  intros N. assert (N' : softmax s <> []) by (destruct s; [congruence|discriminate]). pose proof (argmax_ok _ N') as P. apply (proj1 (softmax_predicted s _)) in P.
  split; intros H; [apply Nat.eqb_eq in H; subst k; exact P|]. apply Nat.eqb_eq. exact (predicted_unique _ _ _ P H).
Qed.

(** ** The loop over the batches *)
Section Loop.
  Context (loss : list R -> nat -> R) (network : nat -> padded point -> feat -> list nat -> option (result feat)).
  Context (B samples u N : nat) (cloud : nat -> list point) (label : nat -> nat) (scores : nat -> list R).
  Hypothesis Hnet : forall i js, length js = B -> Forall (fun j => j < N) js ->
    network i (Padded [B] samples (concat (map cloud js))) (Feat 1 (inl (Padded [B] samples (repeat [1%R] (B * samples))))) (repeat samples B) =
      Some (Ok (Feat u (inr (map scores js)))).
  Definition hit (j : nat) : bool := argmax (softmax (scores j)) =? label j.
  Definition cost (j : nat) : R := loss (softmax (scores j)) (label j).
  Definition batch_of (js : list nat) (d : batch_data) : Prop :=
    length js = B /\ Forall (fun j => j < N) js /\ slots d = map (fun j => (cloud j, label j)) js /\ ones d = repeat (repeat [1%Q] samples) B.

  Lemma concat_repeat {A} (x : A) n m : concat (repeat (repeat x n) m) = repeat x (m * n).
  Proof. induction m as [|m IH]; cbn; [reflexivity|]. now rewrite IH, repeat_app. Qed.
  Lemma map_repeat' {A A'} (f : A -> A') x n : map f (repeat x n) = repeat (f x) n.
  Proof. induction n; cbn; congruence. Qed.
  Lemma combine_maps {A A' A''} (f : A -> A') (g : A -> A'') l : combine (map f l) (map g l) = map (fun x => (f x, g x)) l.
  Proof. induction l; cbn; congruence. Qed.
  Lemma filter_map_length {A A'} (f : A -> A') p l : length (filter p (map f l)) = length (filter (fun x => p (f x)) l).
  Proof. induction l as [|x l IH]; cbn; [reflexivity|]. destruct (p (f x)); cbn; auto. Qed.

  Lemma evaluate_ok chunks : forall ds i l a, Forall2 batch_of chunks ds ->
    evaluate loss network B samples i ds l a =
      Some (Ok (metric_result (Metric (total l + rsum (map (fun js => (rsum (map cost js) / INR B)%R) chunks)) (values l + length chunks)),
                metric_result (Metric (total a + INR (length (filter hit (concat chunks)))) (values a + length (concat chunks))))).
  Proof using Hnet.
    induction chunks as [|js chunks IH]; intros ds i l a H; inversion H as [|? d ? r (L & F & S & O) H']; subst; cbn [evaluate].
    - destruct l, a. cbn. rewrite !Nat.add_0_r, !Rplus_0_r. reflexivity.
    - assert (P : points_of B samples d = Padded [B] samples (concat (map cloud js))).
      { unfold points_of. rewrite S, map_map. reflexivity. }
      assert (Q1 : features_of B samples d = Feat 1 (inl (Padded [B] samples (repeat [1%R] (B * samples))))).
      { unfold features_of. rewrite O, concat_repeat, map_repeat'. cbn [map]. replace (Q2R 1) with 1%R; [reflexivity|]. unfold Q2R. cbn. lra. }
      rewrite P, Q1, Hnet by auto. cbn [frows]. unfold batch_loss, update_accuracy. rewrite S, !map_length, Nat.eqb_refl, L.
      rewrite !map_map. cbn [snd]. rewrite combine_maps, map_map, filter_map_length. cbn [fst snd].
      rewrite (IH r (Datatypes.S i) _ _ H'). unfold update_mean. cbn [total values map concat rsum fold_right length].
      rewrite filter_app, !app_length, plus_INR. do 4 f_equal.
      + f_equal; [|lia]. unfold cost, rsum. lra.
      + f_equal; [|lia]. change (fun x : nat => argmax (softmax (scores x)) =? label x) with hit. lra.
  Qed.
End Loop.
