(** [lower] decides [means] for lower case names. *)
From Coq Require Import String Ascii List Arith Lia Bool.
From Verif Require Import Tensor Sampling SpecText.
Import ListNotations.
Local Open Scope nat_scope.

Lemma same_letter_lower a b : same_letter a b -> lower_ascii a = lower_ascii b.
Proof.
  intros H. destruct H as [c|k Hk|k Hk]; [reflexivity| |];
    do 26 (destruct k as [|k]; [reflexivity|]); lia.
Qed.
Lemma letter_lower c : same_letter c (lower_ascii c).
Proof.
  unfold lower_ascii. set (n := nat_of_ascii c).
  destruct ((65 <=? n) && (n <=? 90)) eqn:E; [|constructor].
  apply andb_true_iff in E. destruct E as [E1 E2]. apply Nat.leb_le in E1, E2.
  rewrite <- (ascii_nat_embedding c). fold n. replace n with (65 + (n - 65)) at 1 by lia.
  replace (n + 32) with (97 + (n - 65)) by lia. apply same_upper. lia.
Qed.
Lemma same_text_lower s t : same_text s t -> lower s = lower t.
Proof.
  revert t. induction s as [|a s IH]; intros [|b t] H; cbn in H |- *; try contradiction; [reflexivity|].
  destruct H as [H1 H2]. now rewrite (same_letter_lower _ _ H1), (IH _ H2).
Qed.
Lemma text_lower s : same_text s (lower s).
Proof. induction s as [|a s IH]; cbn; [exact I|]. split; [apply letter_lower|exact IH]. Qed.

Lemma means_lower s names : Forall (fun n => lower n = n) names -> means s names <-> In (lower s) names.
Proof.
  intros H. split.
  - intros (n & Hn & E). apply same_text_lower in E. rewrite Forall_forall in H. rewrite E, (H n Hn). exact Hn.
  - intros Hi. exists (lower s). split; [exact Hi|apply text_lower].
Qed.
