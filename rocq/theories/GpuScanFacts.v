(** The prefix sum kernels compute block-wise prefix sums under every schedule. *)
From Coq Require Import List Arith ZArith Lia Bool Permutation.
From Verif Require Import Cuda CudaFacts MemFacts GpuScan.
Import ListNotations.

(** * Sums over ranges and the two sweeps as functions *)
Definition rsum (x : nat -> Z) (s len : nat) : Z := fold_right Z.add 0%Z (map x (seq s len)).
Lemma rsum_0 x s : rsum x s 0 = 0%Z. Proof. reflexivity. Qed.
Lemma rsum_1 x s : rsum x s 1 = x s. Proof. unfold rsum. cbn. lia. Qed.
Lemma fold_add_app l l' : fold_right Z.add 0%Z (l ++ l') = (fold_right Z.add 0 l + fold_right Z.add 0 l')%Z.
Proof. induction l as [|a l IH]; cbn; [auto|]. rewrite IH. lia. Qed.
Lemma rsum_app x s a b : rsum x s (a + b) = (rsum x s a + rsum x (s + a) b)%Z.
Proof. unfold rsum. rewrite seq_app, map_app, fold_add_app. reflexivity. Qed.
Lemma rsum_ext x y s len : (forall i, s <= i < s + len -> x i = y i) -> rsum x s len = rsum y s len.
Proof. intros H. unfold rsum. f_equal. apply map_ext_in. intros i Hi. apply in_seq in Hi. auto. Qed.
Lemma rsum_shift x s o len : rsum (fun i => x (o + i)) s len = rsum x (o + s) len.
Proof. unfold rsum. rewrite <- (seq_shift_n o), map_map. reflexivity. Qed.

Definition dvd (d n : nat) : bool := n mod d =? 0.
Lemma dvd_iff d n : d <> 0 -> (dvd d n = true <-> exists q, n = q * d).
Proof. intros H. unfold dvd. rewrite Nat.eqb_eq. apply Nat.mod_divide; auto. Qed.
Lemma pow_pos j : 2 ^ j <> 0. Proof. apply Nat.pow_nonzero. lia. Qed.
Lemma dvd_half j n : dvd (2 ^ S j) n = true -> dvd (2 ^ j) n = true.
Proof.
  rewrite !dvd_iff by apply pow_pos. intros (q & ->). exists (q * 2). cbn [Nat.pow]. lia.
Qed.
Lemma dvd_le i j n : i <= j -> dvd (2 ^ j) n = true -> dvd (2 ^ i) n = true.
Proof. intros H. induction H; auto. intros E. apply IHle. now apply dvd_half. Qed.

Section Sweep.
  Variables (k : nat) (x : nat -> Z).
  Let N := 2 ^ S k.
  Definition up (j : nat) (f : nat -> Z) (i : nat) : Z :=
    if dvd (2 ^ S j) (i + 1) then (f i + f (i - 2 ^ j)%nat)%Z else f i.
  Definition down (j : nat) (f : nat -> Z) (i : nat) : Z :=
    if dvd (2 ^ S j) (i + 1) then (f i + f (i - 2 ^ j)%nat)%Z
    else if dvd (2 ^ j) (i + 1) then f (i + 2 ^ j) else f i.
  Definition cleared (f : nat -> Z) (i : nat) : Z := if i =? N - 1 then 0%Z else f i.

  Definition up_inv (j : nat) (f : nat -> Z) : Prop :=
    forall v i, i < N -> v <= j -> dvd (2 ^ v) (i + 1) = true -> (v = j \/ dvd (2 ^ S v) (i + 1) = false) ->
      f i = rsum x (i + 1 - 2 ^ v) (2 ^ v).
  Lemma up_inv_0 f : (forall i, i < N -> f i = x i) -> up_inv 0 f.
  Proof.
    intros H v i Hi Hv _ _. assert (v = 0) by lia. subst v. cbn [Nat.pow]. replace (i + 1 - 1) with i by lia. rewrite rsum_1. auto.
  Qed.
  Lemma up_inv_S j f : up_inv j f -> up_inv (S j) (up j f).
  Proof.
    intros U v i Hi Hv Dv Hm. unfold up.
    destruct (Nat.eq_dec v (S j)) as [->|Hn].
    - rewrite Dv. pose proof (dvd_half _ _ Dv) as Dj.
      rewrite (U j i) by auto. pose proof Dv as Q. apply dvd_iff in Q as (q & Eq); [|apply pow_pos].
      assert (q <> 0) by (intros ->; cbn in Eq; lia). pose proof (pow_pos j). cbn [Nat.pow] in *.
      assert (2 * 2 ^ j <= i + 1) by nia.
      rewrite (U j (i - 2 ^ j)); auto; [|lia|].
      2:{ apply dvd_iff; [auto|]. exists (q * 2 - 1). nia. }
      replace (2 * 2 ^ j) with (2 ^ j + 2 ^ j) by lia. rewrite rsum_app.
      replace (i - 2 ^ j + 1 - 2 ^ j) with (i + 1 - (2 ^ j + 2 ^ j)) by lia.
      replace (i + 1 - (2 ^ j + 2 ^ j) + 2 ^ j) with (i + 1 - 2 ^ j) by lia. lia.
    - destruct Hm as [?|Hm]; [congruence|].
      destruct (dvd (2 ^ S j) (i + 1)) eqn:D.
      + rewrite (dvd_le (S v) (S j) (i + 1)) in Hm by (auto; lia). discriminate.
      + apply U; auto. lia.
  Qed.

  Definition down_inv (j : nat) (f : nat -> Z) : Prop :=
    (forall i, i < N -> dvd (2 ^ j) (i + 1) = true -> f i = rsum x 0 (i + 1 - 2 ^ j)) /\
    (forall v i, i < N -> v < j -> dvd (2 ^ v) (i + 1) = true -> dvd (2 ^ S v) (i + 1) = false ->
       f i = rsum x (i + 1 - 2 ^ v) (2 ^ v)).
  Lemma down_inv_top f : up_inv (S k) f -> down_inv (S k) (cleared f).
  Proof.
    intros U. unfold cleared. split.
    - intros i Hi D. apply dvd_iff in D as (q & Eq); [|apply pow_pos]. fold N in Eq.
      assert (q = 1) by (clear - Hi Eq; clearbody N; nia). assert (i = N - 1) by (subst q; lia). subst i. rewrite Nat.eqb_refl.
      fold N. replace (N - 1 + 1 - N) with 0 by lia. reflexivity.
    - intros v i Hi Hv D D'. destruct (Nat.eqb_spec i (N - 1)) as [->|].
      + exfalso. assert (E : dvd (2 ^ S k) (N - 1 + 1) = true).
        { apply dvd_iff; [apply pow_pos|]. exists 1. pose proof (pow_pos (S k)). fold N in H |- *. lia. }
        rewrite (dvd_le (S v) (S k)) in D' by (auto; lia). discriminate.
      + apply U; auto. lia.
  Qed.
  Lemma down_inv_S j f : j <= k -> down_inv (S j) f -> down_inv j (down j f).
  Proof.
    intros Hj [A B]. unfold down. pose proof (pow_pos j) as Pj. split.
    - intros i Hi D. destruct (dvd (2 ^ S j) (i + 1)) eqn:D'.
      + pose proof D' as Q. apply dvd_iff in Q as (q & Eq); [|apply pow_pos].
        assert (q <> 0) by (intros ->; cbn in Eq; lia). cbn [Nat.pow] in Eq.
        assert (2 * 2 ^ j <= i + 1) by nia.
        rewrite (A i) by auto.
        rewrite (B j (i - 2 ^ j)); [|lia|lia| |].
        * cbn [Nat.pow]. replace (i + 1 - 2 ^ j) with (i + 1 - 2 * 2 ^ j + 2 ^ j) by lia. rewrite rsum_app. f_equal.
          f_equal. lia.
        * apply dvd_iff; auto. exists (q * 2 - 1). nia.
        * destruct (dvd (2 ^ S j) (i - 2 ^ j + 1)) eqn:X; auto. apply dvd_iff in X as (r & Er); [|apply pow_pos]. cbn [Nat.pow] in Er.
          assert (Q : (2 * q) * 2 ^ j = (2 * r + 1) * 2 ^ j) by nia. apply Nat.mul_cancel_r in Q; [lia|auto].
      + rewrite D. pose proof D as Q. apply dvd_iff in Q as (q & Eq); auto.
        assert (Hodd : exists h, q = 2 * h + 1).
        { destruct (Nat.Even_or_Odd q) as [[h ->]|[h ->]]; [|eauto]. exfalso.
          assert (dvd (2 ^ S j) (i + 1) = true); [|congruence]. apply dvd_iff; [apply pow_pos|]. exists h. cbn [Nat.pow]. lia. }
        destruct Hodd as (h & ->).
        assert (D2 : dvd (2 ^ S j) (i + 2 ^ j + 1) = true).
        { apply dvd_iff; [apply pow_pos|]. exists (h + 1). cbn [Nat.pow]. nia. }
        rewrite A; auto.
        * f_equal. cbn [Nat.pow]. lia.
        * assert (HN : exists w, N = w * (2 * 2 ^ j) ).
          { exists (2 ^ (k - j)). unfold N. replace (S k) with (k - j + S j) by lia. rewrite Nat.pow_add_r. reflexivity. }
          destruct HN as (w & Hw). rewrite Hw in *. assert (h < w) by nia. nia.
    - intros v i Hi Hv D D'. destruct (dvd (2 ^ S j) (i + 1)) eqn:E1.
      { rewrite (dvd_le (S v) (S j)) in D' by (auto; lia). discriminate. }
      destruct (dvd (2 ^ j) (i + 1)) eqn:E2.
      { rewrite (dvd_le (S v) j) in D' by (auto; lia). discriminate. }
      apply B; auto.
  Qed.
  Lemma down_inv_0 f : down_inv 0 f -> forall i, i < N -> f i = rsum x 0 i.
  Proof.
    intros [A _] i Hi. rewrite A; auto.
    - f_equal. cbn. lia.
  Qed.

  Lemma ups f j l : up_inv j f -> up_inv (j + l) (fold_left (fun g i => up i g) (seq j l) f).
  Proof.
    revert f j. induction l as [|l IH]; intros f j U; cbn; [now rewrite Nat.add_0_r|].
    rewrite <- Nat.add_succ_comm. apply IH. now apply up_inv_S.
  Qed.
  Lemma downs f l : l <= S k -> down_inv l f -> down_inv 0 (fold_left (fun g i => down i g) (rev (seq 0 l)) f).
  Proof.
    revert f. induction l as [|l IH]; intros f Hl D; [exact D|].
    rewrite seq_S, rev_app_distr. cbn [rev app fold_left Nat.add]. apply IH; [lia|]. apply down_inv_S; auto. lia.
  Qed.
  Lemma sweeps f : (forall i, i < N -> f i = x i) -> forall i, i < N ->
    fold_left (fun g i => down i g) (rev (seq 0 (S k)))
      (cleared (fold_left (fun g i => up i g) (seq 0 (S k)) f)) i = rsum x 0 i.
  Proof.
    intros H. apply down_inv_0, downs; [auto|]. apply down_inv_top. apply (ups f 0 (S k)). now apply up_inv_0.
  Qed.
End Sweep.
