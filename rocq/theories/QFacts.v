(** Rational arithmetic helpers. *)
From Coq Require Import List Arith ZArith QArith Qminmax Qround Qabs Lia Lqa Bool.
From Verif Require Import Tensor TensorFacts PointCloud.
Import ListNotations.
Local Open Scope Q_scope.

Definition Qsum (l : list Q) : Q := fold_right Qplus 0 l.

Lemma Qsum_le {A} (f g : A -> Q) l :
  (forall a, In a l -> f a <= g a) -> Qsum (map f l) <= Qsum (map g l).
Proof.
  induction l as [|a l IH]; intros H; cbn; [lra|].
  assert (f a <= g a) by (apply H; now left).
  assert (Qsum (map f l) <= Qsum (map g l)) by (apply IH; intros b Hb; apply H; now right).
  unfold Qsum in *. lra.
Qed.

Lemma Qsum_ext {A} (f g : A -> Q) l :
  (forall a, In a l -> f a == g a) -> Qsum (map f l) == Qsum (map g l).
Proof.
  intros H. apply Qle_antisym; apply Qsum_le; intros a Ha; rewrite (H a Ha); lra.
Qed.

Lemma Qsum_nonneg {A} (f : A -> Q) l : (forall a, In a l -> 0 <= f a) -> 0 <= Qsum (map f l).
Proof.
  induction l as [|a l IH]; intros H; cbn; [lra|].
  assert (0 <= f a) by (apply H; now left).
  assert (0 <= Qsum (map f l)) by (apply IH; intros b Hb; apply H; now right).
  unfold Qsum in *. lra.
Qed.

Lemma Qsum_ge_elem {A} (f : A -> Q) l a :
  (forall a, In a l -> 0 <= f a) -> In a l -> f a <= Qsum (map f l).
Proof.
  induction l as [|b l IH]; intros H Ha; [destruct Ha|]. cbn.
  assert (0 <= f b) by (apply H; now left).
  assert (0 <= Qsum (map f l)) by (apply Qsum_nonneg; intros c Hc; apply H; now right).
  fold (Qsum (map f l)).
  destruct Ha as [->|Ha]; [lra|].
  assert (f a <= Qsum (map f l)) by (apply IH; [intros c Hc; apply H; now right|exact Ha]). lra.
Qed.

Lemma Qsum_lt {A} (f g : A -> Q) l a :
  (forall a, In a l -> f a <= g a) -> In a l -> f a < g a -> Qsum (map f l) < Qsum (map g l).
Proof.
  induction l as [|b l IH]; intros H Ha Hlt; [destruct Ha|]. cbn.
  fold (Qsum (map f l)) (Qsum (map g l)).
  assert (f b <= g b) by (apply H; now left).
  assert (Qsum (map f l) <= Qsum (map g l)) by (apply Qsum_le; intros c Hc; apply H; now right).
  destruct Ha as [->|Ha]; [lra|].
  assert (Qsum (map f l) < Qsum (map g l)).
  { apply IH; auto. intros c Hc; apply H; now right. }
  lra.
Qed.

Lemma Qsum_app l m : Qsum (l ++ m) == Qsum l + Qsum m.
Proof.
  induction l as [|x l IH].
  - change (Qsum []) with 0. cbn [app]. lra.
  - change (Qsum ((x :: l) ++ m)) with (x + Qsum (l ++ m)). change (Qsum (x :: l)) with (x + Qsum l).
    rewrite IH. lra.
Qed.

Lemma sq_dist_coords D p q :
  length p = D -> length q = D ->
  sq_dist p q = Qsum (map (fun d => (coord p d - coord q d) * (coord p d - coord q d)) (seq 0 D)).
Proof.
  intros Hp Hq. unfold sq_dist, Qsum. f_equal.
  rewrite (combine_nth_seq p q 0 0) by lia. now rewrite map_map, Hp.
Qed.

Lemma sq_mono a b : - b <= a -> a <= b -> a * a <= b * b.
Proof. intros. nra. Qed.

Lemma fold_Qmin_le l x y : In y (x :: l) -> fold_left Qmin l x <= y.
Proof.
  revert x y; induction l as [|a l IH]; intros x y H; cbn.
  - destruct H as [->|[]]. lra.
  - assert (Hm : fold_left Qmin l (Qmin x a) <= Qmin x a) by (apply IH; now left).
    pose proof (Q.le_min_l x a). pose proof (Q.le_min_r x a).
    destruct H as [->|[->|H]]; [lra|lra|]. apply IH. now right.
Qed.

Lemma fold_Qmin_attained l x : exists y, In y (x :: l) /\ fold_left Qmin l x == y.
Proof.
  revert x; induction l as [|a l IH]; intros x; cbn.
  - exists x. split; [now left|lra].
  - destruct (IH (Qmin x a)) as (y & [<-|H] & E).
    + destruct (Q.min_spec x a) as [[_ Em]|[_ Em]].
      * exists x. split; [now left|]. now rewrite E.
      * exists a. split; [right; now left|]. now rewrite E.
    + exists y. split; [right; now right|exact E].
Qed.

Lemma fold_Qmax_ge l x y : In y (x :: l) -> y <= fold_left Qmax l x.
Proof.
  revert x y; induction l as [|a l IH]; intros x y H; cbn.
  - destruct H as [->|[]]. lra.
  - assert (Hm : Qmax x a <= fold_left Qmax l (Qmax x a)) by (apply IH; now left).
    pose proof (Q.le_max_l x a). pose proof (Q.le_max_r x a).
    destruct H as [->|[->|H]]; [lra|lra|]. apply IH. now right.
Qed.

Lemma fold_Qmax_attained l x : exists y, In y (x :: l) /\ fold_left Qmax l x == y.
Proof.
  revert x; induction l as [|a l IH]; intros x; cbn.
  - exists x. split; [now left|lra].
  - destruct (IH (Qmax x a)) as (y & [<-|H] & E).
    + destruct (Q.max_spec x a) as [[_ Em]|[_ Em]].
      * exists a. split; [right; now left|]. now rewrite E.
      * exists x. split; [now left|]. now rewrite E.
    + exists y. split; [right; now right|exact E].
Qed.

Lemma red_min_length D rows : length (red_min D rows) = D.
Proof. unfold red_min. now rewrite map_length, seq_length. Qed.
Lemma red_max_length D rows : length (red_max D rows) = D.
Proof. unfold red_max. now rewrite map_length, seq_length. Qed.

Lemma nth_map_seq {A} (f : nat -> A) n i d : (i < n)%nat -> nth i (map f (seq 0 n)) d = f i.
Proof.
  intros H. rewrite (nth_indep _ d (f 0%nat)) by now rewrite map_length, seq_length.
  rewrite (map_nth f), seq_nth by exact H. reflexivity.
Qed.

Lemma red_min_coord D rows d :
  (d < D)%nat ->
  coord (red_min D rows) d = match map (fun r => coord r d) rows with
                             | [] => flt_max | x :: l => fold_left Qmin l x end.
Proof. intros H. unfold coord at 1, red_min. now rewrite nth_map_seq. Qed.

Lemma red_max_coord D rows d :
  (d < D)%nat ->
  coord (red_max D rows) d = match map (fun r => coord r d) rows with
                             | [] => - flt_max | x :: l => fold_left Qmax l x end.
Proof. intros H. unfold coord at 1, red_max. now rewrite nth_map_seq. Qed.

Lemma red_min_le D rows d r :
  (d < D)%nat -> In r rows -> coord (red_min D rows) d <= coord r d.
Proof.
  intros Hd Hr. rewrite red_min_coord by exact Hd.
  assert (Hin : In (coord r d) (map (fun r => coord r d) rows)) by (apply in_map_iff; eauto).
  destruct (map (fun r => coord r d) rows) as [|x l]; [destruct Hin|]. now apply fold_Qmin_le.
Qed.

Lemma red_max_ge D rows d r :
  (d < D)%nat -> In r rows -> coord r d <= coord (red_max D rows) d.
Proof.
  intros Hd Hr. rewrite red_max_coord by exact Hd.
  assert (Hin : In (coord r d) (map (fun r => coord r d) rows)) by (apply in_map_iff; eauto).
  destruct (map (fun r => coord r d) rows) as [|x l]; [destruct Hin|]. now apply fold_Qmax_ge.
Qed.

Lemma red_min_attained D rows d :
  (d < D)%nat -> rows <> [] -> exists r, In r rows /\ coord (red_min D rows) d == coord r d.
Proof.
  intros Hd Hr. rewrite red_min_coord by exact Hd.
  destruct rows as [|r0 rows]; [congruence|]. cbn [map].
  destruct (fold_Qmin_attained (map (fun r => coord r d) rows) (coord r0 d)) as (y & Hy & E).
  change (coord r0 d :: map (fun r => coord r d) rows) with (map (fun r => coord r d) (r0 :: rows)) in Hy.
  apply in_map_iff in Hy as (r & <- & Hr'). eauto.
Qed.

Lemma red_max_attained D rows d :
  (d < D)%nat -> rows <> [] -> exists r, In r rows /\ coord (red_max D rows) d == coord r d.
Proof.
  intros Hd Hr. rewrite red_max_coord by exact Hd.
  destruct rows as [|r0 rows]; [congruence|]. cbn [map].
  destruct (fold_Qmax_attained (map (fun r => coord r d) rows) (coord r0 d)) as (y & Hy & E).
  change (coord r0 d :: map (fun r => coord r d) rows) with (map (fun r => coord r d) (r0 :: rows)) in Hy.
  apply in_map_iff in Hy as (r & <- & Hr'). eauto.
Qed.
