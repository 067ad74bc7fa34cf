(** A point of a cell is close to the mean of the points of the cell. *)
From Coq Require Import List Arith ZArith QArith Qround Lia Lqa.
From Verif Require Import Tensor TensorFacts PointCloud Spec SpecGrid SpecSampling.
Import ListNotations.
Local Open Scope Q_scope.

Definition qsum (f : nat -> Q) (l : list nat) : Q := fold_right Qplus 0 (map f l).
Definition qlen (l : list nat) : Q := inject_Z (Z.of_nat (length l)).

Lemma qlen_cons x l : qlen (x :: l) == 1 + qlen l.
Proof. unfold qlen. cbn [length]. rewrite Nat2Z.inj_succ, <- Z.add_1_l, inject_Z_plus. reflexivity. Qed.
Lemma qlen_pos l : l <> [] -> 1 <= qlen l.
Proof.
  intros H. unfold qlen. destruct l; [congruence|]. cbn [length]. change 1 with (inject_Z 1). rewrite <- Zle_Qle. lia.
Qed.
Lemma qsum_ext f g l : (forall i, In i l -> f i == g i) -> qsum f l == qsum g l.
Proof.
  induction l as [|x l IH]; intros H; [reflexivity|]. unfold qsum in *. cbn [map fold_right].
  rewrite IH by (intros; apply H; now right). rewrite (H x (or_introl eq_refl)). reflexivity.
Qed.
Lemma qsum_le f g l : (forall i, In i l -> f i <= g i) -> qsum f l <= qsum g l.
Proof.
  induction l as [|x l IH]; intros H; [apply Qle_refl|]. unfold qsum in *. cbn [map fold_right].
  apply Qplus_le_compat; [apply H; now left|apply IH; intros; apply H; now right].
Qed.
Lemma qsum_plus f g l : qsum (fun i => f i + g i) l == qsum f l + qsum g l.
Proof. induction l as [|x l IH]; [reflexivity|]. unfold qsum in *. cbn [map fold_right]. rewrite IH. ring. Qed.
Lemma qsum_scale c f l : qsum (fun i => c * f i) l == c * qsum f l.
Proof. induction l as [|x l IH]; unfold qsum in *; cbn [map fold_right]; [ring|]. rewrite IH. ring. Qed.
Lemma qsum_const c l : qsum (fun _ => c) l == c * qlen l.
Proof.
  induction l as [|x l IH]; [unfold qsum, qlen; cbn; ring|].
  rewrite qlen_cons. unfold qsum in *. cbn [map fold_right]. rewrite IH. ring.
Qed.

(** The largest of some numbers that lie below a bound is below it. *)
Lemma below_bound (f : nat -> Q) l a b : l <> [] -> (forall i, In i l -> a <= f i < b) ->
  exists t, a <= t /\ t < b /\ forall i, In i l -> f i <= t.
Proof.
  induction l as [|x l IH]; intros Hn H; [congruence|]. destruct l as [|y l].
  - exists (f x). destruct (H x (or_introl eq_refl)). split; [assumption|]. split; [assumption|]. intros i [<-|[]]. lra.
  - destruct IH as (t & Ha & Hb & Ht); [discriminate|intros; apply H; now right|].
    destruct (H x (or_introl eq_refl)) as [H1 H2].
    destruct (Qlt_le_dec t (f x)) as [Hlt|Hle].
    + exists (f x). split; [assumption|]. split; [assumption|]. intros i [<-|Hi]; [lra|]. specialize (Ht i Hi). lra.
    + exists t. split; [assumption|]. split; [assumption|]. intros i [<-|Hi]; [exact Hle|apply Ht, Hi].
Qed.

Lemma square_nonneg x : 0 <= x * x.
Proof. nra. Qed.

(** The variance of numbers in an interval of length [r] is less than [r²/4]. *)
Lemma spread f l m a r : l <> [] -> (forall i, In i l -> a <= f i < a + r) -> qlen l * m == qsum f l ->
  4 * qsum (fun i => (f i - m) * (f i - m)) l < qlen l * (r * r).
Proof.
  intros Hn Hi Hm. destruct (below_bound f l a (a + r) Hn Hi) as (t & Ha & Hb & Ht).
  pose proof (qlen_pos l Hn) as Hl.
  assert (E : qsum (fun i => (f i - m) * (f i - m)) l
    == qsum (fun i => (f i - a) * (f i - t)) l + qlen l * ((m - a) * (t - m))).
  { rewrite (qsum_ext _ (fun i => (f i - a) * (f i - t) + ((a + t - (2#1) * m) * f i + (m * m - a * t)))) by (intros; ring).
    rewrite qsum_plus, qsum_plus, qsum_scale, qsum_const, <- Hm. ring. }
  assert (N : qsum (fun i => (f i - a) * (f i - t)) l <= 0).
  { apply Qle_trans with (qsum (fun _ => 0) l); [|rewrite qsum_const; lra].
    apply qsum_le. intros i Hin. destruct (Hi i Hin). specialize (Ht i Hin). nra. }
  rewrite E.
  assert (A : 4 * ((m - a) * (t - m)) <= (t - a) * (t - a)).
  { assert (H : 0 <= ((2#1) * m - a - t) * ((2#1) * m - a - t)) by (apply square_nonneg). lra. }
  assert (H : (t - a) * (t - a) < r * r) by nra.
  set (x := (m - a) * (t - m)) in *. set (y := (t - a) * (t - a)) in *. set (z := r * r) in *.
  assert (0 < qlen l * (z - 4 * x)) by (apply Qmult_lt_0_compat; lra). lra.
Qed.

Lemma dist2_sum D p q : dist2 D p q == qsum (fun d => (nth d p 0 - nth d q 0) * (nth d p 0 - nth d q 0)) (seq 0 D).
Proof. reflexivity. Qed.

Lemma qsum_swap (f : nat -> nat -> Q) l m : qsum (fun i => qsum (f i) m) l == qsum (fun d => qsum (fun i => f i d) l) m.
Proof.
  induction l as [|x l IH].
  - symmetry. transitivity (qsum (fun _ => 0) m); [apply qsum_ext; intros; reflexivity|]. rewrite qsum_const.
    change (qsum (fun i => qsum (f i) m) []) with 0. ring.
  - transitivity (qsum (f x) m + qsum (fun i => qsum (f i) m) l); [reflexivity|]. rewrite IH, <- qsum_plus.
    apply qsum_ext. intros. reflexivity.
Qed.

(** If the mean of values is below a bound, one of them is. *)
Lemma some_below f l b : l <> [] -> qsum f l < qlen l * b -> exists i, In i l /\ f i < b.
Proof.
  intros Hn. induction l as [|x l IH]; [congruence|]. intros H.
  destruct (Qlt_le_dec (f x) b) as [Hx|Hx]; [exists x; split; [now left|exact Hx]|].
  rewrite qlen_cons in H. unfold qsum in *. cbn [map fold_right] in H.
  destruct l as [|y l].
  - change (qlen []) with 0 in H. cbn [map fold_right] in H. lra.
  - destruct IH as (i & Hi & Hb); [discriminate| |exists i; split; [now right|exact Hb]]. nra.
Qed.

(** In at most four dimensions the mean of points in a cube of size [r] is
    closer than [r] to one of them. *)
Lemma mean_close D rows grp p r (a : nat -> Q) : (D <= 4)%nat -> 0 < r -> is_mean D rows grp p ->
  (forall i d, In i grp -> (d < D)%nat -> a d <= xc rows i d < a d + r) ->
  exists i, In i grp /\ dist2 D (nth i rows []) p < r * r.
Proof.
  intros HD Hr (_ & Hn & Hm) Hc. apply some_below; [exact Hn|].
  pose proof (qlen_pos grp Hn) as Hl.
  assert (E : qsum (fun i => dist2 D (nth i rows []) p) grp
    == qsum (fun d => qsum (fun i => (xc rows i d - nth d p 0) * (xc rows i d - nth d p 0)) grp) (seq 0 D)).
  { rewrite <- qsum_swap. apply qsum_ext. intros. reflexivity. }
  rewrite E.
  assert (A : forall d, (d < D)%nat -> 4 * qsum (fun i => (xc rows i d - nth d p 0) * (xc rows i d - nth d p 0)) grp < qlen grp * (r * r)).
  { intros d Hd. apply (spread (fun i => xc rows i d) grp (nth d p 0) (a d) r Hn); [intros; now apply Hc|]. now apply Hm. }
  destruct D as [|[|[|[|[|D]]]]]; [| | | | |lia]; cbn [seq]; unfold qsum at 1; cbn [map fold_right].
  - nra.
  - pose proof (A 0%nat ltac:(lia)). nra.
  - pose proof (A 0%nat ltac:(lia)). pose proof (A 1%nat ltac:(lia)). nra.
  - pose proof (A 0%nat ltac:(lia)). pose proof (A 1%nat ltac:(lia)). pose proof (A 2%nat ltac:(lia)). nra.
  - pose proof (A 0%nat ltac:(lia)). pose proof (A 1%nat ltac:(lia)). pose proof (A 2%nat ltac:(lia)). pose proof (A 3%nat ltac:(lia)). lra.
Qed.

(** Points with the same cell number lie in an interval of the cell size. *)
Lemma cell_interval lo cells p d k : 0 < nth d cells 0 -> cell lo cells p d = k ->
  nth d lo 0 + inject_Z k * nth d cells 0 <= nth d p 0 < nth d lo 0 + inject_Z k * nth d cells 0 + nth d cells 0.
Proof.
  unfold cell. intros Hc Hk. set (x := nth d p 0) in *. set (o := nth d lo 0) in *. set (c := nth d cells 0) in *.
  pose proof (Qfloor_le ((x - o) / c)) as H1. pose proof (Qlt_floor ((x - o) / c)) as H2. rewrite Hk in H1, H2.
  rewrite inject_Z_plus in H2. change (inject_Z 1) with 1 in H2.
  assert (E : x - o == (x - o) / c * c) by (field; lra).
  assert (L1 : inject_Z k * c <= x - o) by (rewrite E; apply Qmult_le_compat_r; [exact H1|lra]).
  assert (L2 : x - o < (inject_Z k + 1) * c) by (rewrite E; apply Qmult_lt_compat_r; [exact Hc|exact H2]).
  split; lra.
Qed.

(** Two points of one cell are closer than the diagonal of the cell. *)
Lemma dist2_diagonal D cs (p q : point) (a : nat -> Q) : (1 <= D)%nat -> length cs = D ->
  (forall d, (d < D)%nat -> a d <= nth d p 0 < a d + nth d cs 0) ->
  (forall d, (d < D)%nat -> a d <= nth d q 0 < a d + nth d cs 0) ->
  dist2 D p q < fold_right Qplus 0 (map (fun c => c * c) cs).
Proof.
  intros HD HL Hp Hq.
  assert (E : fold_right Qplus 0 (map (fun c => c * c) cs) == qsum (fun d => nth d cs 0 * nth d cs 0) (seq 0 D)).
  { unfold qsum. rewrite <- (TensorFacts.map_nth_seq cs 0) at 1. rewrite map_map, HL. reflexivity. }
  rewrite E, dist2_sum.
  assert (H : forall d, (d < D)%nat -> (nth d p 0 - nth d q 0) * (nth d p 0 - nth d q 0) < nth d cs 0 * nth d cs 0).
  { intros d Hd. specialize (Hp d Hd). specialize (Hq d Hd). nra. }
  clear -HD H. destruct D as [|D]; [lia|]. cbn [seq]. unfold qsum. cbn [map fold_right].
  apply Qplus_lt_le_compat; [apply H; lia|]. apply qsum_le. intros i Hi. apply in_seq in Hi.
  apply Qlt_le_weak, H. lia.
Qed.

Lemma dist2_self D p : dist2 D p p == 0.
Proof.
  rewrite dist2_sum, (qsum_ext _ (fun _ => 0)) by (intros; ring). rewrite qsum_const. ring.
Qed.
