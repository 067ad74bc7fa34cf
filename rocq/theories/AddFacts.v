(** Facts about additions to cells of a memory: atomic additions, also of
    values and to cells that are determined by other cells, commute. *)
From Coq Require Import List Arith ZArith Lia Bool Permutation.
From Verif Require Import Cuda CudaFacts MemFacts.
Import ListNotations.

(** Sums over lists. *)
Definition tot {A} (f : A -> Z) (l : list A) : Z := fold_right Z.add 0%Z (map f l).
Lemma tot_nil {A} (f : A -> Z) : tot f [] = 0%Z. Proof. reflexivity. Qed.
Lemma tot_cons {A} (f : A -> Z) x l : tot f (x :: l) = (f x + tot f l)%Z. Proof. reflexivity. Qed.
Lemma tot_app {A} (f : A -> Z) l l' : tot f (l ++ l') = (tot f l + tot f l')%Z.
Proof. induction l as [|x l IH]; cbn [app]; rewrite ?tot_cons, ?tot_nil; lia. Qed.
Lemma tot_ext {A} (f g : A -> Z) l : (forall x, In x l -> f x = g x) -> tot f l = tot g l.
Proof.
  induction l as [|x l IH]; intros H; auto. rewrite !tot_cons, IH, (H x); auto; [left; auto|]. intros; apply H; right; auto.
Qed.
Lemma tot_perm {A} (f : A -> Z) l l' : Permutation l l' -> tot f l = tot f l'.
Proof. induction 1; rewrite ?tot_cons in *; lia. Qed.
Lemma tot_flat_map {A B} (f : B -> Z) (g : A -> list B) l : tot f (flat_map g l) = tot (fun x => tot f (g x)) l.
Proof. induction l as [|x l IH]; auto. cbn [flat_map]. rewrite tot_app, tot_cons. lia. Qed.
Lemma tot_map {A B} (f : B -> Z) (g : A -> B) l : tot f (map g l) = tot (fun x => f (g x)) l.
Proof. unfold tot. now rewrite map_map. Qed.
Lemma tot_zero {A} (f : A -> Z) l : (forall x, In x l -> f x = 0%Z) -> tot f l = 0%Z.
Proof.
  induction l as [|x l IH]; intros H; auto. rewrite tot_cons, (H x) by (left; auto). rewrite IH; auto. intros; apply H; right; auto.
Qed.
Lemma tot_plus {A} (f g : A -> Z) l : tot (fun x => f x + g x)%Z l = (tot f l + tot g l)%Z.
Proof. induction l as [|x l IH]; auto. rewrite !tot_cons. lia. Qed.
Lemma tot_scale {A} (c : Z) (f : A -> Z) l : tot (fun x => f x * c)%Z l = (tot f l * c)%Z.
Proof. induction l as [|x l IH]; auto. rewrite !tot_cons. lia. Qed.
Lemma tot_nonneg {A} (f : A -> Z) l : (forall x, In x l -> 0 <= f x)%Z -> (0 <= tot f l)%Z.
Proof.
  induction l as [|x l IH]; intros H; [reflexivity|]. rewrite tot_cons. pose proof (H x ltac:(left; auto)).
  specialize (IH ltac:(intros; apply H; right; auto)). lia.
Qed.
Lemma tot_pick {A} (eqb : A -> A -> bool) (Heq : forall x y, eqb x y = true <-> x = y) (f : A -> Z) l x :
  NoDup l -> In x l -> tot (fun y => if eqb y x then f y else 0%Z) l = f x.
Proof.
  induction l as [|y l IH]; intros N H; [destruct H|]. inversion N; subst. rewrite tot_cons. destruct H as [->|H].
  - rewrite (proj2 (Heq x x) eq_refl). rewrite tot_zero; [lia|]. intros z Hz. destruct (eqb z x) eqn:E; auto. apply Heq in E. subst. contradiction.
  - destruct (eqb y x) eqn:E; [apply Heq in E; subst; contradiction|]. rewrite IH; auto.
Qed.

Lemma modify_some {V} (x : nat * nat) (f : V -> V) m : has m x -> exists m', modify x f m = Some m'.
Proof. intros [v E]. unfold modify. rewrite E. cbn. apply put_some. eexists; eauto. Qed.
Lemma modify_none {V} (x : nat * nat) (f : V -> V) m : get x m = None -> modify x f m = None.
Proof. intros E. unfold modify. now rewrite E. Qed.
Lemma modify_inv {V} (x : nat * nat) (f : V -> V) m m' : modify x f m = Some m' ->
  same_shape m m' /\ (exists v, get x m = Some v /\ get x m' = Some (f v)) /\ forall y, y <> x -> get y m' = get y m.
Proof.
  unfold modify. destruct (get x m) as [v|] eqn:E; cbn; [|discriminate]. intros H. destruct (put_inv _ _ _ _ H) as (S & G & O). eauto.
Qed.

Definition addc (x : nat * nat) (v : Z) : action (mem Z) := modify x (fun w => (w + v)%Z).
Lemma addc_get x v m m' : addc x v m = Some m' -> forall y, get y m' = option_map (fun w => (w + if cell_eqb y x then v else 0)%Z) (get y m).
Proof.
  intros H y. destruct (modify_inv _ _ _ _ H) as (S & (w & E & E') & O). destruct (cell_eqb y x) eqn:Q.
  - apply cell_eqb_eq in Q. subst y. rewrite E, E'. reflexivity.
  - rewrite O; [|intros ->; rewrite cell_eqb_refl in Q; discriminate]. destruct (get y m); cbn; auto. f_equal. lia.
Qed.
Lemma addc_zero x m : has m x -> addc x 0 m = Some m.
Proof.
  intros H. destruct (modify_some x (fun w => (w + 0)%Z) m H) as [m' E]. unfold addc. rewrite E. f_equal.
  destruct (modify_inv _ _ _ _ E) as (S & _ & _). apply mem_ext; [now apply same_shape_sym|]. intros y.
  rewrite (addc_get x 0 m m' E). destruct (get y m) as [w|]; cbn; auto. f_equal. destruct (cell_eqb y x); lia.
Qed.
Lemma addc_commute x v y w : commute (addc x v) (addc y w).
Proof.
  intros m. unfold addc. destruct (get x m) as [a|] eqn:Ex; destruct (get y m) as [b|] eqn:Ey.
  - destruct (modify_some x (fun u => u + v)%Z m (ex_intro _ a Ex)) as [m1 E1]. destruct (modify_some y (fun u => u + w)%Z m (ex_intro _ b Ey)) as [m2 E2].
    rewrite E1, E2. cbn [obind]. destruct (modify_inv _ _ _ _ E1) as (S1 & _ & _). destruct (modify_inv _ _ _ _ E2) as (S2 & _ & _).
    destruct (modify_some y (fun u => u + w)%Z m1 (has_shape m m1 y S1 (ex_intro _ b Ey))) as [m12 E12].
    destruct (modify_some x (fun u => u + v)%Z m2 (has_shape m m2 x S2 (ex_intro _ a Ex))) as [m21 E21].
    rewrite E12, E21. f_equal. destruct (modify_inv _ _ _ _ E12) as (S12 & _ & _). destruct (modify_inv _ _ _ _ E21) as (S21 & _ & _).
    apply mem_ext; [unfold same_shape in *; congruence|]. intros z.
    rewrite (addc_get y w m1 m12 E12), (addc_get x v m m1 E1), (addc_get x v m2 m21 E21), (addc_get y w m m2 E2).
    destruct (get z m); cbn; auto. f_equal. lia.
  - rewrite (modify_none y _ m Ey). cbn [obind]. destruct (modify x _ m) as [m1|] eqn:E1; auto. cbn [obind].
    destruct (modify_inv _ _ _ _ E1) as (S1 & _ & _). apply modify_none. eapply get_none_shape; eauto.
  - rewrite (modify_none x _ m Ex). cbn [obind]. destruct (modify y _ m) as [m1|] eqn:E1; auto. cbn [obind].
    destruct (modify_inv _ _ _ _ E1) as (S1 & _ & _). symmetry. apply modify_none. eapply get_none_shape; eauto.
  - now rewrite (modify_none x _ m Ex), (modify_none y _ m Ey).
Qed.

(** [a] adds to at most one cell, in [W]; cell and summand depend only on the
    cells in [R]. *)
Definition apply_add (o : option ((nat * nat) * Z)) (m : mem Z) : option (mem Z) :=
  match o with None => Some m | Some (x, v) => addc x v m end.
Definition adder (R W : nat * nat -> bool) (a : action (mem Z)) : Prop :=
  exists sel : mem Z -> option (option ((nat * nat) * Z)),
    (forall m, a m = obind (sel m) (fun o => apply_add o m)) /\
    (forall m m', same_shape m m' -> (forall x, R x = true -> get x m = get x m') -> sel m = sel m') /\
    (forall m x v, sel m = Some (Some (x, v)) -> W x = true).

Lemma apply_add_out o m m' : apply_add o m = Some m' ->
  same_shape m m' /\ forall x, (forall y v, o = Some (y, v) -> y <> x) -> get x m' = get x m.
Proof.
  destruct o as [[y v]|]; cbn.
  - intros E. destruct (modify_inv _ _ _ _ E) as (S & _ & O). split; auto. intros x H. apply O. intros ->. now apply (H y v).
  - intros E. injection E as <-. split; [reflexivity|auto].
Qed.
Lemma apply_add_commute o o' : commute (apply_add o) (apply_add o').
Proof.
  destruct o as [[x v]|], o' as [[y w]|]; intros m.
  - apply addc_commute.
  - cbn. destruct (addc x v m); reflexivity.
  - cbn. destruct (addc y w m); reflexivity.
  - reflexivity.
Qed.

Lemma adder_frame R W a : adder R W a -> frame (fun x => R x || W x) W a.
Proof.
  intros (sel & E & I & T). constructor.
  - intros x H. rewrite H. apply orb_true_r.
  - intros m m' H. rewrite E in H. destruct (sel m) as [o|] eqn:Sm; cbn in H; [|discriminate].
    destruct (apply_add_out _ _ _ H) as [S O]. split; auto. intros x Wx. apply O. intros y v Eo. subst o.
    apply T in Sm. intros ->. congruence.
  - intros m1 m2 Sh G. rewrite !E. rewrite (I m1 m2 Sh) by (intros x Hx; apply G; now rewrite Hx).
    destruct (sel m2) as [[[x v]|]|] eqn:Sm; cbn; auto.
    apply T in Sm. pose proof (G x ltac:(rewrite Sm; apply orb_true_r)) as Gx.
    destruct (addc x v m1) as [m1'|] eqn:E1; destruct (addc x v m2) as [m2'|] eqn:E2; auto.
    + intros y Hy. rewrite (addc_get _ _ _ _ E1), (addc_get _ _ _ _ E2), (G y Hy). reflexivity.
    + destruct (modify_inv _ _ _ _ E1) as (_ & (w & Ew & _) & _). rewrite Ew in Gx. symmetry in Gx.
      destruct (modify_some x (fun u => u + v)%Z m2 (ex_intro _ w Gx)) as [? ?]. unfold addc in E2. congruence.
    + destruct (modify_inv _ _ _ _ E2) as (_ & (w & Ew & _) & _). rewrite Ew in Gx.
      destruct (modify_some x (fun u => u + v)%Z m1 (ex_intro _ w Gx)) as [? ?]. unfold addc in E1. congruence.
Qed.

Lemma adder_commute R W R' W' a a' : adder R W a -> adder R' W' a' ->
  (forall x, W x = true -> R' x = false) -> (forall x, W' x = true -> R x = false) -> commute a a'.
Proof.
  intros (sel & E & I & T) (sel' & E' & I' & T') H H' m. rewrite E, E'.
  destruct (sel m) as [o|] eqn:Sm; destruct (sel' m) as [o'|] eqn:Sm'; cbn [obind]; auto.
  - transitivity (obind (apply_add o m) (apply_add o')).
    + destruct (apply_add o m) as [m1|] eqn:E1; cbn [obind]; auto. rewrite E'.
      destruct (apply_add_out _ _ _ E1) as [S1 O1]. rewrite <- (I' m m1 S1); [now rewrite Sm'|].
      intros x Hx. symmetry. apply O1. intros y v ->. apply T in Sm. intros ->. apply H in Sm. congruence.
    + rewrite (apply_add_commute o o' m). destruct (apply_add o' m) as [m2|] eqn:E2; cbn [obind]; auto. rewrite E.
      destruct (apply_add_out _ _ _ E2) as [S2 O2]. rewrite <- (I m m2 S2); [now rewrite Sm|].
      intros x Hx. symmetry. apply O2. intros y v ->. apply T' in Sm'. intros ->. apply H' in Sm'. congruence.
  - destruct (apply_add o m) as [m1|] eqn:E1; cbn [obind]; auto. rewrite E'.
    destruct (apply_add_out _ _ _ E1) as [S1 O1]. rewrite <- (I' m m1 S1); [now rewrite Sm'|].
    intros x Hx. symmetry. apply O1. intros y v ->. apply T in Sm. intros ->. apply H in Sm. congruence.
  - destruct (apply_add o' m) as [m2|] eqn:E2; cbn [obind]; auto. rewrite E.
    destruct (apply_add_out _ _ _ E2) as [S2 O2]. rewrite <- (I m m2 S2); [now rewrite Sm|].
    intros x Hx. symmetry. apply O2. intros y v ->. apply T' in Sm'. intros ->. apply H' in Sm'. congruence.
Qed.
Lemma adder_weaken (R W R' W' : nat * nat -> bool) a : adder R W a -> (forall x, R x = true -> R' x = true) ->
  (forall x, W x = true -> W' x = true) -> adder R' W' a.
Proof. intros (sel & E & I & T) HR HW. exists sel. repeat split; eauto. Qed.

(** Runs of additions and of writes. *)
Definition added (x : nat * nat) (ds : list ((nat * nat) * Z)) : Z := tot (fun d => if cell_eqb x (fst d) then snd d else 0%Z) ds.
Lemma run_adds ds m : (forall d, In d ds -> has m (fst d)) ->
  exists m', run_all (map (fun d => addc (fst d) (snd d)) ds) m = Some m' /\ same_shape m m' /\
    forall x, get x m' = option_map (fun w => (w + added x ds)%Z) (get x m).
Proof.
  revert m. induction ds as [|[y v] ds IH]; intros m H.
  - exists m. cbn. repeat split. intros x. destruct (get x m); cbn; auto. f_equal. lia.
  - destruct (modify_some y (fun w => (w + v)%Z) m (H (y, v) ltac:(left; auto))) as [m1 E1].
    destruct (modify_inv _ _ _ _ E1) as (S1 & _ & _). destruct (IH m1) as (m' & E' & S' & G').
    { intros d Hd. apply (has_shape m m1 _ S1). apply H. right; auto. }
    exists m'. split; [cbn [map run_all fst snd]; unfold addc at 1; rewrite E1; exact E'|]. split; [eapply same_shape_trans; eauto|].
    intros x. rewrite G', (addc_get y v m m1 E1). destruct (get x m); cbn [option_map]; auto. f_equal. unfold added. rewrite tot_cons. cbn [fst snd]. lia.
Qed.
Lemma run_as_adds (J : mem Z -> Prop) acts ds :
  Forall2 (fun (a : action (mem Z)) d => forall m, J m -> a m = addc (fst d) (snd d) m) acts ds ->
  (forall m m' d, In d ds -> J m -> addc (fst d) (snd d) m = Some m' -> J m') ->
  forall m, J m -> run_all acts m = run_all (map (fun d => addc (fst d) (snd d)) ds) m.
Proof.
  induction 1 as [|a d acts ds Ha F IH]; intros HJ m Jm; auto. cbn [map run_all]. rewrite (Ha m Jm).
  destruct (addc (fst d) (snd d) m) as [m1|] eqn:E; cbn [obind]; auto. apply IH.
  - intros; eapply HJ; eauto. right; auto.
  - eapply HJ; eauto. left; auto.
Qed.
Lemma run_puts {V} (ws : list ((nat * nat) * V)) m : (forall w, In w ws -> has m (fst w)) -> NoDup (map fst ws) ->
  exists m', run_all (map (fun w => put (fst w) (snd w)) ws) m = Some m' /\ same_shape m m' /\
    (forall x v, In (x, v) ws -> get x m' = Some v) /\ (forall x, ~ In x (map fst ws) -> get x m' = get x m).
Proof.
  revert m. induction ws as [|[y v] ws IH]; intros m H N.
  - exists m. cbn. repeat split; auto. intros ? ? [].
  - cbn [map fst] in N. inversion N as [|? ? Ny N']; subst.
    destruct (put_some m y v (H (y, v) ltac:(left; auto))) as [m1 E1]. destruct (put_inv _ _ _ _ E1) as (S1 & G1 & O1).
    destruct (IH m1) as (m' & E' & S' & G' & O'); auto.
    { intros w Hw. apply (has_shape m m1 _ S1). apply H. right; auto. }
    exists m'. split; [cbn [map run_all fst snd]; rewrite E1; exact E'|]. split; [eapply same_shape_trans; eauto|]. split.
    + intros x u [E|Hx]; [|auto]. injection E as <- <-. rewrite O'; auto.
    + intros x Hx. rewrite O'; [|intros C; apply Hx; right; auto]. apply O1. intros ->. apply Hx. left; auto.
Qed.
