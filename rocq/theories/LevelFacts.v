(** Facts about the levels of a hierarchy, for layers between them. *)
From Coq Require Import String List Arith ZArith QArith Lia Bool Permutation.
From Verif Require Import Tensor TensorFacts Spec PointCloud SpecCloud History PointCloudFacts QFacts CloudProofs
  Grid SpecGrid GridFacts GridProofs Neighbors SpecNeighbors NeighborFacts NeighborProofs
  Neighborhood NeighborhoodFacts Sampling SpecSampling SamplingFacts SamplingProofs Hierarchy SpecHierarchy HierarchyFacts
  HierarchyProofs RTensor Layers SpecLayers.
Import ListNotations.
Local Open Scope nat_scope.

Lemma chain_link {A C} (R : A -> C -> C -> Prop) xs l : chain R xs l -> forall i x y z,
  nth_error xs i = Some x -> nth_error l i = Some y -> nth_error l (S i) = Some z -> R x y z.
Proof.
  induction 1 as [y|x xs y z ys HR Hc IH]; intros [|i] a b c E1 E2 E3; cbn in E1; try discriminate.
  - cbn in E2, E3. inversion E1; inversion E2; inversion E3; subst. exact HR.
  - cbn [nth_error] in E2, E3. exact (IH i a b c E1 E2 E3).
Qed.

Lemma chain_every {A C} (R : A -> C -> C -> Prop) (P : C -> Prop) xs l :
  (forall x y z, P y -> R x y z -> P z) -> chain R xs l -> (forall y, hd_error l = Some y -> P y) ->
  forall i y, nth_error l i = Some y -> P y.
Proof.
  intros Hs Hc Hh i y E. destruct l as [|z l]; [destruct i; discriminate|].
  apply (chain_any R P (fun _ z => P z) xs (z :: l)) with (i := 0) (j := i) (y := z); auto; [|lia].
  intros a b c Pb HR. split; eauto.
Qed.

(** What every level inherits from the first one. *)
Record inherits (N : nat) (b : batch) : Prop := {
  in_len : length (fst b) = length (snd b);
  in_ne : snd b <> [];
  in_le : length (snd b) <= N }.

Lemma level_inherits mode eps D css rows ids data : length rows = length ids -> ids <> [] ->
  chain (next_level mode eps D) css ((rows, ids) :: data) ->
  forall i b, nth_error ((rows, ids) :: data) i = Some b -> inherits (length ids) b.
Proof.
  intros HL Hn Hc.
  assert (Hs : forall x y z, inherits (length ids) y -> next_level mode eps D x y z -> inherits (length ids) z).
  { intros x y z [L1 L2 L3] HR. destruct (next_level_reps _ _ _ _ _ _ L1 HR) as (sel & Sn & Sl & Ei & L' & Hin).
    constructor; [exact L'| |].
    - destruct (snd y) as [|a t] eqn:E; [congruence|]. intros E'. specialize (Hin a (or_introl eq_refl)). rewrite E' in Hin. destruct Hin.
    - rewrite Ei, map_length. pose proof (select_length _ _ Sn Sl). lia. }
  apply (chain_every _ (inherits (length ids)) _ _ Hs Hc). intros y E. inversion E. constructor; auto.
Qed.

Lemma level_few mode eps D css rows ids data cs B : length rows = length ids -> ids <> [] ->
  chain (next_level mode eps D) css ((rows, ids) :: data) -> few_cells eps D cs B (rows, ids) ->
  forall i b, nth_error ((rows, ids) :: data) i = Some b -> few_cells eps D cs B b.
Proof.
  intros HL Hn Hc Hf i b E.
  assert (Hs : forall x y z, length (fst y) = length (snd y) /\ few_cells eps D cs B y -> next_level mode eps D x y z ->
    length (fst z) = length (snd z) /\ few_cells eps D cs B z).
  { intros x y z [L1 L2] HR. destruct (next_level_reps _ _ _ _ _ _ L1 HR) as (_ & _ & _ & _ & L' & _).
    split; [exact L'|]. now apply (next_level_few mode eps D x y). }
  apply (chain_every _ (fun b => length (fst b) = length (snd b) /\ few_cells eps D cs B b) _ _ Hs Hc) in E; [tauto|].
  intros y E'. inversion E'. auto.
Qed.

(** A layer can work between any two levels whose clouds are [pin] and [pout]. *)
Lemma level_workable mode eps D css rows ids data B r i j up lo pin pout :
  length rows = length ids -> ids <> [] -> (Z.of_nat (length ids) < 2 ^ 31 - 1)%Z -> (0 < eps)%Q -> (eps <= flt_max)%Q -> 2 <= D ->
  chain (next_level mode eps D) css ((rows, ids) :: data) -> (0 < r)%Q -> few_cells eps D (repeat r D) B (rows, ids) ->
  nth_error ((rows, ids) :: data) i = Some up -> nth_error ((rows, ids) :: data) j = Some lo ->
  cloud GPU eps D (fst up) (snd up) B pin -> cloud GPU eps D (fst lo) (snd lo) B pout ->
  workable eps D r (fst up) (snd up) pin (fst lo) (snd lo) pout.
Proof.
  intros HL Hn HN He Hf HD Hc Hr Hfew Eu El Cu Cl.
  destruct (level_inherits _ _ _ _ _ _ _ HL Hn Hc i up Eu) as [U1 U2 U3].
  destruct (level_inherits _ _ _ _ _ _ _ HL Hn Hc j lo El) as [L1 L2 L3].
  constructor; auto.
  - exists B. split; [exact Cu|]. split; [exact (ic_ids _ _ _ _ _ _ _ (cloud_is _ _ _ _ _ _ _ Cl))|].
    pose proof (level_few _ _ _ _ _ _ _ _ _ HL Hn Hc Hfew i up Eu) as H. destruct up; exact H.
  - exists eps, B. exact Cl.
  - split; [exact U2|lia].
Qed.
