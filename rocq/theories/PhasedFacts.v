(** Kernels whose threads all pass the same barriers, made of updates. *)
From Coq Require Import List Arith Lia Bool Permutation.
From Verif Require Import TensorFacts Cuda CudaFacts MemFacts AddFacts CudaUpdate.
Import ListNotations.

Section Items.
  Context {V : Type}.
  Record item := Item { tgt : nat * nat; rds : list (nat * nat); fn : list V -> V -> V }.
  Definition act (i : item) : action (mem V) := update (tgt i) (rds i) (fn i).
  Implicit Types m : mem V.

  Lemma modify_inv' x (f : V -> V) m m' : modify x f m = Some m' ->
    exists v, get x m = Some v /\ same_shape m m' /\ get x m' = Some (f v) /\ forall y, y <> x -> get y m' = get y m.
  Proof.
    unfold modify. destruct (get x m) as [v|] eqn:E; [|discriminate]. cbn [obind]. intros H. exists v. split; auto.
    destruct (put_inv _ _ _ _ H) as (S1 & G1 & O1). auto.
  Qed.
  Lemma act_inv i m m' : act i m = Some m' ->
    exists vs v, gets (rds i) m = Some vs /\ get (tgt i) m = Some v /\ same_shape m m' /\ get (tgt i) m' = Some (fn i vs v) /\
      forall y, y <> tgt i -> get y m' = get y m.
  Proof.
    unfold act, update. destruct (gets (rds i) m) as [vs|]; cbn [obind]; [|discriminate]. intros H. apply modify_inv' in H.
    destruct H as (v & H). exists vs, v. intuition.
  Qed.
  Lemma act_some i m : has m (tgt i) -> (forall y, In y (rds i) -> has m y) -> exists m', act i m = Some m'.
  Proof. intros H1 H2. destruct (gets_has _ _ H2) as (vs & E). unfold act, update. rewrite E. cbn [obind]. now apply modify_some. Qed.

  Lemma gets_shape_none ys m m' : same_shape m m' -> gets ys m = None -> gets ys m' = None.
  Proof.
    intros S. induction ys as [|y ys IH]; cbn [gets]; [discriminate|]. destruct (get y m) as [v|] eqn:E; cbn [obind].
    - destruct (gets ys m); [discriminate|]. intros _. rewrite IH by auto. destruct (get y m'); reflexivity.
    - intros _. rewrite (get_none_shape _ _ _ S E). reflexivity.
  Qed.
  Lemma act_none i m m' : same_shape m m' -> act i m = None -> act i m' = None.
  Proof.
    intros S H. unfold act, update in *. destruct (gets (rds i) m) as [vs|] eqn:E; cbn [obind] in H.
    - destruct (get (tgt i) m) as [v|] eqn:G.
      + destruct (modify_some (tgt i) (fn i vs) m (ex_intro _ v G)) as (? & ?). congruence.
      + destruct (gets (rds i) m'); auto. cbn [obind]. apply modify_none. eapply get_none_shape; eauto.
    - now rewrite (gets_shape_none _ _ _ S E).
  Qed.
  (** Updates that do not read each other's cell, and change different ones or
      in commuting ways. *)
  Lemma act_commute i j : ~ In (tgt i) (rds j) -> ~ In (tgt j) (rds i) ->
    (tgt i <> tgt j \/ forall vs vs' w, fn i vs (fn j vs' w) = fn j vs' (fn i vs w)) -> commute (act i) (act j).
  Proof.
    intros N1 N2 C m. destruct (act i m) as [mi|] eqn:Ei, (act j m) as [mj|] eqn:Ej; cbn [obind].
    - destruct (act_inv _ _ _ Ei) as (vi & wi & Gi & Ti & Si & Ui & Oi). destruct (act_inv _ _ _ Ej) as (vj & wj & Gj & Tj & Sj & Uj & Oj).
      destruct (act_some j mi) as (mij & Eij).
      { eapply has_shape; [eauto|]. exists wj; auto. } { intros y Hy. eapply has_shape; [eauto|]. clear - Gj Hy. revert vj Gj. induction (rds j) as [|z l IH]; intros vj Gj; [destruct Hy|]. cbn [gets] in Gj. destruct (get z m) as [v|] eqn:E; cbn [obind] in Gj; [|discriminate].
        destruct (gets l m) as [r|] eqn:E'; [|discriminate]. destruct Hy as [<-|Hy]; [exists v; auto|]. apply (IH Hy r eq_refl). }
      destruct (act_some i mj) as (mji & Eji).
      { eapply has_shape; [eauto|]. exists wi; auto. } { intros y Hy. eapply has_shape; [eauto|]. clear - Gi Hy. revert vi Gi. induction (rds i) as [|z l IH]; intros vi Gi; [destruct Hy|]. cbn [gets] in Gi. destruct (get z m) as [v|] eqn:E; cbn [obind] in Gi; [|discriminate].
        destruct (gets l m) as [r|] eqn:E'; [|discriminate]. destruct Hy as [<-|Hy]; [exists v; auto|]. apply (IH Hy r eq_refl). }
      rewrite Eij, Eji. f_equal.
      destruct (act_inv _ _ _ Eij) as (vj' & wj' & Gj' & Tj' & Sj' & Uj' & Oj'). destruct (act_inv _ _ _ Eji) as (vi' & wi' & Gi' & Ti' & Si' & Ui' & Oi').
      assert (vj' = vj). { rewrite (gets_ext _ mi m) in Gj' by (intros y Hy; apply Oi; intros ->; contradiction). congruence. }
      assert (vi' = vi). { rewrite (gets_ext _ mj m) in Gi' by (intros y Hy; apply Oj; intros ->; contradiction). congruence. } subst vj' vi'.
      apply mem_ext; [unfold same_shape in *; congruence|]. intros x. destruct (cell_eqb x (tgt i)) eqn:Xi; destruct (cell_eqb x (tgt j)) eqn:Xj.
      + apply cell_eqb_eq in Xi, Xj. subst x. destruct C as [C|C]; [congruence|]. rewrite Xj in *. assert (wj' = fn i vi wi) by congruence. assert (wi' = fn j vj wj) by congruence.
        assert (wi = wj) by congruence. subst. rewrite Uj', Ui'. f_equal. symmetry. apply C.
      + apply cell_eqb_eq in Xi. subst x. assert (tgt i <> tgt j) by (intros E; rewrite E, cell_eqb_refl in Xj; discriminate). rewrite Oj' by auto. rewrite Ui, Ui'.
        rewrite (Oj _ H) in Ti'. congruence.
      + apply cell_eqb_eq in Xj. subst x. assert (tgt j <> tgt i) by (intros E; rewrite E, cell_eqb_refl in Xi; discriminate). rewrite Oi' by auto. rewrite Uj, Uj'.
        rewrite (Oi _ H) in Tj'. congruence.
      + assert (x <> tgt i) by (intros ->; rewrite cell_eqb_refl in Xi; discriminate). assert (x <> tgt j) by (intros ->; rewrite cell_eqb_refl in Xj; discriminate).
        now rewrite Oj', Oi, Oi', Oj by auto.
    - destruct (act_inv _ _ _ Ei) as (_ & _ & _ & _ & S & _). now rewrite (act_none j m mi S Ej).
    - destruct (act_inv _ _ _ Ej) as (_ & _ & _ & _ & S & _). now rewrite (act_none i m mj S Ei).
    - reflexivity.
  Qed.

  (** The value of cell [x] after the updates [l], all reading the cells of [m]. *)
  Definition vals m ys : list V := match gets ys m with Some vs => vs | None => [] end.
  Definition after m (l : list item) (x : nat * nat) (v : V) : V :=
    fold_left (fun w i => if cell_eqb x (tgt i) then fn i (vals m (rds i)) w else w) l v.
  Lemma after_none m l x v : (forall i, In i l -> tgt i <> x) -> after m l x v = v.
  Proof.
    revert v. induction l as [|i l IH]; intros v H; [reflexivity|]. unfold after. cbn [fold_left]. destruct (cell_eqb x (tgt i)) eqn:E.
    - apply cell_eqb_eq in E. exfalso. apply (H i); [left; auto|auto].
    - apply IH. intros j Hj. apply H. now right.
  Qed.
  Lemma after_app m l l' x v : after m (l ++ l') x v = after m l' x (after m l x v).
  Proof. unfold after. apply fold_left_app. Qed.
  Lemma after_one m l i v : NoDup (map tgt l) -> In i l -> after m l (tgt i) v = fn i (vals m (rds i)) v.
  Proof.
    revert v. induction l as [|j l IH]; intros v N H; [destruct H|]. cbn [map] in N. inversion N as [|? ? N1 N2]; subst. unfold after. cbn [fold_left]. destruct H as [->|H].
    - rewrite cell_eqb_refl. apply after_none. intros k Hk E. apply N1. rewrite <- E. now apply in_map.
    - destruct (cell_eqb (tgt i) (tgt j)) eqn:E.
      + apply cell_eqb_eq in E. exfalso. apply N1. rewrite <- E. now apply in_map.
      + now apply IH.
  Qed.
  Lemma vals_ext m m' ys : (forall y, In y ys -> get y m = get y m') -> vals m ys = vals m' ys.
  Proof. intros H. unfold vals. now rewrite (gets_ext ys m m' H). Qed.
  Lemma vals_map m (g : nat -> nat * nat) h l : (forall k, In k l -> get (g k) m = Some (h k)) -> vals m (map g l) = map h l.
  Proof.
    intros H. unfold vals. replace (gets (map g l) m) with (Some (map h l)); [reflexivity|]. symmetry. induction l as [|k l IH]; [reflexivity|].
    cbn [map gets]. rewrite (H k) by now left. cbn [obind]. rewrite IH by (intros; apply H; now right). reflexivity.
  Qed.

  Lemma run_items l : forall m, (forall i, In i l -> has m (tgt i) /\ forall y, In y (rds i) -> has m y) ->
    (forall i j, In i l -> In j l -> ~ In (tgt i) (rds j)) ->
    exists m', run_all (map act l) m = Some m' /\ same_shape m m' /\
      forall x v, get x m = Some v -> get x m' = Some (after m l x v).
  Proof.
    induction l as [|i l IH]; intros m H N.
    - exists m. cbn. split; auto. split; [reflexivity|]. auto.
    - destruct (H i (or_introl eq_refl)) as (H1 & H2). destruct (act_some i m H1 H2) as (m1 & E1).
      destruct (act_inv _ _ _ E1) as (vs & w & Gv & Gw & S1 & U1 & O1).
      destruct (IH m1) as (m' & R & S' & G).
      + intros j Hj. destruct (H j (or_intror Hj)) as (J1 & J2). split; [eapply has_shape; eauto|]. intros y Hy. eapply has_shape; eauto.
      + intros j k Hj Hk. apply N; now right.
      + exists m'. split; [cbn [map run_all]; rewrite E1; exact R|]. split; [eapply same_shape_trans; eauto|]. intros x v Hx. unfold after. cbn [fold_left].
        assert (Ea : forall w, after m1 l x w = after m l x w).
        { intros w'. unfold after. assert (X : forall j, In j l -> vals m1 (rds j) = vals m (rds j)).
          { intros j Hj. apply vals_ext. intros y Hy. apply O1. intros ->. apply (N i j); [now left|now right|auto]. }
          clear - X. revert w'. induction l as [|j l IH]; intros w'; [reflexivity|]. cbn [fold_left]. rewrite X by now left. apply IH. intros; apply X; now right. }
        destruct (cell_eqb x (tgt i)) eqn:E.
        * apply cell_eqb_eq in E. subst x. rewrite (G (tgt i) _ U1), Ea. unfold after. do 2 f_equal. unfold vals. rewrite Gv. congruence.
        * assert (x <> tgt i) by (intros ->; rewrite cell_eqb_refl in E; discriminate). rewrite (G x v) by (rewrite O1 by auto; exact Hx). rewrite Ea. reflexivity.
  Qed.
End Items.
Arguments item : clear implicits.

(** ** Kernels *)
Section Phased.
  Context {M : Type}.
  Implicit Types PH : list (nat -> list (action M)).
  (** The thread [t] of a block with phases [PH]; after the last barrier it
      leaves. *)
  Definition phased PH (t : nat) : thread M := map (fun ph => ph t) PH ++ [[]].
  Lemma phased_nth PH t p : nth p (phased PH t) [] = nth p (map (fun ph => ph t) PH) [].
  Proof.
    unfold phased. destruct (Nat.lt_ge_cases p (length PH)) as [H|H].
    - apply app_nth1. now rewrite map_length.
    - rewrite app_nth2 by now rewrite map_length. rewrite (nth_overflow (map _ PH)) by now rewrite map_length. destruct (p - length _) as [|[|k]]; reflexivity.
  Qed.
  Lemma in_phased PH t p a : In a (nth p (phased PH t) []) -> exists ph, nth_error PH p = Some ph /\ In a (ph t).
  Proof.
    rewrite phased_nth. intros H. destruct (Nat.lt_ge_cases p (length PH)) as [L|L].
    - destruct (nth_error PH p) as [ph|] eqn:E; [|apply nth_error_None in E; lia]. exists ph. split; auto.
      erewrite nth_error_nth in H; [exact H|]. now apply (map_nth_error (fun ph => ph t)).
    - rewrite nth_overflow in H by now rewrite map_length. destruct H.
  Qed.
  Lemma flat_map_seq_nth' {A B} (f : A -> list B) (l : list A) (g : nat -> list B) : (forall p x, nth_error l p = Some x -> g p = f x) ->
    flat_map g (seq 0 (length l)) = flat_map f l.
  Proof.
    revert g. induction l as [|x l IH]; intros g H; [reflexivity|]. cbn [length seq flat_map]. f_equal; [now apply (H 0)|].
    rewrite <- seq_shift, flat_map_concat_map, map_map, <- flat_map_concat_map. apply IH. intros p y E. now apply (H (S p)).
  Qed.
  Lemma phased_rem PH ts : block_rem (map (phased PH) ts) = flat_map (fun ph => flat_map ph ts) PH.
  Proof.
    rewrite (block_rem_uniform _ (length PH + 1)).
    2:{ intros t _. unfold phased. now rewrite app_length, map_length. }
    rewrite seq_app, flat_map_app. cbn [seq flat_map]. rewrite app_nil_r.
    replace (flat_map (fun t => nth (0 + length PH) (phased PH t) []) ts) with (@nil (action M)).
    - rewrite app_nil_r. apply flat_map_seq_nth'. intros p ph E. apply flat_map_ext. intros t. rewrite phased_nth. apply nth_error_nth. now apply (map_nth_error (fun ph => ph t)).
    - symmetry. apply flat_map_nil. intros t _. rewrite phased_nth. apply nth_overflow. rewrite map_length. lia.
  Qed.

  Definition phased_kernel (blocks bs : nat) (PH : nat -> list (nat -> list (action M))) : list (block M) :=
    map (fun b => map (phased (PH b)) (seq 0 bs)) (seq 0 blocks).
  Theorem phased_runs blocks bs (PH : nat -> list (nat -> list (action M))) m mf (P : M -> Prop) :
    (forall b ph t u a a', b < blocks -> In ph (PH b) -> t < bs -> u < bs -> t <> u -> In a (ph t) -> In a' (ph u) -> commute a a') ->
    (forall b b' ph ph' t u a a', b < blocks -> b' < blocks -> b <> b' -> In ph (PH b) -> In ph' (PH b') -> t < bs -> u < bs ->
       In a (ph t) -> In a' (ph' u) -> commute a a') ->
    run_all (flat_map (fun b => flat_map (fun ph => flat_map ph (seq 0 bs)) (PH b)) (seq 0 blocks)) m = Some mf -> P mf ->
    every_run P (m, phased_kernel blocks bs PH).
  Proof.
    intros H1 H2 R HP.
    assert (Nb : forall b blk, nth_error (phased_kernel blocks bs PH) b = Some blk -> b < blocks /\ blk = map (phased (PH b)) (seq 0 bs)).
    { intros b blk E. unfold phased_kernel in E. assert (L : b < blocks) by (rewrite <- (seq_length blocks 0), <- (map_length (fun b => map (phased (PH b)) (seq 0 bs))); apply nth_error_Some; congruence).
      split; auto. rewrite (map_nth_error _ b (seq 0 blocks) (d := b)) in E; [congruence|]. rewrite (nth_error_nth' _ _ 0) by now rewrite seq_length. now rewrite seq_nth. }
    assert (Nt : forall b i th, nth_error (map (phased (PH b)) (seq 0 bs)) i = Some th -> i < bs /\ th = phased (PH b) i).
    { intros b i th E. assert (L : i < bs) by (rewrite <- (seq_length bs 0), <- (map_length (phased (PH b))); apply nth_error_Some; congruence).
      split; auto. rewrite (map_nth_error _ i (seq 0 bs) (d := i)) in E; [congruence|]. rewrite (nth_error_nth' _ _ 0) by now rewrite seq_length. now rewrite seq_nth. }
    apply every_run_weaken with (P := fun m' => m' = mf); [intros ? ->; exact HP|]. apply every_run_all_rem.
    - split.
      + intros b blk E. apply Nb in E. destruct E as (Lb & ->). intros p i j ti tj a a' Ei Ej Ne Ha Ha'. apply Nt in Ei, Ej. destruct Ei as (Li & ->), Ej as (Lj & ->).
        apply in_phased in Ha, Ha'. destruct Ha as (ph & E1 & Ha), Ha' as (ph' & E2 & Ha'). assert (ph' = ph) by congruence. subst ph'.
        apply (H1 b ph i j); auto. eapply nth_error_In; eauto.
      + intros b b' blk blk' a a' E E' Ne Ha Ha'. apply Nb in E, E'. destruct E as (Lb & ->), E' as (Lb' & ->). rewrite phased_rem in Ha, Ha'.
        apply in_flat_map in Ha, Ha'. destruct Ha as (ph & Hp & Ha), Ha' as (ph' & Hp' & Ha'). apply in_flat_map in Ha, Ha'. destruct Ha as (t & Ht & Ha), Ha' as (u & Hu & Ha').
        apply in_seq in Ht, Hu. apply (H2 b b' ph ph' t u); auto; lia.
    - unfold all_rem, phased_kernel. rewrite flat_map_concat_map, map_map, <- flat_map_concat_map.
      rewrite (flat_map_ext _ (fun b => flat_map (fun ph => flat_map ph (seq 0 bs)) (PH b))) by (intros; apply phased_rem). exact R.
  Qed.
End Phased.

(** The iterations of a group when their number is a multiple of the groups. *)
Lemma iterations_mul fuel q g n : g < n -> q <= fuel -> forall k, iterations fuel (g + k * n) n ((q + k) * n) = map (fun j => g + j * n) (seq k q).
Proof.
  revert q. induction fuel as [|f IH]; intros q Hg Hq k.
  - assert (q = 0) by lia. subst. reflexivity.
  - cbn [iterations]. destruct q as [|q].
    + replace (g + k * n <? (0 + k) * n) with false by (symmetry; apply Nat.ltb_ge; lia). reflexivity.
    + replace (g + k * n <? (S q + k) * n) with true by (symmetry; apply Nat.ltb_lt; nia). cbn [seq map]. f_equal.
      replace (g + k * n + n) with (g + S k * n) by lia. replace ((S q + k) * n) with ((q + S k) * n) by lia. apply IH; [auto|lia].
Qed.
Lemma strided_mul g n q : g < n -> strided g n (q * n) = map (fun k => g + k * n) (seq 0 q).
Proof.
  intros H. unfold strided. replace g with (g + 0 * n) at 1 by lia. replace (q * n) with ((q + 0) * n) at 2 by lia. apply iterations_mul; [auto|nia].
Qed.

(** ** Kernels made of items *)
Section ItemKernels.
  Context {V : Type}.
  Implicit Types m : mem V.
  Lemma after_flat_map1 {T} m (ph : T -> list (item V)) ts t x v : NoDup ts -> In t ts ->
    (forall u i, In u ts -> u <> t -> In i (ph u) -> tgt i <> x) -> after m (flat_map ph ts) x v = after m (ph t) x v.
  Proof.
    intros N I H. apply in_split in I. destruct I as (l1 & l2 & ->). rewrite flat_map_app. cbn [flat_map]. rewrite !after_app.
    apply NoDup_remove_2 in N. rewrite in_app_iff in N.
    rewrite (after_none m (flat_map ph l1)), (after_none m (flat_map ph l2)); auto.
    - intros i Hi. apply in_flat_map in Hi. destruct Hi as (u & Hu & Hi). apply (H u); auto; [apply in_app_iff; right; now right|]. intros ->. tauto.
    - intros i Hi. apply in_flat_map in Hi. destruct Hi as (u & Hu & Hi). apply (H u); auto; [apply in_app_iff; now left|]. intros ->. tauto.
  Qed.
  Lemma after_map1 {T} m (g : T -> item V) ts t v : NoDup ts -> In t ts ->
    (forall u, In u ts -> u <> t -> tgt (g u) <> tgt (g t)) -> after m (map g ts) (tgt (g t)) v = fn (g t) (vals m (rds (g t))) v.
  Proof.
    intros N I H. replace (map g ts) with (flat_map (fun u => [g u]) ts) by (clear; induction ts; cbn; congruence).
    rewrite (after_flat_map1 m _ ts t); auto.
    - unfold after. cbn [fold_left]. now rewrite cell_eqb_refl.
    - intros u i Hu Ne [<-|[]]. now apply H.
  Qed.

  (** The items of two threads (of a phase, or of different blocks). *)
  Definition apart (i j : item V) : Prop :=
    ~ In (tgt i) (rds j) /\ ~ In (tgt j) (rds i) /\ (tgt i <> tgt j \/ forall vs vs' w, fn i vs (fn j vs' w) = fn j vs' (fn i vs w)).
  Lemma apart_sym i j : apart i j -> apart j i.
  Proof. intros (A & B & [C|C]); repeat split; auto. Qed.

  Definition acts (ph : nat -> list (item V)) (t : nat) : list (action (mem V)) := map act (ph t).
  Lemma item_phase (ph : nat -> list (item V)) bs m :
    (forall t i, t < bs -> In i (ph t) -> has m (tgt i) /\ forall y, In y (rds i) -> has m y) ->
    (forall t u i j, t < bs -> u < bs -> In i (ph t) -> In j (ph u) -> ~ In (tgt i) (rds j)) ->
    exists m', run_all (flat_map (acts ph) (seq 0 bs)) m = Some m' /\ same_shape m m' /\
      forall x v, get x m = Some v -> get x m' = Some (after m (flat_map ph (seq 0 bs)) x v).
  Proof.
    intros H1 H2. replace (flat_map (acts ph) (seq 0 bs)) with (map act (flat_map ph (seq 0 bs))).
    - apply run_items.
      + intros i Hi. apply in_flat_map in Hi. destruct Hi as (t & Ht & Hi). apply in_seq in Ht. apply (H1 t); auto; lia.
      + intros i j Hi Hj. apply in_flat_map in Hi, Hj. destruct Hi as (t & Ht & Hi), Hj as (u & Hu & Hj). apply in_seq in Ht, Hu. apply (H2 t u); auto; lia.
    - unfold acts. induction (seq 0 bs) as [|t l IH]; [reflexivity|]. cbn [flat_map]. now rewrite map_app, IH.
  Qed.

  Theorem item_kernel_runs blocks bs (PH : nat -> list (nat -> list (item V))) m mf (P : mem V -> Prop) :
    (forall b ph t u i j, b < blocks -> In ph (PH b) -> t < bs -> u < bs -> t <> u -> In i (ph t) -> In j (ph u) -> apart i j) ->
    (forall b b' ph ph' t u i j, b < blocks -> b' < blocks -> b <> b' -> In ph (PH b) -> In ph' (PH b') -> t < bs -> u < bs ->
       In i (ph t) -> In j (ph' u) -> apart i j) ->
    run_all (flat_map (fun b => flat_map (fun ph => flat_map (acts ph) (seq 0 bs)) (PH b)) (seq 0 blocks)) m = Some mf -> P mf ->
    every_run P (m, phased_kernel blocks bs (fun b => map acts (PH b))).
  Proof.
    intros H1 H2 R HP. apply (phased_runs blocks bs _ m mf); auto.
    - intros b ph t u a a' Hb Hph Ht Hu Ne Ha Ha'. apply in_map_iff in Hph. destruct Hph as (ip & <- & Hp). unfold acts in *.
      apply in_map_iff in Ha, Ha'. destruct Ha as (i & <- & Hi), Ha' as (j & <- & Hj). destruct (H1 b ip t u i j) as (A & B & C'); auto. now apply act_commute.
    - intros b b' ph ph' t u a a' Hb Hb' Ne Hph Hph' Ht Hu Ha Ha'. apply in_map_iff in Hph, Hph'. destruct Hph as (ip & <- & Hp), Hph' as (ip' & <- & Hp'). unfold acts in *.
      apply in_map_iff in Ha, Ha'. destruct Ha as (i & <- & Hi), Ha' as (j & <- & Hj). destruct (H2 b b' ip ip' t u i j) as (A & B & C'); auto. now apply act_commute.
    - rewrite <- R. f_equal. apply flat_map_ext. intros b. rewrite flat_map_concat_map, map_map, <- flat_map_concat_map. reflexivity.
  Qed.

  (** Rounds one after the other, each changing the observed cells by [step]. *)
  Lemma rounds_fold {E} (code : E -> list (action (mem V))) (step : E -> nat * nat -> V -> V) (obs : nat * nat -> Prop) (ok : mem V -> Prop) es :
    (forall m m', ok m -> same_shape m m' -> ok m') ->
    (forall e m, In e es -> ok m -> exists m', run_all (code e) m = Some m' /\ same_shape m m' /\
       forall x v, obs x -> get x m = Some v -> get x m' = Some (step e x v)) ->
    forall m, ok m -> exists m', run_all (flat_map code es) m = Some m' /\ same_shape m m' /\
       forall x v, obs x -> get x m = Some v -> get x m' = Some (fold_left (fun w e => step e x w) es v).
  Proof.
    intros Hok. induction es as [|e es IH]; intros H m Hm.
    - exists m. cbn. split; auto. split; [reflexivity|]. auto.
    - destruct (H e m (or_introl eq_refl) Hm) as (m1 & R1 & S1 & G1). destruct (IH (fun e m I => H e m (or_intror I)) m1) as (m' & R & S2 & G2); [eapply Hok; eauto|].
      exists m'. cbn [flat_map]. rewrite run_all_app, R1. cbn [obind]. split; auto. split; [eapply same_shape_trans; eauto|]. intros x v Ho Hx. cbn [fold_left]. now apply G2, G1.
  Qed.
End ItemKernels.
