(** Facts about the primitives of Tensor.v. *)
From Coq Require Import List Arith ZArith Lia Bool Permutation Sorted Relations.
From Verif Require Import Tensor.
Import ListNotations.
Local Open Scope nat_scope.

(** * Generic list lemmas *)

Lemma nth_error_nth' {A} (l : list A) i d : i < length l -> nth_error l i = Some (nth i l d).
Proof. intros H. apply nth_error_nth'. exact H. Qed.

Lemma map_nth_seq {A} (l : list A) d : map (fun i => nth i l d) (seq 0 (length l)) = l.
Proof.
  induction l as [|a l IH]; [reflexivity|].
  cbn [length seq map nth]. f_equal. rewrite <- seq_shift, map_map. exact IH.
Qed.

Lemma seq_add n m k : seq k (n + m) = seq k n ++ seq (k + n) m.
Proof.
  revert k; induction n as [|n IH]; intros k; cbn [seq Nat.add app].
  - now rewrite Nat.add_0_r.
  - f_equal. rewrite IH. do 2 f_equal. lia.
Qed.

Lemma combine_app {A B} (a a' : list A) (b b' : list B) :
  length a = length b -> combine (a ++ a') (b ++ b') = combine a b ++ combine a' b'.
Proof.
  revert b; induction a as [|x a IH]; intros [|y b] H; cbn in *; try lia; [reflexivity|].
  f_equal. apply IH. lia.
Qed.

Lemma combine_map_fst {A B} (a : list A) (b : list B) :
  length a = length b -> map fst (combine a b) = a.
Proof.
  revert b; induction a as [|x a IH]; intros [|y b] H; cbn in *; try lia; [reflexivity|].
  f_equal. apply IH. lia.
Qed.

Lemma combine_map_snd {A B} (a : list A) (b : list B) :
  length a = length b -> map snd (combine a b) = b.
Proof.
  revert b; induction a as [|x a IH]; intros [|y b] H; cbn in *; try lia; [reflexivity|].
  f_equal. apply IH. lia.
Qed.

Lemma combine_nth_seq {A B} (a : list A) (b : list B) da db :
  length a = length b ->
  combine a b = map (fun i => (nth i a da, nth i b db)) (seq 0 (length a)).
Proof.
  intros H. rewrite <- (map_nth_seq (combine a b) (da, db)).
  rewrite combine_length, <- H, Nat.min_id. apply map_ext.
  intros i. apply combine_nth. exact H.
Qed.

Lemma nth_map_combine {A B C} (f : A * B -> C) (a : list A) (b : list B) k dc da db :
  length a = length b -> k < length a ->
  nth k (map f (combine a b)) dc = f (nth k a da, nth k b db).
Proof.
  revert b k; induction a as [|x a IH]; intros [|y b] k Hl Hk; cbn in Hl, Hk; try lia.
  destruct k as [|k]; cbn; [reflexivity|]. apply IH; lia.
Qed.

Lemma filter_map_swap {A B} (f : A -> B) (g : B -> bool) l :
  filter g (map f l) = map f (filter (fun a => g (f a)) l).
Proof.
  induction l as [|a l IH]; [reflexivity|]. cbn.
  destruct (g (f a)); cbn; now rewrite IH.
Qed.

Lemma filter_ext_in' {A} (f g : A -> bool) l :
  (forall a, In a l -> f a = g a) -> filter f l = filter g l.
Proof. apply filter_ext_in. Qed.

Lemma filter_filter {A} (f g : A -> bool) l :
  filter f (filter g l) = filter (fun a => g a && f a) l.
Proof.
  induction l as [|a l IH]; [reflexivity|]. cbn.
  destruct (g a); cbn; [destruct (f a); now rewrite IH | exact IH].
Qed.

Lemma filter_all {A} (f : A -> bool) l : (forall a, In a l -> f a = true) -> filter f l = l.
Proof.
  induction l as [|a l IH]; intros H; [reflexivity|]. cbn.
  rewrite (H a (or_introl eq_refl)). f_equal. apply IH. intros b Hb. apply H. now right.
Qed.

Lemma filter_none {A} (f : A -> bool) l : (forall a, In a l -> f a = false) -> filter f l = [].
Proof.
  induction l as [|a l IH]; intros H; [reflexivity|]. cbn.
  rewrite (H a (or_introl eq_refl)). apply IH. intros b Hb. apply H. now right.
Qed.

Lemma length_concat {A} (ll : list (list A)) :
  length (concat ll) = fold_right Nat.add 0 (map (@length A) ll).
Proof. induction ll as [|l ll IH]; [reflexivity|]. cbn. rewrite app_length. lia. Qed.

Lemma NoDup_filter {A} (f : A -> bool) l : NoDup l -> NoDup (filter f l).
Proof. apply NoDup_filter. Qed.

(** * Uniqueness of strictly sorted lists *)

Lemma sorted_perm_unique {A} (R : A -> A -> Prop) :
  (forall a, ~ R a a) -> (forall a b c, R a b -> R b c -> R a c) ->
  forall l m, StronglySorted R l -> StronglySorted R m -> Permutation l m -> l = m.
Proof.
  intros Hirr Htr l; induction l as [|a l IH]; intros m Hl Hm P.
  - apply Permutation_nil in P. now subst.
  - destruct m as [|b m]; [symmetry in P; apply Permutation_nil in P; discriminate|].
    inversion Hl as [|? ? Hsl Hfl]; subst. inversion Hm as [|? ? Hsm Hfm]; subst.
    assert (E : a = b).
    { assert (Ia : In a (b :: m)) by (eapply Permutation_in; [exact P|now left]).
      assert (Ib : In b (a :: l)) by (eapply Permutation_in; [symmetry; exact P|now left]).
      destruct Ia as [->|Ia]; [reflexivity|]. destruct Ib as [->|Ib]; [reflexivity|].
      rewrite Forall_forall in Hfl, Hfm.
      exfalso. apply (Hirr a). eapply Htr; [apply Hfl|apply Hfm]; assumption. }
    subst b. f_equal. apply IH; auto. now apply Permutation_cons_inv in P.
Qed.

Lemma StronglySorted_app {A} (R : A -> A -> Prop) l m :
  StronglySorted R l -> StronglySorted R m ->
  (forall a b, In a l -> In b m -> R a b) -> StronglySorted R (l ++ m).
Proof.
  induction l as [|a l IH]; intros Hl Hm H; [exact Hm|].
  inversion Hl as [|? ? Hs Hf]; subst. cbn. constructor.
  - apply IH; auto. intros x y Hx Hy. apply H; [now right|exact Hy].
  - apply Forall_app. split; [exact Hf|]. apply Forall_forall. intros y Hy. apply H; [now left|exact Hy].
Qed.

Lemma StronglySorted_app_inv {A} (R : A -> A -> Prop) l m :
  StronglySorted R (l ++ m) ->
  StronglySorted R l /\ StronglySorted R m /\ (forall a b, In a l -> In b m -> R a b).
Proof.
  induction l as [|a l IH]; cbn; intros H.
  - split; [constructor|]. split; [exact H|]. intros ? ? [].
  - inversion H as [|? ? Hs Hf]; subst. apply IH in Hs as (Hl & Hm & Hc).
    apply Forall_app in Hf as [Hfl Hfm]. split; [now constructor|]. split; [exact Hm|].
    intros x y [->|Hx] Hy; [|now apply Hc]. rewrite Forall_forall in Hfm. now apply Hfm.
Qed.

Lemma StronglySorted_filter {A} (R : A -> A -> Prop) f l :
  StronglySorted R l -> StronglySorted R (filter f l).
Proof.
  induction l as [|a l IH]; intros H; [constructor|].
  inversion H as [|? ? Hs Hf]; subst. cbn.
  destruct (f a); [|now apply IH]. constructor; [now apply IH|].
  rewrite Forall_forall in *. intros x Hx. apply Hf. now apply filter_In in Hx.
Qed.

Lemma StronglySorted_impl {A} (R S : A -> A -> Prop) l :
  (forall a b, In a l -> In b l -> R a b -> S a b) -> StronglySorted R l -> StronglySorted S l.
Proof.
  induction l as [|a l IH]; intros HRS H; [constructor|].
  inversion H as [|? ? Hs Hf]; subst. constructor.
  - apply IH; auto. intros x y Hx Hy. apply HRS; now right.
  - rewrite Forall_forall in *. intros x Hx. apply HRS; [now left|now right|now apply Hf].
Qed.

Lemma StronglySorted_map {A B} (f : A -> B) (R : B -> B -> Prop) l :
  StronglySorted (fun a b => R (f a) (f b)) l -> StronglySorted R (map f l).
Proof.
  induction l as [|a l IH]; intros H; [constructor|].
  inversion H as [|? ? Hs Hf]; subst. cbn. constructor; [now apply IH|].
  apply Forall_map. exact Hf.
Qed.

Lemma StronglySorted_map_inv {A B} (f : A -> B) (R : B -> B -> Prop) l :
  StronglySorted R (map f l) -> StronglySorted (fun a b => R (f a) (f b)) l.
Proof.
  induction l as [|a l IH]; intros H; [constructor|].
  inversion H as [|? ? Hs Hf]; subst. constructor; [now apply IH|].
  apply Forall_forall. intros x Hx. rewrite Forall_forall in Hf. apply Hf, in_map, Hx.
Qed.

Lemma seq_sorted k n : StronglySorted lt (seq k n).
Proof.
  revert k; induction n as [|n IH]; intros k; cbn; constructor; [apply IH|].
  apply Forall_forall. intros x Hx. apply in_seq in Hx. lia.
Qed.

Lemma StronglySorted_nth {A} (R : A -> A -> Prop) l i j d :
  StronglySorted R l -> i < j -> j < length l -> R (nth i l d) (nth j l d).
Proof.
  revert i j; induction l as [|a l IH]; intros i j H Hij Hj; cbn in Hj; [lia|].
  inversion H as [|? ? Hs Hf]; subst. destruct j as [|j]; [lia|]. destruct i as [|i]; cbn.
  - rewrite Forall_forall in Hf. apply Hf, nth_In. lia.
  - apply IH; auto; lia.
Qed.

(** * gather *)

Lemma gather_map {A} (l : list A) idx d :
  Forall (fun i => i < length l) idx -> gather l idx = Ok (map (fun i => nth i l d) idx).
Proof.
  induction idx as [|i idx IH]; intros H; [reflexivity|].
  inversion H as [|? ? Hi Hr]; subst. cbn.
  rewrite (nth_error_nth' l i d Hi), (IH Hr). reflexivity.
Qed.

Lemma gather_err {A} (l : list A) idx :
  ~ Forall (fun i => i < length l) idx -> gather l idx = Err InvalidArgument.
Proof.
  induction idx as [|i idx IH]; intros H; [exfalso; apply H; constructor|].
  cbn. destruct (nth_error l i) eqn:E; [|reflexivity].
  rewrite IH; [reflexivity|]. intros HF. apply H. constructor; [|exact HF].
  apply nth_error_Some. congruence.
Qed.

Lemma gather_ok_inv {A} (l : list A) idx r d :
  gather l idx = Ok r -> r = map (fun i => nth i l d) idx /\ Forall (fun i => i < length l) idx.
Proof.
  intros H. destruct (Forall_dec (fun i => i < length l) (fun i => lt_dec i (length l)) idx) as [HF|HF].
  - rewrite (gather_map l idx d HF) in H. inversion H. now split.
  - rewrite (gather_err l idx HF) in H. discriminate.
Qed.

Lemma gather_length {A} (l : list A) idx r : gather l idx = Ok r -> length r = length idx.
Proof.
  revert r; induction idx as [|i idx IH]; intros r H; cbn in H; [now inversion H|].
  destruct (nth_error l i); [|discriminate].
  destruct (gather l idx) eqn:E; cbn in H; [|discriminate].
  inversion H; subst; cbn. f_equal. now apply IH.
Qed.

Lemma gather_fmap {A B} (f : A -> B) (l : list A) idx :
  gather (map f l) idx = match gather l idx with Ok r => Ok (map f r) | Err e => Err e end.
Proof.
  induction idx as [|i idx IH]; [reflexivity|]. cbn.
  rewrite nth_error_map. destruct (nth_error l i); cbn; [|reflexivity].
  rewrite IH. destruct (gather l idx); reflexivity.
Qed.

Lemma gather_seq {A} (l : list A) : gather l (seq 0 (length l)) = Ok l.
Proof.
  destruct l as [|a l0] eqn:E; [reflexivity|]. rewrite <- E at 1 2. rewrite <- E.
  rewrite (gather_map l _ a). - now rewrite map_nth_seq.
  - apply Forall_forall. intros i Hi. apply in_seq in Hi. lia.
Qed.

(** * Insertion sort *)

Section Sort.
  Context {A : Type} (le : A -> A -> bool).

  Lemma insert_perm x l : Permutation (insert le x l) (x :: l).
  Proof.
    induction l as [|y l IH]; [reflexivity|]. cbn. destruct (le x y); [reflexivity|].
    rewrite IH. apply perm_swap.
  Qed.

  Lemma isort_perm l : Permutation (isort le l) l.
  Proof.
    induction l as [|x l IH]; [reflexivity|]. cbn. rewrite insert_perm. now constructor.
  Qed.

  Context (R : A -> A -> Prop).
  Hypothesis Rtrans : forall a b c, R a b -> R b c -> R a c.

  Lemma insert_sorted x l :
    (forall y, In y l -> le x y = true -> R x y) ->
    (forall y, In y l -> le x y = false -> R y x) ->
    StronglySorted R l -> StronglySorted R (insert le x l).
  Proof.
    induction l as [|y l IH]; intros H1 H2 H.
    - repeat constructor.
    - cbn. inversion H as [|? ? Hs Hf]; subst. rewrite Forall_forall in Hf.
      destruct (le x y) eqn:E.
      + constructor; [exact H|]. constructor; [apply H1; [now left|exact E]|].
        apply Forall_forall. intros z Hz. eapply Rtrans; [apply H1; [now left|exact E]|now apply Hf].
      + constructor.
        * apply IH; auto; intros z Hz; [apply H1|apply H2]; now right.
        * apply Forall_forall. intros z Hz.
          apply (Permutation_in _ (insert_perm x l)) in Hz. destruct Hz as [->|Hz].
          -- apply H2; [now left|exact E].
          -- now apply Hf.
  Qed.

  (** [S] relates elements in their input order. *)
  Lemma isort_sorted (S : A -> A -> Prop) l :
    (forall x y, S x y -> le x y = true -> R x y) ->
    (forall x y, S x y -> le x y = false -> R y x) ->
    StronglySorted S l -> StronglySorted R (isort le l).
  Proof.
    intros H1 H2; induction l as [|x l IH]; intros H; [constructor|].
    inversion H as [|? ? Hs Hf]; subst. cbn. rewrite Forall_forall in Hf.
    apply insert_sorted; [| |now apply IH].
    - intros y Hy E. apply H1; [|exact E]. apply Hf. now apply (Permutation_in _ (isort_perm l)).
    - intros y Hy E. apply H2; [|exact E]. apply Hf. now apply (Permutation_in _ (isort_perm l)).
  Qed.
End Sort.

(** * argsort *)

Section Argsort.
  Context {A : Type} (le : A -> A -> bool) (d : A).
  Hypothesis le_total : forall a b, le a b = true \/ le b a = true.
  Hypothesis le_trans : forall a b c, le a b = true -> le b c = true -> le a c = true.

  (** Stable order on indices: first by key, ties by index. *)
  Definition lex (l : list A) (i j : nat) : Prop :=
    le (nth i l d) (nth j l d) = true /\ (le (nth j l d) (nth i l d) = true -> i < j).

  Definition plex (a b : A * nat) : Prop :=
    le (fst a) (fst b) = true /\ (le (fst b) (fst a) = true -> snd a < snd b).

  Lemma plex_trans a b c : plex a b -> plex b c -> plex a c.
  Proof.
    intros [H1 H2] [H3 H4]. split; [eapply le_trans; eassumption|].
    intros H. assert (le (fst b) (fst a) = true) by (eapply le_trans; eassumption).
    assert (le (fst c) (fst b) = true) by (eapply le_trans; eassumption).
    specialize (H2 ltac:(assumption)). specialize (H4 ltac:(assumption)). lia.
  Qed.

  Lemma lex_trans l i j k : lex l i j -> lex l j k -> lex l i k.
  Proof.
    intros H1 H2.
    exact (plex_trans (nth i l d, i) (nth j l d, j) (nth k l d, k) H1 H2).
  Qed.

  Lemma lex_irrefl l i : ~ lex l i i.
  Proof. intros [H1 H2]. specialize (H2 H1). lia. Qed.

  Lemma argsort_perm l : Permutation (argsort le l) (seq 0 (length l)).
  Proof.
    unfold argsort. rewrite isort_perm.
    rewrite combine_map_snd; [reflexivity|now rewrite seq_length].
  Qed.

  Lemma argsort_length l : length (argsort le l) = length l.
  Proof. rewrite (Permutation_length (argsort_perm l)). apply seq_length. Qed.

  Lemma argsort_lt l : Forall (fun i => i < length l) (argsort le l).
  Proof.
    apply Forall_forall. intros i Hi.
    apply (Permutation_in _ (argsort_perm l)) in Hi. apply in_seq in Hi. lia.
  Qed.

  Lemma argsort_NoDup l : NoDup (argsort le l).
  Proof. eapply Permutation_NoDup; [symmetry; apply argsort_perm|apply seq_NoDup]. Qed.

  Lemma argsort_sorted l : StronglySorted (lex l) (argsort le l).
  Proof.
    unfold argsort. apply StronglySorted_map.
    assert (Hc : forall p, In p (combine l (seq 0 (length l))) -> fst p = nth (snd p) l d).
    { intros p Hp. rewrite (combine_nth_seq l (seq 0 (length l)) d 0) in Hp
        by now rewrite seq_length.
      apply in_map_iff in Hp as (i & <- & Hi). apply in_seq in Hi. cbn.
      f_equal. rewrite seq_nth by lia. reflexivity. }
    apply StronglySorted_impl with (R := plex).
    - intros a b Ha Hb Hab.
      apply (Permutation_in _ (isort_perm _ _)) in Ha.
      apply (Permutation_in _ (isort_perm _ _)) in Hb.
      unfold lex. rewrite <- (Hc a Ha), <- (Hc b Hb). exact Hab.
    - apply isort_sorted with (S := fun a b => snd a < snd b).
      + exact plex_trans.
      + intros x y Hs Hle. split; [exact Hle|]. intros _. exact Hs.
      + intros x y Hs Hle. destruct (le_total (fst x) (fst y)) as [H|H]; [congruence|].
        split; [exact H|]. intros H'. congruence.
      + apply (StronglySorted_map_inv snd lt).
        rewrite combine_map_snd; [apply seq_sorted|now rewrite seq_length].
  Qed.

  Lemma argsort_unique l idx :
    Permutation idx (seq 0 (length l)) -> StronglySorted (lex l) idx -> argsort le l = idx.
  Proof.
    intros P S. apply (sorted_perm_unique (lex l)).
    - apply lex_irrefl.
    - intros a b c. apply lex_trans.
    - apply argsort_sorted.
    - exact S.
    - now rewrite argsort_perm.
  Qed.
End Argsort.

Lemma leb_total a b : Nat.leb a b = true \/ Nat.leb b a = true.
Proof. destruct (Nat.leb_spec a b); [now left|right; apply Nat.leb_le; lia]. Qed.
Lemma leb_trans a b c : Nat.leb a b = true -> Nat.leb b c = true -> Nat.leb a c = true.
Proof. rewrite !Nat.leb_le. lia. Qed.

(** Positions of [b] in [l]. *)
Definition positions (b : nat) (l : list nat) : list nat :=
  filter (fun i => Nat.eqb (nth i l 0) b) (seq 0 (length l)).

(** Splitting a list of indices by a key below [B] only permutes it. *)
Lemma concat_filter_perm {A} (key : A -> nat) (l : list A) B :
  (forall a, In a l -> key a < B) ->
  Permutation (concat (map (fun b => filter (fun a => Nat.eqb (key a) b) l) (seq 0 B))) l.
Proof.
  induction l as [|a l IH]; intros H.
  - induction (seq 0 B); cbn; auto.
  - cbn [filter].
    assert (Ha : key a < B) by (apply H; now left).
    replace B with (key a + (1 + (B - key a - 1))) by lia.
    replace B with (key a + (1 + (B - key a - 1))) in IH by lia.
    rewrite !seq_add, !map_app, !concat_app in *. cbn [seq map concat Nat.add] in *.
    rewrite app_nil_r, Nat.eqb_refl in *.
    rewrite (map_ext_in _ (fun b => filter (fun a0 => Nat.eqb (key a0) b) l) (seq 0 (key a))).
    2: { intros b Hb. apply in_seq in Hb. destruct (Nat.eqb_spec (key a) b); [lia|reflexivity]. }
    rewrite (map_ext_in _ (fun b => filter (fun a0 => Nat.eqb (key a0) b) l)
              (seq (key a + 1) (B - key a - 1))).
    2: { intros b Hb. apply in_seq in Hb. destruct (Nat.eqb_spec (key a) b); [lia|reflexivity]. }
    cbn [app]. rewrite <- Permutation_middle. constructor. apply IH.
    intros x Hx. assert (key x < B) by (apply H; now right). lia.
Qed.

Lemma concat_sorted {A} (R : A -> A -> Prop) (f : nat -> list A) k n :
  (forall b, k <= b < k + n -> StronglySorted R (f b)) ->
  (forall b c x y, b < c -> In x (f b) -> In y (f c) -> R x y) ->
  StronglySorted R (concat (map f (seq k n))).
Proof.
  revert k; induction n as [|n IH]; intros k H1 H2; cbn; [constructor|].
  apply StronglySorted_app.
  - apply H1. lia.
  - apply IH; [|exact H2]. intros b Hb. apply H1. lia.
  - intros a b Ha Hb. apply in_concat in Hb as (l & Hl & Hb).
    apply in_map_iff in Hl as (c & <- & Hc). apply in_seq in Hc.
    apply (H2 k c); [lia|exact Ha|exact Hb].
Qed.

Lemma argsort_ids_eq l B :
  Forall (fun b => b < B) l ->
  argsort Nat.leb l = concat (map (fun b => positions b l) (seq 0 B)).
Proof.
  intros HB. apply argsort_unique with (d := 0).
  - exact leb_total.
  - exact leb_trans.
  - unfold positions. apply (concat_filter_perm (fun i => nth i l 0)).
    intros i Hi. apply in_seq in Hi. rewrite Forall_forall in HB. apply HB, nth_In. lia.
  - apply concat_sorted.
    + intros b Hb. unfold positions.
      apply StronglySorted_impl with (R := lt); [|apply StronglySorted_filter, seq_sorted].
      intros x y Hx Hy Hxy. apply filter_In in Hx as [_ Hx]. apply filter_In in Hy as [_ Hy].
      apply Nat.eqb_eq in Hx, Hy. unfold lex. rewrite Hx, Hy. split; [apply Nat.leb_refl|auto].
    + intros b c x y Hbc Hx Hy. unfold positions in *.
      apply filter_In in Hx as [_ Hx]. apply filter_In in Hy as [_ Hy].
      apply Nat.eqb_eq in Hx, Hy. unfold lex. rewrite Hx, Hy. split.
      * apply Nat.leb_le. lia.
      * rewrite Nat.leb_le. lia.
Qed.

(** An already sorted list is not moved. *)
Lemma argsort_ids_sorted l : StronglySorted le l -> argsort Nat.leb l = seq 0 (length l).
Proof.
  intros H. apply argsort_unique with (d := 0).
  - exact leb_total.
  - exact leb_trans.
  - reflexivity.
  - apply StronglySorted_impl with (R := lt); [|apply seq_sorted].
    intros i j Hi Hj Hij. apply in_seq in Hi, Hj. unfold lex. split; [|auto].
    apply Nat.leb_le. apply (StronglySorted_nth le l i j 0 H Hij). lia.
Qed.

(** * invert_permutation *)

Lemma find_index_spec i l : In i l -> find_index i l < length l /\ nth (find_index i l) l 0 = i.
Proof.
  induction l as [|j l IH]; intros H; [destruct H|]. cbn.
  destruct (Nat.eqb_spec i j) as [->|n]; cbn; [split; [lia|reflexivity]|].
  destruct H as [->|H]; [congruence|]. specialize (IH H). split; [lia|]. tauto.
Qed.

Lemma find_index_nth l k : NoDup l -> k < length l -> find_index (nth k l 0) l = k.
Proof.
  revert k; induction l as [|j l IH]; intros k Hn Hk; cbn in Hk; [lia|].
  inversion Hn as [|? ? Hj Hn']; subst. destruct k as [|k]; cbn.
  - now rewrite Nat.eqb_refl.
  - destruct (Nat.eqb_spec (nth k l 0) j) as [E|_].
    + exfalso. apply Hj. rewrite <- E. apply nth_In. lia.
    + f_equal. apply IH; [exact Hn'|lia].
Qed.

Lemma invert_permutation_length l : length (invert_permutation l) = length l.
Proof. unfold invert_permutation. now rewrite map_length, seq_length. Qed.

Lemma invert_permutation_nth l i :
  i < length l -> nth i (invert_permutation l) 0 = find_index i l.
Proof.
  intros H. unfold invert_permutation.
  rewrite (nth_indep _ 0 (find_index 0 l)) by now rewrite map_length, seq_length.
  rewrite (map_nth (fun i => find_index i l)). now rewrite seq_nth.
Qed.

Lemma invert_permutation_lt l :
  Permutation l (seq 0 (length l)) -> Forall (fun i => i < length l) (invert_permutation l).
Proof.
  intros P. apply Forall_forall. intros i Hi. unfold invert_permutation in Hi.
  apply in_map_iff in Hi as (j & <- & Hj). apply find_index_spec.
  eapply Permutation_in; [symmetry; exact P|exact Hj].
Qed.

(** gather by the permutation, then by its inverse, is the identity. *)
Lemma gather_invert {A} (x : list A) perm y :
  Permutation perm (seq 0 (length x)) -> gather x perm = Ok y ->
  gather y (invert_permutation perm) = Ok x.
Proof.
  intros P H.
  assert (Lp : length perm = length x).
  { rewrite (Permutation_length P). apply seq_length. }
  destruct x as [|d x0] eqn:Ex.
  - cbn in P. apply Permutation_sym, Permutation_nil in P. subst perm. cbn in H. inversion H. reflexivity.
  - rewrite <- Ex in *. clear x0 Ex.
    destruct (gather_ok_inv x perm y d H) as [-> HF].
    rewrite (gather_map _ _ d).
    + f_equal. symmetry. rewrite <- (map_nth_seq x d) at 1. symmetry. rewrite <- Lp.
      unfold invert_permutation. rewrite map_map. apply map_ext_in.
      intros i Hi.
      assert (Hin : In i perm).
      { eapply Permutation_in; [symmetry; exact P|]. now rewrite <- Lp. }
      destruct (find_index_spec i perm Hin) as [Hlt Hn].
      rewrite (nth_indep _ d (nth 0 x d)) by (rewrite map_length; exact Hlt).
      rewrite (map_nth (fun i => nth i x d)). now rewrite Hn.
    + rewrite map_length. apply invert_permutation_lt. now rewrite Lp.
Qed.

Lemma gather_invert' {A} (y : list A) perm x :
  Permutation perm (seq 0 (length y)) -> gather y (invert_permutation perm) = Ok x ->
  gather x perm = Ok y.
Proof.
  intros P H.
  assert (Lp : length perm = length y).
  { rewrite (Permutation_length P). apply seq_length. }
  destruct y as [|d y0] eqn:Ey.
  - cbn in P. apply Permutation_sym, Permutation_nil in P. subst perm. cbn in H. inversion H. reflexivity.
  - rewrite <- Ey in *. clear y0 Ey.
    destruct (gather_ok_inv y _ x d H) as [-> HF].
    assert (HN : NoDup perm) by (eapply Permutation_NoDup; [symmetry; exact P|apply seq_NoDup]).
    rewrite (gather_map _ _ d).
    + f_equal. symmetry. rewrite <- (map_nth_seq y d) at 1. symmetry.
      transitivity (map (fun i => nth (find_index i perm) y d) perm).
      * apply map_ext_in. intros i Hi.
        assert (Hlt : i < length perm).
        { apply (Permutation_in _ P) in Hi. apply in_seq in Hi. lia. }
        rewrite (nth_indep _ d (nth 0 y d)) by (rewrite map_length, invert_permutation_length; exact Hlt).
        rewrite (map_nth (fun i => nth i y d)). now rewrite invert_permutation_nth.
      * rewrite <- Lp. transitivity (map (fun i => nth (find_index i perm) y d)
          (map (fun k => nth k perm 0) (seq 0 (length perm)))); [now rewrite map_nth_seq|]. rewrite map_map.
        apply map_ext_in. intros k Hk. apply in_seq in Hk. f_equal. apply find_index_nth; [exact HN|lia].
    + apply Forall_forall. intros i Hi. rewrite map_length, invert_permutation_length.
      apply (Permutation_in _ P) in Hi. apply in_seq in Hi. lia.
Qed.

(** * unique_with_counts *)

Section Uniq.
  Context {A : Type} (eqb : A -> A -> bool).
  Hypothesis eqb_spec : forall x y, reflect (x = y) (eqb x y).

  Lemma existsb_eqb x l : existsb (eqb x) l = true <-> In x l.
  Proof.
    rewrite existsb_exists. split.
    - intros (y & Hy & E). destruct (eqb_spec x y); [now subst|discriminate].
    - intros H. exists x. split; [exact H|]. destruct (eqb_spec x x); congruence.
  Qed.

  Lemma uniq_aux_spec seen l :
    NoDup (uniq_aux eqb seen l) /\
    (forall x, In x (uniq_aux eqb seen l) <-> In x l /\ ~ In x seen).
  Proof.
    revert seen; induction l as [|a l IH]; intros seen; cbn.
    - split; [constructor|]. intros x. tauto.
    - destruct (existsb (eqb a) seen) eqn:E.
      + apply existsb_eqb in E. destruct (IH seen) as [H1 H2]. split; [exact H1|].
        intros x. rewrite H2. split; [tauto|]. intros [[->|H] Hn]; [contradiction|tauto].
      + assert (En : ~ In a seen) by (intros H; apply existsb_eqb in H; congruence).
        destruct (IH (a :: seen)) as [H1 H2]. split.
        * constructor; [|exact H1]. rewrite H2. cbn. tauto.
        * intros x. cbn. rewrite H2. cbn. split.
          -- intros [->|[H Hn]]; [tauto|]. split; [tauto|]. tauto.
          -- intros [[->|H] Hn]; [now left|].
             destruct (eqb_spec a x) as [->|n]; [now left|]. right. split; [exact H|]. tauto.
  Qed.

  Lemma uniq_NoDup l : NoDup (uniq eqb l).
  Proof. apply uniq_aux_spec. Qed.

  Lemma uniq_In l x : In x (uniq eqb l) <-> In x l.
  Proof. unfold uniq. destruct (uniq_aux_spec [] l) as [_ H]. rewrite H. cbn. tauto. Qed.

  Lemma count_filter x l : count eqb x l = length (filter (eqb x) l).
  Proof. induction l as [|a l IH]; [reflexivity|]. cbn. destruct (eqb x a); cbn; lia. Qed.
End Uniq.

Lemma Nat_eqb_spec' : forall x y, reflect (x = y) (Nat.eqb x y).
Proof. exact Nat.eqb_spec. Qed.

(** * Masks *)

Definition pad {A} (zero : A) (V : nat) (l : list A) : list A := l ++ repeat zero (V - length l).

Lemma pad_length {A} (z : A) V l : length l <= V -> length (pad z V l) = V.
Proof. intros H. unfold pad. rewrite app_length, repeat_length. lia. Qed.

Lemma mask_select_app {A} m m' (d d' : list A) :
  length m = length d -> mask_select (m ++ m') (d ++ d') = mask_select m d ++ mask_select m' d'.
Proof.
  revert d; induction m as [|b m IH]; intros [|x d] H; cbn in *; try lia; [reflexivity|].
  destruct b; cbn; now rewrite IH by lia.
Qed.

Lemma mask_row n V : map (fun j => j <? n) (seq 0 V) = repeat true (Nat.min n V) ++ repeat false (V - n).
Proof.
  assert (H : forall k, map (fun j => j <? n) (seq k V)
     = repeat true (Nat.min (n - k) V) ++ repeat false (V - (n - k))).
  { induction V as [|V IH]; intros k; [cbn; now rewrite Nat.min_0_r|].
    cbn [seq map]. rewrite IH. destruct (Nat.ltb_spec k n) as [H|H].
    - replace (n - k) with (S (n - S k)) by lia. reflexivity.
    - replace (n - k) with 0 by lia. replace (n - S k) with 0 by lia. cbn.
      now rewrite Nat.sub_0_r. }
  specialize (H 0). now rewrite Nat.sub_0_r in H.
Qed.

Lemma mask_select_true {A} n (d : list A) : mask_select (repeat true n) d = firstn n d.
Proof.
  revert d; induction n as [|n IH]; intros d; [destruct d; reflexivity|].
  destruct d as [|x d]; [reflexivity|]. cbn. now rewrite IH.
Qed.

Lemma mask_select_false {A} n (d : list A) : mask_select (repeat false n) d = [].
Proof.
  revert d; induction n as [|n IH]; intros d; [destruct d; reflexivity|].
  destruct d as [|x d]; [reflexivity|]. cbn. now rewrite IH.
Qed.

Lemma mask_select_row {A} n V (d : list A) :
  length d = V -> mask_select (map (fun j => j <? n) (seq 0 V)) d = firstn n d.
Proof.
  intros H. rewrite mask_row. rewrite <- (firstn_skipn (Nat.min n V) d) at 1.
  rewrite mask_select_app by (rewrite repeat_length, firstn_length; lia).
  rewrite mask_select_true, mask_select_false, app_nil_r.
  rewrite firstn_firstn, Nat.min_id. destruct (Nat.le_ge_cases n V).
  - now rewrite Nat.min_l.
  - rewrite Nat.min_r by assumption. now rewrite !firstn_all2 by lia.
Qed.

Lemma mask_select_blocks {A} sizes V (blocks : list (list A)) :
  length sizes = length blocks -> Forall (fun b => length b = V) blocks ->
  mask_select (sequence_mask sizes V) (concat blocks)
  = concat (map (fun p => firstn (fst p) (snd p)) (combine sizes blocks)).
Proof.
  revert blocks; induction sizes as [|n sizes IH]; intros [|b blocks] H HF; cbn in H; try lia; [reflexivity|].
  inversion HF as [|? ? Hb HF']; subst. unfold sequence_mask. cbn [map concat combine fst snd].
  rewrite mask_select_app by now rewrite map_length, seq_length.
  rewrite mask_select_row by reflexivity. f_equal. apply IH; [lia|exact HF'].
Qed.

Lemma mask_scatter_false {A} (z : A) n m d :
  mask_scatter z (repeat false n ++ m) d = (r <- mask_scatter z m d ;; Ok (repeat z n ++ r)).
Proof.
  induction n as [|n IH]; cbn; [destruct (mask_scatter z m d); reflexivity|].
  rewrite IH. destruct (mask_scatter z m d); reflexivity.
Qed.

Lemma mask_scatter_true {A} (z : A) l m d :
  mask_scatter z (repeat true (length l) ++ m) (l ++ d)
  = (r <- mask_scatter z m d ;; Ok (l ++ r)).
Proof.
  induction l as [|x l IH]; cbn; [destruct (mask_scatter z m d); reflexivity|].
  rewrite IH. destruct (mask_scatter z m d); reflexivity.
Qed.

Lemma mask_scatter_blocks {A} (z : A) V (blocks : list (list A)) :
  Forall (fun b => length b <= V) blocks ->
  mask_scatter z (sequence_mask (map (@length A) blocks) V) (concat blocks)
  = Ok (concat (map (pad z V) blocks)).
Proof.
  induction blocks as [|b blocks IH]; intros HF; [reflexivity|].
  inversion HF as [|? ? Hb HF']; subst. unfold sequence_mask in *. cbn [map concat].
  rewrite mask_row, <- app_assoc, Nat.min_l by exact Hb.
  rewrite mask_scatter_true, mask_scatter_false, (IH HF'). cbn.
  unfold pad. now rewrite app_assoc.
Qed.

Lemma mask_scatter_length {A} (z : A) m d r :
  mask_scatter z m d = Ok r -> length d = length (filter id m) /\ length r = length m.
Proof.
  revert d r; induction m as [|b m IH]; intros d r H; cbn in H.
  - destruct d; [|discriminate]. inversion H. now split.
  - destruct b.
    + destruct d as [|x d]; [discriminate|].
      destruct (mask_scatter z m d) eqn:E; cbn in H; [|discriminate]. inversion H; subst.
      apply IH in E. cbn. lia.
    + destruct (mask_scatter z m d) eqn:E; cbn in H; [|discriminate]. inversion H; subst.
      apply IH in E. cbn. lia.
Qed.

Lemma mask_scatter_ok {A} (z : A) m d :
  length d = length (filter id m) -> exists r, mask_scatter z m d = Ok r.
Proof.
  revert d; induction m as [|b m IH]; intros d H; cbn in H.
  - destruct d; [|cbn in H; lia]. eexists; reflexivity.
  - destruct b; cbn in H |- *.
    + destruct d as [|x d]; [cbn in H; lia|]. destruct (IH d) as [r E]; [cbn in H; lia|].
      rewrite E. eexists; reflexivity.
    + destruct (IH d H) as [r E]. rewrite E. eexists; reflexivity.
Qed.

(** Selecting what was scattered gives the data back. *)
Lemma mask_select_scatter {A} (z : A) m d r :
  mask_scatter z m d = Ok r -> mask_select m r = d.
Proof.
  revert d r; induction m as [|b m IH]; intros d r H; cbn in H.
  - destruct d; [|discriminate]. inversion H. reflexivity.
  - destruct b.
    + destruct d as [|x d]; [discriminate|].
      destruct (mask_scatter z m d) eqn:E; cbn in H; [|discriminate]. inversion H; subst.
      cbn. f_equal. now apply IH.
    + destruct (mask_scatter z m d) eqn:E; cbn in H; [|discriminate]. inversion H; subst.
      cbn. now apply IH.
Qed.

Lemma mask_select_filter {A} (f : A -> bool) l : mask_select (map f l) l = filter f l.
Proof. induction l as [|a l IH]; [reflexivity|]. cbn. destruct (f a); now rewrite IH. Qed.

Lemma mask_select_combine {A B} (f : B -> bool) (ids : list B) (l : list A) :
  mask_select (map f ids) l = map fst (filter (fun p => f (snd p)) (combine l ids)).
Proof.
  revert l; induction ids as [|b ids IH]; intros [|a l]; try reflexivity.
  cbn. destruct (f b); cbn; now rewrite IH.
Qed.

(** * segments *)

Lemma segment_positions {A} s (data : list A) ids d :
  length data = length ids ->
  segment s data ids = map (fun i => nth i data d) (positions s ids).
Proof.
  intros H. unfold segment, positions.
  rewrite (combine_nth_seq data ids d 0 H), filter_map_swap, map_map. cbn.
  now rewrite H.
Qed.

Lemma segment_In {A} s (data : list A) ids x :
  In x (segment s data ids) <-> exists i, nth_error data i = Some x /\ nth_error ids i = Some s.
Proof.
  unfold segment. rewrite in_map_iff. split.
  - intros ([y t] & <- & H). apply filter_In in H as [H E]. cbn in *. apply Nat.eqb_eq in E. subst t.
    apply In_nth_error in H as [i Hi]. exists i.
    revert ids i Hi; induction data as [|a data IH]; intros [|b ids] [|i] Hi; cbn in *; try discriminate.
    + inversion Hi. now split.
    + now apply IH.
  - intros (i & H1 & H2). exists (x, s). split; [reflexivity|]. apply filter_In. cbn.
    split; [|apply Nat.eqb_refl].
    revert ids i H1 H2; induction data as [|a data IH]; intros [|b ids] [|i] H1 H2; cbn in *; try discriminate.
    + inversion H1; inversion H2; subst. now left.
    + right. now apply (IH ids i).
Qed.

(** ids [repeat 0 n0 ++ repeat 1 n1 ++ ...] *)
Definition block_ids (k : nat) (sizes : list nat) : list nat :=
  concat (map (fun p => repeat (fst p) (snd p)) (combine (seq k (length sizes)) sizes)).

Lemma block_ids_cons k n sizes : block_ids k (n :: sizes) = repeat k n ++ block_ids (S k) sizes.
Proof. reflexivity. Qed.

Lemma block_ids_range k sizes b : In b (block_ids k sizes) -> k <= b < k + length sizes.
Proof.
  revert k; induction sizes as [|n sizes IH]; intros k H; [destruct H|].
  rewrite block_ids_cons in H. apply in_app_iff in H as [H|H].
  - apply repeat_spec in H. cbn. lia.
  - apply IH in H. cbn. lia.
Qed.

Lemma block_ids_sorted k sizes : StronglySorted le (block_ids k sizes).
Proof.
  revert k; induction sizes as [|n sizes IH]; intros k; [constructor|].
  rewrite block_ids_cons. apply StronglySorted_app; [|apply IH|].
  - induction n as [|n IHn]; cbn; constructor; [exact IHn|].
    apply Forall_forall. intros x Hx. apply repeat_spec in Hx. lia.
  - intros a b Ha Hb. apply repeat_spec in Ha. apply block_ids_range in Hb. lia.
Qed.

Lemma block_ids_length k sizes : length (block_ids k sizes) = fold_right Nat.add 0 sizes.
Proof.
  revert k; induction sizes as [|n sizes IH]; intros k; [reflexivity|].
  rewrite block_ids_cons, app_length, repeat_length, IH. reflexivity.
Qed.

Lemma block_ids_count b k sizes :
  count Nat.eqb b (block_ids k sizes) = if b <? k then 0 else nth (b - k) sizes 0.
Proof.
  revert k; induction sizes as [|n sizes IH]; intros k.
  - cbn [map concat length seq combine count block_ids]. unfold block_ids; cbn [count combine map concat length seq]. destruct (b <? k); [reflexivity|]. destruct (b - k); reflexivity.
  - rewrite block_ids_cons.
    assert (Happ : forall l m, count Nat.eqb b (l ++ m) = count Nat.eqb b l + count Nat.eqb b m).
    { induction l as [|x l IHl]; intros m; cbn; [reflexivity|]. rewrite IHl. lia. }
    assert (Hrep : count Nat.eqb b (repeat k n) = if Nat.eqb b k then n else 0).
    { induction n as [|n IHn]; cbn; [now destruct (Nat.eqb b k)|]. rewrite IHn. destruct (Nat.eqb b k); reflexivity. }
    rewrite Happ, Hrep, IH.
    destruct (Nat.eqb_spec b k) as [->|Hn].
    + rewrite Nat.sub_diag, Nat.ltb_irrefl. destruct (Nat.ltb_spec k (S k)) as [_|Hx]; [cbn [nth]; apply Nat.add_0_r|exfalso; clear -Hx; lia].
    + destruct (Nat.ltb_spec b k), (Nat.ltb_spec b (S k)); try lia.
      replace (b - k) with (S (b - S k)) by lia. reflexivity.
Qed.

Lemma segment_app {A} s (d d' : list A) ids ids' :
  length d = length ids -> segment s (d ++ d') (ids ++ ids') = segment s d ids ++ segment s d' ids'.
Proof.
  intros H. unfold segment. rewrite combine_app by exact H.
  now rewrite filter_app, map_app.
Qed.

Lemma segment_repeat {A} s k (d : list A) n :
  length d = n -> segment s d (repeat k n) = if Nat.eqb k s then d else [].
Proof.
  revert n; induction d as [|x d IH]; intros [|n] H; cbn in H; try lia.
  - now destruct (Nat.eqb k s).
  - unfold segment in *. cbn. specialize (IH n ltac:(lia)).
    destruct (Nat.eqb k s); cbn; now rewrite IH.
Qed.

Lemma segment_blocks {A} s k (blocks : list (list A)) :
  segment s (concat blocks) (block_ids k (map (@length A) blocks))
  = if s <? k then [] else nth (s - k) blocks [].
Proof.
  revert k; induction blocks as [|b blocks IH]; intros k.
  - unfold segment, block_ids; cbn [count combine map concat length seq filter]. destruct (s <? k); [reflexivity|]. destruct (s - k); reflexivity.
  - cbn [map concat]. rewrite block_ids_cons, segment_app by now rewrite repeat_length.
    rewrite segment_repeat by reflexivity. rewrite IH.
    destruct (Nat.eqb_spec k s) as [->|Hn].
    + rewrite Nat.sub_diag, Nat.ltb_irrefl. destruct (Nat.ltb_spec s (S s)); [|lia].
      cbn. now rewrite app_nil_r.
    + destruct (Nat.ltb_spec s k), (Nat.ltb_spec s (S k)); try lia; [reflexivity|].
      replace (s - k) with (S (s - S k)) by lia. reflexivity.
Qed.

Lemma segment_fmap {A B} (f : A -> B) s (d : list A) ids :
  segment s (map f d) ids = map f (segment s d ids).
Proof.
  unfold segment. revert ids; induction d as [|x d IH]; intros [|i ids]; try reflexivity.
  cbn. destruct (Nat.eqb i s); cbn; now rewrite IH.
Qed.

Lemma tf_repeat_seq sizes B :
  length sizes = B -> B <> 1 -> tf_repeat (seq 0 B) sizes = Ok (block_ids 0 sizes).
Proof.
  intros H HB. unfold tf_repeat, block_ids. rewrite seq_length. subst B.
  destruct sizes as [|a [|b l]]; cbn in HB; [reflexivity|lia|].
  now rewrite Nat.eqb_refl.
Qed.

Lemma tf_repeat_seq' sizes B :
  length sizes = B -> tf_repeat (seq 0 B) sizes = Ok (block_ids 0 sizes).
Proof.
  intros H. destruct (Nat.eq_dec B 1) as [->|HB]; [|now apply tf_repeat_seq].
  destruct sizes as [|a [|b l]]; cbn in H; try lia. reflexivity.
Qed.

Lemma list_max0_ge l x : In x l -> x <= list_max0 l.
Proof.
  induction l as [|y l IH]; intros H; [destruct H|]. cbn.
  destruct H as [->|H]; [lia|]. specialize (IH H). unfold list_max0 in IH. lia.
Qed.

Lemma list_max0_le l b : Forall (fun x => x <= b) l -> list_max0 l <= b.
Proof.
  induction l as [|y l IH]; intros H; cbn; [lia|]. inversion H; subst.
  specialize (IH ltac:(assumption)). unfold list_max0 in IH. lia.
Qed.

Lemma list_max0_In l : l <> [] -> In (list_max0 l) l.
Proof.
  induction l as [|y l IH]; intros H; [congruence|]. cbn.
  destruct l as [|z l].
  - left. cbn. lia.
  - assert (In (list_max0 (z :: l)) (z :: l)) as Hin by (apply IH; discriminate).
    unfold list_max0 in *. destruct (Nat.max_spec y (fold_right Nat.max 0 (z :: l))) as [[_ ->]|[_ ->]].
    + right. exact Hin.
    + now left.
Qed.

Lemma list_eqb_refl l : list_eqb Nat.eqb l l = true.
Proof. induction l as [|x l IH]; [reflexivity|]. cbn. now rewrite Nat.eqb_refl. Qed.

Lemma list_eqb_eq l m : list_eqb Nat.eqb l m = true <-> l = m.
Proof.
  split; [|intros ->; apply list_eqb_refl].
  revert m; induction l as [|x l IH]; intros [|y m] H; cbn in H; try discriminate; [reflexivity|].
  apply andb_prop in H as [H1 H2]. apply Nat.eqb_eq in H1. subst. f_equal. now apply IH.
Qed.
