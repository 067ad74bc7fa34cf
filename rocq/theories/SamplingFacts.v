(** Facts about the sampling model. *)
From Coq Require Import String Ascii List Arith ZArith QArith Qround Lia Lqa Bool Permutation Sorted.
From Verif Require Import Tensor TensorFacts Spec PointCloud SpecCloud History PointCloudFacts QFacts
  Grid SpecGrid GridFacts GridProofs Neighbors SpecNeighbors NeighborFacts NeighborProofs
  Neighborhood NeighborhoodFacts Sampling SpecSampling.
Import ListNotations.
Local Open Scope nat_scope.

Lemma filter_length_le' {A} (f : A -> bool) l : length (filter f l) <= length l.
Proof. induction l as [|a l IH]; [constructor|]. cbn. destruct (f a); cbn; lia. Qed.

(** * The Poisson loop *)

Lemma candidates_In avail i : In i (candidates avail) <-> nth i avail false = true.
Proof.
  unfold candidates. rewrite filter_In, in_seq. split; [tauto|].
  intros H. split; [|exact H]. destruct (lt_dec i (length avail)); [lia|].
  rewrite nth_overflow in H by lia. discriminate.
Qed.

Lemma candidates_le avail avail' :
  length avail = length avail' ->
  (forall i, nth i avail' false = true -> nth i avail false = true) ->
  length (candidates avail') <= length (candidates avail).
Proof.
  intros _ H. apply NoDup_incl_length; [apply NoDup_filter, seq_NoDup|].
  intros i Hi. rewrite candidates_In in *. auto.
Qed.

Lemma candidates_lt avail avail' c :
  (forall i, nth i avail' false = true -> nth i avail false = true) ->
  nth c avail false = true -> nth c avail' false = false ->
  length (candidates avail') < length (candidates avail).
Proof.
  intros H H1 H2.
  assert (HN : NoDup (c :: candidates avail')).
  { constructor; [rewrite candidates_In; congruence|apply NoDup_filter, seq_NoDup]. }
  apply NoDup_incl_length with (l' := candidates avail) in HN; [cbn in HN; lia|].
  intros i [<-|Hi]; rewrite candidates_In in *; auto.
Qed.

Section Loop.
  Context (dev : device) (N : nat) (draws : nat -> nat) (ranges0 : list Z) (nbs : list (nat * nat)).
  (** The rows of a point, and the points it must not be selected with. *)
  Context (nb : nat -> list nat) (close : nat -> nat -> Prop).
  Hypothesis Hnb : forall c, c < N -> exists s e,
    nth_error ranges0 c = Some s /\ nth_error ranges0 (c + 1) = Some e /\
    map fst (py_slice s e nbs) = nb c.
  Hypothesis Hrefl : forall c, c < N -> In c (nb c).
  Hypothesis Hclose : forall i c, close i c -> In i (nb c).
  Hypothesis Hsym : forall i c, close i c -> close c i.
  Hypothesis Hlt : forall i c, c < N -> In i (nb c) -> i < N.

  Definition loop_inv (avail : list bool) (acc : list nat) : Prop :=
    length avail = N /\ NoDup acc /\ Forall (fun i => i < N) acc /\
    (forall i j, In i acc -> In j acc -> i <> j -> ~ close i j) /\
    (forall i, i < N -> (nth i avail false = false <-> exists s, In s acc /\ In i (nb s))).

  Lemma scatter_ok avail idx : length avail = N -> (forall i, In i idx -> i < N) ->
    exists a, scatter_false dev avail idx = Ok a /\ length a = N /\
      forall i, i < N -> nth i a false = nth i avail false && negb (existsb (Nat.eqb i) idx).
  Proof using.
    intros HL Hi. unfold scatter_false.
    assert (E : forallb (fun i => i <? length avail) idx = true).
    { apply forallb_forall. intros i H. apply Nat.ltb_lt. rewrite HL. auto. }
    rewrite E. eexists. split; [destruct dev; reflexivity|]. split; [now rewrite map_length, seq_length|].
    intros i H. now rewrite nth_map_seq by lia.
  Qed.

  Lemma loop_ok fuel : forall k avail acc, loop_inv avail acc -> length (candidates avail) <= fuel ->
    exists sel, poisson_loop dev fuel draws k ranges0 nbs avail acc = Some (Ok sel) /\
      NoDup sel /\ Forall (fun i => i < N) sel /\
      (forall i j, In i sel -> In j sel -> i <> j -> ~ close i j) /\
      (forall i, i < N -> exists s, In s sel /\ In i (nb s)).
  Proof using Hnb Hrefl Hclose Hsym Hlt.
    induction fuel as [|fuel IH]; intros k avail acc (I1 & I2 & I3 & I4 & I5) HF.
    - cbn. destruct (candidates avail) eqn:Ec; [|cbn in HF; lia].
      exists acc. repeat (split; [assumption||reflexivity|]). intros i Hi. apply I5; [exact Hi|].
      destruct (nth i avail false) eqn:E; [|reflexivity]. apply candidates_In in E. rewrite Ec in E. destruct E.
    - cbn [poisson_loop]. destruct (candidates avail) as [|c0 cs] eqn:Ec.
      + exists acc. repeat (split; [assumption||reflexivity|]). intros i Hi. apply I5; [exact Hi|].
        destruct (nth i avail false) eqn:E; [|reflexivity]. apply candidates_In in E. rewrite Ec in E. destruct E.
      + set (c := nth (draws k mod length (c0 :: cs)) (c0 :: cs) 0).
        assert (Hc : In c (candidates avail)).
        { rewrite Ec. apply nth_In. apply Nat.mod_upper_bound. discriminate. }
        pose proof Hc as Hc'. apply candidates_In in Hc'.
        assert (HcN : c < N).
        { destruct (lt_dec c N); [assumption|]. rewrite nth_overflow in Hc' by lia. discriminate. }
        destruct (Hnb c HcN) as (s & e & E1 & E2 & E3). rewrite E1, E2.
        destruct (scatter_ok avail (map fst (py_slice s e nbs)) I1) as (a & Ea & La & Na).
        { intros i Hi. rewrite E3 in Hi. eauto. }
        rewrite Ea.
        assert (Na' : forall i, i < N -> (nth i a false = true <-> nth i avail false = true /\ ~ In i (nb c))).
        { intros i Hi. rewrite (Na i Hi), andb_true_iff, negb_true_iff, E3.
          split; intros [H1 H2]; (split; [exact H1|]).
          - intros H. apply not_true_iff_false in H2. apply H2. apply existsb_exists. exists i. split; [exact H|apply Nat.eqb_refl].
          - apply not_true_iff_false. intros H. apply existsb_exists in H as (x & Hx & Ex). apply Nat.eqb_eq in Ex. subst. auto. }
        assert (Hfar : forall x, In x acc -> ~ In c (nb x)).
        { intros x Hx H. assert (nth c avail false = false) by (apply I5; [exact HcN|eauto]). congruence. }
        apply IH.
        * split; [exact La|]. split; [|split; [|split]].
          -- apply (Permutation_NoDup (l := c :: acc)); [apply Permutation_cons_append|]. constructor; [|exact I2].
             intros H. apply (Hfar c H). auto.
          -- apply Forall_app. split; [exact I3|]. auto.
          -- intros i j Hi Hj Hij. apply in_app_iff in Hi as [Hi|[<-|[]]]; apply in_app_iff in Hj as [Hj|[<-|[]]].
             ++ now apply I4.
             ++ intros H. apply Hsym, Hclose in H. now apply (Hfar i).
             ++ intros H. apply Hclose in H. now apply (Hfar j).
             ++ congruence.
          -- intros i Hi. rewrite <- not_true_iff_false, (Na' i Hi). split.
             ++ intros H. destruct (nth i avail false) eqn:Ei.
                ** exists c. split; [apply in_app_iff; right; now left|].
                   destruct (in_dec Nat.eq_dec i (nb c)); [assumption|tauto].
                ** apply I5 in Ei as (x & Hx & Hin); [|exact Hi]. exists x. split; [apply in_app_iff; now left|exact Hin].
             ++ intros (x & Hx & Hin) [H1 H2]. apply in_app_iff in Hx as [Hx|[<-|[]]].
                ** assert (nth i avail false = false) by (apply I5; eauto). congruence.
                ** contradiction.
        * assert (length (candidates a) < length (candidates avail)); [|rewrite <- Ec in HF; lia].
          apply (candidates_lt _ _ c).
          -- intros i Hi. destruct (lt_dec i N); [|rewrite nth_overflow in Hi by lia; discriminate]. now apply Na'.
          -- exact Hc'.
          -- apply not_true_iff_false. intros H. apply Na' in H as [_ H]; auto.
  Qed.

  Lemma loop_start fuel : N <= fuel ->
    exists sel, poisson_loop dev fuel draws 0 ranges0 nbs (repeat true N) [] = Some (Ok sel) /\
      NoDup sel /\ Forall (fun i => i < N) sel /\
      (forall i j, In i sel -> In j sel -> i <> j -> ~ close i j) /\
      (forall i, i < N -> exists s, In s sel /\ In i (nb s)).
  Proof using Hnb Hrefl Hclose Hsym Hlt.
    intros HF. apply loop_ok.
    - split; [apply repeat_length|]. split; [constructor|]. split; [constructor|]. split; [intros ? ? []|].
      intros i Hi. split; [|intros (s & [] & _)]. intros H. exfalso.
      assert (nth i (repeat true N) false = true); [|congruence].
      assert (Hin : In (nth i (repeat true N) false) (repeat true N)) by (apply nth_In; now rewrite repeat_length).
      now apply repeat_spec in Hin.
    - unfold candidates. rewrite repeat_length. etransitivity; [|exact HF].
      rewrite <- (seq_length N 0) at 2. apply filter_length_le'.
  Qed.
End Loop.

(** * Slices *)

Lemma py_slice_slice {A} s e (l : list A) : (0 <= s <= e)%Z -> (e <= Z.of_nat (length l))%Z ->
  py_slice s e l = slice (Z.to_nat s) (Z.to_nat e) l.
Proof.
  intros H1 H2. unfold py_slice, slice, py_index.
  destruct (Z.ltb_spec s 0); [lia|]. destruct (Z.ltb_spec e 0); [lia|].
  now rewrite !Z.min_r by lia.
Qed.

(** * Runs of equal keys *)

Lemma uniq_aux_skip seen l x : ~ In x l -> uniq_aux Z.eqb (x :: seen) l = uniq_aux Z.eqb seen l.
Proof.
  revert seen. induction l as [|a l IH]; intros seen H; [reflexivity|]. cbn in *.
  destruct (Z.eqb_spec a x) as [->|Hax]; [tauto|]. cbn.
  destruct (existsb (Z.eqb a) seen) eqn:E; [apply IH; tauto|]. f_equal.
  assert (Hp : forall l s s', (forall y, In y s <-> In y s') -> uniq_aux Z.eqb s l = uniq_aux Z.eqb s' l).
  { clear. induction l as [|a l IH]; intros s s' Hs; [reflexivity|]. cbn.
    assert (Es : existsb (Z.eqb a) s = existsb (Z.eqb a) s').
    { apply eq_true_iff_eq. rewrite !(existsb_eqb Z.eqb Z.eqb_spec). apply Hs. }
    rewrite Es. destruct (existsb (Z.eqb a) s'); [now apply IH|]. f_equal. apply IH. intros y. cbn. now rewrite Hs. }
  rewrite <- (IH (a :: seen)) by tauto. apply Hp. intros y. cbn. tauto.
Qed.

Lemma uniq_aux_run seen l x k : In x seen -> uniq_aux Z.eqb seen (repeat x k ++ l) = uniq_aux Z.eqb seen l.
Proof.
  intros H. induction k as [|k IH]; [reflexivity|]. cbn.
  apply (existsb_eqb Z.eqb Z.eqb_spec) in H. now rewrite H.
Qed.

Lemma uniq_run x k l : ~ In x l -> uniq Z.eqb (repeat x (S k) ++ l) = x :: uniq Z.eqb l.
Proof.
  intros H. unfold uniq. cbn. f_equal. rewrite uniq_aux_run by now left. now apply uniq_aux_skip.
Qed.

Lemma sorted_head_run (l : list Z) x : StronglySorted (fun a b => (b <= a)%Z) (x :: l) ->
  exists k l', x :: l = repeat x (S k) ++ l' /\ ~ In x l' /\ StronglySorted (fun a b => (b <= a)%Z) l'.
Proof.
  revert x. induction l as [|y l IH]; intros x H.
  - exists 0, []. repeat split; [intros []|constructor].
  - inversion H as [|? ? HS HF]; subst. destruct (IH y HS) as (k & l' & E & Hn & HS').
    destruct (Z.eq_dec x y) as [->|Hxy].
    + exists (S k), l'. split; [|auto]. cbn [repeat app]. f_equal. exact E.
    + exists 0, (y :: l). split; [reflexivity|]. split; [|exact HS].
      intros [->|Hin]; [congruence|]. inversion HS as [|? ? _ HF']; subst.
      apply Forall_cons_iff in HF as [Hyx _]. rewrite Forall_forall in HF'. specialize (HF' x Hin). lia.
Qed.

Lemma count_app {A} (eqb : A -> A -> bool) x l m : count eqb x (l ++ m) = count eqb x l + count eqb x m.
Proof. induction l as [|a l IH]; [reflexivity|]. cbn. lia. Qed.
Lemma count_repeat_eq x k : count Z.eqb x (repeat x k) = k.
Proof. induction k as [|k IH]; [reflexivity|]. cbn. rewrite Z.eqb_refl. lia. Qed.
Lemma count_notin x l : ~ In x l -> count Z.eqb x l = 0.
Proof.
  induction l as [|a l IH]; [reflexivity|]. cbn. intros H. destruct (Z.eqb_spec x a); [subst; tauto|].
  rewrite IH by tauto. reflexivity.
Qed.

(** A sorted list is the concatenation of its runs. *)
Lemma sorted_runs n : forall l, length l <= n -> StronglySorted (fun a b => (b <= a)%Z) l ->
  l = concat (map (fun x => repeat x (count Z.eqb x l)) (uniq Z.eqb l)).
Proof.
  induction n as [|n IH]; intros [|x l0] Hn HS; try reflexivity; [cbn in Hn; lia|].
  destruct (sorted_head_run l0 x HS) as (k & l & E & Hx & HS').
  assert (Hl : length l <= n).
  { apply (f_equal (@length Z)) in E. rewrite app_length, repeat_length in E. cbn [length] in *. lia. }
  rewrite E. rewrite (uniq_run x k l Hx). cbn [map concat].
  rewrite count_app, count_repeat_eq, count_notin, Nat.add_0_r by exact Hx. f_equal.
  etransitivity; [apply (IH l Hl HS')|]. f_equal. apply map_ext_in. intros y Hy.
  apply (proj1 (uniq_In Z.eqb Z.eqb_spec _ _)) in Hy. rewrite count_app, (count_notin y (repeat x (S k))); [reflexivity|].
  intros Hin. apply repeat_spec in Hin. subst. auto.
Qed.

(** The renumbered keys. *)
Lemma map_concat_repeat {A B} (f : A -> B) (l : list (A * nat)) :
  map f (concat (map (fun p => repeat (fst p) (snd p)) l)) = concat (map (fun p => repeat (f (fst p)) (snd p)) l).
Proof.
  rewrite concat_map, map_map. f_equal. apply map_ext. intros [a n]. cbn. induction n as [|n IH]; [reflexivity|]. cbn. now rewrite IH.
Qed.

Lemma new_keys_spec l :
  StronglySorted (fun a b => (b <= a)%Z) l ->
  let U := uniq Z.eqb l in
  exists nk, tf_repeat (seq 0 (length U)) (map (fun x => count Z.eqb x l) U) = Ok nk /\
    length nk = length l /\ Forall (fun k => k < length U) nk /\
    (forall j, j < length l -> nth (nth j nk 0) U 0%Z = nth j l 0%Z).
Proof.
  intros HS U. set (cs := map (fun x => count Z.eqb x l) U).
  assert (Lc : length cs = length U) by apply map_length.
  set (nk := concat (map (fun p => repeat (fst p) (snd p)) (combine (seq 0 (length U)) cs))).
  assert (Em : l = map (fun k => nth k U 0%Z) nk).
  { unfold nk. rewrite map_concat_repeat.
    rewrite (combine_nth_seq (seq 0 (length U)) cs 0 0) by now rewrite seq_length.
    rewrite map_map, seq_length. cbn [fst snd].
    etransitivity; [apply (sorted_runs (length l) l (le_n _) HS)|]. fold U.
    rewrite <- (map_nth_seq U 0%Z) at 1. rewrite map_map. f_equal. apply map_ext_in.
    intros k Hk. apply in_seq in Hk. rewrite seq_nth by lia. cbn [plus].
    unfold cs. rewrite (nth_indep _ 0 (count Z.eqb 0%Z l)) by (rewrite map_length; lia).
    now rewrite (map_nth (fun x => count Z.eqb x l)). }
  exists nk. split; [|split; [|split]].
  - assert (E : match cs with [r] => repeat r (length (seq 0 (length U))) | _ => cs end = cs).
    { rewrite seq_length, <- Lc. destruct cs as [|c [|c' cs']]; reflexivity. }
    unfold tf_repeat. fold cs. rewrite E, seq_length, Lc, Nat.eqb_refl. reflexivity.
  - rewrite Em at 1. now rewrite map_length.
  - apply Forall_forall. intros k Hk. unfold nk in Hk. apply in_concat in Hk as (r & Hr & Hk).
    apply in_map_iff in Hr as ([a n] & <- & Hp). apply in_combine_l in Hp. apply repeat_spec in Hk. cbn in Hk. rewrite Hk.
    apply in_seq in Hp. lia.
  - intros j Hj. transitivity (nth j (map (fun k => nth k U 0%Z) nk) 0%Z).
    + rewrite (nth_indep (map _ nk) 0%Z (nth 0 U 0%Z)) by (rewrite <- Em; exact Hj).
      now rewrite (map_nth (fun k => nth k U 0%Z)).
    + now rewrite <- Em.
Qed.

Lemma StronglySorted_of_nth {A} (R : A -> A -> Prop) (l : list A) d :
  (forall j k, j < k -> k < length l -> R (nth j l d) (nth k l d)) -> StronglySorted R l.
Proof.
  induction l as [|a l IH]; intros H; constructor.
  - apply IH. intros j k Hjk Hk. apply (H (S j) (S k)); cbn; lia.
  - apply Forall_forall. intros x Hx. apply (In_nth _ _ d) in Hx as (k & Hk & <-). apply (H 0 (S k)); cbn; lia.
Qed.

(** Splitting a list by a key below [B]. *)
Lemma groups_perm (f : nat -> nat) B l : Forall (fun i => f i < B) l ->
  Permutation (concat (map (fun b => filter (fun i => Nat.eqb (f i) b) l) (seq 0 B))) l.
Proof.
  induction l as [|a l IH]; intros H.
  - cbn. induction (seq 0 B) as [|b s IH]; [constructor|]. exact IH.
  - apply Forall_cons_iff in H as [Ha H]. specialize (IH H). cbn [filter].
    assert (Hs : forall s, NoDup s -> In (f a) s ->
      Permutation (concat (map (fun b => if f a =? b then a :: filter (fun i => f i =? b) l else filter (fun i => f i =? b) l) s))
        (a :: concat (map (fun b => filter (fun i => f i =? b) l) s))).
    { induction s as [|b s IHs]; intros Hn Hin; [destruct Hin|]. inversion Hn as [|? ? Hb Hn']; subst. cbn [map concat].
      destruct (Nat.eqb_spec (f a) b) as [<-|Hab].
      - cbn. constructor. apply Permutation_app_head. erewrite map_ext_in; [reflexivity|].
        intros b Hb'. cbn. destruct (Nat.eqb_spec (f a) b); [subst; contradiction|reflexivity].
      - destruct Hin as [->|Hin]; [congruence|]. rewrite (IHs Hn' Hin).
        symmetry. apply Permutation_middle. }
    rewrite Hs; [now constructor|apply seq_NoDup|apply in_seq; lia].
Qed.

(** * Cell averages *)
Section Average.
  Context (dev : device) (eps : Q) (D : nat) (rows : list point) (ids : list nat) (B : nat)
          (cells : point) (g : grid) (n : nbh).
  Hypothesis Hn : ngrid n = g.
  Hypothesis Heps : (0 <= eps)%Q.
  Hypothesis G : is_grid dev eps D rows ids B cells g.
  Hypothesis Hfit : fits eps D cells rows ids.
  Hypothesis Hover : (Z.of_nat B * zprod (gnc g) <= 2 ^ 31)%Z.

  Let N := length ids.

  Lemma skeys_sorted : StronglySorted (fun a b => (b <= a)%Z) (gskeys g).
  Proof using G.
    apply (StronglySorted_of_nth _ _ 0%Z). intros j k Hjk Hk.
    rewrite (skeys_length _ _ _ _ _ _ _ _ G) in Hk. apply (sidx_sorted _ _ _ _ _ _ _ _ G j k Hjk Hk).
  Qed.

  Lemma mean_coord (l : list point) d : d < D ->
    nth d (mean D l) 0%Q = (fold_right Qplus 0 (map (fun r => nth d r 0) l) / inject_Z (Z.of_nat (length l)))%Q.
  Proof using. intros H. unfold mean. now rewrite nth_map_seq by exact H. Qed.

  (** A mean of numbers of one half-open interval lies in it. *)
  Lemma sum_bounds (f : nat -> Q) (a b : Q) l : l <> [] ->
    (forall i, In i l -> a <= f i /\ f i < b)%Q ->
    (inject_Z (Z.of_nat (length l)) * a <= fold_right Qplus 0 (map f l) /\
     fold_right Qplus 0 (map f l) < inject_Z (Z.of_nat (length l)) * b)%Q.
  Proof using.
    clear. induction l as [|x l IH]; intros Hl H; [congruence|]. cbn [length map fold_right].
    rewrite Nat2Z.inj_succ, <- Z.add_1_r, inject_Z_plus.
    destruct (H x (or_introl eq_refl)) as [H1 H2].
    assert (Hd : l = [] \/ l <> []) by (destruct l; [now left|right; discriminate]).
    destruct Hd as [->|Hd].
    - cbn [length map fold_right Z.of_nat]. change (inject_Z 0) with 0%Q. change (inject_Z 1) with 1%Q. split; lra.
    - destruct (IH Hd) as [I1 I2]; [intros; apply H; now right|]. clear IH H Hl Hd.
      generalize dependent (fold_right Qplus 0%Q (map f l)). generalize (inject_Z (Z.of_nat (length l))).
      intros m S I1 I2. change (inject_Z 1) with 1%Q. split; lra.
  Qed.

  Lemma average_ok :
    exists out out_ids sel, sampling_average n = Ok (out, out_ids, sel) /\
      cell_average eps D cells rows ids out out_ids /\
      length sel = length out /\ Forall (fun j => j < N) sel.
  Proof using Hn Heps G Hfit Hover.
    pose proof (new_keys_spec (gskeys g) skeys_sorted) as Hk. cbv zeta in Hk.
    set (U := uniq Z.eqb (gskeys g)) in *.
    destruct Hk as (nk & Enk & Lnk & Bnk & Snk).
    pose proof (skeys_length _ _ _ _ _ _ _ _ G) as Ls. fold N in Ls. rewrite Ls in *.
    pose proof (spts_length _ _ _ _ _ _ _ _ G) as Lp. fold N in Lp.
    pose proof (sbids_length _ _ _ _ _ _ _ _ G) as Lb. fold N in Lb.
    pose proof (sidx_length _ _ _ _ _ _ _ _ G) as Li. fold N in Li.
    assert (HU : NoDup U) by apply (uniq_NoDup Z.eqb Z.eqb_spec).
    assert (Hnk : forall j, j < N -> nth j nk 0 < length U).
    { intros j Hj. rewrite Forall_forall in Bnk. apply Bnk, nth_In. lia. }
    set (grp k := positions k nk).
    assert (Hgrp : forall k j, In j (grp k) <-> j < N /\ nth j nk 0 = k).
    { intros k j. unfold grp, positions. rewrite filter_In, in_seq, Lnk, Nat.eqb_eq. intuition lia. }
    assert (Hne : forall k, k < length U -> grp k <> []).
    { intros k Hk E. assert (Hin : In (nth k U 0%Z) (gskeys g)) by (apply (proj1 (uniq_In Z.eqb Z.eqb_spec _ _)), nth_In, Hk).
      apply (In_nth _ _ 0%Z) in Hin as (j & Hj & Ej). rewrite Ls in Hj.
      assert (In j (grp k)); [|rewrite E in *; contradiction]. apply Hgrp. split; [exact Hj|].
      apply (proj1 (NoDup_nth U 0%Z) HU); auto. now rewrite (Snk j Hj). }
    set (sel := map (fun s => hd 0 (grp s)) (seq 0 (length U))).
    assert (Hsel : Forall (fun j => j < N) sel).
    { apply Forall_map, Forall_forall. intros k Hk. apply in_seq in Hk. specialize (Hne k ltac:(lia)).
      destruct (grp k) as [|j r] eqn:E; [congruence|]. cbn.
      assert (In j (grp k)) by (rewrite E; now left). now apply Hgrp in H. }
    assert (Hseg : forall A (l : list A) d k, length l = N -> segment k l nk = map (fun i => nth i l d) (grp k)).
    { intros A l d k H. apply segment_positions. lia. }
    set (out := map (fun s => mean D (map (fun i => nth i (gspts g) []) (grp s))) (seq 0 (length U))).
    exists out, (map (fun i => nth i (gsbids g) 0) sel), sel.
    split; [|split; [|split]].
    - unfold sampling_average. rewrite Hn. unfold unique_with_counts. fold U. rewrite Enk. cbn [bind].
      assert (E1 : map (fun s => hd 0 (segment s (seq 0 (length (gspts g))) nk)) (seq 0 (length U)) = sel).
      { apply map_ext. intros k. rewrite (Hseg _ _ 0) by (rewrite seq_length; exact Lp).
        f_equal. rewrite <- (map_id (grp k)) at 2. apply map_ext_in. intros i Hi. apply Hgrp in Hi as [Hi _].
        rewrite seq_nth; lia. }
      rewrite E1, (gather_map _ _ 0) by (rewrite Lb; exact Hsel). cbn [bind]. do 3 f_equal.
      apply map_ext. intros k. rewrite (ic_dim _ _ _ _ _ _ _ (ig_cloud _ _ _ _ _ _ _ _ G)).
      f_equal. now apply Hseg.
    - exists (lo_of eps D rows ids), (map (fun k => map (fun j => nth j (gsidx g) 0) (grp k)) (seq 0 (length U))).
      split; [intros b Hb; apply lo_corner; [apply (g_len _ _ _ _ _ _ _ _ G)|exact Hb]|].
      cbv zeta.
      change (fun i j => forall d, d < D -> cell (lo_of eps D rows ids (nth i ids 0)) cells (nth i rows []) d =
         cell (lo_of eps D rows ids (nth j ids 0)) cells (nth j rows []) d) with
        (fun i j => forall d, d < D -> cell_at eps D rows ids cells i d = cell_at eps D rows ids cells j d).
      assert (Hkey : forall i j, i < N -> j < N ->
         (nth i nk 0 = nth j nk 0 <-> nth (nth i (gsidx g) 0) ids 0 = nth (nth j (gsidx g) 0) ids 0 /\
           forall d, d < D -> cell_at eps D rows ids cells (nth i (gsidx g) 0) d = cell_at eps D rows ids cells (nth j (gsidx g) 0) d)).
      { intros i j Hi Hj.
        rewrite <- (key_inj _ _ _ _ _ _ _ _ Heps G Hfit Hover) by (apply (sidx_lt _ _ _ _ _ _ _ _ G); assumption).
        rewrite <- !(skeys_nth _ _ _ _ _ _ _ _ G), <- !Snk by assumption. split; [congruence|].
        intros E. apply (proj1 (NoDup_nth U 0%Z) HU); auto. }
      split; [split; [|split]|].
      + rewrite <- (map_map grp (map (fun j => nth j (gsidx g) 0))). rewrite <- concat_map.
        transitivity (map (fun j => nth j (gsidx g) 0) (seq 0 N)).
        * apply Permutation_map. unfold grp, positions. rewrite Lnk. apply groups_perm.
          apply Forall_forall. intros j Hj. apply in_seq in Hj. apply Hnk. lia.
        * rewrite <- Li, map_nth_seq. apply (sidx_perm _ _ _ _ _ _ _ _ G).
      + apply Forall_map, Forall_forall. intros k Hk E. apply in_seq in Hk. apply map_eq_nil in E. apply (Hne k); [lia|exact E].
      + intros i j Hi Hj. fold N in Hi, Hj.
        assert (Hs : forall i, i < N -> exists a, a < N /\ nth a (gsidx g) 0 = i).
        { intros x Hx. assert (Hin : In x (gsidx g)).
          { apply (Permutation_in _ (Permutation_sym (sidx_perm _ _ _ _ _ _ _ _ G))), in_seq. fold N; lia. }
          apply (In_nth _ _ 0) in Hin as (a & Ha & Ea). exists a. split; [lia|exact Ea]. }
        split.
        * intros (gr & Hg & H1 & H2). apply in_map_iff in Hg as (k & <- & Hk).
          apply in_map_iff in H1 as (a & <- & Ha). apply in_map_iff in H2 as (b & <- & Hb).
          apply Hgrp in Ha as [Ha Ea]. apply Hgrp in Hb as [Hb Eb]. apply Hkey; [assumption..|congruence].
        * intros H. destruct (Hs i Hi) as (a & Ha & <-). destruct (Hs j Hj) as (b & Hb & <-).
          apply Hkey in H; [|assumption..]. eexists. split; [apply in_map_iff; exists (nth a nk 0); split; [reflexivity|]|].
          -- apply in_seq. specialize (Hnk a Ha). lia.
          -- split; apply (in_map (fun j => nth j (gsidx g) 0)); apply Hgrp; auto.
      + rewrite !map_length. unfold out, sel. rewrite !map_length, !seq_length. split; [reflexivity|]. split; [reflexivity|].
        intros k Hk. rewrite !nth_map_seq by exact Hk.
        assert (Erow : forall d, map (fun i => xc rows i d) (map (fun j => nth j (gsidx g) 0) (grp k)) =
                  map (fun r => nth d r 0%Q) (map (fun i => nth i (gspts g) []) (grp k))).
        { intros d. rewrite !map_map. apply map_ext_in. intros j Hj. apply Hgrp in Hj as [Hj _].
          rewrite (spts_nth _ _ _ _ _ _ _ _ G) by exact Hj. reflexivity. }
        assert (Hpos : (0 < inject_Z (Z.of_nat (length (grp k))))%Q).
        { specialize (Hne k Hk). destruct (grp k); [congruence|]. cbn [length]. unfold Qlt; cbn; lia. }
        assert (Hm : forall d, d < D -> (inject_Z (Z.of_nat (length (grp k))) * nth d (mean D (map (fun i => nth i (gspts g) []) (grp k))) 0 ==
           fold_right Qplus 0 (map (fun i => xc rows i d) (map (fun j => nth j (gsidx g) 0%nat) (grp k))))%Q).
        { intros d Hd. rewrite mean_coord by exact Hd. rewrite Erow, !map_length. field. lra. }
        split; [split; [|split]|].
        * unfold mean. now rewrite map_length, seq_length.
        * intros E. apply map_eq_nil in E. now apply (Hne k Hk).
        * intros d Hd. rewrite map_length. now apply Hm.
        * intros i Hi. apply in_map_iff in Hi as (j & <- & Hj). pose proof Hj as Hj'. apply Hgrp in Hj as [Hj Ej]. split.
          -- rewrite map_map. rewrite nth_map_seq by exact Hk. specialize (Hne k Hk).
             destruct (grp k) as [|h r] eqn:E; [congruence|]. cbn [hd].
             assert (Hh : In h (grp k)) by (rewrite E; now left). apply Hgrp in Hh as [Hh Eh].
             rewrite (sbids_nth _ _ _ _ _ _ _ _ G) by exact Hh. apply Hkey; [assumption..|congruence].
          -- intros d Hd.
             set (c := coord cells d). assert (Hc : (0 < c)%Q) by (apply (ig_cells_pos _ _ _ _ _ _ _ _ G d Hd)).
             set (b := nth (nth j (gsidx g) 0) ids 0). set (l := nth d (lo_of eps D rows ids b) 0%Q).
             unfold cell. fold l. change (nth d cells 0%Q) with c.
             set (z := Qfloor ((nth d (nth (nth j (gsidx g) 0%nat) rows []) 0 - l) / c)%Q).
             assert (Hb : forall i, In i (map (fun j => nth j (gsidx g) 0) (grp k)) ->
               (l + inject_Z z * c <= xc rows i d /\ xc rows i d < l + (inject_Z z + 1) * c)%Q).
             { intros i Hi. apply in_map_iff in Hi as (a & <- & Ha). apply Hgrp in Ha as [Ha Ea].
               assert (Hja : nth a nk 0 = nth j nk 0) by congruence. apply Hkey in Hja as [E1 E2]; [|assumption..].
               specialize (E2 d Hd). unfold cell_at, raw_cell, lo_at in E2. rewrite E1 in E2. fold b in E2.
               unfold coord in E2 at 1 2 4 5. fold l in E2. change (coord cells d) with c in E2. fold z in E2.
               pose proof (Qfloor_le ((nth d (nth (nth a (gsidx g) 0%nat) rows []) 0 - l) / c)%Q) as F1.
               pose proof (Qlt_floor ((nth d (nth (nth a (gsidx g) 0%nat) rows []) 0 - l) / c)%Q) as F2.
               rewrite E2 in F1, F2. rewrite inject_Z_plus in F2. unfold xc.
               set (x := nth d (nth (nth a (gsidx g) 0%nat) rows []) 0%Q) in *.
               assert (Ex : (x - l == (x - l) / c * c)%Q) by (field; lra).
               split; [|change (inject_Z 1) with 1%Q in F2]; nra. }
             destruct (sum_bounds (fun i => xc rows i d) _ _ (map (fun j => nth j (gsidx g) 0) (grp k))
                (fun E => Hne k Hk (map_eq_nil _ _ E)) Hb) as [S1 S2].
             rewrite <- (Hm d Hd), map_length in S1, S2.
             set (x := nth d (mean D (map (fun i => nth i (gspts g) []) (grp k))) 0%Q) in *.
             set (w := inject_Z (Z.of_nat (length (grp k)))) in *.
             assert (X1 : (l + inject_Z z * c <= x)%Q) by (apply (Qmult_le_l _ _ w Hpos); exact S1).
             assert (X2 : (x < l + (inject_Z z + 1) * c)%Q) by (apply (Qmult_lt_l _ _ w Hpos); exact S2).
             assert (Y1 : (z <= Qfloor ((x - l) / c))%Z) by (apply Qfloor_ge_iff, div_ge_iff; [exact Hc|lra]).
             assert (Y2 : (Qfloor ((x - l) / c) < z + 1)%Z).
             { apply Qfloor_lt_iff, div_lt_iff; [exact Hc|]. rewrite inject_Z_plus. change (inject_Z 1) with 1%Q. lra. }
             lia.
    - unfold out, sel. now rewrite !map_length.
    - exact Hsel.
  Qed.
End Average.

(** * Poisson disk sampling *)

Lemma dist2_comm D p q : (dist2 D p q == dist2 D q p)%Q.
Proof.
  unfold dist2. generalize (seq 0 D). induction l as [|d l IH]; [reflexivity|]. cbn [map fold_right].
  rewrite IH. ring.
Qed.
Lemma dist2_self D p : (dist2 D p p == 0)%Q.
Proof.
  unfold dist2. generalize (seq 0 D). induction l as [|d l IH]; [reflexivity|]. cbn [map fold_right].
  rewrite IH. ring.
Qed.

Section Poisson.
  Context (gdev : device) (eps : Q) (D : nat) (rows : list point) (ids : list nat) (B : nat)
          (cells : point) (g : grid) (n : nbh) (r : Q).
  Hypothesis G : is_grid gdev eps D rows ids B cells g.
  Hypothesis Hn : ngrid n = g.
  Hypothesis Hr : (0 < r)%Q.
  Hypothesis Hin : forall j i, In (j, i) (nnbs n) <-> near D r (gspts g) (gsbids g) (gspts g) (gsbids g) j i.
  Hypothesis Hdel : delimits (rdata (nranges n)) (nnbs n) (length ids).
  Hypothesis Hsh : rshape (nranges n) = [length ids].

  Let N := length ids.

  Lemma poisson_ok dev fuel draws : N <= fuel ->
    exists sel, sampling_poisson dev fuel draws n =
        Some (Ok (map (fun i => nth i (gspts g) []) sel, map (fun i => nth i (gsbids g) 0) sel, sel)) /\
      Forall (fun j => j < N) sel /\
      poisson_sample D r rows ids (map (fun j => nth j (gsidx g) 0) sel).
  Proof using G Hn Hr Hin Hdel Hsh.
    intros HF.
    pose proof (spts_length _ _ _ _ _ _ _ _ G) as Lp. fold N in Lp.
    pose proof (sbids_length _ _ _ _ _ _ _ _ G) as Lb. fold N in Lb.
    pose proof (sidx_length _ _ _ _ _ _ _ _ G) as Li. fold N in Li.
    set (nb c := map fst (filter (fun q => Nat.eqb (snd q) c) (nnbs n))).
    assert (Hnb : forall j c, In j (nb c) <-> near D r (gspts g) (gsbids g) (gspts g) (gsbids g) j c).
    { intros j c. rewrite <- Hin. unfold nb. rewrite in_map_iff. split.
      - intros ([a b] & <- & H). apply filter_In in H as [H E]. cbn in E. apply Nat.eqb_eq in E. now subst.
      - intros H. exists (j, c). split; [reflexivity|]. apply filter_In. split; [exact H|apply Nat.eqb_refl]. }
    destruct Hdel as (D1 & D2 & D3). fold N in D1, D2, D3.
    destruct (loop_start dev N draws (0%Z :: rdata (nranges n)) (nnbs n) nb (fun i c => In i (nb c))) with (fuel := fuel)
      as (sel & E & S1 & S2 & S3 & S4).
    - intros c Hc. specialize (D3 c Hc). cbv zeta in D3. destruct D3 as (A1 & A2 & A3).
      exists (match c with 0 => 0%Z | S k => nth k (rdata (nranges n)) 0%Z end), (nth c (rdata (nranges n)) 0%Z).
      split; [|split].
      + destruct c as [|k]; [reflexivity|]. cbn [nth_error]. apply nth_error_nth'. lia.
      + rewrite Nat.add_1_r. cbn [nth_error]. apply nth_error_nth'. lia.
      + unfold nb. now rewrite py_slice_slice, A3.
    - intros c Hc. apply Hnb. unfold near. rewrite dist2_self, Lb. repeat split; auto. nra.
    - intros i c H. exact H.
    - intros i c H. apply Hnb. apply Hnb in H. unfold near in *. rewrite dist2_comm. intuition.
    - intros i c _ H. apply Hnb in H. unfold near in H. lia.
    - exact HF.
    - exists sel. split; [|split; [exact S2|]].
      + unfold sampling_poisson. rewrite Hn, Hsh, Lp, E. cbn [bind].
        rewrite (gather_map (gspts g) sel []) by (rewrite Lp; exact S2). cbn [bind].
        now rewrite (gather_map (gsbids g) sel 0) by (rewrite Lb; exact S2).
      + assert (Hlt : forall j, In j sel -> j < N) by (now apply Forall_forall).
        assert (Hinj : forall a b, a < N -> b < N -> nth a (gsidx g) 0 = nth b (gsidx g) 0 -> a = b).
        { intros a b Ha Hb. apply (proj1 (NoDup_nth (gsidx g) 0) (sidx_NoDup _ _ _ _ _ _ _ _ G)); lia. }
        split; [|split; [|split]].
        * apply NoDup_map_inj_in; [|exact S1]. auto.
        * apply Forall_map. eapply Forall_impl; [|exact S2]. intros j Hj. now apply (sidx_lt _ _ _ _ _ _ _ _ G).
        * intros i j Hi Hj Hij Hid. apply in_map_iff in Hi as (a & <- & Ha). apply in_map_iff in Hj as (b & <- & Hb).
          assert (Hab : a <> b) by congruence. specialize (S3 a b Ha Hb Hab). rewrite Hnb in S3.
          apply Qnot_lt_le. intros H. apply S3. unfold near. rewrite Lb, !(sbids_nth _ _ _ _ _ _ _ _ G) by auto.
          rewrite !(spts_nth _ _ _ _ _ _ _ _ G) by auto. auto.
        * intros j Hj. fold N in Hj.
          assert (Hjs : In j (gsidx g)).
          { apply (Permutation_in _ (Permutation_sym (sidx_perm _ _ _ _ _ _ _ _ G))), in_seq. fold N; lia. }
          apply (In_nth _ _ 0) in Hjs as (a & Ha & <-). rewrite Li in Ha.
          destruct (S4 a Ha) as (b & Hb & Hab). apply Hnb in Hab as (_ & _ & H1 & H2).
          exists (nth b (gsidx g) 0). split; [now apply (in_map (fun j => nth j (gsidx g) 0))|].
          rewrite !(sbids_nth _ _ _ _ _ _ _ _ G) in H1 by auto.
          rewrite !(spts_nth _ _ _ _ _ _ _ _ G) in H2 by auto. auto.
  Qed.
End Poisson.

(** The self-neighborhood built by the constructor with the fallback search. *)
Lemma self_nbh eps D rows ids B cs g radii mx n :
  usable eps D rows ids B cs g -> radii_match D radii cs ->
  snd (mk_nbh (find_neighbors_tf GPU) g radii None mx) = Ok n -> ids <> [] ->
  let r := nth 0 (all_dims D radii) 0%Q in
  is_grid GPU eps D rows ids B (all_dims D cs) (ngrid n) /\ (0 < r)%Q /\
  gspts (ngrid n) = gspts g /\ gsbids (ngrid n) = gsbids g /\ gsidx (ngrid n) = gsidx g /\ gnc (ngrid n) = gnc g /\
  pts (nsampled n) = gspts g /\ bids (nsampled n) = gsbids g /\ bsize (nsampled n) = B /\
  (forall j i, In (j, i) (nnbs n) <-> near D r (gspts g) (gsbids g) (gspts g) (gsbids g) j i) /\
  delimits (rdata (nranges n)) (nnbs n) (length ids) /\
  rshape (nranges n) = shape_of (length ids).
Proof.
  intros Hu Hr E Hne r.
  pose proof (us_sizes _ _ _ _ _ _ _ Hu) as Hv. pose proof (us_dim _ _ _ _ _ _ _ Hu) as HD.
  pose proof (grid_for_is _ _ _ _ _ _ _ _ Hv (us_grid _ _ _ _ _ _ _ Hu)) as G.
  destruct (sorted_cloud_ok _ _ _ _ _ _ _ _ G) as (p & Ep & Ep' & Hp). specialize (Hp GPU eps).
  pose proof (sbids_length _ _ _ _ _ _ _ _ G) as Lb.
  assert (Hne' : gsbids g <> []) by (intros E'; apply Hne, length_zero_iff_nil; rewrite <- Lb, E'; reflexivity).
  pose proof (cloud_is _ _ _ _ _ _ _ Hp) as Hpi.
  destruct (mk_nbh_tf eps D rows ids B cs g eps (gspts g) (gsbids g) B p radii mx None Hu Hp Hne'
    (ic_ids _ _ _ _ _ _ _ Hpi) Hr (or_intror (conj eq_refl Ep))) as (n' & E' & Eg & Es & _ & _ & N1 & N2 & N3 & Ef & _).
  rewrite E in E'. inversion E'; subst n'. clear E'.
  pose proof (find_tf_same GPU g p radii mx) as Hs. cbv zeta in Hs. rewrite <- Eg in Hs.
  destruct Hs as (_ & _ & _ & T1 & _ & T2 & _ & T3 & T4).
  assert (G' : is_grid GPU eps D rows ids B (all_dims D cs) (ngrid n)).
  { rewrite Eg. apply grid_for_is; [exact Hv|]. apply find_tf_grid_for, (us_grid _ _ _ _ _ _ _ Hu). }
  pose proof (ig_cells_pos _ _ _ _ _ _ _ _ G) as Hpos.
  destruct Hr as (R0 & R1 & R2).
  assert (P0 : (0 < r)%Q) by (unfold r; rewrite R0; apply Hpos; lia).
  assert (P1 : (0 < nth 1 (all_dims D radii) 0)%Q) by (rewrite R1; apply Hpos; lia).
  destruct (nth1_pos _ P1) as (r0 & r1 & rr & Er). unfold r in *. rewrite Er in P0, P1. cbn [nth] in P0, P1.
  destruct (find_tf_sound GPU eps D rows ids B _ g G (gspts g) (gsbids g) p radii mx
     (ic_pts _ _ _ _ _ _ _ Hpi) (ic_bids _ _ _ _ _ _ _ Hpi) (ic_dim _ _ _ _ _ _ _ Hpi) (ic_len _ _ _ _ _ _ _ Hpi)
     (ic_rows _ _ _ _ _ _ _ Hpi) (ic_ids _ _ _ _ _ _ _ Hpi) r0 r1 rr Er P0 P1 (nranges n) (nnbs n) Ef)
    as (_ & _ & Hd & Hs & _). rewrite Lb in Hd, Hs.
  repeat (split; [first [assumption|rewrite Er; assumption|rewrite Es; apply Hpi]|]). assumption.
Qed.
