(** Cell averages of clouds that are equal up to order, translation and the
    other elements of the batch are equal in the same sense. *)
From Coq Require Import String List Arith ZArith QArith Qround Lia Lqa Bool Permutation.
From Verif Require Import Tensor TensorFacts Spec SpecText PointCloud QFacts SpecGrid Sampling SpecSampling SpecHierarchy SpecLayers
  SpecMatch MatchFacts.
Import ListNotations.
Local Open Scope nat_scope.

(** A relation that is a bijection between two lists. *)
Lemma pairing (R : nat -> nat -> Prop) (l1 l2 : list nat) : NoDup l1 -> NoDup l2 ->
  (forall k, In k l1 -> exists k2, In k2 l2 /\ R k k2) -> (forall k2, In k2 l2 -> exists k, In k l1 /\ R k k2) ->
  (forall k a b, In k l1 -> In a l2 -> In b l2 -> R k a -> R k b -> a = b) ->
  (forall k2 a b, In k2 l2 -> In a l1 -> In b l1 -> R a k2 -> R b k2 -> a = b) ->
  exists qs, Permutation (map fst qs) l1 /\ Permutation (map snd qs) l2 /\ forall k k2, In (k, k2) qs -> R k k2.
Proof.
  intros N1 N2 T1 T2 F1 F2.
  assert (H : forall l, incl l l1 -> exists qs, map fst qs = l /\ forall k k2, In (k, k2) qs -> In k l1 /\ In k2 l2 /\ R k k2).
  { induction l as [|k l IH]; intros Hl; [exists []; split; [reflexivity|intros ? ? []]|].
    destruct IH as (qs & E & Hq); [intros x Hx; apply Hl; now right|]. specialize (Hl k (or_introl eq_refl)).
    destruct (T1 k Hl) as (k2 & H1 & H2). exists ((k, k2) :: qs). split; [cbn; now rewrite E|].
    intros a b [Hab|Hab]; [|now apply Hq]. injection Hab as <- <-. auto. }
  destruct (H l1 (incl_refl _)) as (qs & E & Hq). exists qs. split; [now rewrite E|]. split; [|intros k k2 Hk; now apply Hq].
  apply NoDup_Permutation; [|exact N2|].
  - rewrite <- E in N1. clear - N1 Hq F2. induction qs as [|[a b] qs IH]; [constructor|]. cbn [map fst snd] in *. inversion N1 as [|? ? X Y]; subst.
    constructor; [|apply IH; [exact Y|intros; apply Hq; now right]]. intros Hb. apply in_map_iff in Hb as ([a' b'] & Eb & Hab). cbn in Eb. subst b'.
    destruct (Hq a b (or_introl eq_refl)) as (A1 & A2 & A3). destruct (Hq a' b (or_intror Hab)) as (B1 & B2 & B3).
    rewrite (F2 b a a') in X by auto. apply X, in_map_iff. now exists (a', b).
  - intros k2. split.
    + intros Hk. apply in_map_iff in Hk as ([a b] & <- & Hab). now apply (Hq a b).
    + intros Hk. destruct (T2 k2 Hk) as (k & K1 & K2). rewrite <- E in K1. apply in_map_iff in K1 as ([a b] & Ea & Hab). cbn in Ea. subst a.
      destruct (Hq k b Hab) as (A1 & A2 & A3). rewrite (F1 k k2 b) by auto. apply in_map_iff. now exists (k, b).
Qed.

Lemma matched_sym D t e b e2 b2 ps : matched D t e b e2 b2 ps -> matched D (fun d => - t d)%Q e2 b2 e b (map (fun p => (snd p, fst p)) ps).
Proof.
  intros (P1 & P2 & H). split; [|split].
  - rewrite map_map. exact P2.
  - rewrite map_map. exact P1.
  - intros i j d Hi Hd. apply in_map_iff in Hi as ([a b0] & E & Hab). injection E as <- <-. rewrite (H a b0 d Hab Hd). ring.
Qed.

Lemma qsum_perm l l' : Permutation l l' -> (fold_right Qplus 0 l == fold_right Qplus 0 l')%Q.
Proof.
  induction 1 as [|x l l2 H IH|x y l|l l2 l3 H1 I1 H2 I2]; cbn [fold_right]; [reflexivity|now rewrite IH|ring|now rewrite I1].
Qed.
Lemma qsum_shift (f g : nat * nat -> Q) c l : (forall p, In p l -> (g p == f p + c)%Q) ->
  (fold_right Qplus 0 (map g l) == fold_right Qplus 0 (map f l) + inject_Z (Z.of_nat (length l)) * c)%Q.
Proof.
  induction l as [|p l IH]; intros H; [cbn; ring|]. cbn [map fold_right length]. rewrite IH by (intros; apply H; now right).
  rewrite (H p (or_introl eq_refl)). rewrite Nat2Z.inj_succ. unfold Z.succ. rewrite inject_Z_plus. ring.
Qed.

(** The group of a point. *)
Section Groups.
  Context (D : nat) (same : nat -> nat -> Prop) (ids : list nat) (groups : list (list nat)) (HG : cell_groups D same ids groups).
  Lemma group_in i : i < length ids -> exists k, k < length groups /\ In i (nth k groups []).
  Proof using HG.
    intros Hi. destruct HG as (P & _). assert (H : In i (concat groups)) by (apply (Permutation_in _ (Permutation_sym P)), in_seq; lia).
    apply in_concat in H as (g & Hg & H). apply (In_nth _ _ []) in Hg as (k & Hk & <-). eauto.
  Qed.
  Lemma group_lt k i : k < length groups -> In i (nth k groups []) -> i < length ids.
  Proof using HG.
    intros Hk Hi. destruct HG as (P & _). assert (H : In i (concat groups)) by (apply in_concat; exists (nth k groups []); split; [now apply nth_In|exact Hi]).
    apply (Permutation_in _ P), in_seq in H. lia.
  Qed.
  Lemma group_unique k k' i : k < length groups -> k' < length groups -> In i (nth k groups []) -> In i (nth k' groups []) -> k = k'.
  Proof using HG.
    destruct HG as (P & _). assert (N : NoDup (concat groups)) by (apply (Permutation_NoDup (Permutation_sym P)), seq_NoDup).
    clear - N. revert k k'. induction groups as [|g gs IH]; intros k k' Hk Hk' H H'; [cbn in Hk; lia|].
    cbn [concat] in N.
    assert (X : forall x m, In x g -> m < length gs -> In x (nth m gs []) -> False).
    { intros x m Hx Hm Hxm. clear - N Hx Hm Hxm. induction g as [|y g IHg]; [contradiction|]. cbn [app] in N. inversion N as [|? ? A B]; subst.
      destruct Hx as [->|Hx]; [|now apply IHg]. apply A, in_or_app. right. apply in_concat. exists (nth m gs []). split; [now apply nth_In|exact Hxm]. }
    assert (N' : NoDup (concat gs)). { clear - N. induction g as [|y g IHg]; [exact N|]. inversion N. now apply IHg. }
    destruct k as [|k], k' as [|k']; cbn [nth length] in *; [reflexivity| | |].
    - destruct (X i k' H ltac:(lia) H').
    - destruct (X i k H' ltac:(lia) H).
    - f_equal. apply (IH N'); auto; lia.
  Qed.
  Lemma group_nodup k : k < length groups -> NoDup (nth k groups []).
  Proof using HG.
    destruct HG as (P & _). assert (N : NoDup (concat groups)) by (apply (Permutation_NoDup (Permutation_sym P)), seq_NoDup).
    clear - N. revert k. induction groups as [|g gs IH]; intros k Hk; [cbn in Hk; lia|]. cbn [concat] in N.
    destruct k as [|k]; cbn [nth length] in *.
    - clear - N. induction g as [|y g IHg]; [constructor|]. cbn [app] in N. inversion N as [|? ? A B]; subst. constructor; [|now apply IHg].
      intros Hy. apply A, in_or_app. now left.
    - apply IH; [|lia]. clear - N. induction g as [|y g IHg]; [exact N|]. inversion N. now apply IHg.
  Qed.
  Lemma group_same k i j : k < length groups -> i < length ids -> j < length ids -> In i (nth k groups []) ->
    (In j (nth k groups []) <-> nth i ids 0 = nth j ids 0 /\ same i j).
  Proof using HG.
    intros Hk Hi Hj Hin. pose proof group_unique as U. destruct HG as (_ & _ & H). rewrite <- (H i j Hi Hj). split.
    - intros Hjn. exists (nth k groups []). split; [now apply nth_In|]. now split.
    - intros (g & Hg & A & B). apply (In_nth _ _ []) in Hg as (k' & Hk' & <-). now rewrite (U k k' i).
  Qed.
  Lemma group_some k : k < length groups -> exists i, In i (nth k groups []).
  Proof using HG.
    intros Hk. destruct HG as (_ & N & _). rewrite Forall_forall in N. specialize (N _ (nth_In groups [] Hk)).
    destruct (nth k groups []) as [|i g]; [contradiction|]. exists i. now left.
  Qed.
End Groups.

(** Lower corners and cells under a translation. *)
Lemma corner_shift D eps t e up e2 up2 ps lo lo2 d : matched D t e up e2 up2 ps -> d < D ->
  lower_corner D eps (fst up) (snd up) e lo -> lower_corner D eps (fst up2) (snd up2) e2 lo2 ->
  (nth d lo2 0 == nth d lo 0 + t d)%Q.
Proof.
  intros (P & P2 & H) Hd L1 L2. destruct (L1 d Hd) as (A1 & i & I1 & I2 & I3). destruct (L2 d Hd) as (B1 & j & J1 & J2 & J3).
  assert (Hi : In i (map fst ps)) by (apply (Permutation_in _ (Permutation_sym P)), members_iff; auto).
  assert (Hj : In j (map snd ps)) by (apply (Permutation_in _ (Permutation_sym P2)), members_iff; auto).
  apply in_map_iff in Hi as ([i' i2] & E & Hi). cbn in E. subst i'. apply in_map_iff in Hj as ([j1 j'] & E & Hj). cbn in E. subst j'.
  assert (Hi2 : i2 < length (snd up2) /\ nth i2 (snd up2) 0 = e2) by (apply members_iff, (Permutation_in _ P2), in_map_iff; now exists (i, i2)).
  assert (Hj1 : j1 < length (snd up) /\ nth j1 (snd up) 0 = e) by (apply members_iff, (Permutation_in _ P), in_map_iff; now exists (j1, j)).
  destruct Hi2 as [X1 X2]. destruct Hj1 as [Y1 Y2]. specialize (B1 i2 X1 X2). specialize (A1 j1 Y1 Y2).
  pose proof (H i i2 d Hi Hd) as H1. pose proof (H j1 j d Hj Hd) as H2. lra.
Qed.
Lemma cell_shift t (lo lo2 p p2 cells : list Q) d : (nth d lo2 0 == nth d lo 0 + t)%Q -> (nth d p2 0 == nth d p 0 + t)%Q ->
  cell lo2 cells p2 d = cell lo cells p d.
Proof.
  intros H1 H2. unfold cell. apply Qfloor_comp. rewrite H1, H2. unfold Qdiv. ring.
Qed.

Section Level.
  Context (eps : Q) (D : nat) (cells : list Q).

  (** Half of the correspondence: for every output point of element [e] there
      is one of [e2] whose group is the image of its group. *)
  Section Half.
    Context (t : nat -> Q) (e e2 : nat) (up up2 : batch) (ps : list (nat * nat)) (HU : matched D t e up e2 up2 ps).
    Context (oids oids2 : list nat) (out out2 : list point) (lo lo2 : nat -> list Q) (groups groups2 : list (list nat)).
    Let c i d := cell (lo (nth i (snd up) 0)) cells (nth i (fst up) []) d.
    Let c2 i d := cell (lo2 (nth i (snd up2) 0)) cells (nth i (fst up2) []) d.
    Context (Hlo : forall b, In b (snd up) -> lower_corner D eps (fst up) (snd up) b (lo b))
      (Hlo2 : forall b, In b (snd up2) -> lower_corner D eps (fst up2) (snd up2) b (lo2 b))
      (HG : cell_groups D (fun i j => forall d, d < D -> c i d = c j d) (snd up) groups)
      (HG2 : cell_groups D (fun i j => forall d, d < D -> c2 i d = c2 j d) (snd up2) groups2)
      (Lo : length oids = length groups) (Lo2 : length oids2 = length groups2)
      (Hout : forall k, k < length groups -> forall i, In i (nth k groups []) -> nth k oids 0 = nth i (snd up) 0)
      (Hout2 : forall k, k < length groups2 -> forall i, In i (nth k groups2 []) -> nth k oids2 0 = nth i (snd up2) 0).

    Definition linked (k k2 : nat) : Prop := exists i j, In (i, j) ps /\ In i (nth k groups []) /\ In j (nth k2 groups2 []).

    Lemma pair_lt i j : In (i, j) ps -> (i < length (snd up) /\ nth i (snd up) 0 = e) /\ (j < length (snd up2) /\ nth j (snd up2) 0 = e2).
    Proof using HU. exact (mt_lt D t e e2 up up2 ps HU i j). Qed.
    Lemma pair_cell i j d : In (i, j) ps -> d < D -> c2 j d = c i d.
    Proof using HU Hlo Hlo2.
      intros Hp Hd. destruct (pair_lt i j Hp) as ((A1 & A2) & B1 & B2). unfold c, c2. rewrite A2, B2.
      apply (cell_shift (t d)).
      - apply (corner_shift D eps t e up e2 up2 ps); auto.
        + apply Hlo. rewrite <- A2. now apply nth_In.
        + apply Hlo2. rewrite <- B2. now apply nth_In.
      - destruct HU as (_ & _ & H). exact (H i j d Hp Hd).
    Qed.
    Lemma mate i : i < length (snd up) -> nth i (snd up) 0 = e -> exists j, In (i, j) ps.
    Proof using HU.
      intros H1 H2. destruct HU as (P & _). assert (H : In i (map fst ps)) by (apply (Permutation_in _ (Permutation_sym P)), members_iff; auto).
      apply in_map_iff in H as ([a b] & E & H). cbn in E. subst a. eauto.
    Qed.
    Lemma linked_total k : In k (members oids e) -> exists k2, In k2 (members oids2 e2) /\ linked k k2.
    Proof using HU HG HG2 Lo Lo2 Hout Hout2.
      intros Hk. apply members_iff in Hk as [K1 K2]. rewrite Lo in K1.
      destruct (group_some D _ _ _ HG k K1) as (i & Hi). pose proof (group_lt D _ _ _ HG k i K1 Hi) as Hil.
      destruct (mate i Hil) as (j & Hp); [now rewrite <- (Hout k K1 i Hi)|]. destruct (pair_lt i j Hp) as (_ & B1 & B2).
      destruct (group_in D _ _ _ HG2 j B1) as (k2 & K3 & K4). exists k2. split; [|now exists i, j].
      apply members_iff. split; [lia|]. now rewrite (Hout2 k2 K3 j K4).
    Qed.
    (** The image of a point of the group is in the linked group. *)
    Lemma linked_image k k2 i j : k < length groups -> k2 < length groups2 -> linked k k2 -> In (i, j) ps -> In i (nth k groups []) -> In j (nth k2 groups2 []).
    Proof using HU Hlo Hlo2 HG HG2.
      intros K1 K2 (i' & j' & Hp' & Hi' & Hj') Hp Hi. destruct (pair_lt i j Hp) as ((A1 & A2) & B1 & B2). destruct (pair_lt i' j' Hp') as ((A1' & A2') & B1' & B2').
      apply (group_same D _ _ _ HG2 k2 j' j K2 B1' B1 Hj'). split; [congruence|]. intros d Hd.
      rewrite (pair_cell i j d Hp Hd), (pair_cell i' j' d Hp' Hd). symmetry.
      apply (group_same D _ _ _ HG k i i' K1 A1 A1' Hi) in Hi' as [_ H]. now apply H.
    Qed.
    Lemma linked_fun k a b : k < length groups -> a < length groups2 -> b < length groups2 -> linked k a -> linked k b -> a = b.
    Proof using HU Hlo Hlo2 HG HG2.
      intros K A B Ha (i & j & Hp & Hi & Hj). apply (group_unique D _ _ _ HG2 a b j A B); [|exact Hj].
      now apply (linked_image k a i j).
    Qed.
  End Half.
End Level.

Lemma linked_swap ps groups groups2 k k2 : linked ps groups groups2 k k2 <-> linked (map (fun p => (snd p, fst p)) ps) groups2 groups k2 k.
Proof.
  split.
  - intros (i & j & H & A & B). exists j, i. split; [|now split]. apply in_map_iff. now exists (i, j).
  - intros (j & i & H & A & B). exists i, j. split; [|now split]. apply in_map_iff in H as ([a b] & E & H). injection E as <- <-. exact H.
Qed.

(** The next level: the cell averages are matched as well. *)
Lemma average_match eps D cells t e up lo e2 up2 lo2 ps :
  matched D t e up e2 up2 ps -> cell_average eps D cells (fst up) (snd up) (fst lo) (snd lo) ->
  cell_average eps D cells (fst up2) (snd up2) (fst lo2) (snd lo2) -> exists qs, matched D t e lo e2 lo2 qs.
Proof.
  intros HU (c & gs & Hc & HG & L1 & L1' & Ho) (c2 & gs2 & Hc2 & HG2 & L2 & L2' & Ho2). cbv zeta in *.
  pose proof (matched_sym _ _ _ _ _ _ _ HU) as HS.
  assert (O1 : forall k, k < length gs -> forall i, In i (nth k gs []) -> nth k (snd lo) 0 = nth i (snd up) 0) by (intros k Hk i Hi; now apply Ho).
  assert (O2 : forall k, k < length gs2 -> forall i, In i (nth k gs2 []) -> nth k (snd lo2) 0 = nth i (snd up2) 0) by (intros k Hk i Hi; now apply Ho2).
  destruct (pairing (linked ps gs gs2) (members (snd lo) e) (members (snd lo2) e2)) as (qs & Q1 & Q2 & HQ).
  - apply members_nodup.
  - apply members_nodup.
  - exact (linked_total D cells t e e2 up up2 ps HU _ _ _ _ _ _ HG HG2 L1' L2' O1 O2).
  - intros k2 Hk2. destruct (linked_total D cells _ e2 e up2 up _ HS _ _ _ _ _ _ HG2 HG L2' L1' O2 O1 k2 Hk2) as (k & K1 & K2).
    exists k. split; [exact K1|]. now apply linked_swap.
  - intros k a b Hk Ha Hb. apply members_iff in Hk as [Hk _], Ha as [Ha _], Hb as [Hb _].
    apply (linked_fun eps D cells t e e2 up up2 ps HU _ _ _ _ Hc Hc2 HG HG2); lia.
  - intros k a b Hk Ha Hb. apply members_iff in Hk as [Hk _], Ha as [Ha _], Hb as [Hb _]. intros X Y. apply linked_swap in X, Y. revert X Y.
    apply (linked_fun eps D cells _ e2 e up2 up _ HS _ _ _ _ Hc2 Hc HG2 HG); lia.
  - exists qs. split; [exact Q1|]. split; [exact Q2|]. intros k k2 d Hk Hd.
    assert (K1 : k < length gs). { rewrite <- L1'. apply (members_iff (snd lo) e), (Permutation_in _ Q1), in_map_iff. now exists (k, k2). }
    assert (K2 : k2 < length gs2). { rewrite <- L2'. apply (members_iff (snd lo2) e2), (Permutation_in _ Q2), in_map_iff. now exists (k, k2). }
    specialize (HQ k k2 Hk). destruct (Ho k K1) as [(_ & _ & M1) _]. destruct (Ho2 k2 K2) as [(_ & _ & M2) _].
    specialize (M1 d Hd). specialize (M2 d Hd). pose proof HU as (P1 & P2 & Hx).
    set (sub := filter (fun p => if in_dec Nat.eq_dec (fst p) (nth k gs []) then true else false) ps).
    assert (Hsub : forall p, In p sub <-> In p ps /\ In (fst p) (nth k gs [])).
    { intros p. unfold sub. rewrite filter_In. destruct (in_dec _ _ _); split; intros [? ?]; split; auto; try discriminate; contradiction. }
    assert (Nf : NoDup (map fst ps)) by (apply (Permutation_NoDup (Permutation_sym P1)), members_nodup).
    assert (Ns : NoDup (map snd ps)) by (apply (Permutation_NoDup (Permutation_sym P2)), members_nodup).
    assert (Nsub : forall (f : nat * nat -> nat), NoDup (map f ps) -> NoDup (map f sub)).
    { intros f. unfold sub. clear. induction ps as [|p l IH]; intros N; [constructor|]. cbn [map filter] in *. inversion N as [|? ? A B]; subst.
      destruct (in_dec _ _ _); [|now apply IH]. cbn [map]. constructor; [|now apply IH]. intros Hin. apply A.
      apply in_map_iff in Hin as (q & E & Hq). apply filter_In in Hq as [Hq _]. apply in_map_iff. now exists q. }
    assert (S1 : Permutation (map fst sub) (nth k gs [])).
    { apply NoDup_Permutation; [now apply Nsub|exact (group_nodup D _ _ _ HG k K1)|]. intros i. rewrite in_map_iff. split.
      - intros (p & <- & Hp). now apply Hsub in Hp.
      - intros Hi. pose proof (group_lt D _ _ _ HG k i K1 Hi) as Hil. destruct HQ as (i0 & j0 & Hp0 & Hi0 & _).
        destruct (pair_lt D t e e2 up up2 ps HU i0 j0 Hp0) as ((A1 & A2) & _).
        destruct (mate D t e e2 up up2 ps HU i Hil) as (j & Hp); [rewrite <- (O1 k K1 i Hi), (O1 k K1 i0 Hi0); exact A2|].
        exists (i, j). split; [reflexivity|]. now apply Hsub. }
    assert (S2 : Permutation (map snd sub) (nth k2 gs2 [])).
    { apply NoDup_Permutation; [now apply Nsub|exact (group_nodup D _ _ _ HG2 k2 K2)|]. intros j. rewrite in_map_iff. split.
      - intros ([i j'] & <- & Hp). apply Hsub in Hp as [Hp Hi].
        exact (linked_image eps D cells t e e2 up up2 ps HU _ _ _ _ Hc Hc2 HG HG2 k k2 i j' K1 K2 HQ Hp Hi).
      - intros Hj. pose proof (group_lt D _ _ _ HG2 k2 j K2 Hj) as Hjl. pose proof HQ as (i0 & j0 & Hp0 & _ & Hj0).
        destruct (pair_lt D t e e2 up up2 ps HU i0 j0 Hp0) as (_ & (A1 & A2)).
        destruct (mate D _ e2 e up2 up _ HS j Hjl) as (i & Hp); [rewrite <- (O2 k2 K2 j Hj), (O2 k2 K2 j0 Hj0); exact A2|].
        pose proof (proj1 (linked_swap _ _ _ _ _) HQ) as HQ'.
        pose proof (linked_image eps D cells _ e2 e up2 up _ HS _ _ _ _ Hc2 Hc HG2 HG k2 k j i K2 K1 HQ' Hp Hj) as Hi.
        apply in_map_iff in Hp as ([a b] & E & Hp). injection E as -> ->. exists (i, j). split; [reflexivity|]. now apply Hsub. }
    rewrite <- (qsum_perm _ _ (Permutation_map (fun i => xc (fst up) i d) S1)), map_map in M1.
    rewrite <- (qsum_perm _ _ (Permutation_map (fun i => xc (fst up2) i d) S2)), map_map in M2.
    rewrite (qsum_shift (fun p => xc (fst up) (fst p) d) (fun p => xc (fst up2) (snd p) d) (t d) sub) in M2.
    2:{ intros [i j] Hp. apply Hsub in Hp as [Hp _]. exact (Hx i j d Hp Hd). }
    pose proof (Permutation_length S1) as E1. pose proof (Permutation_length S2) as E2. rewrite map_length in E1, E2.
    rewrite <- E1 in M1. rewrite <- E2 in M2. rewrite <- M1 in M2.
    assert (Hpos : ~ (inject_Z (Z.of_nat (length sub)) == 0)%Q).
    { destruct (group_some D _ _ _ HG k K1) as (i & Hi). destruct (nth k gs []); [contradiction|]. rewrite E1. cbn [length]. unfold Qeq. cbn. lia. }
    apply (Qmult_inj_l _ _ _ Hpos). unfold xc. rewrite M2. ring.
Qed.
