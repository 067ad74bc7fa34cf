(** When the last level of a hierarchy has one point per batch element. *)
From Coq Require Import String List Arith ZArith QArith Qround Lia Lqa Bool Permutation.
From Verif Require Import Tensor TensorFacts Spec SpecText TextFacts PointCloud SpecCloud PointCloudFacts QFacts Grid SpecGrid GridFacts
  Neighbors SpecNeighbors NeighborFacts NeighborProofs
  Sampling SpecSampling SamplingFacts SamplingProofs Hierarchy SpecHierarchy HierarchyFacts HierarchyProofs LevelFacts.
Import ListNotations.
Local Open Scope nat_scope.

Lemma nth_repeat_any {A} (x d : A) n k : k < n -> nth k (repeat x n) d = x.
Proof. revert k. induction n as [|n IH]; intros [|k] H; cbn; auto; try lia. apply IH. lia. Qed.
Lemma NoDup_app_disjoint {A} (l m : list A) : NoDup (l ++ m) -> forall x, In x l -> In x m -> False.
Proof.
  induction l as [|a l IH]; intros H x Hl Hm; [destruct Hl|]. cbn in H. apply NoDup_cons_iff in H as [H1 H2].
  destruct Hl as [->|Hl]; [apply H1, in_or_app; now right|eauto].
Qed.
Lemma NoDup_app_r {A} (l m : list A) : NoDup (l ++ m) -> NoDup m.
Proof. induction l as [|a l IH]; cbn; [auto|]. intros H. apply NoDup_cons_iff in H. tauto. Qed.

(** Small boxes: every extent of an element plus two margins is at most [r]. *)
Definition narrow (eps : Q) (D : nat) (r : Q) (b : batch) : Prop :=
  forall i j d, i < length (snd b) -> j < length (snd b) -> d < D -> nth i (snd b) 0 = nth j (snd b) 0 ->
    (xc (fst b) i d - xc (fst b) j d + (2 # 1) * eps <= r)%Q.

(** Narrow means that one cell suffices, however many elements there are. *)
Lemma narrow_few eps D r b B : Z.of_nat B = (2 ^ 31)%Z -> narrow eps D r b -> few_cells eps D (repeat r D) B b.
Proof.
  intros EB H. exists (repeat 1%Z D). split; [apply repeat_length|]. split.
  - rewrite EB. assert (E : product (repeat 1%Z D) = 1%Z).
    { clear. unfold product. induction D as [|n IH]; [reflexivity|]. cbn [repeat fold_right]. rewrite IH. reflexivity. }
    rewrite E. lia.
  - intros d Hd. rewrite !nth_repeat_any by auto. split; [lia|]. intros i j Hi Hj E. specialize (H i j d Hi Hj Hd E).
    change (inject_Z 1) with 1%Q. lra.
Qed.
Lemma few_narrow eps D r b B : Z.of_nat B = (2 ^ 31)%Z -> (0 < r)%Q -> few_cells eps D (repeat r D) B b -> narrow eps D r b.
Proof.
  intros EB Hr (nc & Ln & Hp & H) i j d Hi Hj Hd E. rewrite EB in Hp.
  assert (H1 : Forall (fun c => (1 <= c)%Z) nc).
  { apply Forall_forall. intros x Hx. apply (In_nth _ _ 0%Z) in Hx. destruct Hx as (k & Hk & <-). apply H. lia. }
  assert (P1 : forall l, Forall (fun c => (1 <= c)%Z) l -> (1 <= product l)%Z).
  { induction 1 as [|c l Hc _ IH]; [cbn; lia|]. unfold product in *. cbn [fold_right]. nia. }
  assert (P2 : forall l k, Forall (fun c => (1 <= c)%Z) l -> (nth k l 1 <= product l)%Z).
  { induction l as [|c l IH]; intros k HF; [destruct k; cbn; lia|]. apply Forall_cons_iff in HF as [Hc HF].
    specialize (P1 l HF). unfold product in *. cbn [fold_right]. destruct k as [|k]; cbn [nth]; [nia|].
    specialize (IH k HF). nia. }
  assert (E1 : nth d nc 0%Z = 1%Z).
  { specialize (P2 nc d H1). specialize (P1 nc H1). rewrite (nth_indep nc 0%Z 1%Z) by lia.
    assert (1 <= nth d nc 1)%Z by (rewrite Forall_forall in H1; apply H1, nth_In; lia). lia. }
  destruct (H d Hd) as [_ H']. specialize (H' i j Hi Hj E). rewrite E1, nth_repeat_any in H' by auto. change (inject_Z 1) with 1%Q in H'. lra.
Qed.

(** One point per element: the ids of the points are distinct. *)
Lemma average_single eps D r up lo : (0 < eps)%Q -> (0 < r)%Q -> length (fst up) = length (snd up) -> narrow eps D r up ->
  cell_average eps D (repeat r D) (fst up) (snd up) (fst lo) (snd lo) -> NoDup (snd lo).
Proof.
  intros He Hr HL Hn (low & gr & Hlow & (Hpm & Hne & Hgr) & L1 & L2 & Hk).
  assert (Hlt : forall k a, k < length gr -> In a (nth k gr []) -> a < length (snd up)).
  { intros k a Hk' Ha. assert (In a (seq 0 (length (snd up)))) as X; [|apply in_seq in X; lia].
    eapply Permutation_in; [exact Hpm|]. apply in_concat. exists (nth k gr []). auto using nth_In. }
  assert (Hcell : forall i d, i < length (snd up) -> d < D -> cell (low (nth i (snd up) 0)) (repeat r D) (nth i (fst up) []) d = 0%Z).
  { intros i d Hi Hd. unfold cell. rewrite nth_repeat_any by auto. destruct (Hlow _ (nth_In _ 0 Hi) d Hd) as [A (j & Hj & Ej & E)].
    specialize (A i Hi eq_refl). specialize (Hn i j d Hi Hj Hd (eq_sym Ej)). unfold xc in *.
    set (x := nth d (nth i (fst up) []) 0%Q) in *. set (l := nth d (low (nth i (snd up) 0)) 0%Q) in *.
    assert (X : (0 <= (x - l) / r)%Q) by (apply Qle_shift_div_l; [auto|lra]).
    assert (Y : ((x - l) / r < 1)%Q) by (apply Qlt_shift_div_r; [auto|lra]).
    pose proof (Qfloor_le ((x - l) / r)) as F1. pose proof (Qlt_floor ((x - l) / r)) as F2.
    assert ((inject_Z (Qfloor ((x - l) / r)) < 1)%Q) by lra. change 1%Q with (inject_Z 1) in H. rewrite <- Zlt_Qlt in H.
    assert ((0 < inject_Z (Qfloor ((x - l) / r) + 1))%Q) by lra. change 0%Q with (inject_Z 0) in H0. rewrite <- Zlt_Qlt in H0. lia. }
  assert (ND : NoDup (concat gr)) by (eapply Permutation_NoDup; [symmetry; exact Hpm|apply seq_NoDup]).
  apply (NoDup_nth (snd lo) 0). intros k k' Hk1 Hk2 E. rewrite L2 in Hk1, Hk2.
  destruct (nth k gr []) as [|a g] eqn:Ea. { rewrite Forall_forall in Hne. destruct (Hne _ (nth_In gr [] Hk1)). exact Ea. }
  destruct (nth k' gr []) as [|a' g'] eqn:Ea'. { rewrite Forall_forall in Hne. destruct (Hne _ (nth_In gr [] Hk2)). exact Ea'. }
  assert (Ia : In a (nth k gr [])) by (rewrite Ea; now left). assert (Ia' : In a' (nth k' gr [])) by (rewrite Ea'; now left).
  destruct (Hk k Hk1) as [_ B1]. destruct (Hk k' Hk2) as [_ B2]. destruct (B1 a Ia) as [E1 _]. destruct (B2 a' Ia') as [E2 _].
  pose proof (Hlt k a Hk1 Ia) as La. pose proof (Hlt k' a' Hk2 Ia') as La'.
  destruct (proj2 (Hgr a a' La La')) as (grp & G1 & G2 & G3).
  { split; [congruence|]. intros d Hd. now rewrite !Hcell. }
  apply (In_nth _ _ []) in G1. destruct G1 as (m & Hm & <-).
  assert (Huniq : forall x i j, i < length gr -> j < length gr -> In x (nth i gr []) -> In x (nth j gr []) -> i = j).
  { clear - ND. induction gr as [|g0 gr IH]; intros x i j Hi Hj Xi Xj; [cbn in Hi; lia|]. cbn [concat] in ND.
    assert (Hin : forall i, In x (nth i gr []) -> i < length gr -> In x (concat gr)) by (intros; apply in_concat; eauto using nth_In).
    destruct i as [|i], j as [|j]; cbn [nth length] in *; auto.
    - exfalso. apply (NoDup_app_disjoint _ _ ND x Xi). apply (Hin j); auto; lia.
    - exfalso. apply (NoDup_app_disjoint _ _ ND x Xj). apply (Hin i); auto; lia.
    - f_equal. apply (IH (NoDup_app_r _ _ ND) x); auto; lia. }
  transitivity m; [eapply Huniq; eauto|symmetry; eapply Huniq; eauto].
Qed.

Lemma poisson_single D r (up lo : batch) : length (fst up) = length (snd up) ->
  (forall i j, i < length (snd up) -> j < length (snd up) -> nth i (snd up) 0 = nth j (snd up) 0 ->
     (dist2 D (nth i (fst up) []) (nth j (fst up) []) < r * r)%Q) ->
  forall sel, poisson_sample D r (fst up) (snd up) sel -> snd lo = map (fun i => nth i (snd up) 0) sel -> NoDup (snd lo).
Proof.
  intros HL Hc sel (N1 & N2 & N3 & _) E. rewrite E. apply (NoDup_nth _ 0). rewrite map_length. intros k k' Hk Hk' Ek.
  rewrite (nth_indep _ 0 (nth 0 (snd up) 0)), map_nth with (f := fun i => nth i (snd up) 0) in Ek by (now rewrite map_length).
  rewrite (nth_indep (map _ _) 0 (nth 0 (snd up) 0)), map_nth with (f := fun i => nth i (snd up) 0) in Ek by (now rewrite map_length).
  rewrite Forall_forall in N2. pose proof (nth_In sel 0 Hk) as I1. pose proof (nth_In sel 0 Hk') as I2.
  destruct (Nat.eq_dec (nth k sel 0) (nth k' sel 0)) as [e|e]; [exact (proj1 (NoDup_nth sel 0) N1 k k' Hk Hk' e)|].
  exfalso. specialize (N3 _ _ I1 I2 e Ek). specialize (Hc _ _ (N2 _ I1) (N2 _ I2) Ek). lra.
Qed.

(** The last level. *)
Lemma last_single mode eps D radii r rows ids data up lo :
  let input := (rows, ids) in
  (0 < eps)%Q -> (0 < r)%Q -> length rows = length ids -> ids <> [] ->
  chain (next_level mode eps D) (map (fun r => filled_with_first D [r]) radii) (input :: data) ->
  filled_with_first D [r] = repeat r D -> 0 < D ->
  (means mode poisson_names /\ (forall i j, i < length ids -> j < length ids -> nth i ids 0 = nth j ids 0 ->
     (dist2 D (nth i rows []) (nth j rows []) < r * r)%Q)) \/
  (means mode average_names /\ narrow eps D r input) ->
  forall k, nth_error radii k = Some r -> nth_error (input :: data) k = Some up -> nth_error (input :: data) (S k) = Some lo -> NoDup (snd lo).
Proof.
  intros input He Hr HL Hne Hch Ef HD Hm k Ek Eu El.
  assert (Hnx : next_level mode eps D (filled_with_first D [r]) up lo).
  { apply (chain_link _ _ _ Hch k); auto. now rewrite nth_error_map, Ek. }
  destruct (level_inherits _ _ _ _ _ _ _ HL Hne Hch k up Eu) as [U1 U2 U3].
  assert (Hno : ~ (means mode poisson_names /\ means mode average_names)).
  { intros [A1 A2]. pose proof (sample_mode_poisson _ A1). pose proof (sample_mode_average _ A2). congruence. }
  destruct Hm as [[Hp Hc]|[Ha Hc]]; destruct Hnx as [(Hp' & sel & Hs & E1 & E2)|(Ha' & Hs)]; try tauto.
  - rewrite Ef in Hs. rewrite nth_repeat_any in Hs by auto.
    destruct (structure_any eps D mode (map (fun r => [r]) radii) rows ids data) with (i := 0) (j := k) (b := input) (b' := up)
      as [_ Hsub]; auto; [rewrite map_map; exact Hch|lia|].
    destruct (Hsub Hp) as (sub & S1 & S2 & S3 & S4). cbn [fst snd input] in *.
    apply (poisson_single D r up lo U1) with (sel := sel); auto. intros i j Hi Hj E.
    rewrite S4, map_length in Hi, Hj. rewrite S3.
    rewrite S4, (nth_indep _ 0 (nth 0 ids 0)), map_nth with (f := fun i => nth i ids 0) in E by (now rewrite map_length).
    rewrite (nth_indep (map _ _) 0 (nth 0 ids 0)), map_nth with (f := fun i => nth i ids 0) in E by (now rewrite map_length).
    rewrite !(nth_indep (map _ _) [] (nth 0 rows [])) by (now rewrite map_length). rewrite !(map_nth (fun i => nth i rows [])).
    rewrite Forall_forall in S2. apply Hc; auto using nth_In.
  - rewrite Ef in Hs. apply (average_single eps D r up lo); auto.
    pose proof (Z2Nat.id (2 ^ 31) ltac:(lia)) as EB. set (BB := Z.to_nat (2 ^ 31)) in *. clearbody BB.
    apply (few_narrow eps D r up BB EB Hr). apply (level_few _ _ _ _ _ _ _ _ _ HL Hne Hch) with (i := k); auto.
    now apply narrow_few.
Qed.

Lemma distinct_ids B ids : NoDup ids -> Forall (fun b => b < B) ids -> all_nonempty B ids -> length ids = B.
Proof.
  intros H1 H2 H3. rewrite <- (seq_length B 0). apply Permutation_length. apply NoDup_Permutation; [auto|apply seq_NoDup|].
  intros x. rewrite in_seq. rewrite Forall_forall in H2. split; [intros Hx; specialize (H2 x Hx); lia|intros Hx; apply H3; lia].
Qed.
Lemma element_none {A} b : forall (X : list A) ids, ~ In b ids -> element b X ids = [].
Proof.
  unfold element. induction X as [|x X IH]; intros [|i ids] H; try reflexivity. cbn [combine filter snd].
  destruct (Nat.eqb_spec i b) as [->|]; [destruct H; now left|]. apply IH. intros Hi. apply H. now right.
Qed.
Lemma element_single {A} (d : A) : forall (X : list A) ids k, NoDup ids -> length X = length ids -> k < length ids ->
  element (nth k ids 0) X ids = [nth k X d].
Proof.
  induction X as [|x X IH]; intros [|i ids] k H HL Hk; cbn [length] in *; try lia. apply NoDup_cons_iff in H as [H1 H2].
  unfold element. cbn [combine filter snd]. destruct k as [|k]; cbn [nth].
  - rewrite Nat.eqb_refl. cbn [map fst]. f_equal. exact (element_none i X ids H1).
  - destruct (Nat.eqb_spec i (nth k ids 0)) as [E|E]; [exfalso; apply H1; rewrite E; apply nth_In; lia|].
    apply (IH ids k); auto; lia.
Qed.
Lemma elements_single {A} (d : A) B (X : list A) ids : NoDup ids -> Forall (fun b => b < B) ids -> all_nonempty B ids -> length X = length ids ->
  forall b, b < B -> exists k, k < length ids /\ nth k ids 0 = b /\ nth b (concat (map (fun b => element b X ids) (seq 0 B))) d = nth k X d.
Proof.
  intros H1 H2 H3 HL.
  assert (E : concat (map (fun b => element b X ids) (seq 0 B)) = map (fun b => hd d (element b X ids)) (seq 0 B)).
  { rewrite <- (map_id (map (fun b => hd d (element b X ids)) (seq 0 B))). rewrite map_map.
    assert (Hs : forall b, In b (seq 0 B) -> element b X ids = [hd d (element b X ids)]).
    { intros b Hb. apply in_seq in Hb. destruct (In_nth _ _ 0 (H3 b ltac:(lia))) as (k & Hk & <-). now rewrite (element_single d). }
    revert Hs. generalize (seq 0 B). induction l as [|b l IH]; intros Hs; [reflexivity|]. cbn [map concat].
    rewrite (Hs b (or_introl eq_refl)) at 1. cbn [app]. f_equal. apply IH. intros c Hc. apply Hs. now right. }
  intros b Hb. destruct (In_nth _ _ 0 (H3 b Hb)) as (k & Hk & Ek). exists k. split; [auto|]. split; [auto|]. rewrite E.
  rewrite (nth_map_seq (fun b => hd d (element b X ids)) B b d Hb). rewrite <- Ek. now rewrite (element_single d).
Qed.
