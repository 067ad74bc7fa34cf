(** Every schedule of the scan kernel gives the block-wise prefix sums. *)
From Coq Require Import List Arith ZArith Lia Bool Permutation.
From Verif Require Import Cuda CudaFacts MemFacts GpuScan GpuScanFacts.
Import ListNotations.

Notation cell := (nat * nat)%type.
Definition frm {V} (R W : list cell) (a : action (mem V)) : Prop := frame (in_cells_b R) (in_cells_b W) a.
Lemma frm_weaken {V} R W R' W' (a : action (mem V)) : frm R W a -> incl R R' -> incl W W' -> incl W' R' -> frm R' W' a.
Proof.
  intros F H1 H2 H3. eapply frame_weaken; [exact F|..]; intros x; rewrite !in_cells_b_iff; auto.
Qed.
Lemma frm_sub {V} R W (a : action (mem V)) : frm R W a -> incl W R.
Proof. intros F x H. apply in_cells_b_iff. apply (fr_sub _ _ _ F). now apply in_cells_b_iff. Qed.
Lemma frm_assign {V} x ys (f : list V -> V) : frm (x :: ys) [x] (assign x ys f).
Proof.
  eapply frame_weaken; [apply assign_frame|auto|..]; intros y; rewrite ?in_cells_b_iff, ?cell_eqb_eq.
  - intros ->. left; auto.
  - intros [<-|[]]. left; auto.
Qed.
Lemma frm_put {V} x (v : V) : frm [x] [x] (put x v).
Proof. exact (frm_assign x [] (fun _ => v)). Qed.
Lemma frm_run_all {V} R W (l : list (action (mem V))) : incl W R -> (forall a, In a l -> frm R W a) -> frm R W (run_all l).
Proof.
  intros H F. apply frame_run_all; auto. intros x. rewrite !in_cells_b_iff. auto.
Qed.
Lemma frm_commute {V} R W R' W' (a a' : action (mem V)) : frm R W a -> frm R' W' a' ->
  (forall x, In x W -> ~ In x R') -> (forall x, In x W' -> ~ In x R) -> commute a a'.
Proof.
  intros F F' H H'. eapply frame_commute; eauto; intros x; rewrite in_cells_b_iff; intros Hx.
  - destruct (in_cells_b R' x) eqn:E; auto. apply in_cells_b_iff in E. exfalso. eapply H; eauto.
  - destruct (in_cells_b R x) eqn:E; auto. apply in_cells_b_iff in E. exfalso. eapply H'; eauto.
Qed.
Lemma phase_run_frm {V} (a : nat -> list (action (mem V))) (R W : nat -> list cell) ts m :
  (forall t x, In t ts -> In x (a t) -> frm (R t) (W t) x) -> (forall t, incl (W t) (R t)) ->
  NoDup ts ->
  (forall t u x, In t ts -> In u ts -> t <> u -> In x (W t) -> ~ In x (R u)) ->
  (forall t, In t ts -> exists mt, run_all (a t) m = Some mt) ->
  exists m', run_all (flat_map a ts) m = Some m' /\ same_shape m m' /\
    (forall t mt x, In t ts -> run_all (a t) m = Some mt -> In x (W t) -> get x m' = get x mt) /\
    (forall x, (forall t, In t ts -> ~ In x (W t)) -> get x m' = get x m).
Proof.
  intros F HS ND Ind Ex.
  destruct (phase_run a (fun t => in_cells_b (R t)) (fun t => in_cells_b (W t)) ts m) as (m' & E & Sh & G & O); auto.
  - intros t Ht. apply (frm_run_all (R t) (W t)); [apply HS|]. intros x Hx. exact (F t x Ht Hx).
  - intros t u x Ht Hu Hn Hx. apply in_cells_b_iff in Hx. destruct (in_cells_b (R u) x) eqn:Q; auto.
    apply in_cells_b_iff in Q. exfalso. exact (Ind t u x Ht Hu Hn Hx Q).
  - exists m'. split; auto. split; auto. split.
    + intros t mt x Ht Et Hx. apply (G t mt x Ht Et). now apply in_cells_b_iff.
    + intros x Hx. apply O. intros t Ht. destruct (in_cells_b (W t) x) eqn:Q; auto. apply in_cells_b_iff in Q.
      exfalso. exact (Hx t Ht Q).
Qed.

Lemma frm_swap x y : x <> y -> frm [x; y] [x; y] (swap_add x y).
Proof.
  intros Hxy. unfold frm. constructor; auto.
  - intros m m' E. unfold swap_add in E. destruct (get x m) as [vx|]; cbn in E; [|discriminate]. destruct (get y m) as [vy|]; cbn in E; [|discriminate].
    destruct (put x vy m) as [m1|] eqn:E1; cbn in E; [|discriminate].
    destruct (put_inv _ _ _ _ E1) as (S1 & _ & O1). destruct (put_inv _ _ _ _ E) as (S2 & _ & O2).
    split; [eapply same_shape_trans; eauto|]. intros z Hz.
    assert (z <> x /\ z <> y) as [Zx Zy].
    { split; intros ->; rewrite (proj2 (in_cells_b_iff _ _)) in Hz; [discriminate|left; auto|discriminate|right; left; auto]. }
    rewrite O2, O1; auto.
  - intros m1 m2 S H. unfold swap_add.
    assert (Hx : get x m1 = get x m2) by (apply H, in_cells_b_iff; left; auto).
    assert (Hy : get y m1 = get y m2) by (apply H, in_cells_b_iff; right; left; auto).
    rewrite Hx, Hy. destruct (get x m2) as [vx|] eqn:Ex; cbn [obind]; auto. destruct (get y m2) as [vy|] eqn:Ey; cbn [obind]; auto.
    destruct (put_some m1 x vy (ex_intro _ vx Hx)) as (n1 & En1). destruct (put_some m2 x vy (ex_intro _ vx Ex)) as (n2 & En2).
    rewrite En1, En2. cbn [obind]. destruct (put_inv _ _ _ _ En1) as (S1 & G1 & O1). destruct (put_inv _ _ _ _ En2) as (S2 & G2 & O2).
    destruct (put_some n1 y (vy + vx)%Z) as (p1 & Ep1); [exists vy; rewrite O1; auto; congruence|].
    destruct (put_some n2 y (vy + vx)%Z) as (p2 & Ep2); [exists vy; rewrite O2; auto; congruence|].
    rewrite Ep1, Ep2. destruct (put_inv _ _ _ _ Ep1) as (_ & G3 & O3). destruct (put_inv _ _ _ _ Ep2) as (_ & G4 & O4).
    intros z Hz. apply in_cells_b_iff in Hz. destruct Hz as [<-|[<-|[]]]; [|congruence]. rewrite O3, O4; auto. congruence.
Qed.

(** Numbering of the rounds. *)
Lemma iterations_scale t T B P : t < T -> B <> 0 -> forall f2 f1 e, P - e <= f1 -> P - e <= f2 ->
  iterations f1 (t + T * e) (B * T) (P * T) = map (fun i => t + T * i) (iterations f2 e B P).
Proof.
  intros Ht HB. induction f2 as [|f2 IH]; intros f1 e H1 H2.
  - cbn [iterations map]. destruct f1 as [|f1]; cbn [iterations]; auto.
    destruct (Nat.ltb_spec (t + T * e) (P * T)) as [H|]; auto. exfalso. nia.
  - cbn [iterations]. destruct (Nat.ltb_spec e P) as [H|H].
    + destruct f1 as [|f1]; [lia|]. cbn [iterations]. destruct (Nat.ltb_spec (t + T * e) (P * T)) as [_|H']; [|exfalso; nia].
      cbn [map]. f_equal. replace (t + T * e + B * T) with (t + T * (e + B)) by lia. apply IH; lia.
    + destruct f1 as [|f1]; cbn [iterations]; auto. destruct (Nat.ltb_spec (t + T * e) (P * T)) as [H'|]; auto. exfalso. nia.
Qed.
Lemma strided_scale t T b B P : t < T -> B <> 0 ->
  strided (t + T * b) (B * T) (P * T) = map (fun i => t + T * i) (strided b B P).
Proof. intros Ht HB. unfold strided. apply (iterations_scale t T B P); auto; nia. Qed.

Lemma rounds_nth {M} (ph : nat -> list (list (action M))) L es p : L <> 0 -> (forall e, length (ph e) = L) ->
  nth p (flat_map ph es ++ [[]]) [] = match nth_error es (p / L) with Some e => nth (p mod L) (ph e) [] | None => [] end.
Proof.
  intros HL H. revert p. induction es as [|e es IH]; intros p; cbn [flat_map app].
  - destruct (p / L); cbn [nth_error]; destruct p as [|[|p]]; reflexivity.
  - rewrite <- app_assoc. destruct (Nat.lt_ge_cases p L) as [Hp|Hp].
    + rewrite app_nth1 by (rewrite H; auto). rewrite Nat.div_small, Nat.mod_small by auto. reflexivity.
    + rewrite app_nth2 by (rewrite H; auto). rewrite H, IH.
      assert (E : p = p - L + 1 * L) by lia.
      assert (E1 : p / L = S ((p - L) / L)) by (rewrite E at 1; rewrite Nat.div_add by auto; lia).
      assert (E2 : p mod L = (p - L) mod L) by (rewrite E at 1; apply Nat.mod_add; auto).
      rewrite E1, E2. reflexivity.
Qed.

Lemma flat_map_first {A} (l : list A) c : c <> 0 -> flat_map (fun t => if t =? 0 then l else []) (seq 0 c) = l.
Proof.
  intros H. destruct c as [|c]; [congruence|]. cbn [seq flat_map Nat.eqb]. rewrite flat_map_nil; [apply app_nil_r|].
  intros t Ht. apply in_seq in Ht. destruct (Nat.eqb_spec t 0); [lia|auto].
Qed.

Section ScanKernel.
  Variables (k n blocks nproc : nat).
  Notation T := (2 ^ k).
  Notation N := (2 ^ k * 2).
  Hypothesis HB : blocks <> 0.

  Let T0 : T <> 0. Proof. apply pow_pos. Qed.

  Definition feet (b : nat) : list ((nat -> nat -> list (action (mem Z))) * (nat -> nat -> list cell) * (nat -> nat -> list cell)) :=
    [(scan_load n b, fun t cur => [(2 + b, 2 * t); (2 + b, 2 * t + 1); (0, 2 * cur); (0, 2 * cur + 1)],
      fun t cur => [(2 + b, 2 * t); (2 + b, 2 * t + 1)])] ++
    map (fun j => (scan_up k b j, fun t (_ : nat) => [(2 + b, right_ix (2 ^ j) t); (2 + b, left_ix (2 ^ j) t)],
                   fun t (_ : nat) => [(2 + b, right_ix (2 ^ j) t)])) (seq 0 (S k)) ++
    map (fun j => (scan_down k b j, fun t (_ : nat) => [(2 + b, left_ix (2 ^ j) t); (2 + b, right_ix (2 ^ j) t)],
                   fun t (_ : nat) => [(2 + b, left_ix (2 ^ j) t); (2 + b, right_ix (2 ^ j) t)])) (rev (seq 0 (S k))) ++
    [(scan_count k n b, fun t cur => if t =? 0 then let e := Nat.min (2 * T - 1) (n - cur * 2 - 1) in [(1, cur / T); (2 + b, e); (0, 2 * cur + e)] else [],
      fun t cur => if t =? 0 then [(1, cur / T)] else []);
     (scan_write n b, fun t cur => [(0, 2 * cur); (0, 2 * cur + 1); (2 + b, 2 * t); (2 + b, 2 * t + 1)],
      fun t cur => [(0, 2 * cur); (0, 2 * cur + 1)])].
  Lemma feet_phases b : map (fun p => fst (fst p)) (feet b) = scan_phases k n b.
  Proof. unfold feet, scan_phases. rewrite !map_app, !map_map. reflexivity. Qed.

  Lemma right_inj o t u : o <> 0 -> right_ix o t = right_ix o u -> t = u.
  Proof. unfold right_ix. intros Ho E. assert (Q : o * (2 * t + 2) = o * (2 * u + 2)) by nia. apply Nat.mul_cancel_l in Q; lia. Qed.
  Lemma left_inj o t u : o <> 0 -> left_ix o t = left_ix o u -> t = u.
  Proof. unfold left_ix. intros Ho E. assert (Q : o * (2 * t + 1) = o * (2 * u + 1)) by nia. apply Nat.mul_cancel_l in Q; lia. Qed.
  Lemma left_right o t u : o <> 0 -> left_ix o t <> right_ix o u.
  Proof. unfold left_ix, right_ix. intros Ho E. assert (Q : o * (2 * t + 1) = o * (2 * u + 2)) by nia. apply Nat.mul_cancel_l in Q; lia. Qed.

  (** What the phases touch. *)
  Record foot_ok (b : nat) (f : (nat -> nat -> list (action (mem Z))) * (nat -> nat -> list cell) * (nat -> nat -> list cell)) : Prop := {
    fo_frm : forall t e a, t < T -> In a (fst (fst f) t (t + T * e)) -> frm (snd (fst f) t (t + T * e)) (snd f t (t + T * e)) a;
    fo_sub : forall t cur, incl (snd f t cur) (snd (fst f) t cur);
    fo_ind : forall t u e x, t < T -> u < T -> t <> u -> In x (snd f t (t + T * e)) -> ~ In x (snd (fst f) u (u + T * e));
    fo_in : forall t e x, t < T -> In x (snd (fst f) t (t + T * e)) ->
      fst x = 2 + b \/ (fst x = 0 /\ snd x / N = e) \/ (fst x = 1 /\ snd x = e) }.

  Ltac cases := repeat match goal with
    | H : In _ (_ :: _) |- _ => destruct H as [H|H]
    | H : In _ [] |- _ => destruct H
    | H : _ \/ _ |- _ => destruct H as [H|H]
    | H : False |- _ => destruct H
    end.
  Ltac inc := let z := fresh in intros z ?; cbn in *; tauto.

  Lemma block_of c e : c < T -> (2 * (c + T * e)) / N = e /\ (2 * (c + T * e) + 1) / N = e.
  Proof.
    intros H. split; symmetry.
    - apply (Nat.div_unique _ _ _ (2 * c)); lia.
    - apply (Nat.div_unique _ _ _ (2 * c + 1)); lia.
  Qed.

  Lemma feet_ok b f : In f (feet b) -> foot_ok b f.
  Proof.
    unfold feet. rewrite !in_app_iff, !in_map_iff. cbn [In]. intros [[<-|[]]|[(j & <- & Hj)|[(j & <- & Hj)|[<-|[<-|[]]]]]].
    - constructor; cbn [fst snd].
      + intros t e a Ht [<-|[<-|[]]].
        * destruct (_ <? _); (eapply frm_weaken; [first [apply frm_assign|apply frm_put]|..]); inc.
        * destruct (_ <? _); (eapply frm_weaken; [first [apply frm_assign|apply frm_put]|..]); inc.
      + intros t cur. inc.
      + intros t u e x Ht Hu Hn H1 H2. cbn in H1, H2. cases; subst; try (inversion H2; lia); congruence.
      + intros t e x Ht H. destruct (block_of t e Ht) as [B1 B2]. cbn [In] in H. cases; subst; cbn [fst snd]; auto.
    - apply in_seq in Hj. pose proof (pow_pos j) as Pj. constructor; cbn [fst snd].
      + intros t e a Ht Ha. unfold scan_up in Ha. apply in_app_iff in Ha. destruct Ha as [Ha|Ha].
        * destruct (_ <? _); [|destruct Ha]. destruct Ha as [<-|[]]. eapply frm_weaken; [apply frm_assign|..]; inc.
        * destruct ((j =? k) && (t =? 0)) eqn:E; [|destruct Ha]. apply andb_true_iff in E as [E1 E2]. apply Nat.eqb_eq in E1, E2. subst j t.
          destruct Ha as [<-|[]]. replace (right_ix T 0) with (T * 2 - 1) by (unfold right_ix; lia).
          eapply frm_weaken; [apply frm_put|..]; inc.
      + intros t cur. inc.
      + intros t u e x Ht Hu Hn H1 H2. cbn [In] in H1, H2. cases; subst x; inversion H2 as [E].
        * apply right_inj in E; auto.
        * apply left_right in E; auto.
      + intros t e x Ht H. cbn [In] in H. cases; subst; cbn [fst snd]; auto.
    - pose proof (pow_pos j) as Pj. constructor; cbn [fst snd].
      + intros t e a Ht Ha. unfold scan_down in Ha. destruct (_ <? _); [|destruct Ha]. destruct Ha as [<-|[]].
        apply frm_swap. intros E. inversion E as [E']. apply left_right in E'; auto.
      + intros t cur. inc.
      + intros t u e x Ht Hu Hn H1 H2. cbn [In] in H1, H2. cases; subst x; inversion H2 as [E].
        all: first [apply left_inj in E|apply right_inj in E|apply left_right in E|symmetry in E; apply left_right in E]; auto.
      + intros t e x Ht H. cbn [In] in H. cases; subst; cbn [fst snd]; auto.
    - constructor; cbn [fst snd].
      + intros t e a Ht Ha. unfold scan_count in Ha. destruct (t =? 0); [|destruct Ha]. destruct Ha as [<-|[]].
        cbv zeta. apply frm_assign.
      + intros t cur. destruct (t =? 0); inc.
      + intros t u e x Ht Hu Hn H1 H2. destruct (Nat.eqb_spec t 0), (Nat.eqb_spec u 0); auto. lia.
      + intros t e x Ht H. destruct (Nat.eqb_spec t 0) as [->|]; [|destruct H]. cbv zeta in H. cbn [In] in H.
        cases; subst; cbn [fst snd]; auto.
        * right; right. split; auto. replace (0 + T * e) with (e * T) by lia. apply Nat.div_mul; auto.
        * right; left. split; auto. symmetry. apply (Nat.div_unique _ _ _ (Nat.min (2 * T - 1) (n - (0 + T * e) * 2 - 1))); lia.
    - constructor; cbn [fst snd].
      + intros t e a Ht Ha. unfold scan_write in Ha. apply in_app_iff in Ha.
        destruct Ha as [Ha|Ha]; (destruct (_ <? _); [|destruct Ha]); destruct Ha as [<-|[]];
          (eapply frm_weaken; [apply frm_assign|..]); inc.
      + intros t cur. inc.
      + intros t u e x Ht Hu Hn H1 H2. cbn in H1, H2. cases; subst; try (inversion H2; lia); congruence.
      + intros t e x Ht H. destruct (block_of t e Ht) as [B1 B2]. cbn [In] in H. cases; subst; cbn [fst snd]; auto.
  Qed.

  (** The threads as rounds over the element blocks. *)
  Definition round (b t e : nat) : list (list (action (mem Z))) := map (fun ph => ph t (t + T * e)) (scan_phases k n b).
  Lemma scan_thread_rounds b t : t < T ->
    scan_thread k n blocks nproc b t = flat_map (round b t) (strided b blocks nproc) ++ [[]].
  Proof.
    intros Ht. unfold scan_thread. rewrite strided_scale by auto. f_equal.
    rewrite flat_map_concat_map, map_map, <- flat_map_concat_map. reflexivity.
  Qed.
  Lemma phases_length b : length (scan_phases k n b) = 2 * k + 5.
  Proof. unfold scan_phases. rewrite !app_length, !map_length, rev_length, seq_length. cbn [length]. lia. Qed.
  Lemma round_length b t e : length (round b t e) = 2 * k + 5.
  Proof. unfold round. rewrite map_length. apply phases_length. Qed.
  Lemma round_nth b t e q : nth q (round b t e) [] = match nth_error (scan_phases k n b) q with Some ph => ph t (t + T * e) | None => [] end.
  Proof.
    unfold round. destruct (nth_error (scan_phases k n b) q) as [ph|] eqn:E.
    - rewrite (nth_error_nth _ _ [] (map_nth_error _ _ _ E)). reflexivity.
    - apply nth_overflow. rewrite map_length. now apply nth_error_None.
  Qed.
  Lemma nth_phase b q ph : nth_error (scan_phases k n b) q = Some ph ->
    exists R W, foot_ok b (ph, R, W).
  Proof.
    rewrite <- feet_phases, nth_error_map. destruct (nth_error (feet b) q) as [[[ph' R] W]|] eqn:E; cbn; [|discriminate].
    intros [= <-]. exists R, W. apply feet_ok. eapply nth_error_In; eauto.
  Qed.

  Definition blk (b : nat) : block (mem Z) := map (scan_thread k n blocks nproc b) (seq 0 T).
  Lemma blk_nth b i t : nth_error (blk b) i = Some t -> i < T /\ t = flat_map (round b i) (strided b blocks nproc) ++ [[]].
  Proof.
    unfold blk. rewrite nth_error_map. destruct (nth_error (seq 0 T) i) as [j|] eqn:E; cbn; [|discriminate].
    assert (i < T) by (rewrite <- (seq_length T 0); apply nth_error_Some; congruence).
    assert (j = i) by (apply nth_error_nth with (d := 0) in E; rewrite seq_nth in E by auto; lia). subst j.
    intros [= <-]. split; auto. now apply scan_thread_rounds.
  Qed.
  Lemma blk_ok b : block_ok (blk b).
  Proof.
    intros p i j ti tj a a' Hi Hj Hn Ha Ha'. apply blk_nth in Hi as [Hi ->]. apply blk_nth in Hj as [Hj ->].
    rewrite (rounds_nth _ (2 * k + 5)) in Ha by (try lia; intros; apply round_length).
    rewrite (rounds_nth _ (2 * k + 5)) in Ha' by (try lia; intros; apply round_length).
    destruct (nth_error (strided b blocks nproc) (p / (2 * k + 5))) as [e|]; [|destruct Ha].
    rewrite round_nth in Ha, Ha'. destruct (nth_error (scan_phases k n b) (p mod (2 * k + 5))) as [ph|] eqn:E; [|destruct Ha].
    destruct (nth_phase _ _ _ E) as (R & W & F).
    pose proof (fo_frm _ _ F i e a Hi Ha) as F1. pose proof (fo_frm _ _ F j e a' Hj Ha') as F2. cbn [fst snd] in F1, F2.
    eapply frm_commute; [exact F1|exact F2|..]; intros x Hx.
    - exact (fo_ind _ _ F i j e x Hi Hj Hn Hx).
    - exact (fo_ind _ _ F j i e x Hj Hi ltac:(auto) Hx).
  Qed.
  (** Cells a block touches. *)
  Definition mine (b : nat) (x : cell) : bool :=
    (fst x =? 2 + b) || ((fst x =? 0) && ((snd x / N) mod blocks =? b)) || ((fst x =? 1) && (snd x mod blocks =? b)).
  Lemma mine_disjoint b b' x : b <> b' -> mine b x = true -> mine b' x = false.
  Proof.
    unfold mine. intros Hn H. apply not_true_iff_false. intros H'.
    rewrite !orb_true_iff, !andb_true_iff, !Nat.eqb_eq in H, H'. lia.
  Qed.
  Lemma blk_rem_frame b a : b < blocks -> In a (block_rem (blk b)) -> frame (mine b) (mine b) a.
  Proof.
    intros Hb Ha. apply in_block_rem in Ha as (p & i & t & Hi & Ha). apply blk_nth in Hi as [Hi ->].
    rewrite (rounds_nth _ (2 * k + 5)) in Ha by (try lia; intros; apply round_length).
    destruct (nth_error (strided b blocks nproc) (p / (2 * k + 5))) as [e|] eqn:Ee; [|destruct Ha].
    rewrite round_nth in Ha. destruct (nth_error (scan_phases k n b) (p mod (2 * k + 5))) as [ph|] eqn:E; [|destruct Ha].
    destruct (nth_phase _ _ _ E) as (R & W & F). pose proof (fo_frm _ _ F i e a Hi Ha) as F1.
    apply nth_error_In in Ee. apply strided_mod in Ee as [He Hm]; auto.
    assert (In_mine : forall x, In x (R i (i + T * e)) -> mine b x = true).
    { intros x Hx. unfold mine. rewrite !orb_true_iff, !andb_true_iff, !Nat.eqb_eq.
      destruct (fo_in _ _ F i e x Hi Hx) as [H|[[H H']|[H H']]]; [auto|left; right|right]; (split; auto); now rewrite H'. }
    eapply frame_weaken; [exact F1|..]; cbn [fst snd]; intros x; rewrite ?in_cells_b_iff; auto.
    intros Hx. apply In_mine. exact (fo_sub _ _ F i _ x Hx).
  Qed.
  Lemma kernel_nth b bl : nth_error (scan_kernel k n blocks nproc) b = Some bl -> b < blocks /\ bl = blk b.
  Proof.
    unfold scan_kernel. rewrite nth_error_map. destruct (nth_error (seq 0 blocks) b) as [j|] eqn:E; cbn; [|discriminate].
    assert (b < blocks) by (rewrite <- (seq_length blocks 0); apply nth_error_Some; congruence).
    assert (j = b) by (apply nth_error_nth with (d := 0) in E; rewrite seq_nth in E by auto; lia). subst j.
    intros [= <-]. auto.
  Qed.
  Lemma kernel_ok : blocks_ok (scan_kernel k n blocks nproc).
  Proof.
    split.
    - intros b bl H. apply kernel_nth in H as [_ ->]. apply blk_ok.
    - intros b b' bl bl' a a' H H' Hn Ha Ha'. apply kernel_nth in H as [Hb ->]. apply kernel_nth in H' as [Hb' ->].
      eapply frame_commute; [exact (blk_rem_frame b a Hb Ha)|exact (blk_rem_frame b' a' Hb' Ha')|..]; intros x; apply mine_disjoint; auto.
  Qed.

  (** ** Values *)
  Variable x : nat -> Z.
  Hypothesis Hx : forall i, n <= i -> x i = 0%Z.
  Definition tmpf (b : nat) (f : nat -> Z) (m : mem Z) : Prop := forall i, i < N -> get (2 + b, i) m = Some (f i).
  Definition keep (b : nat) (m m' : mem Z) : Prop := same_shape m m' /\ forall y, fst y <> 2 + b -> get y m' = get y m.
  Lemma keep_trans b m m' m'' : keep b m m' -> keep b m' m'' -> keep b m m''.
  Proof. intros [S G] [S' G']. split; [eapply same_shape_trans; eauto|]. intros y Hy. rewrite G', G; auto. Qed.

  Lemma load_one dst src m : has m dst -> (src < n -> get (0, src) m = Some (x src)) ->
    exists m1, (if src <? n then assign dst [(0, src)] first else put dst 0%Z) m = Some m1 /\ put dst (x src) m = Some m1.
  Proof.
    intros Hd Hs. destruct (put_some m dst (x src) Hd) as [m1 E]. exists m1. split; auto.
    destruct (Nat.ltb_spec src n) as [H|H].
    - unfold assign. cbn [gets]. rewrite (Hs H). cbn [obind option_map first hd]. exact E.
    - rewrite (Hx src H) in E. exact E.
  Qed.
  Lemma fo_phase b f e m (F : foot_ok b f) :
    (forall t, t < T -> exists mt, run_all (fst (fst f) t (t + T * e)) m = Some mt) ->
    exists m', run_all (flat_map (fun t => fst (fst f) t (t + T * e)) (seq 0 T)) m = Some m' /\ same_shape m m' /\
      (forall t mt y, t < T -> run_all (fst (fst f) t (t + T * e)) m = Some mt -> In y (snd f t (t + T * e)) -> get y m' = get y mt) /\
      (forall y, (forall t, t < T -> ~ In y (snd f t (t + T * e))) -> get y m' = get y m).
  Proof.
    intros H. destruct (phase_run_frm (fun t => fst (fst f) t (t + T * e)) (fun t => snd (fst f) t (t + T * e))
      (fun t => snd f t (t + T * e)) (seq 0 T) m) as (m' & E & Sh & G & O).
    - intros t a Ht Ha. apply in_seq in Ht. apply (fo_frm _ _ F); auto. lia.
    - intros t. apply (fo_sub _ _ F).
    - apply seq_NoDup.
    - intros t u y Ht Hu Hn Hy. apply in_seq in Ht, Hu. apply (fo_ind _ _ F t u e y); auto; lia.
    - intros t Ht. apply in_seq in Ht. apply H. lia.
    - exists m'. split; auto. split; auto. split.
      + intros t mt y Ht. apply G. apply in_seq. lia.
      + intros y Hy. apply O. intros t Ht. apply in_seq in Ht. apply Hy. lia.
  Qed.

  Section Round.
    Variables (b e : nat).
    Hypothesis He : N * e < n.
    Notation foot ph R W := (ph, R, W).

    Lemma load_run m : (forall i, i < N -> has m (2 + b, i)) -> (forall i, N * e <= i -> i < N * e + N -> i < n -> get (0, i) m = Some (x i)) ->
      exists m', run_all (flat_map (fun t => scan_load n b t (t + T * e)) (seq 0 T)) m = Some m' /\ keep b m m' /\ tmpf b (fun i => x (N * e + i)) m'.
    Proof.
      intros Hh Hg. assert (F : In (nth 0 (feet b) (scan_load n b, fun _ _ => [], fun _ _ => [])) (feet b)) by (left; reflexivity).
      apply feet_ok in F. cbn [nth feet app] in F.
      assert (Hrun : forall t, t < T -> exists m1 mt, run_all (scan_load n b t (t + T * e)) m = Some mt /\
          put (2 + b, 2 * t) (x (2 * (t + T * e))) m = Some m1 /\ put (2 + b, 2 * t + 1) (x (2 * (t + T * e) + 1)) m1 = Some mt).
      { intros t Ht. destruct (load_one (2 + b, 2 * t) (2 * (t + T * e)) m) as (m1 & E1 & P1); [apply Hh; lia|intros; apply Hg; lia|].
        destruct (put_inv _ _ _ _ P1) as (S1 & _ & O1).
        destruct (load_one (2 + b, 2 * t + 1) (2 * (t + T * e) + 1) m1) as (mt & E2 & P2).
        - eapply has_shape; [exact S1|]. apply Hh. lia.
        - intros. rewrite O1; [|intros X; inversion X]. apply Hg; lia.
        - exists m1, mt. split; [|auto]. unfold scan_load. cbn [run_all].
          replace ((t + T * e) * 2) with (2 * (t + T * e)) by lia. rewrite E1. cbn [obind]. rewrite E2. reflexivity. }
      destruct (fo_phase b _ e m F) as (m' & E & Sh & G & O); cbn [fst snd] in *.
      { intros t Ht. destruct (Hrun t Ht) as (m1 & mt & R & _). eauto. }
      exists m'. split; auto. split.
      - split; auto. intros y Hy. apply O. intros t Ht H. cbn [In] in H. destruct H as [<-|[<-|[]]]; apply Hy; reflexivity.
      - intros i Hi. assert (Ht : i / 2 < T) by (apply Nat.div_lt_upper_bound; lia).
        pose proof (Nat.div_mod i 2 ltac:(lia)) as Di. pose proof (Nat.mod_upper_bound i 2 ltac:(lia)) as Ui. set (t := i / 2) in *.
        destruct (Hrun t Ht) as (m1 & mt & R & P1 & P2).
        destruct (put_inv _ _ _ _ P1) as (_ & G1 & _). destruct (put_inv _ _ _ _ P2) as (_ & G2 & O2).
        rewrite (G t mt) by (first [assumption|cbn [In]; destruct (Nat.eq_dec (i mod 2) 0); [left|right; left]; f_equal; lia]).
        destruct (Nat.eq_dec (i mod 2) 0) as [H0|H0].
        + replace i with (2 * t) by lia. rewrite O2 by (intros X; inversion X; lia). rewrite G1. do 2 f_equal. lia.
        + replace i with (2 * t + 1) by lia. rewrite G2. do 2 f_equal. lia.
    Qed.

    Lemma right_lt j t : j <= k -> t < 2 ^ (k - j) -> right_ix (2 ^ j) t < N.
    Proof.
      intros Hj Ht. unfold right_ix. assert (E : T = 2 ^ (k - j) * 2 ^ j) by (rewrite <- Nat.pow_add_r; f_equal; lia).
      pose proof (pow_pos j). rewrite E. nia.
    Qed.
    Lemma left_lt j t : j <= k -> t < 2 ^ (k - j) -> left_ix (2 ^ j) t < N.
    Proof.
      intros Hj Ht. pose proof (right_lt j t Hj Ht). unfold right_ix, left_ix in *. pose proof (pow_pos j). nia.
    Qed.
    Lemma few j : j <= k -> 2 ^ (k - j) <= T.
    Proof. intros. apply Nat.pow_le_mono_r; lia. Qed.
    Lemma is_right j i : j <= k -> i < N -> dvd (2 ^ S j) (i + 1) = true -> exists t, t < 2 ^ (k - j) /\ i = right_ix (2 ^ j) t /\ left_ix (2 ^ j) t = i - 2 ^ j.
    Proof.
      intros Hj Hi D. apply dvd_iff in D as (q & Eq); [|apply pow_pos]. cbn [Nat.pow] in Eq.
      assert (E : T = 2 ^ (k - j) * 2 ^ j) by (rewrite <- Nat.pow_add_r; f_equal; lia). pose proof (pow_pos j).
      assert (q <> 0) by (intros ->; lia). exists (q - 1). unfold right_ix, left_ix. rewrite E in Hi. split; [|split]; nia.
    Qed.
    Lemma right_dvd j t : dvd (2 ^ S j) (right_ix (2 ^ j) t + 1) = true.
    Proof. apply dvd_iff; [apply pow_pos|]. exists (t + 1). unfold right_ix. cbn [Nat.pow]. pose proof (pow_pos j). nia. Qed.
    Lemma left_dvd j t : dvd (2 ^ j) (left_ix (2 ^ j) t + 1) = true.
    Proof. apply dvd_iff; [apply pow_pos|]. exists (2 * t + 1). unfold left_ix. pose proof (pow_pos j). nia. Qed.
    Lemma is_left j i : j <= k -> i < N -> dvd (2 ^ S j) (i + 1) = false -> dvd (2 ^ j) (i + 1) = true ->
      exists t, t < 2 ^ (k - j) /\ i = left_ix (2 ^ j) t /\ right_ix (2 ^ j) t = i + 2 ^ j.
    Proof.
      intros Hj Hi D D'. apply dvd_iff in D' as (q & Eq); [|apply pow_pos].
      assert (Hodd : exists h, q = 2 * h + 1).
      { destruct (Nat.Even_or_Odd q) as [[h ->]|[h ->]]; [|eauto]. exfalso.
        assert (dvd (2 ^ S j) (i + 1) = true); [|congruence]. apply dvd_iff; [apply pow_pos|]. exists h. cbn [Nat.pow]. lia. }
      destruct Hodd as (h & ->). pose proof (pow_pos j).
      assert (E : T = 2 ^ (k - j) * 2 ^ j) by (rewrite <- Nat.pow_add_r; f_equal; lia).
      exists h. unfold right_ix, left_ix. rewrite E in Hi. split; [|split]; nia.
    Qed.

    Lemma up_run j f m : j <= k -> tmpf b f m ->
      exists m', run_all (flat_map (fun t => scan_up k b j t (t + T * e)) (seq 0 T)) m = Some m' /\ keep b m m' /\
        tmpf b (if j =? k then cleared k (up j f) else up j f) m'.
    Proof.
      intros Hj Hf.
      assert (F : foot_ok b (scan_up k b j, fun t (_ : nat) => [(2 + b, right_ix (2 ^ j) t); (2 + b, left_ix (2 ^ j) t)],
                   fun t (_ : nat) => [(2 + b, right_ix (2 ^ j) t)])).
      { apply feet_ok. unfold feet. rewrite !in_app_iff, !in_map_iff. right; left. exists j. split; auto. apply in_seq. lia. }
      assert (Hrun : forall t, t < T -> exists mt, run_all (scan_up k b j t (t + T * e)) m = Some mt /\
          (t < 2 ^ (k - j) -> get (2 + b, right_ix (2 ^ j) t) mt =
             Some (if j =? k then 0%Z else (f (right_ix (2 ^ j) t) + f (left_ix (2 ^ j) t))%Z))).
      { intros t Ht. unfold scan_up. destruct (Nat.ltb_spec t (2 ^ (k - j))) as [H|H].
        - pose proof (Hf _ (right_lt j t Hj H)) as G1. pose proof (Hf _ (left_lt j t Hj H)) as G2.
          set (r := right_ix (2 ^ j) t) in *. set (l := left_ix (2 ^ j) t) in *.
          destruct (put_some m (2 + b, r) (f r + (f l + 0))%Z (ex_intro _ _ G1)) as (m1 & P1).
          assert (A1 : assign (2 + b, r) [(2 + b, r); (2 + b, l)] sum2 m = Some m1).
          { unfold assign. cbn [gets]. rewrite G1. cbn [obind]. rewrite G2. cbn [obind option_map sum2 fold_right]. exact P1. }
          destruct (put_inv _ _ _ _ P1) as (S1 & Q1 & _).
          destruct (Nat.eqb_spec j k) as [->|Hjk].
          + rewrite Nat.sub_diag in H. cbn in H. assert (t = 0) by lia. subst t. cbn [Nat.eqb andb].
            assert (Er : r = T * 2 - 1) by (unfold r, right_ix; lia). rewrite <- Er.
            destruct (put_some m1 (2 + b, r) 0%Z (ex_intro _ _ Q1)) as (m2 & P2). destruct (put_inv _ _ _ _ P2) as (_ & Q2 & _).
            exists m2. split; [|auto]. cbn [app run_all]. rewrite A1. cbn [obind]. rewrite P2. reflexivity.
          + cbn [andb]. exists m1. split; [cbn [app run_all]; rewrite A1; reflexivity|]. intros _. rewrite Q1. f_equal. lia.
        - exists m. split; [|lia]. cbn [app]. destruct ((j =? k) && (t =? 0)) eqn:E; [|reflexivity].
          apply andb_true_iff in E as [E1 E2]. apply Nat.eqb_eq in E1, E2. subst. rewrite Nat.sub_diag in H. cbn in H. lia. }
      destruct (fo_phase b _ e m F) as (m' & E & Sh & G & O); cbn [fst snd] in *.
      { intros t Ht. destruct (Hrun t Ht) as (mt & R & _). eauto. }
      exists m'. split; auto. split.
      - split; auto. intros y Hy. apply O. intros t Ht H. cbn [In] in H. destruct H as [<-|[]]; apply Hy; reflexivity.
      - intros i Hi. destruct (dvd (2 ^ S j) (i + 1)) eqn:D.
        + destruct (is_right j i Hj Hi D) as (t & Ht & Ei & El). pose proof (few j Hj).
          destruct (Hrun t ltac:(lia)) as (mt & R & Gt). specialize (Gt Ht).
          rewrite (G t mt) by (auto; try lia; left; now rewrite <- Ei). rewrite Ei, Gt, <- Ei. f_equal.
          destruct (Nat.eqb_spec j k) as [->|Hjk].
          * unfold cleared. rewrite Nat.sub_diag in Ht. cbn in Ht. assert (t = 0) by lia. subst t.
            replace (i =? 2 ^ S k - 1) with true; [reflexivity|]. symmetry. apply Nat.eqb_eq. rewrite Ei. unfold right_ix. cbn [Nat.pow]. lia.
          * unfold up. rewrite D, El. reflexivity.
        + rewrite O.
          * rewrite (Hf i Hi). f_equal. destruct (j =? k) eqn:Ejk; [|unfold up; now rewrite D].
            apply Nat.eqb_eq in Ejk. subst j. unfold cleared, up. rewrite D. destruct (Nat.eqb_spec i (2 ^ S k - 1)) as [->|]; [|reflexivity]. exfalso.
            assert (dvd (2 ^ S k) (2 ^ S k - 1 + 1) = true); [|congruence]. apply dvd_iff; [apply pow_pos|]. exists 1. pose proof (pow_pos (S k)). lia.
          * intros t Ht [X|[]]. inversion X as [X']. rewrite <- X', right_dvd in D. discriminate.
    Qed.

    Lemma down_run j f m : j <= k -> tmpf b f m ->
      exists m', run_all (flat_map (fun t => scan_down k b j t (t + T * e)) (seq 0 T)) m = Some m' /\ keep b m m' /\
        tmpf b (down j f) m'.
    Proof.
      intros Hj Hf.
      assert (F : foot_ok b (scan_down k b j, fun t (_ : nat) => [(2 + b, left_ix (2 ^ j) t); (2 + b, right_ix (2 ^ j) t)],
                   fun t (_ : nat) => [(2 + b, left_ix (2 ^ j) t); (2 + b, right_ix (2 ^ j) t)])).
      { apply feet_ok. unfold feet. rewrite !in_app_iff, !in_map_iff. right; right; left. exists j. split; auto. apply -> in_rev. apply in_seq. lia. }
      assert (Hrun : forall t, t < T -> exists mt, run_all (scan_down k b j t (t + T * e)) m = Some mt /\
          (t < 2 ^ (k - j) -> get (2 + b, left_ix (2 ^ j) t) mt = Some (f (right_ix (2 ^ j) t)) /\
             get (2 + b, right_ix (2 ^ j) t) mt = Some (f (right_ix (2 ^ j) t) + f (left_ix (2 ^ j) t))%Z)).
      { intros t Ht. unfold scan_down. destruct (Nat.ltb_spec t (2 ^ (k - j))) as [H|H]; [|exists m; split; [reflexivity|lia]].
        pose proof (Hf _ (right_lt j t Hj H)) as G1. pose proof (Hf _ (left_lt j t Hj H)) as G2.
        pose proof (left_right (2 ^ j) t t (pow_pos j)) as Hne.
        set (r := right_ix (2 ^ j) t) in *. set (l := left_ix (2 ^ j) t) in *.
        destruct (put_some m (2 + b, l) (f r) (ex_intro _ _ G2)) as (m1 & P1). destruct (put_inv _ _ _ _ P1) as (S1 & Q1 & O1).
        destruct (put_some m1 (2 + b, r) (f r + f l)%Z) as (m2 & P2); [exists (f r); rewrite O1; auto; intros X; inversion X; congruence|].
        destruct (put_inv _ _ _ _ P2) as (S2 & Q2 & O2).
        exists m2. split; [|intros _; split; auto].
        - cbn [run_all]. unfold swap_add. rewrite G2. cbn [obind]. rewrite G1. cbn [obind]. rewrite P1. cbn [obind]. rewrite P2. reflexivity.
        - rewrite O2; auto. intros X; inversion X; congruence. }
      destruct (fo_phase b _ e m F) as (m' & E & Sh & G & O); cbn [fst snd] in *.
      { intros t Ht. destruct (Hrun t Ht) as (mt & R & _). eauto. }
      exists m'. split; auto. split.
      - split; auto. intros y Hy. apply O. intros t Ht H. cbn [In] in H. destruct H as [<-|[<-|[]]]; apply Hy; reflexivity.
      - pose proof (few j Hj) as Hfew. intros i Hi. unfold down. destruct (dvd (2 ^ S j) (i + 1)) eqn:D; [|destruct (dvd (2 ^ j) (i + 1)) eqn:D'].
        + destruct (is_right j i Hj Hi D) as (t & Ht & Ei & El).
          destruct (Hrun t ltac:(lia)) as (mt & R & Gt). specialize (Gt Ht) as [_ Gt].
          rewrite (G t mt) by (auto; try lia; right; left; now rewrite <- Ei). rewrite Ei at 1. rewrite Gt, <- Ei, El. reflexivity.
        + destruct (is_left j i Hj Hi D D') as (t & Ht & Ei & El).
          destruct (Hrun t ltac:(lia)) as (mt & R & Gt). specialize (Gt Ht) as [Gt _].
          rewrite (G t mt) by (auto; try lia; left; now rewrite <- Ei). rewrite Ei at 1. rewrite Gt, El. reflexivity.
        + rewrite O; [apply (Hf i Hi)|]. intros t Ht [X|[X|[]]]; inversion X as [X'].
          * rewrite <- X', left_dvd in D'. discriminate.
          * rewrite <- X', right_dvd in D. discriminate.
    Qed.

    Lemma ups_run l : forall j f m, j + l <= k -> tmpf b f m ->
      exists m', run_all (flat_map (fun j => flat_map (fun t => scan_up k b j t (t + T * e)) (seq 0 T)) (seq j l)) m = Some m' /\
        keep b m m' /\ tmpf b (fold_left (fun g i => up i g) (seq j l) f) m'.
    Proof.
      induction l as [|l IH]; intros j f m Hl Hf; cbn [seq flat_map fold_left].
      - exists m. cbn [run_all]. repeat split; auto.
      - destruct (up_run j f m ltac:(lia) Hf) as (m1 & E1 & K1 & F1). replace (j =? k) with false in F1 by (symmetry; apply Nat.eqb_neq; lia).
        destruct (IH (S j) (up j f) m1 ltac:(lia) F1) as (m2 & E2 & K2 & F2). exists m2.
        rewrite run_all_app, E1. cbn [obind]. rewrite E2. split; auto. split; auto. eapply keep_trans; eauto.
    Qed.
    Lemma downs_run l : forall f m, l <= S k -> tmpf b f m ->
      exists m', run_all (flat_map (fun j => flat_map (fun t => scan_down k b j t (t + T * e)) (seq 0 T)) (rev (seq 0 l))) m = Some m' /\
        keep b m m' /\ tmpf b (fold_left (fun g i => down i g) (rev (seq 0 l)) f) m'.
    Proof.
      induction l as [|l IH]; intros f m Hl Hf.
      - exists m. cbn. repeat split; auto.
      - rewrite seq_S, rev_app_distr. cbn [rev app Nat.add flat_map fold_left].
        destruct (down_run l f m ltac:(lia) Hf) as (m1 & E1 & K1 & F1). destruct (IH (down l f) m1 ltac:(lia) F1) as (m2 & E2 & K2 & F2).
        exists m2. rewrite run_all_app, E1. cbn [obind]. rewrite E2. split; auto. split; auto. eapply keep_trans; eauto.
    Qed.

    Lemma rsum_zero s len : n <= s -> rsum x s len = 0%Z.
    Proof.
      intros H. rewrite (rsum_ext x (fun _ => 0%Z)); [|intros; apply Hx; lia].
      unfold rsum. induction (seq s len); cbn; auto.
    Qed.
    Lemma count_run m : has m (1, e) -> tmpf b (fun i => rsum x (N * e) i) m ->
      (forall i, N * e <= i -> i < N * e + N -> i < n -> get (0, i) m = Some (x i)) ->
      exists m', run_all (flat_map (fun t => scan_count k n b t (t + T * e)) (seq 0 T)) m = Some m' /\
        put (1, e) (rsum x (N * e) N) m = Some m'.
    Proof.
      intros H1 Ht Hg. destruct (put_some m (1, e) (rsum x (N * e) N) H1) as (m' & P). exists m'. split; auto.
      set (c := Nat.min (2 * T - 1) (n - T * e * 2 - 1)).
      rewrite (flat_map_ext_in' _ (fun t => if t =? 0 then [assign (1, T * e / T) [(2 + b, c); (0, 2 * (T * e) + c)] sum2] else [])).
      2:{ intros t _. unfold scan_count. destruct (Nat.eqb_spec t 0) as [->|]; [|reflexivity]. reflexivity. }
      rewrite flat_map_first by auto. cbn [run_all]. replace (T * e / T) with e by (rewrite Nat.mul_comm, Nat.div_mul; auto).
      unfold assign. cbn [gets]. rewrite (Ht c) by (unfold c; lia). cbn [obind].
      rewrite (Hg (2 * (T * e) + c)) by (unfold c; lia). cbn [obind option_map sum2 fold_right].
      replace (rsum x (N * e) c + (x (2 * (T * e) + c) + 0))%Z with (rsum x (N * e) N); [rewrite P; reflexivity|].
      replace N with (c + 1 + (N - c - 1)) at 2 by (unfold c; lia). rewrite !rsum_app, rsum_1.
      replace (2 * (T * e) + c) with (N * e + c) by lia.
      assert (Z0 : rsum x (N * e + (c + 1)) (N - c - 1) = 0%Z).
      { destruct (Nat.le_gt_cases N (n - N * e)) as [H|H].
        - replace (N - c - 1) with 0 by (unfold c; lia). reflexivity.
        - apply rsum_zero. unfold c. lia. }
      rewrite Z0. lia.
    Qed.

    Lemma write_run m f : tmpf b f m -> (forall i, i < n -> has m (0, i)) ->
      exists m', run_all (flat_map (fun t => scan_write n b t (t + T * e)) (seq 0 T)) m = Some m' /\ same_shape m m' /\
        (forall i, i < N -> N * e + i < n -> get (0, N * e + i) m' = Some (f i)) /\
        forall y, ~ (fst y = 0 /\ N * e <= snd y < N * e + N) -> get y m' = get y m.
    Proof.
      intros Hf Hh.
      assert (F : foot_ok b (scan_write n b, fun t cur => [(0, 2 * cur); (0, 2 * cur + 1); (2 + b, 2 * t); (2 + b, 2 * t + 1)],
        fun t cur => [(0, 2 * cur); (0, 2 * cur + 1)])).
      { apply feet_ok. unfold feet. rewrite !in_app_iff. right; right; right. right; left. reflexivity. }
      assert (W1 : forall src i m0, has m0 (0, i) -> get src m0 = Some (f (snd src)) ->
        exists m1, assign (0, i) [src] first m0 = Some m1 /\ put (0, i) (f (snd src)) m0 = Some m1).
      { intros src i m0 H0 G0. destruct (put_some m0 (0, i) (f (snd src)) H0) as (m1 & P1). exists m1. split; auto.
        unfold assign. cbn [gets]. rewrite G0. exact P1. }
      assert (Hrun : forall t, t < T -> exists mt, run_all (scan_write n b t (t + T * e)) m = Some mt /\
          (2 * (t + T * e) < n -> get (0, 2 * (t + T * e)) mt = Some (f (2 * t))) /\
          (2 * (t + T * e) + 1 < n -> get (0, 2 * (t + T * e) + 1) mt = Some (f (2 * t + 1))) /\
          (forall y, snd y >= n -> get y mt = get y m)).
      { intros t Ht. unfold scan_write. replace ((t + T * e) * 2) with (2 * (t + T * e)) by lia.
        destruct (Nat.ltb_spec (2 * (t + T * e)) n) as [H|H].
        - destruct (W1 (2 + b, 2 * t) (2 * (t + T * e)) m ltac:(apply Hh; auto) (Hf (2 * t) ltac:(lia))) as (m1 & A1 & P1).
          destruct (put_inv _ _ _ _ P1) as (S1 & Q1 & O1).
          destruct (Nat.ltb_spec (2 * (t + T * e) + 1) n) as [H'|H'].
          + destruct (W1 (2 + b, 2 * t + 1) (2 * (t + T * e) + 1) m1) as (m2 & A2 & P2).
            { eapply has_shape; [exact S1|apply Hh; auto]. }
            { rewrite O1 by (intros X; inversion X). exact (Hf (2 * t + 1) ltac:(lia)). }
            destruct (put_inv _ _ _ _ P2) as (S2 & Q2 & O2).
            exists m2. split; [cbn [app run_all]; rewrite A1; cbn [obind]; rewrite A2; reflexivity|]. split; [|split].
            * intros _. rewrite O2 by (intros X; inversion X; lia). exact Q1.
            * intros _. exact Q2.
            * intros y Hy. rewrite O2, O1; auto; intros ->; cbn [snd] in Hy; lia.
          + exists m1. split; [cbn [app run_all]; rewrite A1; reflexivity|]. split; [auto|]. split; [lia|].
            intros y Hy. rewrite O1; auto. intros ->; cbn [snd] in Hy; lia.
        - destruct (Nat.ltb_spec (2 * (t + T * e) + 1) n) as [H'|H']; [lia|]. exists m. split; [reflexivity|]. split; [lia|]. split; [lia|auto]. }
      destruct (fo_phase b _ e m F) as (m' & E & Sh & G & O); cbn [fst snd] in *.
      { intros t Ht. destruct (Hrun t Ht) as (mt & R & _). eauto. }
      exists m'. split; auto. split; auto. split.
      - intros i Hi Hin. assert (Ht : i / 2 < T) by (apply Nat.div_lt_upper_bound; lia).
        pose proof (Nat.div_mod i 2 ltac:(lia)) as Di. pose proof (Nat.mod_upper_bound i 2 ltac:(lia)) as Ui. set (t := i / 2) in *.
        destruct (Hrun t Ht) as (mt & R & G1 & G2 & _).
        rewrite (G t mt) by (first [assumption|cbn [In]; destruct (Nat.eq_dec (i mod 2) 0); [left|right; left]; f_equal; lia]).
        destruct (Nat.eq_dec (i mod 2) 0) as [H0|H0].
        + replace (N * e + i) with (2 * (t + T * e)) by lia. rewrite G1 by lia. do 2 f_equal. lia.
        + replace (N * e + i) with (2 * (t + T * e) + 1) by lia. rewrite G2 by lia. do 2 f_equal. lia.
      - intros y Hy. apply O. intros t Ht [X|[X|[]]]; subst y; apply Hy; cbn [fst snd]; lia.
    Qed.

    Lemma flat_map_nth_error {A B} (F : option A -> list B) l :
      flat_map (fun p => F (nth_error l p)) (seq 0 (length l)) = flat_map (fun a => F (Some a)) l.
    Proof.
      induction l as [|a l IH]; cbn [length seq flat_map nth_error]; auto. f_equal. rewrite <- IH, <- seq_shift.
      rewrite flat_map_concat_map, map_map, <- flat_map_concat_map. reflexivity.
    Qed.

    Definition round_acts : list (action (mem Z)) :=
      flat_map (fun p => flat_map (fun t => nth p (round b t e) []) (seq 0 T)) (seq 0 (2 * k + 5)).
    Lemma round_acts_eq : round_acts = flat_map (fun ph : nat -> nat -> list (action (mem Z)) => flat_map (fun t => ph t (t + T * e)) (seq 0 T)) (scan_phases k n b).
    Proof.
      unfold round_acts. rewrite <- (phases_length b).
      rewrite <- (flat_map_nth_error (fun o => match o with Some ph => flat_map (fun t => ph t (t + T * e)) (seq 0 T) | None => [] end)).
      apply flat_map_ext_in'. intros p Hp. apply in_seq in Hp. destruct (nth_error (scan_phases k n b) p) as [ph|] eqn:E.
      - apply flat_map_ext. intros t. rewrite round_nth, E. reflexivity.
      - apply nth_error_None in E. lia.
    Qed.

    Lemma round_run m : (forall i, i < N -> has m (2 + b, i)) -> has m (1, e) -> (forall i, i < n -> has m (0, i)) ->
      (forall i, N * e <= i -> i < N * e + N -> i < n -> get (0, i) m = Some (x i)) ->
      exists m', run_all round_acts m = Some m' /\ same_shape m m' /\
        (forall i, i < N -> N * e + i < n -> get (0, N * e + i) m' = Some (rsum x (N * e) i)) /\
        get (1, e) m' = Some (rsum x (N * e) N) /\
        forall y, fst y <> 2 + b -> ~ (fst y = 0 /\ N * e <= snd y < N * e + N) -> y <> (1, e) -> get y m' = get y m.
    Proof.
      intros Hh H1 H0 Hg. rewrite round_acts_eq. unfold scan_phases. rewrite !flat_map_app, seq_S, map_app, flat_map_app.
      cbn [map flat_map Nat.add]. rewrite !app_nil_r. rewrite <- !app_assoc.
      destruct (load_run m Hh Hg) as (m1 & E1 & [S1 K1] & F1). rewrite run_all_app, E1. cbn [obind].
      rewrite (flat_map_concat_map _ (map (scan_up k b) (seq 0 k))), map_map, <- flat_map_concat_map.
      destruct (ups_run k 0 _ m1 ltac:(lia) F1) as (m2 & E2 & [S2 K2] & F2). rewrite run_all_app, E2. cbn [obind].
      destruct (up_run k _ m2 ltac:(lia) F2) as (m3 & E3 & [S3 K3] & F3). rewrite Nat.eqb_refl in F3. rewrite run_all_app, E3. cbn [obind].
      change (seq 0 k ++ [k]) with (seq 0 k ++ [0 + k]). rewrite <- (seq_S k 0).
      rewrite (flat_map_concat_map _ (map (scan_down k b) (rev (seq 0 (S k))))), map_map, <- flat_map_concat_map.
      destruct (downs_run (S k) _ m3 ltac:(lia) F3) as (m4 & E4 & [S4 K4] & F4). rewrite run_all_app, E4. cbn [obind].
      assert (F4' : tmpf b (fun i => rsum x (N * e) i) m4).
      { intros i Hi. rewrite (F4 i Hi). f_equal.
        pose proof (sweeps k (fun i => x (N * e + i)) (fun i => x (N * e + i)) (fun i _ => eq_refl) i) as Sw.
        rewrite (seq_S k 0), fold_left_app in Sw. cbn [fold_left Nat.add] in Sw.
        change (seq 0 k ++ [k]) with (seq 0 k ++ [0 + k]) in Sw. rewrite <- (seq_S k 0) in Sw. etransitivity; [apply Sw; cbn [Nat.pow]; lia|].
        rewrite rsum_shift. f_equal. lia. }
      assert (Kg : forall y, fst y <> 2 + b -> get y m4 = get y m) by (intros y Hy; rewrite K4, K3, K2, K1; auto).
      assert (Sg : same_shape m m4) by (unfold same_shape in *; congruence).
      destruct (count_run m4) as (m5 & E5 & P5).
      { eapply has_shape; eauto. } { exact F4'. }
      { intros i Hi Hi' Hin. rewrite Kg by (cbn; lia). auto. }
      rewrite run_all_app, E5. cbn [obind]. destruct (put_inv _ _ _ _ P5) as (S5 & Q5 & O5).
      destruct (write_run m5 (fun i => rsum x (N * e) i)) as (m6 & E6 & S6 & G6 & O6).
      { intros i Hi. rewrite O5 by (intros X; inversion X). auto. }
      { intros i Hi. eapply has_shape; [|apply H0; auto]. unfold same_shape in *; congruence. }
      rewrite E6. exists m6. split; auto. split; [unfold same_shape in *; congruence|]. split; [exact G6|]. split.
      - rewrite O6 by (cbn; lia). exact Q5.
      - intros y Y1 Y2 Y3. rewrite O6, O5 by auto. auto.
    Qed.
  End Round.

  Lemma rounds_run b es : forall m, b < blocks -> NoDup es -> (forall e, In e es -> e < nproc /\ N * e < n) ->
    (forall i, i < N -> has m (2 + b, i)) -> (forall e, e < nproc -> has m (1, e)) -> (forall i, i < n -> has m (0, i)) ->
    (forall e i, In e es -> i < N -> N * e + i < n -> get (0, N * e + i) m = Some (x (N * e + i))) ->
    exists m', run_all (flat_map (round_acts b) es) m = Some m' /\ same_shape m m' /\
      (forall e i, In e es -> i < N -> N * e + i < n -> get (0, N * e + i) m' = Some (rsum x (N * e) i)) /\
      (forall e, In e es -> get (1, e) m' = Some (rsum x (N * e) N)) /\
      forall y, fst y <> 2 + b -> (forall e, In e es -> ~ (fst y = 0 /\ N * e <= snd y < N * e + N) /\ y <> (1, e)) -> get y m' = get y m.
  Proof.
    induction es as [|e es IH]; intros m Hb ND Hes Hh H1 H0 Hg.
    - exists m. split; [reflexivity|]. split; [reflexivity|]. split; [intros ? ? []|]. split; [intros ? []|auto].
    - inversion ND as [|? ? Ne ND']; subst. destruct (Hes e ltac:(left; auto)) as [He He'].
      destruct (round_run b e He' m Hh (H1 e He) H0) as (m1 & E1 & S1 & G1 & C1 & O1).
      { intros i A1 A2 A3. replace i with (N * e + (i - N * e)) by lia. apply Hg; [left; auto|lia|lia]. }
      assert (Oth : forall e', In e' es -> e' <> e) by (intros e' H ->; contradiction).
      destruct (IH m1) as (m2 & E2 & S2 & G2 & C2 & O2); auto.
      + intros e' H. apply Hes. right; auto.
      + intros i Hi. eapply has_shape; eauto.
      + intros e' He1. eapply has_shape; eauto.
      + intros i Hi. eapply has_shape; eauto.
      + intros e' i Hin Hi Hn. rewrite O1; [apply Hg; auto; right; auto|cbn; lia| |intros X; inversion X].
        cbn [fst snd]. intros [_ X]. apply (Oth e' Hin). nia.
      + exists m2. cbn [flat_map]. rewrite run_all_app, E1. cbn [obind]. rewrite E2. split; auto. split; [unfold same_shape in *; congruence|]. split; [|split].
        * intros e' i [<-|Hin] Hi Hn; [|auto]. rewrite O2; [auto|cbn; lia|]. intros e' Hin. split; [|intros X; inversion X].
          cbn [fst snd]. intros [_ X]. apply (Oth e' Hin). nia.
        * intros e' [<-|Hin]; [|auto]. rewrite O2; [auto|cbn; lia|]. intros e' Hin. split; [cbn; lia|]. intros X. inversion X. apply (Oth e' Hin). auto.
        * intros y Hy He2. rewrite O2; auto; [|intros; apply He2; right; auto]. destruct (He2 e ltac:(left; auto)). apply O1; auto.
  Qed.

  Lemma scan_kernel_runs m : (forall e, e < nproc -> N * e < n) -> n <= N * nproc ->
    (forall b i, b < blocks -> i < N -> has m (2 + b, i)) -> (forall e, e < nproc -> has m (1, e)) ->
    (forall i, i < n -> get (0, i) m = Some (x i)) ->
    exists mf, every_run (eq mf) (m, scan_kernel k n blocks nproc) /\ same_shape m mf /\
      (forall i, i < n -> get (0, i) mf = Some (rsum x (N * (i / N)) (i mod N))) /\
      (forall e, e < nproc -> get (1, e) mf = Some (rsum x (N * e) N)).
  Proof.
    intros Hn1 Hn2 Hh H1 H0.
    assert (Hrem : forall b, block_rem (blk b) = flat_map (round_acts b) (strided b blocks nproc)).
    { intros b. unfold blk. rewrite (map_ext_in _ (fun t => flat_map (round b t) (strided b blocks nproc) ++ [[]])).
      - rewrite (rounds_rem _ (2 * k + 5)) by (intros; apply round_length). reflexivity.
      - intros t Ht. apply in_seq in Ht. apply scan_thread_rounds. lia. }
    assert (Hall : all_rem (scan_kernel k n blocks nproc) = flat_map (fun b => flat_map (round_acts b) (strided b blocks nproc)) (seq 0 blocks)).
    { unfold all_rem, scan_kernel. rewrite flat_map_concat_map, map_map, <- flat_map_concat_map. apply flat_map_ext. intros b. apply Hrem. }
    assert (Hin : forall b e, b < blocks -> (In e (strided b blocks nproc) <-> e < nproc /\ e mod blocks = b)).
    { intros b e Hb. apply strided_mod. auto. }
    assert (Hblk : forall b, b < blocks -> exists mb, run_all (flat_map (round_acts b) (strided b blocks nproc)) m = Some mb /\
       (forall e i, In e (strided b blocks nproc) -> i < N -> N * e + i < n -> get (0, N * e + i) mb = Some (rsum x (N * e) i)) /\
       (forall e, In e (strided b blocks nproc) -> get (1, e) mb = Some (rsum x (N * e) N))).
    { intros b Hb. destruct (rounds_run b (strided b blocks nproc) m) as (mb & E & _ & G & C & _); auto.
      - apply iterations_nodup. lia.
      - intros e He. apply Hin in He as [He _]; auto.
      - intros i Hi. exists (x i). auto.
      - eauto. }
    destruct (phase_run (fun b => flat_map (round_acts b) (strided b blocks nproc)) mine mine (seq 0 blocks) m) as (mf & E & Sh & G & O).
    - intros b Hb. apply in_seq in Hb. rewrite <- Hrem. apply frame_run_all; auto. intros a Ha. apply blk_rem_frame; auto. lia.
    - apply seq_NoDup.
    - intros b b' y _ _ Hn Hy. eapply mine_disjoint; eauto.
    - intros b Hb. apply in_seq in Hb. destruct (Hblk b ltac:(lia)) as (mb & Eb & _). eauto.
    - exists mf. split; [|split; [auto|split]].
      + eapply every_run_weaken; [|apply every_run_all_rem; [apply kernel_ok|rewrite Hall; exact E]]. auto.
      + intros i Hi. pose proof (Nat.div_mod i N ltac:(lia)) as Di. pose proof (Nat.mod_upper_bound i N ltac:(lia)) as Ui.
        set (e := i / N) in *. assert (He : e < nproc) by (apply Nat.div_lt_upper_bound; lia).
        pose proof (Nat.mod_upper_bound e blocks HB) as Ub.
        destruct (Hblk (e mod blocks) Ub) as (mb & Eb & Gb & _).
        rewrite (G (e mod blocks) mb) by (try apply in_seq; auto; try lia; unfold mine; cbn [fst snd]; fold e; rewrite !Nat.eqb_refl; reflexivity).
        rewrite Di at 1. rewrite Gb by (try apply Hin; auto; lia). f_equal.
      + intros e He. pose proof (Nat.mod_upper_bound e blocks HB) as Ub.
        destruct (Hblk (e mod blocks) Ub) as (mb & Eb & _ & Cb).
        rewrite (G (e mod blocks) mb) by (try apply in_seq; auto; try lia; unfold mine; cbn [fst snd]; rewrite !Nat.eqb_refl; reflexivity).
        apply Cb. apply Hin; auto.
  Qed.
End ScanKernel.
