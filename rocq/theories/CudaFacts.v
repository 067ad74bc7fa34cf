(** Facts about the execution model of kernels. *)
From Coq Require Import List Arith Lia Bool Permutation.
From Verif Require Import Cuda.
Import ListNotations.

(** Buffers. *)
Lemma wr_some {A} i (v : A) l : i < length l -> exists l', wr i v l = Some l'.
Proof.
  revert i; induction l as [|a l IH]; cbn; intros i Hi; [lia|]. destruct i as [|i]; cbn; [eauto|].
  destruct (IH i) as (l' & E); [lia|]. rewrite E. cbn. eauto.
Qed.
Lemma wr_none {A} i (v : A) l : length l <= i -> wr i v l = None.
Proof.
  revert i; induction l as [|a l IH]; cbn; intros i Hi; [destruct i; auto|]. destruct i as [|i]; cbn; [lia|].
  rewrite IH by lia. reflexivity.
Qed.
Lemma wr_lt {A} i (v : A) l l' : wr i v l = Some l' -> i < length l.
Proof. intros E. destruct (Nat.lt_ge_cases i (length l)); auto. rewrite wr_none in E; [discriminate|auto]. Qed.
Lemma wr_length {A} i (v : A) l l' : wr i v l = Some l' -> length l' = length l.
Proof.
  revert i l'; induction l as [|a l IH]; cbn; intros i l' E; [destruct i; discriminate|].
  destruct i as [|i]; cbn in E; [injection E as <-; auto|]. destruct (wr i v l) eqn:F; cbn in E; [|discriminate].
  injection E as <-. cbn. f_equal. eauto.
Qed.
Lemma wr_eq {A} i (v : A) l l' : wr i v l = Some l' -> nth_error l' i = Some v.
Proof.
  revert i l'; induction l as [|a l IH]; cbn; intros i l' E; [destruct i; discriminate|].
  destruct i as [|i]; cbn in E; [injection E as <-; auto|]. destruct (wr i v l) eqn:F; cbn in E; [|discriminate].
  injection E as <-. cbn. eauto.
Qed.
Lemma wr_neq {A} i j (v : A) l l' : wr i v l = Some l' -> j <> i -> nth_error l' j = nth_error l j.
Proof.
  revert i j l'; induction l as [|a l IH]; cbn; intros i j l' E N; [destruct i; discriminate|].
  destruct i as [|i]; cbn in E.
  - injection E as <-. destruct j; [lia|auto].
  - destruct (wr i v l) eqn:F; cbn in E; [|discriminate]. injection E as <-. destruct j as [|j]; [auto|]. cbn. eauto.
Qed.
Lemma wr_app {A} (l : list A) x v r : wr (length l) v (l ++ x :: r) = Some (l ++ v :: r).
Proof. induction l as [|a l IH]; cbn; [auto|]. now rewrite IH. Qed.
Lemma wr_comm {A} i j (v w : A) l : i <> j -> obind (wr i v l) (wr j w) = obind (wr j w l) (wr i v).
Proof.
  revert i j; induction l as [|a l IH]; cbn; intros i j N; [destruct i, j; auto|].
  destruct i as [|i], j as [|j]; cbn; auto; try lia.
  - now destruct (wr j w l).
  - now destruct (wr i v l).
  - specialize (IH i j ltac:(lia)). destruct (wr i v l) as [x|], (wr j w l) as [y|]; cbn in *; auto.
    + now rewrite IH.
    + now rewrite IH.
    + now rewrite <- IH.
Qed.
Lemma upd_split {A} i (v : A) l1 x l2 : i = length l1 -> upd i v (l1 ++ x :: l2) = l1 ++ v :: l2.
Proof. intros ->. unfold upd. now rewrite wr_app. Qed.
Lemma upd_length {A} i (v : A) l : length (upd i v l) = length l.
Proof. unfold upd. destruct (wr i v l) eqn:E; [eapply wr_length; eauto|auto]. Qed.
Lemma upd_eq {A} i (v : A) l : i < length l -> nth_error (upd i v l) i = Some v.
Proof. intros H. unfold upd. destruct (wr_some i v l H) as (l' & E). rewrite E. eapply wr_eq; eauto. Qed.
Lemma upd_neq {A} i j (v : A) l : j <> i -> nth_error (upd i v l) j = nth_error l j.
Proof. intros N. unfold upd. destruct (wr i v l) eqn:E; [eapply wr_neq; eauto|auto]. Qed.
Lemma obind_assoc {A B C} (o : option A) (f : A -> option B) (g : B -> option C) :
  obind (obind o f) g = obind o (fun a => obind (f a) g).
Proof. now destruct o. Qed.

Section Facts.
  Context {M : Type}.
  Implicit Types (a : action M) (t : thread M) (blk : block M) (bs : list (block M)).

  Definition commute a a' : Prop := forall m, obind (a m) a' = obind (a' m) a.
  Fixpoint run_all (l : list (action M)) (m : M) : option M :=
    match l with [] => Some m | a :: r => obind (a m) (run_all r) end.
  Lemma run_all_app l1 l2 m : run_all (l1 ++ l2) m = obind (run_all l1 m) (run_all l2).
  Proof. revert m; induction l1 as [|a l1 IH]; intros m; cbn; [auto|]. destruct (a m); cbn; auto. Qed.
  Lemma run_all_front pre a post m : Forall (commute a) pre -> run_all (pre ++ a :: post) m = obind (a m) (run_all (pre ++ post)).
  Proof.
    intros H. revert m. induction H as [|b pre Hb H IH]; intros m; cbn; [auto|].
    transitivity (obind (obind (b m) a) (run_all (pre ++ post))).
    - destruct (b m) as [m'|]; cbn; [rewrite IH; reflexivity|auto].
    - rewrite <- (Hb m). destruct (a m); cbn; auto.
  Qed.

  (** What is left to do, in a canonical order: block after block, phase after
      phase, thread after thread. *)
  Definition depth blk : nat := list_max (map (@length _) blk).
  Definition phase_acts (p : nat) blk : list (action M) := flat_map (fun t => nth p t []) blk.
  Definition block_rem blk : list (action M) := flat_map (fun p => phase_acts p blk) (seq 0 (depth blk)).
  Definition all_rem bs : list (action M) := flat_map block_rem bs.

  Lemma depth_le blk t : In t blk -> length t <= depth blk.
  Proof.
    intros H. unfold depth. pose proof (proj1 (list_max_le (map (@length _) blk) _) (le_n _)) as F.
    rewrite Forall_forall in F. apply F. now apply in_map.
  Qed.
  Lemma depth_lub blk n : (forall t, In t blk -> length t <= n) -> depth blk <= n.
  Proof.
    intros H. unfold depth. apply list_max_le. rewrite Forall_forall. intros k Hk. apply in_map_iff in Hk.
    destruct Hk as (t & <- & Ht). auto.
  Qed.
  Lemma flat_map_nil {A B} (f : A -> list B) l : (forall x, In x l -> f x = []) -> flat_map f l = [].
  Proof. induction l as [|x l IH]; cbn; intros H; [auto|]. rewrite H, IH; auto. Qed.
  Lemma phase_acts_nil p blk : depth blk <= p -> phase_acts p blk = [].
  Proof.
    intros H. apply flat_map_nil. intros t Ht. apply nth_overflow. pose proof (depth_le blk t Ht). lia.
  Qed.
  Lemma block_rem_ge blk n : depth blk <= n -> block_rem blk = flat_map (fun p => phase_acts p blk) (seq 0 n).
  Proof.
    intros H. unfold block_rem. replace n with (depth blk + (n - depth blk)) by lia. rewrite seq_app, flat_map_app.
    rewrite (flat_map_nil _ (seq (0 + _) _)); [now rewrite app_nil_r|].
    intros p Hp. apply in_seq in Hp. apply phase_acts_nil. lia.
  Qed.
  Lemma in_phase_acts p blk a : In a (phase_acts p blk) <-> exists i t, nth_error blk i = Some t /\ In a (nth p t []).
  Proof.
    unfold phase_acts. rewrite in_flat_map. split.
    - intros (t & Ht & Ha). apply In_nth_error in Ht. destruct Ht as (i & Ht). eauto.
    - intros (i & t & Ht & Ha). exists t. split; [eapply nth_error_In; eauto|auto].
  Qed.
  Lemma in_block_rem blk a : In a (block_rem blk) <-> exists p i t, nth_error blk i = Some t /\ In a (nth p t []).
  Proof.
    unfold block_rem. rewrite in_flat_map. split.
    - intros (p & _ & H). apply in_phase_acts in H. destruct H as (i & t & H). eauto.
    - intros (p & i & t & Ht & Ha). exists p. split; [|apply in_phase_acts; eauto]. apply in_seq.
      pose proof (depth_le blk t (nth_error_In _ _ Ht)). destruct (Nat.lt_ge_cases p (length t)) as [C|C]; [lia|].
      rewrite nth_overflow in Ha by auto. destruct Ha.
  Qed.

  Lemma phase_acts_mid p l1 t l2 : phase_acts p (l1 ++ t :: l2) = phase_acts p l1 ++ nth p t [] ++ phase_acts p l2.
  Proof. unfold phase_acts. now rewrite flat_map_app. Qed.

  (** Threads of one block commute phase by phase, blocks always. *)
  Definition block_ok blk : Prop :=
    forall p i j ti tj a a', nth_error blk i = Some ti -> nth_error blk j = Some tj -> i <> j ->
      In a (nth p ti []) -> In a' (nth p tj []) -> commute a a'.
  Definition blocks_ok bs : Prop :=
    (forall b blk, nth_error bs b = Some blk -> block_ok blk) /\
    (forall b b' blk blk' a a', nth_error bs b = Some blk -> nth_error bs b' = Some blk' -> b <> b' ->
       In a (block_rem blk) -> In a' (block_rem blk') -> commute a a').

  Definition work_left bs : nat := length (all_rem bs) + length (concat (concat bs)).

  Lemma nth_error_split' {A} (l : list A) n x : nth_error l n = Some x -> exists l1 l2, l = l1 ++ x :: l2 /\ length l1 = n.
  Proof. apply nth_error_split. Qed.

  (** One action: it can be brought to the front of what is left. *)
  Lemma block_act blk i a ph rest : nth_error blk i = Some ((a :: ph) :: rest) -> block_ok blk ->
    exists pre post, block_rem blk = pre ++ a :: post /\ block_rem (upd i (ph :: rest) blk) = pre ++ post /\
      Forall (commute a) pre /\ block_ok (upd i (ph :: rest) blk).
  Proof.
    intros E OK. destruct (nth_error_split' _ _ _ E) as (l1 & l2 & Eb & L). subst blk.
    rewrite upd_split by auto.
    assert (D : depth (l1 ++ (ph :: rest) :: l2) = depth (l1 ++ ((a :: ph) :: rest) :: l2)).
    { unfold depth. rewrite !map_app. reflexivity. }
    assert (D1 : 1 <= depth (l1 ++ ((a :: ph) :: rest) :: l2)).
    { pose proof (depth_le (l1 ++ ((a :: ph) :: rest) :: l2) ((a :: ph) :: rest)) as H. cbn in H.
      assert (In ((a :: ph) :: rest) (l1 ++ ((a :: ph) :: rest) :: l2)) by (apply in_or_app; right; left; auto). specialize (H H0). lia. }
    assert (En : exists n, depth (l1 ++ ((a :: ph) :: rest) :: l2) = S n).
    { exists (depth (l1 ++ ((a :: ph) :: rest) :: l2) - 1). lia. }
    destruct En as (n & En). pose proof (eq_trans D En) as En'.
    exists (phase_acts 0 l1).
    exists (ph ++ phase_acts 0 l2 ++ flat_map (fun p => phase_acts p (l1 ++ (ph :: rest) :: l2)) (seq 1 n)).
    split; [|split; [|split]].
    - rewrite (block_rem_ge _ _ (Nat.eq_le_incl _ _ En)).
      cbn [seq flat_map].
      rewrite (phase_acts_mid 0). cbn [nth app]. rewrite <- !app_assoc. cbn [app]. rewrite <- !app_assoc. do 4 f_equal.
      rewrite !flat_map_concat_map. f_equal. apply map_ext_in. intros p Hp. apply in_seq in Hp.
      rewrite !phase_acts_mid. do 2 f_equal. destruct p; [lia|]. reflexivity.
    - rewrite (block_rem_ge _ _ (Nat.eq_le_incl _ _ En')).
      cbn [seq flat_map].
      rewrite (phase_acts_mid 0). cbn [nth app]. now rewrite <- !app_assoc.
    - rewrite Forall_forall. intros b Hb. apply in_flat_map in Hb. destruct Hb as (t & Ht & Hb).
      apply In_nth_error in Ht. destruct Ht as (j & Ht).
      assert (Hj : j < length l1) by (apply nth_error_Some; congruence).
      apply (OK 0 i j ((a :: ph) :: rest) t); auto; [|lia|left; auto].
      rewrite nth_error_app1 by auto. auto.
    - intros p u v tu tv b b' Hu Hv N Hb Hb'.
      assert (X : forall w tw c, nth_error (l1 ++ (ph :: rest) :: l2) w = Some tw -> In c (nth p tw []) ->
        exists tw', nth_error (l1 ++ ((a :: ph) :: rest) :: l2) w = Some tw' /\ In c (nth p tw' [])).
      { intros w tw c Hw Hc. destruct (Nat.lt_trichotomy w (length l1)) as [C|[C|C]].
        - rewrite nth_error_app1 in Hw by auto. exists tw. rewrite nth_error_app1 by auto. auto.
        - rewrite nth_error_app2 in Hw by lia. rewrite C, Nat.sub_diag in Hw. cbn in Hw. injection Hw as <-.
          exists ((a :: ph) :: rest). rewrite nth_error_app2 by lia. rewrite C, Nat.sub_diag. split; [auto|].
          destruct p; cbn in *; auto.
        - rewrite nth_error_app2 in Hw by lia. exists tw. rewrite nth_error_app2 by lia.
          destruct (w - length l1) eqn:W; [lia|]. cbn in *. auto. }
      destruct (X _ _ _ Hu Hb) as (tu' & Hu' & Hb1). destruct (X _ _ _ Hv Hb') as (tv' & Hv' & Hb2). exact (OK p u v tu' tv' b b' Hu' Hv' N Hb1 Hb2).
  Qed.

  Lemma release_nth t p : waiting t || exited t = true -> nth p (release t) [] = nth (S p) t [].
  Proof.
    destruct t as [|[|a ph] [|q t]]; cbn; intros H; try discriminate; destruct p; auto; destruct p; auto.
  Qed.
  Lemma block_sync blk : Forall (fun t => waiting t || exited t = true) blk -> Exists (fun t => waiting t = true) blk ->
    block_ok blk -> block_rem (map release blk) = block_rem blk /\ block_ok (map release blk) /\
    length (concat (map release blk)) < length (concat blk).
  Proof.
    intros F X OK. rewrite Forall_forall in F.
    assert (P : forall p, phase_acts p (map release blk) = phase_acts (S p) blk).
    { intros p. unfold phase_acts. rewrite !flat_map_concat_map, map_map. f_equal. apply map_ext_in. intros t Ht. apply release_nth. auto. }
    assert (D2 : 2 <= depth blk).
    { apply Exists_exists in X. destruct X as (t & Ht & W). pose proof (depth_le blk t Ht). destruct t as [|[|] [|]]; cbn in *; try discriminate; lia. }
    split; [|split].
    - rewrite (block_rem_ge (map release blk) (depth blk - 1)).
      2:{ apply depth_lub. intros t Ht. apply in_map_iff in Ht. destruct Ht as (u & <- & Hu). pose proof (depth_le blk u Hu).
          specialize (F u Hu). destruct u as [|[|] [|]]; cbn in *; try discriminate; lia. }
      unfold block_rem. destruct (depth blk) as [|n]; [lia|]. cbn [seq flat_map]. replace (S n - 1) with n by lia.
      assert (P0 : phase_acts 0 blk = []).
      { apply flat_map_nil. intros t Ht. specialize (F t Ht). destruct t as [|[|] [|]]; cbn in *; auto; discriminate. }
      rewrite P0. cbn [app]. rewrite <- seq_shift. rewrite !flat_map_concat_map, map_map. f_equal. apply map_ext. auto.
    - intros p i j ti tj a a' Hi Hj N Ha Ha'. rewrite nth_error_map in Hi, Hj.
      destruct (nth_error blk i) as [ui|] eqn:Ei; [|discriminate]. destruct (nth_error blk j) as [uj|] eqn:Ej; [|discriminate].
      cbn in Hi, Hj. injection Hi as <-. injection Hj as <-. rewrite release_nth in Ha, Ha' by (apply F; eapply nth_error_In; eauto).
      eapply (OK (S p) i j); eauto.
    - clear -X F. induction blk as [|t blk IH]; [inversion X|]. cbn. rewrite !app_length.
      assert (L : length (release t) <= length t) by (destruct t as [|[|] [|]]; cbn; lia).
      inversion X as [? ? W|? ? W]; subst.
      + assert (L' : length (release t) < length t) by (destruct t as [|[|] [|]]; cbn in *; try discriminate; lia).
        assert (L2 : length (concat (map release blk)) <= length (concat blk)).
        { clear. induction blk as [|u blk IH]; cbn; [lia|]. rewrite !app_length.
          assert (length (release u) <= length u) by (destruct u as [|[|] [|]]; cbn; lia). lia. }
        lia.
      + specialize (IH ltac:(intros; apply F; right; auto) W). lia.
  Qed.

  Lemma in_block_rem_upd blk i a ph rest b : nth_error blk i = Some ((a :: ph) :: rest) ->
    In b (block_rem (upd i (ph :: rest) blk)) -> In b (block_rem blk).
  Proof.
    intros E H. apply in_block_rem in H. apply in_block_rem. destruct H as (p & j & t & Hj & Hb).
    assert (Li : i < length blk) by (apply nth_error_Some; congruence).
    destruct (Nat.eq_dec j i) as [->|N].
    - rewrite upd_eq in Hj by auto. injection Hj as <-. exists p, i, ((a :: ph) :: rest). split; [auto|]. destruct p; cbn in *; auto.
    - rewrite upd_neq in Hj by auto. eauto.
  Qed.

  Lemma step_ok m bs m' bs' mf : blocks_ok bs -> run_all (all_rem bs) m = Some mf -> step (m, bs) (m', bs') ->
    blocks_ok bs' /\ run_all (all_rem bs') m' = Some mf /\ work_left bs' < work_left bs.
  Proof.
    intros [OK1 OK2] R S. inversion S as [m0 bs0 b blk t a ph rest m1 Eb Et Ea|m0 bs0 b blk Eb F X]; subst.
    - destruct (block_act blk t a ph rest Et (OK1 _ _ Eb)) as (pre & post & E1 & E2 & C & OKb).
      destruct (nth_error_split' _ _ _ Eb) as (bl & br & -> & Lb). rewrite upd_split by auto.
      assert (A1 : all_rem (bl ++ blk :: br) = (all_rem bl ++ pre) ++ a :: post ++ all_rem br).
      { unfold all_rem. rewrite flat_map_app. cbn [flat_map]. rewrite E1, <- !app_assoc. reflexivity. }
      assert (A2 : all_rem (bl ++ upd t (ph :: rest) blk :: br) = (all_rem bl ++ pre) ++ post ++ all_rem br).
      { unfold all_rem. rewrite flat_map_app. cbn [flat_map]. rewrite E2, <- !app_assoc. reflexivity. }
      assert (Ca : Forall (commute a) (all_rem bl ++ pre)).
      { apply Forall_app. split; [|auto]. rewrite Forall_forall. intros c Hc. unfold all_rem in Hc. apply in_flat_map in Hc.
        destruct Hc as (blk' & Hb' & Hc). apply In_nth_error in Hb'. destruct Hb' as (j & Hj).
        assert (j < length bl) by (apply nth_error_Some; congruence).
        apply (OK2 b j blk blk'); auto; [rewrite nth_error_app1 by auto; auto|lia|].
        rewrite E1. apply in_or_app. right. left. auto. }
      split; [|split].
      + split.
        * intros j blk' Hj. destruct (Nat.lt_trichotomy j (length bl)) as [H|[H|H]].
          -- rewrite nth_error_app1 in Hj by auto. apply (OK1 j). rewrite nth_error_app1 by auto. auto.
          -- rewrite nth_error_app2 in Hj by lia. rewrite H, Nat.sub_diag in Hj. injection Hj as <-. auto.
          -- rewrite nth_error_app2 in Hj by lia. apply (OK1 j). rewrite nth_error_app2 by lia.
             destruct (j - length bl) eqn:W; [lia|]. cbn in *. auto.
        * assert (X : forall j blk' c, nth_error (bl ++ upd t (ph :: rest) blk :: br) j = Some blk' -> In c (block_rem blk') ->
            exists blk'', nth_error (bl ++ blk :: br) j = Some blk'' /\ In c (block_rem blk'')).
          { intros j blk' c Hj Hc. destruct (Nat.lt_trichotomy j (length bl)) as [H|[H|H]].
            - rewrite nth_error_app1 in Hj by auto. exists blk'. rewrite nth_error_app1 by auto. auto.
            - rewrite nth_error_app2 in Hj by lia. rewrite H, Nat.sub_diag in Hj. injection Hj as <-. exists blk.
              rewrite nth_error_app2 by lia. rewrite H, Nat.sub_diag. split; [auto|]. eapply in_block_rem_upd; eauto.
            - rewrite nth_error_app2 in Hj by lia. exists blk'. rewrite nth_error_app2 by lia.
              destruct (j - length bl) eqn:W; [lia|]. cbn in *. auto. }
          intros j j' b1 b2 c c' H1 H2 N Hc Hc'. destruct (X _ _ _ H1 Hc) as (b1' & H1' & Hc1). destruct (X _ _ _ H2 Hc') as (b2' & H2' & Hc2).
          eapply (OK2 j j'); eauto.
      + rewrite A1 in R. rewrite run_all_front in R by auto. rewrite Ea in R. cbn in R. now rewrite A2.
      + unfold work_left. rewrite A1, A2. rewrite !app_length. cbn [length]. rewrite !app_length.
        assert (L : length (concat (concat (bl ++ upd t (ph :: rest) blk :: br))) = length (concat (concat (bl ++ blk :: br)))).
        { rewrite !concat_app. cbn [concat]. rewrite !concat_app, !app_length.
          destruct (nth_error_split' _ _ _ Et) as (tl1 & tl2 & -> & Lt). rewrite upd_split by auto.
          rewrite !concat_app. cbn [concat]. rewrite !app_length. cbn [length app]. lia. }
        lia.
    - destruct (block_sync blk F X (OK1 _ _ Eb)) as (E & OKb & L).
      destruct (nth_error_split' _ _ _ Eb) as (bl & br & -> & Lb). rewrite upd_split by auto.
      assert (A : all_rem (bl ++ map release blk :: br) = all_rem (bl ++ blk :: br)).
      { unfold all_rem. rewrite !flat_map_app. cbn [flat_map]. now rewrite E. }
      split; [|split].
      + split.
        * intros j blk' Hj. destruct (Nat.lt_trichotomy j (length bl)) as [H|[H|H]].
          -- rewrite nth_error_app1 in Hj by auto. apply (OK1 j). rewrite nth_error_app1 by auto. auto.
          -- rewrite nth_error_app2 in Hj by lia. rewrite H, Nat.sub_diag in Hj. injection Hj as <-. auto.
          -- rewrite nth_error_app2 in Hj by lia. apply (OK1 j). rewrite nth_error_app2 by lia.
             destruct (j - length bl) eqn:W; [lia|]. cbn in *. auto.
        * assert (Y : forall j blk' c, nth_error (bl ++ map release blk :: br) j = Some blk' -> In c (block_rem blk') ->
            exists blk'', nth_error (bl ++ blk :: br) j = Some blk'' /\ In c (block_rem blk'')).
          { intros j blk' c Hj Hc. destruct (Nat.lt_trichotomy j (length bl)) as [H|[H|H]].
            - rewrite nth_error_app1 in Hj by auto. exists blk'. rewrite nth_error_app1 by auto. auto.
            - rewrite nth_error_app2 in Hj by lia. rewrite H, Nat.sub_diag in Hj. injection Hj as <-. exists blk.
              rewrite nth_error_app2 by lia. rewrite H, Nat.sub_diag. split; [auto|]. now rewrite <- E.
            - rewrite nth_error_app2 in Hj by lia. exists blk'. rewrite nth_error_app2 by lia.
              destruct (j - length bl) eqn:W; [lia|]. cbn in *. auto. }
          intros j j' b1 b2 c c' H1 H2 N Hc Hc'. destruct (Y _ _ _ H1 Hc) as (b1' & H1' & Hc1). destruct (Y _ _ _ H2 Hc') as (b2' & H2' & Hc2).
          eapply (OK2 j j'); eauto.
      + now rewrite A.
      + unfold work_left. rewrite A. rewrite !concat_app. cbn [concat]. rewrite !concat_app, !app_length. lia.
  Qed.

  (** The determinism theorem: if the threads of a block commute within each
      phase, and the blocks commute, every schedule gives the result of running
      everything in the canonical order. *)
  Theorem every_run_all_rem bs m mf : blocks_ok bs -> run_all (all_rem bs) m = Some mf ->
    every_run (fun m' => m' = mf) (m, bs).
  Proof.
    remember (work_left bs) as n eqn:En. revert bs m En. induction n as [n IH] using lt_wf_ind. intros bs m En OK R.
    constructor.
    - intros (blk & a & ph & rest & Hb & Ht & Ea). cbn [fst snd] in *.
      apply In_nth_error in Hb. destruct Hb as (b & Hb). apply In_nth_error in Ht. destruct Ht as (t & Ht).
      destruct OK as [OK1 OK2]. destruct (block_act blk t a ph rest Ht (OK1 _ _ Hb)) as (pre & post & E1 & E2 & C & OKb).
      destruct (nth_error_split' _ _ _ Hb) as (bl & br & -> & Lb).
      assert (A1 : all_rem (bl ++ blk :: br) = (all_rem bl ++ pre) ++ a :: post ++ all_rem br).
      { unfold all_rem. rewrite flat_map_app. cbn [flat_map]. rewrite E1, <- !app_assoc. reflexivity. }
      assert (Ca : Forall (commute a) (all_rem bl ++ pre)).
      { apply Forall_app. split; [|auto]. rewrite Forall_forall. intros c Hc. unfold all_rem in Hc. apply in_flat_map in Hc.
        destruct Hc as (blk' & Hb' & Hc). apply In_nth_error in Hb'. destruct Hb' as (j & Hj).
        assert (j < length bl) by (apply nth_error_Some; congruence).
        apply (OK2 b j blk blk'); auto; [rewrite nth_error_app1 by auto; auto|lia|].
        rewrite E1. apply in_or_app. right. left. auto. }
      rewrite A1, run_all_front, Ea in R by auto. discriminate.
    - unfold finished. cbn [fst snd]. intros F. assert (E : all_rem bs = []).
      { apply flat_map_nil. intros blk Hb. rewrite Forall_forall in F. specialize (F _ Hb). rewrite Forall_forall in F.
        apply flat_map_nil. intros p _. apply flat_map_nil. intros t Ht. specialize (F _ Ht).
        destruct t as [|[|] [|]]; cbn in F; try discriminate; destruct p as [|[|]]; reflexivity. }
      rewrite E in R. now injection R.
    - intros [m' bs'] S. destruct (step_ok m bs m' bs' mf OK R S) as (OK' & R' & L). eapply IH; eauto. lia.
  Qed.

  Lemma every_run_weaken (P Q : M -> Prop) s : (forall m, P m -> Q m) -> every_run P s -> every_run Q s.
  Proof. intros H R. induction R as [s NF F _ IH]. constructor; auto. Qed.

  (** A kernel whose runs all end in memories satisfying [P] has no run into
      a fault or into another memory. *)
  Lemma every_run_no_fault (P : M -> Prop) s : every_run P s -> some_fault s -> False.
  Proof.
    intros R F. induction F as [s F|s s' S F IH].
    - inversion R; auto.
    - inversion R as [? ? ? N]; subst. auto.
  Qed.
  Lemma every_run_some (P : M -> Prop) s m : every_run P s -> some_run s m -> P m.
  Proof.
    intros R F. induction F as [s F|s s' m S F IH].
    - inversion R; auto.
    - inversion R as [? ? ? N]; subst. auto.
  Qed.

  (** The rule for kernels whose threads do not commute. *)
  Theorem every_run_invariant (I : M -> list (block M) -> Prop) (mu : M -> list (block M) -> nat) (P : M -> Prop) m bs :
    (forall m bs, I m bs -> ~ faulty (m, bs)) ->
    (forall m bs, I m bs -> finished (m, bs) -> P m) ->
    (forall m bs m' bs', I m bs -> step (m, bs) (m', bs') -> I m' bs' /\ mu m' bs' < mu m bs) ->
    I m bs -> every_run P (m, bs).
  Proof.
    intros NF F S. remember (mu m bs) as n eqn:En. revert m bs En. induction n as [n IH] using lt_wf_ind. intros m bs En Hi.
    constructor; cbn; eauto. intros [m' bs'] St. destruct (S _ _ _ _ Hi St) as (Hi' & L). eapply IH; eauto. lia.
  Qed.
End Facts.

(** The grid-stride loop. *)
Lemma iterations_in fuel cur s n i : 0 < s -> n - cur <= fuel ->
  In i (iterations fuel cur s n) <-> i < n /\ exists k, i = cur + k * s.
Proof.
  intros Hs. revert cur. induction fuel as [|f IH]; intros cur Hf; cbn [iterations].
  - split; [intros []|]. intros (Hi & k & ->). lia.
  - destruct (Nat.ltb_spec cur n) as [C|C].
    + cbn [In]. rewrite IH by lia. split.
      * intros [<-|(Hi & k & ->)]; [split; [auto|exists 0; lia]|split; [auto|exists (S k); lia]].
      * intros (Hi & k & ->). destruct k as [|k]; [left; lia|right; split; [auto|exists k; lia]].
    + split; [intros []|]. intros (Hi & k & ->). lia.
Qed.
Lemma iterations_nodup fuel cur s n : 0 < s -> NoDup (iterations fuel cur s n) /\ forall i, In i (iterations fuel cur s n) -> cur <= i.
Proof.
  intros Hs. revert cur. induction fuel as [|f IH]; intros cur; cbn [iterations]; [split; [constructor|intros _ []]|].
  destruct (cur <? n); [|split; [constructor|intros _ []]]. destruct (IH (cur + s)) as [N L]. split.
  - constructor; [|auto]. intros H. apply L in H. lia.
  - intros i [<-|H]; [auto|]. apply L in H. lia.
Qed.
Lemma strided_in g s n i : 0 < s -> In i (strided g s n) <-> i < n /\ exists k, i = g + k * s.
Proof. intros Hs. apply iterations_in; lia. Qed.
Lemma strided_mod g s n i : g < s -> In i (strided g s n) <-> i < n /\ i mod s = g.
Proof.
  intros Hg. rewrite strided_in by lia. split; intros [Hi H]; split; auto.
  - destruct H as (k & ->). rewrite Nat.mod_add by lia. now apply Nat.mod_small.
  - exists (i / s). rewrite <- H. pose proof (Nat.div_mod i s ltac:(lia)). lia.
Qed.
Lemma nodup_flat_map {A B} (f : A -> list B) l : NoDup l -> (forall a, In a l -> NoDup (f a)) ->
  (forall a a' b, In a l -> In a' l -> In b (f a) -> In b (f a') -> a = a') -> NoDup (flat_map f l).
Proof.
  induction l as [|x l IH]; cbn; intros N F D; [constructor|]. inversion N as [|? ? Nx Nl]; subst.
  assert (H : forall b, In b (f x) -> ~ In b (flat_map f l)).
  { intros b Hb Hb'. apply in_flat_map in Hb'. destruct Hb' as (y & Hy & Hb'). rewrite (D x y b) in Nx; auto. }
  assert (N2 : NoDup (flat_map f l)) by (apply IH; auto; intros; eapply D; eauto).
  pose proof (F x (or_introl eq_refl)) as Nf. clear -H N2 Nf. induction (f x) as [|b r IH]; cbn; [auto|].
  inversion Nf; subst. constructor; [rewrite in_app_iff; intros [|]; [auto|eapply H; [left|]; eauto]|]. apply IH; auto.
  intros; apply H; right; auto.
Qed.
Lemma strided_all T n : 0 < T -> Permutation (flat_map (fun g => strided g T n) (seq 0 T)) (seq 0 n).
Proof.
  intros HT. apply NoDup_Permutation.
  - apply nodup_flat_map; [apply seq_NoDup| |].
    + intros g _. apply iterations_nodup. auto.
    + intros g g' i Hg Hg' Hi Hi'. apply in_seq in Hg, Hg'. rewrite strided_mod in Hi, Hi' by lia. lia.
  - apply seq_NoDup.
  - intros i. rewrite in_flat_map, in_seq. split.
    + intros (g & Hg & Hi). apply in_seq in Hg. rewrite strided_mod in Hi by lia. lia.
    + intros Hi. exists (i mod T). rewrite in_seq. pose proof (Nat.mod_upper_bound i T ltac:(lia)). split; [lia|].
      rewrite strided_mod by lia. lia.
Qed.

Section Flat.
  Context {M : Type}.
  Implicit Type body : nat -> list (action M).

  Definition bodies_commute (n : nat) body : Prop :=
    forall i j a a', i < n -> j < n -> i <> j -> In a (body i) -> In a' (body j) -> commute a a'.

  Lemma run_all_swap l1 l2 m : (forall a a', In a l1 -> In a' l2 -> commute a a') ->
    run_all (M := M) (l1 ++ l2) m = run_all (l2 ++ l1) m.
  Proof.
    revert l1 m. induction l2 as [|b l2 IH]; intros l1 m H; cbn; [now rewrite app_nil_r|].
    rewrite run_all_front by (rewrite Forall_forall; intros c Hc k; symmetry; apply H; [auto|left; auto]).
    destruct (b m) as [m'|]; cbn; [|auto]. apply IH. intros; apply H; [auto|right; auto].
  Qed.
  Lemma run_all_ext_app l l1 l2 : (forall m, run_all l1 m = run_all l2 m) -> forall m, run_all (M := M) (l ++ l1) m = run_all (l ++ l2) m.
  Proof. intros H m. rewrite !run_all_app. destruct (run_all l m); cbn; auto. Qed.
  Lemma run_all_perm body xs ys m : Permutation xs ys -> NoDup xs ->
    (forall i j a a', In i xs -> In j xs -> i <> j -> In a (body i) -> In a' (body j) -> commute a a') ->
    run_all (flat_map body xs) m = run_all (flat_map body ys) m.
  Proof.
    intros P. revert m. induction P as [|x xs ys P IH|x y xs|xs ys zs P IH P' IH']; intros m N H; cbn; auto.
    - apply run_all_ext_app. intros k. apply IH; [inversion N; auto|]. intros; eapply (H i j); eauto; right; auto.
    - rewrite !app_assoc, !run_all_app. f_equal. rewrite <- !run_all_app. apply run_all_swap.
      intros a a' Ha Ha'. apply (H y x); auto; [left; auto|right; left; auto|]. inversion N as [|? ? Ny]; subst. intros ->. apply Ny. left; auto.
    - rewrite IH by auto. apply IH'; [eapply Permutation_NoDup; eauto|]. intros i j a a' Hi Hj. apply H.
      + apply (Permutation_in _ (Permutation_sym P)). auto.
      + apply (Permutation_in _ (Permutation_sym P)). auto.
  Qed.

  Lemma flat_map_flat_map {A B C} (f : A -> list B) (g : B -> list C) l : flat_map g (flat_map f l) = flat_map (fun x => flat_map g (f x)) l.
  Proof. induction l as [|x l IH]; cbn; [auto|]. now rewrite flat_map_app, IH. Qed.
  Lemma seq_blocks b s : flat_map (fun x => map (fun t => t + s * x) (seq 0 s)) (seq 0 b) = seq 0 (b * s).
  Proof.
    induction b as [|b IH]; [auto|]. rewrite seq_S, flat_map_app, IH. cbn [flat_map]. rewrite app_nil_r.
    replace (S b * s) with (b * s + s) by lia. rewrite seq_app. f_equal. cbn.
    replace (map (fun t => t + s * b) (seq 0 s)) with (map (fun t => b * s + t) (seq 0 s)) by (apply map_ext; intros; lia).
    generalize (b * s) as c. clear. intros c. assert (H : forall d, map (fun t => c + t) (seq d s) = seq (c + d) s).
    { induction s as [|s IH]; intros d; cbn; [auto|]. rewrite IH. do 2 f_equal. lia. }
    rewrite H. f_equal. lia.
  Qed.

  Lemma flat_block_rem T n body l : block_rem (map (flat_thread T n body) l) = flat_map (fun g => flat_map body (strided g T n)) l.
  Proof.
    rewrite (block_rem_ge _ 1).
    - cbn. rewrite app_nil_r. unfold phase_acts, flat_thread. induction l as [|g l IH]; cbn; [auto|]. now rewrite IH.
    - apply depth_lub. intros t Ht. apply in_map_iff in Ht. destruct Ht as (g & <- & _). reflexivity.
  Qed.

  (** Kernels without barriers in which the work items commute: any schedule
      does the same as a loop over the work items. *)
  Theorem flat_kernel_runs blocks bsize n body m mf :
    blocks <> 0 -> bsize <> 0 -> bodies_commute n body ->
    run_all (flat_map body (seq 0 n)) m = Some mf ->
    every_run (fun m' => m' = mf) (m, flat_kernel blocks bsize n body).
  Proof.
    intros Hb Hs C R. set (T := blocks * bsize). assert (HT : 0 < T) by (unfold T; nia).
    assert (Th : forall b blk i t, nth_error (flat_kernel blocks bsize n body) b = Some blk -> nth_error blk i = Some t ->
      b < blocks /\ i < bsize /\ t = flat_thread T n body (i + bsize * b)).
    { intros b blk i t E1 E2. unfold flat_kernel in E1. rewrite nth_error_map in E1.
      assert (Lb : b < blocks).
      { destruct (nth_error (seq 0 blocks) b) eqn:F; [|discriminate]. apply nth_error_Some_length in F || (assert (b < length (seq 0 blocks)) by (apply nth_error_Some; congruence); rewrite seq_length in *; auto). }
      rewrite (nth_error_nth' _ 0) in E1 by (rewrite seq_length; auto). rewrite seq_nth in E1 by auto. cbn in E1. injection E1 as <-.
      rewrite nth_error_map in E2.
      assert (Li : i < bsize).
      { destruct (nth_error (seq 0 bsize) i) eqn:F; [|discriminate]. assert (i < length (seq 0 bsize)) by (apply nth_error_Some; congruence). rewrite seq_length in *; auto. }
      rewrite (nth_error_nth' _ 0) in E2 by (rewrite seq_length; auto). rewrite seq_nth in E2 by auto. cbn in E2. injection E2 as <-.
      auto. }
    assert (Ac : forall b i p a, b < blocks -> i < bsize -> In a (nth p (flat_thread T n body (i + bsize * b)) []) ->
      exists k, k < n /\ k mod T = i + bsize * b /\ In a (body k)).
    { intros b i p a Lb Li Ha. unfold flat_thread in Ha. destruct p as [|[|p]]; cbn in Ha; try tauto.
      apply in_flat_map in Ha. destruct Ha as (k & Hk & Ha). rewrite strided_mod in Hk by (unfold T; nia). exists k. tauto. }
    apply every_run_all_rem.
    - split.
      + intros b blk Eb p i j ti tj a a' Ei Ej N Ha Ha'.
        destruct (Th _ _ _ _ Eb Ei) as (Lb & Li & ->). destruct (Th _ _ _ _ Eb Ej) as (_ & Lj & ->).
        destruct (Ac _ _ _ _ Lb Li Ha) as (k & Hk & Mk & Ik). destruct (Ac _ _ _ _ Lb Lj Ha') as (k' & Hk' & Mk' & Ik').
        apply (C k k'); auto. intros ->. lia.
      + intros b b' blk blk' a a' Eb Eb' N Ha Ha'. apply in_block_rem in Ha, Ha'.
        destruct Ha as (p & i & t & Et & Ha). destruct Ha' as (p' & i' & t' & Et' & Ha').
        destruct (Th _ _ _ _ Eb Et) as (Lb & Li & ->). destruct (Th _ _ _ _ Eb' Et') as (Lb' & Li' & ->).
        destruct (Ac _ _ _ _ Lb Li Ha) as (k & Hk & Mk & Ik). destruct (Ac _ _ _ _ Lb' Li' Ha') as (k' & Hk' & Mk' & Ik').
        apply (C k k'); auto. intros ->. assert (E : i + bsize * b = i' + bsize * b') by lia. apply N.
        clear - E Li Li'. nia.
    - rewrite <- R. etransitivity; [|apply (run_all_perm body _ _ m (strided_all T n HT))].
      + f_equal. unfold all_rem, flat_kernel. rewrite <- (seq_blocks blocks bsize : _ = seq 0 T). fold T.
        rewrite flat_map_flat_map. rewrite flat_map_flat_map.
        rewrite flat_map_concat_map, map_map, <- flat_map_concat_map. apply flat_map_ext. intros b.
        rewrite <- (map_map (fun t => t + bsize * b) (flat_thread T n body)), flat_block_rem. reflexivity.
      + apply nodup_flat_map; [apply seq_NoDup| |].
        * intros g _. apply iterations_nodup. auto.
        * intros g g' i Hg Hg' Hi Hi'. apply in_seq in Hg, Hg'. rewrite strided_mod in Hi, Hi' by lia. lia.
      + intros i j a a' Hi Hj. apply (Permutation_in _ (strided_all T n HT)) in Hi, Hj. apply in_seq in Hi, Hj. intros; eapply (C i j); eauto; lia.
  Qed.
End Flat.

Lemma skipn_S {A} k (l : list A) x r : skipn k l = x :: r -> r = skipn (S k) l.
Proof.
  revert l. induction k as [|k IH]; intros l E.
  - cbn in E. subst l. reflexivity.
  - destruct l as [|y l]; [discriminate|]. cbn [skipn] in E. apply IH in E. exact E.
Qed.
(** Every work item writes its own entry. *)
Lemma run_writes {A} (f : nat -> A) n l : length l = n -> run_all (flat_map (fun i => [wr i (f i)]) (seq 0 n)) l = Some (map f (seq 0 n)).
Proof.
  intros L. assert (H : forall k, k <= n -> run_all (flat_map (fun i => [wr i (f i)]) (seq 0 k)) l = Some (map f (seq 0 k) ++ skipn k l)).
  { induction k as [|k IH]; intros Hk; [reflexivity|]. rewrite seq_S, flat_map_app, run_all_app, IH by lia. cbn [obind flat_map app run_all].
    destruct (skipn k l) as [|x r] eqn:E.
    - exfalso. apply (f_equal (@length _)) in E. rewrite skipn_length in E. cbn in E. lia.
    - pose proof (wr_app (map f (seq 0 k)) x (f k) r) as W. rewrite map_length, seq_length in W. cbn [Nat.add]. rewrite W. cbn.
      rewrite map_app, <- app_assoc. cbn. do 3 f_equal.
      now eapply skipn_S; eauto. }
  rewrite H by auto. rewrite skipn_all2 by lia. now rewrite app_nil_r.
Qed.
Lemma writes_commute {A} (f : nat -> A) n : bodies_commute n (fun i => [wr i (f i)]).
Proof. intros i j a a' _ _ N [<-|[]] [<-|[]] m. now apply wr_comm. Qed.

Theorem write_kernel_runs {A} (f : nat -> A) blocks bsize n l : blocks <> 0 -> bsize <> 0 -> length l = n ->
  every_run (fun m' => m' = map f (seq 0 n)) (l, flat_kernel blocks bsize n (fun i => [wr i (f i)])).
Proof. intros. apply flat_kernel_runs; auto; [apply writes_commute|now apply run_writes]. Qed.

(** Atomic operations. *)
Lemma atomic_some {A} i (g : A -> A) l : i < length l -> exists l', atomic i g l = Some l'.
Proof.
  intros H. unfold atomic, rd. destruct (nth_error l i) as [e|] eqn:E; cbn; [now apply wr_some|].
  apply nth_error_None in E. lia.
Qed.
Lemma atomic_none {A} i (g : A -> A) l : length l <= i -> atomic i g l = None.
Proof. intros H. unfold atomic, rd. apply nth_error_None in H. now rewrite H. Qed.
Lemma atomic_inv {A} i (g : A -> A) l l' : atomic i g l = Some l' ->
  length l' = length l /\ i < length l /\ forall j x, nth j l' x = if j =? i then g (nth j l x) else nth j l x.
Proof.
  unfold atomic, rd. destruct (nth_error l i) as [e|] eqn:E; cbn; [|discriminate]. intros W.
  split; [eapply wr_length; eauto|]. split; [eapply wr_lt; eauto|]. intros j x. destruct (Nat.eqb_spec j i) as [->|N].
  - apply nth_error_nth with (d := x) in E. pose proof (wr_eq _ _ _ _ W) as W2. apply nth_error_nth with (d := x) in W2. congruence.
  - pose proof (wr_neq _ j _ _ _ W N) as W2. destruct (nth_error l j) as [y|] eqn:F.
    + apply nth_error_nth with (d := x) in W2, F. congruence.
    + rewrite !nth_overflow; auto; apply nth_error_None; auto.
Qed.
Lemma list_eq_nth {A} (l l' : list A) : length l = length l' -> (forall i x, i < length l -> nth i l x = nth i l' x) -> l = l'.
Proof.
  revert l'. induction l as [|a l IH]; intros [|b l'] L H; cbn in L; try lia; [auto|]. f_equal.
  - apply (H 0 a). cbn. lia.
  - apply IH; [lia|]. intros i x Hi. apply (H (S i) x). cbn. lia.
Qed.
Lemma atomic_comm {A} i j (g h : A -> A) : i <> j \/ (forall e, g (h e) = h (g e)) -> commute (atomic i g) (atomic j h).
Proof.
  intros C l. destruct (atomic i g l) as [l1|] eqn:E1, (atomic j h l) as [l2|] eqn:E2; cbn.
  - destruct (atomic_inv _ _ _ _ E1) as (L1 & B1 & V1). destruct (atomic_inv _ _ _ _ E2) as (L2 & B2 & V2).
    destruct (atomic_some j h l1) as (l12 & E12); [lia|]. destruct (atomic_some i g l2) as (l21 & E21); [lia|].
    rewrite E12, E21. f_equal. destruct (atomic_inv _ _ _ _ E12) as (L12 & _ & V12). destruct (atomic_inv _ _ _ _ E21) as (L21 & _ & V21).
    apply list_eq_nth; [lia|]. intros k x _. rewrite V12, V21, V1, V2.
    destruct (Nat.eqb_spec k i), (Nat.eqb_spec k j); auto. destruct C as [C|C]; [lia|auto].
  - destruct (atomic_inv _ _ _ _ E1) as (L1 & _ & _). destruct (Nat.lt_ge_cases j (length l)) as [H|H].
    + destruct (atomic_some j h l H). congruence.
    + apply atomic_none. lia.
  - destruct (atomic_inv _ _ _ _ E2) as (L1 & _ & _). destruct (Nat.lt_ge_cases i (length l)) as [H|H].
    + destruct (atomic_some i g l H). congruence.
    + symmetry. apply atomic_none. lia.
  - auto.
Qed.
Lemma run_atomics {A} (us : list (nat * (A -> A))) l : (forall u, In u us -> fst u < length l) ->
  exists l', run_all (map (fun u => atomic (fst u) (snd u)) us) l = Some l' /\ length l' = length l /\
    forall d x, nth d l' x = fold_left (fun e u => if fst u =? d then snd u e else e) us (nth d l x).
Proof.
  revert l. induction us as [|u us IH]; intros l H; cbn.
  - exists l. auto.
  - destruct (atomic_some (fst u) (snd u) l) as (l1 & E1); [apply H; left; auto|]. rewrite E1. cbn.
    destruct (atomic_inv _ _ _ _ E1) as (L1 & _ & V1). destruct (IH l1) as (l' & E' & L' & V').
    { intros v Hv. rewrite L1. apply H. right; auto. }
    exists l'. split; [auto|]. split; [lia|]. intros d x. rewrite V', V1. now rewrite (Nat.eqb_sym d).
Qed.

(** Runs exist. *)
Lemma progress {M} (m : M) bs : finished (m, bs) \/ faulty (m, bs) \/ exists s', step (m, bs) s'.
Proof.
  unfold finished. cbn [fst snd].
  destruct (Forall_dec (Forall (fun t => exited t = true)) (fun blk => Forall_dec _ (fun t => bool_dec _ _) blk) bs) as [F|F]; [auto|right].
  apply Exists_Forall_neg in F; [|intros; destruct (Forall_dec _ (fun t => bool_dec (exited t) true) x); auto].
  apply Exists_exists in F. destruct F as (blk & Hb & F).
  destruct (Forall_dec _ (fun t => bool_dec (waiting t || exited t) true) blk) as [W|W].
  - right. apply In_nth_error in Hb. destruct Hb as (b & Hb). eexists. eapply step_sync; eauto.
    apply Exists_Forall_neg in F; [|intros; destruct (bool_dec (exited x) true); auto].
    apply Exists_exists in F. destruct F as (t & Ht & F). apply Exists_exists. exists t. split; [auto|].
    rewrite Forall_forall in W. specialize (W t Ht). destruct (exited t); [congruence|]. now rewrite orb_false_r in W.
  - apply Exists_Forall_neg in W; [|intros; destruct (bool_dec (waiting x || exited x) true); auto].
    apply Exists_exists in W. destruct W as (t & Ht & W). destruct t as [|[|a ph] rest]; cbn in W; try congruence; [destruct rest; cbn in W; congruence|].
    destruct (a m) as [m'|] eqn:E.
    + right. apply In_nth_error in Hb, Ht. destruct Hb as (b & Hb), Ht as (i & Ht). eexists. eapply step_act; eauto.
    + left. exists blk, a, ph, rest. auto.
Qed.
Lemma every_run_exists {M} (P : M -> Prop) s : every_run P s -> exists m, some_run s m.
Proof.
  intros R. induction R as [[m bs] NF F R IH]. destruct (progress m bs) as [H|[H|(s' & S)]].
  - exists m. apply (some_run_end (m, bs)). auto.
  - contradiction.
  - destruct (IH _ S) as (m' & H). exists m'. eapply some_run_step; eauto.
Qed.
Lemma every_run_both {M} (P Q : M -> Prop) s : every_run P s -> every_run Q s -> exists m, P m /\ Q m.
Proof.
  intros R1 R2. destruct (every_run_exists P s R1) as (m & H). exists m. split; eapply every_run_some; eauto.
Qed.
