(** Facts about memories of several buffers: footprints and phases. *)
From Coq Require Import List Arith Lia Bool Permutation.
From Verif Require Import Cuda CudaFacts.
Import ListNotations.

Lemma flat_map_ext_in' {A B} (f g : A -> list B) l : (forall x, In x l -> f x = g x) -> flat_map f l = flat_map g l.
Proof. induction l; cbn; intros H; auto. rewrite H, IHl; auto. Qed.
Lemma seq_shift_n k n s : map (fun i => k + i) (seq s n) = seq (k + s) n.
Proof. revert s. induction n as [|n IH]; intros s; cbn; auto. f_equal. rewrite IH. f_equal. lia. Qed.

Section Mem.
  Context {V : Type}.
  Implicit Types (m : mem V) (x y : nat * nat).

  Definition same_shape m m' : Prop := map (@length V) m = map (@length V) m'.
  Definition cell_eqb x y : bool := (fst x =? fst y) && (snd x =? snd y).
  Lemma cell_eqb_eq x y : cell_eqb x y = true <-> x = y.
  Proof.
    destruct x, y; unfold cell_eqb; cbn. rewrite andb_true_iff, !Nat.eqb_eq. split; [intros [-> ->]; auto|intros E; inversion E; auto].
  Qed.
  Lemma cell_eqb_refl x : cell_eqb x x = true. Proof. now apply cell_eqb_eq. Qed.

  Lemma same_shape_refl m : same_shape m m. Proof. reflexivity. Qed.
  Lemma same_shape_sym m m' : same_shape m m' -> same_shape m' m. Proof. unfold same_shape; congruence. Qed.
  Lemma same_shape_trans m m' m'' : same_shape m m' -> same_shape m' m'' -> same_shape m m''. Proof. unfold same_shape; congruence. Qed.
  Lemma same_shape_length m m' : same_shape m m' -> length m = length m'.
  Proof. intros H. apply (f_equal (@length _)) in H. now rewrite !map_length in H. Qed.
  Lemma same_shape_buf m m' b l : same_shape m m' -> nth_error m b = Some l -> exists l', nth_error m' b = Some l' /\ length l' = length l.
  Proof.
    intros H E. apply (f_equal (fun l => nth_error l b)) in H. rewrite !nth_error_map, E in H. cbn in H.
    destruct (nth_error m' b); cbn in H; [|discriminate]. injection H as H. eauto.
  Qed.

  (** A cell exists. *)
  Definition has m x : Prop := exists v, get x m = Some v.
  Lemma has_iff m x : has m x <-> exists l, nth_error m (fst x) = Some l /\ snd x < length l.
  Proof.
    unfold has, get, rd. destruct (nth_error m (fst x)) as [l|]; cbn; [|split; [intros [? ?]|intros (? & ? & _)]; discriminate].
    split.
    - intros [v E]. exists l. split; auto. apply nth_error_Some. congruence.
    - intros (l' & E & H). inversion E; subst l'. destruct (nth_error l (snd x)) eqn:E'; [eauto|]. apply nth_error_None in E'. lia.
  Qed.
  Lemma has_shape m m' x : same_shape m m' -> has m x -> has m' x.
  Proof.
    intros H. rewrite !has_iff. intros (l & E & L). destruct (same_shape_buf m m' _ _ H E) as (l' & E' & L'). exists l'. split; auto. lia.
  Qed.
  Lemma get_none_shape m m' x : same_shape m m' -> get x m = None -> get x m' = None.
  Proof.
    intros H E. destruct (get x m') as [v|] eqn:E'; auto.
    destruct (has_shape m' m x (same_shape_sym _ _ H) (ex_intro _ v E')) as [w W]. congruence.
  Qed.

  Lemma put_some m x v : has m x -> exists m', put x v m = Some m'.
  Proof.
    rewrite has_iff. intros (l & E & H). unfold put. rewrite E. cbn.
    destruct (wr_some (snd x) v l H) as (l' & El). rewrite El. cbn. apply wr_some. apply nth_error_Some. congruence.
  Qed.
  Lemma put_inv m x v m' : put x v m = Some m' ->
    same_shape m m' /\ get x m' = Some v /\ forall y, y <> x -> get y m' = get y m.
  Proof.
    unfold put. destruct (nth_error m (fst x)) as [l|] eqn:E; cbn; [|discriminate].
    destruct (wr (snd x) v l) as [l'|] eqn:El; cbn; [|discriminate]. intros Em. split; [|split].
    - unfold same_shape. pose proof (wr_length _ _ _ _ El) as L. revert E Em. generalize (fst x). intros b.
      revert b m'. induction m as [|a m IH]; intros b m' E Em; [destruct b; discriminate|].
      destruct b as [|b]; cbn in *.
      + injection E as ->. injection Em as <-. cbn. now rewrite L.
      + destruct (wr b l' m) as [r|] eqn:Er; [|discriminate]. injection Em as <-. cbn. f_equal. apply (IH b r); auto.
    - unfold get. rewrite (wr_eq _ _ _ _ Em). cbn. apply (wr_eq _ _ _ _ El).
    - intros y Hy. unfold get. destruct (Nat.eq_dec (fst y) (fst x)) as [Ey|Ey].
      + rewrite Ey, E, (wr_eq _ _ _ _ Em). cbn. unfold rd. apply (wr_neq _ _ _ _ _ El).
        intros Es. apply Hy. destruct x, y; cbn in *; congruence.
      + now rewrite (wr_neq _ _ _ _ _ Em Ey).
  Qed.
  Lemma put_none m x v : get x m = None -> put x v m = None.
  Proof.
    intros H. destruct (put x v m) as [m'|] eqn:E; auto. destruct (put_inv _ _ _ _ E) as (S & G & _).
    pose proof (get_none_shape m m' x S H). congruence.
  Qed.

  Lemma mem_ext m m' : same_shape m m' -> (forall x, get x m = get x m') -> m = m'.
  Proof.
    revert m'. induction m as [|l m IH]; intros [|l' m'] H G; try discriminate; auto.
    unfold same_shape in H. cbn in H. injection H as Hl H. f_equal.
    - apply list_eq_nth; auto. intros i v Hi. pose proof (G (0, i)) as E. unfold get, rd in E. cbn in E.
      rewrite (nth_error_nth' l v) in E by auto. rewrite (nth_error_nth' l' v) in E by lia. congruence.
    - apply IH; auto. intros [b i]. exact (G (S b, i)).
  Qed.

  (** [a] depends only on the cells in [R] and changes only those in [W]. *)
  Record frame (R W : nat * nat -> bool) (a : action (mem V)) : Prop := Frame {
    fr_sub : forall x, W x = true -> R x = true;
    fr_out : forall m m', a m = Some m' -> same_shape m m' /\ forall x, W x = false -> get x m' = get x m;
    fr_in : forall m1 m2, same_shape m1 m2 -> (forall x, R x = true -> get x m1 = get x m2) ->
      match a m1, a m2 with
      | Some m1', Some m2' => forall x, R x = true -> get x m1' = get x m2'
      | None, None => True
      | _, _ => False
      end }.

  Lemma frame_commute R W R' W' (a a' : action (mem V)) : frame R W a -> frame R' W' a' ->
    (forall x, W x = true -> R' x = false) -> (forall x, W' x = true -> R x = false) -> commute a a'.
  Proof.
    intros F F' H H' m.
    assert (N : forall x, R x = true -> W' x = false) by (intros x Hx; destruct (W' x) eqn:E; auto; apply H' in E; congruence).
    assert (N' : forall x, R' x = true -> W x = false) by (intros x Hx; destruct (W x) eqn:E; auto; apply H in E; congruence).
    destruct (a m) as [m1|] eqn:E1; destruct (a' m) as [m2|] eqn:E2; cbn; auto.
    - destruct (fr_out _ _ _ F m m1 E1) as [S1 O1]. destruct (fr_out _ _ _ F' m m2 E2) as [S2 O2].
      pose proof (fr_in _ _ _ F' m m1 S1 ltac:(intros x Hx; symmetry; apply O1; auto)) as I'. rewrite E2 in I'.
      pose proof (fr_in _ _ _ F m m2 S2 ltac:(intros x Hx; symmetry; apply O2; auto)) as I. rewrite E1 in I.
      destruct (a' m1) as [m12|] eqn:E12; [|contradiction]. destruct (a m2) as [m21|] eqn:E21; [|contradiction].
      destruct (fr_out _ _ _ F' m1 m12 E12) as [S12 O12]. destruct (fr_out _ _ _ F m2 m21 E21) as [S21 O21].
      f_equal. apply mem_ext; [unfold same_shape in *; congruence|]. intros x.
      destruct (W x) eqn:Wx.
      + rewrite O12 by (destruct (W' x) eqn:Q; auto; apply H' in Q; apply (fr_sub _ _ _ F) in Wx; congruence).
        apply I. apply (fr_sub _ _ _ F); auto.
      + destruct (W' x) eqn:Wx'.
        * rewrite (O21 x Wx). symmetry. apply I'. apply (fr_sub _ _ _ F'); auto.
        * rewrite (O12 x Wx'), (O21 x Wx), (O1 x Wx), (O2 x Wx'). reflexivity.
    - destruct (fr_out _ _ _ F m m1 E1) as [S1 O1].
      pose proof (fr_in _ _ _ F' m m1 S1 ltac:(intros x Hx; symmetry; apply O1; auto)) as I'. rewrite E2 in I'.
      destruct (a' m1); [contradiction|auto].
    - destruct (fr_out _ _ _ F' m m2 E2) as [S2 O2].
      pose proof (fr_in _ _ _ F m m2 S2 ltac:(intros x Hx; symmetry; apply O2; auto)) as I. rewrite E1 in I.
      destruct (a m2); [contradiction|auto].
  Qed.

  Lemma frame_weaken (R W R' W' : nat * nat -> bool) a : frame R W a -> (forall x, R x = true -> R' x = true) ->
    (forall x, W x = true -> W' x = true) -> (forall x, W' x = true -> R' x = true) -> frame R' W' a.
  Proof.
    intros [S O I] HR HW HS. constructor; auto.
    - intros m m' E. destruct (O m m' E) as [Sh G]. split; auto. intros x Hx. apply G.
      destruct (W x) eqn:Q; auto. apply HW in Q. congruence.
    - intros m1 m2 Sh E. specialize (I m1 m2 Sh ltac:(auto)). destruct (a m1) as [m1'|] eqn:E1, (a m2) as [m2'|] eqn:E2; auto.
      intros x Hx. destruct (R x) eqn:Rx; [auto|]. destruct (O m1 m1' E1) as [_ G1]. destruct (O m2 m2' E2) as [_ G2].
      assert (W x = false) by (destruct (W x) eqn:Q; auto; apply S in Q; congruence).
      rewrite G1, G2 by auto. auto.
  Qed.

  Lemma frame_nil R W : (forall x, W x = true -> R x = true) -> frame R W (run_all []).
  Proof.
    intros H. constructor; auto.
    - intros m m' E. injection E as <-. split; [reflexivity|auto].
  Qed.
  Lemma frame_cons R W a l : frame R W a -> frame R W (run_all l) -> frame R W (run_all (a :: l)).
  Proof.
    intros [S O I] [S' O' I']. constructor; auto.
    - intros m m' E. cbn in E. destruct (a m) as [m1|] eqn:E1; cbn in E; [|discriminate].
      destruct (O m m1 E1) as [Sh G]. destruct (O' m1 m' E) as [Sh' G']. split; [eapply same_shape_trans; eauto|].
      intros x Hx. rewrite G', G; auto.
    - intros m1 m2 Sh E. cbn [run_all]. specialize (I m1 m2 Sh E). destruct (a m1) as [m1'|] eqn:E1, (a m2) as [m2'|] eqn:E2; cbn [obind]; try contradiction; auto.
      destruct (O m1 m1' E1) as [Sh1 _]. destruct (O m2 m2' E2) as [Sh2 _]. apply I'; auto.
      unfold same_shape in *. congruence.
  Qed.
  Lemma frame_run_all R W l : (forall x, W x = true -> R x = true) -> (forall a, In a l -> frame R W a) -> frame R W (run_all l).
  Proof.
    intros H. induction l as [|a l IH]; intros F; [now apply frame_nil|].
    apply frame_cons; [apply F; left; auto|apply IH; intros; apply F; right; auto].
  Qed.

  Lemma gets_has l m : (forall x, In x l -> has m x) -> exists vs, gets l m = Some vs.
  Proof.
    induction l as [|x l IH]; intros H; cbn; [eauto|]. destruct (H x) as [v E]; [left; auto|]. rewrite E. cbn.
    destruct IH as [vs ->]; [intros; apply H; right; auto|]. cbn. eauto.
  Qed.
  Lemma gets_ext l m m' : (forall x, In x l -> get x m = get x m') -> gets l m = gets l m'.
  Proof.
    induction l as [|x l IH]; intros H; cbn; auto. rewrite (H x) by (left; auto). destruct (get x m'); cbn; auto.
    rewrite IH; auto. intros; apply H; right; auto.
  Qed.
  Lemma gets_length l m vs : gets l m = Some vs -> length vs = length l.
  Proof.
    revert vs. induction l as [|x l IH]; intros vs H; cbn in H; [injection H as <-; auto|].
    destruct (get x m); cbn in H; [|discriminate]. destruct (gets l m); cbn in H; [|discriminate]. injection H as <-. cbn. f_equal. auto.
  Qed.

  Definition in_cells_b (l : list (nat * nat)) x : bool := existsb (cell_eqb x) l.
  Lemma in_cells_b_iff l x : in_cells_b l x = true <-> In x l.
  Proof.
    unfold in_cells_b. rewrite existsb_exists. split.
    - intros (y & Hy & E). apply cell_eqb_eq in E. now subst.
    - intros H. exists x. split; auto. apply cell_eqb_refl.
  Qed.
  Lemma assign_frame x ys (f : list V -> V) : frame (in_cells_b (x :: ys)) (cell_eqb x) (assign x ys f).
  Proof.
    constructor.
    - intros y E. apply cell_eqb_eq in E. subst. apply in_cells_b_iff. left; auto.
    - intros m m' E. unfold assign in E. destruct (gets ys m) as [vs|]; cbn in E; [|discriminate].
      destruct (put_inv _ _ _ _ E) as (S & _ & O). split; auto. intros y Hy. apply O.
      intros ->. rewrite cell_eqb_refl in Hy. discriminate.
    - intros m1 m2 Sh E. unfold assign. rewrite (gets_ext ys m1 m2) by (intros y Hy; apply E, in_cells_b_iff; right; auto).
      destruct (gets ys m2) as [vs|]; cbn; auto.
      destruct (put x (f vs) m1) as [m1'|] eqn:E1; destruct (put x (f vs) m2) as [m2'|] eqn:E2; auto.
      + destruct (put_inv _ _ _ _ E1) as (_ & G1 & O1). destruct (put_inv _ _ _ _ E2) as (_ & G2 & O2).
        intros y Hy. pose proof (E y Hy) as Ey. destruct (cell_eqb y x) eqn:Q; [apply cell_eqb_eq in Q; subst; congruence|].
        assert (y <> x) by (intros ->; rewrite cell_eqb_refl in Q; discriminate). rewrite O1, O2 by auto. exact Ey.
      + destruct (get x m2) as [v|] eqn:G.
        * destruct (put_some m2 x (f vs) (ex_intro _ v G)) as [? ?]. congruence.
        * pose proof (get_none_shape m2 m1 x (same_shape_sym _ _ Sh) G) as G1. rewrite (put_none _ _ _ G1) in E1. discriminate.
      + destruct (get x m1) as [v|] eqn:G.
        * destruct (put_some m1 x (f vs) (ex_intro _ v G)) as [? ?]. congruence.
        * pose proof (get_none_shape m1 m2 x Sh G) as G1. rewrite (put_none _ _ _ G1) in E2. discriminate.
  Qed.
  Lemma assign_some x ys f m : has m x -> (forall y, In y ys -> has m y) ->
    exists vs m', gets ys m = Some vs /\ assign x ys f m = Some m' /\ put x (f vs) m = Some m'.
  Proof.
    intros Hx Hy. destruct (gets_has ys m Hy) as [vs E]. destruct (put_some m x (f vs) Hx) as [m' E'].
    exists vs, m'. unfold assign. rewrite E. cbn. auto.
  Qed.

  (** A phase: independent actions, one after the other or in any order. *)
  Section Phase.
    Context {I : Type} (a : I -> list (action (mem V))) (R W : I -> nat * nat -> bool).
    Lemma phase_run (ts : list I) m :
      (forall t, In t ts -> frame (R t) (W t) (run_all (a t))) ->
      NoDup ts ->
      (forall t u x, In t ts -> In u ts -> t <> u -> W t x = true -> R u x = false) ->
      (forall t, In t ts -> exists mt, run_all (a t) m = Some mt) ->
      exists m', run_all (flat_map a ts) m = Some m' /\ same_shape m m' /\
        (forall t mt x, In t ts -> run_all (a t) m = Some mt -> W t x = true -> get x m' = get x mt) /\
        (forall x, (forall t, In t ts -> W t x = false) -> get x m' = get x m).
    Proof.
      revert m. induction ts as [|t ts IH]; intros m F ND Ind Ex.
      - exists m. cbn. repeat split; auto. intros ? ? ? [].
      - inversion ND as [|? ? Nt ND']; subst.
        destruct (Ex t) as [m1 E1]; [left; auto|].
        destruct (fr_out _ _ _ (F t ltac:(left; auto)) m m1 E1) as [S1 O1].
        assert (Eu : forall u, In u ts -> forall mu, run_all (a u) m = Some mu ->
                  exists mu', run_all (a u) m1 = Some mu' /\ forall x, R u x = true -> get x mu' = get x mu).
        { intros u Hu mu Eu. pose proof (fr_in _ _ _ (F u ltac:(right; auto)) m m1 S1) as Q.
          assert (Hne : t <> u) by (intros ->; contradiction).
          specialize (Q ltac:(intros x Hx; symmetry; apply O1; destruct (W t x) eqn:Wx; auto;
            rewrite (Ind t u x ltac:(left; auto) ltac:(right; auto) Hne Wx) in Hx; discriminate)).
          rewrite Eu in Q. destruct (run_all (a u) m1) as [mu'|]; [|contradiction]. exists mu'. split; auto.
          intros x Hx. symmetry. auto. }
        destruct (IH m1) as (m' & E' & S' & G' & O'); auto.
        { intros u Hu. apply F. right; auto. }
        { intros u v x Hu Hv. apply Ind; right; auto. }
        { intros u Hu. destruct (Ex u ltac:(right; auto)) as [mu Hmu]. destruct (Eu u Hu mu Hmu) as (mu' & ? & _). eauto. }
        exists m'. split; [cbn [flat_map]; rewrite run_all_app, E1; exact E'|]. split; [eapply same_shape_trans; eauto|]. split.
        + intros u mu x [<-|Hu] Hmu Wx.
          * assert (mu = m1) by congruence. subst mu. apply O'. intros u Hu.
            destruct (W u x) eqn:Wu; auto. assert (Hne : u <> t) by (intros ->; contradiction).
            pose proof (Ind u t x ltac:(right; auto) ltac:(left; auto) Hne Wu) as Q.
            rewrite (fr_sub _ _ _ (F t ltac:(left; auto)) x Wx) in Q. discriminate.
          * destruct (Eu u Hu mu Hmu) as (mu' & Hmu' & Gm). rewrite (G' u mu' x Hu Hmu' Wx). apply Gm.
            apply (fr_sub _ _ _ (F u ltac:(right; auto)) x Wx).
        + intros x Hx. rewrite O'; [|intros u Hu; apply Hx; right; auto]. apply O1. apply Hx. left; auto.
    Qed.
  End Phase.

  (** ** Blocks whose threads all have the same number of phases *)
  Section Uniform.
    Context {M : Type}.
    Implicit Types ph : nat -> list (list (action M)).
    Lemma phase_acts_uniform p ph (ts : list nat) : phase_acts p (map ph ts) = flat_map (fun t => nth p (ph t) []) ts.
    Proof. unfold phase_acts. induction ts; cbn; [auto|]. now rewrite IHts. Qed.
    Lemma block_rem_uniform ph L (ts : list nat) : (forall t, In t ts -> length (ph t) = L) ->
      block_rem (map ph ts) = flat_map (fun p => flat_map (fun t => nth p (ph t) []) ts) (seq 0 L).
    Proof.
      intros H. rewrite (block_rem_ge _ L).
      - apply flat_map_ext. intros p. apply phase_acts_uniform.
      - apply depth_lub. intros t Ht. apply in_map_iff in Ht. destruct Ht as (u & <- & Hu). rewrite H; auto.
    Qed.
    (** Threads that repeat [ph t e] for [e] in [es] and then leave. *)
    Lemma rounds_rem (ph : nat -> nat -> list (list (action M))) L es ts :
      (forall t e, length (ph t e) = L) ->
      block_rem (map (fun t => flat_map (ph t) es ++ [[]]) ts) =
      flat_map (fun e => flat_map (fun p => flat_map (fun t => nth p (ph t e) []) ts) (seq 0 L)) es.
    Proof.
      intros H. rewrite (block_rem_uniform _ (length es * L + 1)).
      2:{ intros t _. rewrite app_length. cbn [length]. f_equal. induction es as [|e es IH]; cbn; [auto|]. rewrite app_length, H, IH. auto. }
      induction es as [|e es IH].
      - cbn. rewrite app_nil_r. induction ts; cbn; auto.
      - replace (length (e :: es) * L + 1) with (L + (length es * L + 1)) by (cbn; lia).
        rewrite seq_app, flat_map_app. cbn [flat_map]. f_equal.
        + apply flat_map_ext_in'. intros p Hp. apply in_seq in Hp. apply flat_map_ext. intros t.
          rewrite <- app_assoc. rewrite app_nth1 by (rewrite H; lia). reflexivity.
        + rewrite <- IH. replace (0 + L) with (L + 0) by lia. rewrite <- (seq_shift_n L).
          rewrite flat_map_concat_map, map_map, <- flat_map_concat_map. apply flat_map_ext. intros p. apply flat_map_ext. intros t.
          rewrite <- app_assoc. rewrite app_nth2 by (rewrite H; lia). rewrite H. f_equal. lia.
    Qed.
  End Uniform.
End Mem.
