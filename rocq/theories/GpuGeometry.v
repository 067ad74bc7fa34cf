(** Which offsets of the CUDA neighbor search reach which points. *)
From Coq Require Import List Arith ZArith QArith Qround Lia Lqa Bool Permutation.
From Verif Require Import Tensor TensorFacts PointCloud QFacts Grid GridFacts Cuda CudaFacts GpuGrid GpuGridFacts GpuNeighbors GpuRangeFacts.
Import ListNotations.
Local Open Scope Z_scope.

Lemma split_last (l : list Z) k : (1 <= k)%nat -> length l = k -> l = firstn (k - 1) l ++ [nth (k - 1) l 0].
Proof.
  intros Hk Ll. rewrite <- (firstn_skipn (k - 1) l) at 1. f_equal. destruct (skipn (k - 1) l) as [|x r] eqn:Es.
  - apply (f_equal (@length _)) in Es. rewrite skipn_length in Es. cbn in Es. lia.
  - assert (r = []) by (apply (f_equal (@length _)) in Es; rewrite skipn_length in Es; destruct r; [auto|cbn in Es; lia]). subst r.
    f_equal. rewrite <- (firstn_skipn (k - 1) l), Es. rewrite app_nth2; rewrite firstn_length_le by lia; [|lia]. now rewrite Nat.sub_diag.
Qed.

(** ** The offsets *)
Lemma digits_length k i : length (digits k i) = k.
Proof. revert i. induction k as [|k IH]; intros i; cbn [digits]; auto. rewrite app_length, IH. cbn. lia. Qed.
Lemma digits_small k i x : In x (digits k i) -> -1 <= x <= 1.
Proof.
  revert i. induction k as [|k IH]; intros i; cbn [digits]; [intros []|]. rewrite in_app_iff. intros [H|[H|[]]]; [eauto|].
  subst. pose proof (Nat.mod_upper_bound i 3 ltac:(lia)). lia.
Qed.
Lemma digits_inj k i i' : (i < 3 ^ k)%nat -> (i' < 3 ^ k)%nat -> digits k i = digits k i' -> i = i'.
Proof.
  revert i i'. induction k as [|k IH]; intros i i' Hi Hi' E; cbn [digits Nat.pow] in *; [lia|].
  apply app_inj_tail in E. destruct E as [E1 E2].
  apply IH in E1; try (apply Nat.div_lt_upper_bound; lia).
  pose proof (Nat.div_mod i 3 ltac:(lia)). pose proof (Nat.div_mod i' 3 ltac:(lia)). lia.
Qed.
Lemma digits_all l : (forall x, In x l -> -1 <= x <= 1) -> exists i, (i < 3 ^ length l)%nat /\ digits (length l) i = l.
Proof.
  induction l as [|x l IH] using rev_ind; intros H; [exists 0%nat; cbn; auto|].
  destruct IH as (i & Hi & E). { intros y Hy. apply H. apply in_or_app. auto. }
  assert (Hx : -1 <= x <= 1) by (apply H, in_or_app; right; left; auto).
  exists (3 * i + Z.to_nat (x + 1))%nat. replace (length (l ++ [x])) with (S (length l)) by (rewrite app_length; cbn; lia). cbn [Nat.pow digits]. split; [lia|].
  replace ((3 * i + Z.to_nat (x + 1)) / 3)%nat with i.
  2:{ rewrite (Nat.mul_comm 3 i), Nat.div_add_l by lia. rewrite Nat.div_small by lia. lia. }
  rewrite E. do 2 f_equal. rewrite Nat.add_comm, (Nat.mul_comm 3 i), Nat.mod_add by lia. rewrite Nat.mod_small by lia. lia.
Qed.

Definition is_offset (D : nat) (off : list Z) : Prop :=
  length off = D /\ (forall x, In x off -> -1 <= x <= 1) /\ (D <> 2%nat -> nth (D - 1) off 0 = 0).
Lemma offsets_in D off : (2 <= D)%nat -> (In off (offsets D) <-> is_offset D off).
Proof.
  intros HD. unfold offsets. rewrite in_map_iff. set (k := S (Nat.max (D - 2) 1)).
  assert (Ek : k = if Nat.eqb D 2 then D else (D - 1)%nat) by (unfold k; destruct (Nat.eqb_spec D 2); lia).
  unfold offset. fold k. split.
  - intros (i & <- & Hi). split; [|split].
    + rewrite app_length, digits_length, Ek. destruct (Nat.eqb_spec D 2); cbn; lia.
    + intros x Hx. apply in_app_or in Hx. destruct Hx as [Hx|Hx]; [eapply digits_small; eauto|]. destruct (Nat.eqb D 2); [destruct Hx|]. destruct Hx as [<-|[]]. lia.
    + intros N. rewrite app_nth2; rewrite digits_length, Ek; destruct (Nat.eqb_spec D 2); try lia. now rewrite Nat.sub_diag.
  - intros (L & Hs & Hz). destruct (Nat.eqb_spec D 2) as [E|E].
    + destruct (digits_all off Hs) as (i & Hi & Ed). exists i. rewrite app_nil_r. rewrite Ek, <- L. split; auto. apply in_seq. lia.
    + assert (X : off = firstn (D - 1) off ++ [0]).
      { rewrite <- (firstn_skipn (D - 1) off) at 1. f_equal. destruct (skipn (D - 1) off) as [|x r] eqn:Es.
        - apply (f_equal (@length _)) in Es. rewrite skipn_length in Es. cbn in Es. lia.
        - assert (r = []) by (apply (f_equal (@length _)) in Es; rewrite skipn_length in Es; destruct r; [auto|cbn in Es; lia]). subst r.
          f_equal. rewrite <- (Hz E). rewrite <- (firstn_skipn (D - 1) off), Es. rewrite app_nth2; rewrite firstn_length_le by lia; [|lia].
          now rewrite Nat.sub_diag. }
      assert (Lf : length (firstn (D - 1) off) = k) by (rewrite firstn_length_le; lia).
      destruct (digits_all (firstn (D - 1) off)) as (i & Hi & Ed).
      { intros x Hx. apply Hs. rewrite X. apply in_or_app. auto. }
      rewrite Lf in *. exists i. rewrite Ed. split; [auto|]. apply in_seq. lia.
Qed.
Lemma offsets_NoDup D : NoDup (offsets D).
Proof.
  unfold offsets. set (k := S (Nat.max (D - 2) 1)).
  assert (G : forall l, NoDup l -> (forall i, In i l -> (i < 3 ^ k)%nat) -> NoDup (map (offset D) l)).
  { induction l as [|i l IH]; intros N H; cbn [map]; [constructor|]. inversion N; subst. constructor.
    - intros I. apply in_map_iff in I. destruct I as (i' & E & I'). unfold offset in E. fold k in E. apply app_inv_tail in E.
      apply digits_inj in E; [|apply H; right; auto|apply H; left; auto]. subst. contradiction.
    - apply IH; auto. intros; apply H; right; auto. }
  apply G; [apply seq_NoDup|]. intros i Hi. apply in_seq in Hi. lia.
Qed.

(** ** Reaching a point *)
Section Reach.
  Variables (n0 n1 : Z) (rest keys : list Z) (bid : nat -> Z) (C : nat -> list Z).
  Let nc := n0 :: n1 :: rest.
  Let D := length nc.
  Let n := length keys.
  Hypothesis Hnc : forall x, In x nc -> 1 <= x.
  Hypothesis Hkeys : forall j, (j < n)%nat -> nth j keys 0 = bid j * zprod nc + radix nc (C j) /\ in_cells nc (C j) /\ 0 <= bid j.

  Lemma key_ds j : (j < n)%nat -> gpu_ds_of_key nc (nth j keys 0) = (bid j * n0 + nth 0 (C j) 0) * n1 + nth 1 (C j) 0.
  Proof.
    intros Hj. destruct (Hkeys j Hj) as (-> & I & Hb). pose proof I as I'. unfold nc in I'. destruct (C j) as [|c0 [|c1 cs]]; [inversion I'|inversion I' as [|? ? ? ? _ X]; inversion X|].
    unfold nc. rewrite gpu_ds_of_key_cell; auto.
  Qed.

  Lemma ranged_same b a off j : (j < n)%nat -> 0 <= b -> ranged n0 n1 rest keys b a off j ->
    bid j = b /\ nth 0 (C j) 0 = nth 0 (shifted a off) 0 /\ nth 1 (C j) 0 = nth 1 (shifted a off) 0.
  Proof.
    intros Hj Hb (I & E & _). fold nc in I, E. rewrite (key_ds j Hj) in E. unfold gpu_ds_of_cell in E. destruct (Hkeys j Hj) as (_ & I' & Hb').
    apply in_cells_nth in I, I'. destruct I as [_ I], I' as [_ I']. pose proof (I 0%nat ltac:(cbn; lia)) as X0. pose proof (I 1%nat ltac:(cbn; lia)) as X1.
    pose proof (I' 0%nat ltac:(cbn; lia)) as Y0. pose proof (I' 1%nat ltac:(cbn; lia)) as Y1. unfold nc in X0, X1, Y0, Y1, E. cbn [nth] in X0, X1, Y0, Y1, E.
    set (x := nth 0 (shifted a off) 0) in *. set (y := nth 1 (shifted a off) 0) in *. set (x' := nth 0 (C j) 0) in *. set (y' := nth 1 (C j) 0) in *.
    clearbody x y x' y'. set (bj := bid j) in *. clearbody bj. clear -E X0 X1 Y0 Y1.
    assert (E1 : (bj * n0 + x') * n1 + y' = (b * n0 + x) * n1 + y) by lia.
    assert (E2 : bj * n0 + x' = b * n0 + x /\ y' = y).
    { set (u := bj * n0 + x') in *. set (v := b * n0 + x) in *. clearbody u v. assert ((u - v) * n1 = y - y') by lia.
      destruct (Z.eq_dec u v); [subst; lia|]. exfalso. assert (Z.abs (u - v) >= 1) by lia. nia. }
    destruct E2 as [E2 ->]. destruct (Z.eq_dec bj b); [subst; split; [auto|]; split; lia|]. exfalso. assert ((bj - b) * n0 = x - x') by lia. nia.
  Qed.

  (** For a point whose cell is next to the cell [a], exactly one offset
      reaches it, in up to three dimensions or with at least three cells in
      the last one. *)
  Hypothesis Hlast : (D <= 3)%nat \/ 3 <= nth (D - 1) nc 0.

  Lemma ranged_iff b a off j : (j < n)%nat -> 0 <= b -> bid j = b -> in_cells nc a -> is_offset D off ->
    (forall d, (d < D)%nat -> Z.abs (nth d (C j) 0 - nth d a 0) <= 1) ->
    (ranged n0 n1 rest keys b a off j <-> forall d, (d < D)%nat -> (d = D - 1 -> D = 2)%nat -> nth d off 0 = nth d (C j) 0 - nth d a 0).
  Proof.
    intros Hj Hb Eb Ia (Lo & Hs & Hz) Hnear. destruct (Hkeys j Hj) as (Ek & I & _).
    pose proof (proj1 (in_cells_nth nc a) Ia) as [La Ra]. pose proof (proj1 (in_cells_nth nc (C j)) I) as [LC RC]. fold D in La, LC, Ra, RC.
    assert (D2 : (2 <= D)%nat) by (unfold D, nc; cbn; lia).
    assert (Ls : length (shifted a off) = D) by (rewrite shifted_length; lia).
    assert (Ns : forall d, nth d (shifted a off) 0 = nth d a 0 + nth d off 0) by (intros; apply shifted_nth; lia).
    (* splitting off the last coordinate *)
    assert (Sp : forall l : list Z, length l = D -> l = firstn (D - 1) l ++ [nth (D - 1) l 0]).
    { intros l Ll. apply split_last; lia. }
    assert (Rx : forall l, length l = D -> radix nc l = radix (firstn (D - 1) nc) (firstn (D - 1) l) * nth (D - 1) nc 0 + nth (D - 1) l 0).
    { intros l Ll. rewrite (Sp nc eq_refl) at 1. rewrite (Sp l Ll) at 1. rewrite radix_snoc; [reflexivity|]. assert (LN : length nc = D) by reflexivity. rewrite !firstn_length_le; lia. }
    assert (Nf : forall (l : list Z) d, (d < D - 1)%nat -> nth d (firstn (D - 1) l) 0 = nth d l 0).
    { intros l. generalize (D - 1)%nat. clear. intros m d. revert l m. induction d as [|d IH]; intros [|x l] [|m] H; cbn; auto; try lia. apply IH. lia. }
    set (m := nth (D - 1) nc 0) in *. set (nc' := firstn (D - 1) nc) in *.
    assert (Fi : forall l, in_cells nc l -> in_cells nc' (firstn (D - 1) l)).
    { intros l Il. apply in_cells_nth in Il. destruct Il as [Ll Rl]. fold D in Ll, Rl. apply in_cells_nth.
      assert (Ln' : length nc' = (D - 1)%nat) by (unfold nc'; rewrite firstn_length_le; auto; fold D; lia).
      rewrite Ln'. split; [rewrite firstn_length_le; lia|]. intros d Hd. unfold nc'. rewrite !Nf by auto. apply Rl. lia. }
    split.
    - intros H. destruct (ranged_same b a off j Hj Hb H) as (_ & E0 & E1). destruct H as (Ic & _ & H). fold nc in Ic, H.
      assert (Pre : forall d, (d < D)%nat -> (d = D - 1 -> D = 2)%nat -> nth d (C j) 0 = nth d (shifted a off) 0).
      { destruct H as [H|H].
        - fold D in H. intros d Hd _. assert (Ed : d = 0%nat \/ d = 1%nat) by lia. destruct Ed; subst; auto.
        - destruct (Nat.eq_dec D 2) as [E2|N2].
          { intros d Hd _. assert (Ed : d = 0%nat \/ d = 1%nat) by lia. destruct Ed; subst; auto. }
          assert (Ef : firstn (D - 1) (C j) = firstn (D - 1) (shifted a off)).
          { destruct (Nat.eq_dec D 3) as [E3|N3].
            - apply list_eq_nth; [rewrite !firstn_length_le; lia|]. rewrite firstn_length_le by lia. intros d x Hd.
              rewrite (nth_indep _ x 0), (nth_indep (firstn (D - 1) (shifted a off)) x 0) by (rewrite firstn_length_le; lia). rewrite !Nf by lia.
              assert (Ed : d = 0%nat \/ d = 1%nat) by lia. destruct Ed; subst; auto.
            - apply (radix_inj nc'); auto. rewrite Ek, Eb in H. rewrite (Rx (C j) LC), (Rx _ Ls) in H.
              assert (Ew : nth (D - 1) (shifted a off) 0 = nth (D - 1) a 0) by (rewrite Ns, (Hz N2); lia). rewrite Ew in H.
              pose proof (Hnear (D - 1)%nat ltac:(lia)) as Hl.
              assert (M3 : 3 <= m) by (destruct Hlast; [lia|auto]).
              set (u := radix nc' (firstn (D - 1) (C j))) in *. set (v := radix nc' (firstn (D - 1) (shifted a off))) in *.
              set (z := nth (D - 1) (C j) 0) in *. set (w := nth (D - 1) a 0) in *. clearbody u v z w m. clear -H Hl M3.
              assert (Q : Z.abs ((u - v) * m) <= 2) by lia. destruct (Z.eq_dec u v); auto. exfalso. rewrite Z.abs_mul in Q. assert (Z.abs (u - v) >= 1) by lia. nia. }
          intros d Hd Hd'. assert (d < D - 1)%nat by lia. rewrite <- (Nf (C j)), <- (Nf (shifted a off)) by auto. now rewrite Ef. }
      intros d Hd Hd'. rewrite (Pre d Hd Hd'), Ns. lia.
    - intros H. assert (Es : forall d, (d < D)%nat -> (d = D - 1 -> D = 2)%nat -> nth d (shifted a off) 0 = nth d (C j) 0).
      { intros d Hd Hd'. rewrite Ns, H by auto. lia. }
      assert (Ic : in_cells nc (shifted a off)).
      { apply in_cells_nth. fold D. split; auto. intros d Hd. destruct (Nat.eq_dec D 2) as [E2|N2]; [rewrite Es by auto; auto|].
        destruct (Nat.eq_dec d (D - 1)) as [->|Nd]; [rewrite Ns, (Hz N2), Z.add_0_r; auto|]. rewrite Es by lia. auto. }
      split; [exact Ic|]. split.
      + fold nc. rewrite (key_ds j Hj), Eb. unfold gpu_ds_of_cell. rewrite (Es 0%nat), (Es 1%nat) by lia. unfold nc. cbn [nth]. lia.
      + fold nc. fold D. destruct (Nat.eq_dec D 2) as [E2|N2]; [auto|]. right. rewrite Ek, Eb, (Rx (C j) LC), (Rx _ Ls).
        assert (Ef : firstn (D - 1) (C j) = firstn (D - 1) (shifted a off)).
        { apply list_eq_nth; [rewrite !firstn_length_le; lia|]. rewrite firstn_length_le by lia. intros d x Hd.
          rewrite (nth_indep _ x 0), (nth_indep (firstn (D - 1) (shifted a off)) x 0) by (rewrite firstn_length_le; lia). rewrite !Nf by lia.
          symmetry. apply Es; lia. }
        rewrite Ef, Ns, (Hz N2). pose proof (Hnear (D - 1)%nat ltac:(lia)). lia.
  Qed.

  (** At most one offset reaches a point, next to the cell or not. *)
  Lemma ranged_unique b a off off' j : (j < n)%nat -> 0 <= b -> in_cells nc a -> is_offset D off -> is_offset D off' ->
    ranged n0 n1 rest keys b a off j -> ranged n0 n1 rest keys b a off' j -> off = off'.
  Proof.
    intros Hj Hb Ia (Lo & Hs & Hz) (Lo' & Hs' & Hz') H H'.
    destruct (ranged_same b a off j Hj Hb H) as (_ & E0 & E1). destruct (ranged_same b a off' j Hj Hb H') as (_ & E0' & E1').
    destruct H as (Ic & _ & H), H' as (Ic' & _ & H'). fold nc in Ic, Ic', H, H'. fold D in H, H'.
    pose proof (proj1 (in_cells_nth nc a) Ia) as [La _]. fold D in La.
    assert (D2 : (2 <= D)%nat) by (unfold D, nc; cbn; lia).
    assert (Ns : forall d, nth d (shifted a off) 0 = nth d a 0 + nth d off 0) by (intros; apply shifted_nth; lia).
    assert (Ns' : forall d, nth d (shifted a off') 0 = nth d a 0 + nth d off' 0) by (intros; apply shifted_nth; lia).
    assert (Fin : (forall d, (d < D)%nat -> nth d (shifted a off) 0 = nth d (shifted a off') 0) -> off = off').
    { intros F. apply list_eq_nth; [lia|]. rewrite Lo. intros d x Hd. rewrite (nth_indep _ x 0), (nth_indep off' x 0) by lia.
      specialize (F d Hd). rewrite Ns, Ns' in F. lia. }
    apply Fin. destruct (Nat.eq_dec D 2) as [E2|N2].
    { intros d Hd. assert (Ed : d = 0%nat \/ d = 1%nat) by lia. destruct Ed; subst; congruence. }
    assert (Ew : nth (D - 1) (shifted a off) 0 = nth (D - 1) (shifted a off') 0) by (rewrite Ns, Ns', (Hz N2), (Hz' N2); lia).
    destruct (Nat.eq_dec D 3) as [E3|N3].
    { intros d Hd. assert (Ed : d = 0%nat \/ d = 1%nat \/ d = (D - 1)%nat) by lia. destruct Ed as [->|[->| ->]]; congruence. }
    destruct H as [H|H]; [lia|]. destruct H' as [H'|H']; [lia|].
    assert (M3 : 3 <= nth (D - 1) nc 0) by (destruct Hlast; [lia|auto]).
    assert (Ls : length (shifted a off) = D) by (rewrite shifted_length; lia).
    assert (Ls' : length (shifted a off') = D) by (rewrite shifted_length; lia).
    assert (Sp : forall l : list Z, length l = D -> l = firstn (D - 1) l ++ [nth (D - 1) l 0]).
    { intros l Ll. apply split_last; lia. }
    assert (Rx : forall l, length l = D -> radix nc l = radix (firstn (D - 1) nc) (firstn (D - 1) l) * nth (D - 1) nc 0 + nth (D - 1) l 0).
    { intros l Ll. rewrite (Sp nc eq_refl) at 1. rewrite (Sp l Ll) at 1. rewrite radix_snoc; [reflexivity|]. assert (LN : length nc = D) by reflexivity. rewrite !firstn_length_le; lia. }
    assert (Nf : forall (l : list Z) d, (d < D - 1)%nat -> nth d (firstn (D - 1) l) 0 = nth d l 0).
    { intros l. generalize (D - 1)%nat. clear. intros m d. revert l m. induction d as [|d IH]; intros [|x l] [|m] H; cbn; auto; try lia. apply IH. lia. }
    assert (Fi : forall l, in_cells nc l -> in_cells (firstn (D - 1) nc) (firstn (D - 1) l)).
    { intros l Il. apply in_cells_nth in Il. destruct Il as [Ll Rl]. fold D in Ll, Rl. apply in_cells_nth.
      assert (Ln' : length (firstn (D - 1) nc) = (D - 1)%nat) by (rewrite firstn_length_le; auto; fold D; lia).
      rewrite Ln'. split; [rewrite firstn_length_le; lia|]. intros d Hd. rewrite !Nf by auto. apply Rl. lia. }
    assert (Ef : firstn (D - 1) (shifted a off) = firstn (D - 1) (shifted a off')).
    { apply (radix_inj (firstn (D - 1) nc)); auto. rewrite (Rx _ Ls) in H. rewrite (Rx _ Ls'), <- Ew in H'.
      set (u := radix (firstn (D - 1) nc) (firstn (D - 1) (shifted a off))) in *. set (v := radix (firstn (D - 1) nc) (firstn (D - 1) (shifted a off'))) in *.
      set (m := nth (D - 1) nc 0) in *. set (w := nth (D - 1) (shifted a off) 0) in *. clearbody u v m w. clear -H H' M3.
      assert (Q : Z.abs ((u - v) * m) <= 2) by lia. destruct (Z.eq_dec u v); auto. exfalso. rewrite Z.abs_mul in Q. assert (Z.abs (u - v) >= 1) by lia. nia. }
    intros d Hd. destruct (Nat.eq_dec d (D - 1)) as [->|Nd]; auto. rewrite <- (Nf (shifted a off)), <- (Nf (shifted a off')) by lia. now rewrite Ef.
  Qed.

  (** The offset that reaches [j]. *)
  Definition offset_to (a : list Z) (j : nat) : list Z :=
    map (fun d => if Nat.eqb d (D - 1) && negb (Nat.eqb D 2) then 0 else nth d (C j) 0 - nth d a 0) (seq 0 D).
  Lemma ranged_one b a j : (j < n)%nat -> 0 <= b -> bid j = b -> in_cells nc a ->
    (forall d, (d < D)%nat -> Z.abs (nth d (C j) 0 - nth d a 0) <= 1) ->
    is_offset D (offset_to a j) /\ forall off, is_offset D off -> (ranged n0 n1 rest keys b a off j <-> off = offset_to a j).
  Proof.
    intros Hj Hb Eb Ia Hnear. assert (Lo : length (offset_to a j) = D) by (unfold offset_to; now rewrite map_length, seq_length).
    assert (Nn : forall d, (d < D)%nat -> nth d (offset_to a j) 0 = if Nat.eqb d (D - 1) && negb (Nat.eqb D 2) then 0 else nth d (C j) 0 - nth d a 0).
    { intros d Hd. unfold offset_to. now rewrite QFacts.nth_map_seq. }
    assert (D2 : (2 <= D)%nat) by (unfold D, nc; cbn; lia). split.
    - split; auto. split.
      + intros x Hx. apply In_nth with (d := 0) in Hx. destruct Hx as (d & Hd & <-). rewrite Lo in Hd. rewrite Nn by auto.
        specialize (Hnear d Hd). destruct (_ && _); lia.
      + intros N. rewrite Nn by lia. rewrite Nat.eqb_refl. destruct (Nat.eqb_spec D 2); [contradiction|]. reflexivity.
    - intros off Ho. rewrite (ranged_iff b a off j); auto. destruct Ho as (L & Hs & Hz). split.
      + intros H. apply list_eq_nth; [lia|]. rewrite L. intros d x Hd.
        rewrite (nth_indep _ x 0), (nth_indep (offset_to a j) x 0) by lia. rewrite Nn by auto.
        destruct (Nat.eqb_spec d (D - 1)), (Nat.eqb_spec D 2); cbn [andb negb]; try (apply H; lia). subst d. auto.
      + intros -> d Hd Hd'. rewrite Nn by auto. destruct (Nat.eqb_spec d (D - 1)), (Nat.eqb_spec D 2); cbn [andb negb]; auto. lia.
  Qed.
End Reach.

(** ** Cells of close points *)
Lemma floor_close x y : (Qabs.Qabs (x - y) < 1)%Q -> Z.abs (Qfloor x - Qfloor y) <= 1.
Proof.
  intros H. apply Qabs.Qabs_Qlt_condition in H. destruct H as [H1 H2].
  pose proof (Qfloor_le x). pose proof (Qlt_floor x). pose proof (Qfloor_le y). pose proof (Qlt_floor y).
  assert (A1 : (inject_Z (Qfloor x) < inject_Z (Qfloor y + 1 + 1))%Q) by (rewrite (inject_Z_plus (Qfloor y + 1)); change (inject_Z 1) with 1%Q; lra).
  assert (A2 : (inject_Z (Qfloor y) < inject_Z (Qfloor x + 1 + 1))%Q) by (rewrite (inject_Z_plus (Qfloor x + 1)); change (inject_Z 1) with 1%Q; lra).
  rewrite <- Zlt_Qlt in A1, A2. lia.
Qed.
Lemma clamp_close x y m : Z.abs (x - y) <= 1 -> Z.abs (Z.min (Z.max x 0) m - Z.min (Z.max y 0) m) <= 1.
Proof. lia. Qed.
