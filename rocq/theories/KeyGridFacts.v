(** The sorted keys, the access structure and the search for any assignment of
    cells to points: the part of the grid proofs that does not depend on how
    the cells are computed. *)
From Coq Require Import List Arith ZArith QArith Lia Bool Permutation Sorted.
From Verif Require Import Tensor TensorFacts Spec PointCloud QFacts Grid SpecGrid GridFacts Neighbors SpecNeighbors
  NeighborFacts Float FloatGrid.
Import ListNotations.
Local Open Scope Z_scope.

Lemma digits q q' r r' m : 0 <= r < m -> 0 <= r' < m -> q * m + r = q' * m + r' -> q = q' /\ r = r'.
Proof. intros. assert (q = q') by nia. split; [assumption|]. subst. lia. Qed.

Section KeyGrid.
  Context (D : nat) (rows : list point) (ids : list nat) (B : nat) (cellz : nat -> nat -> Z) (g : grid).
  Let N := length ids.
  Let nc := gnc g.
  Hypothesis Hrows : length rows = N.
  Hypothesis Hids : Forall (fun b => (b < B)%nat) ids.
  Hypothesis Hncl : length nc = D.
  Hypothesis Hcell : forall i d, (i < N)%nat -> (d < D)%nat -> 0 <= cellz i d < nth d nc 0.
  Hypothesis Hkeys : gkeys g = map (fun i => key_of nc (nth i ids 0%nat) (map (cellz i) (seq 0 D))) (seq 0 N).
  Hypothesis Hsidx : gsidx g = argsort_desc (gkeys g).
  Hypothesis Hskeys : gskeys g = map (fun i => nth i (gkeys g) 0) (gsidx g).
  Hypothesis Hspts : gspts g = map (fun i => nth i rows []) (gsidx g).
  Hypothesis Hsbids : gsbids g = map (fun i => nth i ids 0%nat) (gsidx g).
  Hypothesis Hncp : forall d, (d < D)%nat -> 1 <= nth d nc 0.
  Hypothesis Hover : Z.of_nat B * zprod nc <= 2 ^ 31.

  Lemma k_id_lt i : (i < N)%nat -> (nth i ids 0 < B)%nat.
  Proof. intros H. pose proof Hids as HF. rewrite Forall_forall in HF. apply HF, nth_In, H. Qed.
  Lemma k_nc_pos x : In x nc -> 1 <= x.
  Proof. intros H. apply (In_nth _ _ 0) in H as (d & Hd & <-). apply Hncp. now rewrite <- Hncl. Qed.
  Lemma k_keys_length : length (gkeys g) = N.
  Proof. rewrite Hkeys, map_length, seq_length. reflexivity. Qed.
  Lemma k_sidx_perm : Permutation (gsidx g) (seq 0 N).
  Proof. rewrite Hsidx. unfold argsort_desc. rewrite <- k_keys_length. apply argsort_perm. Qed.
  Lemma k_sidx_length : length (gsidx g) = N.
  Proof. rewrite (Permutation_length k_sidx_perm). apply seq_length. Qed.
  Lemma k_sidx_lt j : (j < N)%nat -> (nth j (gsidx g) 0 < N)%nat.
  Proof.
    intros H. assert (Hin : In (nth j (gsidx g) 0%nat) (gsidx g)) by (apply nth_In; rewrite k_sidx_length; exact H).
    apply (Permutation_in _ k_sidx_perm) in Hin. apply in_seq in Hin. lia.
  Qed.
  Lemma k_skeys_length : length (gskeys g) = N.
  Proof. rewrite Hskeys, map_length. apply k_sidx_length. Qed.
  Lemma k_map_sidx {A} (f : nat -> A) (e : A) j : (j < N)%nat ->
    nth j (map f (gsidx g)) e = f (nth j (gsidx g) 0%nat).
  Proof.
    intros H. rewrite (nth_indep _ e (f 0%nat)) by (rewrite map_length, k_sidx_length; exact H).
    now rewrite map_nth.
  Qed.
  Lemma k_skeys_nth j : (j < N)%nat -> nth j (gskeys g) 0 = nth (nth j (gsidx g) 0%nat) (gkeys g) 0.
  Proof. intros H. rewrite Hskeys. now rewrite k_map_sidx. Qed.
  Lemma k_spts_nth j : (j < N)%nat -> nth j (gspts g) [] = nth (nth j (gsidx g) 0%nat) rows [].
  Proof. intros H. rewrite Hspts. now rewrite k_map_sidx. Qed.
  Lemma k_sbids_nth j : (j < N)%nat -> nth j (gsbids g) 0%nat = nth (nth j (gsidx g) 0%nat) ids 0%nat.
  Proof. intros H. rewrite Hsbids. now rewrite k_map_sidx. Qed.
  Lemma k_sidx_sorted j k : (j < k)%nat -> (k < N)%nat -> nth k (gskeys g) 0 <= nth j (gskeys g) 0.
  Proof.
    intros Hjk Hk. rewrite !k_skeys_nth by lia. rewrite Hsidx.
    pose proof (argsort_sorted (fun a b => b <=? a) 0 desc_total desc_trans (gkeys g)) as HS.
    assert (Hk' : (k < length (argsort_desc (gkeys g)))%nat)
      by (unfold argsort_desc; rewrite argsort_length, k_keys_length; exact Hk).
    pose proof (StronglySorted_nth _ _ j k 0%nat HS Hjk Hk') as [H1 H2].
    fold (argsort_desc (gkeys g)) in *. now apply Z.leb_le in H1.
  Qed.

  Lemma k_cells_in i : (i < N)%nat -> in_cells nc (map (cellz i) (seq 0 D)).
  Proof.
    intros Hi. assert (H : forall k n, (k + n)%nat = D -> forall l, length l = n ->
      (forall m, (m < n)%nat -> nth m l 0 = nth (k + m) nc 0) ->
      in_cells l (map (cellz i) (seq k n))).
    { intros k n. revert k. induction n as [|n IH]; intros k Hk l Hl Hn.
      - destruct l; [constructor|discriminate].
      - destruct l as [|x l]; [discriminate|]. cbn [seq map]. constructor.
        + pose proof (Hn 0%nat ltac:(lia)) as E. cbn in E. rewrite E, Nat.add_0_r.
          apply Hcell; [exact Hi|lia].
        + apply IH; [lia|now inversion Hl|]. intros m Hm. replace (S k + m)%nat with (k + S m)%nat by lia.
          rewrite <- (Hn (S m)) by lia. reflexivity. }
    apply (H 0%nat D); [lia|exact Hncl|reflexivity].
  Qed.
  Lemma k_key_value i : (i < N)%nat ->
    nth i (gkeys g) 0 = Z.of_nat (nth i ids 0%nat) * zprod nc + radix nc (map (cellz i) (seq 0 D)).
  Proof.
    intros Hi. rewrite Hkeys. rewrite nth_map_seq by exact Hi.
    rewrite key_of_unwrapped by (rewrite map_length, seq_length; now rewrite Hncl).
    apply wrap32_id. pose proof (radix_range nc _ (k_cells_in i Hi)). pose proof (k_id_lt i Hi).
    pose proof (zprod_pos nc k_nc_pos). nia.
  Qed.
  Lemma k_key_range i : (i < N)%nat -> 0 <= nth i (gkeys g) 0 < Z.of_nat B * zprod nc.
  Proof.
    intros Hi. rewrite (k_key_value i Hi). pose proof (radix_range nc _ (k_cells_in i Hi)).
    pose proof (k_id_lt i Hi). pose proof (zprod_pos nc k_nc_pos). nia.
  Qed.
  Lemma k_key_inj i j : (i < N)%nat -> (j < N)%nat ->
    (nth i (gkeys g) 0 = nth j (gkeys g) 0 <->
     nth i ids 0%nat = nth j ids 0%nat /\ forall d, (d < D)%nat -> cellz i d = cellz j d).
  Proof.
    intros Hi Hj. rewrite (k_key_value i Hi), (k_key_value j Hj).
    pose proof (radix_range nc _ (k_cells_in i Hi)). pose proof (radix_range nc _ (k_cells_in j Hj)). split.
    - intros E. assert (Hb : nth i ids 0%nat = nth j ids 0%nat) by nia. split; [exact Hb|].
      rewrite Hb in E. assert (Hr : radix nc (map (cellz i) (seq 0 D)) = radix nc (map (cellz j) (seq 0 D))) by lia.
      apply radix_inj in Hr; [|now apply k_cells_in|now apply k_cells_in].
      intros d Hd. rewrite <- (nth_map_seq (cellz i) D d 0 Hd), <- (nth_map_seq (cellz j) D d 0 Hd). now rewrite Hr.
    - intros [-> Hc]. do 2 f_equal. apply map_ext_in. intros d Hd. apply in_seq in Hd. apply Hc. lia.
  Qed.

  Hypothesis HD : (2 <= D)%nat.
  Hypothesis HN : Z.of_nat N < int32_max.
  Let n0 := nth 0 nc 0.
  Let n1 := nth 1 nc 0.
  Definition kcell (j d : nat) : Z := cellz (nth j (gsidx g) 0%nat) d.

  Lemma k_ds_ok dev :
    exists ds, build_grid_ds dev (gskeys g) (gnc g) B = Ok ds /\ dsB ds = B /\
      forall b x y, (b < B)%nat ->
       (0 <= x < n0 -> 0 <= y < n1 ->
        exists s e, ds_lookup ds b x y = Some (s, e) /\ 0 <= s <= e /\ e <= Z.of_nat N /\
          forall j, (j < N)%nat ->
            (s <= Z.of_nat j < e <-> nth j (gsbids g) 0%nat = b /\ kcell j 0 = x /\ kcell j 1 = y)) /\
       (~ (0 <= x < n0 /\ 0 <= y < n1) -> ds_lookup ds b x y = None).
  Proof.
    assert (En : exists m0 m1 rest, nc = m0 :: m1 :: rest).
    { clear - Hncl HD. destruct nc as [|m0 [|m1 rest]]; [cbn in Hncl; lia|cbn in Hncl; lia|eauto]. }
    destruct En as (m0 & m1 & rest & En).
    pose proof (zprod_pos nc k_nc_pos) as Hzp.
    assert (P0 : 1 <= m0) by (apply k_nc_pos; rewrite En; now left).
    assert (P1 : 1 <= m1) by (apply k_nc_pos; rewrite En; right; now left).
    assert (PR : 1 <= zprod rest) by (apply zprod_pos; intros x Hx; apply k_nc_pos; rewrite En; right; now right).
    assert (Hz : zprod nc = m0 * (m1 * zprod rest)) by (rewrite En; reflexivity).
    assert (Hov : Z.of_nat B * (m0 * (m1 * zprod rest)) <= 2 ^ 31) by (rewrite <- Hz; exact Hover).
    destruct (build_grid_ds_spec dev (gskeys g) m0 m1 rest B P0 P1 PR Hov) as (ds & E & EB & E0 & E1 & H).
    - rewrite k_skeys_length. exact HN.
    - intros j Hj. rewrite k_skeys_length in Hj. rewrite k_skeys_nth by exact Hj.
      pose proof (k_key_range _ (k_sidx_lt j Hj)) as K. rewrite Hz in K. exact K.
    - intros j k Hjk Hk. rewrite k_skeys_length in Hk. now apply k_sidx_sorted.
    - exists ds. fold nc. rewrite En. split; [exact E|]. split; [exact EB|].
      assert (N0 : n0 = m0) by (unfold n0; rewrite En; reflexivity).
      assert (N1 : n1 = m1) by (unfold n1; rewrite En; reflexivity).
      intros b x y Hb. split.
      + intros Hx Hy. rewrite N0 in Hx. rewrite N1 in Hy. destruct (H b x y Hb Hx Hy) as (s & e & L & Hs & He & Hj).
        rewrite k_skeys_length in *. exists s, e. split; [exact L|]. split; [exact Hs|]. split; [exact He|].
        intros j Hjn. rewrite (Hj j Hjn). rewrite k_skeys_nth by exact Hjn.
        pose proof (k_sidx_lt j Hjn) as Hsj. rewrite (k_key_value _ Hsj). rewrite Hz.
        rewrite (k_sbids_nth j Hjn). unfold kcell. set (i := nth j (gsidx g) 0%nat) in *.
        pose proof (k_cells_in i Hsj) as Hin. pose proof (k_id_lt i Hsj) as Hib.
        pose proof (Hcell i 0%nat Hsj ltac:(lia)) as C0. pose proof (Hcell i 1%nat Hsj ltac:(lia)) as C1.
        rewrite En in Hin, C0, C1 |- *. cbn [nth] in C0, C1. replace D with (S (S (D - 2))) in Hin |- * by lia.
        set (D' := (D - 2)%nat) in *. cbn [seq map] in Hin |- *. cbn [radix].
        rewrite zprod_cons.
        assert (Hin2 : in_cells rest (map (cellz i) (seq 2 D'))) by (inversion Hin as [|? ? ? ? _ Hin1]; inversion Hin1; assumption).
        pose proof (radix_range _ _ Hin2) as RR. set (rr := radix rest _) in *. set (R := zprod rest) in *.
        set (x0 := cellz i 0%nat) in *. set (y0 := cellz i 1%nat) in *. set (b0 := nth i ids 0%nat) in *.
        assert (Ed : (Z.of_nat b0 * (m0 * (m1 * R)) + (x0 * (m1 * R) + (y0 * R + rr))) / R = (Z.of_nat b0 * m0 + x0) * m1 + y0).
        { symmetry. apply (Z.div_unique _ _ _ rr); [left; lia|]. ring. }
        rewrite Ed. split; [intros EE|intros (-> & -> & ->); reflexivity].
        destruct (digits (Z.of_nat b0 * m0 + x0) (Z.of_nat b * m0 + x) y0 y m1 C1 Hy EE) as [E2 ->].
        destruct (digits (Z.of_nat b0) (Z.of_nat b) x0 x m0 C0 Hx E2) as [E3 ->]. split; [lia|auto].
      + intros Hn. unfold ds_lookup. rewrite EB, E0, E1. rewrite N0, N1 in Hn.
        destruct (Nat.ltb_spec b B); [|reflexivity].
        destruct (Z.leb_spec 0 x); [|reflexivity].
        destruct (Z.ltb_spec x m0); [|reflexivity].
        destruct (Z.leb_spec 0 y); [|reflexivity].
        destruct (Z.ltb_spec y m1); [|reflexivity].
        exfalso. apply Hn. auto.
  Qed.

  Context (test : point -> point -> bool) (cc : point * nat -> Z * Z).
  Definition kclose (cb : point * nat) (j : nat) : bool :=
    test (nth j (gspts g) []) (fst cb) && Nat.eqb (nth j (gsbids g) 0%nat) (snd cb).
  Definition kentry (ds : grid_ds) (cb : point * nat) (o : Z * Z) : Z * Z :=
    match ds_lookup ds (snd cb) (clip n0 (clip n0 (fst (cc cb)) + fst o)) (clip n1 (clip n1 (snd (cc cb)) + snd o)) with
    | Some r => r | None => (0, 0) end.
  Definition kblk (ds : grid_ds) (cb : point * nat) : list nat :=
    filter (kclose cb) (zrange (fold_right Z.min int32_max (map fst (map (kentry ds cb) nb_offsets)))
                               (fold_right Z.max int32_min (map snd (map (kentry ds cb) nb_offsets)))).

  Lemma k_loop ds i cur l : dsB ds = B -> Forall (fun cb => (snd cb < B)%nat) l ->
    nb_loop32 GPU test g ds n0 n1 i cur (map (fun cb => (cb, (clip n0 (fst (cc cb)), clip n1 (snd (cc cb))))) l) =
    Ok (cum_ends cur (map (kblk ds) l), tagged i (map (kblk ds) l)).
  Proof.
    intros EB. revert i cur; induction l as [|[c b] l IH]; intros i cur H; [reflexivity|].
    apply Forall_cons_iff in H as [Hb H]. cbn [fst snd] in Hb. cbn [map nb_loop32 fst snd].
    rewrite EB. replace (Nat.ltb b B) with true by (symmetry; now apply Nat.ltb_lt). cbn [negb].
    rewrite (mapM_ok _ (kentry ds (c, b))) by (intros o Ho; unfold ds_gather, kentry; cbn [fst snd]; destruct (ds_lookup _ _ _ _); reflexivity).
    cbn [bind]. fold (kclose (c, b)). change (fun j => test (nth j (gspts g) []) c && Nat.eqb (nth j (gsbids g) 0%nat) b) with (kclose (c, b)).
    fold (kblk ds (c, b)). rewrite (IH (S i) _ H). reflexivity.
  Qed.

  Lemma k_blk_ok ds : build_grid_ds GPU (gskeys g) (gnc g) B = Ok ds -> forall cb, (snd cb < B)%nat ->
    NoDup (kblk ds cb) /\
    (forall j, In j (kblk ds cb) -> (j < N)%nat /\ test (nth j (gspts g) []) (fst cb) = true /\ nth j (gsbids g) 0%nat = snd cb) /\
    (forall j, (j < N)%nat -> test (nth j (gspts g) []) (fst cb) = true -> nth j (gsbids g) 0%nat = snd cb ->
       -1 <= kcell j 0 - fst (cc cb) <= 1 -> -1 <= kcell j 1 - snd (cc cb) <= 1 -> In j (kblk ds cb)).
  Proof.
    intros Eds cb Hb. destruct (k_ds_ok GPU) as (ds' & E' & EB & Hds). rewrite Eds in E'. inversion E'; subst ds'. clear E'.
    assert (Hent : forall o, 0 <= fst (kentry ds cb o) <= snd (kentry ds cb o) /\ snd (kentry ds cb o) <= Z.of_nat N).
    { intros o. unfold kentry.
      destruct (Hds (snd cb) (clip n0 (clip n0 (fst (cc cb)) + fst o)) (clip n1 (clip n1 (snd (cc cb)) + snd o)) Hb) as [H1 H2].
      set (x := clip n0 _) in *. set (y := clip n1 _) in *.
      destruct (Z_le_dec 0 x); [destruct (Z_lt_dec x n0); [destruct (Z_le_dec 0 y); [destruct (Z_lt_dec y n1)|]|]|].
      1:{ destruct H1 as (s & e & -> & Hs & He & _); auto. }
      all: rewrite H2 by lia; cbn; lia. }
    unfold kblk. set (W := map (kentry ds cb) nb_offsets).
    pose proof (fold_min_spec int32_max (map fst W)) as (M1 & M2 & M3).
    pose proof (fold_max_spec int32_min (map snd W)) as (X1 & X2 & X3).
    set (s := fold_right Z.min int32_max (map fst W)) in *. set (e := fold_right Z.max int32_min (map snd W)) in *.
    assert (Hall : forall w, In w W -> 0 <= fst w <= snd w /\ snd w <= Z.of_nat N).
    { intros w Hw. apply in_map_iff in Hw as (o & <- & _). apply Hent. }
    assert (Hs : 0 <= s).
    { destruct M3 as [-> |Hin]; [unfold int32_max; lia|]. apply in_map_iff in Hin as (w & <- & Hw). apply Hall in Hw. lia. }
    assert (He : e <= Z.of_nat N).
    { destruct X3 as [-> |Hin]; [unfold int32_min; lia|]. apply in_map_iff in Hin as (w & <- & Hw). apply Hall in Hw. lia. }
    split; [apply NoDup_filter, seq_NoDup|]. split.
    - intros j Hj. apply filter_In in Hj as [Hj Hc]. unfold zrange in Hj. apply in_seq in Hj. unfold kclose in Hc.
      apply andb_true_iff in Hc as [T1 T2]. apply Nat.eqb_eq in T2. split; [lia|auto].
    - intros j Hj T1 T2 A0 A1. apply filter_In. split; [|unfold kclose; rewrite T1, T2; cbn; apply Nat.eqb_refl].
      pose proof (k_sidx_lt j Hj) as Hsj.
      pose proof (Hcell _ 0%nat Hsj ltac:(lia)) as R0. pose proof (Hcell _ 1%nat Hsj ltac:(lia)) as R1.
      fold (kcell j 0) n0 in R0. fold (kcell j 1) n1 in R1.
      set (s0 := kcell j 0) in *. set (s1 := kcell j 1) in *.
      set (o := (s0 - clip n0 (fst (cc cb)), s1 - clip n1 (snd (cc cb)))).
      assert (B0 : -1 <= s0 - clip n0 (fst (cc cb)) <= 1) by (unfold clip; lia).
      assert (B1 : -1 <= s1 - clip n1 (snd (cc cb)) <= 1) by (unfold clip; lia).
      assert (Ho : In o nb_offsets).
      { unfold o. assert (C : forall z, -1 <= z <= 1 -> z = -1 \/ z = 0 \/ z = 1) by (intros; lia).
        destruct (C _ B0) as [-> | [-> | ->]]; destruct (C _ B1) as [-> | [-> | ->]]; cbn; tauto. }
      assert (Ee : kentry ds cb o = match ds_lookup ds (snd cb) s0 s1 with Some r => r | None => (0, 0) end).
      { unfold kentry, o. cbn [fst snd]. replace (clip n0 (clip n0 (fst (cc cb)) + (s0 - clip n0 (fst (cc cb))))) with s0 by (unfold clip at 1; lia).
        replace (clip n1 (clip n1 (snd (cc cb)) + (s1 - clip n1 (snd (cc cb))))) with s1 by (unfold clip at 1; lia). reflexivity. }
      destruct (Hds (snd cb) s0 s1 Hb) as [HS _]. destruct (HS R0 R1) as (s' & e' & El & _ & _ & Hj').
      rewrite El in Ee. assert (Hin : In (s', e') W) by (rewrite <- Ee; apply in_map; exact Ho).
      pose proof (M1 _ (in_map fst _ _ Hin)) as Q1. pose proof (X1 _ (in_map snd _ _ Hin)) as Q2. cbn [fst snd] in Q1, Q2.
      assert (s' <= Z.of_nat j < e') by (apply Hj'; auto). unfold zrange. apply in_seq. lia.
  Qed.
End KeyGrid.
