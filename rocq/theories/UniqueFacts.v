(** Every schedule of the kernels that find the unique keys. *)
From Coq Require Import List Arith ZArith Lia Bool Permutation.
From Verif Require Import Tensor TensorFacts Grid Cuda CudaFacts MemFacts AddFacts GpuGrid GpuGridFacts GpuScanRuns GpuNeighbors GpuCountFacts SlotFacts GpuStoreFacts LimitFacts GpuSampling.
Import ListNotations.

Definition change (keys : list Z) (i : nat) : Z := if (nth i keys 0 =? nth (S i) keys 0)%Z then 0%Z else 1%Z.

Section CountKeys.
  Variables (keys : list Z) (blocks bs : nat).
  Hypothesis HB : blocks <> 0.
  Hypothesis Hbs : bs <> 0.
  Let n := length keys - 1.
  Let items b t := strided (t + bs * b) (blocks * bs) n.
  Let adds b t := flat_map (fun i => if (nth i keys 0 =? nth (S i) keys 0)%Z then [] else [addc (S b, 0) 1]) (items b t).

  Lemma middle_phase b t : nth 1 (count_keys_thread keys blocks bs b t) [] = adds b t.
  Proof.
    cbn [nth count_keys_thread]. apply flat_map_ext_in'. intros i Hi. apply strided_in in Hi; [|nia]. destruct Hi as [Hi _]. unfold n in Hi.
    unfold rd. rewrite (nth_error_nth' keys i 0%Z), (nth_error_nth' keys (S i) 0%Z) by lia. reflexivity.
  Qed.
  Definition key_thread b t : list (list (action (mem Z))) :=
    [ (if Nat.eqb t 0 then [put (S b, O) 0%Z] else []); adds b t;
      (if Nat.eqb t 0 then [fun m => obind (get (S b, O) m) (fun v => modify (O, O) (fun w => w + v)%Z m)] else []) ].
  Lemma key_thread_eq b t : count_keys_thread keys blocks bs b t = key_thread b t.
  Proof. unfold count_keys_thread, key_thread. repeat (f_equal; [idtac]). f_equal. f_equal. exact (middle_phase b t). Qed.

  Lemma final_adder b : adder (buf (S b)) (buf 0) (fun m => obind (get (S b, O) m) (fun v => modify (O, O) (fun w => w + v)%Z m)).
  Proof.
    exists (fun m => obind (get (S b, 0) m) (fun v => Some (Some ((0, 0), v)))). split; [|split].
    - intros m. destruct (get (S b, 0) m); cbn; auto.
    - intros m m' _ E. rewrite (E (S b, 0)); auto. unfold buf. apply Nat.eqb_refl.
    - intros m x v E. destruct (get (S b, 0) m) as [v0|]; cbn in E; [|discriminate]. injection E as <- <-. reflexivity.
  Qed.
  Lemma bump1_adder b : adder (fun _ => false) (buf (S b)) (addc (S b, 0) 1).
  Proof.
    exists (fun _ => Some (Some ((S b, 0), 1%Z))). split; [reflexivity|]. split; [reflexivity|]. intros m x v E. injection E as <- <-. apply Nat.eqb_refl.
  Qed.
  Lemma key_private b t p a : In a (nth p (key_thread b t) []) -> frame (buf (S b)) (buf (S b)) a \/ adder (buf (S b)) (buf 0) a.
  Proof.
    intros H. destruct p as [|[|[|p]]]; cbn [nth key_thread] in H.
    - destruct (Nat.eqb t 0); [|destruct H]. destruct H as [<-|[]]. left. eapply frame_weaken; [exact (frm_put (S b, 0) 0%Z)|..]; auto;
        intros x Hx; apply in_cells_b_iff in Hx; destruct Hx as [<-|[]]; apply Nat.eqb_refl.
    - left. unfold adds in H. apply in_flat_map in H. destruct H as (i & _ & H). destruct (_ =? _)%Z; [destruct H|]. destruct H as [<-|[]].
      eapply frame_weaken; [exact (adder_frame _ _ _ (bump1_adder b))|..]; auto.
    - destruct (Nat.eqb t 0); [|destruct H]. destruct H as [<-|[]]. right. apply final_adder.
    - destruct p; destruct H.
  Qed.
  Lemma keys_ok : blocks_ok (map (fun b => map (key_thread b) (seq 0 bs)) (seq 0 blocks)).
  Proof.
    split.
    - intros b blk E. rewrite nth_error_map in E. destruct (nth_error (seq 0 blocks) b) as [b'|] eqn:Eb; [|discriminate].
      cbn [option_map] in E. injection E as <-. apply nth_error_seq in Eb. destruct Eb as [-> Hb].
      intros p i j ti tj a a' Hi Hj Ne Ha Ha'. rewrite nth_error_map in Hi, Hj.
      destruct (nth_error (seq 0 bs) i) as [i'|] eqn:Ei; [|discriminate]. destruct (nth_error (seq 0 bs) j) as [j'|] eqn:Ej; [|discriminate].
      apply nth_error_seq in Ei, Ej. destruct Ei as [-> Hi'], Ej as [-> Hj'].
      cbn [option_map] in Hi, Hj. injection Hi as <-. injection Hj as <-.
      destruct p as [|[|[|p]]]; cbn [nth key_thread] in Ha, Ha'.
      + destruct (Nat.eqb_spec i 0), (Nat.eqb_spec j 0); try (now destruct Ha); try (now destruct Ha'). lia.
      + unfold adds in Ha, Ha'. apply in_flat_map in Ha, Ha'. destruct Ha as (x & _ & Ha), Ha' as (x' & _ & Ha').
        destruct (_ =? _)%Z; [destruct Ha|]. destruct (_ =? _)%Z in Ha'; [destruct Ha'|]. destruct Ha as [<-|[]], Ha' as [<-|[]]. apply addc_commute.
      + destruct (Nat.eqb_spec i 0), (Nat.eqb_spec j 0); try (now destruct Ha); try (now destruct Ha'). lia.
      + destruct p; destruct Ha.
    - intros b b' blk blk' a a' E E' Ne Ha Ha'. rewrite nth_error_map in E, E'.
      destruct (nth_error (seq 0 blocks) b) as [c|] eqn:Eb; [|discriminate]. destruct (nth_error (seq 0 blocks) b') as [c'|] eqn:Eb'; [|discriminate].
      apply nth_error_seq in Eb, Eb'. destruct Eb as [-> Hb], Eb' as [-> Hb']. cbn [option_map] in E, E'. injection E as <-. injection E' as <-.
      assert (X : forall c x, In x (block_rem (map (key_thread c) (seq 0 bs))) -> frame (buf (S c)) (buf (S c)) x \/ adder (buf (S c)) (buf 0) x).
      { intros c x Hx. apply in_block_rem in Hx. destruct Hx as (p & i & t & Hi & Hx). rewrite nth_error_map in Hi.
        destruct (nth_error (seq 0 bs) i); [|discriminate]. cbn [option_map] in Hi. injection Hi as <-. eapply key_private; eauto. }
      apply X in Ha, Ha'. assert (NE : forall x, buf (S b) x = true -> buf (S b') x = false).
      { unfold buf. intros x Hx. apply Nat.eqb_eq in Hx. rewrite Hx. apply Nat.eqb_neq. lia. }
      assert (NE' : forall x, buf (S b') x = true -> buf (S b) x = false).
      { unfold buf. intros x Hx. apply Nat.eqb_eq in Hx. rewrite Hx. apply Nat.eqb_neq. lia. }
      assert (N0 : forall c x, buf 0 x = true -> buf (S c) x = false).
      { unfold buf. intros c x Hx. apply Nat.eqb_eq in Hx. rewrite Hx. reflexivity. }
      destruct Ha as [Ha|Ha], Ha' as [Ha'|Ha'].
      + exact (frame_commute _ _ _ _ _ _ Ha Ha' NE NE').
      + apply (frame_commute _ _ _ _ _ _ Ha (adder_frame _ _ _ Ha')); auto.
        intros x Hx. rewrite (NE x Hx). destruct (buf 0 x) eqn:Q; auto. rewrite (N0 b x Q) in Hx. discriminate.
      + apply (frame_commute _ _ _ _ _ _ (adder_frame _ _ _ Ha) Ha'); auto.
        intros x Hx. rewrite (NE' x Hx). destruct (buf 0 x) eqn:Q; auto. rewrite (N0 b' x Q) in Hx. discriminate.
      + apply (adder_commute _ _ _ _ _ _ Ha Ha'); auto.
  Qed.

  Definition kshaped (m : mem Z) : Prop := has m (0, 0) /\ forall b, b < blocks -> has m (S b, 0).
  Lemma kshaped_shape m m' : same_shape m m' -> kshaped m -> kshaped m'.
  Proof. intros Sh [H1 H2]. split; intros; eapply has_shape; eauto. Qed.

  Let all b := flat_map (fun t => items b t) (seq 0 bs).
  Lemma block_canon b : block_rem (map (key_thread b) (seq 0 bs)) =
    put (S b, O) 0%Z :: flat_map (adds b) (seq 0 bs) ++ [fun m => obind (get (S b, O) m) (fun v => modify (O, O) (fun w => w + v)%Z m)].
  Proof.
    rewrite (block_rem_uniform (key_thread b) 3) by reflexivity. cbn [seq flat_map nth key_thread].
    destruct bs as [|k] eqn:Ek; [congruence|]. clear. cbn [seq flat_map Nat.eqb].
    rewrite (flat_map_nil _ (seq 1 k)). 2:{ intros t Ht. apply in_seq in Ht. destruct (Nat.eqb_spec t 0); [lia|auto]. }
    rewrite (flat_map_nil (fun t => if t =? 0 then _ else _) (seq 1 k)). 2:{ intros t Ht. apply in_seq in Ht. destruct (Nat.eqb_spec t 0); [lia|auto]. }
    cbn [app]. reflexivity.
  Qed.
  Lemma adds_run b l m v : get (S b, 0) m = Some v ->
    exists m', run_all (flat_map (fun i => if (nth i keys 0 =? nth (S i) keys 0)%Z then [] else [addc (S b, 0) 1]) l) m = Some m' /\
      same_shape m m' /\ get (S b, 0) m' = Some (v + tot (change keys) l)%Z /\ forall x, x <> (S b, 0) -> get x m' = get x m.
  Proof.
    revert m v. induction l as [|i l IH]; intros m v E.
    - exists m. split; [reflexivity|]. split; [apply same_shape_refl|]. split; auto. rewrite tot_nil, Z.add_0_r. auto.
    - cbn [flat_map]. rewrite run_all_app, tot_cons. unfold change at 1. destruct (_ =? _)%Z.
      + cbn [run_all obind]. destruct (IH m v E) as (m' & E1 & S1 & G1 & O1). exists m'. rewrite G1. repeat split; auto; f_equal; lia.
      + cbn [run_all]. destruct (modify_some (S b, 0) (fun w => w + 1)%Z m (ex_intro _ v E)) as [m1 E1].
        change (addc (S b, 0) 1 m) with (modify (S b, 0) (fun w => w + 1)%Z m). rewrite E1. cbn [obind].
        destruct (modify_inv _ _ _ _ E1) as (S1 & (w & Ew & Ew') & O1). assert (w = v) by congruence. subst w.
        destruct (IH m1 _ Ew') as (m' & E2 & S2 & G2 & O2). exists m'. split; auto. split; [eapply same_shape_trans; eauto|].
        split; [rewrite G2; f_equal; lia|]. intros x Hx. rewrite O2, O1; auto.
  Qed.
  Lemma block_run b m c : b < blocks -> kshaped m -> get (0, 0) m = Some c ->
    exists m', run_all (block_rem (map (key_thread b) (seq 0 bs))) m = Some m' /\ same_shape m m' /\ get (0, 0) m' = Some (c + tot (change keys) (all b))%Z.
  Proof.
    intros Hb Shp Ec. rewrite block_canon. cbn [run_all].
    destruct (put_some m (S b, 0) 0%Z (proj2 Shp b Hb)) as [m1 E1]. rewrite E1. cbn [obind]. destruct (put_inv _ _ _ _ E1) as (S1 & G1 & O1).
    rewrite run_all_app. replace (flat_map (adds b) (seq 0 bs)) with (flat_map (fun i => if (nth i keys 0 =? nth (S i) keys 0)%Z then [] else [addc (S b, 0) 1]) (all b)) by (unfold adds, all; apply flat_map_flat_map).
    destruct (adds_run b (all b) m1 0%Z G1) as (m2 & E2 & S2 & G2 & O2). rewrite E2. cbn [obind run_all]. rewrite G2. cbn [obind].
    assert (E0 : get (0, 0) m2 = Some c) by (rewrite O2, O1 by discriminate; auto).
    destruct (modify_some (0, 0) (fun w => w + (0 + tot (change keys) (all b)))%Z m2 (ex_intro _ c E0)) as [m3 E3]. rewrite E3. cbn [obind].
    destruct (modify_inv _ _ _ _ E3) as (S3 & (w & Ew & Ew') & O3). assert (w = c) by congruence. subst w.
    exists m3. split; auto. split; [eapply same_shape_trans; eauto; eapply same_shape_trans; eauto|]. rewrite Ew'. f_equal. 
  Qed.
  Lemma blocks_run l m c : (forall b, In b l -> b < blocks) -> kshaped m -> get (0, 0) m = Some c ->
    exists m', run_all (flat_map (fun b => block_rem (map (key_thread b) (seq 0 bs))) l) m = Some m' /\ get (0, 0) m' = Some (c + tot (change keys) (flat_map all l))%Z.
  Proof.
    revert m c. induction l as [|b l IH]; intros m c Hl Shp Ec.
    - exists m. split; auto. cbn [flat_map]. rewrite tot_nil, Z.add_0_r. auto.
    - cbn [flat_map]. rewrite run_all_app. destruct (block_run b m c (Hl b (or_introl eq_refl)) Shp Ec) as (m1 & E1 & S1 & G1).
      rewrite E1. cbn [obind]. destruct (IH m1 _ ltac:(intros; apply Hl; right; auto) (kshaped_shape _ _ S1 Shp) G1) as (m2 & E2 & G2).
      exists m2. split; auto. rewrite G2, tot_app. f_equal. lia.
  Qed.
  Lemma all_items : Permutation (flat_map all (seq 0 blocks)) (seq 0 n).
  Proof.
    unfold all, items. erewrite flat_map_ext; [|intros b; rewrite flat_map_concat_map, <- (map_map (fun t => t + bs * b) (fun g => strided g (blocks * bs) n)), <- flat_map_concat_map; reflexivity].
    rewrite <- flat_map_flat_map, seq_blocks. apply strided_all. nia.
  Qed.

  Theorem count_keys_runs temps (P : Z -> Prop) : length temps = blocks -> Forall (fun l => length l = 1) temps ->
    P (tot (change keys) (seq 0 n) + 1)%Z ->
    every_run (fun m => exists c, get (O, O) m = Some c /\ P (c + 1)%Z)
      ([0%Z] :: temps, map (fun b => map (count_keys_thread keys blocks bs b) (seq 0 bs)) (seq 0 blocks)).
  Proof.
    intros Lt Ft HP.
    assert (Shp : kshaped ([0%Z] :: temps)).
    { split; [exists 0%Z; reflexivity|]. intros b Hb. apply has_iff. cbn. destruct (nth_error temps b) as [l|] eqn:E; [|apply nth_error_None in E; lia].
      exists l. split; auto. rewrite Forall_forall in Ft. rewrite (Ft l); auto. eapply nth_error_In; eauto. }
    erewrite map_ext; [|intros b; apply map_ext; intros t; apply key_thread_eq].
    destruct (blocks_run (seq 0 blocks) _ 0%Z ltac:(intros b Hb; apply in_seq in Hb; lia) Shp eq_refl) as (m' & E & G).
    eapply every_run_weaken; [|apply (every_run_all_rem _ _ m' keys_ok)].
    - intros ? ->. eexists. split; [exact G|]. rewrite (tot_perm _ _ _ all_items). exact HP.
    - rewrite <- E. unfold all_rem. f_equal. rewrite flat_map_concat_map, map_map, <- flat_map_concat_map. reflexivity.
  Qed.
End CountKeys.

(** ** One counter for all slots *)
Section OneCounter.
  Context {V : Type}.
  Inductive odesc := OTake (g : nat) | OFill (g : nat) (v : V).
  Definition oact (d : odesc) : action (slots V) := match d with OTake g => slot_take g | OFill g v => slot_fill g v end.
  Definition oprog (g : nat) (th : option V * list V) : list odesc :=
    (match fst th with Some v => [OFill g v] | None => [] end) ++ flat_map (fun v => [OTake g; OFill g v]) (snd th).
  Variable rows : list V.

  Record oinv (A : list V) (sts : list (option V * list V)) (m : slots V) : Prop := {
    ov_cnt : sl_cnt m = Z.of_nat (length A);
    ov_rl : length (sl_reg m) = length sts;
    ov_ol : length (sl_out m) = length rows;
    ov_perm : Permutation (A ++ flat_map snd sts) rows;
    ov_filled : forall k v, nth_error A k = Some v -> nth_error (sl_out m) k = Some v \/
      exists g td, nth_error sts g = Some (Some v, td) /\ nth_error (sl_reg m) g = Some (Z.of_nat k);
    ov_pend : forall g v td, nth_error sts g = Some (Some v, td) -> exists k, nth_error A k = Some v /\ nth_error (sl_reg m) g = Some (Z.of_nat k) }.

  Lemma oinv_le A sts m : oinv A sts m -> length A <= length rows.
  Proof. intros H. pose proof (Permutation_length (ov_perm _ _ _ H)) as L. rewrite app_length in L. lia. Qed.

  Lemma otake_step A sts m g v td : oinv A sts m -> nth_error sts g = Some (None, v :: td) ->
    exists m', slot_take g m = Some m' /\ oinv (A ++ [v]) (upd g (Some v, td) sts) m'.
  Proof.
    intros H Hg. assert (Gl : g < length sts) by (apply nth_error_Some; congruence). assert (Gr : g < length (sl_reg m)) by (rewrite (ov_rl _ _ _ H); auto).
    unfold slot_take. rewrite wr_upd by auto. cbn [obind]. eexists. split; [reflexivity|].
    destruct (todo_split' (@snd (option V) (list V)) sts g _ (Some v, td) Hg) as (l1 & l2 & T1 & T2). cbn [snd] in T1, T2.
    assert (Er : nth_error (upd g (sl_cnt m) (sl_reg m)) g = Some (Z.of_nat (length A))) by (rewrite upd_eq by auto; f_equal; apply H).
    constructor; cbn [sl_cnt sl_reg sl_out].
    - rewrite (ov_cnt _ _ _ H), app_length. cbn. lia.
    - rewrite !upd_length. apply H.
    - apply H.
    - rewrite T2, <- (ov_perm _ _ _ H), T1, <- app_assoc. apply Permutation_app_head. cbn [app]. apply Permutation_middle.
    - intros k w Hk. destruct (Nat.lt_ge_cases k (length A)) as [C|C].
      + rewrite nth_error_app1 in Hk by auto. destruct (ov_filled _ _ _ H k w Hk) as [F|(g' & td' & F & R)]; [left; auto|right].
        exists g', td'. assert (g' <> g) by congruence. rewrite !upd_neq by auto. auto.
      + rewrite nth_error_app2 in Hk by auto. assert (k - length A = 0) by (destruct (k - length A) as [|[|]]; auto; discriminate).
        rewrite H0 in Hk. cbn in Hk. injection Hk as <-. right. exists g, td. rewrite upd_eq by auto. split; auto. rewrite Er. do 2 f_equal. lia.
    - intros g' w td' F. apply upd_inv in F. destruct F as [(-> & F)|(Ne & F)].
      + inversion F; subst. exists (length A). rewrite nth_error_app2, Nat.sub_diag by lia. auto.
      + destruct (ov_pend _ _ _ H _ _ _ F) as (k & Hk & R). exists k. rewrite upd_neq by auto. split; auto.
        rewrite nth_error_app1; auto. apply nth_error_Some. congruence.
  Qed.
  Lemma ofill_step A sts m g v td : oinv A sts m -> nth_error sts g = Some (Some v, td) ->
    exists m', slot_fill g v m = Some m' /\ oinv A (upd g (None, td) sts) m'.
  Proof.
    intros H Hg. destruct (ov_pend _ _ _ H _ _ _ Hg) as (k & Hk & R). pose proof (oinv_le _ _ _ H) as La.
    assert (Hkl : k < length A) by (apply nth_error_Some; congruence). assert (Ho : k < length (sl_out m)) by (rewrite (ov_ol _ _ _ H); lia).
    unfold slot_fill, rd. rewrite R. cbn [obind]. unfold wrz. destruct (Z.ltb_spec (Z.of_nat k) 0); [lia|]. rewrite Nat2Z.id, wr_upd by auto. cbn [obind].
    eexists. split; [reflexivity|]. destruct (todo_split' (@snd (option V) (list V)) sts g _ (None, td) Hg) as (l1 & l2 & T1 & T2). cbn [snd] in T1, T2.
    constructor; cbn [sl_cnt sl_reg sl_out].
    - apply H.
    - rewrite upd_length. apply H.
    - rewrite upd_length. apply H.
    - rewrite T2, <- T1. apply H.
    - intros k' w Hk'. destruct (Nat.eq_dec k' k) as [->|Ne].
      + left. rewrite upd_eq by auto. congruence.
      + rewrite (upd_neq k) by auto. destruct (ov_filled _ _ _ H k' w Hk') as [F|(g' & td' & F & R')]; [left; auto|right].
        exists g', td'. rewrite upd_neq; auto. intros ->. rewrite R in R'. injection R' as R'. lia.
    - intros g' w td' F. apply upd_inv in F. destruct F as [(-> & F)|(Ne & F)]; [discriminate|]. exact (ov_pend _ _ _ H _ _ _ F).
  Qed.

  Theorem slots_one_run (P : list V -> Prop) regs out (pss : list (list (list odesc))) (todo : list (list V)) :
    concat pss = nprogs oprog (map (fun l => (None, l)) todo) -> Permutation (concat todo) rows ->
    length regs = length todo -> length out = length rows -> (forall A, Permutation A rows -> P A) ->
    every_run (fun m => P (sl_out m)) (Slots 0 regs out, desc_kernel oact pss).
  Proof.
    intros Ep Hp Lr Lo HP.
    assert (Et : flat_map snd (map (fun l => (@None V, l)) todo) = concat todo).
    { clear. induction todo as [|l todo IH]; cbn; auto. now rewrite IH. }
    apply (desc_kernel_runs oact (fun m ps => exists A sts, ps = nprogs oprog sts /\ oinv A sts m)).
    - intros m ps g a r (A & sts & -> & H) Hg. rewrite nprogs_nth in Hg. destruct (nth_error sts g) as [[p td]|] eqn:E; [|discriminate].
      assert (Gl : g < length sts) by (apply nth_error_Some; congruence). destruct p as [v|].
      + cbn in Hg. injection Hg as <- <-. destruct (ofill_step A sts m g v td H E) as (m' & Em & H'). exists m'. split; auto.
        exists A, (upd g (None, td) sts). split; auto. rewrite <- nprogs_upd by auto. reflexivity.
      + destruct td as [|v td]; [discriminate|]. cbn in Hg. injection Hg as <- <-. destruct (otake_step A sts m g v td H E) as (m' & Em & H'). exists m'. split; auto.
        exists (A ++ [v]), (upd g (Some v, td) sts). split; auto. rewrite <- nprogs_upd by auto. reflexivity.
    - intros m ps (A & sts & -> & H) F. rewrite Forall_forall in F.
      assert (Z : forall g th, nth_error sts g = Some th -> th = (None, [])).
      { intros g [p td] Hg. assert (Q : nth_error (nprogs oprog sts) g = Some (oprog g (p, td))) by (now rewrite nprogs_nth, Hg).
        apply nth_error_In in Q. apply F in Q. destruct p, td; cbn in Q; auto; discriminate. }
      assert (T0 : flat_map snd sts = []).
      { apply flat_map_nil. intros th Hth. apply In_nth_error in Hth. destruct Hth as (g & Hg). rewrite (Z g th Hg). auto. }
      pose proof (ov_perm _ _ _ H) as PA. rewrite T0, app_nil_r in PA.
      replace (sl_out m) with A; [auto|]. apply nth_error_ext. intros k. destruct (nth_error A k) as [v|] eqn:E.
      + destruct (ov_filled _ _ _ H k v E) as [Q|(g & td & Q & _)]; [auto|]. apply Z in Q. discriminate.
      + symmetry. apply nth_error_None. apply nth_error_None in E. rewrite (ov_ol _ _ _ H), <- (Permutation_length PA). auto.
    - exists [], (map (fun l => (None, l)) todo). split; auto. constructor; cbn [sl_cnt sl_reg sl_out]; auto.
      + now rewrite map_length.
      + cbn [app]. now rewrite Et.
      + intros k v Hk. destruct k; discriminate.
      + intros g v td Hg. rewrite nth_error_map in Hg. destruct (nth_error todo g); discriminate.
  Qed.
End OneCounter.
Arguments odesc : clear implicits.

Lemma thread_descs {M A T} (act : A -> action M) (prog : nat -> T -> list A) (th : nat -> T) blocks bs n body :
  (forall g, g < blocks * bs -> flat_map (body g) (strided g (blocks * bs) n) = map act (prog g (th g))) ->
  exists pss, thread_kernel blocks bs n body = desc_kernel act pss /\ concat pss = nprogs prog (map th (seq 0 (blocks * bs))).
Proof.
  intros H. exists (map (fun b => map (fun t => prog (t + bs * b) (th (t + bs * b))) (seq 0 bs)) (seq 0 blocks)). split.
  - unfold thread_kernel, desc_kernel. rewrite map_map. apply map_ext_in. intros b Hb. apply in_seq in Hb. rewrite map_map. apply map_ext_in. intros t Ht. apply in_seq in Ht.
    unfold flat_thread. f_equal. apply H. nia.
  - transitivity (map (fun g => prog g (th g)) (seq 0 (blocks * bs))).
    + rewrite <- seq_blocks, flat_map_concat_map, concat_map, map_map. f_equal. apply map_ext. intros b. rewrite map_map. reflexivity.
    + apply nth_error_ext. intros g. rewrite nprogs_nth, !nth_error_map. destruct (Nat.lt_ge_cases g (blocks * bs)) as [Hg|Hg].
      * rewrite (nth_error_nth' (seq 0 (blocks * bs)) g 0) by (rewrite seq_length; auto). rewrite seq_nth by auto. reflexivity.
      * replace (nth_error (seq 0 (blocks * bs)) g) with (@None nat) by (symmetry; apply nth_error_None; rewrite seq_length; auto). reflexivity.
Qed.

(** Every schedule stores the selected items, in some order. *)
Definition picks {V} (sel : nat -> option (option V)) (i : nat) : list V := match sel i with Some (Some v) => [v] | _ => [] end.
Theorem slot_kernel_runs {V} (sel : nat -> option (option V)) blocks bs n regs out (P : list V -> Prop) :
  blocks <> 0 -> bs <> 0 -> (forall i, i < n -> sel i <> None) -> length regs = blocks * bs -> length out = length (flat_map (picks sel) (seq 0 n)) ->
  (forall A, Permutation A (flat_map (picks sel) (seq 0 n)) -> P A) ->
  every_run (fun m => P (sl_out m)) (Slots 0 regs out, thread_kernel blocks bs n (slot_body sel)).
Proof.
  intros Hb Hs Hsel Lr Lo HP.
  destruct (thread_descs (@oact V) oprog (fun g => (None, flat_map (picks sel) (strided g (blocks * bs) n))) blocks bs n (slot_body sel)) as (pss & E & Ep).
  { intros g _. unfold oprog. cbn [fst snd app]. assert (X : forall l, (forall i, In i l -> i < n) -> flat_map (slot_body sel g) l =
      map oact (flat_map (fun v => [OTake g; OFill g v]) (flat_map (picks sel) l))).
    { induction l as [|i l IH]; intros Hl; auto. cbn [flat_map]. rewrite flat_map_app, map_app, IH by (intros; apply Hl; right; auto). f_equal.
      unfold slot_body, picks. specialize (Hsel i (Hl i (or_introl eq_refl))). destruct (sel i) as [[v|]|]; [reflexivity|reflexivity|congruence]. }
    apply X. intros i Hi. apply strided_in in Hi; [tauto|]. nia. }
  rewrite E. apply slots_one_run with (rows := flat_map (picks sel) (seq 0 n)) (todo := map (fun g => flat_map (picks sel) (strided g (blocks * bs) n)) (seq 0 (blocks * bs))); auto.
  - rewrite Ep, map_map. reflexivity.
  - rewrite <- flat_map_concat_map, <- flat_map_flat_map. apply Permutation_flat_map. apply strided_all. nia.
  - now rewrite map_length, seq_length.
Qed.

(** ** The first points of the cells *)
Definition firsts_of (keys : list Z) : list nat := flat_map (picks (key_start keys)) (seq 0 (length keys)).
Lemma key_start_some keys i : i < length keys -> key_start keys i <> None.
Proof.
  intros H. destruct i as [|i]; cbn [key_start]; [discriminate|]. unfold rd. rewrite (nth_error_nth' keys (S i) 0%Z), (nth_error_nth' keys i 0%Z) by lia.
  cbn [obind]. destruct (_ =? _)%Z; discriminate.
Qed.
Lemma firsts_in keys i : In i (firsts_of keys) <-> i < length keys /\ (i = 0 \/ nth i keys 0%Z <> nth (i - 1) keys 0%Z).
Proof.
  unfold firsts_of. rewrite in_flat_map. split.
  - intros (j & Hj & H). apply in_seq in Hj. unfold picks in H. destruct j as [|j]; cbn [key_start] in H.
    + destruct H as [<-|[]]. split; [lia|auto].
    + unfold rd in H. rewrite (nth_error_nth' keys (S j) 0%Z), (nth_error_nth' keys j 0%Z) in H by lia. cbn [obind] in H.
      destruct (Z.eqb_spec (nth (S j) keys 0%Z) (nth j keys 0%Z)) as [E|E]; [destruct H|]. destruct H as [<-|[]]. split; [lia|]. right. cbn [Nat.sub]. now rewrite Nat.sub_0_r.
  - intros (Hi & H). exists i. split; [apply in_seq; lia|]. unfold picks. destruct i as [|i]; cbn [key_start]; [left; auto|].
    unfold rd. rewrite (nth_error_nth' keys (S i) 0%Z), (nth_error_nth' keys i 0%Z) by lia. cbn [obind]. destruct H as [H|H]; [discriminate|].
    cbn [Nat.sub] in H. rewrite Nat.sub_0_r in H. destruct (Z.eqb_spec (nth (S i) keys 0%Z) (nth i keys 0%Z)); [congruence|]. left; auto.
Qed.
Lemma firsts_NoDup keys : NoDup (firsts_of keys).
Proof.
  unfold firsts_of. apply nodup_flat_map; [apply seq_NoDup| |].
  - intros i _. unfold picks. destruct (key_start keys i) as [[v|]|]; repeat constructor. intros [].
  - assert (X : forall i x, In x (picks (key_start keys) i) -> x = i).
    { intros i x H. unfold picks in H. destruct i as [|i]; cbn [key_start] in H; [destruct H as [<-|[]]; auto|].
      destruct (rd (S i) keys); cbn [obind] in H; [|destruct H]. destruct (rd i keys); cbn [obind] in H; [|destruct H]. destruct (_ =? _)%Z; [destruct H|].
      destruct H as [<-|[]]; auto. }
    intros a b x _ _ Ha Hb. rewrite <- (X a x Ha). now apply X.
Qed.
Lemma firsts_count keys : keys <> [] -> Z.of_nat (length (firsts_of keys)) = (tot (change keys) (seq 0 (length keys - 1)) + 1)%Z.
Proof.
  intros Hne. unfold firsts_of. destruct (length keys) as [|n] eqn:L; [destruct keys; [congruence|discriminate]|].
  replace (S n - 1) with n by lia. assert (X : forall k, k <= n -> Z.of_nat (length (flat_map (picks (key_start keys)) (seq 0 (S k)))) = (tot (change keys) (seq 0 k) + 1)%Z); [|apply X; auto].
  induction k as [|k IH]; intros Hk; [reflexivity|]. rewrite (seq_S (S k) 0), flat_map_app, app_length, Nat2Z.inj_add, IH by lia.
  rewrite seq_S, tot_app, tot_cons, tot_nil. cbn [Nat.add flat_map]. rewrite app_nil_r. unfold picks, change. cbn [key_start]. unfold rd.
  rewrite (nth_error_nth' keys (S k) 0%Z), (nth_error_nth' keys k 0%Z) by lia. cbn [obind].
  destruct (Z.eqb_spec (nth (S k) keys 0%Z) (nth k keys 0%Z)) as [E|E], (Z.eqb_spec (nth k keys 0%Z) (nth (S k) keys 0%Z)) as [E'|E']; try congruence; cbn [length]; lia.
Qed.

Lemma unique_keys_ok active warp keys active' (P : list nat -> Prop) : active <> 0 -> active' <> 0 -> warp <> 0 -> keys <> [] ->
  (forall A, Permutation A (firsts_of keys) -> P A) ->
  count_unique_keys_gpu active warp keys (fun num => store_unique_keys_gpu active' warp keys num P).
Proof.
  intros Ha Ha' Hw Hk HP. assert (Ln : length keys <> 0) by (destruct keys; cbn; congruence).
  unfold count_unique_keys_gpu. cbv zeta. set (bs := 4 * warp). assert (Hbs : bs <> 0) by (unfold bs; lia).
  assert (Hb : forall a, a <> 0 -> num_blocks a bs (length keys) <> 0) by (intros; apply num_blocks_pos; auto).
  intros temps Lt Ft. split; [apply Hb; auto|].
  apply (count_keys_runs keys _ bs (Hb active Ha) Hbs temps (fun num => store_unique_keys_gpu active' warp keys num P) Lt Ft).
  unfold store_unique_keys_gpu. cbv zeta. fold bs. intros regs out Lr Lo. split; [apply Hb; auto|].
  apply slot_kernel_runs; auto; [intros; now apply key_start_some|].
  rewrite Lo. rewrite <- firsts_count by auto. now rewrite Nat2Z.id.
Qed.
