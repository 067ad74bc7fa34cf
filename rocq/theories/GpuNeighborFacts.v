(** The two passes of the CUDA neighbor search. *)
From Coq Require Import List Arith ZArith NArith QArith Lia Bool Permutation.
From Verif Require Import Tensor TensorFacts PointCloud QFacts Grid GridFacts Neighbors NeighborFacts Cuda CudaFacts AddFacts GpuGrid GpuGridFacts
  GpuScan SpecGpu GpuScanProofs GpuNeighbors GpuCountFacts SlotFacts GpuStoreFacts LimitFacts.
Import ListNotations.
Local Open Scope nat_scope.

Lemma flat_map_perm {A B} (f g : A -> list B) l : (forall x, In x l -> Permutation (f x) (g x)) -> Permutation (flat_map f l) (flat_map g l).
Proof.
  induction l as [|x l IH]; intros H; cbn; auto. apply Permutation_app; [apply H; left; auto|]. apply IH. intros; apply H; right; auto.
Qed.
Lemma flat_map_nth {A B} (f : A -> list B) l d : flat_map f l = flat_map (fun o => f (nth o l d)) (seq 0 (length l)).
Proof.
  induction l as [|x l IH]; auto. cbn [length seq flat_map nth]. f_equal. rewrite IH, <- seq_shift, !flat_map_concat_map, map_map. reflexivity.
Qed.

Lemma last_indep {A} (y : A) l d d' : last (y :: l) d = last (y :: l) d'.
Proof. revert y. induction l as [|z l IH]; intros y; auto. apply (IH z). Qed.
Lemma last_cons {A} (x : A) l d : last (x :: l) d = last l x.
Proof. destruct l as [|y l]; auto. apply (last_indep y l). Qed.

(** ** Keys of points *)
Lemma compute_keys_op_ok active warp D pts ids sl nc inv (P : list Z -> Prop) :
  active <> 0 -> warp <> 0 -> supported D -> ids <> [] -> length ids = length pts -> Forall (fun lo => length lo = D) sl ->
  length nc = D -> length inv = D -> Forall (fun b => b < length sl) ids ->
  P (map (fun i => gpu_key nc (gpu_cell D (nth (nth i ids 0) sl []) inv nc (nth i pts [])) (nth i ids 0)) (seq 0 (length pts))) ->
  compute_keys_op active warp D pts ids sl nc inv P.
Proof.
  intros Ha Hw HD Hne HL Hsl Hnc Hinv Hids HP. unfold compute_keys_op. do 5 (split; [auto|]). intros out Lo. cbv zeta.
  assert (Hn : length pts <> 0) by (destruct ids; cbn in HL; [congruence|lia]).
  split; [apply num_blocks_pos; lia|]. eapply every_run_weaken; [|eapply write_body_runs; auto].
  - intros m E. rewrite E. exact HP.
  - apply num_blocks_pos; lia.
  - lia.
  - intros i Hi. eexists. split; [reflexivity|]. intros m. cbv beta. unfold rd.
    assert (Hb : nth i ids 0 < length sl) by (rewrite Forall_forall in Hids; apply Hids, nth_In; lia).
    rewrite (nth_error_nth' ids i 0) by lia. cbn [obind]. rewrite (nth_error_nth' pts i []) by lia. cbn [obind].
    rewrite (nth_error_nth' sl (nth i ids 0) []) by auto. reflexivity.
Qed.

Section Search.
  Variables (active : kernel -> nat) (warp D : nat) (time : N).
  Variables (samples pts : list point) (keys nc : list Z) (ds : list (Z * Z)) (near : point -> point -> bool) (skeys : list Z).
  Let N := length samples.
  Let n := length pts.
  Hypothesis Ha : forall k, active k <> 0.
  Hypothesis Hw : warp <> 0.
  Hypothesis HN : N <> 0.
  Hypothesis Lk : length skeys = N.

  (** The range of sample [s] and offset [off] and the points found in it. *)
  Definition range_of (s : nat) (off : list Z) : Z * Z :=
    match search_range D nc keys ds off (nth s skeys 0%Z) with Some (Some r) => r | _ => (0, 0)%Z end.
  Definition in_range (r : Z * Z) (j : nat) : bool := (fst r <=? Z.of_nat j)%Z && (Z.of_nat j <? snd r)%Z.
  Definition found_in (s : nat) (off : list Z) : list nat :=
    filter (fun j => in_range (range_of s off) j && near (nth s samples []) (nth j pts [])) (seq 0 n).
  Definition good (off : list Z) : Prop := forall s, s < N ->
    search_range D nc keys ds off (nth s skeys 0%Z) <> None /\ (0 <= fst (range_of s off))%Z /\ (snd (range_of s off) <= Z.of_nat n)%Z.
  Definition group (offs : list (list Z)) : Prop := length offs = 9 /\ Forall good offs.
  Definition ranges_of (offs : list (list Z)) : list (Z * Z) := map (fun i => range_of (i / 9) (nth (i mod 9) offs [])) (seq 0 (N * 9)).

  Lemma find_ranges_ok offs (P : list (Z * Z) -> Prop) : group offs -> P (ranges_of offs) ->
    find_ranges_gpu (active KRanges) warp D nc keys ds offs skeys P.
  Proof.
    intros [L9 G] HP. unfold find_ranges_gpu. rewrite Lk, L9. split; [apply num_blocks_pos; auto; lia|].
    eapply every_run_weaken; [|eapply (opt_body_runs _ (fun i => match search_range D nc keys ds (nth (i mod 9) offs []) (nth (i / 9) skeys 0%Z) with Some o => o | None => None end) (0, 0)%Z)].
    - intros m ->. replace (map _ _) with (ranges_of offs); auto. apply map_ext_in. intros i Hi. apply in_seq in Hi. unfold range_of.
      destruct (search_range D nc keys ds (nth (i mod 9) offs []) (nth (i / 9) skeys 0%Z)) as [[r|]|]; auto; now rewrite nth_repeat.
    - apply num_blocks_pos; auto; lia.
    - lia.
    - now rewrite repeat_length.
    - intros i Hi. eexists. split; [reflexivity|]. intros m. cbv beta. unfold rd, opt_write.
      assert (Hs : i / 9 < N) by (apply Nat.div_lt_upper_bound; lia). assert (Hm : i mod 9 < 9) by (apply Nat.mod_upper_bound; lia).
      rewrite L9. rewrite (nth_error_nth' skeys (i / 9) 0%Z) by lia. cbn [obind]. rewrite (nth_error_nth' offs (i mod 9) []) by lia. cbn [obind].
      rewrite Forall_forall in G. destruct (G (nth (i mod 9) offs []) ltac:(apply nth_In; lia) (i / 9) Hs) as (G1 & _).
      destruct (search_range D nc keys ds (nth (i mod 9) offs []) (nth (i / 9) skeys 0%Z)) as [[r|]|]; auto. congruence.
  Qed.

  Lemma ranges_nth offs s o : s < N -> o < 9 -> nth_error (ranges_of offs) (o + 9 * s) = Some (range_of s (nth o offs [])).
  Proof.
    intros Hs Ho. unfold ranges_of. rewrite nth_error_map. rewrite (nth_error_nth' (seq 0 (N * 9)) _ 0) by (rewrite seq_length; lia).
    rewrite seq_nth by lia. cbn [option_map Nat.add]. do 2 f_equal.
    - rewrite (Nat.mul_comm 9 s), Nat.div_add by lia. rewrite Nat.div_small; lia.
    - f_equal. rewrite (Nat.mul_comm 9 s), Nat.mod_add by lia. now apply Nat.mod_small.
  Qed.

  (** What iteration [l] of range [o] of sample [s] finds. *)
  Lemma found_ok offs s o l : group offs -> s < N -> o < 9 -> l < 16 ->
    exists js, found near samples pts (ranges_of offs) 9 (l + 16 * o + 9 * 16 * s) = Some js /\ NoDup js /\
      forall j, In j js <-> In j (found_in s (nth o offs [])) /\ exists k, Z.of_nat j = (fst (range_of s (nth o offs [])) + Z.of_nat (l + k * 16))%Z.
  Proof.
    intros [L9 G] Hs Ho Hl. unfold found. set (i := l + 16 * o + 9 * 16 * s).
    assert (E1 : i / (9 * 16) = s).
    { unfold i. replace (l + 16 * o + 9 * 16 * s) with (l + 16 * o + s * (9 * 16)) by lia. rewrite Nat.div_add by lia. rewrite Nat.div_small; lia. }
    assert (E2 : i / 16 = o + 9 * s).
    { unfold i. replace (l + 16 * o + 9 * 16 * s) with (l + (o + 9 * s) * 16) by lia. rewrite Nat.div_add by lia. rewrite Nat.div_small; lia. }
    assert (E3 : i mod 16 = l).
    { unfold i. replace (l + 16 * o + 9 * 16 * s) with (l + (o + 9 * s) * 16) by lia. rewrite Nat.mod_add by lia. now apply Nat.mod_small. }
    rewrite E1, E2, E3. unfold rd. rewrite (nth_error_nth' samples s []) by auto. cbn [obind]. rewrite ranges_nth by auto. cbn [obind].
    rewrite Forall_forall in G. destruct (G (nth o offs []) ltac:(apply nth_In; lia) s Hs) as (_ & G1 & G2).
    set (r := range_of s (nth o offs [])) in *. unfold found_in. fold r.
    assert (Fi : forall j, In j (filter (fun j => in_range r j && near (nth s samples []) (nth j pts [])) (seq 0 n)) <->
      (fst r <= Z.of_nat j < snd r)%Z /\ near (nth s samples []) (nth j pts []) = true).
    { intros j. rewrite filter_In, in_seq, andb_true_iff. unfold in_range. split.
      - intros (H1 & H2 & H3). split; [lia|auto].
      - intros [H1 H2]. split; [lia|]. split; [lia|auto]. }
    destruct (Z.leb_spec (snd r) (fst r + Z.of_nat l)) as [C|C].
    { exists []. split; auto. split; [constructor|]. intros j. rewrite Fi. split; [intros []|]. intros ([H _] & k & E). lia. }
    destruct (Z.ltb_spec (fst r + Z.of_nat l) 0); [lia|].
    set (its := iterations _ _ _ _). assert (Hits : forall j, In j its <-> (Z.of_nat j < snd r)%Z /\ exists k, j = Z.to_nat (fst r + Z.of_nat l) + k * 16).
    { intros j. unfold its. rewrite iterations_in by lia. split; intros (H1 & H2); split; auto; lia. }
    replace (forallb _ its) with true.
    2:{ symmetry. apply forallb_forall. intros j Hj. apply Hits in Hj. apply Nat.ltb_lt. fold n. lia. }
    eexists. split; [reflexivity|]. split; [apply TensorFacts.NoDup_filter, iterations_nodup; lia|].
    intros j. rewrite filter_In, Hits, Fi. split.
    - intros ((H1 & k & H2) & H3). split; [split; [lia|auto]|]. exists k. lia.
    - intros ((H1 & H2) & k & H3). split; [|auto]. split; [lia|]. exists k. lia.
  Qed.

  Lemma found_some offs i : group offs -> i < N * 9 * 16 -> exists l, found near samples pts (ranges_of offs) 9 i = Some l.
  Proof.
    intros G Hi. pose proof (Nat.div_mod i 16 ltac:(lia)) as E1. pose proof (Nat.div_mod (i / 16) 9 ltac:(lia)) as E2.
    pose proof (Nat.mod_upper_bound i 16 ltac:(lia)). pose proof (Nat.mod_upper_bound (i / 16) 9 ltac:(lia)).
    destruct (found_ok offs (i / 16 / 9) ((i / 16) mod 9) (i mod 16) G) as (js & E & _); auto.
    { apply Nat.div_lt_upper_bound; [lia|]. apply Nat.div_lt_upper_bound; lia. }
    exists js. rewrite <- E. f_equal. lia.
  Qed.

  Let fnd offs := found near samples pts (ranges_of offs) 9.
  Definition found_all (s : nat) (offs : list (list Z)) : list nat := flat_map (found_in s) offs.

  Lemma sample_found offs s : group offs -> s < N ->
    Permutation (sample_rows (9 * 16) (N * 9 * 16) (hits (fnd offs)) s) (found_all s offs).
  Proof.
    intros G Hs. replace (N * 9 * 16) with (N * (9 * 16)) by lia. rewrite sample_rows_eq by (auto; lia).
    rewrite <- (seq_blocks 9 16), flat_map_flat_map. unfold found_all. rewrite (flat_map_nth _ offs []). destruct G as [L9 G']. rewrite L9.
    apply flat_map_perm. intros o Ho. apply in_seq in Ho.
    assert (F : forall l, l < 16 -> NoDup (hits (fnd offs) (l + 16 * o + 9 * 16 * s)) /\
       forall j, In j (hits (fnd offs) (l + 16 * o + 9 * 16 * s)) <-> In j (found_in s (nth o offs [])) /\ exists k, Z.of_nat j = (fst (range_of s (nth o offs [])) + Z.of_nat (l + k * 16))%Z).
    { intros l Hl. destruct (found_ok offs s o l (conj L9 G') Hs ltac:(lia) Hl) as (js & E & F). unfold hits, fnd. rewrite E. exact F. }
    rewrite flat_map_concat_map, map_map, <- flat_map_concat_map.
    apply NoDup_Permutation.
    - apply nodup_flat_map; [apply seq_NoDup| |].
      + intros l Hl. apply in_seq in Hl. apply F. lia.
      + intros l l' j Hl Hl' J J'. apply in_seq in Hl, Hl'. apply F in J; [|lia]. apply F in J'; [|lia].
        destruct J as (_ & k & E), J' as (_ & k' & E'). lia.
    - apply TensorFacts.NoDup_filter, seq_NoDup.
    - intros j. rewrite in_flat_map. split.
      + intros (l & Hl & J). apply in_seq in Hl. apply F in J; [tauto|lia].
      + intros J. assert (R : in_range (range_of s (nth o offs [])) j = true) by (apply filter_In in J; destruct J as [_ J]; apply andb_true_iff in J; tauto).
        unfold in_range in R. set (r := range_of s (nth o offs [])) in *.
        set (e := Z.to_nat (Z.of_nat j - fst r)). exists (e mod 16). pose proof (Nat.mod_upper_bound e 16 ltac:(lia)). split; [apply in_seq; lia|].
        apply F; [lia|]. split; auto. exists (e / 16). pose proof (Nat.div_mod e 16 ltac:(lia)). fold r. unfold e in *. lia.
  Qed.

  Lemma count_ok' offs counts (P : list Z -> Prop) : group offs -> length counts = N ->
    P (map (fun s => (nth s counts 0 + Z.of_nat (length (found_all s offs)))%Z) (seq 0 N)) ->
    count_neighbors_gpu (active KCount) warp near samples pts 9 (ranges_of offs) counts P.
  Proof.
    intros G Lc HP. unfold count_neighbors_gpu. fold N. intros temps Lt Ft. split; [apply num_blocks_pos; auto; lia|].
    apply (count_kernel_runs _ _ _ _ N (fnd offs)); auto; try lia.
    - intros i Hi. now apply found_some.
    - apply num_blocks_pos; auto; lia.
    - match goal with |- P ?x => match type of HP with P ?y => replace x with y; [exact HP|] end end.
      apply map_ext_in. intros s Hs. apply in_seq in Hs. f_equal. rewrite <- (Permutation_length (sample_found offs s G ltac:(lia))).
      apply sample_rows_len.
  Qed.

  Lemma count_pass_ok groups ranges counts (P : list (Z * Z) -> list Z -> Prop) : Forall group groups -> length counts = N ->
    P (last (map ranges_of groups) ranges) (map (fun s => (nth s counts 0 + Z.of_nat (length (found_all s (concat groups))))%Z) (seq 0 N)) ->
    count_pass active warp D near samples pts keys nc ds skeys groups ranges counts P.
  Proof.
    revert ranges counts. induction groups as [|offs groups IH]; intros ranges counts FG Lc HP.
    - cbn in *. replace counts with (map (fun s => (nth s counts 0 + 0)%Z) (seq 0 N)); auto. apply list_eq_nth; [now rewrite map_length, seq_length|].
      rewrite map_length, seq_length. intros i x Hi. rewrite (nth_indep _ x ((fun s => (nth s counts 0 + 0)%Z) 0)) by (rewrite map_length, seq_length; auto).
      rewrite (map_nth (fun s => (nth s counts 0 + 0)%Z)), seq_nth by auto. cbn [Nat.add]. rewrite Z.add_0_r. apply nth_indep. lia.
    - inversion FG as [|? ? G FG']; subst. cbn [count_pass]. apply find_ranges_ok; auto. apply count_ok'; auto. apply IH; auto.
      { now rewrite map_length, seq_length. }
      assert (El : last (map ranges_of (offs :: groups)) ranges = last (map ranges_of groups) (ranges_of offs)).
      { cbn [map]. apply last_cons. }
      rewrite El in HP. match goal with |- P _ ?x => match type of HP with P _ ?y => replace x with y; [exact HP|] end end.
      apply map_ext_in. intros s Hs. apply in_seq in Hs. rewrite nth_map_seq by lia. cbn [concat]. unfold found_all. rewrite flat_map_app, app_length. lia.
  Qed.

  (** ** The second pass *)
  Variable S : nat -> nat.
  (** State of the output after the offsets in [done]. *)
  Definition stored (done : list (list Z)) (A : nat -> list nat) (cnt : list Z) (out : list (nat * nat)) : Prop :=
    length cnt = N /\ length out = S N /\
    (forall s, s < N -> Permutation (A s) (found_all s done)) /\
    (forall s, s < N -> nth_error cnt s = Some (Z.of_nat (S s + length (A s)))) /\
    (forall s k, s < N -> k < length (A s) -> nth_error out (S s + k) = Some (nth k (A s) 0, s)).

  Lemma store_ok k done offs A cnt out all (P : list Z -> list (nat * nat) -> Prop) : group offs ->
    (k = 0 \/ forall s, s < N -> length (found_all s offs) <= k) ->
    (forall s, s < N -> S s + length (found_all s (done ++ offs)) <= S (s + 1)) ->
    stored done A cnt out -> (forall A' c o, stored (done ++ offs) A' c o -> P c o) ->
    store_neighbors_gpu (active KStore) warp time k near samples pts 9 (ranges_of offs) all cnt out P.
  Proof.
    intros G Hk Hfit (Lc & Lo & PA & Hc & Ho) HP. unfold store_neighbors_gpu. fold N.
    assert (La : forall s, s < N -> length (A s) = length (found_all s done)) by (intros s Hs; apply Permutation_length, PA; auto).
    assert (Fa : forall s, found_all s (done ++ offs) = found_all s done ++ found_all s offs) by (intros s; unfold found_all; apply flat_map_app).
    assert (Lf : forall s, s < N -> length (sample_rows (9 * 16) (N * 9 * 16) (hits (fnd offs)) s) = length (found_all s offs)).
    { intros s Hs. apply Permutation_length, sample_found; auto. }
    assert (End : forall c o A', (forall s, s < N -> Permutation (A' s) (sample_rows (9 * 16) (N * 9 * 16) (hits (fnd offs)) s)) -> length c = N ->
       (forall s, s < N -> nth_error c s = Some (Z.of_nat (S s + length (A s) + length (sample_rows (9 * 16) (N * 9 * 16) (hits (fnd offs)) s)))) ->
       placed N (S N) (fun s => S s + length (A s)) out A' o -> P c o).
    { intros c o A' HA' Lm Hm (Lpl & Hpl & Hrest). apply (HP (fun s => A s ++ A' s)). split; [auto|]. split; [auto|].
      assert (La' : forall s, s < N -> length (A' s) = length (found_all s offs)).
      { intros s Hs. rewrite (Permutation_length (HA' s Hs)). apply Lf; auto. }
      assert (Sm : forall a b, a <= b -> b <= N -> S a <= S b).
      { intros a b Hab. induction Hab as [|b Hab IH]; intros Hb; auto. specialize (IH ltac:(lia)). specialize (Hfit b ltac:(lia)). rewrite Nat.add_1_r in Hfit. lia. }
      split; [|split].
      + intros s Hs. rewrite Fa. apply Permutation_app; auto. rewrite HA' by auto. apply sample_found; auto.
      + intros s Hs. rewrite Hm by auto. rewrite app_length, (La' s Hs), (Lf s Hs). f_equal. lia.
      + intros s q Hs Hq. rewrite app_length in Hq. destruct (Nat.lt_ge_cases q (length (A s))) as [C|C].
        * rewrite app_nth1 by auto. rewrite Hrest; auto. intros s' Hs' I. pose proof (Hfit s Hs) as F1. pose proof (Hfit s' Hs') as F2.
          rewrite Fa, app_length in F1, F2. rewrite <- La, <- La' in F1, F2 by auto.
          destruct (lt_eq_lt_dec s s') as [[Q|Q]|Q]; [|subst; lia|].
          -- specialize (Sm (s + 1) s'). lia.
          -- specialize (Sm (s' + 1) s). lia.
        * rewrite app_nth2 by auto. replace (S s + q) with (S s + length (A s) + (q - length (A s))) by lia. apply Hpl; auto. lia. }
    assert (Room : forall s, s < N -> S s <= S s + length (A s) /\ S s + length (A s) + length (sample_rows (9 * 16) (N * 9 * 16) (hits (fnd offs)) s) <= S (s + 1)).
    { intros s Hs. split; [lia|]. rewrite (Lf s Hs), (La s Hs). specialize (Hfit s Hs). rewrite Fa, app_length in Hfit. lia. }
    destruct (Nat.eqb_spec k 0) as [E0|E0].
    - intros regs Lr. split; [apply num_blocks_pos; auto; lia|].
      apply (store_kernel_runs _ _ _ _ N (fnd offs)) with (lo := fun s => S s + length (A s)) (S := S); auto; try lia.
      + apply num_blocks_pos; auto; lia.
      + intros i Hi. now apply found_some.
      + intros m A' HA' Lm Hm Hpl. apply (End (sm_cnt m) (sm_out m) A'); auto.
    - intros regs Lr _. split; [apply num_blocks_pos; auto; lia|].
      apply (limited_kernel_runs k all _ _ _ _ N (fnd offs)) with (lo := fun s => S s + length (A s)) (S := S); auto; try lia.
      + apply num_blocks_pos; auto; lia.
      + intros i Hi. now apply found_some.
      + intros s Hs. destruct Hk as [Hk|Hk]; [lia|]. fold (hits (fnd offs)). rewrite (Lf s Hs). auto.
      + intros m A' HA' Lm Hm Hpl. apply (End (lm_cnt m) (lm_out m) A'); auto.
  Qed.

  Lemma store_pass_ok k all groups done ranges A cnt out (P : list Z -> list (nat * nat) -> Prop) : Forall group groups ->
    (k = 0 \/ forall s, s < N -> length (found_all s (concat groups)) <= k) ->
    (forall s, s < N -> S s + length (found_all s (done ++ concat groups)) <= S (s + 1)) ->
    stored done A cnt out -> (forall A' c o, stored (done ++ concat groups) A' c o -> P c o) ->
    store_pass active warp D time near samples pts keys nc ds skeys true k all groups ranges cnt out P.
  Proof.
    revert done ranges A cnt out. induction groups as [|offs groups IH]; intros done ranges A cnt out FG Hk Hfit Hs HP.
    - cbn in *. rewrite app_nil_r in HP. eauto.
    - inversion FG as [|? ? G FG']; subst. cbn [store_pass]. apply find_ranges_ok; auto. cbn [concat] in *.
      assert (Fa : forall s, found_all s (offs ++ concat groups) = found_all s offs ++ found_all s (concat groups)) by (intros s; unfold found_all; apply flat_map_app).
      eapply store_ok with (done := done); eauto.
      + destruct Hk as [Hk|Hk]; auto. right. intros s Hss. specialize (Hk s Hss). rewrite Fa, app_length in Hk. lia.
      + intros s Hss. specialize (Hfit s Hss). rewrite app_assoc in Hfit. unfold found_all in *. rewrite (flat_map_app _ (done ++ offs)), app_length in Hfit. lia.
      + intros A' c o H. apply (IH (done ++ offs) _ A'); auto.
        * destruct Hk as [Hk|Hk]; auto. right. intros s Hss. specialize (Hk s Hss). rewrite Fa, app_length in Hk. lia.
        * intros s Hss. rewrite <- app_assoc. auto.
        * intros A'' c' o' H'. rewrite <- app_assoc in H'. eauto.
  Qed.
End Search.
