(** Every schedule of the Poisson passes, of the kernel that stores the
    selected points and of the kernel that averages the cells. *)
From Coq Require Import List Arith ZArith QArith Lia Bool Permutation.
From Verif Require Import Tensor TensorFacts PointCloud QFacts Grid Cuda CudaFacts MemFacts AddFacts GpuGrid GpuGridFacts GpuScanRuns GpuNeighbors GpuCountFacts SlotFacts GpuStoreFacts LimitFacts GpuSampling UniqueFacts PoissonFacts.
Import ListNotations.
Local Open Scope nat_scope.

(** ** The points of a cell *)
Lemma nth_skipn' {A} (l : list A) s i d : nth i (skipn s l) d = nth (s + i) l d.
Proof. revert l. induction s as [|s IH]; intros l; auto. destruct l; cbn; [now destruct i|apply IH]. Qed.
Lemma same_run_in key l i p : In p (same_run key l i) <-> i <= p < i + length l /\ forall q, i <= q <= p -> nth (q - i) l 0%Z = key.
Proof.
  revert i. induction l as [|k l IH]; intros i; cbn [same_run length]; [split; [intros []|lia]|].
  destruct (Z.eqb_spec k key) as [->|Ne].
  - cbn [In]. rewrite IH. split.
    + intros [<-|(H1 & H2)].
      * split; [lia|]. intros q Hq. replace (q - i) with 0 by lia. reflexivity.
      * split; [lia|]. intros q Hq. destruct (Nat.eq_dec q i) as [->|N]; [now rewrite Nat.sub_diag|]. replace (q - i) with (S (q - S i)) by lia. cbn [nth]. apply H2. lia.
    + intros (H1 & H2). destruct (Nat.eq_dec i p) as [->|N]; [left; auto|right]. split; [lia|]. intros q Hq. specialize (H2 q ltac:(lia)). replace (q - i) with (S (q - S i)) in H2 by lia. exact H2.
  - split; [intros []|]. intros (H1 & H2). specialize (H2 i ltac:(lia)). rewrite Nat.sub_diag in H2. cbn in H2. congruence.
Qed.
Lemma same_run_NoDup key l i : NoDup (same_run key l i).
Proof.
  revert i. induction l as [|k l IH]; intros i; cbn [same_run]; [constructor|]. destruct (_ =? _)%Z; [|constructor]. constructor; auto.
  rewrite same_run_in. lia.
Qed.

Lemma forallb_true {A} (f : A -> bool) l : (forall x, In x l -> f x = true) -> forallb f l = true.
Proof. intros H. now apply forallb_forall. Qed.
Section Cells.
  Variable keys : list Z.
  Let n := length keys.
  (** Points with the same key are neighbors in the list. *)
  Hypothesis grouped : forall i j k, i <= j <= k -> k < n -> nth i keys 0%Z = nth k keys 0%Z -> nth j keys 0%Z = nth i keys 0%Z.

  Lemma cell_points_NoDup s : NoDup (cell_points keys s).
  Proof. unfold cell_points. destruct (rd s keys); [apply same_run_NoDup|constructor]. Qed.
  Lemma cell_points_in s p : In s (firsts_of keys) -> (In p (cell_points keys s) <-> p < n /\ nth p keys 0%Z = nth s keys 0%Z).
  Proof.
    intros Hs. apply firsts_in in Hs. destruct Hs as (Ls & Hs). unfold cell_points, rd. rewrite (nth_error_nth' keys s 0%Z) by auto.
    rewrite same_run_in, skipn_length. assert (X : forall q, s <= q -> nth (q - s) (skipn s keys) 0%Z = nth q keys 0%Z).
    { intros q Hq. rewrite nth_skipn'. f_equal. lia. }
    split.
    - intros (H1 & H2). split; [unfold n; lia|]. rewrite <- X by lia. apply H2. lia.
    - intros (Hp & E). destruct (Nat.le_gt_cases s p) as [C|C].
      + split; [unfold n in *; lia|]. intros q Hq. rewrite X by lia. apply (grouped s q p); [lia|auto|congruence].
      + exfalso. destruct Hs as [->|Hs]; [lia|]. apply Hs. transitivity (nth p keys 0%Z); [congruence|]. symmetry. apply (grouped p (s - 1) s); [lia|auto|congruence].
  Qed.
  Lemma first_of p : p < n -> exists s, In s (firsts_of keys) /\ nth s keys 0%Z = nth p keys 0%Z.
  Proof.
    induction p as [|p IH]; intros Hp.
    - exists 0. split; auto. apply firsts_in. auto.
    - destruct (Z.eq_dec (nth (S p) keys 0%Z) (nth p keys 0%Z)) as [E|E].
      + destruct (IH ltac:(lia)) as (s & Hs & Es). exists s. split; congruence.
      + exists (S p). split; auto. apply firsts_in. split; auto. right. cbn [Nat.sub]. now rewrite Nat.sub_0_r.
  Qed.
  Lemma first_unique s s' : In s (firsts_of keys) -> In s' (firsts_of keys) -> nth s keys 0%Z = nth s' keys 0%Z -> s = s'.
  Proof.
    assert (X : forall s s', In s (firsts_of keys) -> In s' (firsts_of keys) -> nth s keys 0%Z = nth s' keys 0%Z -> s <= s').
    { clear s s'. intros s s' Hs Hs' E. apply firsts_in in Hs, Hs'. destruct (Nat.le_gt_cases s s') as [C|C]; auto. exfalso.
      destruct Hs as (Ls & [->|Hs]); [lia|]. apply Hs. transitivity (nth s' keys 0%Z); [auto|]. symmetry. apply (grouped s' (s - 1) s); [lia|auto|auto]. }
    intros Hs Hs' E. apply Nat.le_antisymm; apply X; auto.
  Qed.
  Lemma cells_perm firsts : Permutation firsts (firsts_of keys) -> Permutation (flat_map (cell_points keys) firsts) (seq 0 n).
  Proof.
    intros Pf. rewrite (Permutation_flat_map _ Pf). apply NoDup_Permutation.
    - apply nodup_flat_map; [apply firsts_NoDup|intros; apply cell_points_NoDup|]. intros a b x Ha Hb Hxa Hxb.
      apply cell_points_in in Hxa, Hxb; auto. apply first_unique; auto. destruct Hxa, Hxb. congruence.
    - apply seq_NoDup.
    - intros p. rewrite in_flat_map, in_seq. split.
      + intros (s & Hs & Hp). apply cell_points_in in Hp; auto. lia.
      + intros Hp. destruct (first_of p ltac:(lia)) as (s & Hs & Es). exists s. split; auto. apply cell_points_in; auto. split; [lia|auto].
  Qed.
End Cells.

(** ** The passes *)
Lemma parity_code D (f : nat -> bool) : exists c, c < 2 ^ D /\ forall i, i < D -> c / 2 ^ i mod 2 = Nat.b2n (f i).
Proof.
  revert f. induction D as [|D IH]; intros f; [exists 0; cbn; split; [lia|intros; lia]|]. destruct (IH (fun i => f (S i))) as (c & Hc & Hi).
  exists (Nat.b2n (f 0) + 2 * c). split; [rewrite Nat.pow_succ_r'; destruct (f 0); cbn [Nat.b2n]; lia|]. intros i Hi'. destruct i as [|i].
  - rewrite Nat.pow_0_r, Nat.div_1_r, (Nat.mul_comm 2 c), Nat.mod_add by lia. apply Nat.mod_small. destruct (f 0); cbn; lia.
  - rewrite Nat.pow_succ_r', <- Nat.div_div by (try apply Nat.pow_nonzero; lia). rewrite (Nat.mul_comm 2 c), Nat.div_add by lia.
    rewrite (Nat.div_small (Nat.b2n (f 0)) 2) by (destruct (f 0); cbn; lia). rewrite Nat.add_0_l. apply Hi. lia.
Qed.
Lemma pd_code_nth D c d : d < D -> nth d (pd_code D c) 0%Z = Z.of_nat (c / 2 ^ d mod 2).
Proof. intros H. unfold pd_code. exact (QFacts.nth_map_seq (fun i => Z.of_nat (c / 2 ^ i mod 2)) D d 0%Z H). Qed.

Lemma settled_incl n nb close cnt used done done' : settled n nb close cnt used done -> incl done' done -> settled n nb close cnt used done'.
Proof. intros H I. constructor; [apply (se_len _ _ _ _ _ _ H)|apply (se_01 _ _ _ _ _ _ H)|apply (se_apart _ _ _ _ _ _ H)|intros p Hp; apply (se_cover _ _ _ _ _ _ H), I, Hp|apply (se_cnt _ _ _ _ _ _ H)]. Qed.

Section Passes.
  Variables (nc keys ranges : list Z) (nbs : list (nat * nat)) (firsts : list nat) (nb : nat -> list nat) (close : nat -> nat -> Prop).
  Let n := length keys.
  Let D := length nc.
  Hypothesis grouped : forall i j k, i <= j <= k -> k < n -> nth i keys 0%Z = nth k keys 0%Z -> nth j keys 0%Z = nth i keys 0%Z.
  Hypothesis Hf : Permutation firsts (firsts_of keys).
  Hypothesis Hnb : forall p, p < n -> pd_neighbors ranges nbs p = Some (nb p).
  Hypothesis nb_lt : forall p j, In j (nb p) -> j < n.
  Hypothesis nb_close : forall p j, p < n -> close p j -> In j (nb p).
  Hypothesis close_sym : forall p j, p < n -> close p j -> close j p.
  Hypothesis close_self : forall p, p < n -> close p p.
  (** The cell of a key, in which all coordinates are natural numbers. *)
  Let cell p := snd (gpu_cell_from_key nc (nth p keys 0%Z)).
  Hypothesis cell_pos : forall p d, p < n -> d < D -> (0 <= nth d (cell p) 0)%Z.
  (** Close points are in cells that touch, and cells of the same coordinates
      with close points are the same. *)
  Hypothesis touch : forall p j d, p < n -> close p j -> d < D -> (Z.abs (nth d (cell p) 0 - nth d (cell j) 0) <= 1)%Z.
  Hypothesis same : forall p j, p < n -> close p j -> (forall d, d < D -> nth d (cell p) 0%Z = nth d (cell j) 0%Z) -> nth p keys 0%Z = nth j keys 0%Z.

  Definition turn (code : list Z) (i : nat) : list nat :=
    let s := nth i firsts 0 in
    if forallb (fun d => (Z.rem (nth d (cell s) 0) 2 =? nth d code 0)%Z) (seq 0 D) then cell_points keys s else [].
  Lemma first_in i : i < length firsts -> In (nth i firsts 0) (firsts_of keys).
  Proof. intros H. eapply Permutation_in; [exact Hf|]. now apply nth_In. Qed.
  Lemma turn_in code i p : i < length firsts -> In p (turn code i) ->
    p < n /\ nth p keys 0%Z = nth (nth i firsts 0) keys 0%Z /\ forall d, d < D -> Z.rem (nth d (cell p) 0%Z) 2 = nth d code 0%Z.
  Proof.
    intros Hi. unfold turn. cbv zeta. destruct (forallb _ _) eqn:E; [|intros []]. intros Hp. apply cell_points_in in Hp; auto; [|now apply first_in].
    destruct Hp as (Hp & Ek). split; auto. split; auto. intros d Hd. rewrite forallb_forall in E. specialize (E d ltac:(apply in_seq; lia)). apply Z.eqb_eq in E.
    unfold cell in *. now rewrite Ek.
  Qed.
  Lemma body_descs code g i : i < length firsts -> pd_body nc keys ranges nbs firsts code g i = map pact (flat_map (pfull nb g) (turn code i)).
  Proof.
    intros Hi. pose proof (first_in i Hi) as Hs. pose proof (proj1 (firsts_in _ _) Hs) as (Ls & _). unfold pd_body, rd. rewrite (nth_error_nth' firsts i 0) by auto. cbn [obind].
    rewrite (nth_error_nth' keys (nth i firsts 0) 0%Z) by auto. cbn [option_map]. cbv zeta. unfold turn. cbv zeta. fold (cell (nth i firsts 0)). fold D.
    destruct (forallb _ _); [|reflexivity]. assert (X : forall p, In p (cell_points keys (nth i firsts 0)) -> p < n) by (intros p Hp; apply cell_points_in in Hp; tauto).
    revert X. generalize (cell_points keys (nth i firsts 0)). induction l as [|p l IH]; intros X; auto. cbn [flat_map]. rewrite map_app, IH by (intros; apply X; right; auto). f_equal.
    unfold pd_point. rewrite Hnb by (apply X; left; auto). unfold pfull. cbn [map]. f_equal. rewrite map_app, map_map. reflexivity.
  Qed.
  Lemma turn_sep code i i' p q : i < length firsts -> i' < length firsts -> i <> i' -> In p (turn code i) -> In q (turn code i') -> ~ close p q.
  Proof.
    intros Hi Hi' Ne Hp Hq Hin. apply turn_in in Hp, Hq; auto. destruct Hp as (Lp & Kp & Rp), Hq as (Lq & Kq & Rq).
    assert (E : nth p keys 0%Z = nth q keys 0%Z).
    { apply same; auto. intros d Hd. pose proof (touch p q d Lp Hin Hd) as C. pose proof (cell_pos p d Lp Hd) as Z1. pose proof (cell_pos q d Lq Hd) as Z2.
      specialize (Rp d Hd). specialize (Rq d Hd). rewrite Z.rem_mod_nonneg in Rp, Rq by lia.
      pose proof (Z.div_mod (nth d (cell p) 0%Z) 2 ltac:(lia)). pose proof (Z.div_mod (nth d (cell q) 0%Z) 2 ltac:(lia)). lia. }
    apply Ne. assert (Q : nth i firsts 0 = nth i' firsts 0) by (apply (first_unique keys grouped); try apply first_in; auto; congruence).
    assert (ND : NoDup firsts) by (eapply Permutation_NoDup; [symmetry; exact Hf|apply firsts_NoDup]). apply (proj1 (NoDup_nth firsts 0) ND); auto.
  Qed.

  Lemma one_pass blocks bs code cnt used done regs (P : pmem -> Prop) : blocks <> 0 -> bs <> 0 -> settled n nb close cnt used done -> length regs = blocks * bs ->
    (forall m, settled n nb close (pm_cnt m) (pm_used m) (flat_map (turn code) (seq 0 (length firsts)) ++ done) -> P m) ->
    every_run P (PMem cnt used regs, thread_kernel blocks bs (length firsts) (pd_body nc keys ranges nbs firsts code)).
  Proof.
    intros Hb Hs H Lr HP. set (N := blocks * bs) in *. assert (HN : N <> 0) by (unfold N; nia). assert (HN' : 0 < N) by lia.
    destruct (thread_descs pact (pprog nb) (fun g => (PIdle, flat_map (turn code) (strided g N (length firsts)))) blocks bs (length firsts) (pd_body nc keys ranges nbs firsts code)) as (pss & E & Ep).
    { intros g _. fold N. unfold pprog. cbn [fst snd app]. assert (X : forall i, In i (strided g N (length firsts)) -> i < length firsts) by (intros i Hi; apply strided_in in Hi; [tauto|auto]).
      revert X. generalize (strided g N (length firsts)). induction l as [|i l IH]; intros X; auto. cbn [flat_map]. rewrite flat_map_app, map_app, IH by (intros; apply X; right; auto).
      f_equal. apply body_descs. apply X. left; auto. }
    rewrite E. fold N in Ep. set (todo := map (fun g => flat_map (turn code) (strided g N (length firsts))) (seq 0 N)).
    assert (Pm : Permutation (concat todo) (flat_map (turn code) (seq 0 (length firsts)))).
    { unfold todo. rewrite <- flat_map_concat_map, <- flat_map_flat_map. apply Permutation_flat_map. apply strided_all. auto. }
    assert (Nt : forall g l, nth_error todo g = Some l -> g < N /\ l = flat_map (turn code) (strided g N (length firsts))).
    { intros g l Hg. unfold todo in Hg. rewrite nth_error_map in Hg. destruct (nth_error (seq 0 N) g) as [g'|] eqn:Eg; [|discriminate]. apply nth_error_seq in Eg. destruct Eg as [-> Hg'].
      cbn [option_map] in Hg. injection Hg as <-. auto. }
    apply (pass_runs n nb close nb_lt nb_close close_sym close_self cnt used done regs pss todo); auto.
    - rewrite Ep. unfold todo. now rewrite map_map.
    - unfold todo. now rewrite map_length, seq_length.
    - intros g g' l l' p q Ne Hg Hg' Ip Iq. apply Nt in Hg, Hg'. destruct Hg as (Lg & ->), Hg' as (Lg' & ->). apply in_flat_map in Ip, Iq. destruct Ip as (i & Hi & Ip), Iq as (i' & Hi' & Iq).
      apply strided_in in Hi, Hi'; auto. destruct Hi as (Hi & Mi), Hi' as (Hi' & Mi'). apply (turn_sep code i i'); auto.
      intros ->. apply Ne. destruct Mi as (a & ->), Mi' as (a' & Ea). apply (f_equal (fun x => x mod N)) in Ea. rewrite !Nat.mod_add, !Nat.mod_small in Ea by auto. auto.
    - intros p Hp. apply (Permutation_in _ Pm) in Hp. apply in_flat_map in Hp. destruct Hp as (i & Hi & Hp). apply in_seq in Hi. apply turn_in in Hp; [tauto|lia].
    - intros m Hm. apply HP. eapply settled_incl; [exact Hm|]. intros p Hp. apply in_app_or in Hp. apply in_or_app. destruct Hp as [Hp|Hp]; [left|right; auto].
      eapply Permutation_in; [symmetry; exact Pm|auto].
  Qed.

  Lemma calls_run blocks bs calls cnt used done (P : Z -> list Z -> Prop) : blocks <> 0 -> bs <> 0 -> settled n nb close cnt used done ->
    (forall cnt' used', settled n nb close cnt' used' (flat_map (fun c => flat_map (turn (pd_code D c)) (seq 0 (length firsts))) calls ++ done) -> P cnt' used') ->
    pd_calls blocks bs nc keys ranges nbs firsts calls cnt used P.
  Proof.
    intros Hb Hs. revert cnt used done. induction calls as [|c calls IH]; intros cnt used done H HP; cbn [pd_calls]; [apply HP; auto|].
    intros regs Lr. split; auto. apply one_pass with (done := done); auto. intros m Hm. apply IH with (done := flat_map (turn (pd_code D c)) (seq 0 (length firsts)) ++ done); auto.
    intros cnt' used' K. apply HP. eapply settled_incl; [exact K|]. intros p Hp. cbn [flat_map] in Hp. rewrite !in_app_iff in *. tauto.
  Qed.

  Lemma all_turns p : p < n -> In p (flat_map (fun c => flat_map (turn (pd_code D c)) (seq 0 (length firsts))) (seq 0 (2 ^ D))).
  Proof.
    intros Hp. destruct (first_of keys p Hp) as (s & Hs & Es). assert (Ls : s < n) by (apply firsts_in in Hs; tauto).
    destruct (parity_code D (fun d => (Z.rem (nth d (cell s) 0%Z) 2 =? 1)%Z)) as (c & Hc & Hd).
    assert (Is : In s firsts) by (eapply Permutation_in; [symmetry; exact Hf|auto]). apply (In_nth _ _ 0) in Is. destruct Is as (i & Hi & Ei).
    apply in_flat_map. exists c. split; [apply in_seq; lia|]. apply in_flat_map. exists i. split; [apply in_seq; lia|]. unfold turn. cbv zeta. rewrite Ei.
    destruct (forallb _ _) eqn:E; [apply cell_points_in; auto|]. exfalso. apply Bool.not_true_iff_false in E. apply E. apply forallb_forall. intros d Id. apply in_seq in Id.
    apply Z.eqb_eq. rewrite pd_code_nth by lia. rewrite Hd by lia. pose proof (cell_pos s d Ls ltac:(lia)) as Z0. rewrite Z.rem_mod_nonneg by lia. pose proof (Z.mod_pos_bound (nth d (cell s) 0%Z) 2 ltac:(lia)).
    destruct (Z.eqb_spec (nth d (cell s) 0 mod 2) 1)%Z as [Q|Q]; cbn; lia.
  Qed.

  Theorem poisson_runs active warp (P : Z -> list Z -> Prop) : active <> 0 -> warp <> 0 -> firsts <> [] ->
    (forall cnt used, settled n nb close cnt used (seq 0 n) -> P cnt used) ->
    count_sampling_pd_gpu active warp n nc keys ranges nbs firsts P.
  Proof.
    intros Ha Hw Hne HP. unfold count_sampling_pd_gpu. cbv zeta.
    assert (Hb : num_blocks active (4 * warp) (length firsts) <> 0) by (apply num_blocks_pos; auto; try lia; destruct firsts; cbn; congruence).
    apply calls_run with (done := []); auto; [lia| |].
    - constructor.
      + apply repeat_length.
      + apply Forall_forall. intros u Hu. apply repeat_spec in Hu. auto.
      + intros p q Mp _ _. unfold marked in Mp. apply nth_error_In, repeat_spec in Mp. discriminate.
      + intros p [].
      + assert (X : forall k, ones (repeat 0%Z k) = 0) by (induction k; cbn; auto). now rewrite X.
    - intros cnt used H. apply HP. eapply settled_incl; [exact H|]. intros p Hp. apply in_seq in Hp. rewrite app_nil_r. apply all_turns. lia.
  Qed.
End Passes.

(** ** Storing the selection *)
Definition selected (used : list Z) : list nat := filter (fun i => (nth i used 0 =? 1)%Z) (seq 0 (length used)).
Lemma selected_in used i : In i (selected used) <-> marked used i.
Proof.
  unfold selected, marked. rewrite filter_In, in_seq, Z.eqb_eq. split.
  - intros (H & E). rewrite (nth_error_nth' used i 0%Z) by lia. congruence.
  - intros E. assert (i < length used) by (apply nth_error_Some; congruence). split; [lia|]. rewrite (nth_error_nth' used i 0%Z) in E by auto. congruence.
Qed.
Lemma selected_length used : length (selected used) = ones used.
Proof.
  unfold selected, ones. rewrite <- (TensorFacts.map_nth_seq used 0%Z) at 2. rewrite filter_map_swap, map_length. f_equal. apply filter_ext. intros i. apply Z.eqb_sym.
Qed.
Lemma store_runs active warp ps ids used (P : list (point * nat * nat) -> Prop) : active <> 0 -> warp <> 0 -> ps <> [] -> length ids = length ps -> length used = length ps ->
  (forall sel, Permutation sel (selected used) -> P (map (fun i => (nth i ps [], nth i ids 0, i)) sel)) ->
  store_sampled_pts_gpu active warp ps ids used (Z.of_nat (ones used)) P.
Proof.
  intros Ha Hw Hne Li Lu HP. unfold store_sampled_pts_gpu. cbv zeta. intros regs out Lr Lo.
  assert (Hb : num_blocks active (4 * warp) (length ps) <> 0) by (apply num_blocks_pos; auto; try lia; destruct ps; cbn; congruence). split; auto.
  assert (Ep : flat_map (picks (chosen ps ids used)) (seq 0 (length ps)) = map (fun i => (nth i ps [], nth i ids 0, i)) (selected used)).
  { unfold selected. rewrite Lu. assert (X : forall l, (forall i, In i l -> i < length ps) -> flat_map (picks (chosen ps ids used)) l =
      map (fun i => (nth i ps [], nth i ids 0, i)) (filter (fun i => (nth i used 0 =? 1)%Z) l)).
    { induction l as [|i l IH]; intros Hl; auto. cbn [flat_map filter]. rewrite IH by (intros; apply Hl; right; auto). specialize (Hl i (or_introl eq_refl)).
      unfold picks, chosen, rd. rewrite (nth_error_nth' used i 0%Z), (nth_error_nth' ps i []), (nth_error_nth' ids i 0) by lia. cbn [obind]. destruct (_ =? _)%Z; reflexivity. }
    apply X. intros i Hi. apply in_seq in Hi. lia. }
  apply slot_kernel_runs; auto; [lia| | |].
  - intros i Hi. unfold chosen, rd. rewrite (nth_error_nth' used i 0%Z), (nth_error_nth' ps i []), (nth_error_nth' ids i 0) by lia. cbn [obind]. destruct (_ =? _)%Z; discriminate.
  - rewrite Ep, map_length, selected_length, Lo. now rewrite Nat2Z.id.
  - intros A HA. rewrite Ep in HA. apply Permutation_map_inv in HA. destruct HA as (sel & -> & HA). apply HP. now symmetry.
Qed.

(** ** The averages *)
Lemma average_runs active warp D nc keys ps firsts (P : list (point * Z) -> Prop) : active <> 0 -> warp <> 0 -> firsts <> [] ->
  length ps = length keys -> (forall s, In s firsts -> s < length keys) ->
  (forall s p, In s firsts -> In p (cell_points keys s) -> p < length keys) ->
  P (map (fun s => (avg_point D (map (fun j => nth j ps []) (cell_points keys s)), Z.quot (nth s keys 0%Z) (zprod nc))) firsts) ->
  sampling_avg_gpu active warp D nc keys ps firsts P.
Proof.
  intros Ha Hw Hne Lp Hs Hc HP. unfold sampling_avg_gpu. cbv zeta. intros out Lo.
  assert (Hb : num_blocks active (4 * warp) (length firsts) <> 0) by (apply num_blocks_pos; auto; try lia; destruct firsts; cbn; congruence). split; auto.
  eapply every_run_weaken; [|apply (opt_body_runs _ (fun i => Some (avg_point D (map (fun j => nth j ps []) (cell_points keys (nth i firsts 0))), Z.quot (nth (nth i firsts 0) keys 0%Z) (zprod nc))) ([], 0%Z)); auto; [lia|]].
  - intros m ->. rewrite <- (map_map (fun i => nth i firsts 0) (fun s => (avg_point D (map (fun j => nth j ps []) (cell_points keys s)), Z.quot (nth s keys 0%Z) (zprod nc)))).
    now rewrite TensorFacts.map_nth_seq.
  - intros i Hi. eexists. split; [reflexivity|]. intros m. unfold opt_write, rd. pose proof (nth_In firsts 0 Hi) as Is. rewrite (nth_error_nth' firsts i 0) by auto. cbn [obind].
    rewrite (nth_error_nth' keys (nth i firsts 0) 0%Z) by auto. cbn [obind]. rewrite forallb_true; [reflexivity|]. intros j Hj. apply Nat.ltb_lt. rewrite Lp. eapply Hc; eauto.
Qed.
