(** Every schedule of the kernel that counts neighbors gives the counts. *)
From Coq Require Import List Arith ZArith Lia Bool Permutation.
From Verif Require Import Cuda CudaFacts MemFacts AddFacts GpuScanRuns GpuNeighbors.
Import ListNotations.

(** Blocks whose threads agree up to empty phases at the end. *)
Lemma nth_pad {A} (l : list (list A)) k p : nth p (l ++ repeat [] k ++ [[]]) [] = nth p (l ++ [[]]) [].
Proof.
  assert (E : forall n q, nth q (repeat ([] : list A) n) [] = []).
  { induction n as [|n IH]; intros [|r]; cbn; auto. }
  destruct (Nat.lt_ge_cases p (length l)) as [H|H]; [rewrite !app_nth1 by auto; auto|].
  rewrite (app_nth2 l (repeat [] k ++ [[]])), (app_nth2 l [[]]) by auto.
  generalize (p - length l). intros q. change [[]] with (repeat ([] : list A) 1). rewrite <- repeat_app, !E. reflexivity.
Qed.
Lemma block_rem_ext {M} (f g : nat -> list (list (action M))) ts :
  (forall t p, In t ts -> nth p (f t) [] = nth p (g t) []) -> block_rem (map f ts) = block_rem (map g ts).
Proof.
  intros H. set (n := Nat.max (depth (map f ts)) (depth (map g ts))).
  rewrite (block_rem_ge (map f ts) n), (block_rem_ge (map g ts) n) by (unfold n; lia).
  apply flat_map_ext. intros p. rewrite !phase_acts_uniform. apply flat_map_ext_in'. auto.
Qed.
Lemma iterations_pad {A} (ph : nat -> list (list A)) L t s n f cur :
  (forall c, length (ph c) = L) ->
  exists k, flat_map (fun base => if base + t <? n then ph (base + t) else repeat [] L) (iterations f cur s n) =
            flat_map ph (iterations f (t + cur) s n) ++ repeat [] k.
Proof.
  intros HL. revert cur. induction f as [|f IH]; intros cur; cbn [iterations flat_map]; [exists 0; auto|].
  destruct (Nat.ltb_spec cur n) as [C|C].
  - cbn [flat_map]. destruct (IH (cur + s)) as [k E]. rewrite E. replace (cur + t) with (t + cur) by lia.
    destruct (Nat.ltb_spec (t + cur) n) as [C'|C'].
    + exists k. cbn [flat_map]. rewrite <- app_assoc. replace (t + cur + s) with (t + (cur + s)) by lia. reflexivity.
    + exists (L + k). replace (iterations f (t + (cur + s)) s n) with (@nil nat).
      * cbn [flat_map app]. now rewrite repeat_app.
      * destruct f; cbn [iterations]; auto. destruct (Nat.ltb_spec (t + (cur + s)) n); auto. lia.
  - exists 0. destruct (Nat.ltb_spec (t + cur) n); [lia|]. reflexivity.
Qed.

(** Every group of equal values in a non-decreasing sequence has one leader. *)
Definition leader (f : nat -> nat) (t : nat) : bool := match t with 0 => true | S t' => negb (f t' =? f t) end.
Lemma one_leader (f : nat -> nat) (K : Z) s w : (forall t, f t <= f (S t)) ->
  tot (fun t => if f t =? s then if leader f t then K else 0%Z else 0%Z) (seq 0 w) =
  if existsb (fun t => f t =? s) (seq 0 w) then K else 0%Z.
Proof.
  intros M. assert (Mono : forall a b, a <= b -> f a <= f b).
  { intros a b H. induction H; auto. specialize (M m). lia. }
  induction w as [|w IH]; auto. rewrite seq_S, tot_app, existsb_app, IH, tot_cons, tot_nil. cbn [Nat.add existsb]. rewrite orb_false_r.
  destruct (Nat.eqb_spec (f w) s) as [E|E]; [|rewrite orb_false_r; lia]. rewrite orb_true_r.
  destruct w as [|w]; [cbn; lia|]. cbn [leader]. destruct (Nat.eqb_spec (f w) (f (S w))) as [Q|Q]; cbn [negb].
  - replace (existsb (fun t => f t =? s) (seq 0 (S w))) with true; [lia|]. symmetry. apply existsb_exists. exists w.
    split; [apply in_seq; lia|]. apply Nat.eqb_eq. congruence.
  - replace (existsb (fun t => f t =? s) (seq 0 (S w))) with false; [lia|]. symmetry.
    destruct (existsb (fun t => f t =? s) (seq 0 (S w))) eqn:X; auto. apply existsb_exists in X. destruct X as (t & Ht & X).
    apply in_seq in Ht. apply Nat.eqb_eq in X. pose proof (Mono t w ltac:(lia)). pose proof (M w). lia.
Qed.

Lemma nth_error_seq n b x : nth_error (seq 0 n) b = Some x -> x = b /\ b < n.
Proof.
  intros E. assert (b < n) by (rewrite <- (seq_length n 0); apply nth_error_Some; congruence).
  apply (nth_error_nth _ _ 0) in E. rewrite seq_nth in E by auto. auto.
Qed.
Definition buf (k : nat) (x : nat * nat) : bool := fst x =? k.

Section Count.
  Variables (bs per n blocks N : nat) (fnd : nat -> option (list nat)).
  Hypothesis Hbs : bs <> 0.
  Hypothesis Hper : per <> 0.
  Hypothesis Hn : n = N * per.
  Hypothesis Hf : forall i, i < n -> exists l, fnd i = Some l.

  Definition hits (i : nat) : list nat := match fnd i with Some l => l | None => [] end.
  Definition nhits (i : nat) : Z := Z.of_nat (length (hits i)).
  Definition count_thread (b t : nat) : list (list (action (mem Z))) :=
    flat_map (count_phases bs b per fnd t) (strided (t + bs * b) (blocks * bs) n) ++ [[]].
  Definition pad_phases (b t base : nat) : list (list (action (mem Z))) :=
    if base + t <? n then count_phases bs b per fnd t (base + t) else repeat [] 3.
  Definition bases (b : nat) : list nat := strided (bs * b) (blocks * bs) n.
  Definition round (b base : nat) : list (action (mem Z)) :=
    flat_map (fun p => flat_map (fun t => nth p (pad_phases b t base) []) (seq 0 bs)) (seq 0 3).

  Lemma count_rem : all_rem (count_kernel per fnd blocks bs n) = flat_map (fun b => flat_map (round b) (bases b)) (seq 0 blocks).
  Proof.
    unfold all_rem, count_kernel. rewrite flat_map_concat_map, map_map, <- flat_map_concat_map. apply flat_map_ext. intros b.
    rewrite (block_rem_ext _ (fun t => flat_map (pad_phases b t) (bases b) ++ [[]])).
    - rewrite (rounds_rem (fun t => pad_phases b t) 3); [reflexivity|].
      intros t e. unfold pad_phases. destruct (e + t <? n); reflexivity.
    - intros t p _. unfold bases, strided. destruct (iterations_pad (count_phases bs b per fnd t) 3 t (blocks * bs) n n (bs * b) ltac:(reflexivity)) as [k E].
      unfold pad_phases. rewrite E, <- app_assoc, nth_pad. reflexivity.
  Qed.

  (** What a thread can do in a phase. *)
  Lemma in_thread b t p a : blocks <> 0 -> In a (nth p (count_thread b t) []) ->
    exists s, (p mod 3 = 0 /\ In a (count_init bs b t s)) \/ (p mod 3 = 1 /\ a = count_bump bs b s) \/
              (p mod 3 = 2 /\ a = count_add bs b t s).
  Proof.
    intros HB H. unfold count_thread in H. rewrite (rounds_nth _ 3) in H by (auto; lia).
    destruct (nth_error (strided (t + bs * b) (blocks * bs) n) (p / 3)) as [cur|] eqn:E; [|destruct H].
    apply nth_error_In in E. apply strided_in in E; [|lia]. destruct E as [Hc _]. destruct (Hf cur Hc) as [l El].
    exists (cur / per). unfold count_phases in H. rewrite El in H. pose proof (Nat.mod_upper_bound p 3 ltac:(lia)) as U.
    destruct (p mod 3) as [|[|[|]]]; [..|lia]; cbn [nth] in H.
    - left. auto.
    - right; left. split; auto. apply in_map_iff in H. destruct H as (? & <- & _). auto.
    - right; right. split; auto. destruct H as [<-|[]]. auto.
  Qed.

  Lemma bump_adder b s : adder (fun x => cell_eqb x (S b, 0)) (fun x => (fst x =? S b) && (bs <=? snd x)) (count_bump bs b s).
  Proof.
    exists (fun m => obind (count_slot bs b s m) (fun x => Some (Some (x, 1%Z)))). split; [|split].
    - intros m. unfold count_bump. destruct (count_slot bs b s m); cbn; auto.
    - intros m m' _ G. unfold count_slot. rewrite (G (S b, 0)) by apply cell_eqb_refl. reflexivity.
    - intros m x v E. unfold count_slot in E. destruct (get (S b, 0) m) as [v0|]; cbn in E; [|discriminate].
      destruct (Z.of_nat s <? v0)%Z; cbn in E; [discriminate|]. injection E as <- <-. cbn [fst snd].
      rewrite Nat.eqb_refl. cbn. apply Nat.leb_le. lia.
  Qed.
  Lemma add_adder b t s : adder (buf (S b)) (buf 0) (count_add bs b t s).
  Proof.
    destruct t as [|t].
    - exists (fun m => obind (get (S b, bs) m) (fun v => Some (Some ((0, s), v)))). split; [|split].
      + intros m. cbn [count_add]. destruct (get (S b, bs) m); cbn; auto.
      + intros m m' _ G. rewrite (G (S b, bs)); auto. unfold buf. cbn. apply Nat.eqb_refl.
      + intros m x v E. destruct (get (S b, bs) m) as [v0|]; cbn in E; [|discriminate]. injection E as <- <-. reflexivity.
    - exists (fun m => obind (get (S b, t) m) (fun p => if (p =? Z.of_nat s)%Z then Some None
                else obind (count_slot bs b s m) (fun x => obind (get x m) (fun v => Some (Some ((0, s), v)))))). split; [|split].
      + intros m. cbn [count_add]. destruct (get (S b, t) m) as [p|]; cbn [obind]; auto. destruct (p =? Z.of_nat s)%Z; auto.
        destruct (count_slot bs b s m); cbn [obind]; auto. destruct (get p0 m); cbn; auto.
      + intros m m' _ G. assert (G0 : forall i, get (S b, i) m = get (S b, i) m') by (intros i; apply G; unfold buf; apply Nat.eqb_refl).
        rewrite (G0 t). destruct (get (S b, t) m'); cbn [obind]; auto. destruct (z =? Z.of_nat s)%Z; auto.
        unfold count_slot. rewrite (G0 0). destruct (get (S b, 0) m'); cbn [obind]; auto. destruct (Z.of_nat s <? z0)%Z; cbn [obind]; auto.
        rewrite G0. reflexivity.
      + intros m x v E. destruct (get (S b, t) m); cbn [obind] in E; [|discriminate]. destruct (z =? Z.of_nat s)%Z; [discriminate|].
        destruct (count_slot bs b s m); cbn [obind] in E; [|discriminate]. destruct (get p m); cbn in E; [|discriminate]. injection E as <- <-. reflexivity.
  Qed.
  Lemma init_frame b t s a : In a (count_init bs b t s) -> frm [(S b, t); (S b, bs + t)] [(S b, t); (S b, bs + t)] a.
  Proof.
    intros [<-|[<-|[]]]; (eapply frm_weaken; [apply frm_put|..]).
    1,2: intros x [<-|[]]; left; auto.
    2,3: intros x [<-|[]]; right; left; auto.
    all: intros x Hx; exact Hx.
  Qed.
  Lemma private_frame b t p a : blocks <> 0 -> In a (nth p (count_thread b t) []) ->
    frame (buf (S b)) (buf (S b)) a \/ adder (buf (S b)) (buf 0) a.
  Proof.
    intros HB H. destruct (in_thread b t p a HB H) as (s & [(_ & Ha)|[(_ & ->)|(_ & ->)]]).
    - left. eapply frame_weaken; [exact (init_frame b t s a Ha)|..]; auto; intros x Hx; apply in_cells_b_iff in Hx; unfold buf;
        destruct Hx as [<-|[<-|[]]]; apply Nat.eqb_refl.
    - left. eapply frame_weaken; [exact (adder_frame _ _ _ (bump_adder b s))|..]; auto.
      + intros x Hx. apply orb_true_iff in Hx. destruct Hx as [Hx|Hx].
        * apply cell_eqb_eq in Hx. subst x. apply Nat.eqb_refl.
        * apply andb_true_iff in Hx. apply Hx.
      + intros x Hx. apply andb_true_iff in Hx. apply Hx.
    - right. apply add_adder.
  Qed.

  Lemma count_ok : blocks <> 0 -> blocks_ok (count_kernel per fnd blocks bs n).
  Proof.
    intros HB. unfold count_kernel. split.
    - intros b blk E. rewrite nth_error_map in E. destruct (nth_error (seq 0 blocks) b) as [b'|] eqn:Eb; [|discriminate].
      cbn [option_map] in E. injection E as <-. apply nth_error_seq in Eb. destruct Eb as [-> Hb].
      intros p i j ti tj a a' Hi Hj Ne Ha Ha'. rewrite nth_error_map in Hi, Hj.
      destruct (nth_error (seq 0 bs) i) as [i'|] eqn:Ei; [|discriminate]. destruct (nth_error (seq 0 bs) j) as [j'|] eqn:Ej; [|discriminate].
      apply nth_error_seq in Ei, Ej. destruct Ei as [-> Hi'], Ej as [-> Hj'].
      cbn [option_map] in Hi, Hj. injection Hi as <-. injection Hj as <-.
      destruct (in_thread b i p a HB Ha) as (s & [(P1 & H1)|[(P1 & ->)|(P1 & ->)]]);
      destruct (in_thread b j p a' HB Ha') as (s' & [(P2 & H2)|[(P2 & ->)|(P2 & ->)]]); try (rewrite P1 in P2; discriminate).
      + eapply frm_commute; [eapply init_frame; eauto|eapply init_frame; eauto|..];
          intros x [<-|[<-|[]]] [E|[E|[]]]; inversion E; lia.
      + eapply adder_commute; [apply bump_adder|apply bump_adder|..]; cbv beta; intros x Hx; apply andb_true_iff in Hx; destruct Hx as [_ Hx];
          apply Nat.leb_le in Hx; destruct (cell_eqb x (S b, 0)) eqn:Q; auto; apply cell_eqb_eq in Q; subst x; cbn in Hx; lia.
      + eapply adder_commute; [apply add_adder|apply add_adder|..]; unfold buf; intros x Hx; apply Nat.eqb_eq in Hx; rewrite Hx; reflexivity.
    - intros b b' blk blk' a a' E E' Ne Ha Ha'. rewrite nth_error_map in E, E'.
      destruct (nth_error (seq 0 blocks) b) as [c|] eqn:Eb; [|discriminate]. destruct (nth_error (seq 0 blocks) b') as [c'|] eqn:Eb'; [|discriminate].
      apply nth_error_seq in Eb, Eb'. destruct Eb as [-> Hb], Eb' as [-> Hb']. cbn [option_map] in E, E'. injection E as <-. injection E' as <-.
      assert (X : forall c x, In x (block_rem (map (count_thread c) (seq 0 bs))) -> frame (buf (S c)) (buf (S c)) x \/ adder (buf (S c)) (buf 0) x).
      { intros c x Hx. apply in_block_rem in Hx. destruct Hx as (p & i & t & Hi & Hx). rewrite nth_error_map in Hi.
        destruct (nth_error (seq 0 bs) i); [|discriminate]. cbn in Hi. injection Hi as <-. eapply private_frame; eauto. }
      apply X in Ha, Ha'. assert (NE : forall x, buf (S b) x = true -> buf (S b') x = false).
      { unfold buf. intros x Hx. apply Nat.eqb_eq in Hx. rewrite Hx. apply Nat.eqb_neq. lia. }
      assert (NE' : forall x, buf (S b') x = true -> buf (S b) x = false).
      { unfold buf. intros x Hx. apply Nat.eqb_eq in Hx. rewrite Hx. apply Nat.eqb_neq. lia. }
      assert (N0 : forall c x, buf 0 x = true -> buf (S c) x = false).
      { unfold buf. intros c x Hx. apply Nat.eqb_eq in Hx. rewrite Hx. reflexivity. }
      destruct Ha as [Ha|Ha], Ha' as [Ha'|Ha'].
      + exact (frame_commute _ _ _ _ _ _ Ha Ha' NE NE').
      + apply (frame_commute _ _ _ _ _ _ Ha (adder_frame _ _ _ Ha')); auto.
        intros x Hx. rewrite (NE x Hx). destruct (buf 0 x) eqn:Q; auto. rewrite (N0 b x Q) in Hx. discriminate.
      + apply (frame_commute _ _ _ _ _ _ (adder_frame _ _ _ Ha) Ha'); auto.
        intros x Hx. rewrite (NE' x Hx). destruct (buf 0 x) eqn:Q; auto. rewrite (N0 b' x Q) in Hx. discriminate.
      + apply (adder_commute _ _ _ _ _ _ Ha Ha'); auto.
  Qed.

  (** ** The canonical run *)
  Definition shaped (m : mem Z) : Prop :=
    (forall s, s < N -> has m (0, s)) /\ forall b i, b < blocks -> i < 2 * bs -> has m (S b, i).
  Lemma shaped_shape m m' : same_shape m m' -> shaped m -> shaped m'.
  Proof. intros Sh [H1 H2]. split; intros; eapply has_shape; eauto. Qed.

  Section Round.
    Variables (b base : nat).
    Hypothesis Hb : b < blocks.
    Hypothesis Hbase : base < n.
    Let w := Nat.min bs (n - base).
    Let si (t : nat) : nat := (base + t) / per.
    Lemma w_pos : 0 < w. Proof. unfold w. lia. Qed.
    Lemma si_mono t : si t <= si (S t). Proof. apply Nat.div_le_mono; lia. Qed.
    Lemma si_le t t' : t <= t' -> si t <= si t'. Proof. intros; apply Nat.div_le_mono; lia. Qed.
    Lemma si_lt t : t < w -> si t < N.
    Proof. intros H. apply Nat.div_lt_upper_bound; auto. unfold w in H. rewrite Nat.mul_comm. lia. Qed.
    Lemma si_grow t : si t <= si 0 + t.
    Proof.
      unfold si. replace (base + 0) with base by lia.
      pose proof (Nat.div_mod (base + t) per Hper). pose proof (Nat.div_mod base per Hper). pose proof (Nat.mod_upper_bound base per Hper).
      destruct (Nat.le_gt_cases ((base + t) / per) (base / per + t)) as [|C]; auto. nia.
    Qed.

    Lemma round_split : round b base =
      flat_map (fun t => count_init bs b t (si t)) (seq 0 w) ++
      flat_map (fun t => map (fun _ => count_bump bs b (si t)) (hits (base + t))) (seq 0 w) ++
      map (fun t => count_add bs b t (si t)) (seq 0 w).
    Proof.
      assert (X : forall p, flat_map (fun t => nth p (pad_phases b t base) []) (seq 0 bs) =
                  flat_map (fun t => nth p (count_phases bs b per fnd t (base + t)) []) (seq 0 w)).
      { intros p. replace bs with (w + (bs - w)) by (unfold w; lia). rewrite seq_app, flat_map_app.
        rewrite (flat_map_nil _ (seq (0 + w) (bs - w))).
        - rewrite app_nil_r. apply flat_map_ext_in'. intros t Ht. apply in_seq in Ht. unfold pad_phases.
          destruct (Nat.ltb_spec (base + t) n) as [|C]; [|unfold w in Ht; lia].
          replace (w + (bs - w)) with bs by (unfold w; lia). reflexivity.
        - intros t Ht. apply in_seq in Ht. unfold pad_phases. destruct (Nat.ltb_spec (base + t) n) as [C|]; [unfold w in Ht; lia|].
          destruct p as [|[|[|[|]]]]; reflexivity. }
      unfold round. cbn [seq flat_map]. rewrite !X, app_nil_r. apply f_equal2; [reflexivity|apply f_equal2].
      - apply flat_map_ext_in'. intros t Ht. apply in_seq in Ht. cbn [count_phases nth]. unfold hits.
        destruct (Hf (base + t)) as [l El]; [unfold w in Ht; lia|]. rewrite El. reflexivity.
      - cbn [count_phases nth]. rewrite flat_map_concat_map, <- (map_map (fun t => count_add bs b t (si t)) (fun a => [a])).
        rewrite <- flat_map_concat_map. induction (map (fun t => count_add bs b t (si t)) (seq 0 w)); cbn; f_equal; auto.
    Qed.

    Lemma round_run m : shaped m ->
      exists m', run_all (round b base) m = Some m' /\ same_shape m m' /\
        forall s, s < N -> get (0, s) m' =
          option_map (fun v => (v + tot (fun t => if (si t =? s)%nat then nhits (base + t) else 0) (seq 0 w))%Z) (get (0, s) m).
    Proof.
      intros Shp. rewrite round_split, run_all_app. pose proof w_pos as Hw.
      assert (Wb : w <= bs) by (unfold w; lia).
      (* first part *)
      set (ws := flat_map (fun t => [((S b, t), Z.of_nat (si t)); ((S b, bs + t), 0%Z)]) (seq 0 w)).
      destruct (run_puts ws m) as (m1 & E1 & S1 & G1 & O1).
      { intros x Hx. unfold ws in Hx. apply in_flat_map in Hx. destruct Hx as (t & Ht & Hx). apply in_seq in Ht.
        destruct Hx as [<-|[<-|[]]]; cbn [fst]; apply Shp; auto; lia. }
      { unfold ws. rewrite flat_map_concat_map, concat_map, map_map, <- flat_map_concat_map. cbn [map fst].
        apply nodup_flat_map; [apply seq_NoDup| |].
        - intros t Ht. apply in_seq in Ht. constructor; [intros [E|[]]; inversion E; lia|]. constructor; [intros []|constructor].
        - intros t t' x Ht Ht' Hx Hx'. apply in_seq in Ht, Ht'. destruct Hx as [<-|[<-|[]]], Hx' as [E|[E|[]]]; inversion E; lia. }
      assert (Ew : flat_map (fun t => count_init bs b t (si t)) (seq 0 w) = map (fun x => put (fst x) (snd x)) ws).
      { unfold ws. clear. induction (seq 0 w) as [|t l IH]; cbn; auto. rewrite IH. reflexivity. }
      rewrite Ew, E1. cbn [obind].
      assert (Low : forall t, t < w -> get (S b, t) m1 = Some (Z.of_nat (si t))).
      { intros t Ht. apply G1. unfold ws. apply in_flat_map. exists t. split; [apply in_seq; lia|left; auto]. }
      assert (Upp : forall t, t < w -> get (S b, bs + t) m1 = Some 0%Z).
      { intros t Ht. apply G1. unfold ws. apply in_flat_map. exists t. split; [apply in_seq; lia|right; left; auto]. }
      assert (Glo : forall s, get (0, s) m1 = get (0, s) m).
      { intros s. apply O1. intros H. unfold ws in H. apply in_map_iff in H. destruct H as (x & Ex & Hx). apply in_flat_map in Hx.
        destruct Hx as (t & _ & [<-|[<-|[]]]); discriminate. }
      pose proof (shaped_shape m m1 S1 Shp) as Shp1.
      (* second part *)
      set (d2 := flat_map (fun t => map (fun _ : nat => ((S b, bs + (si t - si 0)), 1%Z)) (hits (base + t))) (seq 0 w)).
      assert (Hd2 : forall d, In d d2 -> exists j, j < w /\ fst d = (S b, bs + j)).
      { intros d Hd. unfold d2 in Hd. apply in_flat_map in Hd. destruct Hd as (t & Ht & Hd). apply in_seq in Ht.
        apply in_map_iff in Hd. destruct Hd as (x & <- & _). cbn [fst]. exists (si t - si 0). split; auto.
        pose proof (si_grow t). lia. }
      set (J2 := fun m' : mem Z => get (S b, 0) m' = Some (Z.of_nat (si 0))).
      assert (R2 : run_all (flat_map (fun t => map (fun _ => count_bump bs b (si t)) (hits (base + t))) (seq 0 w)) m1 =
                   run_all (map (fun d => addc (fst d) (snd d)) d2) m1).
      { apply (run_as_adds J2); [| |apply Low; auto].
        - assert (Sle : forall t, si 0 <= si t) by (intros; apply si_le; lia). unfold d2. clear -Sle. induction (seq 0 w) as [|t l IH]; cbn [flat_map]; [constructor|]. apply Forall2_app; auto.
          induction (hits (base + t)) as [|x h IHh]; cbn [map]; constructor; auto. intros m' Jm. cbn [fst snd].
          unfold count_bump, count_slot. rewrite Jm. cbn [obind]. pose proof (Sle t).
          destruct (Z.ltb_spec (Z.of_nat (si t)) (Z.of_nat (si 0))) as [C|C]; [lia|]. cbn [obind].
          replace (Z.to_nat (Z.of_nat (si t) - Z.of_nat (si 0))) with (si t - si 0) by lia. reflexivity.
        - intros m2 m2' d Hd Jm E. destruct (Hd2 d Hd) as (j & Hj & Ed). unfold J2 in *. destruct (modify_inv _ _ _ _ E) as (_ & _ & O).
          rewrite O; auto. rewrite Ed. intros C. inversion C. lia. }
      rewrite run_all_app, R2. destruct (run_adds d2 m1) as (m2 & E2 & S2 & G2).
      { intros d Hd. destruct (Hd2 d Hd) as (j & Hj & ->). apply Shp1; auto. lia. }
      rewrite E2. cbn [obind].
      assert (Low2 : forall t, t < w -> get (S b, t) m2 = Some (Z.of_nat (si t))).
      { intros t Ht. rewrite G2, Low by auto. cbn [option_map]. f_equal. unfold added. rewrite tot_zero; [lia|].
        intros d Hd. destruct (Hd2 d Hd) as (j & Hj & ->). destruct (cell_eqb (S b, t) (S b, bs + j)) eqn:Q; auto. apply cell_eqb_eq in Q. inversion Q. lia. }
      set (K := fun s => tot (fun t => if si t =? s then nhits (base + t) else 0%Z) (seq 0 w)).
      assert (Upp2 : forall j, j < w -> get (S b, bs + j) m2 = Some (K (si 0 + j))).
      { intros j Hj. rewrite G2, Upp by auto. cbn [option_map]. f_equal. unfold added, d2, K. rewrite tot_flat_map. rewrite Z.add_0_l.
        apply tot_ext. intros t _. rewrite tot_map. cbn [fst snd]. unfold nhits. pose proof (si_le 0 t ltac:(lia)).
        destruct (Nat.eqb_spec (si t) (si 0 + j)) as [E|E].
        - replace (cell_eqb (S b, bs + j) (S b, bs + (si t - si 0))) with true by (symmetry; apply cell_eqb_eq; f_equal; lia).
          induction (hits (base + t)) as [|x h IHh]; [reflexivity|]. rewrite tot_cons, IHh. cbn [length]. lia.
        - replace (cell_eqb (S b, bs + j) (S b, bs + (si t - si 0))) with false.
          + apply tot_zero. auto.
          + symmetry. destruct (cell_eqb (S b, bs + j) (S b, bs + (si t - si 0))) eqn:Q; auto. apply cell_eqb_eq in Q. inversion Q. lia. }
      assert (Glo2 : forall s, get (0, s) m2 = get (0, s) m).
      { intros s. rewrite G2, Glo. destruct (get (0, s) m); cbn [option_map]; auto. f_equal. unfold added. rewrite tot_zero; [lia|].
        intros d Hd. destruct (Hd2 d Hd) as (j & Hj & ->). reflexivity. }
      pose proof (shaped_shape m1 m2 S2 Shp1) as Shp2.
      (* third part *)
      set (d3 := map (fun t => ((0, si t), if leader si t then K (si t) else 0%Z)) (seq 0 w)).
      assert (Hd3 : forall d, In d d3 -> exists t, t < w /\ fst d = (0, si t)).
      { intros d Hd. unfold d3 in Hd. apply in_map_iff in Hd. destruct Hd as (t & <- & Ht). apply in_seq in Ht. exists t. cbn. split; [lia|auto]. }
      set (J3 := fun m' : mem Z => shaped m' /\ (forall t, t < w -> get (S b, t) m' = Some (Z.of_nat (si t))) /\
                  forall j, j < w -> get (S b, bs + j) m' = Some (K (si 0 + j))).
      assert (R3 : run_all (map (fun t => count_add bs b t (si t)) (seq 0 w)) m2 = run_all (map (fun d => addc (fst d) (snd d)) d3) m2).
      { apply (run_as_adds J3); [| |split; auto].
        - unfold d3. assert (F : forall t, In t (seq 0 w) -> t < w) by (intros t Ht; apply in_seq in Ht; lia). revert F. generalize (seq 0 w).
          intros l F. induction l as [|t l IH]; cbn [map]; constructor; [|apply IH; intros; apply F; right; auto].
          assert (Ht : t < w) by (apply F; left; auto). intros m' (Js & Jl & Ju). cbn [fst snd].
          destruct t as [|t]; cbn [count_add leader].
          + replace bs with (bs + 0) at 1 by lia. rewrite Ju by auto. cbn [obind]. rewrite Nat.add_0_r. reflexivity.
          + rewrite (Jl t) by lia. cbn [obind]. destruct (Nat.eqb_spec (si t) (si (S t))) as [E|E]; cbn [negb].
            * rewrite E, Z.eqb_refl. symmetry. apply addc_zero. apply Js. now apply si_lt.
            * destruct (Z.eqb_spec (Z.of_nat (si t)) (Z.of_nat (si (S t)))) as [C|C]; [lia|].
              unfold count_slot. rewrite (Jl 0) by auto. cbn [obind]. pose proof (si_le 0 (S t) ltac:(lia)) as Q.
              destruct (Z.ltb_spec (Z.of_nat (si (S t))) (Z.of_nat (si 0))) as [C'|C']; [lia|]. cbn [obind].
              replace (Z.to_nat (Z.of_nat (si (S t)) - Z.of_nat (si 0))) with (si (S t) - si 0) by lia.
              pose proof (si_grow (S t)). rewrite Ju by lia. cbn [obind]. replace (si 0 + (si (S t) - si 0)) with (si (S t)) by lia. reflexivity.
        - intros m3 m3' d Hd (Js & Jl & Ju) E. destruct (Hd3 d Hd) as (t & Ht & Ed). destruct (modify_inv _ _ _ _ E) as (Sh & _ & O).
          split; [eapply shaped_shape; eauto|]. split; intros u Hu; (rewrite O; [auto|rewrite Ed; discriminate]). }
      rewrite R3. destruct (run_adds d3 m2) as (m3 & E3 & S3 & G3).
      { intros d Hd. destruct (Hd3 d Hd) as (t & Ht & ->). apply Shp2. now apply si_lt. }
      exists m3. split; [auto|]. split; [eapply same_shape_trans; [|eauto]; eapply same_shape_trans; eauto|].
      intros s Hs. rewrite G3, Glo2. destruct (get (0, s) m); cbn [option_map]; auto. f_equal. f_equal.
      unfold added, d3. rewrite tot_map. cbn [fst snd].
      transitivity (tot (fun t => if si t =? s then if leader si t then K s else 0%Z else 0%Z) (seq 0 w)).
      - apply tot_ext. intros t _. unfold cell_eqb. cbn [fst snd]. rewrite Nat.eqb_refl. cbn [andb]. rewrite Nat.eqb_sym.
        destruct (Nat.eqb_spec (si t) s) as [->|]; auto.
      - rewrite one_leader by apply si_mono. fold (K s). destruct (existsb (fun t => si t =? s) (seq 0 w)) eqn:X; auto.
        unfold K. symmetry. apply tot_zero. intros t Ht. destruct (si t =? s) eqn:Q; auto.
        assert (existsb (fun t => si t =? s) (seq 0 w) = true) by (apply existsb_exists; eauto). congruence.
    Qed.
  End Round.

  Lemma rounds_run (rs : list (nat * nat)) m : shaped m -> (forall r, In r rs -> fst r < blocks /\ snd r < n) ->
    exists m', run_all (flat_map (fun r => round (fst r) (snd r)) rs) m = Some m' /\ same_shape m m' /\
      forall s, s < N -> get (0, s) m' = option_map (fun v => (v +
        tot (fun i => if (i / per =? s)%nat then nhits i else 0)
          (flat_map (fun r => map (fun t => (snd r + t)%nat) (seq 0 (Nat.min bs (n - snd r)))) rs))%Z) (get (0, s) m).
  Proof.
    revert m. induction rs as [|[b base] rs IH]; intros m Shp H.
    - exists m. cbn [flat_map run_all]. repeat split. intros s _. destruct (get (0, s) m); cbn [option_map]; auto. rewrite tot_nil. f_equal. lia.
    - destruct (H (b, base) ltac:(left; auto)) as [Hb Hbase]. cbn [fst snd] in *.
      destruct (round_run b base Hb Hbase m Shp) as (m1 & E1 & S1 & G1).
      destruct (IH m1 (shaped_shape m m1 S1 Shp)) as (m2 & E2 & S2 & G2); [intros; apply H; right; auto|].
      exists m2. cbn [flat_map]. rewrite run_all_app. cbn [fst snd]. rewrite E1. cbn [obind]. rewrite E2. split; auto.
      split; [eapply same_shape_trans; eauto|]. intros s Hs. rewrite G2, G1 by auto. destruct (get (0, s) m); cbn [option_map]; auto.
      f_equal. rewrite tot_app, tot_map. lia.
  Qed.

  Lemma rounds_all : blocks <> 0 ->
    Permutation (flat_map (fun r => map (fun t => snd r + t) (seq 0 (Nat.min bs (n - snd r))))
                          (flat_map (fun b => map (fun base => (b, base)) (bases b)) (seq 0 blocks))) (seq 0 n).
  Proof.
    intros HB. assert (P : blocks * bs <> 0) by (intros E; apply Nat.mul_eq_0 in E; lia).
    assert (X : forall b base, In (b, base) (flat_map (fun b => map (fun base => (b, base)) (bases b)) (seq 0 blocks)) <->
      b < blocks /\ base < n /\ exists k, base = bs * (b + k * blocks)).
    { intros b base. rewrite in_flat_map. split.
      - intros (b' & Hb' & H). apply in_seq in Hb'. apply in_map_iff in H. destruct H as (c & E & H). inversion E; subst b' c.
        apply strided_in in H; [|lia]. destruct H as (H & k & ->). split; [lia|]. split; [auto|]. exists k. lia.
      - intros (Hb & Hl & k & ->). exists b. split; [apply in_seq; lia|]. apply in_map_iff. eexists. split; [reflexivity|].
        apply strided_in; [lia|]. split; auto. exists k. lia. }
    assert (Y : forall b base t, b < blocks -> t < bs -> forall k, base = bs * (b + k * blocks) -> (base + t) / bs = b + k * blocks).
    { intros b base t Hb Ht k ->. rewrite Nat.mul_comm, Nat.div_add_l by auto. rewrite Nat.div_small by auto. lia. }
    apply NoDup_Permutation.
    - apply nodup_flat_map.
      + apply nodup_flat_map; [apply seq_NoDup| |].
        * intros b _. apply FinFun.Injective_map_NoDup; [intros ? ? E; inversion E; auto|]. apply iterations_nodup. lia.
        * intros b b' [c base] _ _ H H'. apply in_map_iff in H, H'. destruct H as (? & E & _), H' as (? & E' & _). inversion E; inversion E'. congruence.
      + intros r _. apply FinFun.Injective_map_NoDup; [intros ? ? E; lia|apply seq_NoDup].
      + intros [b base] [b' base'] i H H' Hi Hi'. apply X in H, H'. destruct H as (Hb & Hl & k & E), H' as (Hb' & Hl' & k' & E').
        apply in_map_iff in Hi, Hi'. cbn [snd] in *. destruct Hi as (t & Et & Ht), Hi' as (t' & Et' & Ht'). apply in_seq in Ht, Ht'.
        assert (Q : b + k * blocks = b' + k' * blocks).
        { rewrite <- (Y b base t Hb ltac:(lia) k E), <- (Y b' base' t' Hb' ltac:(lia) k' E'). congruence. }
        assert (b = b').
        { rewrite <- (Nat.mod_small b blocks Hb), <- (Nat.mod_small b' blocks Hb'), <- (Nat.mod_add b k), <- (Nat.mod_add b' k') by auto. now rewrite Q. }
        subst b'. f_equal. rewrite E, E', Q. reflexivity.
    - apply seq_NoDup.
    - intros i. rewrite in_flat_map, in_seq. split.
      + intros ([b base] & _ & H). apply in_map_iff in H. cbn [snd] in H. destruct H as (t & <- & Ht). apply in_seq in Ht. lia.
      + intros Hi. pose proof (Nat.div_mod i bs Hbs) as E1. pose proof (Nat.mod_upper_bound i bs Hbs) as U1.
        pose proof (Nat.div_mod (i / bs) blocks HB) as E2. pose proof (Nat.mod_upper_bound (i / bs) blocks HB) as U2.
        exists ((i / bs) mod blocks, bs * (i / bs)). split.
        * apply X. split; [auto|]. split; [lia|]. exists ((i / bs) / blocks). f_equal. lia.
        * apply in_map_iff. cbn [snd]. exists (i mod bs). split; [lia|]. apply in_seq. lia.
  Qed.

  Theorem count_kernel_runs counts temps (P : list Z -> Prop) : blocks <> 0 -> length counts = N ->
    length temps = blocks -> Forall (fun l => length l = 2 * bs) temps ->
    P (map (fun s => (nth s counts 0 + tot (fun i => if (i / per =? s)%nat then nhits i else 0) (seq 0 n))%Z) (seq 0 N)) ->
    every_run (fun m => match m with c :: _ => P c | _ => False end) (counts :: temps, count_kernel per fnd blocks bs n).
  Proof.
    intros HB HC HT FT HP. assert (Shp : shaped (counts :: temps)).
    { split.
      - intros s Hs. apply has_iff. exists counts. cbn. split; auto. lia.
      - intros b i Hb Hi. apply has_iff. cbn. destruct (nth_error temps b) as [l|] eqn:E; [|apply nth_error_None in E; lia].
        exists l. split; auto. rewrite Forall_forall in FT. rewrite (FT l); auto. eapply nth_error_In; eauto. }
    destruct (rounds_run (flat_map (fun b => map (fun base => (b, base)) (bases b)) (seq 0 blocks)) _ Shp) as (m' & E & Sh & G).
    { intros [b base] H. apply in_flat_map in H. destruct H as (b' & Hb' & H). apply in_seq in Hb'. apply in_map_iff in H.
      destruct H as (c & Q & H). inversion Q; subst. cbn. apply strided_in in H; [|lia]. split; [lia|apply H]. }
    eapply every_run_weaken; [|apply (every_run_all_rem _ _ m' (count_ok HB))].
    - intros ? ->. destruct m' as [|c temps']; [discriminate|].
      unfold same_shape in Sh. cbn in Sh. injection Sh as Lc Lt.
      match type of HP with P ?x => replace c with x; [exact HP|] end. apply list_eq_nth; [rewrite map_length, seq_length; lia|].
      rewrite map_length, seq_length. intros s d Hs. specialize (G s Hs). unfold get, rd in G. cbn in G.
      rewrite (nth_error_nth' counts 0%Z) in G by lia. cbn in G. apply (nth_error_nth c s d) in G. rewrite G.
      rewrite nth_indep with (d' := (fun s => (nth s counts 0 + tot (fun i => if (i / per =? s)%nat then nhits i else 0) (seq 0 n))%Z) 0) by (rewrite map_length, seq_length; auto).
      rewrite (map_nth (fun s => (nth s counts 0 + tot (fun i => if (i / per =? s)%nat then nhits i else 0) (seq 0 n))%Z)).
      rewrite seq_nth by auto. cbn [Nat.add]. f_equal. symmetry. apply tot_perm, rounds_all. auto.
    - rewrite count_rem. rewrite <- E. f_equal. clear. induction (seq 0 blocks) as [|b l IH]; cbn [flat_map]; auto.
      rewrite flat_map_app, IH. f_equal. clear. induction (bases b) as [|x l IH]; cbn [flat_map map]; auto. now rewrite IH.
  Qed.
End Count.
