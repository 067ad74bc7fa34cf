(** The CUDA basis projection under every schedule. *)
From Coq Require Import List Arith ZArith Lia Reals Lra Bool Permutation.
From Verif Require Import Tensor TensorFacts RTensor Pdf SpecPdf PdfFacts LayerFacts Cuda CudaFacts MemFacts AddFacts CudaUpdate PhasedFacts GpuBasis.
Import ListNotations.
Local Open Scope nat_scope.

(** ** Sums *)
Lemma sum_over_snoc n f : sum_over (seq 0 (S n)) f = (sum_over (seq 0 n) f + f n)%R.
Proof. rewrite seq_S, sum_over_app. change (sum_over [0 + n] f) with (f n + 0)%R. lra. Qed.
Lemma sum_over_add l f g : sum_over l (fun i => f i + g i)%R = (sum_over l f + sum_over l g)%R.
Proof. unfold sum_over. induction l as [|x l IH]; cbn; [lra|]. rewrite IH. lra. Qed.
Lemma sum_over_0 l : sum_over l (fun _ => 0%R) = 0%R.
Proof. unfold sum_over. induction l as [|x l IH]; cbn; [lra|]. rewrite IH. lra. Qed.
Lemma sum_over_swap l l' (f : nat -> nat -> R) : sum_over l (fun i => sum_over l' (f i)) = sum_over l' (fun j => sum_over l (fun i => f i j)).
Proof.
  induction l as [|x l IH].
  - cbn. symmetry. apply sum_over_0.
  - change (sum_over (x :: l) (fun i => sum_over l' (f i))) with (sum_over l' (f x) + sum_over l (fun i => sum_over l' (f i)))%R.
    rewrite IH, <- sum_over_add. apply sum_over_ext. intros j _. reflexivity.
Qed.
Lemma sum_groups n q f : sum_over (seq 0 n) (fun g => sum_over (seq 0 q) (fun j => f (g + j * n))) = sum_over (seq 0 (q * n)) f.
Proof.
  rewrite sum_over_swap, sum_split. apply sum_over_ext. intros j _. apply sum_over_ext. intros g _. f_equal. lia.
Qed.
Lemma fold_plus l a : fold_left Rplus l a = (a + rsum l)%R.
Proof. revert a. induction l as [|x l IH]; intros a; cbn; [unfold rsum; cbn; lra|]. rewrite IH. unfold rsum. cbn. lra. Qed.

Lemma mixed a n r c d : r < n -> d < n -> a * n + r = c * n + d -> a = c /\ r = d.
Proof. intros. assert (a = c) by nia. subst. lia. Qed.

(** ** Threads as phases *)
Section Loop.
  Context {A : Type}.
  Variables (load add : nat -> nat -> list A) (save : nat -> list A).
  Fixpoint loop_phases (pre : nat -> list A) (ks : list nat) : list (nat -> list A) :=
    match ks with
    | [] => [fun t => pre t ++ save t]
    | k :: r => (fun t => pre t ++ load t k) :: (fun t => add t k) :: loop_phases (fun _ => []) r
    end.
End Loop.

Section Forward.
  Variables (K G C NG nfb : nat) (nbs : list (nat * nat)) (ends : list Z) (basis feats : list R).
  Hypotheses (HK : 0 < K) (HG : 0 < G) (HGK : G <= K) (HC : C = nfb * G) (HNG : 0 < NG) (Hnfb : 0 < nfb).
  Notation bs := (NG * K).
  Notation S := (length ends).
  Notation total := (S * nfb).
  Notation xs e := (range_x ends (e / nfb)).
  Notation ys e := (range_y ends (e / nfb)).
  Notation off e := (e mod nfb * G).
  (** Every access is inside its input. *)
  Hypothesis Hnb : forall e i, e < total -> xs e <= i -> i < ys e -> i < length nbs.
  Hypothesis Hba : forall i l, i < length nbs -> l < K -> i * K + l < length basis.
  Hypothesis Hfe : forall i c, i < length nbs -> c < C -> fst (nth i nbs (0, 0)) * C + c < length feats.

  Definition fval_at (i c : nat) : R := nth (fst (nth i nbs (0, 0)) * C + c) feats 0%R.
  Definition bval_at (i l : nat) : R := nth (i * K + l) basis 0%R.
  Definition fv (e it f : nat) : R := if it + xs e <? ys e then fval_at (it + xs e) (off e + f) else 0%R.
  Definition wv (e it l : nat) : R := if it + xs e <? ys e then bval_at (it + xs e) l else 0%R.

  Lemma groups_eq : num_groups K bs = NG.
  Proof. unfold num_groups. apply Nat.div_mul. lia. Qed.
  Lemma blocks_eq : feature_blocks G C = nfb.
  Proof. unfold feature_blocks. rewrite HC. apply Nat.div_mul. lia. Qed.
  Definition rounds (e : nat) : nat := (ys e - xs e) / NG + 1.
  Lemma padded_eq e : padded K bs ends (sample_id G C e) = rounds e * NG.
  Proof.
    unfold padded, sample_id, rounds. rewrite groups_eq, blocks_eq. set (n := range_y _ _ - range_x _ _).
    pose proof (Nat.div_mod n NG ltac:(lia)). pose proof (Nat.mod_upper_bound n NG ltac:(lia)). nia.
  Qed.
  Lemma off_lt e f : f < G -> off e + f < C.
  Proof. intros Hf. rewrite HC. pose proof (Nat.mod_upper_bound e nfb ltac:(lia)). nia. Qed.
  Lemma group_lt t : t < bs -> t / K < NG.
  Proof. intros H. apply Nat.div_lt_upper_bound; lia. Qed.
  Lemma thread_eq t : t = t / K * K + t mod K.
  Proof. pose proof (Nat.div_mod t K ltac:(lia)). lia. Qed.
  Lemma out_index e f l : e / nfb * C * K + (off e + f) * K + l = (e * G + f) * K + l.
  Proof. rewrite HC. pose proof (Nat.div_mod e nfb ltac:(lia)) as E. rewrite E at 3. ring. Qed.

  Section Block.
    Variable b : nat.
    Notation acc f t := (accum bs (1 + b) f t).
    Notation feat i := (feature G bs (1 + b) i).
    Notation gof t := (t / K).
    Notation lof t := (t mod K).
    Definition i_init (t : nat) : list (item R) := map (fun f => Item (acc f t) [] (fun _ _ => 0%R)) (seq 0 G).
    Definition i_load (e t k : nat) : list (item R) :=
      if lof t <? G then [Item (feat (gof t * G + lof t)) [] (fun _ _ => fv e (gof t + k * NG) (lof t))] else [].
    Definition i_add (e t k : nat) : list (item R) :=
      map (fun f => Item (acc f t) [feat (gof t * G + f)] (fun vs v => v + hd 0 vs * wv e (gof t + k * NG) (lof t))%R) (seq 0 G).
    Definition i_save (e t : nat) : list (item R) :=
      if t <? K then map (fun f => Item (0, (e * G + f) * K + t) (map (fun g => acc f (t + g * K)) (seq 0 NG)) (fun vs _ => fold_left Rplus vs 0%R)) (seq 0 G) else [].
    Definition round_phases (e : nat) : list (nat -> list (item R)) :=
      loop_phases (i_load e) (i_add e) (i_save e) i_init (seq 0 (rounds e)).

    Lemma load_eq t e it : e < total -> pj_load K G C bs nbs ends feats b t e it = map act
      (if lof t <? G then [Item (feat (gof t * G + lof t)) [] (fun _ _ => fv e it (lof t))] else []).
    Proof.
      intros He. unfold pj_load, local_id, group_id, sample_id, neighbor_feature, fv, sample_id, feature_offset, local_id. rewrite blocks_eq.
      destruct (lof t <? G) eqn:El; [|reflexivity]. apply Nat.ltb_lt in El. destruct (it + xs e <? ys e) eqn:E; [|reflexivity].
      apply Nat.ltb_lt in E. assert (L : it + xs e < length nbs) by (apply (Hnb e); auto; lia).
      unfold rd. rewrite (nth_error_nth' nbs _ (0, 0)) by auto. cbn [obind].
      pose proof (Hfe _ _ L (off_lt e _ El)) as Lf. rewrite <- Nat.add_assoc. rewrite (nth_error_nth' feats _ 0%R) by exact Lf. reflexivity.
    Qed.
    Lemma add_eq t e it : e < total -> pj_add K G C bs ends basis b t e it = map act
      (map (fun f => Item (acc f t) [feat (gof t * G + f)] (fun vs v => v + hd 0 vs * wv e it (lof t))%R) (seq 0 G)).
    Proof.
      intros He. unfold pj_add, weight, sample_id, local_id, group_id, wv. rewrite blocks_eq, map_map. apply map_ext. intros f.
      destruct (it + xs e <? ys e) eqn:E; [|reflexivity]. apply Nat.ltb_lt in E. assert (L : it + xs e < length nbs) by (apply (Hnb e); auto; lia).
      unfold rd. rewrite (nth_error_nth' basis _ 0%R) by (apply Hba; auto; apply Nat.mod_upper_bound; lia). reflexivity.
    Qed.
    Lemma save_eq t e : pj_save K G C bs b t e = map act (i_save e t).
    Proof.
      unfold pj_save, i_save, sample_id, feature_offset, local_id. rewrite blocks_eq, groups_eq. destruct (t <? K) eqn:E; [|reflexivity].
      apply Nat.ltb_lt in E. rewrite (Nat.mod_small t K) by auto. rewrite map_map. apply map_ext. intros f. rewrite out_index. reflexivity.
    Qed.
    Lemma init_eq t : pj_init G bs b t = map act (i_init t).
    Proof. unfold pj_init, i_init. rewrite map_map. reflexivity. Qed.
    Lemma loop_eq t e ks : e < total -> forall pre ipre, pre = map act (ipre t) ->
      pj_loop K G C bs nbs ends basis feats b t e pre (map (fun k => gof t + k * NG) ks) =
      map (fun ph => acts ph t) (loop_phases (i_load e) (i_add e) (i_save e) ipre ks).
    Proof.
      intros He. induction ks as [|k ks IH]; intros pre ipre Hp; cbn [map pj_loop loop_phases]; unfold acts at 1; cbn beta; rewrite map_app.
      - now rewrite Hp, save_eq.
      - rewrite Hp, load_eq by auto. f_equal. f_equal; [unfold acts; now rewrite add_eq by auto|]. apply IH. reflexivity.
    Qed.
    Lemma round_eq t e : t < bs -> e < total -> pj_round K G C bs nbs ends basis feats b t e = map (fun ph => acts ph t) (round_phases e).
    Proof.
      intros Ht He. unfold pj_round, round_phases. rewrite padded_eq, groups_eq. unfold group_id. rewrite strided_mul by now apply group_lt.
      apply loop_eq; auto. apply init_eq.
    Qed.
  End Block.
  Definition pj_phases (blocks b : nat) : list (nat -> list (item R)) := flat_map (round_phases b) (strided b blocks total).
  Lemma kernel_eq blocks : 0 < blocks ->
    pj_kernel K G C bs nbs ends basis feats blocks total = phased_kernel blocks bs (fun b => map acts (pj_phases blocks b)).
  Proof.
    intros Hb. unfold pj_kernel, phased_kernel. apply map_ext_in. intros b Ib. apply in_seq in Ib. apply map_ext_in. intros t It. apply in_seq in It.
    unfold pj_thread, phased, pj_phases. f_equal. rewrite map_map.
    assert (X : forall e, In e (strided b blocks total) -> e < total) by (intros e He; apply strided_in in He; [apply He|auto]). revert X.
    induction (strided b blocks total) as [|e es IH]; intros X; [reflexivity|]. cbn [flat_map]. rewrite map_app, <- IH by (intros; apply X; now right).
    f_equal. apply round_eq; [lia|]. apply X. now left.
  Qed.

  (** *** Independence *)
  Section Kinds.
    Variable b : nat.
    Notation acc f t := (accum bs (1 + b) f t).
    Notation feat i := (feature G bs (1 + b) i).
    Definition kind1 (ph : nat -> list (item R)) : Prop := forall t i, In i (ph t) ->
      (exists f, f < G /\ tgt i = acc f t /\ rds i = []) \/ (t mod K < G /\ tgt i = feat (t / K * G + t mod K) /\ rds i = []).
    Definition kind2 (ph : nat -> list (item R)) : Prop := forall t i, In i (ph t) ->
      exists f, f < G /\ tgt i = acc f t /\ rds i = [feat (t / K * G + f)].
    Definition kind3 (e : nat) (ph : nat -> list (item R)) : Prop := forall t i, In i (ph t) ->
      t < K /\ exists f, f < G /\ tgt i = (0, (e * G + f) * K + t) /\ rds i = map (fun g => acc f (t + g * K)) (seq 0 NG).
    Lemma kind_load e k : kind1 (fun t => i_load b e t k).
    Proof. intros t i. unfold i_load. destruct (t mod K <? G) eqn:E; [|intros []]. apply Nat.ltb_lt in E. intros [<-|[]]. right. auto. Qed.
    Lemma kind_init : kind1 (i_init b).
    Proof. intros t i H. apply in_map_iff in H. destruct H as (f & <- & Hf). apply in_seq in Hf. left. exists f. split; [lia|auto]. Qed.
    Lemma kind_add e k : kind2 (fun t => i_add b e t k).
    Proof. intros t i H. apply in_map_iff in H. destruct H as (f & <- & Hf). apply in_seq in Hf. exists f. split; [lia|auto]. Qed.
    Lemma kind_save e : kind3 e (i_save b e).
    Proof.
      intros t i. unfold i_save. destruct (t <? K) eqn:E; [|intros []]. apply Nat.ltb_lt in E. intros H. split; auto.
      apply in_map_iff in H. destruct H as (f & <- & Hf). apply in_seq in Hf. exists f. split; [lia|auto].
    Qed.
    Lemma loop_kinds e ks : forall pre, kind1 pre -> (ks = [] -> forall t, pre t = []) ->
      forall ph, In ph (loop_phases (i_load b e) (i_add b e) (i_save b e) pre ks) -> kind1 ph \/ kind2 ph \/ kind3 e ph.
    Proof.
      induction ks as [|k ks IH]; intros pre Hp Hn ph; cbn [loop_phases].
      - intros [<-|[]]. right; right. intros t i H. cbn beta in H. rewrite (Hn eq_refl t) in H. now apply kind_save in H.
      - intros [<-|[<-|H]].
        + left. intros t i H. apply in_app_iff in H. destruct H as [H|H]; [now apply Hp|]. now apply (kind_load e k) in H.
        + right; left. apply kind_add.
        + apply (IH (fun _ => [])); auto. intros t i [].
    Qed.
    Lemma round_kinds e ph : In ph (round_phases b e) -> kind1 ph \/ kind2 ph \/ kind3 e ph.
    Proof. apply loop_kinds; [apply kind_init|]. unfold rounds. rewrite Nat.add_1_r. discriminate. Qed.
  End Kinds.
  Lemma acc_inj sh f t f' t' : t < bs -> t' < bs -> accum bs sh f t = accum bs sh f' t' -> f = f' /\ t = t'.
  Proof. intros H H' E. injection E as E. now apply mixed in E. Qed.
  Lemma acc_feat sh f t i : f < G -> t < bs -> accum bs sh f t <> feature G bs sh i.
  Proof. intros Hf Ht E. injection E as E. nia. Qed.
  Lemma feat_inj sh i j : feature G bs sh i = feature G bs sh j -> i = j.
  Proof. intros E. injection E as E. lia. Qed.
  Lemma save_lt t g : t < K -> g < NG -> t + g * K < bs.
  Proof. intros. nia. Qed.
  Ltac kinds := repeat match goal with
    | H : exists _, _ |- _ => destruct H
    | H : _ /\ _ |- _ => destruct H
    end.
  Lemma kinds_apart b e ph t u i j : kind1 b ph \/ kind2 b ph \/ kind3 b e ph -> t < bs -> u < bs -> t <> u -> In i (ph t) -> In j (ph u) -> apart i j.
  Proof.
    intros [H|[H|H]] Ht Hu Ne Hi Hj; apply H in Hi, Hj; unfold apart.
    - assert (rds i = [] /\ rds j = []) as (-> & ->) by (split; kinds; [destruct Hi; kinds; auto|destruct Hj; kinds; auto]). split; [intros []|split; [intros []|left]].
      destruct Hi as [(f & Hf & -> & _)|(Hl & -> & _)], Hj as [(f' & Hf' & -> & _)|(Hl' & -> & _)].
      + intros E. apply acc_inj in E; tauto.
      + now apply acc_feat.
      + intros E. symmetry in E. now apply acc_feat in E.
      + intros E. apply feat_inj in E. apply mixed in E; auto. apply Ne. rewrite (thread_eq t), (thread_eq u). destruct E as (-> & ->). auto.
    - destruct Hi as (f & Hf & -> & ->), Hj as (f' & Hf' & -> & ->). split; [|split].
      + intros [E|[]]. symmetry in E. now apply acc_feat in E.
      + intros [E|[]]. symmetry in E. now apply acc_feat in E.
      + left. intros E. apply acc_inj in E; tauto.
    - destruct Hi as (Lt & f & Hf & -> & ->), Hj as (Lu & f' & Hf' & -> & ->). split; [|split].
      + intros E. apply in_map_iff in E. destruct E as (g & E & _). discriminate.
      + intros E. apply in_map_iff in E. destruct E as (g & E & _). discriminate.
      + left. intros E. injection E as E. apply mixed in E; auto. tauto.
  Qed.
  (** All cells of an item of block [b]. *)
  Lemma kinds_cells b e ph t i : kind1 b ph \/ kind2 b ph \/ kind3 b e ph -> In i (ph t) ->
    (fst (tgt i) = 1 + b \/ exists f, f < G /\ t < K /\ tgt i = (0, (e * G + f) * K + t)) /\ forall y, In y (rds i) -> fst y = 1 + b.
  Proof.
    intros [H|[H|H]] Hi; apply H in Hi.
    - destruct Hi as [(f & Hf & -> & ->)|(Hl & -> & ->)]; (split; [now left|intros y []]).
    - destruct Hi as (f & Hf & -> & ->). split; [now left|]. intros y [<-|[]]. reflexivity.
    - destruct Hi as (Lt & f & Hf & -> & ->). split; [right; eauto|]. intros y Hy. apply in_map_iff in Hy. destruct Hy as (g & <- & _). reflexivity.
  Qed.
  Lemma blocks_apart b b' e e' ph ph' t u i j : b <> b' -> e <> e' -> kind1 b ph \/ kind2 b ph \/ kind3 b e ph -> kind1 b' ph' \/ kind2 b' ph' \/ kind3 b' e' ph' ->
    In i (ph t) -> In j (ph' u) -> apart i j.
  Proof.
    intros Ne Ne' H H' Hi Hj. destruct (kinds_cells b e ph t i H Hi) as (Ti & Ri), (kinds_cells b' e' ph' u j H' Hj) as (Tj & Rj). split; [|split].
    - intros X. apply Rj in X. destruct Ti as [Ti|(f & _ & _ & Ti)]; [lia|]. rewrite Ti in X. discriminate.
    - intros X. apply Ri in X. destruct Tj as [Tj|(f & _ & _ & Tj)]; [lia|]. rewrite Tj in X. discriminate.
    - left. intros E. destruct Ti as [Ti|(f & Hf & Lt & Ti)], Tj as [Tj|(f' & Hf' & Lu & Tj)].
      + rewrite E in Ti. lia.
      + rewrite E, Tj in Ti. discriminate.
      + rewrite <- E, Ti in Tj. discriminate.
      + rewrite Ti, Tj in E. injection E as E. apply mixed in E; auto. destruct E as (E & _). apply mixed in E; auto. tauto.
  Qed.

  (** *** One round *)
  Definition ok (m : mem R) (b : nat) : Prop :=
    (forall i, i < total * G * K -> has m (0, i)) /\ (forall i, i < bs * (G + 1) -> has m (1 + b, i)).
  Lemma ok_shape b m m' : ok m b -> same_shape m m' -> ok m' b.
  Proof. intros (H1 & H2) E. split; intros i Hi; eapply has_shape; eauto. Qed.
  Section Round.
    Variables (b e : nat).
    Hypothesis He : e < total.
    Notation acc f t := (accum bs (1 + b) f t).
    Notation feat i := (feature G bs (1 + b) i).
    Notation sem ph := (flat_map (acts ph) (seq 0 bs)).
    Lemma has_acc m f t : ok m b -> f < G -> t < bs -> has m (acc f t).
    Proof. intros (_ & H) Hf Ht. apply H. nia. Qed.
    Lemma has_feat m g f : ok m b -> g < NG -> f < G -> has m (feat (g * G + f)).
    Proof. intros (_ & H) Hf Ht. apply H. nia. Qed.
    Lemma kinds_has ph m t i : kind1 b ph \/ kind2 b ph \/ kind3 b e ph -> ok m b -> t < bs -> In i (ph t) -> has m (tgt i) /\ forall y, In y (rds i) -> has m y.
    Proof.
      intros [H|[H|H]] Hm Ht Hi; apply H in Hi.
      - destruct Hi as [(f & Hf & -> & ->)|(Hl & -> & ->)].
        + split; [now apply has_acc|intros y []].
        + split; [apply has_feat; auto; now apply group_lt|intros y []].
      - destruct Hi as (f & Hf & -> & ->). split; [now apply has_acc|]. intros y [<-|[]]. apply has_feat; auto. now apply group_lt.
      - destruct Hi as (Lt & f & Hf & -> & ->). split; [apply Hm|].
        + assert (e * G + f < total * G) by nia. nia.
        + intros y Hy. apply in_map_iff in Hy. destruct Hy as (g & <- & Hg). apply in_seq in Hg. apply has_acc; auto. apply save_lt; lia.
    Qed.
    Lemma kinds_self ph t u i j : kind1 b ph \/ kind2 b ph \/ kind3 b e ph -> t < bs -> u < bs -> In i (ph t) -> In j (ph u) -> ~ In (tgt i) (rds j).
    Proof.
      intros H Ht Hu Hi Hj. destruct (Nat.eq_dec t u) as [<-|Ne]; [|exact (proj1 (kinds_apart b e ph t u i j H Ht Hu Ne Hi Hj))].
      destruct H as [H|[H|H]]; apply H in Hi, Hj.
      - destruct Hj as [(f' & Hf' & _ & ->)|(Hl' & _ & ->)]; intros [].
      - destruct Hi as (f & Hf & -> & _), Hj as (f' & Hf' & _ & ->). intros [E|[]]. symmetry in E. now apply acc_feat in E.
      - destruct Hi as (_ & f & Hf & -> & _), Hj as (_ & f' & Hf' & _ & ->). intros E. apply in_map_iff in E. destruct E as (g & E & _). discriminate.
    Qed.
    Lemma kinds_run ph m : kind1 b ph \/ kind2 b ph \/ kind3 b e ph -> ok m b ->
      exists m', run_all (sem ph) m = Some m' /\ same_shape m m' /\
        forall x v, get x m = Some v -> get x m' = Some (after m (flat_map ph (seq 0 bs)) x v).
    Proof.
      intros H Hm. apply item_phase.
      - intros t i Ht Hi. now apply (kinds_has ph m t).
      - intros t u i j Ht Hu Hi Hj. now apply (kinds_self ph t u).
    Qed.
    Lemma kind12_out ph m v i : kind1 b ph \/ kind2 b ph -> after m (flat_map ph (seq 0 bs)) (0, i) v = v.
    Proof.
      intros H. apply after_none. intros it Hi E. apply in_flat_map in Hi. destruct Hi as (t & _ & Hi). destruct H as [H|H]; apply H in Hi.
      - destruct Hi as [(f & Hf & X & _)|(Hl & X & _)]; rewrite X in E; discriminate.
      - destruct Hi as (f & Hf & X & _); rewrite X in E; discriminate.
    Qed.
    (** Loading: the features of the neighbors of all groups; the sums are reset
        in the first round and kept in the others. *)
    Lemma load_run k (pre : nat -> list (item R)) (old : bool) m : ok m b -> (if old then forall t, pre t = [] else pre = i_init b) ->
      exists m', run_all (sem (fun t => pre t ++ i_load b e t k)) m = Some m' /\ same_shape m m' /\
        (forall i v, get (0, i) m = Some v -> get (0, i) m' = Some v) /\
        (forall f t v, f < G -> t < bs -> get (acc f t) m = Some v -> get (acc f t) m' = Some (if old then v else 0%R)) /\
        (forall g f, g < NG -> f < G -> get (feat (g * G + f)) m' = Some (fv e (g + k * NG) f)).
    Proof.
      intros Hm Hp. assert (Kp : kind1 b pre) by (destruct old; [intros t i; rewrite Hp; intros []|subst pre; apply kind_init]).
      assert (Kd : kind1 b (fun t => pre t ++ i_load b e t k)).
      { intros t i H. apply in_app_iff in H. destruct H as [H|H]; [now apply Kp|]. now apply (kind_load b e k) in H. }
      destruct (kinds_run _ m (or_introl Kd) Hm) as (m' & R & Sh & Gm). exists m'. split; auto. split; auto. split; [|split].
      - intros i v Hv. rewrite (Gm _ _ Hv). rewrite kind12_out; auto.
      - intros f t v Hf Ht Hv. rewrite (Gm _ _ Hv). f_equal. rewrite (after_flat_map1 m _ (seq 0 bs) t).
        + rewrite after_app. rewrite (after_none _ (i_load b e t k)).
          * destruct old; [rewrite Hp; reflexivity|]. subst pre. unfold i_init. rewrite (after_map1 m (fun f => Item (acc f t) [] (fun _ _ => 0%R)) (seq 0 G) f); [reflexivity|apply seq_NoDup|apply in_seq; lia|].
            intros f' Hf' Ne E. cbn [tgt] in E. apply acc_inj in E; tauto.
          * intros i Hi E. unfold i_load in Hi. destruct (t mod K <? G); [|destruct Hi]. destruct Hi as [<-|[]]. cbn [tgt] in E. symmetry in E. now apply acc_feat in E.
        + apply seq_NoDup.
        + apply in_seq; lia.
        + intros u i Hu Ne Hi E. apply in_seq in Hu. apply Kd in Hi. destruct Hi as [(f' & Hf' & X & _)|(Hl & X & _)]; rewrite X in E.
          * apply acc_inj in E; [|lia|lia]. tauto.
          * symmetry in E. now apply acc_feat in E.
      - intros g f Hg Hf. destruct (has_feat m g f Hm Hg Hf) as (v & Hv). rewrite (Gm _ _ Hv). f_equal.
        assert (Lt : g * K + f < bs) by nia. assert (D : (g * K + f) / K = g /\ (g * K + f) mod K = f) by (apply divmod_mul; lia). destruct D as (D1 & D2).
        rewrite (after_flat_map1 m _ (seq 0 bs) (g * K + f)).
        + rewrite after_app. unfold i_load. rewrite D1, D2. replace (f <? G) with true by (symmetry; now apply Nat.ltb_lt).
          unfold after at 1. cbn [fold_left tgt fn]. now rewrite cell_eqb_refl.
        + apply seq_NoDup.
        + apply in_seq; lia.
        + intros u i Hu Ne Hi E. apply in_seq in Hu. apply Kd in Hi. destruct Hi as [(f' & Hf' & X & _)|(Hl & X & _)]; rewrite X in E.
          * apply acc_feat in E; auto. lia.
          * apply feat_inj in E. apply mixed in E; auto. apply Ne. rewrite (thread_eq u). destruct E as (-> & ->). reflexivity.
    Qed.
    Lemma add_run k m : ok m b -> exists m', run_all (sem (fun t => i_add b e t k)) m = Some m' /\ same_shape m m' /\
        (forall i v, get (0, i) m = Some v -> get (0, i) m' = Some v) /\
        (forall f t v w, f < G -> t < bs -> get (acc f t) m = Some v -> get (feat (t / K * G + f)) m = Some w ->
           get (acc f t) m' = Some (v + w * wv e (t / K + k * NG) (t mod K))%R).
    Proof.
      intros Hm. destruct (kinds_run _ m (or_intror (or_introl (kind_add b e k))) Hm) as (m' & R & Sh & Gm). exists m'. split; auto. split; auto. split.
      - intros i v Hv. rewrite (Gm _ _ Hv). rewrite kind12_out; auto. right. apply kind_add.
      - intros f t v w Hf Ht Hv Hw. rewrite (Gm _ _ Hv). f_equal. rewrite (after_flat_map1 m _ (seq 0 bs) t).
        + unfold i_add. set (g := fun f => Item (acc f t) [feat (t / K * G + f)] (fun vs v => v + hd 0 vs * wv e (t / K + k * NG) (t mod K))%R).
          change (acc f t) with (tgt (g f)). rewrite (after_map1 m g (seq 0 G) f); [|apply seq_NoDup|apply in_seq; lia|].
          * subst g. cbn [fn rds]. unfold vals. cbn [gets]. rewrite Hw. reflexivity.
          * intros f' Hf' Ne E. cbn [tgt g] in E. apply acc_inj in E; tauto.
        + apply seq_NoDup.
        + apply in_seq; lia.
        + intros u i Hu Ne Hi E. apply in_seq in Hu. apply kind_add in Hi. destruct Hi as (f' & Hf' & X & _). rewrite X in E. apply acc_inj in E; [|lia|lia]. tauto.
    Qed.
    Lemma save_run (pre : nat -> list (item R)) m (h : nat -> nat -> R) : ok m b -> (forall t, pre t = []) ->
      (forall f t, f < G -> t < bs -> get (acc f t) m = Some (h f t)) ->
      exists m', run_all (sem (fun t => pre t ++ i_save b e t)) m = Some m' /\ same_shape m m' /\
        (forall f l, f < G -> l < K -> get (0, (e * G + f) * K + l) m' = Some (sum_over (seq 0 NG) (fun g => h f (l + g * K)))) /\
        (forall i v, i / (G * K) <> e -> get (0, i) m = Some v -> get (0, i) m' = Some v).
    Proof.
      intros Hm Hp Hh. assert (Kd : kind3 b e (fun t => pre t ++ i_save b e t)) by (intros t i Hi; rewrite Hp in Hi; now apply kind_save in Hi).
      destruct (kinds_run _ m (or_intror (or_intror Kd)) Hm) as (m' & R & Sh & Gm). exists m'. split; auto. split; auto. split.
      - intros f l Hf Hl. assert (Lo : (e * G + f) * K + l < total * G * K). { assert (e * G + f < total * G) by nia. nia. }
        destruct (proj1 Hm _ Lo) as (v & Hv). rewrite (Gm _ _ Hv). f_equal. rewrite (after_flat_map1 m _ (seq 0 bs) l).
        + rewrite Hp. cbn [app]. unfold i_save. replace (l <? K) with true by (symmetry; now apply Nat.ltb_lt).
          set (g := fun f => Item (0, (e * G + f) * K + l) (map (fun g => acc f (l + g * K)) (seq 0 NG)) (fun vs _ => fold_left Rplus vs 0%R)).
          change (0, (e * G + f) * K + l) with (tgt (g f)). rewrite (after_map1 m g (seq 0 G) f); [|apply seq_NoDup|apply in_seq; lia|].
          * subst g. cbn [fn rds]. rewrite (vals_map m _ (fun g => h f (l + g * K))).
            -- rewrite fold_plus, Rplus_0_l. symmetry. apply sum_over_rsum.
            -- intros g Hg. apply in_seq in Hg. apply Hh; auto. apply save_lt; lia.
          * intros f' Hf' Ne E. cbn [tgt g] in E. injection E as E. nia.
        + apply seq_NoDup.
        + apply in_seq. nia.
        + intros u i Hu Ne Hi E. apply Kd in Hi. destruct Hi as (Lu & f' & Hf' & X & _). rewrite X in E. injection E as E. apply mixed in E; auto. tauto.
      - intros i v Ne Hv. rewrite (Gm _ _ Hv). f_equal. apply after_none. intros it Hi E. apply in_flat_map in Hi. destruct Hi as (u & _ & Hi).
        apply Kd in Hi. destruct Hi as (Lu & f' & Hf' & X & _). rewrite X in E. injection E as E. apply Ne. symmetry. apply (Nat.div_unique _ _ _ (f' * K + u)); nia.
    Qed.

    Notation part f t k := (sum_over (seq 0 k) (fun j => fv e (t / K + j * NG) f * wv e (t / K + j * NG) (t mod K)))%R.
    Lemma loop_run n : forall k pre old m, ok m b -> (n = 0 -> old = true) -> (if old then forall t, pre t = [] else pre = i_init b /\ k = 0) ->
      (forall f t, f < G -> t < bs -> exists v, get (acc f t) m = Some v /\ (old = true -> v = part f t k)) ->
      exists m', run_all (flat_map (fun ph => sem ph) (loop_phases (i_load b e) (i_add b e) (i_save b e) pre (seq k n))) m = Some m' /\ same_shape m m' /\
        (forall f l, f < G -> l < K -> get (0, (e * G + f) * K + l) m' = Some (sum_over (seq 0 NG) (fun g => part f (l + g * K) (k + n)))) /\
        (forall i v, i / (G * K) <> e -> get (0, i) m = Some v -> get (0, i) m' = Some v).
    Proof.
      induction n as [|n IH]; intros k pre old m Hm Hn Hp Hi; cbn [seq loop_phases flat_map].
      - rewrite app_nil_r. rewrite (Hn eq_refl) in *. rewrite Nat.add_0_r. apply (save_run pre m (fun f t => part f t k)); auto.
        intros f t Hf Ht. destruct (Hi f t Hf Ht) as (v & Hv & X). rewrite Hv. f_equal. now apply X.
      - destruct (load_run k pre old m Hm) as (m1 & R1 & S1 & O1 & A1 & F1). { destruct old; [auto|apply Hp]. }
        assert (M1 : ok m1 b) by (eapply ok_shape; eauto).
        destruct (add_run k m1 M1) as (m2 & R2 & S2 & O2 & A2). assert (M2 : ok m2 b) by (eapply ok_shape; eauto).
        destruct (IH (Datatypes.S k) (fun _ => []) true m2 M2) as (m3 & R3 & S3 & V3 & O3); auto.
        + intros f t Hf Ht. destruct (Hi f t Hf Ht) as (v & Hv & X). eexists. split.
          * exact (A2 f t _ _ Hf Ht (A1 f t v Hf Ht Hv) (F1 (t / K) f (group_lt t Ht) Hf)).
          * intros _. rewrite sum_over_snoc. f_equal. destruct old; [now apply X|]. destruct Hp as (_ & ->). reflexivity.
        + exists m3. rewrite run_all_app, R1. cbn [obind]. rewrite run_all_app, R2. cbn [obind]. split; auto. split; [|split].
          * eapply same_shape_trans; [eauto|]. eapply same_shape_trans; eauto.
          * intros f l Hf Hl. replace (k + Datatypes.S n) with (Datatypes.S k + n) by lia. now apply V3.
          * intros i v Ne Hv. apply O3; auto.
    Qed.
    (** The value of an output cell. *)
    Definition pj_value (i : nat) : R :=
      sum_over (seq (xs e) (ys e - xs e)) (fun p => fval_at p (off e + i / K mod G) * bval_at p (i mod K))%R.
    Lemma round_run m : ok m b -> exists m', run_all (flat_map (fun ph => sem ph) (round_phases b e)) m = Some m' /\ same_shape m m' /\
      forall i v, get (0, i) m = Some v -> get (0, i) m' = Some (if i / (G * K) =? e then pj_value i else v).
    Proof.
      intros Hm. destruct (loop_run (rounds e) 0 (i_init b) false m Hm) as (m' & R & Sh & V & O); auto.
      - unfold rounds. lia.
      - intros f t Hf Ht. destruct (has_acc m f t Hm Hf Ht) as (v & Hv). exists v. split; auto. discriminate.
      - exists m'. split; auto. split; auto. intros i v Hv. destruct (i / (G * K) =? e) eqn:E.
        + apply Nat.eqb_eq in E.
          set (l := i mod K). set (f := i / K mod G). assert (Hl : l < K) by (apply Nat.mod_upper_bound; lia). assert (Hf : f < G) by (apply Nat.mod_upper_bound; lia).
          assert (Ei : i = (e * G + f) * K + l).
          { subst e l f. rewrite (Nat.mul_comm G K), <- Nat.div_div by lia. pose proof (Nat.div_mod i K ltac:(lia)). pose proof (Nat.div_mod (i / K) G ltac:(lia)). nia. }
          rewrite Ei at 1. rewrite (V f l Hf Hl). f_equal. cbn [Nat.add].
          rewrite (sum_over_ext _ _ (fun g => sum_over (seq 0 (rounds e)) (fun j => fv e (g + j * NG) f * wv e (g + j * NG) l)%R)).
          2:{ intros g Hg. apply sum_over_ext. intros j _. replace (l + g * K) with (g * K + l) by lia. destruct (divmod_mul g l K Hl) as (-> & ->). reflexivity. }
          rewrite (sum_groups NG (rounds e) (fun it => fv e it f * wv e it l)%R). unfold pj_value. fold f l.
          set (n := ys e - xs e). assert (Ln : n <= rounds e * NG).
          { unfold rounds. fold n. pose proof (Nat.div_mod n NG ltac:(lia)). pose proof (Nat.mod_upper_bound n NG ltac:(lia)). nia. }
          replace (rounds e * NG) with (n + (rounds e * NG - n)) by lia. rewrite seq_app, sum_over_app. rewrite (sum_over_ext (seq (0 + n) _) _ (fun _ => 0%R)).
          * rewrite sum_over_0, Rplus_0_r. rewrite (seq_map_add n (xs e)). rewrite sum_over_map, sum_over_rsum. f_equal. apply map_ext_in. intros it Hit. apply in_seq in Hit.
            unfold fv, wv. replace (it + xs e <? ys e) with true by (symmetry; apply Nat.ltb_lt; unfold n in Hit; lia). rewrite (Nat.add_comm it). reflexivity.
          * intros it Hit. apply in_seq in Hit. unfold fv. replace (it + xs e <? ys e) with false by (symmetry; apply Nat.ltb_ge; unfold n in Hit; lia). lra.
        + apply Nat.eqb_neq in E. now apply O.
    Qed.
  End Round.

  (** *** The kernel *)
  Theorem pj_runs blocks (out : list R) (shared : list (list R)) (P : mem R -> Prop) : 0 < blocks ->
    length out = total * G * K -> length shared = blocks -> Forall (fun l => length l = bs * (G + 1)) shared ->
    (forall m, length (hd [] m) = total * G * K -> (forall i, i < total * G * K -> nth i (hd [] m) 0%R = pj_value (i / (G * K)) i) -> P m) ->
    every_run P (out :: shared, pj_kernel K G C bs nbs ends basis feats blocks total).
  Proof.
    intros Hb Lo Ls Fs HP. set (m0 := out :: shared).
    assert (Hok : forall b, b < blocks -> ok m0 b).
    { intros b Lb. split; intros i Hi; apply has_iff; cbn [fst snd].
      - exists out. split; [reflexivity|lia].
      - cbn [Nat.add nth_error m0]. destruct (nth_error shared b) as [l|] eqn:E; [|apply nth_error_None in E; lia]. exists l. split; auto.
        rewrite Forall_forall in Fs. rewrite (Fs l); auto. eapply nth_error_In; eauto. }
    assert (Hsh : forall b m, b < blocks -> same_shape m0 m -> ok m b) by (intros b m Lb E; eapply ok_shape; [apply (Hok b Lb)|auto]).
    set (code := fun e => flat_map (fun ph => flat_map (acts ph) (seq 0 bs)) (round_phases (e mod blocks) e)).
    set (order := flat_map (fun b => strided b blocks total) (seq 0 blocks)).
    destruct (rounds_fold code (fun e x v => if snd x / (G * K) =? e then pj_value e (snd x) else v) (fun x => fst x = 0) (same_shape m0) order) with (m := m0) as (mf & R & Sf & Gf).
    - intros m m' H E. eapply same_shape_trans; eauto.
    - intros e m He Hm. unfold order in He. apply in_flat_map in He. destruct He as (b & Lb & He). apply in_seq in Lb. apply strided_mod in He; [|lia]. destruct He as (He & Eb).
      destruct (round_run (e mod blocks) e He m) as (m' & R & Sm & Gm); [apply Hsh; auto; lia|]. exists m'. split; auto. split; auto. intros [x i] v Ex Hv. cbn [fst] in Ex. subst x. now apply Gm.
    - apply same_shape_refl.
    - rewrite kernel_eq by auto. apply (item_kernel_runs blocks bs _ m0 mf).
      + intros b ph t u i j Lb Hph Ht Hu Ne Hi Hj. unfold pj_phases in Hph. apply in_flat_map in Hph. destruct Hph as (e & He & Hph).
        apply (kinds_apart b e ph t u); auto. now apply round_kinds.
      + intros b b' ph ph' t u i j Lb Lb' Ne Hph Hph' Ht Hu Hi Hj. unfold pj_phases in Hph, Hph'. apply in_flat_map in Hph, Hph'.
        destruct Hph as (e & He & Hph), Hph' as (e' & He' & Hph'). apply strided_mod in He, He'; auto. destruct He as (_ & He), He' as (_ & He').
        apply (blocks_apart b b' e e' ph ph' t u); auto; [congruence|now apply round_kinds|now apply round_kinds].
      + rewrite <- R. f_equal. unfold order. rewrite flat_map_flat_map. apply flat_map_ext_in'. intros b Ib. apply in_seq in Ib. unfold pj_phases. rewrite flat_map_flat_map.
        apply flat_map_ext_in'. intros e He. apply strided_mod in He; [|lia]. destruct He as (_ & He). unfold code. now rewrite He.
      + assert (E0 : length (hd [] mf) = total * G * K).
        { destruct (same_shape_buf m0 mf 0 out Sf eq_refl) as (l' & E & L). destruct mf as [|l mf]; [discriminate|]. cbn in E |- *. injection E as ->. lia. }
        apply HP; auto. intros i Hi.
        assert (Hg : exists v, get (0, i) m0 = Some v) by (apply (proj1 (Hok 0 Hb)); auto). destruct Hg as (v & Hv).
        pose proof (Gf (0, i) v eq_refl Hv) as X. cbn [snd] in X.
        assert (Y : fold_left (fun w e => if i / (G * K) =? e then pj_value e i else w) order v = pj_value (i / (G * K)) i).
        { assert (I : In (i / (G * K)) order).
          { apply (Permutation_in _ (Permutation_sym (strided_all blocks total Hb))). apply in_seq. split; [lia|]. cbn [Nat.add]. apply Nat.div_lt_upper_bound; nia. }
          clear - I. revert v I. induction order as [|e l IH]; intros v I; [destruct I|]. cbn [fold_left].
          destruct (in_dec Nat.eq_dec (i / (G * K)) l) as [D|D]; [now apply IH|]. destruct I as [->|I]; [|tauto]. rewrite Nat.eqb_refl.
          clear IH. induction l as [|e' l IH]; [reflexivity|]. cbn [fold_left]. replace (i / (G * K) =? e') with false; [apply IH; intros X; apply D; now right|].
          symmetry. apply Nat.eqb_neq. intros X. apply D. left. auto. }
        rewrite Y in X. destruct mf as [|l mf]; [discriminate|]. cbn in X |- *. unfold rd in X. now apply nth_error_nth.
  Qed.
End Forward.
