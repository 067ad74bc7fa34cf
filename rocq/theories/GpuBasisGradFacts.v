(** The CUDA gradients of the basis projection under every schedule. *)
From Coq Require Import List Arith ZArith Lia Reals Lra Bool Permutation.
From Verif Require Import Tensor TensorFacts RTensor Pdf SpecPdf PdfFacts LayerFacts Cuda CudaFacts MemFacts AddFacts CudaUpdate PhasedFacts GpuBasis GpuBasisFacts.
Import ListNotations.
Local Open Scope nat_scope.

Lemma kahan_fold l s : fold_left kahan_step l (s, 0%R) = (s + rsum l, 0)%R.
Proof.
  revert s. induction l as [|x l IH]; intros s; [cbn; f_equal; lra|]. cbn [fold_left]. unfold kahan_step at 2. cbn [fst snd].
  replace (s + (x - 0))%R with (s + x)%R by lra. replace (s + x - s - (x - 0))%R with 0%R by lra. rewrite IH. f_equal. unfold rsum. cbn. lra.
Qed.
Lemma kahan_sum l : kahan l = rsum l.
Proof. unfold kahan. rewrite kahan_fold. cbn. lra. Qed.

Lemma seq_groups bs n : 0 < bs -> forall t i, t < bs -> In i (strided t bs n) -> i < n /\ i mod bs = t.
Proof. intros H t i Ht Hi. now apply strided_mod in Hi. Qed.

(** Updates that add to a cell. *)
Lemma after_adds {T} m (g : T -> list (item R)) (amount : T -> R) ts x v :
  (forall t, In t ts -> forall w, after m (g t) x w = (w + amount t)%R) -> after m (flat_map g ts) x v = (v + rsum (map amount ts))%R.
Proof.
  revert v. induction ts as [|t ts IH]; intros v H; [cbn; unfold after; cbn; lra|]. cbn [flat_map map]. rewrite after_app, (H t) by now left. rewrite IH by (intros; apply H; now right).
  unfold rsum. cbn. lra.
Qed.
Lemma sum_over_cons x l f : sum_over (x :: l) f = (f x + sum_over l f)%R.
Proof. reflexivity. Qed.
Lemma sum_tail n k f : n <= k -> (forall i, n <= i -> i < k -> f i = 0%R) -> sum_over (seq 0 k) f = sum_over (seq 0 n) f.
Proof.
  intros H Z. replace k with (n + (k - n)) by lia. rewrite seq_app, sum_over_app, (sum_over_ext (seq (0 + n) _) _ (fun _ => 0%R)); [rewrite sum_over_0; lra|].
  intros i Hi. apply in_seq in Hi. apply Z; lia.
Qed.
Lemma sum_shift s n f : sum_over (seq s n) f = sum_over (seq 0 n) (fun i => f (i + s)).
Proof. rewrite (seq_map_add n s), sum_over_map, sum_over_rsum. f_equal. apply map_ext. intros i. f_equal. lia. Qed.

Section Backward.
  Variables (K G C NG nfb N : nat) (nbs : list (nat * nat)) (ends : list Z) (basis feats grads : list R).
  Hypotheses (HK : 0 < K) (HG : 0 < G) (HGK : G <= K) (HC : C = nfb * G) (HNG : 0 < NG) (Hnfb : 0 < nfb).
  Notation bs := (NG * K).
  Notation S := (length ends).
  Notation total := (S * nfb).
  Notation M := (length nbs).
  Notation xs e := (range_x ends (e / nfb)).
  Notation ys e := (range_y ends (e / nfb)).
  Notation off e := (e mod nfb * G).
  Notation pid i := (fst (nth i nbs (0, 0))).
  Notation fval := (fval_at C nbs feats).
  Notation bval := (bval_at K basis).
  Hypothesis Hnb : forall e i, e < total -> xs e <= i -> i < ys e -> i < M.
  Hypothesis Hpid : forall i, i < M -> pid i < N.
  Hypotheses (Lba : length basis = M * K) (Lfe : length feats = N * C) (Lgr : length grads = S * C * K).
  Definition gval (e i : nat) : R := nth (e * G * K + i) grads 0%R.
  Definition valid (e it : nat) : bool := it + xs e <? ys e.

  Lemma bs_pos : 0 < bs. Proof. nia. Qed.
  Hint Resolve bs_pos : core.
  Lemma off_lt' e f : f < G -> off e + f < C.
  Proof. intros. apply (off_lt K G C NG nfb); auto. Qed.
  Lemma group_lt' t : t < bs -> t / K < NG.
  Proof. intros H. apply Nat.div_lt_upper_bound; lia. Qed.
  Lemma thread_eq' t : t = t / K * K + t mod K.
  Proof. pose proof (Nat.div_mod t K ltac:(lia)). lia. Qed.
  Lemma local_lt t : t mod K < K.
  Proof. apply Nat.mod_upper_bound. lia. Qed.
  Lemma valid_lt e it : e < total -> valid e it = true -> it + xs e < M.
  Proof. intros He Hv. apply Nat.ltb_lt in Hv. apply (Hnb e); auto. lia. Qed.
  Lemma grad_index e i : e / nfb * C * K + off e * K + i = e * G * K + i.
  Proof. rewrite HC. pose proof (Nat.div_mod e nfb ltac:(lia)) as E. rewrite E at 3. ring. Qed.

  Section Block.
    Variable b : nat.
    Notation sh := (2 + 2 * b).
    Notation acc f t := (accum bs sh f t).
    Notation feat i := (feature G bs sh i).
    Notation ing i := (in_grad K G bs b i).
    Notation reg t := (3 + 2 * b, t).
    Notation gof t := (t / K).
    Notation lof t := (t mod K).
    Definition g_init (e t : nat) : list (item R) := map (fun i => Item (ing i) [] (fun _ _ => gval e i)) (strided t bs (K * G)).
    Definition g_load (e t it : nat) : list (item R) :=
      if valid e it && (lof t <? G) then [Item (feat (gof t * G + lof t)) [] (fun _ _ => fval (it + xs e) (off e + lof t))] else [].
    Definition g_prod (e t it : nat) : list (item R) :=
      map (fun f => Item (acc f t) [ing (f * K + lof t)] (fun vs _ => hd 0 vs * wv K nfb ends basis e it (lof t))%R) (seq 0 G) ++
      [Item (reg t) (flat_map (fun f => [ing (f * K + lof t); feat (gof t * G + f)]) (seq 0 G))
         (fun vs _ => kahan (map (fun f => nth (2 * f) vs 0 * nth (2 * f + 1) vs 0)%R (seq 0 G)))].
    Definition g_store (e t it : nat) : list (item R) :=
      if valid e it then
        Item (0, (it + xs e) * K + lof t) [reg t] (fun vs w => (w + hd 0 vs)%R) ::
        (if lof t <? G then [Item (1, pid (it + xs e) * C + off e + lof t) (map (fun k => acc (lof t) (gof t * K + k)) (seq 0 K)) (fun vs w => (w + kahan vs)%R)] else [])
      else [].
    Definition g_phases (e : nat) : list (nat -> list (item R)) :=
      g_init e :: flat_map (fun k => [(fun t => g_load e t (gof t + k * NG)); (fun t => g_prod e t (gof t + k * NG)); (fun t => g_store e t (gof t + k * NG))]) (seq 0 (rounds NG nfb ends e)).

    Lemma geq_blocks : feature_blocks G C = nfb.
    Proof. unfold feature_blocks. rewrite HC. apply Nat.div_mul. lia. Qed.
    Lemma geq_groups : num_groups K bs = NG.
    Proof. unfold num_groups. apply Nat.div_mul. lia. Qed.
    Lemma geq_init t e : t < bs -> e < total -> gr_init K G C bs grads b t e = map act (g_init e t).
    Proof.
      intros Ht He. unfold gr_init, g_init, sample_id, feature_offset. rewrite geq_blocks, map_map. apply map_ext_in. intros i Hi. apply seq_groups in Hi; auto. destruct Hi as (Hi & _).
      rewrite grad_index. unfold rd. rewrite (nth_error_nth' grads _ 0%R); [reflexivity|]. rewrite Lgr, HC. assert (e * G * K + K * G <= total * G * K) by nia. nia.
    Qed.
    Lemma geq_load t e it : e < total -> gr_load K G C bs nbs ends feats b t e it = map act (g_load e t it).
    Proof.
      intros He. unfold gr_load, g_load, local_id, group_id, neighbor_feature, sample_id, feature_offset, valid, local_id. rewrite geq_blocks.
      destruct (it + xs e <? ys e) eqn:E; [|reflexivity]. destruct (lof t <? G) eqn:El; [|reflexivity]. apply Nat.ltb_lt in El. cbn [andb].
      pose proof (valid_lt e it He E) as L. unfold rd. rewrite (nth_error_nth' nbs _ (0, 0)) by auto. cbn [obind].
      rewrite <- Nat.add_assoc. rewrite (nth_error_nth' feats _ 0%R); [reflexivity|]. rewrite Lfe. pose proof (Hpid _ L). pose proof (off_lt' e _ El). nia.
    Qed.
    Lemma geq_prod t e it : e < total -> gr_products K G C bs ends basis b t e it = map act (g_prod e t it).
    Proof.
      intros He. unfold gr_products, g_prod, weight, sample_id, local_id, group_id, wv. rewrite geq_blocks, map_app, map_map. f_equal.
      apply map_ext. intros f. destruct (it + xs e <? ys e) eqn:E; [|reflexivity]. pose proof (valid_lt e it He E) as L.
      unfold rd. rewrite (nth_error_nth' basis _ 0%R); [reflexivity|]. rewrite Lba. pose proof (local_lt t). nia.
    Qed.
    Lemma geq_store t e it : e < total -> gr_store K G C bs nbs ends b t e it = map act (g_store e t it).
    Proof.
      intros He. unfold gr_store, g_store, local_id, group_id, sample_id, feature_offset, valid. rewrite geq_blocks.
      destruct (it + xs e <? ys e) eqn:E; [|reflexivity]. pose proof (valid_lt e it He E) as L. cbn [map]. f_equal.
      destruct (lof t <? G); [|reflexivity]. unfold rd. rewrite (nth_error_nth' nbs _ (0, 0)) by auto. reflexivity.
    Qed.
    Lemma geq_round t e : t < bs -> e < total -> gr_round K G C bs nbs ends basis feats grads b t e = map (fun ph => acts ph t) (g_phases e).
    Proof.
      intros Ht He. unfold gr_round, g_phases. cbn [map]. f_equal; [now apply geq_init|].
      rewrite (padded_eq K G C NG nfb) by auto. rewrite geq_groups. unfold group_id. rewrite strided_mul by now apply group_lt'.
      induction (seq 0 (rounds NG nfb ends e)) as [|k ks IH]; [reflexivity|]. cbn [map flat_map]. rewrite map_app, <- IH. cbn [map app]. unfold acts.
      rewrite geq_load, geq_prod, geq_store by auto. reflexivity.
    Qed.
  End Block.
  Definition gr_phases (blocks b : nat) : list (nat -> list (item R)) := flat_map (g_phases b) (strided b blocks total).
  Lemma geq_kernel blocks : 0 < blocks ->
    gr_kernel K G C bs nbs ends basis feats grads blocks total = phased_kernel blocks bs (fun b => map acts (gr_phases blocks b)).
  Proof.
    intros Hb. unfold gr_kernel, phased_kernel. apply map_ext_in. intros b Ib. apply in_seq in Ib. apply map_ext_in. intros t It. apply in_seq in It.
    unfold gr_thread, phased, gr_phases. f_equal. rewrite map_map.
    assert (X : forall e, In e (strided b blocks total) -> e < total) by (intros e He; apply strided_in in He; [apply He|auto]). revert X.
    induction (strided b blocks total) as [|e es IH]; intros X; [reflexivity|]. cbn [flat_map]. rewrite map_app, <- IH by (intros; apply X; now right).
    f_equal. apply geq_round; [lia|]. apply X. now left.
  Qed.

  (** *** Independence *)
  Lemma in_grad_eq b i : in_grad K G bs b i = (2 + 2 * b, bs * G + NG * G + i).
  Proof. unfold in_grad. now rewrite geq_groups. Qed.
  Section Kinds.
    Variable b : nat.
    Notation sh := (2 + 2 * b).
    Notation acc f t := (accum bs sh f t).
    Notation feat i := (feature G bs sh i).
    Notation ing i := (in_grad K G bs b i).
    Notation reg t := (3 + 2 * b, t).
    Notation gof t := (t / K).
    Notation lof t := (t mod K).
    Definition gk1 (ph : nat -> list (item R)) : Prop := forall t i, t < bs -> In i (ph t) ->
      exists j, j < K * G /\ j mod bs = t /\ tgt i = ing j /\ rds i = [].
    Definition gk2 (ph : nat -> list (item R)) : Prop := forall t i, t < bs -> In i (ph t) ->
      lof t < G /\ tgt i = feat (gof t * G + lof t) /\ rds i = [].
    Definition gk3 (ph : nat -> list (item R)) : Prop := forall t i, t < bs -> In i (ph t) ->
      ((exists f, f < G /\ tgt i = acc f t) \/ tgt i = reg t) /\
      forall y, In y (rds i) -> (exists j, j < K * G /\ y = ing j) \/ (exists f, f < G /\ y = feat (gof t * G + f)).
    Definition gk4 (ph : nat -> list (item R)) : Prop := forall t i, t < bs -> In i (ph t) ->
      (exists h, forall vs w, fn i vs w = (w + h vs)%R) /\ ((exists j, j < M * K /\ tgt i = (0, j)) \/ (exists j, j < N * C /\ tgt i = (1, j))) /\
      forall y, In y (rds i) -> y = reg t \/ exists f u, f < G /\ u < bs /\ y = acc f u.
    Definition gkind ph : Prop := gk1 ph \/ gk2 ph \/ gk3 ph \/ gk4 ph.
    Lemma prod_lt f t : f < G -> f * K + lof t < K * G.
    Proof. intros. pose proof (local_lt t). nia. Qed.
    Lemma gkind_init e : gk1 (g_init b e).
    Proof. intros t i Ht H. apply in_map_iff in H. destruct H as (j & <- & Hj). apply seq_groups in Hj; auto. exists j. split; [lia|]. split; [lia|auto]. Qed.
    Lemma gkind_load e k : gk2 (fun t => g_load b e t (gof t + k * NG)).
    Proof. intros t i Ht. unfold g_load. destruct (valid _ _); [|intros []]. destruct (lof t <? G) eqn:E; [|intros []]. apply Nat.ltb_lt in E. intros [<-|[]]. auto. Qed.
    Lemma gkind_prod e k : gk3 (fun t => g_prod b e t (gof t + k * NG)).
    Proof.
      intros t i Ht H. apply in_app_iff in H. destruct H as [H|[<-|[]]].
      - apply in_map_iff in H. destruct H as (f & <- & Hf). apply in_seq in Hf. split; [left; exists f; split; [lia|auto]|]. intros y [<-|[]]. left. eexists. split; [|reflexivity]. apply prod_lt; lia.
      - split; [now right|]. intros y Hy. cbn [rds] in Hy. apply in_flat_map in Hy. destruct Hy as (f & Hf & [<-|[<-|[]]]); apply in_seq in Hf.
        + left. eexists. split; [|reflexivity]. apply prod_lt; lia.
        + right. exists f. split; [lia|auto].
    Qed.
    Lemma group_thread t k : t < bs -> k < K -> gof t * K + k < bs.
    Proof. intros Ht Hk. pose proof (group_lt' t Ht). nia. Qed.
    Lemma gkind_store e k : e < total -> gk4 (fun t => g_store b e t (gof t + k * NG)).
    Proof.
      intros He t i Ht. unfold g_store. destruct (valid e _) eqn:E; [|intros []]. pose proof (valid_lt e _ He E) as L. intros [<-|H].
      - split; [exists (hd 0%R); reflexivity|]. split; [left; eexists; split; [|reflexivity]; pose proof (local_lt t); nia|]. intros y [<-|[]]. now left.
      - destruct (lof t <? G) eqn:El; [|destruct H]. apply Nat.ltb_lt in El. destruct H as [<-|[]]. split; [exists kahan; reflexivity|]. split.
        + right. eexists. split; [|reflexivity]. pose proof (Hpid _ L). pose proof (off_lt' e _ El). nia.
        + intros y Hy. right. cbn [rds] in Hy. apply in_map_iff in Hy. destruct Hy as (k' & <- & Hk). apply in_seq in Hk. exists (lof t), (gof t * K + k'). split; auto. split; auto. apply group_thread; auto; lia.
    Qed.
    Lemma g_kinds e ph : e < total -> In ph (g_phases b e) -> gkind ph.
    Proof.
      intros He [<-|H]; [left; apply gkind_init|]. apply in_flat_map in H. destruct H as (k & _ & [<-|[<-|[<-|[]]]]).
      - right; left. apply gkind_load.
      - right; right; left. apply gkind_prod.
      - right; right; right. now apply gkind_store.
    Qed.
    Lemma acc_inj' f t f' t' : t < bs -> t' < bs -> acc f t = acc f' t' -> f = f' /\ t = t'.
    Proof. intros H H' E. injection E as E. now apply mixed in E. Qed.
    Lemma acc_feat' f t i : f < G -> t < bs -> acc f t <> feat i.
    Proof. intros Hf Ht E. injection E as E. nia. Qed.
    Lemma acc_ing f t i : f < G -> t < bs -> acc f t <> ing i.
    Proof. rewrite in_grad_eq. intros Hf Ht E. injection E as E. nia. Qed.
    Lemma feat_ing g f i : g < NG -> f < G -> feat (g * G + f) <> ing i.
    Proof. rewrite in_grad_eq. intros Hg Hf E. injection E as E. nia. Qed.
    Lemma ing_inj i j : ing i = ing j -> i = j.
    Proof. rewrite !in_grad_eq. intros E. injection E as E. lia. Qed.
    Lemma feat_inj' i j : feat i = feat j -> i = j.
    Proof. intros E. injection E as E. lia. Qed.
    Lemma acc_reg f t u : acc f t <> reg u.
    Proof. intros E. unfold accum in E. assert (X : 2 + 2 * b = 3 + 2 * b) by congruence. lia. Qed.
    Lemma feat_reg i u : feat i <> reg u.
    Proof. intros E. unfold feature in E. assert (X : 2 + 2 * b = 3 + 2 * b) by congruence. lia. Qed.
    Lemma ing_reg i u : ing i <> reg u.
    Proof. rewrite in_grad_eq. intros E. assert (X : 2 + 2 * b = 3 + 2 * b) by congruence. lia. Qed.

    Lemma gkinds_self ph t u i j : gkind ph -> t < bs -> u < bs -> In i (ph t) -> In j (ph u) -> ~ In (tgt i) (rds j).
    Proof.
      intros [H|[H|[H|H]]] Ht Hu Hi Hj; apply H in Hi, Hj; auto.
      - destruct Hj as (? & _ & _ & _ & ->). intros [].
      - destruct Hj as (_ & _ & ->). intros [].
      - destruct Hi as (Ti & _), Hj as (_ & Rj). intros X. apply Rj in X. destruct Ti as [(f & Hf & Ti)|Ti], X as [(q & Hq & X)|(f' & Hf' & X)]; rewrite Ti in X.
        + now apply acc_ing in X.
        + now apply acc_feat' in X.
        + symmetry in X. now apply ing_reg in X.
        + symmetry in X. now apply feat_reg in X.
      - destruct Hi as (_ & Ti & _), Hj as (_ & _ & Rj). intros X. apply Rj in X. destruct Ti as [(q & _ & Ti)|(q & _ & Ti)], X as [X|(f & w & _ & _ & X)]; rewrite Ti in X; discriminate.
    Qed.
    Lemma gkinds_apart ph t u i j : gkind ph -> t < bs -> u < bs -> t <> u -> In i (ph t) -> In j (ph u) -> apart i j.
    Proof.
      intros H Ht Hu Ne Hi Hj. split; [now apply (gkinds_self ph t u)|]. split; [now apply (gkinds_self ph u t)|].
      destruct H as [H|[H|[H|H]]]; apply H in Hi, Hj; auto.
      - destruct Hi as (p & _ & Hp & -> & _), Hj as (q & _ & Hq & -> & _). left. intros X. apply ing_inj in X. congruence.
      - destruct Hi as (Li & -> & _), Hj as (Lj & -> & _). left. intros X. apply feat_inj' in X. apply mixed in X; auto. apply Ne. rewrite (thread_eq' t), (thread_eq' u). destruct X as (-> & ->). auto.
      - destruct Hi as (Ti & _), Hj as (Tj & _). left. intros X. destruct Ti as [(f & Hf & Ti)|Ti], Tj as [(f' & Hf' & Tj)|Tj]; rewrite Ti, Tj in X.
        + apply acc_inj' in X; tauto.
        + now apply acc_reg in X.
        + symmetry in X. now apply acc_reg in X.
        + congruence.
      - destruct Hi as ((h & Ei) & _), Hj as ((h' & Ej) & _). right. intros vs vs' w. rewrite !Ei, !Ej. lra.
    Qed.
    Lemma gkinds_cells ph t i : gkind ph -> t < bs -> In i (ph t) ->
      (fst (tgt i) / 2 = 1 + b \/ fst (tgt i) < 2 /\ exists h, forall vs w, fn i vs w = (w + h vs)%R) /\ forall y, In y (rds i) -> fst y / 2 = 1 + b.
    Proof.
      assert (D2 : (2 + 2 * b) / 2 = 1 + b) by (symmetry; apply (Nat.div_unique _ _ _ 0); lia). assert (D3 : (3 + 2 * b) / 2 = 1 + b) by (symmetry; apply (Nat.div_unique _ _ _ 1); lia).
      intros [H|[H|[H|H]]] Ht Hi; apply H in Hi; auto.
      - destruct Hi as (p & _ & Hp & -> & ->). split; [|intros y []]. left. now rewrite in_grad_eq.
      - destruct Hi as (Li & -> & ->). split; [|intros y []]. now left.
      - destruct Hi as (Ti & Ri). split.
        + left. destruct Ti as [(f & Hf & ->)| ->]; auto.
        + intros y Hy. apply Ri in Hy. destruct Hy as [(q & _ & ->)|(f & _ & ->)]; [now rewrite in_grad_eq|auto].
      - destruct Hi as (Hf & Ti & Ri). split.
        + right. split; auto. destruct Ti as [(q & _ & ->)|(q & _ & ->)]; cbn; lia.
        + intros y Hy. apply Ri in Hy. destruct Hy as [->|(f & u & _ & _ & ->)]; auto.
    Qed.
  End Kinds.
  Lemma gblocks_apart b b' ph ph' t u i j : b <> b' -> gkind b ph -> gkind b' ph' -> t < bs -> u < bs -> In i (ph t) -> In j (ph' u) -> apart i j.
  Proof.
    intros Ne H H' Ht Hu Hi Hj. destruct (gkinds_cells b ph t i H Ht Hi) as (Ti & Ri), (gkinds_cells b' ph' u j H' Hu Hj) as (Tj & Rj).
    assert (Z : forall k, k < 2 -> k / 2 = 0) by (intros; now apply Nat.div_small). split; [|split].
    - intros X. apply Rj in X. destruct Ti as [Ti|(Ti & _)]; [lia|]. rewrite (Z _ Ti) in X. discriminate.
    - intros X. apply Ri in X. destruct Tj as [Tj|(Tj & _)]; [lia|]. rewrite (Z _ Tj) in X. discriminate.
    - destruct Ti as [Ti|(Ti & hi & Ei)], Tj as [Tj|(Tj & hj & Ej)].
      + left. intros E. rewrite E in Ti. lia.
      + left. intros E. rewrite E, (Z _ Tj) in Ti. discriminate.
      + left. intros E. rewrite <- E, (Z _ Ti) in Tj. discriminate.
      + right. intros vs vs' w. rewrite !Ei, !Ej. lra.
  Qed.

  (** *** One round *)
  Definition gok (m : mem R) (b : nat) : Prop :=
    (forall i, i < M * K -> has m (0, i)) /\ (forall i, i < N * C -> has m (1, i)) /\
    (forall i, i < G * (bs + NG + K) -> has m (2 + 2 * b, i)) /\ (forall i, i < bs -> has m (3 + 2 * b, i)).
  Lemma gok_shape b m m' : gok m b -> same_shape m m' -> gok m' b.
  Proof. intros (H1 & H2 & H3 & H4) E. repeat split; intros i Hi; eapply has_shape; eauto. Qed.
  Definition dbasis (e i l : nat) : R := sum_over (seq 0 G) (fun f => gval e (f * K + l) * fval i (off e + f))%R.
  Definition dfeat (e i l : nat) : R := sum_over (seq 0 K) (fun k => gval e (l * K + k) * bval i k)%R.
  Definition amount (e it l : nat) (x : nat * nat) : R :=
    if valid e it then
      Rplus (if cell_eqb x (0, (it + xs e) * K + l) then dbasis e (it + xs e) l else 0%R)
        (if (l <? G) && cell_eqb x (1, pid (it + xs e) * C + off e + l) then dfeat e (it + xs e) l else 0%R)
    else 0%R.
  Section Round.
    Variables (b e : nat).
    Hypothesis He : e < total.
    Notation sh := (2 + 2 * b).
    Notation acc f t := (accum bs sh f t).
    Notation feat i := (feature G bs sh i).
    Notation ing i := (in_grad K G bs b i).
    Notation reg t := (3 + 2 * b, t).
    Notation gof t := (t / K).
    Notation lof t := (t mod K).
    Notation sem ph := (flat_map (acts ph) (seq 0 bs)).
    Notation outs x := (fst x < 2).
    Lemma ghas_acc m f t : gok m b -> f < G -> t < bs -> has m (acc f t).
    Proof. intros (_ & _ & H & _) Hf Ht. apply H. nia. Qed.
    Lemma ghas_feat m g f : gok m b -> g < NG -> f < G -> has m (feat (g * G + f)).
    Proof. intros (_ & _ & H & _) Hf Ht. apply H. nia. Qed.
    Lemma ghas_ing m i : gok m b -> i < K * G -> has m (ing i).
    Proof. rewrite in_grad_eq. intros (_ & _ & H & _) Hi. apply H. nia. Qed.
    Lemma ghas_reg m t : gok m b -> t < bs -> has m (reg t).
    Proof. intros (_ & _ & _ & H) Hi. now apply H. Qed.
    Lemma gkinds_has ph m t i : gkind b ph -> gok m b -> t < bs -> In i (ph t) -> has m (tgt i) /\ forall y, In y (rds i) -> has m y.
    Proof.
      intros [H|[H|[H|H]]] Hm Ht Hi; apply H in Hi; auto.
      - destruct Hi as (p & Hp & _ & -> & ->). split; [now apply ghas_ing|intros y []].
      - destruct Hi as (Li & -> & ->). split; [apply ghas_feat; auto; now apply group_lt'|intros y []].
      - destruct Hi as (Ti & Ri). split.
        + destruct Ti as [(f & Hf & ->)| ->]; [now apply ghas_acc|now apply ghas_reg].
        + intros y Hy. apply Ri in Hy. destruct Hy as [(q & Hq & ->)|(f & Hf & ->)]; [now apply ghas_ing|]. apply ghas_feat; auto. now apply group_lt'.
      - destruct Hi as (_ & Ti & Ri). split.
        + destruct Ti as [(q & Hq & ->)|(q & Hq & ->)]; now apply Hm.
        + intros y Hy. apply Ri in Hy. destruct Hy as [->|(f & u & Hf & Hu & ->)]; [now apply ghas_reg|now apply ghas_acc].
    Qed.
    Lemma gkinds_run ph m : gkind b ph -> gok m b ->
      exists m', run_all (sem ph) m = Some m' /\ same_shape m m' /\
        forall x v, get x m = Some v -> get x m' = Some (after m (flat_map ph (seq 0 bs)) x v).
    Proof.
      intros H Hm. apply item_phase.
      - intros t i Ht Hi. now apply (gkinds_has ph m t).
      - intros t u i j Ht Hu Hi Hj. now apply (gkinds_self b ph t u).
    Qed.
    (** Phases other than the last keep the results. *)
    Lemma gk_out ph m x v : gk1 b ph \/ gk2 b ph \/ gk3 b ph -> outs x -> after m (flat_map ph (seq 0 bs)) x v = v.
    Proof.
      intros H Hx. apply after_none. intros it Hi E. apply in_flat_map in Hi. destruct Hi as (t & Ht & Hi). apply in_seq in Ht. subst x.
      destruct H as [H|[H|H]]; apply H in Hi; try lia.
      - destruct Hi as (p & _ & _ & X & _). rewrite X, in_grad_eq in Hx. cbn in Hx. lia.
      - destruct Hi as (_ & X & _). rewrite X in Hx. cbn in Hx. lia.
      - destruct Hi as ([(f & _ & X)|X] & _); rewrite X in Hx; cbn in Hx; lia.
    Qed.
    Lemma ginit_run m : gok m b -> exists m', run_all (sem (g_init b e)) m = Some m' /\ same_shape m m' /\
      (forall x v, outs x -> get x m = Some v -> get x m' = Some v) /\ (forall j, j < K * G -> get (ing j) m' = Some (gval e j)).
    Proof.
      intros Hm. pose proof (gkind_init b e) as Kd. destruct (gkinds_run (g_init b e) m (or_introl Kd) Hm) as (m' & Ru & Sh & Gm). exists m'. split; auto. split; auto. split.
      - intros x v Hx Hv. rewrite (Gm _ _ Hv), gk_out; auto.
      - intros j Hj. destruct (ghas_ing m j Hm Hj) as (v & Hv). rewrite (Gm _ _ Hv). f_equal.
        assert (Lt : j mod bs < bs) by (apply Nat.mod_upper_bound; lia).
        rewrite (after_flat_map1 m _ (seq 0 bs) (j mod bs)); [| |apply in_seq; lia|].
        + unfold g_init. apply (after_map1 m (fun i => Item (ing i) [] (fun _ _ => gval e i)) _ j).
          * apply iterations_nodup. lia.
          * apply strided_mod; auto.
          * intros j' _ Ne X. cbn [tgt] in X. apply ing_inj in X. congruence.
        + apply seq_NoDup.
        + intros u i Hu Ne Hi X. apply in_seq in Hu. apply Kd in Hi; [|lia]. destruct Hi as (p & _ & Hp & Y & _). rewrite Y in X. apply ing_inj in X. congruence.
    Qed.
    Lemma gload_run k m : gok m b -> exists m', run_all (sem (fun t => g_load b e t (gof t + k * NG))) m = Some m' /\ same_shape m m' /\
      (forall x v, outs x -> get x m = Some v -> get x m' = Some v) /\ (forall j v, j < K * G -> get (ing j) m = Some v -> get (ing j) m' = Some v) /\
      (forall g f, g < NG -> f < G -> valid e (g + k * NG) = true -> get (feat (g * G + f)) m' = Some (fval (g + k * NG + xs e) (off e + f))).
    Proof.
      intros Hm. pose proof (gkind_load b e k) as Kd. destruct (gkinds_run _ m (or_intror (or_introl Kd)) Hm) as (m' & Ru & Sh & Gm). exists m'. split; auto. split; auto. split; [|split].
      - intros x v Hx Hv. rewrite (Gm _ _ Hv), gk_out; auto.
      - intros j v Hj Hv. rewrite (Gm _ _ Hv). f_equal. apply after_none. intros i Hi X. apply in_flat_map in Hi. destruct Hi as (t & Ht & Hi). apply in_seq in Ht.
        apply Kd in Hi; [|lia]. destruct Hi as (Li & Y & _). rewrite Y in X. apply feat_ing in X; auto. apply group_lt'. lia.
      - intros g f Hg Hf Va. destruct (ghas_feat m g f Hm Hg Hf) as (v & Hv). rewrite (Gm _ _ Hv). f_equal.
        assert (Lt : g * K + f < bs) by nia. assert (D : (g * K + f) / K = g /\ (g * K + f) mod K = f) by (apply divmod_mul; lia). destruct D as (D1 & D2).
        rewrite (after_flat_map1 m _ (seq 0 bs) (g * K + f)); [| |apply in_seq; lia|].
        + unfold g_load. rewrite D1, D2, Va. replace (f <? G) with true by (symmetry; now apply Nat.ltb_lt). cbn [andb].
          unfold after. cbn [fold_left tgt fn]. now rewrite cell_eqb_refl.
        + apply seq_NoDup.
        + intros u i Hu Ne Hi E. apply in_seq in Hu. apply Kd in Hi; [|lia]. destruct Hi as (Hl & X & _). rewrite X in E.
          apply feat_inj' in E. apply mixed in E; auto. apply Ne. rewrite (thread_eq' u). destruct E as (-> & ->). reflexivity.
    Qed.
    Lemma nth_pairs (m : mem R) (p q : nat -> nat * nat) (h h' : nat -> R) n : (forall f, f < n -> get (p f) m = Some (h f) /\ get (q f) m = Some (h' f)) ->
      exists vs, gets (flat_map (fun f => [p f; q f]) (seq 0 n)) m = Some vs /\ map (fun f => nth (2 * f) vs 0 * nth (2 * f + 1) vs 0)%R (seq 0 n) = map (fun f => h f * h' f)%R (seq 0 n).
    Proof.
      intros H. exists (flat_map (fun f => [h f; h' f]) (seq 0 n)). split.
      - assert (X : forall l, (forall f, In f l -> f < n) -> gets (flat_map (fun f => [p f; q f]) l) m = Some (flat_map (fun f => [h f; h' f]) l)).
        { induction l as [|f l IH]; intros Hl; [reflexivity|]. destruct (H f (Hl f (or_introl eq_refl))) as (H1 & H2). cbn [flat_map app gets]. rewrite H1, H2. cbn [obind]. rewrite IH by (intros; apply Hl; now right). reflexivity. }
        apply X. intros f Hf. apply in_seq in Hf. lia.
      - apply map_ext_in. intros f Hf. apply in_seq in Hf.
        assert (Y : forall n s f, f < n -> nth (2 * f) (flat_map (fun f => [h f; h' f]) (seq s n)) 0%R = h (s + f) /\ nth (2 * f + 1) (flat_map (fun f => [h f; h' f]) (seq s n)) 0%R = h' (s + f)).
        { clear. induction n as [|n IH]; intros s f Hf; [lia|]. cbn [seq flat_map app]. destruct f as [|f].
          - rewrite Nat.add_0_r. auto.
          - destruct (IH (Datatypes.S s) f ltac:(lia)) as (A & B). replace (2 * Datatypes.S f) with (Datatypes.S (Datatypes.S (2 * f))) by lia. cbn [nth]. rewrite A. cbn [Nat.add nth]. rewrite B. replace (s + Datatypes.S f) with (Datatypes.S s + f) by lia. auto. }
        destruct (Y n 0 f ltac:(lia)) as (-> & ->). reflexivity.
    Qed.
    Lemma gprod_run k m : gok m b -> (forall j, j < K * G -> get (ing j) m = Some (gval e j)) ->
      (forall g f, g < NG -> f < G -> valid e (g + k * NG) = true -> get (feat (g * G + f)) m = Some (fval (g + k * NG + xs e) (off e + f))) ->
      exists m', run_all (sem (fun t => g_prod b e t (gof t + k * NG))) m = Some m' /\ same_shape m m' /\
      (forall x v, outs x -> get x m = Some v -> get x m' = Some v) /\ (forall j, j < K * G -> get (ing j) m' = Some (gval e j)) /\
      (forall t, t < bs -> valid e (gof t + k * NG) = true -> get (reg t) m' = Some (dbasis e (gof t + k * NG + xs e) (lof t)) /\
         forall f, f < G -> get (acc f t) m' = Some (gval e (f * K + lof t) * bval (gof t + k * NG + xs e) (lof t))%R).
    Proof.
      intros Hm Hi Hf. pose proof (gkind_prod b e k) as Kd. destruct (gkinds_run _ m (or_intror (or_intror (or_introl Kd))) Hm) as (m' & Ru & Sh & Gm). exists m'. split; auto. split; auto. split; [|split].
      - intros x v Hx Hv. rewrite (Gm _ _ Hv), gk_out; auto.
      - intros j Hj. rewrite (Gm _ _ (Hi j Hj)). f_equal. apply after_none. intros i Ii X. apply in_flat_map in Ii. destruct Ii as (t & Ht & Ii). apply in_seq in Ht.
        apply Kd in Ii; [|lia]. destruct Ii as ([(f & Lf & Y)|Y] & _); rewrite Y in X; [apply acc_ing in X; auto; lia|]. symmetry in X. now apply ing_reg in X.
      - intros t Ht Va. assert (One : forall x, (exists f, f < G /\ x = acc f t) \/ x = reg t -> forall v, after m (flat_map (fun t => g_prod b e t (gof t + k * NG)) (seq 0 bs)) x v = after m (g_prod b e t (gof t + k * NG)) x v).
        { intros x Hx v. apply (after_flat_map1 m (fun t => g_prod b e t (gof t + k * NG)) (seq 0 bs) t); [apply seq_NoDup|apply in_seq; lia|]. intros u i Hu Ne Ii X. apply in_seq in Hu. apply Kd in Ii; [|lia]. destruct Ii as (Y & _). subst x.
          destruct Y as [(f & Lf & Y)|Y], Hx as [(f' & Lf' & Z)|Z]; rewrite Y in Z.
          - apply acc_inj' in Z; [|lia|lia]. tauto.
          - now apply acc_reg in Z.
          - symmetry in Z. now apply acc_reg in Z.
          - congruence. }
        split.
        + destruct (ghas_reg m t Hm Ht) as (v & Hv). rewrite (Gm _ _ Hv). f_equal. rewrite One by now right. unfold g_prod. rewrite after_app.
          unfold after at 1. cbn [fold_left tgt fn rds]. rewrite cell_eqb_refl.
          destruct (nth_pairs m (fun f => ing (f * K + lof t)) (fun f => feat (gof t * G + f)) (fun f => gval e (f * K + lof t)) (fun f => fval (gof t + k * NG + xs e) (off e + f)) G) as (vs & E1 & E2).
          { intros f Lf. split; [apply Hi, prod_lt; auto|]. apply Hf; auto. now apply group_lt'. }
          unfold vals. rewrite E1, kahan_sum, E2. symmetry. apply sum_over_rsum.
        + intros f Lf. destruct (ghas_acc m f t Hm Lf Ht) as (v & Hv). rewrite (Gm _ _ Hv). f_equal. rewrite One by (left; eauto). unfold g_prod. rewrite after_app, after_none.
          * set (g := fun f => Item (acc f t) [ing (f * K + lof t)] (fun vs _ => hd 0 vs * wv K nfb ends basis e (gof t + k * NG) (lof t))%R). change (acc f t) with (tgt (g f)).
            rewrite (after_map1 m g (seq 0 G) f); [|apply seq_NoDup|apply in_seq; lia|].
            -- subst g. cbn [fn rds]. unfold vals. cbn [gets]. rewrite Hi by now apply prod_lt. cbn [obind option_map hd]. unfold wv. unfold valid in Va. now rewrite Va.
            -- intros f' _ Ne X. cbn [tgt g] in X. apply acc_inj' in X; tauto.
          * intros i [<-|[]] X. cbn [tgt] in X. symmetry in X. now apply acc_reg in X.
    Qed.
    Lemma gstore_run k m : gok m b -> (forall j, j < K * G -> get (ing j) m = Some (gval e j)) ->
      (forall t, t < bs -> valid e (gof t + k * NG) = true -> get (reg t) m = Some (dbasis e (gof t + k * NG + xs e) (lof t)) /\
         forall f, f < G -> get (acc f t) m = Some (gval e (f * K + lof t) * bval (gof t + k * NG + xs e) (lof t))%R) ->
      exists m', run_all (sem (fun t => g_store b e t (gof t + k * NG))) m = Some m' /\ same_shape m m' /\
      (forall j, j < K * G -> get (ing j) m' = Some (gval e j)) /\
      (forall x v, outs x -> get x m = Some v -> get x m' = Some (v + sum_over (seq 0 NG) (fun g => sum_over (seq 0 K) (fun l => amount e (g + k * NG) l x)))%R).
    Proof.
      intros Hm Hi Hs. pose proof (gkind_store b e k He) as Kd. destruct (gkinds_run _ m (or_intror (or_intror (or_intror Kd))) Hm) as (m' & Ru & Sh & Gm). exists m'. split; auto. split; auto. split.
      - intros j Hj. rewrite (Gm _ _ (Hi j Hj)). f_equal. apply after_none. intros i Ii X. apply in_flat_map in Ii. destruct Ii as (t & Ht & Ii). apply in_seq in Ht.
        apply Kd in Ii; [|lia]. rewrite in_grad_eq in X. destruct Ii as (_ & [(q & _ & Y)|(q & _ & Y)] & _); rewrite Y in X; discriminate.
      - intros x v Hx Hv. rewrite (Gm _ _ Hv). f_equal. rewrite (after_adds m _ (fun t => amount e (gof t + k * NG) (lof t) x)).
        + f_equal. rewrite <- sum_over_rsum, sum_split. apply sum_over_ext. intros g _. apply sum_over_ext. intros l Hl. apply in_seq in Hl. destruct (divmod_mul g l K ltac:(lia)) as (-> & ->). reflexivity.
        + intros t Ht w. apply in_seq in Ht. unfold g_store, amount. destruct (valid e _) eqn:Va; [|unfold after; cbn; lra]. destruct (Hs t ltac:(lia) Va) as (Hr & Ha).
          assert (V1 : vals m [reg t] = [dbasis e (gof t + k * NG + xs e) (lof t)]) by (unfold vals; cbn [gets]; now rewrite Hr).
          unfold after. cbn [fold_left tgt fn rds]. rewrite V1. cbn [hd]. destruct (lof t <? G) eqn:El; cbn [fold_left tgt fn rds andb].
          * apply Nat.ltb_lt in El. rewrite (vals_map m _ (fun k' => gval e (lof t * K + k') * bval (gof t + k * NG + xs e) k')%R).
            2:{ intros k' Hk. apply in_seq in Hk. destruct (divmod_mul (gof t) k' K ltac:(lia)) as (D1 & D2). pose proof (group_thread t k' ltac:(lia) ltac:(lia)) as L. destruct (Hs _ L) as (_ & X); [now rewrite D1|]. rewrite X by auto. rewrite D1, D2. reflexivity. }
            rewrite kahan_sum, <- sum_over_rsum. fold (dfeat e (gof t + k * NG + xs e) (lof t)). destruct (cell_eqb x (0, _)), (cell_eqb x (1, _)); lra.
          * destruct (cell_eqb x (0, _)); lra.
    Qed.
    Lemma gloop_run ks : forall m, gok m b -> (forall j, j < K * G -> get (ing j) m = Some (gval e j)) ->
      exists m', run_all (flat_map (fun ph => sem ph) (flat_map (fun k => [(fun t => g_load b e t (gof t + k * NG)); (fun t => g_prod b e t (gof t + k * NG)); (fun t => g_store b e t (gof t + k * NG))]) ks)) m = Some m' /\ same_shape m m' /\
      (forall x v, outs x -> get x m = Some v -> get x m' = Some (v + sum_over ks (fun k => sum_over (seq 0 NG) (fun g => sum_over (seq 0 K) (fun l => amount e (g + k * NG) l x))))%R).
    Proof.
      induction ks as [|k ks IH]; intros m Hm Hi.
      - exists m. split; [reflexivity|]. split; [reflexivity|]. intros x v _ ->. f_equal. unfold sum_over. cbn. lra.
      - destruct (gload_run k m Hm) as (m1 & R1 & S1 & O1 & I1 & F1). assert (M1 : gok m1 b) by (eapply gok_shape; eauto).
        destruct (gprod_run k m1 M1 (fun j Hj => I1 j _ Hj (Hi j Hj)) F1) as (m2 & R2 & S2 & O2 & I2 & V2). assert (M2 : gok m2 b) by (eapply gok_shape; eauto).
        destruct (gstore_run k m2 M2 I2 V2) as (m3 & R3 & S3 & I3 & V3). assert (M3 : gok m3 b) by (eapply gok_shape; eauto).
        destruct (IH m3 M3 I3) as (m4 & R4 & S4 & V4). exists m4. cbn [flat_map app]. rewrite !run_all_app, R1. cbn [obind]. rewrite run_all_app, R2. cbn [obind]. rewrite run_all_app, R3. cbn [obind]. split; auto. split.
        + repeat (eapply same_shape_trans; [eassumption|]). reflexivity.
        + intros x v Hx Hv. rewrite (V4 x _ Hx (V3 x _ Hx (O2 x _ Hx (O1 x _ Hx Hv)))). f_equal. rewrite (sum_over_cons k ks). lra.
    Qed.
    Definition contribution (x : nat * nat) : R :=
      sum_over (seq (xs e) (ys e - xs e)) (fun i => sum_over (seq 0 K) (fun l => amount e (i - xs e) l x)).
    Lemma ground_run m : gok m b -> exists m', run_all (flat_map (fun ph => sem ph) (g_phases b e)) m = Some m' /\ same_shape m m' /\
      forall x v, outs x -> get x m = Some v -> get x m' = Some (v + contribution x)%R.
    Proof.
      intros Hm. destruct (ginit_run m Hm) as (m1 & R1 & S1 & O1 & I1). assert (M1 : gok m1 b) by (eapply gok_shape; eauto).
      destruct (gloop_run (seq 0 (rounds NG nfb ends e)) m1 M1 I1) as (m2 & R2 & S2 & V2). exists m2. unfold g_phases. cbn [flat_map]. rewrite run_all_app, R1. cbn [obind]. split; auto. split.
      - eapply same_shape_trans; eauto.
      - intros x v Hx Hv. rewrite (V2 x v Hx (O1 x v Hx Hv)). do 2 f_equal. rewrite sum_over_swap.
        rewrite (sum_groups NG (rounds NG nfb ends e) (fun it => sum_over (seq 0 K) (fun l => amount e it l x))).
        rewrite (sum_tail (ys e - xs e)).
        + unfold contribution. rewrite (sum_shift (xs e)). apply sum_over_ext. intros i _. apply sum_over_ext. intros l _. f_equal. lia.
        + unfold rounds. set (n := ys e - xs e). pose proof (Nat.div_mod n NG ltac:(lia)). pose proof (Nat.mod_upper_bound n NG ltac:(lia)). nia.
        + intros it Hit _. rewrite (sum_over_ext _ _ (fun _ => 0%R)); [apply sum_over_0|]. intros l _. unfold amount. replace (valid e it) with false; [reflexivity|]. symmetry. unfold valid. apply Nat.ltb_ge. lia.
    Qed.
  End Round.

  (** *** The kernel *)
  Theorem gr_runs blocks (ob of : list R) (shared : list (list R * list R)) (P : mem R -> Prop) : 0 < blocks ->
    length ob = M * K -> length of = N * C -> length shared = blocks ->
    Forall (fun p => length (fst p) = G * (bs + NG + K) /\ length (snd p) = bs) shared ->
    (forall m, length (nth 0 m []) = M * K -> length (nth 1 m []) = N * C ->
       (forall x, x < 2 -> forall i, i < (if x =? 0 then M * K else N * C) ->
          nth i (nth x m []) 0%R = (nth i (if x =? 0 then ob else of) 0 + sum_over (seq 0 total) (fun e => contribution e (x, i)))%R) -> P m) ->
    every_run P (ob :: of :: flat_map (fun p => [fst p; snd p]) shared, gr_kernel K G C bs nbs ends basis feats grads blocks total).
  Proof.
    intros Hb Lo Lf Ls Fs HP. set (m0 := ob :: of :: flat_map (fun p => [fst p; snd p]) shared).
    assert (Buf : forall b p, nth_error shared b = Some p -> nth_error (flat_map (fun p => [fst p; snd p]) shared) (2 * b) = Some (fst p) /\ nth_error (flat_map (fun p => [fst p; snd p]) shared) (2 * b + 1) = Some (snd p)).
    { clear. induction shared as [|q l IH]; intros [|b] p E; try discriminate.
      - cbn in E. injection E as <-. auto.
      - cbn in E. destruct (IH b p E) as (A & B). cbn [flat_map app]. replace (2 * Datatypes.S b) with (Datatypes.S (Datatypes.S (2 * b))) by lia. cbn [nth_error Nat.add]. auto. }
    assert (Hok : forall b, b < blocks -> gok m0 b).
    { intros b Lb. destruct (nth_error shared b) as [p|] eqn:E; [|apply nth_error_None in E; lia]. destruct (Buf b p E) as (B1 & B2).
      rewrite Forall_forall in Fs. destruct (Fs p (nth_error_In _ _ E)) as (L1 & L2). repeat split; intros i Hi; apply has_iff; cbn [fst snd].
      - exists ob. split; [reflexivity|lia].
      - exists of. split; [reflexivity|lia].
      - exists (fst p). split; [exact B1|lia].
      - exists (snd p). split; [|lia]. replace (3 + 2 * b) with (2 + (2 * b + 1)) by lia. exact B2. }
    assert (Hsh : forall b m, b < blocks -> same_shape m0 m -> gok m b) by (intros b m Lb E; eapply gok_shape; [apply (Hok b Lb)|auto]).
    set (code := fun e => flat_map (fun ph => flat_map (acts ph) (seq 0 bs)) (g_phases (e mod blocks) e)).
    set (order := flat_map (fun b => strided b blocks total) (seq 0 blocks)).
    destruct (rounds_fold code (fun e x v => v + contribution e x)%R (fun x => fst x < 2) (same_shape m0) order) with (m := m0) as (mf & Ru & Sf & Gf).
    - intros m m' H E. eapply same_shape_trans; eauto.
    - intros e m He Hm. unfold order in He. apply in_flat_map in He. destruct He as (b & Lb & He). apply in_seq in Lb. apply strided_mod in He; [|lia]. destruct He as (He & Eb).
      apply (ground_run (e mod blocks) e He m). apply Hsh; auto; lia.
    - apply same_shape_refl.
    - assert (In_e : forall b e, b < blocks -> In e (strided b blocks total) -> e < total /\ e mod blocks = b) by (intros b e Lb He; now apply strided_mod in He).
      rewrite geq_kernel by auto. apply (item_kernel_runs blocks bs _ m0 mf).
      + intros b ph t u i j Lb Hph Ht Hu Ne Hi Hj. unfold gr_phases in Hph. apply in_flat_map in Hph. destruct Hph as (e & He & Hph).
        apply (gkinds_apart b ph t u); auto. apply (g_kinds b e); auto. now apply (In_e b).
      + intros b b' ph ph' t u i j Lb Lb' Ne Hph Hph' Ht Hu Hi Hj. unfold gr_phases in Hph, Hph'. apply in_flat_map in Hph, Hph'.
        destruct Hph as (e & He & Hph), Hph' as (e' & He' & Hph'). apply In_e in He, He'; auto.
        apply (gblocks_apart b b' ph ph' t u); auto; [apply (g_kinds b e)|apply (g_kinds b' e')]; tauto.
      + rewrite <- Ru. f_equal. unfold order. rewrite flat_map_flat_map. apply flat_map_ext_in'. intros b Ib. apply in_seq in Ib. unfold gr_phases. rewrite flat_map_flat_map.
        apply flat_map_ext_in'. intros e He. apply In_e in He; [|lia]. destruct He as (_ & He). unfold code. now rewrite He.
      + destruct (same_shape_buf m0 mf 0 ob Sf eq_refl) as (l0 & E0 & L0). destruct (same_shape_buf m0 mf 1 of Sf eq_refl) as (l1 & E1 & L1).
        apply HP.
        * rewrite (nth_error_nth _ _ [] E0). lia.
        * rewrite (nth_error_nth _ _ [] E1). lia.
        * intros x Hx i Hi. assert (Hg : get (x, i) m0 = Some (nth i (if x =? 0 then ob else of) 0%R)).
          { destruct x as [|[|x]]; [| |lia]; cbn [Nat.eqb] in *; unfold get; cbn [fst snd nth_error m0 obind]; unfold rd; apply nth_error_nth'; lia. }
          pose proof (Gf (x, i) _ Hx Hg) as X.
          assert (Y : forall l v, fold_left (fun w e => (w + contribution e (x, i))%R) l v = (v + sum_over l (fun e => contribution e (x, i)))%R).
          { clear. induction l as [|e l IH]; intros v; cbn [fold_left]; [unfold sum_over; cbn; lra|]. rewrite IH. unfold sum_over. cbn. lra. }
          rewrite Y in X. rewrite (sum_over_perm order (seq 0 total)) in X by (apply strided_all; auto).
          unfold get in X. cbn [fst snd] in X. destruct (nth_error mf x) as [l|] eqn:E; [|discriminate]. cbn [obind] in X. rewrite (nth_error_nth _ _ [] E). unfold rd in X. now apply nth_error_nth.
  Qed.
End Backward.
