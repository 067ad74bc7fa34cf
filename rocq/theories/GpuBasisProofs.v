(** Proofs of the properties of the CUDA basis projection (C46). The statements
    are copied into PropertiesGpuBasis.v. *)
From Coq Require Import String List Arith ZArith QArith Lia Reals Lra Bool Permutation.
From Verif Require Import Tensor TensorFacts PointCloud RTensor RTensorFacts Pdf SpecPdf PdfFacts Neighbors SpecNeighbors Neighborhood Layers SpecLayers LayerFacts LayerProofs
  Cuda CudaFacts MemFacts AddFacts CudaUpdate PhasedFacts GpuBasis GpuBasisFacts GpuBasisGradFacts SpecGpuBasis.
Import ListNotations.
Local Open Scope nat_scope.

(** ** Ranges *)
Definition ranged (ends : list Z) (nbs : list (nat * nat)) : Prop :=
  (forall s, s < length ends -> range_x ends s <= range_y ends s <= length nbs) /\
  (forall s m, s < length ends -> m < length nbs -> (range_x ends s <= m < range_y ends s <-> snd (nth m nbs (0, 0)) = s)) /\
  (forall m, m < length nbs -> snd (nth m nbs (0, 0)) < length ends).

Lemma filter_app_nil {A} (P : A -> bool) l : (forall x, In x l -> P x = true) -> filter P l = l.
Proof. induction l as [|x l IH]; intros H; [reflexivity|]. cbn. rewrite (H x) by now left. f_equal. apply IH. intros; apply H; now right. Qed.
Lemma slice_filter {A} (P : A -> bool) (l : list A) d a b : a <= b -> b <= length l -> firstn (b - a) (skipn a l) = filter P l ->
  forall m, m < length l -> (a <= m < b <-> P (nth m l d) = true).
Proof.
  intros Hab Hb E m Hm.
  assert (D : l = firstn a l ++ firstn (b - a) (skipn a l) ++ skipn (b - a) (skipn a l)) by (now rewrite !firstn_skipn).
  set (l1 := firstn a l) in *. set (l2 := firstn (b - a) (skipn a l)) in *. set (l3 := skipn (b - a) (skipn a l)) in *.
  assert (L1 : length l1 = a) by (unfold l1; rewrite firstn_length; lia). assert (L2 : length l2 = b - a) by (unfold l2; rewrite firstn_length, skipn_length; lia).
  assert (F2 : forall x, In x l2 -> P x = true) by (intros x Hx; rewrite E in Hx; apply filter_In in Hx; tauto).
  rewrite D in E. rewrite !filter_app, (filter_app_nil P l2 F2) in E. pose proof (f_equal (@length _) E) as EL. rewrite !app_length in EL.
  assert (N1 : filter P l1 = []) by (apply length_zero_iff_nil; lia). assert (N3 : filter P l3 = []) by (apply length_zero_iff_nil; lia).
  assert (Z : forall l x, filter P l = [] -> In x l -> P x = true -> False) by (intros l' x F Hx Px; assert (X : In x (filter P l')) by (apply filter_In; auto); rewrite F in X; destruct X).
  rewrite D. split.
  - intros Hr. apply F2. rewrite app_nth2 by lia. rewrite app_nth1 by lia. apply nth_In. lia.
  - intros Hp. destruct (Nat.lt_ge_cases m a) as [H|H].
    + exfalso. rewrite app_nth1 in Hp by lia. apply (Z l1 (nth m l1 d)); auto. apply nth_In. lia.
    + destruct (Nat.lt_ge_cases m b) as [H'|H']; [lia|]. exfalso. rewrite app_nth2, app_nth2 in Hp by lia. eapply (Z l3); [auto| |exact Hp]. apply nth_In.
      apply (f_equal (@length _)) in D. rewrite !app_length in D. lia.
Qed.
Lemma delimits_ranged ends nbs : delimits ends nbs (length ends) -> (length ends = 0 -> nbs = []) -> ranged ends nbs.
Proof.
  intros (_ & Hl & Hi) H0. assert (X : forall s, s < length ends -> range_x ends s <= range_y ends s <= length nbs).
  { intros s Hs. destruct (Hi s Hs) as (A & B & _). unfold range_x, range_y. destruct s; lia. }
  assert (Y : forall s m, s < length ends -> m < length nbs -> (range_x ends s <= m < range_y ends s <-> snd (nth m nbs (0, 0)) = s)).
  { intros s m Hs Hm. destruct (Hi s Hs) as (A & B & E). destruct (X s Hs) as (X1 & X2). rewrite <- (Nat.eqb_eq (snd _)).
    apply (slice_filter (fun q => snd q =? s) nbs (0, 0)); auto. unfold range_x, range_y. destruct s; exact E. }
  split; [exact X|]. split; [exact Y|]. intros m Hm. destruct (Nat.eq_dec (length ends) 0) as [Z|Z]; [rewrite (H0 Z) in Hm; cbn in Hm; lia|].
  assert (Q : forall n, n < length ends -> m < range_y ends n -> exists s, s <= n /\ range_x ends s <= m < range_y ends s).
  { induction n as [|n IH]; intros Hn Hy; [exists 0; cbn [range_x]; lia|]. destruct (Nat.lt_ge_cases m (range_y ends n)) as [L|L].
    - destruct (IH ltac:(lia) L) as (s & Ls & R). exists s. split; [lia|auto].
    - exists (S n). split; auto. }
  destruct (Q (length ends - 1)) as (s & Ls & R); [lia| |].
  - unfold range_y. rewrite Hl by lia. lia.
  - apply Y in R; [|lia|auto]. lia.
Qed.
Lemma ranged_snd ends nbs nbs' : map snd nbs = map snd nbs' -> ranged ends nbs -> ranged ends nbs'.
Proof.
  intros E (A & B & C). assert (L : length nbs = length nbs') by (apply (f_equal (@length _)) in E; now rewrite !map_length in E).
  assert (N : forall m, snd (nth m nbs' (0, 0)) = snd (nth m nbs (0, 0))) by (intros m; rewrite <- !(map_nth snd); now rewrite E). unfold ranged. rewrite <- L.
  split; [auto|]. split; [intros; rewrite N; auto|intros; rewrite N; auto].
Qed.
Lemma filter_seq_range (P : nat -> bool) M a b : a <= b -> b <= M -> (forall m, m < M -> (a <= m < b <-> P m = true)) -> filter P (seq 0 M) = seq a (b - a).
Proof.
  intros Hab Hb H. replace M with (a + ((b - a) + (M - b))) by lia. rewrite !seq_app, !filter_app. cbn [Nat.add].
  rewrite (filter_app_nil P (seq a (b - a))) by (intros x Hx; apply in_seq in Hx; apply H; lia).
  replace (filter P (seq 0 a)) with (@nil nat); [replace (filter P (seq (a + (b - a)) (M - b))) with (@nil nat); [now rewrite app_nil_r|]|].
  - symmetry. apply length_zero_iff_nil. destruct (filter P _) as [|x l] eqn:E; auto. exfalso. assert (X : In x (x :: l)) by now left. rewrite <- E in X. apply filter_In in X. destruct X as (X & Px). apply in_seq in X. apply H in Px; lia.
  - symmetry. apply length_zero_iff_nil. destruct (filter P _) as [|x l] eqn:E; auto. exfalso. assert (X : In x (x :: l)) by now left. rewrite <- E in X. apply filter_In in X. destruct X as (X & Px). apply in_seq in X. apply H in Px; lia.
Qed.
Lemma ranged_rows ends nbs s : ranged ends nbs -> s < length ends -> rows_of_center nbs s = seq (range_x ends s) (range_y ends s - range_x ends s).
Proof.
  intros (A & B & C) Hs. unfold rows_of_center. apply filter_seq_range; [apply A; auto|apply A; auto|]. intros m Hm. rewrite Nat.eqb_eq. now apply B.
Qed.

(** ** Sums *)
Lemma sum_filter P l f : sum_over (filter P l) f = sum_over l (fun i => if P i then f i else 0%R).
Proof. induction l as [|x l IH]; [reflexivity|]. cbn [filter]. rewrite sum_over_cons. destruct (P x); [rewrite sum_over_cons, IH; reflexivity|rewrite IH; lra]. Qed.
Lemma sum_pick l m h : NoDup l -> sum_over l (fun i => if i =? m then h i else 0%R) = if in_dec Nat.eq_dec m l then h m else 0%R.
Proof.
  induction 1 as [|x l Nx N IH]; [reflexivity|]. rewrite sum_over_cons, IH. destruct (x =? m) eqn:E.
  - apply Nat.eqb_eq in E. subst x. destruct (in_dec Nat.eq_dec m l); [tauto|]. destruct (in_dec Nat.eq_dec m (m :: l)) as [_|Q]; [lra|exfalso; apply Q; now left].
  - apply Nat.eqb_neq in E. destruct (in_dec Nat.eq_dec m l) as [I|I], (in_dec Nat.eq_dec m (x :: l)) as [J|J]; try lra.
    + exfalso. apply J. now right.
    + exfalso. destruct J; [congruence|auto].
Qed.
Lemma sum_pick_seq n m h : m < n -> sum_over (seq 0 n) (fun i => if i =? m then h i else 0%R) = h m.
Proof. intros H. rewrite sum_pick by apply seq_NoDup. destruct (in_dec _ _ _) as [_|Q]; auto. exfalso. apply Q, in_seq. lia. Qed.
Lemma sum_if (c : bool) l f : sum_over l (fun i => if c then f i else 0%R) = if c then sum_over l f else 0%R.
Proof. destruct c; [reflexivity|apply sum_over_0]. Qed.
Lemma sum_scale a l f : (a * sum_over l f)%R = sum_over l (fun i => a * f i)%R.
Proof. induction l as [|x l IH]; [unfold sum_over; cbn; lra|]. rewrite !sum_over_cons, <- IH. lra. Qed.
(** Sums over all rows, by center. *)
Lemma sum_by_center ends nbs (f : nat -> nat -> R) : ranged ends nbs ->
  sum_over (seq 0 (length ends)) (fun s => sum_over (rows_of_center nbs s) (f s)) = sum_over (seq 0 (length nbs)) (fun m => f (snd (nth m nbs (0, 0))) m).
Proof.
  intros (_ & _ & H). unfold rows_of_center. rewrite (sum_over_ext _ _ (fun s => sum_over (seq 0 (length nbs)) (fun m => if snd (nth m nbs (0, 0)) =? s then f s m else 0%R))) by (intros s _; apply sum_filter).
  rewrite sum_over_swap. apply sum_over_ext. intros m Hm. apply in_seq in Hm.
  rewrite (sum_over_ext _ _ (fun s => if s =? snd (nth m nbs (0, 0)) then f s m else 0%R)) by (intros s _; now rewrite Nat.eqb_sym). apply (sum_pick_seq _ _ (fun s => f s m)). apply H. lia.
Qed.

(** ** Tensors *)
Lemma entry2 n m t i j : is_tensor [n; m] t -> i < n -> j < m -> tget t [i; j] = nth (i * m + j) (tdata t) 0%R.
Proof. intros (E & _) Hi Hj. unfold tget. rewrite E. cbn [offset]. unfold nprod. cbn. f_equal. lia. Qed.
Lemma entry3 n m k t i j l : is_tensor [n; m; k] t -> tget t [i; j; l] = nth ((i * m + j) * k + l) (tdata t) 0%R.
Proof. intros (E & _). unfold tget. rewrite E. cbn [offset]. unfold nprod. cbn. f_equal. lia. Qed.
Lemma len2 n m t : is_tensor [n; m] t -> length (tdata t) = n * m.
Proof. intros (_ & ->). cbn. lia. Qed.
Lemma len3 n m k t : is_tensor [n; m; k] t -> length (tdata t) = n * m * k.
Proof. intros (_ & ->). cbn. lia. Qed.

Lemma supported_checks K C : supported K C -> accepted_basis K = true /\ accepted_features C = true.
Proof.
  intros (HK & HC & H). split.
  - unfold accepted_basis. apply existsb_exists. exists K. split; auto. apply Nat.eqb_refl.
  - unfold accepted_features, multiple_in_features. rewrite (proj2 (Nat.ltb_lt 0 C) HC). cbn [andb]. apply orb_true_iff. rewrite Nat.ltb_lt, Nat.eqb_eq. auto.
Qed.
Lemma supported_sizes K C : supported K C -> exists NG nfb, 0 < K /\ 0 < Nat.min 8 C /\ Nat.min 8 C <= K /\ C = nfb * Nat.min 8 C /\ 0 < NG /\ 0 < nfb /\ 64 = NG * K.
Proof.
  intros (HK & HC & H).
  assert (F : exists nfb, C = nfb * Nat.min 8 C /\ 0 < nfb).
  { destruct H as [H|H].
    - exists 1. rewrite Nat.min_r by lia. lia.
    - exists (C / 8). pose proof (Nat.div_mod C 8 ltac:(lia)) as E. rewrite H in E. assert (8 <= C) by (destruct (C / 8); lia). rewrite Nat.min_l by auto. lia. }
  destruct F as (nfb & F1 & F2). assert (G8 : Nat.min 8 C <= 8) by apply Nat.le_min_l. assert (G0 : 0 < Nat.min 8 C) by (apply Nat.min_glb_lt; lia).
  exists (64 / K), nfb. destruct HK as [<-|[<-|[<-|[<-|[]]]]]; cbn [Nat.div]; (split; [lia|]); (split; [auto|]); (split; [lia|]); (split; [auto|]); repeat split; auto; cbn; lia.
Qed.

(** ** The projection *)
Definition projection_entry (nbs : list (nat * nat)) (basis feats : ten) (s c k : nat) : R :=
  sum_over (rows_of_center nbs s) (fun m => tget feats [fst (nth m nbs (0%nat, 0%nat)); c] * tget basis [m; k])%R.

Lemma projection_gpu active basis feats nbs ends N C K (P : ten -> Prop) :
  0 < active -> supported K C -> ends <> [] -> ranged ends nbs -> Forall (fun q => fst q < N) nbs ->
  is_tensor [length nbs; K] basis -> is_tensor [N; C] feats ->
  (forall t, is_tensor [length ends; C; K] t ->
     (forall s c k, s < length ends -> c < C -> k < K -> tget t [s; c; k] = projection_entry nbs basis feats s c k) -> P t) ->
  basis_proj_op active basis feats nbs ends P.
Proof.
  intros Ha Hs Hn Hr Hf Tb Tf HP. destruct (supported_sizes K C Hs) as (NG & nfb & HK & HG & HGK & HC & HNG & Hnfb & H64). destruct (supported_checks K C Hs) as (A1 & A2).
  exists (length nbs), K, N, C. split; [apply Tb|]. split; [apply Tf|]. split; auto. split; auto. split; auto.
  unfold basis_proj_gpu. intros shared Ls Fs. unfold multiple_in_features in *. set (G := Nat.min 8 C) in *.
  assert (FB : feature_blocks G C = nfb) by (unfold feature_blocks; rewrite HC; apply Nat.div_mul; lia). rewrite FB in *.
  assert (S0 : 0 < length ends) by (destruct ends; [congruence|cbn; lia]).
  assert (Hb : 0 < Nat.min active (length ends * nfb)) by (apply Nat.min_glb_lt; nia). split; [lia|]. rewrite H64 in *.
  assert (SC : length ends * nfb * G = length ends * C) by (rewrite HC; lia).
  assert (Es : forall e, e < length ends * nfb -> e / nfb < length ends) by (intros e He; apply Nat.div_lt_upper_bound; nia).
  destruct Hr as (R1 & R2 & R3). assert (Hr : ranged ends nbs) by (split; auto).
  assert (Hp : forall i, i < length nbs -> fst (nth i nbs (0, 0)) < N) by (intros i Hi; rewrite Forall_forall in Hf; apply Hf, nth_In; auto).
  apply (pj_runs K G C NG nfb nbs ends (tdata basis) (tdata feats)); auto.
  - intros e i He Hx Hy. pose proof (R1 _ (Es e He)). lia.
  - intros i l Hi Hl. rewrite (len2 _ _ _ Tb). nia.
  - intros i c Hi Hc. rewrite (len2 _ _ _ Tf). pose proof (Hp i Hi). nia.
  - rewrite repeat_length. now rewrite SC.
  - intros m Lm Hm. apply HP.
    + split; [reflexivity|]. cbn [tdata fold_right]. rewrite Lm, SC. lia.
    + intros s c k Ls' Lc Lk. rewrite (entry3 (length ends) C K) by (split; [reflexivity|cbn [tdata fold_right]; rewrite Lm, SC; lia]). cbn [tdata].
      rewrite Hm by (rewrite SC; nia).
      assert (Ek : ((s * C + c) * K + k) / K = s * C + c /\ ((s * C + c) * K + k) mod K = k) by now apply divmod_mul. destruct Ek as (E1 & E2).
      pose proof (Nat.div_mod c G ltac:(lia)) as Dc. pose proof (Nat.mod_upper_bound c G ltac:(lia)) as Mc. assert (Qc : c / G < nfb) by (apply Nat.div_lt_upper_bound; nia).
      assert (E3 : (s * C + c) / G = s * nfb + c / G /\ (s * C + c) mod G = c mod G).
      { replace (s * C + c) with ((s * nfb + c / G) * G + c mod G) by (rewrite HC; nia). now apply divmod_mul. } destruct E3 as (E3 & E4).
      assert (E5 : ((s * C + c) * K + k) / (G * K) = s * nfb + c / G) by (rewrite (Nat.mul_comm G K), <- Nat.div_div by lia; now rewrite E1). rewrite E5.
      destruct (divmod_mul s (c / G) nfb Qc) as (E6 & E7). unfold pj_value. rewrite E1, E2, E4, E6, E7.
      unfold projection_entry. rewrite (ranged_rows ends nbs s Hr Ls'). apply sum_over_ext. intros p Ip. apply in_seq in Ip. pose proof (R1 s Ls') as R1s.
      unfold fval_at, bval_at. rewrite (entry2 N C) by (auto; apply Hp; lia). rewrite (entry2 (length nbs) K) by (auto; lia). do 2 f_equal. nia.
Qed.

(** C46. For all supported sizes, under every schedule, entry s, c, k of the
    projection of the CUDA operation is the sum over the rows of center s of
    the neighbor list of feature c of the neighbor times entry k of the basis. *)
Lemma C46_projection_proof :
  forall active basis feats nbs ends N C K,
    0 < active -> supported K C -> ends <> [] -> delimits ends nbs (length ends) -> Forall (fun q => fst q < N) nbs ->
    is_tensor [length nbs; K] basis -> is_tensor [N; C] feats ->
    basis_proj_op active basis feats nbs ends (fun t =>
      is_tensor [length ends; C; K] t /\
      forall s c k, s < length ends -> c < C -> k < K ->
        tget t [s; c; k] =
        sum_over (rows_of_center nbs s) (fun m => tget feats [fst (nth m nbs (0%nat, 0%nat)); c] * tget basis [m; k])%R).
Proof.
  intros active basis feats nbs ends N C K Ha Hs Hn Hd Hf Tb Tf. apply (projection_gpu active basis feats nbs ends N C K); auto.
  apply delimits_ranged; auto. intros E. destruct ends; [congruence|discriminate].
Qed.

(** C46. It is the result of the TensorFlow fallback. *)
Lemma C46_agree_proof :
  forall active dev (n : nbh) basis feats N C K,
    0 < active -> supported K C -> pts (nsampled n) <> [] ->
    delimits (rdata (nranges n)) (nnbs n) (length (pts (nsampled n))) -> map snd (norig n) = map snd (nnbs n) ->
    Forall (fun q => fst q < N) (norig n) -> is_tensor [length (norig n); K] basis -> is_tensor [N; C] feats ->
    basis_proj_op active basis feats (norig n) (rdata (nranges n)) (fun t => basis_proj dev basis feats n = Ok t).
Proof.
  intros active dev n basis feats N C K Ha Hs Hn Hd Es Hf Tb Tf.
  assert (Le : length (rdata (nranges n)) = length (pts (nsampled n))) by apply Hd.
  assert (L : length (norig n) = length (nnbs n)) by (apply (f_equal (@length _)) in Es; now rewrite !map_length in Es).
  assert (R : ranged (rdata (nranges n)) (nnbs n)).
  { apply delimits_ranged; [now rewrite Le|]. rewrite Le. intros E. apply length_zero_iff_nil in E. congruence. }
  assert (R' : ranged (rdata (nranges n)) (norig n)) by (eapply ranged_snd; [symmetry; exact Es|exact R]).
  apply (projection_gpu active basis feats (norig n) _ N C K); auto.
  { intros E. rewrite E in Le. destruct (pts (nsampled n)); [congruence|discriminate]. }
  intros t Tt Ht. rewrite (ttab_tget basis), (ttab_tget feats), (ttab_tget t); try (unfold twf; first [rewrite (proj1 Tb); apply Tb|rewrite (proj1 Tf); apply Tf|rewrite (proj1 Tt); apply Tt]).
  rewrite (proj1 Tb), (proj1 Tf), (proj1 Tt), L. rewrite C30_projection_proof; auto.
  - rewrite <- Le. f_equal. apply ttab_ext. intros idx Hi. idx_inv. rewrite Ht by auto. unfold projection_entry, rows_of_center. rewrite L.
    rewrite (filter_ext (fun m => snd (nth m (nnbs n) (0, 0)) =? i) (fun m => snd (nth m (norig n) (0, 0)) =? i)); [reflexivity|].
    intros m. rewrite <- (map_nth snd (nnbs n)), <- (map_nth snd (norig n)). now rewrite Es.
  - apply Forall_forall. intros q Hq. destruct (In_nth _ _ (0, 0) Hq) as (m & Hm & <-). rewrite <- Le. now apply R.
Qed.

(** ** The gradients *)
Definition basis_gradient (nbs : list (nat * nat)) (feats grads : ten) (C m k : nat) : R :=
  sum_over (seq 0 C) (fun c => tget grads [snd (nth m nbs (0%nat, 0%nat)); c; k] * tget feats [fst (nth m nbs (0%nat, 0%nat)); c])%R.
Definition feature_gradient (nbs : list (nat * nat)) (basis grads : ten) (K p c : nat) : R :=
  sum_over (rows_of_neighbor nbs p) (fun m => sum_over (seq 0 K) (fun k => tget grads [snd (nth m nbs (0%nat, 0%nat)); c; k] * tget basis [m; k])%R).

Section Totals.
  Variables (K G C nfb N : nat) (nbs : list (nat * nat)) (ends : list Z) (basis feats grads : ten).
  Hypotheses (HK : 0 < K) (HG : 0 < G) (HGK : G <= K) (HC : C = nfb * G) (Hnfb : 0 < nfb).
  Hypotheses (Hr : ranged ends nbs) (Hp : forall i, i < length nbs -> fst (nth i nbs (0, 0)) < N).
  Hypotheses (Tb : is_tensor [length nbs; K] basis) (Tf : is_tensor [N; C] feats) (Tg : is_tensor [length ends; C; K] grads).
  Notation contrib := (contribution K G C nfb nbs ends (tdata basis) (tdata feats) (tdata grads)).
  Notation S := (length ends).
  Notation pid i := (fst (nth i nbs (0, 0))).
  Notation sid i := (snd (nth i nbs (0, 0))).
  Lemma by_center f : sum_over (seq 0 (S * nfb)) (fun e => sum_over (seq (range_x ends (e / nfb)) (range_y ends (e / nfb) - range_x ends (e / nfb))) (f e)) =
    sum_over (seq 0 (length nbs)) (fun m => sum_over (seq 0 nfb) (fun q => f (sid m * nfb + q) m)).
  Proof.
    rewrite sum_split. rewrite <- (sum_by_center ends nbs (fun s m => sum_over (seq 0 nfb) (fun q => f (s * nfb + q) m)) Hr). apply sum_over_ext. intros s Hs. apply in_seq in Hs.
    rewrite sum_over_swap. apply sum_over_ext. intros q Hq. apply in_seq in Hq. destruct (divmod_mul s q nfb ltac:(lia)) as (-> & _). now rewrite (ranged_rows ends nbs s Hr) by lia.
  Qed.
  Lemma total_amounts x : sum_over (seq 0 (S * nfb)) (fun e => contrib e x) =
    sum_over (seq 0 (length nbs)) (fun m => sum_over (seq 0 nfb) (fun q => sum_over (seq 0 K) (fun l =>
      (if cell_eqb x (0, m * K + l)%nat then dbasis K G C nfb nbs (tdata feats) (tdata grads) (sid m * nfb + q)%nat m l else 0) +
      (if (l <? G)%nat && cell_eqb x (1, pid m * C + q * G + l)%nat then dfeat K G (tdata basis) (tdata grads) (sid m * nfb + q)%nat m l else 0))%R)).
  Proof.
    unfold contribution. rewrite by_center. apply sum_over_ext. intros m Hm. apply in_seq in Hm. apply sum_over_ext. intros q Hq. apply in_seq in Hq.
    apply sum_over_ext. intros l _. unfold amount, valid. destruct (divmod_mul (sid m) q nfb ltac:(lia)) as (-> & ->). destruct Hr as (R1 & R2 & R3). pose proof (R3 m ltac:(lia)) as Ls.
    pose proof (proj2 (R2 (sid m) m Ls ltac:(lia)) eq_refl) as Rg. replace (m - range_x ends (sid m) + range_x ends (sid m)) with m by lia.
    replace (m <? range_y ends (sid m)) with true by (symmetry; apply Nat.ltb_lt; lia). reflexivity.
  Qed.
  Lemma cell_eqb_pair a i j : cell_eqb (a, i) (a, j) = (i =? j).
  Proof. unfold cell_eqb. cbn. now rewrite Nat.eqb_refl. Qed.
  Lemma grad_entry s q f k : q < nfb -> f < G -> gval K G (tdata grads) (s * nfb + q) (f * K + k) = tget grads [s; q * G + f; k].
  Proof. intros Hq Hf. rewrite (entry3 S C K) by auto. unfold gval. f_equal. rewrite HC. ring. Qed.
  Lemma total_basis m k : m < length nbs -> k < K -> sum_over (seq 0 (S * nfb)) (fun e => contrib e (0, m * K + k)) = basis_gradient nbs feats grads C m k.
  Proof.
    intros Hm Hk. rewrite total_amounts.
    rewrite (sum_over_ext _ _ (fun i => if i =? m then sum_over (seq 0 nfb) (fun q => dbasis K G C nfb nbs (tdata feats) (tdata grads) (sid i * nfb + q) i k) else 0%R)).
    - rewrite sum_pick_seq by auto. unfold basis_gradient. replace (seq 0 C) with (seq 0 (nfb * G)) by now rewrite <- HC. rewrite sum_split. apply sum_over_ext. intros q Hq. apply in_seq in Hq. unfold dbasis. apply sum_over_ext. intros f Hf. apply in_seq in Hf.
      rewrite grad_entry by lia. f_equal. unfold fval_at. destruct (divmod_mul (sid m) q nfb ltac:(lia)) as (_ & ->). rewrite (entry2 N C) by (auto; rewrite HC; nia). reflexivity.
    - intros i _. destruct (i =? m) eqn:E.
      + apply Nat.eqb_eq in E. subst i. apply sum_over_ext. intros q _.
        rewrite (sum_over_ext _ _ (fun l => if l =? k then dbasis K G C nfb nbs (tdata feats) (tdata grads) (sid m * nfb + q) m l else 0%R)); [now apply sum_pick_seq|].
        intros l Hl. apply in_seq in Hl. rewrite cell_eqb_pair. replace (cell_eqb (0, m * K + k) (1, _)) with false by reflexivity. rewrite andb_false_r, Rplus_0_r.
        replace (m * K + k =? m * K + l) with (l =? k); [reflexivity|]. destruct (l =? k) eqn:E; symmetry; [apply Nat.eqb_eq in E; apply Nat.eqb_eq; lia|apply Nat.eqb_neq in E; apply Nat.eqb_neq; lia].
      + apply Nat.eqb_neq in E. rewrite (sum_over_ext _ _ (fun _ => 0%R)); [apply sum_over_0|]. intros q _. rewrite (sum_over_ext _ _ (fun _ => 0%R)); [apply sum_over_0|]. intros l Hl. apply in_seq in Hl.
        rewrite cell_eqb_pair. replace (cell_eqb (0, m * K + k) (1, _)) with false by reflexivity. rewrite andb_false_r, Rplus_0_r.
        replace (m * K + k =? i * K + l) with false; [reflexivity|]. symmetry. apply Nat.eqb_neq. intros X. apply mixed in X; [|lia|lia]. destruct X. congruence.
  Qed.
  Lemma total_features p c : p < N -> c < C -> sum_over (seq 0 (S * nfb)) (fun e => contrib e (1, p * C + c)) = feature_gradient nbs basis grads K p c.
  Proof.
    intros Hn Hc. rewrite total_amounts. unfold feature_gradient, rows_of_neighbor. rewrite sum_filter. apply sum_over_ext. intros m Hm. apply in_seq in Hm.
    pose proof (Nat.div_mod c G ltac:(lia)) as Dc. pose proof (Nat.mod_upper_bound c G ltac:(lia)) as Mc. assert (Qc : c / G < nfb) by (apply Nat.div_lt_upper_bound; nia).
    rewrite (sum_over_ext _ _ (fun q => if q =? c / G then (if pid m =? p then dfeat K G (tdata basis) (tdata grads) (sid m * nfb + q) m (c mod G) else 0%R) else 0%R)).
    - rewrite (sum_pick_seq nfb (c / G) (fun q => if pid m =? p then dfeat K G (tdata basis) (tdata grads) (sid m * nfb + q) m (c mod G) else 0%R)) by auto. destruct (pid m =? p); [|reflexivity]. unfold dfeat. apply sum_over_ext. intros k Hk. apply in_seq in Hk. rewrite grad_entry by lia.
      replace (c / G * G + c mod G) with c by lia. f_equal. unfold bval_at. now rewrite (entry2 (length nbs) K) by (auto; lia).
    - intros q Hq. apply in_seq in Hq.
      rewrite (sum_over_ext _ _ (fun l => if l =? c mod G then (if q =? c / G then if pid m =? p then dfeat K G (tdata basis) (tdata grads) (sid m * nfb + q) m (c mod G) else 0%R else 0%R) else 0%R)).
      + now rewrite (sum_pick_seq K (c mod G) (fun _ => if q =? c / G then if pid m =? p then dfeat K G (tdata basis) (tdata grads) (sid m * nfb + q) m (c mod G) else 0%R else 0%R)) by lia.
      + intros l Hl. apply in_seq in Hl. replace (cell_eqb (1, p * C + c) (0, _)) with false by reflexivity. rewrite Rplus_0_l, cell_eqb_pair.
        destruct ((l <? G) && (p * C + c =? pid m * C + q * G + l)) eqn:E.
        * apply andb_true_iff in E. destruct E as (E1 & E2). apply Nat.ltb_lt in E1. apply Nat.eqb_eq in E2. rewrite <- Nat.add_assoc in E2.
          assert (q * G + l < C) by (rewrite HC; nia). apply mixed in E2; auto. destruct E2 as (-> & E2). assert (X : q = c / G /\ l = c mod G). { apply (mixed q G l (c / G) (c mod G)); auto. lia. } destruct X as (-> & ->).
          now rewrite !Nat.eqb_refl.
        * destruct (l =? c mod G) eqn:E1; [|reflexivity]. destruct (q =? c / G) eqn:E2; [|reflexivity]. destruct (pid m =? p) eqn:E3; [|reflexivity]. exfalso.
          apply Nat.eqb_eq in E1, E2, E3. subst. apply andb_false_iff in E. destruct E as [E|E]; [apply Nat.ltb_ge in E; lia|apply Nat.eqb_neq in E]. apply E. lia.
  Qed.
End Totals.

Lemma gradients_gpu active basis feats nbs ends grads N C K (P : ten -> ten -> Prop) :
  0 < active -> supported K C -> ends <> [] -> ranged ends nbs -> Forall (fun q => fst q < N) nbs ->
  is_tensor [length nbs; K] basis -> is_tensor [N; C] feats -> is_tensor [length ends; C; K] grads ->
  (forall db df, is_tensor [length nbs; K] db -> is_tensor [N; C] df ->
     (forall m k, m < length nbs -> k < K -> tget db [m; k] = basis_gradient nbs feats grads C m k) ->
     (forall p c, p < N -> c < C -> tget df [p; c] = feature_gradient nbs basis grads K p c) -> P db df) ->
  basis_proj_grads_op active basis feats nbs ends grads P.
Proof.
  intros Ha Hs Hn Hr Hf Tb Tf Tg HP. destruct (supported_sizes K C Hs) as (NG & nfb & HK & HG & HGK & HC & HNG & Hnfb & H64). destruct (supported_checks K C Hs) as (A1 & A2).
  exists (length nbs), K, N, C. split; [apply Tb|]. split; [apply Tf|]. split; auto. split; auto. split; auto. split; [apply Tg|].
  unfold basis_proj_grads_gpu. intros shared Ls Fs. unfold multiple_in_features in *. set (G := Nat.min 8 C) in *.
  assert (FB : feature_blocks G C = nfb) by (unfold feature_blocks; rewrite HC; apply Nat.div_mul; lia). rewrite FB in *.
  assert (S0 : 0 < length ends) by (destruct ends; [congruence|cbn; lia]).
  assert (Hb : 0 < Nat.min active (length ends * nfb)) by (apply Nat.min_glb_lt; nia). split; [lia|]. rewrite H64 in *. rewrite Nat.div_mul in Fs by lia.
  assert (Es : forall e, e < length ends * nfb -> e / nfb < length ends) by (intros e He; apply Nat.div_lt_upper_bound; nia).
  assert (Hp : forall i, i < length nbs -> fst (nth i nbs (0, 0)) < N) by (intros i Hi; rewrite Forall_forall in Hf; apply Hf, nth_In; auto).
  apply (gr_runs K G C NG nfb N nbs ends (tdata basis) (tdata feats) (tdata grads)); auto.
  - intros e i He Hx Hy. destruct Hr as (R1 & _). pose proof (R1 _ (Es e He)). lia.
  - now rewrite (len2 _ _ _ Tb).
  - now rewrite (len2 _ _ _ Tf).
  - now rewrite (len3 _ _ _ _ Tg).
  - rewrite repeat_length. lia.
  - apply repeat_length.
  - intros m L0 L1 Hm. assert (D0 : is_tensor [length nbs; K] (Ten [length nbs; K] (nth 0 m []))) by (split; [reflexivity|cbn [tdata fold_right]; lia]).
    assert (D1 : is_tensor [N; C] (Ten [N; C] (nth 1 m []))) by (split; [reflexivity|cbn [tdata fold_right]; lia]). apply HP; auto.
    + intros i k Hi Hk. rewrite (entry2 (length nbs) K) by auto. cbn [tdata]. rewrite (Hm 0 ltac:(lia)) by (cbn [Nat.eqb]; nia). cbn [Nat.eqb]. rewrite nth_repeat, Rplus_0_l. now apply (total_basis K G C nfb N).
    + intros p c Hi Hc. rewrite (entry2 N C) by auto. cbn [tdata]. rewrite (Hm 1 ltac:(lia)) by (cbn [Nat.eqb]; nia). cbn [Nat.eqb]. rewrite nth_repeat, Rplus_0_l. now apply (total_features K G C nfb N).
Qed.

(** C46. For all supported sizes, under every schedule, the gradients computed
    by the CUDA operation: for row m of the basis, the sum over the features of
    the incoming gradient at the center of the row times the feature of its
    neighbor; for a point, the sum over the rows where it is the neighbor of the
    incoming gradient at their centers times their basis. *)
Lemma C46_gradients_proof :
  forall active basis feats nbs ends grads N C K,
    0 < active -> supported K C -> ends <> [] -> delimits ends nbs (length ends) -> Forall (fun q => fst q < N) nbs ->
    is_tensor [length nbs; K] basis -> is_tensor [N; C] feats -> is_tensor [length ends; C; K] grads ->
    basis_proj_grads_op active basis feats nbs ends grads (fun db df =>
      is_tensor [length nbs; K] db /\ is_tensor [N; C] df /\
      (forall m k, m < length nbs -> k < K -> let (p, s) := nth m nbs (0, 0) in
         tget db [m; k] = sum_over (seq 0 C) (fun c => tget grads [s; c; k] * tget feats [p; c])%R) /\
      (forall p c, p < N -> c < C ->
         tget df [p; c] = sum_over (rows_of_neighbor nbs p) (fun m => let s := snd (nth m nbs (0%nat, 0%nat)) in
           sum_over (seq 0 K) (fun k => tget grads [s; c; k] * tget basis [m; k])%R))).
Proof.
  intros active basis feats nbs ends grads N C K Ha Hs Hn Hd Hf Tb Tf Tg. apply (gradients_gpu active basis feats nbs ends grads N C K); auto.
  - apply delimits_ranged; auto. intros E. destruct ends; [congruence|discriminate].
  - intros db df D0 D1 H0 H1. split; auto. split; auto. split; auto. intros m k Hm Hk. specialize (H0 m k Hm Hk). unfold basis_gradient in H0. destruct (nth m nbs (0, 0)) as [p s]. exact H0.
Qed.

(** C46. They are the transposed maps: the inner product of the incoming
    gradient with the projection, as a function of the basis (for the same
    features) and as a function of the features (for the same basis), is the
    inner product with the computed gradient. *)
Lemma C46_transposed_proof :
  forall active basis feats nbs ends grads N C K,
    0 < active -> supported K C -> ends <> [] -> delimits ends nbs (length ends) -> Forall (fun q => fst q < N) nbs ->
    is_tensor [length nbs; K] basis -> is_tensor [N; C] feats -> is_tensor [length ends; C; K] grads ->
    basis_proj_grads_op active basis feats nbs ends grads (fun db df =>
      (forall basis', is_tensor [length nbs; K] basis' ->
         basis_proj_op active basis' feats nbs ends (fun t => dot3 (length ends) C K grads t = dot2 (length nbs) K db basis')) /\
      (forall feats', is_tensor [N; C] feats' ->
         basis_proj_op active basis feats' nbs ends (fun t => dot3 (length ends) C K grads t = dot2 N C df feats'))).
Proof.
  intros active basis feats nbs ends grads N C K Ha Hs Hn Hd Hf Tb Tf Tg. assert (Hr : ranged ends nbs) by (apply delimits_ranged; auto; intros E; destruct ends; [congruence|discriminate]).
  apply (gradients_gpu active basis feats nbs ends grads N C K); auto. intros db df D0 D1 H0 H1.
  (** The inner product with a projection as a sum over the rows. *)
  assert (X : forall b f t, is_tensor [length ends; C; K] t -> (forall s c k, s < length ends -> c < C -> k < K -> tget t [s; c; k] = projection_entry nbs b f s c k) ->
    dot3 (length ends) C K grads t = sum_over (seq 0 (length nbs)) (fun m => sum_over (seq 0 C) (fun c => sum_over (seq 0 K) (fun k =>
      tget grads [snd (nth m nbs (0%nat, 0%nat)); c; k] * (tget f [fst (nth m nbs (0%nat, 0%nat)); c] * tget b [m; k]))))%R).
  { intros b f t Tt Ht. unfold dot3. rewrite <- (sum_by_center ends nbs (fun s m => sum_over (seq 0 C) (fun c => sum_over (seq 0 K) (fun k => tget grads [s; c; k] * (tget f [fst (nth m nbs (0%nat, 0%nat)); c] * tget b [m; k])))%R) Hr).
    apply sum_over_ext. intros s Hs'. apply in_seq in Hs'. symmetry. rewrite sum_over_swap. apply sum_over_ext. intros c Hc. apply in_seq in Hc. rewrite sum_over_swap. apply sum_over_ext. intros k Hk. apply in_seq in Hk.
    rewrite Ht by lia. unfold projection_entry. symmetry. apply sum_scale. }
  split.
  - intros b' Tb'. apply (projection_gpu active b' feats nbs ends N C K); auto. intros t Tt Ht. rewrite (X _ _ t Tt Ht). unfold dot2. apply sum_over_ext. intros m Hm. apply in_seq in Hm.
    rewrite sum_over_swap. apply sum_over_ext. intros k Hk. apply in_seq in Hk. rewrite H0 by lia. unfold basis_gradient. rewrite Rmult_comm, sum_scale. apply sum_over_ext. intros c _. lra.
  - intros f' Tf'. apply (projection_gpu active basis f' nbs ends N C K); auto. intros t Tt Ht. rewrite (X _ _ t Tt Ht). unfold dot2.
    rewrite (sum_over_swap (seq 0 N)). rewrite sum_over_swap. apply sum_over_ext. intros c Hc. apply in_seq in Hc.
    transitivity (sum_over (seq 0 N) (fun p => sum_over (seq 0 (length nbs)) (fun m => if p =? fst (nth m nbs (0, 0)) then sum_over (seq 0 K) (fun k =>
      tget grads [snd (nth m nbs (0%nat, 0%nat)); c; k] * (tget f' [p; c] * tget basis [m; k]))%R else 0%R))).
    + rewrite (sum_over_swap (seq 0 N)). apply sum_over_ext. intros m Hm. apply in_seq in Hm. rewrite (sum_pick_seq N (fst (nth m nbs (0, 0))) (fun p => sum_over (seq 0 K) (fun k => tget grads [snd (nth m nbs (0%nat, 0%nat)); c; k] * (tget f' [p; c] * tget basis [m; k]))%R)); [reflexivity|].
      rewrite Forall_forall in Hf. apply Hf, nth_In. lia.
    + apply sum_over_ext. intros p Hp. apply in_seq in Hp. rewrite H1 by lia. unfold feature_gradient, rows_of_neighbor. rewrite sum_filter, Rmult_comm, sum_scale. apply sum_over_ext. intros m _. rewrite Nat.eqb_sym.
      destruct (fst (nth m nbs (0, 0)) =? p); [|lra]. rewrite sum_scale. apply sum_over_ext. intros k _. lra.
Qed.

(** ** A concrete case *)
Ltac in_sh' := repeat (apply in_shape_cons; split; [lia|]); constructor.
Definition ex46_nbs : list (nat * nat) := [(0,0);(3,0);(1,1);(4,4)].
Definition ex46_ends : list Z := [2;3;3;3;4]%Z.
Lemma ex46_delimits : delimits ex46_ends ex46_nbs 5.
Proof.
  split; [reflexivity|]. split; [reflexivity|]. intros i Hi. do 5 (destruct i as [|i]; [cbn; repeat split; lia|]). lia.
Qed.
Lemma ttab_tensor sh f : is_tensor sh (ttab sh f).
Proof. split; [reflexivity|]. rewrite ttab_length. reflexivity. Qed.

Example C46_projection_ex_proof :
  delimits ex46_ends ex46_nbs 5 /\ supported 8 16 /\
  forall active f b, 0 < active ->
    basis_proj_op active (ttab [4; 8] b) (ttab [6; 16] f) ex46_nbs ex46_ends (fun t =>
      tget t [0; 9; 7] = (f [0; 9]%nat * b [0; 7]%nat + f [3; 9]%nat * b [1; 7]%nat)%R /\ tget t [2; 9; 7] = 0%R).
Proof.
  split; [exact ex46_delimits|]. assert (Hs : supported 8 16) by (split; [now left|split; [lia|now right]]). split; auto. intros active f b Ha.
  apply (projection_gpu active _ _ ex46_nbs ex46_ends 6 16 8); auto.
  - discriminate.
  - apply delimits_ranged; [exact ex46_delimits|discriminate].
  - unfold ex46_nbs. repeat constructor; cbn; lia.
  - apply ttab_tensor.
  - apply ttab_tensor.
  - intros t Tt Ht. split.
    + rewrite Ht by (cbn; lia). unfold projection_entry, rows_of_center, sum_over. cbn [ex46_nbs length seq filter nth snd fst Nat.eqb map fold_right].
      rewrite !tget_ttab by in_sh'. lra.
    + rewrite Ht by (cbn; lia). reflexivity.
Qed.
Example C46_gradients_ex_proof :
  delimits ex46_ends ex46_nbs 5 /\ supported 8 16 /\
  forall active f b g, 0 < active ->
    basis_proj_grads_op active (ttab [4; 8] b) (ttab [6; 16] f) ex46_nbs ex46_ends (ttab [5; 16; 8] g) (fun db df =>
      tget db [1; 7] = sum_over (seq 0 16) (fun c => g [0; c; 7]%nat * f [3; c]%nat)%R /\
      tget df [3; 9] = sum_over (seq 0 8) (fun k => g [0; 9; k]%nat * b [1; k]%nat)%R /\ tget df [2; 9] = 0%R).
Proof.
  split; [exact ex46_delimits|]. assert (Hs : supported 8 16) by (split; [now left|split; [lia|now right]]). split; auto. intros active f b g Ha.
  apply (gradients_gpu active _ _ ex46_nbs ex46_ends _ 6 16 8); auto.
  - discriminate.
  - apply delimits_ranged; [exact ex46_delimits|discriminate].
  - unfold ex46_nbs. repeat constructor; cbn; lia.
  - apply ttab_tensor.
  - apply ttab_tensor.
  - apply ttab_tensor.
  - intros db df D0 D1 H0 H1. split; [|split].
    + rewrite H0 by (cbn; lia). unfold basis_gradient. apply sum_over_ext. intros c Hc. apply in_seq in Hc. cbn [ex46_nbs nth fst snd]. now rewrite !tget_ttab by in_sh'.
    + rewrite H1 by lia. unfold feature_gradient, rows_of_neighbor. cbn [ex46_nbs length seq filter nth snd fst Nat.eqb]. rewrite sum_over_cons. unfold sum_over at 2. cbn [map fold_right]. rewrite Rplus_0_r.
      change [0; 1; 2; 3; 4; 5; 6; 7] with (seq 0 8). apply sum_over_ext. intros k Hk. apply in_seq in Hk. cbn [ex46_nbs nth fst snd]. now rewrite !tget_ttab by in_sh'.
    + rewrite H1 by lia. reflexivity.
Qed.
(** A neighborhood object for the agreement with the fallback. *)
Example C46_agree_ex_proof :
  exists n, pts (nsampled n) <> [] /\ delimits (rdata (nranges n)) (nnbs n) (length (pts (nsampled n))) /\ map snd (norig n) = map snd (nnbs n) /\
    Forall (fun q => fst q < 6) (norig n) /\ length (norig n) = 3 /\
    forall active dev f b, 0 < active ->
      basis_proj_op active (ttab [3; 16] b) (ttab [6; 4] f) (norig n) (rdata (nranges n)) (fun t => basis_proj dev (ttab [3; 16] b) (ttab [6; 4] f) n = Ok t).
Proof.
  destruct exN_nbh as (g & n & Hu & Hr & Eg & En & E1 & E2 & E3). exists n.
  assert (Ed : delimits (rdata (nranges n)) (nnbs n) (length (pts (nsampled n)))).
  { rewrite E2, E3. assert (Er : rdata (nranges n) = [1;2;2;2;3]%Z).
    { vm_compute in Eg. inversion Eg; subst g. vm_compute in En. injection En as <-. reflexivity. }
    rewrite Er. split; [reflexivity|]. split; [reflexivity|]. intros i Hi. do 5 (destruct i as [|i]; [cbn; repeat split; lia|]). cbn in Hi. lia. }
  assert (Es : map snd (norig n) = map snd (nnbs n)) by (rewrite E1, E2; reflexivity). assert (Ef : Forall (fun q => fst q < 6) (norig n)) by (rewrite E1; repeat constructor; cbn; lia).
  assert (Ep : pts (nsampled n) <> []) by (rewrite E3; discriminate).
  split; [exact Ep|]. split; [exact Ed|]. split; [exact Es|]. split; [exact Ef|]. split; [now rewrite E1|]. intros active dev f b Ha.
  apply (C46_agree_proof active dev n _ _ 6 4 16); auto.
  - split; [right; now left|]. split; [lia|]. left. lia.
  - rewrite E1. apply ttab_tensor.
  - apply ttab_tensor.
Qed.
(** Sixteen features, eight basis functions, five centers. *)
Example C46_transposed_ex_proof :
  supported 8 16 /\ delimits ex46_ends ex46_nbs 5 /\ Forall (fun q => fst q < 6) ex46_nbs /\
  is_tensor [4; 8] (ttab [4; 8] (fun i => INR (nth 1 i 0))) /\ is_tensor [6; 16] (ttab [6; 16] (fun i => INR (nth 0 i 0))) /\
  is_tensor [5; 16; 8] (ttab [5; 16; 8] (fun i => INR (nth 2 i 0))).
Proof.
  split; [split; [now left|split; [lia|now right]]|]. split; [exact ex46_delimits|]. split; [unfold ex46_nbs; repeat constructor; cbn; lia|].
  split; [apply ttab_tensor|]. split; apply ttab_tensor.
Qed.
