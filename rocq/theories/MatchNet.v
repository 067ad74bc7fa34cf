(** The steps of the classification networks on clouds that are equal up to the
    order of the points, a translation and the other clouds of the batch. *)
From Coq Require Import String List Arith ZArith QArith Reals Qreals Lia Lra Bool Permutation.
From Verif Require Import Tensor TensorFacts Spec SpecText PointCloud SpecCloud PointCloudFacts QFacts Grid SpecGrid
  Neighbors SpecNeighbors Sampling SpecSampling SamplingFacts SamplingProofs Hierarchy SpecHierarchy HierarchyFacts Pdf SpecPdf PdfFacts
  RTensor RTensorFacts Kernels Layers SpecLayers LayerFacts LayerLink LayerProofs ConvProofs MoveProofs
  Blocks SpecBlocks BlockFacts BatchProofs Classifier SpecClassifier ClassifierFacts SpecMatch MatchFacts MatchLevel NeighborhoodFacts.
Import ListNotations.
Local Open Scope nat_scope.

(** ** Rows *)
Lemma rowwise_keeps f : rowwise f -> keeps_shape f.
Proof.
  intros (g & Hg & E) n c X [H1 H2]. rewrite E. split; [now rewrite map_length|]. apply Forall_forall. intros row Hr.
  apply in_map_iff in Hr as (x & <- & Hx). rewrite Hg. rewrite Forall_forall in H2. auto.
Qed.
Lemma rowwise_activated f : rowwise f -> rowwise (activated f).
Proof.
  intros (g & Hg & E). exists (fun row => map (fun x => if Rlt_dec 0 x then x else (3 / 10 * x)%R) (g row)). split.
  - intros row. now rewrite map_length.
  - intros X. unfold activated. rewrite E, map_map. reflexivity.
Qed.
Lemma rowwise_comp f h : rowwise f -> rowwise h -> rowwise (fun X => f (h X)).
Proof.
  intros (g & Hg & E) (g' & Hg' & E'). exists (fun row => g (g' row)). split; [intros row; now rewrite Hg|].
  intros X. now rewrite E, E', map_map.
Qed.
Lemma rowwise_nth f i j (X Y : mat) : rowwise f -> i < length X -> j < length Y -> nth i X [] = nth j Y [] -> nth i (f X) [] = nth j (f Y) [].
Proof.
  intros (g & _ & E) Hi Hj H. rewrite !E.
  rewrite (nth_indep _ [] (g [])), (nth_indep (map g Y) [] (g [])) by now rewrite map_length.
  rewrite !map_nth. now rewrite H.
Qed.
Lemma affine_nth n m cin cout w b i j (X Y : mat) : i < n -> j < m -> nth i X [] = nth j Y [] ->
  nth i (affine n cin cout w b X) [] = nth j (affine m cin cout w b Y) [].
Proof.
  intros Hi Hj H. unfold affine, table. rewrite !nth_map_seq by assumption. apply map_ext. intros o. f_equal. apply sum_over_ext.
  intros c _. unfold fval. now rewrite H.
Qed.
Lemma head_nth pre0 pre1 dw db n m c u1 u2 (X Y : mat) i j : rowwise pre0 -> rowwise pre1 ->
  i < n -> j < m -> length X = n -> length Y = m -> nth i X [] = nth j Y [] ->
  nth i (dense_head pre0 pre1 dw db n c u1 u2 X) [] = nth j (dense_head pre0 pre1 dw db m c u1 u2 Y) [].
Proof.
  intros H0 H1 Hi Hj LX LY H. unfold dense_head. apply affine_nth; auto. apply rowwise_nth; auto.
  - unfold affine, table. now rewrite map_length, seq_length.
  - unfold affine, table. now rewrite map_length, seq_length.
  - apply affine_nth; auto. apply rowwise_nth; auto; congruence.
Qed.

(** ** The input *)
Lemma element_app {A} b (l l' : list A) i i' : length l = length i -> element b (l ++ l') (i ++ i') = element b l i ++ element b l' i'.
Proof.
  unfold element. revert i. induction l as [|x l IH]; intros [|y i] H; try discriminate; [reflexivity|]. cbn [app combine filter snd].
  destruct (y =? b); cbn [map app]; [f_equal|]; apply IH; cbn in H; lia.
Qed.
Lemma element_block {A} b b' (l : list A) : element b l (repeat b' (length l)) = if b' =? b then l else [].
Proof.
  unfold element. induction l as [|x l IH]; [cbn; now destruct (b' =? b)|]. cbn [length repeat combine filter snd].
  destruct (b' =? b); cbn [map fst]; [f_equal|]; exact IH.
Qed.
Lemma block_fits B V k n : k < B -> n <= V -> Nat.min n (B * V - k * V) = n.
Proof. intros Hk Hn. assert (H : S k * V <= B * V) by (apply Nat.mul_le_mono_r; lia). rewrite Nat.mul_succ_l in H. lia. Qed.
Lemma element_valid {A} (sizes : list nat) V (rows : list A) e : length rows = length sizes * V -> Forall (fun n => n <= V) sizes -> e < length sizes ->
  element e (valid_rows sizes V rows) (ids_of_sizes sizes) = firstn (nth e sizes 0) (skipn (e * V) rows).
Proof.
  intros HL HF He. unfold valid_rows, ids_of_sizes.
  assert (H : forall m k, k + m <= length sizes ->
    element e (concat (map (fun b => firstn (nth b sizes 0) (skipn (b * V) rows)) (seq k m))) (concat (map (fun b => repeat b (nth b sizes 0)) (seq k m)))
    = if (k <=? e) && (e <? k + m) then firstn (nth e sizes 0) (skipn (e * V) rows) else []).
  { induction m as [|m IH]; intros k Hk.
    - cbn [seq map concat]. replace ((k <=? e) && (e <? k + 0)) with false; [reflexivity|]. symmetry. apply andb_false_iff.
      destruct (k <=? e) eqn:E1; [right|now left]. apply Nat.leb_le in E1. apply Nat.ltb_ge. lia.
    - cbn [seq map concat].
      assert (Hl : length (firstn (nth k sizes 0) (skipn (k * V) rows)) = nth k sizes 0).
      { rewrite firstn_length, skipn_length, HL. rewrite Forall_forall in HF. assert (Hin : In (nth k sizes 0) sizes) by (apply nth_In; lia). specialize (HF _ Hin). apply block_fits; lia. }
      rewrite element_app by (rewrite repeat_length; exact Hl). rewrite IH by lia. rewrite <- Hl at 2. rewrite element_block.
      destruct (Nat.eqb_spec k e) as [->|N].
      + rewrite (proj2 (Nat.leb_gt (S e) e)) by lia. cbn [andb]. rewrite app_nil_r.
        rewrite Nat.leb_refl, (proj2 (Nat.ltb_lt e (e + S m))) by lia. reflexivity.
      + cbn [app]. replace ((S k <=? e) && (e <? S k + m)) with ((k <=? e) && (e <? k + S m)); [reflexivity|].
        replace (S k + m) with (k + S m) by lia. f_equal.
        destruct (Nat.leb_spec k e), (Nat.leb_spec (S k) e); auto; lia. }
  rewrite (H (length sizes) 0) by lia. cbn [Nat.leb andb]. now rewrite (proj2 (Nat.ltb_lt e (0 + length sizes))) by lia.
Qed.
Lemma members_cons x ids e : members (x :: ids) e = (if x =? e then [0] else []) ++ map S (members ids e).
Proof.
  unfold members. cbn [length]. change (seq 0 (S (length ids))) with (0 :: seq 1 (length ids)). rewrite <- seq_shift. cbn [filter].
  change (nth 0 (x :: ids) 0) with x. rewrite filter_map_swap. change (fun j => nth (S j) (x :: ids) 0 =? e) with (fun j => nth j ids 0 =? e).
  now destruct (x =? e).
Qed.
Lemma rank_members ids e k : k < length (members ids e) -> rank (nth k (members ids e) 0) ids = k.
Proof.
  assert (HR : forall x ids i, rank (S i) (x :: ids) = (if Nat.eq_dec x (nth i ids 0) then 1 else 0) + rank i ids).
  { intros x l i. unfold rank. cbn [firstn nth count_occ]. destruct (Nat.eq_dec x (nth i l 0)); reflexivity. }
  revert k. induction ids as [|x ids IH]; intros k Hk; [cbn in Hk; lia|].
  pose proof (members_lt (x :: ids) e k Hk) as [_ He]. rewrite members_cons in *. destruct (Nat.eqb_spec x e) as [E|N].
  - cbn [app] in *. destruct k as [|k]; [reflexivity|]. cbn [nth length] in *. rewrite map_length in Hk.
    rewrite (nth_indep _ 0 (S 0)) in * by (rewrite map_length; lia). rewrite map_nth in *. rewrite HR, (IH k) by lia.
    cbn [nth] in He. destruct (Nat.eq_dec x (nth (nth k (members ids e) 0) ids 0)); lia.
  - cbn [app] in *. rewrite map_length in Hk. rewrite (nth_indep _ 0 (S 0)) in * by (rewrite map_length; lia). rewrite map_nth in *.
    rewrite HR, (IH k) by lia. cbn [nth] in He. destruct (Nat.eq_dec x (nth (nth k (members ids e) 0) ids 0)); [congruence|reflexivity].
Qed.
Lemma nth_firstn_skipn {A} (l : list A) n m k d : k < n -> nth k (firstn n (skipn m l)) d = nth (m + k) l d.
Proof.
  revert l n k. induction m as [|m IH]; intros l n k Hk.
  - cbn [skipn Nat.add]. revert l k Hk. induction n as [|n IHn]; intros [|x l] k Hk; cbn; try lia; [now destruct k|]. destruct k as [|k]; [reflexivity|]. apply IHn. lia.
  - destruct l as [|x l]; [cbn [skipn]; rewrite firstn_nil; cbn; now destruct k|]. cbn [skipn Nat.add nth]. now apply IH.
Qed.

Section Input.
  Context (B V : nat) (points : list point) (sizes : list nat) (e : nat).
  Context (HP : length points = B * V) (HS : length sizes = B) (HV : Forall (fun n => 1 <= n <= V) sizes) (He : e < B).
  Let ids := ids_of_sizes sizes.
  Let M := members ids e.
  Lemma in_le : Forall (fun n => n <= V) sizes.
  Proof using All. rewrite Forall_forall in *. intros n Hn. specialize (HV n Hn). lia. Qed.
  Lemma in_rows_length : length (valid_rows sizes V points) = length ids.
  Proof using All.
    unfold ids, valid_rows, ids_of_sizes. rewrite !length_concat, !map_map. f_equal. apply map_ext_in. intros b Hb. apply in_seq in Hb.
    rewrite repeat_length, firstn_length, skipn_length, HP. rewrite Forall_forall in HV. assert (Hin : In (nth b sizes 0) sizes) by (apply nth_In; lia). specialize (HV _ Hin). apply block_fits; lia.
  Qed.
  Lemma in_count : length M = nth e sizes 0.
  Proof using All.
    pose proof in_rows_length as L. pose proof in_le as HV'.
    pose proof (element_valid sizes V points e ltac:(lia) HV' ltac:(lia)) as E. fold ids in E. rewrite (element_members e _ _ [] L) in E.
    apply (f_equal (@length _)) in E. rewrite map_length, firstn_length, skipn_length, HP in E. fold M in E. rewrite E.
    rewrite Forall_forall in HV. assert (Hin : In (nth e sizes 0) sizes) by (apply nth_In; lia). specialize (HV _ Hin). apply block_fits; lia.
  Qed.
  Lemma in_point k d : k < nth e sizes 0 -> nth (nth k M 0) (valid_rows sizes V points) d = nth (e * V + k) points d.
  Proof using All.
    intros Hk. pose proof in_rows_length as L. pose proof in_le as HV'. pose proof in_count as C.
    pose proof (element_valid sizes V points e ltac:(lia) HV' ltac:(lia)) as E. fold ids in E. rewrite (element_members e _ _ d L) in E.
    apply (f_equal (fun l => nth k l d)) in E. rewrite nth_firstn_skipn in E by exact Hk. fold M in E. rewrite <- E.
    rewrite (nth_indep (map (fun j => nth j (valid_rows sizes V points) d) M) d (nth 0 (valid_rows sizes V points) d)) by (rewrite map_length; lia).
    now rewrite (map_nth (fun j => nth j (valid_rows sizes V points) d)).
  Qed.
  Lemma in_feature (features : mat) k : k < nth e sizes 0 -> nth (nth k M 0) (rows_for V ids features) [] = nth (e * V + k) features [].
  Proof using All.
    intros Hk. pose proof in_count as C. pose proof (members_lt ids e k ltac:(fold M; lia)) as [H1 H2]. fold M in H1, H2.
    unfold rows_for. rewrite nth_map_seq by exact H1. rewrite H2. unfold M. rewrite rank_members by (fold M; lia). reflexivity.
  Qed.
End Input.

Definition input_pairs (ids ids2 : list nat) (e e2 n : nat) (s : list nat) : list (nat * nat) :=
  map (fun k => (nth (nth k s 0) (members ids e) 0, nth k (members ids2 e2) 0)) (seq 0 n).

Lemma input_match B V points sizes e B2 V2 points2 sizes2 e2 s t features features2 :
  length points = B * V -> length sizes = B -> Forall (fun n => 1 <= n <= V) sizes -> e < B ->
  length points2 = B2 * V2 -> length sizes2 = B2 -> Forall (fun n => 1 <= n <= V2) sizes2 -> e2 < B2 ->
  same_cloud 3 e V sizes points e2 V2 sizes2 points2 s t ->
  let ps := input_pairs (ids_of_sizes sizes) (ids_of_sizes sizes2) e e2 (nth e sizes 0) s in
  matched 3 t e (valid_rows sizes V points, ids_of_sizes sizes) e2 (valid_rows sizes2 V2 points2, ids_of_sizes sizes2) ps /\
  (same_rows e V (nth e sizes 0) features e2 V2 features2 s ->
   rows_match ps (rows_for V (ids_of_sizes sizes) features) (rows_for V2 (ids_of_sizes sizes2) features2)).
Proof.
  intros P1 S1 V1 E1 P2 S2 V2' E2 (En & Hs & Hx) ps.
  pose proof (in_count B V points sizes e P1 S1 V1 E1) as C1. pose proof (in_count B2 V2 points2 sizes2 e2 P2 S2 V2' E2) as C2.
  set (n := nth e sizes 0) in *. set (M := members (ids_of_sizes sizes) e) in *. set (M2 := members (ids_of_sizes sizes2) e2) in *.
  assert (Ls : length s = n) by (rewrite (Permutation_length Hs); apply seq_length).
  assert (Hlt : forall k, k < n -> nth k s 0 < n).
  { intros k Hk. assert (H : In (nth k s 0) s) by (apply nth_In; lia). apply (Permutation_in _ Hs), in_seq in H. lia. }
  split.
  - cbn [fst snd]. split; [|split]; cbn [fst snd].
    + unfold ps, input_pairs. rewrite map_map. cbn [fst]. fold M M2.
      rewrite <- (map_map (fun k => nth k s 0) (fun i => nth i M 0)). rewrite <- Ls, TensorFacts.map_nth_seq.
      rewrite (Permutation_map (fun i => nth i M 0) Hs). rewrite <- C1. now rewrite TensorFacts.map_nth_seq.
    + unfold ps, input_pairs. rewrite map_map. cbn [snd]. fold M M2. rewrite <- En, <- C2. now rewrite TensorFacts.map_nth_seq.
    + intros i j d Hp Hd. unfold ps, input_pairs in Hp. apply in_map_iff in Hp as (k & E & Hk). injection E as <- <-. apply in_seq in Hk. fold M M2.
      unfold xc. rewrite (in_point B V points sizes e P1 S1 V1 E1) by (apply Hlt; lia).
      rewrite (in_point B2 V2 points2 sizes2 e2 P2 S2 V2' E2) by (rewrite En; lia). apply Hx; lia.
  - intros HF i j Hp. unfold ps, input_pairs in Hp. apply in_map_iff in Hp as (k & E & Hk). injection E as <- <-. apply in_seq in Hk. fold M M2.
    rewrite (in_feature B V points sizes e P1 S1 V1 E1) by (apply Hlt; lia).
    rewrite (in_feature B2 V2 points2 sizes2 e2 P2 S2 V2' E2) by (rewrite En; lia). symmetry. apply HF. lia.
Qed.

(** ** The levels *)
Lemma last_shift {A} (l : list A) : forall x d, last (x :: l) d = last l x.
Proof. induction l as [|y l IH]; intros x d; [reflexivity|]. change (last (x :: y :: l) d) with (last (y :: l) d). now rewrite !IH. Qed.
Lemma level_match mode eps cs t e up lo e2 up2 lo2 ps : means mode average_names -> matched 3 t e up e2 up2 ps ->
  next_level mode eps 3 cs up lo -> next_level mode eps 3 cs up2 lo2 -> exists qs, matched 3 t e lo e2 lo2 qs.
Proof.
  intros Hm HU [(Hp & _)|(_ & H1)].
  { pose proof (sample_mode_poisson _ Hp). pose proof (sample_mode_average _ Hm). congruence. }
  intros [(Hp & _)|(_ & H2)].
  { pose proof (sample_mode_poisson _ Hp). pose proof (sample_mode_average _ Hm). congruence. }
  exact (average_match eps 3 cs t e up lo e2 up2 lo2 ps HU H1 H2).
Qed.

Lemma encoded_match mode eps t e e2 conv post :
  means mode average_names ->
  (forall i r up lo up2 lo2 ps qs F F2, matched 3 t e up e2 up2 ps -> matched 3 t e lo e2 lo2 qs -> rows_match ps F F2 ->
     rows_match qs (conv i r up lo F) (conv i r up2 lo2 F2)) ->
  (forall i up lo lo2 up2 r F F2 qs, matched 3 t e lo e2 lo2 qs -> rows_match qs (conv i r up lo F) (conv i r up2 lo2 F2) ->
     rows_match qs (post i (length (snd lo)) (conv i r up lo F)) (post i (length (snd lo2)) (conv i r up2 lo2 F2))) ->
  forall cs radii i up below up2 below2 ps F F2, length radii = length cs ->
    chain (next_level mode eps 3) cs (up :: below) -> chain (next_level mode eps 3) cs (up2 :: below2) ->
    matched 3 t e up e2 up2 ps -> rows_match ps F F2 ->
    exists qs, matched 3 t e (last below up) e2 (last below2 up2) qs /\
      rows_match qs (encoded conv post i radii up below F) (encoded conv post i radii up2 below2 F2).
Proof.
  intros Hm Hconv Hpost. induction cs as [|c cs IH]; intros radii i up below up2 below2 ps F F2 HL C1 C2 HU HF.
  - inversion C1; subst. inversion C2; subst. exists ps. split; [exact HU|]. destruct radii; exact HF.
  - destruct radii as [|r radii]; [discriminate|].
    inversion C1 as [|? ? ? lo rest N1 C1']; subst. inversion C2 as [|? ? ? lo2 rest2 N2 C2']; subst.
    destruct (level_match _ _ _ _ _ _ _ _ _ _ _ Hm HU N1 N2) as (qs & HQ).
    pose proof (Hconv i r up lo up2 lo2 ps qs F F2 HU HQ HF) as HY. cbn [encoded].
    destruct rest as [|lo' rest].
    + inversion C1'; subst. inversion C2'; subst. exists qs. split; [exact HQ|exact HY].
    + destruct rest2 as [|lo2' rest2]; [inversion C1'; subst; inversion C2'|].
      destruct (IH radii (S i) lo (lo' :: rest) lo2 (lo2' :: rest2) qs (post i (length (snd lo)) (conv i r up lo F)) (post i (length (snd lo2)) (conv i r up2 lo2 F2)))
        as (qs' & A & B0); auto.
      exists qs'. split; [|exact B0]. rewrite (last_shift (lo' :: rest)), (last_shift (lo2' :: rest2)). exact A.
Qed.

Lemma rowwise_match D t e e2 lo lo2 qs f X X2 : matched D t e lo e2 lo2 qs -> rowwise f -> length X = length (snd lo) -> length X2 = length (snd lo2) ->
  rows_match qs X X2 -> rows_match qs (f X) (f X2).
Proof.
  intros HQ Hf L1 L2 HX i j Hp. destruct (mt_lt D t e e2 lo lo2 qs HQ i j Hp) as ((A & _) & (B0 & _)).
  apply rowwise_nth; auto; lia.
Qed.
Lemma affine_match D t e e2 lo lo2 qs cin cout w b X X2 : matched D t e lo e2 lo2 qs -> rows_match qs X X2 ->
  rows_match qs (affine (length (snd lo)) cin cout w b X) (affine (length (snd lo2)) cin cout w b X2).
Proof.
  intros HQ HX i j Hp. destruct (mt_lt D t e e2 lo lo2 qs HQ i j Hp) as ((A & _) & (B0 & _)). apply affine_nth; auto.
Qed.
Lemma add_match D t e e2 lo lo2 qs c X X2 Y Y2 : matched D t e lo e2 lo2 qs -> rows_match qs X X2 -> rows_match qs Y Y2 ->
  rows_match qs (mat_add (length (snd lo)) c X Y) (mat_add (length (snd lo2)) c X2 Y2).
Proof.
  intros HQ HX HY. unfold mat_add. apply (mt_table D t e e2 lo lo2 qs HQ). intros i j o Hp _. unfold fval. now rewrite (HX i j Hp), (HY i j Hp).
Qed.
Lemma affine_length n cin cout w b X : length (affine n cin cout w b X) = n.
Proof. unfold affine, table. now rewrite map_length, seq_length. Qed.
Lemma rowwise_length f X : rowwise f -> length (f X) = length X.
Proof. intros (g & _ & E). rewrite E. apply map_length. Qed.

(** Between the convolutions of the small network. *)
Lemma post_match t e e2 lo lo2 qs bn chans ow ob i X X2 : matched 3 t e lo e2 lo2 qs -> (forall k, rowwise (bn k)) ->
  length X = length (snd lo) -> length X2 = length (snd lo2) -> rows_match qs X X2 ->
  rows_match qs (small_post bn chans ow ob i (length (snd lo)) X) (small_post bn chans ow ob i (length (snd lo2)) X2).
Proof.
  intros HQ Hb L1 L2 HX. unfold small_post.
  apply (rowwise_match 3 t e e2 lo lo2); auto using rowwise_activated, affine_length.
  apply (affine_match 3 t e e2 lo lo2); auto. apply (rowwise_match 3 t e e2 lo lo2); auto using rowwise_activated.
Qed.

(** A residual block. *)
Section Block.
  Context (t : nat -> Q) (e e2 : nat) (conv : nat -> nat -> Q -> batch -> batch -> mat -> mat) (bn : nat -> mat -> mat) (v : block_vars).
  Context (Hconv : forall cin cout r up lo up2 lo2 ps qs F F2, matched 3 t e up e2 up2 ps -> matched 3 t e lo e2 lo2 qs -> rows_match ps F F2 ->
     rows_match qs (conv cin cout r up lo F) (conv cin cout r up2 lo2 F2)) (Hlen : forall cin cout r up lo F, length (conv cin cout r up lo F) = length (snd lo)).
  Context (Hbn : forall k, rowwise (bn k)).
  Lemma block_match cin cout r pool up lo up2 lo2 ps qs X X2 : matched 3 t e up e2 up2 ps -> matched 3 t e lo e2 lo2 qs ->
    (pool = None -> up = lo /\ up2 = lo2 /\ ps = qs) -> length X = length (snd up) -> length X2 = length (snd up2) -> rows_match ps X X2 ->
    rows_match qs (block_formula conv bn v cin cout r pool up lo X) (block_formula conv bn v cin cout r pool up2 lo2 X2).
  Proof using Hconv Hlen Hbn.
    intros HU HQ Hpool L1 L2 HX. unfold block_formula. apply (add_match 3 t e e2); auto.
    - apply (affine_match 3 t e e2); auto. apply (rowwise_match 3 t e e2 lo lo2); auto using rowwise_activated.
      apply (Hconv _ _ _ up lo up2 lo2 ps qs); auto. apply (rowwise_match 3 t e e2 up up2); auto using rowwise_activated, affine_length.
      apply (affine_match 3 t e e2); auto. apply (rowwise_match 3 t e e2 up up2); auto using rowwise_activated.
    - assert (Hskip : let sk := match pool with Some s => pooled s up lo cin X | None => X end in
        let sk2 := match pool with Some s => pooled s up2 lo2 cin X2 | None => X2 end in
        rows_match qs sk sk2 /\ length sk = length (snd lo) /\ length sk2 = length (snd lo2)).
      { destruct pool as [s|]; cbv zeta.
        - split; [now apply (pooled_match t e e2 up lo up2 lo2 ps qs)|]. unfold pooled, table. now rewrite !map_length, !seq_length.
        - destruct (Hpool eq_refl) as (<- & <- & <-). auto. }
      destruct Hskip as (S1 & S2 & S3). destruct (cin =? cout); [exact S1|].
      apply (affine_match 3 t e e2); auto. apply (rowwise_match 3 t e e2 lo lo2); auto using rowwise_activated.
  Qed.
  Lemma block_length cin cout r pool up lo X : length (block_formula conv bn v cin cout r pool up lo X) = length (snd lo).
  Proof using. unfold block_formula, mat_add, table. now rewrite map_length, seq_length. Qed.
End Block.

Lemma deeper_match mode eps t e e2 strided plain : means mode average_names ->
  (forall i p up lo up2 lo2 ps qs F F2, matched 3 t e up e2 up2 ps -> matched 3 t e lo e2 lo2 qs ->
     length F = length (snd up) -> length F2 = length (snd up2) -> rows_match ps F F2 ->
     rows_match qs (strided i p up lo F) (strided i p up2 lo2 F2)) ->
  (forall i c lo lo2 qs F F2, matched 3 t e lo e2 lo2 qs -> length F = length (snd lo) -> length F2 = length (snd lo2) -> rows_match qs F F2 ->
     rows_match qs (plain i c lo F) (plain i c lo2 F2)) ->
  (forall i p up lo F, length (strided i p up lo F) = length (snd lo)) -> (forall i c lo F, length (plain i c lo F) = length (snd lo)) ->
  forall cs pool conv i up below up2 below2 ps F F2, length pool = length cs -> length conv = length cs ->
    chain (next_level mode eps 3) cs (up :: below) -> chain (next_level mode eps 3) cs (up2 :: below2) ->
    matched 3 t e up e2 up2 ps -> length F = length (snd up) -> length F2 = length (snd up2) -> rows_match ps F F2 ->
    exists qs, matched 3 t e (last below up) e2 (last below2 up2) qs /\
      rows_match qs (deeper strided plain i pool conv up below F) (deeper strided plain i pool conv up2 below2 F2).
Proof.
  intros Hm Hs Hp Ls Lp. induction cs as [|c cs IH]; intros pool conv i up below up2 below2 ps F F2 L1 L2 C1 C2 HU LF LF2 HF.
  - inversion C1; subst. inversion C2; subst. exists ps. split; [exact HU|]. destruct pool, conv; try discriminate; exact HF.
  - destruct pool as [|p pool], conv as [|cv conv]; try discriminate.
    inversion C1 as [|? ? ? lo rest N1 C1']; subst. inversion C2 as [|? ? ? lo2 rest2 N2 C2']; subst.
    destruct (level_match _ _ _ _ _ _ _ _ _ _ _ Hm HU N1 N2) as (qs & HQ). cbn [deeper].
    rewrite (last_shift rest), (last_shift rest2).
    apply (IH pool conv (S i) lo rest lo2 rest2 qs); auto.
    apply Hp; auto. apply (Hs i p up lo up2 lo2 ps qs); auto.
Qed.

(** Means over the elements. *)
Lemma averaged_match D t e e2 lo lo2 qs B B2 C X X2 : matched D t e lo e2 lo2 qs -> e < B -> e2 < B2 -> rows_match qs X X2 ->
  nth e (averaged B (snd lo) C X) [] = nth e2 (averaged B2 (snd lo2) C X2) [].
Proof.
  intros (P & P2 & _) He He2 HX. unfold averaged, table. rewrite !nth_map_seq by assumption. apply map_ext. intros c.
  assert (E : Permutation (map (fun j => fval X j c) (members (snd lo) e)) (map (fun j => fval X2 j c) (members (snd lo2) e2))).
  { rewrite <- (Permutation_map (fun j => fval X j c) P), <- (Permutation_map (fun j => fval X2 j c) P2), !map_map.
    erewrite map_ext_in; [reflexivity|]. intros [i j] Hp. unfold fval. cbn [fst snd]. now rewrite (HX i j Hp). }
  unfold mean. rewrite (Permutation_length E). f_equal. change (fold_right Rplus 0%R) with rsum. now apply rsum_perm.
Qed.

(** A level has at most as many points of an element as the one above. *)
Lemma average_fewer eps D cs (up lo : batch) e : cell_average eps D cs (fst up) (snd up) (fst lo) (snd lo) ->
  length (members (snd lo) e) <= length (members (snd up) e).
Proof.
  intros (c & gs & _ & HG & _ & L & Ho). cbv zeta in *. set (rep := fun k => hd 0 (nth k gs [])).
  assert (Hrep : forall k, k < length gs -> In (rep k) (nth k gs [])).
  { intros k Hk. destruct (group_some D _ _ _ HG k Hk) as (i & Hi). unfold rep. destruct (nth k gs []); [contradiction|now left]. }
  rewrite <- (map_length rep). apply NoDup_incl_length.
  - apply NoDup_map_inj_in; [|apply members_nodup]. intros a b Ha Hb E. apply members_iff in Ha as [Ha _], Hb as [Hb _].
    apply (group_unique D _ _ _ HG a b (rep a)); try lia; [apply Hrep; lia|rewrite E; apply Hrep; lia].
  - intros i Hi. apply in_map_iff in Hi as (k & <- & Hk). apply members_iff in Hk as [Hk He]. rewrite L in Hk. apply members_iff.
    split; [exact (group_lt D _ _ _ HG k _ Hk (Hrep k Hk))|]. rewrite <- He. symmetry. now apply (proj2 (Ho k Hk)), Hrep.
Qed.
Lemma rank_bound ids e i : i < length ids -> nth i ids 0 = e -> rank i ids < length (members ids e).
Proof.
  intros Hi He. assert (H : In i (members ids e)) by now apply members_iff. apply (In_nth _ _ 0) in H as (k & Hk & <-).
  now rewrite rank_members.
Qed.
