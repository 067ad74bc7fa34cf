(** Proofs about the point-wise convolution in float32 (C79). The statements are
    copied into PropertiesFloatConv.v. *)
From Coq Require Import String List Arith ZArith QArith Qreals Reals Lia Lra Bool Permutation.
From Flocq Require Import Core Relative.
From Verif Require Import Tensor TensorFacts Spec SpecText TextFacts PointCloud SpecCloud PointCloudFacts QFacts Grid SpecGrid GridFacts Neighbors SpecNeighbors NeighborFacts NeighborProofs
  SamplingFacts SamplingProofs Pdf SpecPdf PdfFacts RTensor RTensorFacts Layers SpecLayers LayerFacts LayerLink LayerProofs ConvProofs
  Float FloatFacts FloatConv.
Import ListNotations.
Local Open Scope nat_scope.

(** * The error of a dot product *)
Section Error.
  Local Open Scope R_scope.
  Definition ulp24 : R := bpow radix2 (-24).
  Definition tiny : R := bpow radix2 (-150).
  Lemma r32_err x : Rabs (r32 x - x) <= Rabs x * ulp24 + tiny.
  Proof.
    unfold r32, ulp24, tiny.
    destruct (error_N_FLT radix2 (-149) 24 ltac:(reflexivity) (fun n => negb (Z.even n)) x) as (e & h & He & Hh & _ & ->).
    replace (x * (1 + e) + h - x) with (x * e + h) by ring.
    eapply Rle_trans; [apply Rabs_triang|]. apply Rplus_le_compat.
    - rewrite Rabs_mult. apply Rmult_le_compat_l; [apply Rabs_pos|]. eapply Rle_trans; [exact He|].
      apply Req_le. symmetry. exact (bpow_plus radix2 (-1) (-23)).
    - eapply Rle_trans; [exact Hh|]. apply Req_le. symmetry. exact (bpow_plus radix2 (-1) (-149)).
  Qed.

  Definition bound (n S x E : R) : Prop := 1 <= n /\ Rabs E <= S /\ Rabs (x - E) <= 2 * n * ulp24 * S + (4 * n - 2) * tiny.
  Lemma bound_step n1 S1 x1 E1 n2 S2 x2 E2 : bound n1 S1 x1 E1 -> bound n2 S2 x2 E2 -> (n1 + n2) * ulp24 <= 1 / 4 ->
    bound (n1 + n2) (S1 + S2) (r32 (x1 + x2)) (E1 + E2).
  Proof.
    unfold bound. intros (N1 & A1 & B1) (N2 & A2 & B2) Hn. pose proof (r32_err (x1 + x2)) as Hr.
    assert (Hu : 0 < ulp24) by apply bpow_gt_0. assert (He : 0 < tiny) by apply bpow_gt_0.
    set (u := ulp24) in *. set (e := tiny) in *. clearbody u e. set (x := r32 (x1 + x2)) in *. clearbody x.
    set (d1 := Rabs (x1 - E1)) in *. set (d2 := Rabs (x2 - E2)) in *.
    assert (Hd1 : 0 <= d1) by apply Rabs_pos. assert (Hd2 : 0 <= d2) by apply Rabs_pos.
    assert (P1 := Rabs_pos E1). assert (P2 := Rabs_pos E2).
    assert (Hx : Rabs (x1 + x2) <= S1 + S2 + d1 + d2).
    { replace (x1 + x2) with (E1 + E2 + ((x1 - E1) + (x2 - E2))) by ring.
      pose proof (Rabs_triang (E1 + E2) ((x1 - E1) + (x2 - E2))). pose proof (Rabs_triang E1 E2). pose proof (Rabs_triang (x1 - E1) (x2 - E2)). unfold d1, d2. lra. }
    assert (HE : Rabs (x - (E1 + E2)) <= Rabs (x - (x1 + x2)) + (d1 + d2)).
    { replace (x - (E1 + E2)) with ((x - (x1 + x2)) + ((x1 - E1) + (x2 - E2))) by ring.
      pose proof (Rabs_triang (x - (x1 + x2)) ((x1 - E1) + (x2 - E2))). pose proof (Rabs_triang (x1 - E1) (x2 - E2)). unfold d1, d2. lra. }
    split; [lra|]. split; [pose proof (Rabs_triang E1 E2); lra|]. clearbody d1 d2.
    assert (Ha : Rabs (x1 + x2) * u <= (S1 + S2 + d1 + d2) * u) by (apply Rmult_le_compat_r; lra).
    assert (Hs1 : 0 <= u * S1) by (apply Rmult_le_pos; lra). assert (Hs2 : 0 <= u * S2) by (apply Rmult_le_pos; lra).
    assert (Hn1 : 0 <= n1 * u) by (apply Rmult_le_pos; lra). assert (Hn2 : 0 <= n2 * u) by (apply Rmult_le_pos; lra).
    assert (K : forall n S d, 1 <= n -> 0 <= n * u -> n * u <= 1 / 4 -> 0 <= u * S -> d <= 2 * n * u * S + (4 * n - 2) * e -> d * u <= u * S / 2 + 4 * (n * u) * e).
    { clear - Hu He. intros n S d H1 H2 H3 H4 H5. apply (Rmult_le_compat_r u) in H5; [|lra].
      assert (X1 : n * u * (u * S) <= 1 / 4 * (u * S)) by (apply Rmult_le_compat_r; assumption).
      assert (X2 : 0 <= u * e) by (apply Rmult_le_pos; lra).
      replace ((2 * n * u * S + (4 * n - 2) * e) * u) with (2 * (n * u * (u * S)) + 4 * (n * u) * e - 2 * (u * e)) in H5 by ring. lra. }
    pose proof (K n1 S1 d1 N1 Hn1 ltac:(lra) Hs1 B1) as K1. pose proof (K n2 S2 d2 N2 Hn2 ltac:(lra) Hs2 B2) as K2. clear K.
    assert (K3 : (n1 * u + n2 * u) * e <= 1 / 4 * e) by (apply Rmult_le_compat_r; lra).
    assert (X1 : u * S1 <= n2 * (u * S1)). { rewrite <- (Rmult_1_l (u * S1)) at 1. apply Rmult_le_compat_r; assumption. }
    assert (X2 : u * S2 <= n1 * (u * S2)). { rewrite <- (Rmult_1_l (u * S2)) at 1. apply Rmult_le_compat_r; assumption. }
    replace (2 * (n1 + n2) * u * (S1 + S2)) with (2 * n1 * u * S1 + 2 * n2 * u * S2 + 2 * (n2 * (u * S1)) + 2 * (n1 * (u * S2))) by ring.
    lra.
  Qed.
  Lemma bound_exact x : bound 1 (Rabs x) x x.
  Proof.
    assert (Hu : 0 < ulp24) by apply bpow_gt_0. assert (He : 0 < tiny) by apply bpow_gt_0.
    split; [lra|]. split; [lra|]. replace (x - x) with 0 by ring. rewrite Rabs_R0.
    assert (0 <= 2 * 1 * ulp24 * Rabs x) by (apply Rmult_le_pos; [lra|apply Rabs_pos]). lra.
  Qed.
  Lemma bound_round x : bound 1 (Rabs x) (r32 x) x.
  Proof.
    assert (Hu : 0 < ulp24) by apply bpow_gt_0. assert (He : 0 < tiny) by apply bpow_gt_0. pose proof (r32_err x).
    split; [lra|]. split; [lra|]. assert (0 <= Rabs x * ulp24) by (apply Rmult_le_pos; [apply Rabs_pos|lra]). lra.
  Qed.
  Definition pexact (l : list (R * R)) : R := rsum (map (fun q => fst q * snd q) l).
  Definition psize (l : list (R * R)) : R := rsum (map (fun q => Rabs (fst q * snd q)) l).
  Lemma dot32_bound l s : dot32 l s -> INR (length l) * ulp24 <= 1 / 4 -> bound (INR (length l)) (psize l) s (pexact l).
  Proof.
    assert (Hu : 0 < ulp24) by apply bpow_gt_0.
    induction 1 as [a b|l l' a b s P H IH|l l1 l2 s1 s2 P H1 IH1 H2 IH2]; intros Hn.
    - unfold psize, pexact, rsum. cbn [map fold_right fst snd length]. rewrite !Rplus_0_r. apply bound_round.
    - assert (Ep : pexact l = a * b + pexact l') by (unfold pexact; rewrite (rsum_perm _ _ (Permutation_map _ P)); reflexivity).
      assert (Es : psize l = Rabs (a * b) + psize l') by (unfold psize; rewrite (rsum_perm _ _ (Permutation_map _ P)); reflexivity).
      rewrite (Permutation_length P) in *. rewrite Ep, Es. cbn [length] in *. rewrite S_INR in *. rewrite Rplus_comm in Hn. rewrite (Rplus_comm (INR (length l')) 1).
      apply bound_step; [apply bound_exact| |lra]. apply IH. lra.
    - assert (Ep : pexact l = pexact l1 + pexact l2) by (unfold pexact; rewrite (rsum_perm _ _ (Permutation_map _ P)), map_app; apply rsum_app).
      assert (Es : psize l = psize l1 + psize l2) by (unfold psize; rewrite (rsum_perm _ _ (Permutation_map _ P)), map_app; apply rsum_app).
      rewrite (Permutation_length P), app_length, plus_INR in *. rewrite Ep, Es.
      pose proof (Rmult_le_pos _ _ (pos_INR (length l1)) (Rlt_le _ _ Hu)). pose proof (Rmult_le_pos _ _ (pos_INR (length l2)) (Rlt_le _ _ Hu)).
      apply bound_step; [apply IH1; lra|apply IH2; lra|lra].
  Qed.
End Error.

(** C79, partial. The point-wise convolution in float32, for all clouds, features,
    weights and biases with fewer than 2^22 input features, every order of the
    additions, with and without fused operations: row i of the output holds the
    linear combinations of the features of point i up to the rounding error, which
    is at most (C_in + 1) / 2^23 times the sum of the magnitudes. Partial: rows with
    equal features can get different values (C79_rows_refuted). *)
Lemma C79_conv1x1_partial_proof :
  forall p feats cin cout F w b layer dot return_sorted return_padded,
    mk_conv1x1 cin cout w b = Ok layer -> given feats p cin F -> dots32 dot -> (Z.of_nat cin < 2 ^ 22)%Z ->
    exists out,
      conv1x1_call32 dot layer feats p return_sorted return_padded
        = returned p return_sorted return_padded cout (table (length (pts p)) cout out) /\
      forall i o, i < length (pts p) -> o < cout ->
        let exact := (sum_over (seq 0 cin) (fun c => fval F i c * w [c; o]) + b [0%nat; o])%R in
        let size := (sum_over (seq 0 cin) (fun c => Rabs (fval F i c * w [c; o])) + Rabs (b [0%nat; o]))%R in
        (Rabs (out i o - exact) <= (INR cin + 1) * (size / 8388608 + / 2 ^ 148))%R.
Proof.
  intros p feats cin cout F w b layer dot srt pad El Hg Hdot Hcin. unfold mk_conv1x1 in El. destruct (Nat.eqb_spec cin 0) as [E0|E0]; [discriminate|].
  injection El as <-. set (pairs := fun i o => map (fun c => (fval F i c, w [c; o])) (seq 0 cin)).
  exists (fun i o => r32 (dot i o (pairs i o) + b [0%nat; o])%R). split.
  - unfold conv1x1_call32. rewrite (given_flat _ _ _ _ Hg). cbn [bind c1_w c1_b]. unfold matmul32. rewrite !ttab_shape, Nat.eqb_refl. cbn [bind].
    rewrite (tbin_ttab _ _ _ [length (pts p); cout]) by bc. cbn [bind].
    rewrite layer_output_table. f_equal. unfold table. apply map_ext_in. intros i Hi. apply map_ext_in. intros o Ho.
    apply in_seq in Hi. apply in_seq in Ho. cbn [bc_index Nat.eqb]. rewrite (bc_self (length (pts p)) i), (bc_self cout o) by lia.
    do 3 f_equal. apply map_ext_in. intros c Hc. apply in_seq in Hc. rewrite !tget_ttab by in_sh. reflexivity.
  - intros i o Hi Ho. cbv zeta. assert (Hne : pairs i o <> []) by (unfold pairs; destruct cin; [congruence|discriminate]).
    assert (Lp : length (pairs i o) = cin) by (unfold pairs; now rewrite map_length, seq_length).
    assert (Hu : ulp24 = (/ 16777216)%R) by reflexivity.
    assert (Hc : (INR cin + 1 <= 4194304)%R).
    { rewrite <- S_INR, INR_IZR_INZ. apply IZR_le. change 4194304%Z with (2 ^ 22)%Z. lia. }
    assert (Hb : bound (INR cin) (psize (pairs i o)) (dot i o (pairs i o)) (pexact (pairs i o))).
    { rewrite <- Lp at 1. apply dot32_bound; [now apply Hdot|]. rewrite Lp, Hu. lra. }
    destruct (bound_step _ _ _ _ _ _ _ _ Hb (bound_exact (b [0%nat; o]))) as (_ & _ & X); [rewrite Hu; lra|].
    assert (Ee : pexact (pairs i o) = sum_over (seq 0 cin) (fun c => fval F i c * w [c; o])%R) by (unfold pexact, pairs; now rewrite map_map).
    assert (Es : psize (pairs i o) = sum_over (seq 0 cin) (fun c => Rabs (fval F i c * w [c; o]))%R) by (unfold psize, pairs; now rewrite map_map).
    rewrite Ee, Es in X. eapply Rle_trans; [exact X|]. rewrite Hu.
    assert (Ht : (4 * tiny = / 2 ^ 148)%R).
    { unfold tiny. rewrite bpow_powerRZ. change (powerRZ (IZR radix2) (-150)) with (/ 2 ^ 150)%R. change (2 ^ 150)%R with (2 * (2 * 2 ^ 148))%R.
      assert (Hq : (2 ^ 148 <> 0)%R) by (apply pow_nonzero; lra). set (q := (2 ^ 148)%R) in *. clearbody q. field. exact Hq. }
    assert (0 < tiny)%R by apply bpow_gt_0. rewrite <- Ht. set (sz := (sum_over (seq 0 cin) (fun c => Rabs (fval F i c * w [c; o])) + Rabs (b [0%nat; o]))%R). lra.
Qed.

(** * Equal rows *)
Definition tree2 (l : list (R * R)) : R :=
  fold_right (fun q s => r32 (fst q * snd q + s))%R (let z := last l (0, 0)%R in r32 (fst z * snd z)%R) (removelast l).
Definition tree1 (l : list (R * R)) : R :=
  match l with
  | [p; q; r] => (r32 (r32 (r32 (fst p * snd p) + r32 (fst q * snd q)) + r32 (fst r * snd r)))%R
  | _ => tree2 l
  end.
Definition ex79_dot (i o : nat) (l : list (R * R)) : R := if i =? 0 then tree1 l else tree2 l.
Lemma tree2_ok l : l <> [] -> dot32 l (tree2 l).
Proof.
  intros Hne. unfold tree2. rewrite (app_removelast_last (0, 0)%R Hne) at 1. generalize (last l (0, 0)%R). generalize (removelast l). clear.
  intros l z. induction l as [|q l IH]; cbn [app fold_right].
  - destruct z. apply dot_one.
  - destruct q as [a b]. apply (dot_fused _ (l ++ [z])); [apply Permutation_refl|exact IH].
Qed.
Lemma tree1_ok l : l <> [] -> dot32 l (tree1 l).
Proof.
  intros Hne. destruct l as [|[a a'] [|[b b'] [|[c c'] [|d l]]]]; try exact (tree2_ok _ Hne).
  apply (dot_add _ [(a, a'); (b, b')] [(c, c')]); [apply Permutation_refl| |apply dot_one].
  apply (dot_add _ [(a, a')] [(b, b')]); [apply Permutation_refl|apply dot_one|apply dot_one].
Qed.
Lemma ex79_dots : dots32 ex79_dot.
Proof. intros i j l Hne. unfold ex79_dot. destruct (i =? 0); [now apply tree1_ok|now apply tree2_ok]. Qed.
Lemma r32_Q q : r32 (Q2R q) = Q2R (f32 q).
Proof. symmetry. apply f32_ok. Qed.

(** C79, equal rows refuted. Two points with the same three features get different
    values, if the order of the additions differs between the rows. *)
Definition ex79_row : list R := [1; Q2R (1 # 16777216); Q2R (1 # 16777216)]%R.
Lemma C79_rows_refuted_proof :
  exists p feats F w b layer dot out,
    cloud GPU 0 2 [[0; 0]; [1; 1]]%Q [0; 0] 1 p /\ given feats p 3 F /\ nth 0 F [] = nth 1 F [] /\
    mk_conv1x1 3 1 w b = Ok layer /\ dots32 dot /\
    conv1x1_call32 dot layer feats p false false = Ok (Feat 1 (inr out)) /\ length out = 2 /\ fval out 0 0 <> fval out 1 0.
Proof.
  set (p := seg 2 [[0; 0]; [1; 1]]%Q [0; 0] 1). set (F := [ex79_row; ex79_row]).
  assert (Hg : given (Feat 3 (inr F)) p 3 F) by (split; [reflexivity|split; reflexivity]).
  exists p, (Feat 3 (inr F)), F, (fun _ => 1%R), (fun _ => 0%R). eexists. exists ex79_dot.
  exists [[r32 (tree1 [(1, 1); (Q2R (1 # 16777216), 1); (Q2R (1 # 16777216), 1)] + 0)]; [r32 (tree2 [(1, 1); (Q2R (1 # 16777216), 1); (Q2R (1 # 16777216), 1)] + 0)]]%R.
  split; [apply seg_cloud; repeat constructor|]. split; [exact Hg|]. split; [reflexivity|]. split; [reflexivity|]. split; [exact ex79_dots|]. split.
  - unfold conv1x1_call32. rewrite (given_flat _ _ _ _ Hg). cbn [bind c1_w c1_b]. unfold matmul32. rewrite !ttab_shape, Nat.eqb_refl. cbn [bind].
    rewrite (tbin_ttab _ _ _ [2; 1]) by bc. cbn [bind]. rewrite layer_output_table. reflexivity.
  - split; [reflexivity|]. unfold fval. cbn [nth]. unfold tree1, tree2. cbn [fst snd last removelast fold_right].
    replace 1%R with (Q2R 1) by (unfold Q2R; cbn; lra). replace 0%R with (Q2R 0) by (unfold Q2R; cbn; lra).
    repeat rewrite <- ?Q2R_mult, <- ?Q2R_plus, ?r32_Q. intros E. apply eqR_Qeq in E. revert E. vm_compute. discriminate.
Qed.

(** * Concrete cases *)
Example C79_conv1x1_partial_ex_proof :
  exists layer, mk_conv1x1 2 3 (fun idx => INR (hd 0 idx)) (fun _ => 1%R) = Ok layer /\
    given (Feat 2 (inr exN_F)) (seg 2 exN_rows exN_ids 2) 2 exN_F /\ dots32 ex79_dot /\
    sum_over (seq 0 2) (fun c => fval exN_F 2 c * INR c)%R = 6%R.
Proof.
  eexists. split; [reflexivity|]. split; [exact exN_given|]. split; [exact ex79_dots|]. unfold fval, sum_over. cbn. lra.
Qed.
Example C79_rows_refuted_ex_proof : dots32 (fun _ _ => tree1) /\ dots32 (fun _ _ => tree2).
Proof. split; intros i j l Hne; [now apply tree1_ok|now apply tree2_ok]. Qed.
