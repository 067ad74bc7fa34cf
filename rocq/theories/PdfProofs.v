(** Proofs of the density properties (C27-C29). The statements are copied
    verbatim into PropertiesPdf.v. *)
From Coq Require Import List Arith ZArith QArith Reals Qreals Lia Lra Bool Permutation Sorted.
From Verif Require Import Tensor TensorFacts Spec PointCloud SpecCloud QFacts
  Grid SpecGrid GridFacts Neighbors SpecNeighbors NeighborFacts NeighborProofs
  Neighborhood NeighborhoodFacts Sampling SpecSampling SamplingFacts SamplingProofs Pdf SpecPdf PdfFacts PdfInsideFacts.
Import ListNotations.
Local Open Scope nat_scope.

(** C27: applied to the neighborhood of a grid's own points, the density op
    gives for every point, in the order of the sorted points, the kernel
    density estimate; it is positive. *)
Lemma C27_density_partial_proof :
  forall dev eps D rows ids B cs g radii max_neighbors n bw mode,
    usable eps D rows ids B cs g -> radii_match D radii cs -> valid_sizes D radii -> ids <> [] ->
    snd (mk_nbh (find_neighbors_tf GPU) g radii None max_neighbors) = Ok n ->
    length bw = D -> Forall (fun x => (0 < x)%R) bw ->
    compute_pdf_tf dev n bw mode = Ok (map (density D bw (all_dims D radii) rows ids) (gsidx g)) /\
    Permutation (gsidx g) (seq 0 (length ids)) /\
    pts (nsampled n) = map (fun i => nth i rows []) (gsidx g) /\
    forall i, i < length ids -> (0 < density D bw (all_dims D radii) rows ids i)%R.
Proof.
  intros dev eps D rows ids B cs g radii mx n bw mode Hu Hr Hv Hne E Hbw Hbp.
  pose proof (us_sizes _ _ _ _ _ _ _ Hu) as Hvs. pose proof (us_dim _ _ _ _ _ _ _ Hu) as HD.
  pose proof (grid_for_is _ _ _ _ _ _ _ _ Hvs (us_grid _ _ _ _ _ _ _ Hu)) as G.
  split; [eapply kde_self; eauto|]. split; [apply (sidx_perm _ _ _ _ _ _ _ _ G)|]. split.
  - destruct (self_nbh eps D rows ids B cs g radii mx n Hu Hr E Hne) as (_ & _ & _ & _ & _ & _ & P1 & _).
    rewrite P1. rewrite (map_seq_nth _ (gsidx g) 0), (sidx_length _ _ _ _ _ _ _ _ G).
    rewrite <- (TensorFacts.map_nth_seq (gspts g) []) at 1. rewrite (spts_length _ _ _ _ _ _ _ _ G).
    apply map_ext_in. intros k Hk. apply in_seq in Hk. apply (spts_nth _ _ _ _ _ _ _ _ G). lia.
  - intros i Hi. apply density_pos; auto. destruct Hv as [H1 H2]. rewrite Forall_forall in H2. apply H2, nth_In. lia.
Qed.

Lemma seg_usable eps D rows ids B cs g :
  mk_grid GPU eps (seg D rows ids B) cs = Ok g -> 2 <= D -> (0 < eps)%Q -> valid_sizes D cs ->
  length rows = length ids -> Forall (fun p => length p = D) rows -> Forall (fun b => b < B) ids ->
  (Z.of_nat (length ids) < 2 ^ 31 - 1)%Z -> (Z.of_nat B * product (gnc g) <= 2 ^ 31)%Z ->
  usable eps D rows ids B cs g.
Proof.
  intros Eg HD He Hv Hl Hr Hi H1 H2. constructor; auto.
  - eapply grid_new; [|exact Eg]. apply seg_cloud; auto.
  - now apply Qlt_le_weak.
  - left; exact He.
Qed.

Example C27_density_partial_ex_proof :
  exists g n, usable (1#1000) 2 exN_rows exN_ids 2 [1#1] g /\ radii_match 2 [1#1] [1#1] /\ valid_sizes 2 [1#1] /\
    snd (mk_nbh (find_neighbors_tf GPU) g [1#1] None 0) = Ok n /\ gsidx g = [4;5;3;2;0;1] /\
    Forall (fun x => (0 < x)%R) [2%R; (1/2)%R] /\
    map (close_points 2 [1#1;1#1] exN_rows exN_ids) (seq 0 6) = [[0;1];[0;1];[2];[3];[4;5];[4;5]] /\
    density 2 [2%R; (1/2)%R] [1#1;1#1] exN_rows exN_ids 2 = (/ (2 * PI))%R.
Proof.
  destruct exN_usable as (g & Hu & Hr & Eg). exists g. eexists. split; [exact Hu|]. split; [exact Hr|].
  split; [split; [reflexivity|repeat constructor]|].
  vm_compute in Eg. inversion Eg; subst g. clear.
  split; [vm_compute; reflexivity|]. split; [reflexivity|]. split; [repeat constructor; lra|]. split; [vm_compute; reflexivity|].
  unfold density. replace (close_points 2 [1#1;1#1] exN_rows exN_ids 2) with [2] by (vm_compute; reflexivity).
  unfold sum_over, product_over, kernel, product_over. cbn [seq map fold_right nth exN_rows].
  rewrite !Rminus_eq_0. unfold Rdiv. rewrite !Rmult_0_l. unfold std_normal. rewrite Rmult_0_l, Ropp_0. unfold Rdiv. rewrite Rmult_0_l, exp_0.
  rewrite !Rmult_1_l, !Rmult_1_r, Rplus_0_r.
  assert (P : (0 < 2 * PI)%R) by (pose proof PI_RGT_0; lra).
  rewrite <- Rinv_mult, sqrt_sqrt by lra. field. apply Rgt_not_eq, PI_RGT_0.
Qed.

(** C27: reordering and translating the points only reorders the densities. *)
Lemma C27_invariant_partial_proof :
  forall dev eps D rows ids B cs g n rows' ids' B' cs' g' n' s t radii max_neighbors bw mode v v',
    usable eps D rows ids B cs g -> usable eps D rows' ids' B' cs' g' ->
    radii_match D radii cs -> radii_match D radii cs' -> valid_sizes D radii -> ids <> [] ->
    snd (mk_nbh (find_neighbors_tf GPU) g radii None max_neighbors) = Ok n ->
    snd (mk_nbh (find_neighbors_tf GPU) g' radii None max_neighbors) = Ok n' ->
    length bw = D -> Forall (fun x => (0 < x)%R) bw ->
    moved_copy D s t rows ids rows' ids' ->
    compute_pdf_tf dev n bw mode = Ok v -> compute_pdf_tf dev n' bw mode = Ok v' ->
    forall k k', k < length ids -> k' < length ids ->
      nth (nth k' (gsidx g') 0) s 0 = nth k (gsidx g) 0 -> nth k' v' 0%R = nth k v 0%R.
Proof.
  intros dev eps D rows ids B cs g n rows' ids' B' cs' g' n' s t radii mx bw mode v v' Hu Hu' Hr Hr' Hv Hne E E' Hbw Hbp M Ev Ev'
    k k' Hk Hk' Hkk.
  assert (Li : length ids' = length ids).
  { destruct M as (P & -> & _). rewrite map_length, (Permutation_length P). apply seq_length. }
  assert (Hne' : ids' <> []) by (intros ->; apply Hne, length_zero_iff_nil; now rewrite <- Li).
  rewrite (kde_self dev eps D rows ids B cs g radii mx n bw mode Hu Hr Hv E Hne Hbw Hbp) in Ev. injection Ev as <-.
  rewrite (kde_self dev eps D rows' ids' B' cs' g' radii mx n' bw mode Hu' Hr' Hv E' Hne' Hbw Hbp) in Ev'. injection Ev' as <-.
  pose proof (grid_for_is _ _ _ _ _ _ _ _ (us_sizes _ _ _ _ _ _ _ Hu) (us_grid _ _ _ _ _ _ _ Hu)) as G.
  pose proof (grid_for_is _ _ _ _ _ _ _ _ (us_sizes _ _ _ _ _ _ _ Hu') (us_grid _ _ _ _ _ _ _ Hu')) as G'.
  set (f := density D bw (all_dims D radii) rows ids). set (f' := density D bw (all_dims D radii) rows' ids').
  rewrite (nth_indep (map f (gsidx g)) 0%R (f 0)) by (rewrite map_length, (sidx_length _ _ _ _ _ _ _ _ G); lia).
  rewrite (nth_indep (map f' (gsidx g')) 0%R (f' 0)) by (rewrite map_length, (sidx_length _ _ _ _ _ _ _ _ G'); lia).
  rewrite !map_nth. rewrite <- Hkk. unfold f, f'. apply (density_moved _ _ t _ _ _ _ _ _ _ M).
  rewrite <- Li. apply (sidx_lt _ _ _ _ _ _ _ _ G'). lia.
Qed.

Definition exP_rows : list point := [[19#10;-1#10];[3#2;-1#2];[1#1;-1#1];[4#1;2#1];[7#2;-1#1];[3#2;-1#2]].

Example C27_invariant_partial_ex_proof :
  exists g g' n n', usable (1#1000) 2 exN_rows exN_ids 2 [1#1] g /\ usable (1#1000) 2 exP_rows [1;1;0;0;0;0] 3 [1#1] g' /\
    snd (mk_nbh (find_neighbors_tf GPU) g [1#1] None 0) = Ok n /\
    snd (mk_nbh (find_neighbors_tf GPU) g' [1#1] None 0) = Ok n' /\
    moved_copy 2 [5;4;0;3;2;1] (fun d => match d with O => 1%Q | S _ => (-1)%Q end) exN_rows exN_ids exP_rows [1;1;0;0;0;0] /\
    gsidx g = [4;5;3;2;0;1] /\ gsidx g' = [0;1;3;4;2;5].
Proof.
  destruct exN_usable as (g & Hu & Hr & Eg).
  destruct (mk_grid GPU (1#1000) (seg 2 exP_rows [1;1;0;0;0;0] 3) [1#1]) as [g'|] eqn:Eg'; [|vm_compute in Eg'; discriminate].
  exists g, g'. do 2 eexists. split; [exact Hu|]. split.
  { apply seg_usable; [exact Eg'|lia|reflexivity|split; [reflexivity|repeat constructor]|reflexivity|repeat constructor|repeat constructor|cbn; lia|].
    vm_compute in Eg'. inversion Eg'; subst g'. vm_compute. discriminate. }
  vm_compute in Eg, Eg'. inversion Eg; subst g. inversion Eg'; subst g'. clear.
  split; [vm_compute; reflexivity|]. split; [vm_compute; reflexivity|]. split; [|split; reflexivity].
  split; [|split; [reflexivity|]].
  - apply NoDup_Permutation; [repeat constructor; cbn; lia|apply seq_NoDup|]. intros x. cbn. lia.
  - intros k d Hk Hd. cbn in Hk. do 6 (destruct k as [|k]; [do 2 (destruct d as [|d]; [reflexivity|]); lia|]). lia.
Qed.

(** C27: the function density_estimation never returns an estimate. *)
Lemma C27_function_refuted_proof :
  forall dev eps search p bw scaling mode normalize, mode <> KNoPdf ->
    exists e, density_estimation dev eps search p bw scaling mode normalize = Err e.
Proof.
  intros dev eps search p bw scaling mode normalize Hm. unfold density_estimation.
  destruct mode; [| |congruence]; (destruct (mk_grid dev eps p (bcast (dim p) scaling)) as [g|e]; [|now exists e]);
    cbn [bind]; destruct (snd (compute_neighborhoods search g _ _ _ _)) as [x|e]; cbn [bind]; eauto.
Qed.

(** * C28 *)
Definition pdf_value (D : nat) (radii : list Q) rows ids (n : nbh) (a : list R * kde_mode * bool) : list R :=
  map (row_density D (all_dims D radii) rows ids (norig n) (fst (fst a)) (snd (fst a)) (snd a)) (norig n).

Lemma to_original_snd g nbs : map snd (map (to_original g) nbs) = map snd nbs.
Proof. rewrite map_map. reflexivity. Qed.
Lemma count_original g nbs c : length (filter (fun q' => Nat.eqb (snd q') c) (map (to_original g) nbs))
  = length (filter (fun q' => Nat.eqb (snd q') c) nbs).
Proof. induction nbs as [|q nbs IH]; [reflexivity|]. cbn. destruct (snd q =? c); cbn; now rewrite IH. Qed.

Lemma segment_ones (ids : list nat) c : rsum (segment c (repeat 1%R (length ids)) ids) = INR (length (filter (fun i => Nat.eqb i c) ids)).
Proof.
  unfold segment. induction ids as [|i ids IH]; [reflexivity|]. cbn [length repeat combine filter snd].
  destruct (i =? c); cbn [map fst length]; [|exact IH]. rewrite S_INR, <- IH. unfold rsum. cbn. lra.
Qed.

Section C28.
  Variables (dev : device) (eps : Q) (D : nat) (rows : list point) (ids : list nat) (B : nat) (cs : list Q) (g : grid).
  Variables (ceps : Q) (crows : list point) (cids : list nat) (CB : nat) (cp : pc) (radii : list Q) (mx : nat) (sample : option pc) (n : nbh).
  Hypothesis Hu : usable eps D rows ids B cs g.
  Hypothesis Hr : radii_match D radii cs.
  Hypothesis Hv : valid_sizes D radii.
  Hypothesis Hne : ids <> [].
  Hypothesis Hs : sample = None \/
    sample = Some cp /\ cloud GPU ceps D crows cids CB cp /\ cids <> [] /\ Forall (fun b => b < B) cids.
  Hypothesis E : snd (mk_nbh (find_neighbors_tf GPU) g radii sample mx) = Ok n.

  Lemma nbh_facts :
    nradii n = all_dims D radii /\ dim (nsampled n) = D /\ gsidx (ngrid n) = gsidx g /\
    norig n = map (to_original g) (nnbs n) /\ usable eps D rows ids B cs (ngrid n) /\
    nequal n = (match sample with None => true | Some _ => false end) /\
    Forall (fun q => fst q < length ids /\ snd q < length (pts (nsampled n))) (nnbs n).
  Proof using Hu Hr Hv Hne Hs E.
    pose proof (us_sizes _ _ _ _ _ _ _ Hu) as Hvs.
    pose proof (grid_for_is _ _ _ _ _ _ _ _ Hvs (us_grid _ _ _ _ _ _ _ Hu)) as G.
    pose proof (sbids_length _ _ _ _ _ _ _ _ G) as Lb.
    assert (HH : exists eps' rows' ids' CB' p', cloud GPU eps' D rows' ids' CB' p' /\ ids' <> [] /\ Forall (fun b => b < B) ids' /\
      (sample = Some p' \/ sample = None /\ sorted_cloud g = Ok p')).
    { destruct Hs as [-> | (-> & Hc & Hc1 & Hc2)].
      - destruct (sorted_cloud_ok _ _ _ _ _ _ _ _ G) as (p & Ep & Ep' & Hp'). specialize (Hp' GPU eps).
        pose proof (cloud_is _ _ _ _ _ _ _ Hp') as Hpi.
        exists eps, (gspts g), (gsbids g), B, p. split; [exact Hp'|]. split; [|split; [apply Hpi|now right]].
        intros E'; apply Hne, length_zero_iff_nil; rewrite <- Lb, E'; reflexivity.
      - exists ceps, crows, cids, CB, cp. auto. }
    destruct HH as (eps' & rows' & ids' & CB' & p' & Hc & Hc1 & Hc2 & Hs').
    destruct (mk_nbh_tf eps D rows ids B cs g eps' rows' ids' CB' p' radii mx sample Hu Hc Hc1 Hc2 Hr Hs')
      as (n' & E' & Eg & Es & Eq & Er & N1 & N2 & N3 & _).
    rewrite E in E'. injection E' as <-.
    pose proof (find_tf_same GPU g p' radii mx) as Hsame. cbv zeta in Hsame. rewrite <- Eg in Hsame.
    destruct Hsame as (_ & _ & T0 & T1 & _ & T2 & _ & T3 & T4).
    pose proof (cloud_is _ _ _ _ _ _ _ Hc) as Hci.
    split; [exact Er|]. split; [rewrite Es; apply Hci|]. split; [exact T2|]. split; [exact N2|]. split; [|split].
    - destruct Hu as [U1 U2 U3 U4 U5 U6 U7]. constructor; auto.
      + rewrite Eg. now apply find_tf_grid_for.
      + assert (Enc : gnc (ngrid n) = gnc g) by first [exact T1|exact T0|exact T3|exact T4]. now rewrite Enc.
    - exact Eq.
    - apply Forall_forall. intros [j i] H. apply N3 in H as (H1 & H2 & _). rewrite Lb in H1. cbn. split; [exact H1|].
      rewrite Es, (ic_pts _ _ _ _ _ _ _ Hci), (ic_len _ _ _ _ _ _ _ Hci). exact H2.
  Qed.

  Lemma self_density bw mode : length (all_axes D bw) = D -> Forall (fun x => (0 < x)%R) (all_axes D bw) ->
    exists m, (if nequal n then Ok n else snd (mk_nbh (find_neighbors_tf GPU) (ngrid n) (nradii n) None 0)) = Ok m /\
      compute_pdf_tf dev m (all_axes D bw) mode = Ok (map (density D (all_axes D bw) (all_dims D radii) rows ids) (gsidx g)).
  Proof using Hu Hr Hv Hne Hs E.
    intros Hb1 Hb2. destruct nbh_facts as (F1 & F2 & F3 & F4 & F5 & F6 & F7). rewrite F6.
    pose proof (us_sizes _ _ _ _ _ _ _ Hu) as Hvs.
    destruct Hs as [E0 | (E0 & Hc & Hc1 & Hc2)]; rewrite E0 in *.
    { exists n. split; [reflexivity|]. eapply kde_self; eauto. }
    rewrite F1, <- F3.
    pose proof (grid_for_is _ _ _ _ _ _ _ _ Hvs (us_grid _ _ _ _ _ _ _ F5)) as G5.
    pose proof (sbids_length _ _ _ _ _ _ _ _ G5) as Lb5.
    destruct (sorted_cloud_ok _ _ _ _ _ _ _ _ G5) as (p & Ep & Ep' & Hp'). specialize (Hp' GPU eps).
    pose proof (cloud_is _ _ _ _ _ _ _ Hp') as Hpi.
    assert (Hne5 : gsbids (ngrid n) <> []) by (intros E5; apply Hne, length_zero_iff_nil; rewrite <- Lb5, E5; reflexivity).
    assert (Ebb : all_dims D (all_dims D radii) = all_dims D radii) by (apply (bcast_bcast D radii)).
    assert (Hr5 : radii_match D (all_dims D radii) cs) by (unfold radii_match in *; rewrite Ebb; exact Hr).
    assert (Hv5 : valid_sizes D (all_dims D radii)) by (unfold valid_sizes in *; rewrite Ebb; exact Hv).
    destruct (mk_nbh_tf eps D rows ids B cs (ngrid n) eps (gspts (ngrid n)) (gsbids (ngrid n)) B p (all_dims D radii) 0 None F5 Hp' Hne5
       (ic_ids _ _ _ _ _ _ _ Hpi) Hr5 (or_intror (conj eq_refl Ep))) as (m & Em & _).
    exists m. split; [exact Em|].
    rewrite (kde_self dev eps D rows ids B cs (ngrid n) (all_dims D radii) 0 m (all_axes D bw) mode F5 Hr5 Hv5 Em Hne Hb1 Hb2).
    now rewrite Ebb.
  Qed.

  Lemma compute_pdf_ok c bw mode z : valid_bandwidth D bw ->
    compute_pdf dev (find_neighbors_tf GPU) (compute_pdf_tf dev) (DNbh n c) bw mode z
    = (DNbh n (Some (pdf_value D radii rows ids n (bw, mode, z))), Ok tt).
  Proof using Hu Hr Hv Hne Hs E.
    intros [Hb1 Hb2]. destruct nbh_facts as (F1 & F2 & F3 & F4 & F5 & F6 & F7).
    unfold compute_pdf. cbn [dn]. rewrite F2. change (rcast D bw) with (all_axes D bw).
    pose proof (us_sizes _ _ _ _ _ _ _ Hu) as Hvs.
    pose proof (grid_for_is _ _ _ _ _ _ _ _ Hvs (us_grid _ _ _ _ _ _ _ Hu)) as G.
    set (val := fun q : nat * nat => match mode with KNoPdf => 1%R | _ => density D (all_axes D bw) (all_dims D radii) rows ids (fst q) end).
    set (gather_pdf := m <- (if nequal n then Ok n else snd (mk_nbh (find_neighbors_tf GPU) (ngrid n) (nradii n) None 0)) ;;
                       pdf <- compute_pdf_tf dev m (all_axes D bw) mode ;; gather pdf (map fst (nnbs n))).
    match goal with |- context [match ?r with Ok _ => _ | Err _ => _ end] =>
      assert (Epdf : r = Ok (map val (norig n))) end.
    { assert (Em : gather_pdf = Ok (map (fun q => density D (all_axes D bw) (all_dims D radii) rows ids (fst q)) (norig n))).
      { unfold gather_pdf. destruct (self_density bw mode Hb1 Hb2) as (m & Em1 & Em2). rewrite Em1. cbn [bind]. rewrite Em2. cbn [bind].
        rewrite (gather_map _ _ 0%R).
        2:{ rewrite map_length, (sidx_length _ _ _ _ _ _ _ _ G). apply Forall_map. eapply Forall_impl; [|exact F7]. cbv beta. tauto. }
        f_equal. rewrite F4, !map_map. apply map_ext_in. intros q Hq.
        rewrite Forall_forall in F7. destruct (F7 q Hq) as [Q1 Q2]. unfold to_original. cbn [fst].
        set (f := density D (all_axes D bw) (all_dims D radii) rows ids).
        rewrite (nth_indep (map f (gsidx g)) 0%R (f 0)) by (rewrite map_length, (sidx_length _ _ _ _ _ _ _ _ G); exact Q1).
        apply map_nth. }
      unfold val. destruct mode; [exact Em|exact Em|].
      f_equal. rewrite F4, map_map. now rewrite repeat_map_const. }
    rewrite Epdf. destruct z.
    - rewrite map_length. rewrite useg_ok.
      + cbn [bind]. rewrite (gather_map _ _ 0%R).
        2:{ rewrite map_length, seq_length. apply Forall_map. eapply Forall_impl; [|exact F7]. cbv beta. tauto. }
        cbn [bind]. unfold pdf_value. cbn [fst snd]. rewrite F4, !map_map, combine_maps, map_map. do 3 f_equal.
        apply map_ext_in. intros q Hq. cbn [fst snd].
        unfold row_density. change (snd (to_original g q)) with (snd q). f_equal.
        rewrite Forall_forall in F7. destruct (F7 q Hq) as [Q1 Q2]. rewrite nth_map_seq by exact Q2.
        replace (length (map (to_original g) (nnbs n))) with (length (map snd (nnbs n))) by (rewrite !map_length; reflexivity).
        rewrite segment_ones. f_equal. rewrite count_original.
        clear. induction (nnbs n) as [|a l IH]; [reflexivity|]. cbn. destruct (snd a =? snd q); cbn; now rewrite IH.
      + rewrite repeat_length, F4, !map_length. reflexivity.
      + apply Forall_map. eapply Forall_impl; [|exact F7]. cbv beta. tauto.
    - do 3 f_equal. unfold pdf_value. cbn [fst snd]. apply map_ext. intros q. unfold row_density. change (val q) with
        (match mode with KNoPdf => 1%R | _ => density D (all_axes D bw) (all_dims D radii) rows ids (fst q) end). field.
  Qed.

  Lemma run_ok calls : Forall (fun c => valid_bandwidth D (call_bw c)) calls ->
    pdf_run dev (find_neighbors_tf GPU) (compute_pdf_tf dev) (DNbh n None) calls
    = DNbh n (option_map (pdf_value D radii rows ids n) (effective calls)).
  Proof using Hu Hr Hv Hne Hs E.
    unfold pdf_run, effective. intros HF. change (DNbh n None) with (DNbh n (option_map (pdf_value D radii rows ids n) None)).
    generalize (@None (list R * kde_mode * bool)) as s. induction HF as [|c calls Hc HF IH]; intros s; [reflexivity|].
    cbn [fold_left]. rewrite <- IH. f_equal. destruct c as [b m z|b m z]; cbn [call_bw] in Hc.
    - cbn [pdf_step]. now rewrite compute_pdf_ok.
    - cbn [pdf_step]. unfold get_pdf. destruct s as [a|]; cbn [option_map dpdf]; [reflexivity|].
      rewrite compute_pdf_ok by exact Hc. reflexivity.
  Qed.
End C28.

(** C28: after any sequence of compute_pdf/get_pdf calls, get_pdf gives for
    every row of the neighbor list the density of its point (divided by the
    number of neighbors of its center if requested), for the arguments of the
    last compute_pdf, or of the first get_pdf if there was no compute_pdf
    before it. *)
Lemma C28_get_pdf_partial_proof :
  forall dev eps D rows ids B cs g ceps crows cids CB cp radii max_neighbors sample n calls bw mode normalize,
    usable eps D rows ids B cs g -> radii_match D radii cs -> valid_sizes D radii -> ids <> [] ->
    (sample = None \/
     sample = Some cp /\ cloud GPU ceps D crows cids CB cp /\ cids <> [] /\ Forall (fun b => b < B) cids) ->
    snd (mk_nbh (find_neighbors_tf GPU) g radii sample max_neighbors) = Ok n ->
    Forall (fun c => valid_bandwidth D (call_bw c)) calls -> valid_bandwidth D bw ->
    let search := find_neighbors_tf GPU in let kde := compute_pdf_tf dev in
    let value := fun a => map (row_density D (all_dims D radii) rows ids (norig n) (fst (fst a)) (snd (fst a)) (snd a)) (norig n) in
    snd (get_pdf dev search kde (pdf_run dev search kde (DNbh n None) calls) bw mode normalize)
    = Ok (value (match effective calls with Some a => a | None => (bw, mode, normalize) end)).
Proof.
  intros dev eps D rows ids B cs g ceps crows cids CB cp radii mx sample n calls bw mode z Hu Hr Hv Hne Hs E HF Hb. cbv zeta.
  erewrite run_ok by eauto. unfold get_pdf. destruct (effective calls) as [a|]; cbn [option_map dpdf]; [reflexivity|].
  erewrite compute_pdf_ok by eauto. reflexivity.
Qed.

Example C28_get_pdf_partial_ex_proof :
  exists g n, usable (1#1000) 2 exN_rows exN_ids 2 [1#1] g /\ radii_match 2 [1#1] [1#1] /\ valid_sizes 2 [1#1] /\
    snd (mk_nbh (find_neighbors_tf GPU) g [1#1] (Some (seg 2 exN_centers exN_cids 2)) 0) = Ok n /\
    norig n = [(0,0);(1,1);(4,4)] /\ valid_bandwidth 2 [(1/5)%R] /\
    effective [PGet [1%R] KConstant true; PGet [2%R] KConstant false] = Some ([1%R], KConstant, true) /\
    effective [PGet [1%R] KConstant true; PCompute [2%R] KNoPdf false; PGet [3%R] KConstant true] = Some ([2%R], KNoPdf, false).
Proof.
  destruct exN_usable as (g & Hu & Hr & Eg). exists g. eexists. split; [exact Hu|]. split; [exact Hr|].
  split; [split; [reflexivity|repeat constructor]|].
  vm_compute in Eg. inversion Eg; subst g. clear.
  split; [vm_compute; reflexivity|]. split; [reflexivity|]. split; [split; [reflexivity|repeat constructor; lra]|]. split; reflexivity.
Qed.


(** C28: the two functions outside of the class never return a density. *)
Lemma C28_function_refuted_proof :
  forall dev eps search p nbs bw scaling mode normalize, mode <> KNoPdf ->
    exists e, density_estimation_in_neighborhoods dev eps search p nbs bw scaling mode normalize = Err e.
Proof.
  intros dev eps search p nbs bw scaling mode z Hm. unfold density_estimation_in_neighborhoods.
  destruct (C27_function_refuted_proof dev eps search p (rcast (dim p) bw) (bcast (dim p) scaling) mode false Hm) as [e He].
  exists e. destruct mode; [| |congruence]; rewrite He; reflexivity.
Qed.

(** C27: without a density (KDEMode.no_pdf) every point has the value one,
    divided by the number of points on request. *)
Lemma C27_no_pdf_proof :
  forall dev eps search p bw scaling normalize,
    density_estimation dev eps search p bw scaling KNoPdf normalize
    = Ok (map (fun _ => if normalize then (1 / INR (length (pts p)))%R else 1%R) (seq 0 (length (pts p)))).
Proof.
  intros dev eps search p bw scaling z. unfold density_estimation. cbn [bind].
  assert (E : forall (x : R) n k, repeat x n = map (fun _ => x) (seq k n)).
  { intros x n. induction n as [|n IH]; intros k; cbn; [reflexivity|]. now rewrite (IH (S k)). }
  destruct z; rewrite (E _ _ 0); [now rewrite map_map|reflexivity].
Qed.
Example C27_no_pdf_ex_proof :
  density_estimation GPU (1#1000) (find_neighbors_tf GPU) (seg 2 exN_rows exN_ids 2) [1%R] [1#1] KNoPdf true = Ok (repeat (1 / 6)%R 6).
Proof. rewrite C27_no_pdf_proof. cbn. replace (1 + 1 + 1 + 1 + 1 + 1)%R with 6%R by lra. reflexivity. Qed.

(** C28: likewise for a neighbor list ordered by centers: one, divided by the
    number of neighbors of the center on request. *)
Lemma C28_no_pdf_proof :
  forall dev eps search p nbs bw scaling normalize, Sorted le (map snd nbs) ->
    density_estimation_in_neighborhoods dev eps search p nbs bw scaling KNoPdf normalize
    = Ok (map (fun q => if normalize then (1 / INR (count_occ Nat.eq_dec (map snd nbs) (snd q)))%R else 1%R) nbs).
Proof.
  intros dev eps search p nbs bw scaling z Hs. unfold density_estimation_in_neighborhoods. cbn [bind].
  assert (E : repeat 1%R (length nbs) = map (fun _ => 1%R) nbs) by (clear; induction nbs; cbn; congruence).
  destruct z; [|now rewrite E]. rewrite repeat_length.
  set (ids := map snd nbs) in *. assert (Hl : length ids = length nbs) by apply map_length.
  unfold segment_sum. rewrite repeat_length, Hl, Nat.eqb_refl. cbn [negb].
  assert (Hc : forallb (fun q => fst q <=? snd q) (combine ids (tl ids)) = true).
  { clear -Hs. induction Hs as [|a l Hl IH Hd]; [reflexivity|]. destruct l as [|b l]; [reflexivity|]. cbn [tl combine forallb fst snd].
    inversion Hd; subst. apply andb_true_intro. split; [now apply Nat.leb_le|exact IH]. }
  rewrite Hc. cbn [negb bind].
  assert (Hlast : Forall (fun i => i <= last ids 0) ids).
  { clear -Hs. apply Sorted_StronglySorted in Hs; [|intros a b c; lia]. induction Hs as [|a l Hl IH HF]; [constructor|].
    destruct l as [|b l]; [repeat constructor|]. change (last (a :: b :: l) 0) with (last (b :: l) 0). constructor; [|exact IH].
    inversion IH; subst. inversion HF; subst. lia. }
  assert (Hrep : forall s l, rsum (segment s (repeat 1%R (length l)) l) = INR (count_occ Nat.eq_dec l s)).
  { intros s l. rewrite segment_ones. f_equal. induction l as [|a l IH]; [reflexivity|]. cbn [filter count_occ].
    destruct (Nat.eqb_spec a s), (Nat.eq_dec a s); try contradiction; cbn [length]; now rewrite IH. }
  assert (Hg : gather (match ids with [] => [] | _ => map (fun s => rsum (segment s (repeat 1%R (length nbs)) ids)) (seq 0 (S (last ids 0))) end) ids
     = Ok (map (fun i => INR (count_occ Nat.eq_dec ids i)) ids)).
  { destruct ids as [|i0 r0] eqn:Ei; [reflexivity|]. rewrite <- Ei in *. rewrite <- Hl. rewrite (gather_map _ _ 0%R).
    - f_equal. apply map_ext_in. intros i Hi. rewrite Forall_forall in Hlast. specialize (Hlast i Hi).
      rewrite nth_map_seq by lia. apply Hrep.
    - rewrite map_length, seq_length. eapply Forall_impl; [|exact Hlast]. cbn. intros; lia. }
  rewrite Hg. cbn [bind]. f_equal. unfold ids. rewrite E, map_map. clear. generalize (map snd nbs) at 1 2. intros ids0.
  induction nbs as [|q nbs IH]; cbn; [reflexivity|]. now rewrite IH.
Qed.
Example C28_no_pdf_ex_proof :
  density_estimation_in_neighborhoods GPU (1#1000) (find_neighbors_tf GPU) (seg 2 exN_rows exN_ids 2) [(0,0);(1,0);(3,2)] [1%R] [1#1] KNoPdf true
  = Ok [(1 / 2)%R; (1 / 2)%R; (1 / 1)%R].
Proof. rewrite C28_no_pdf_proof; [reflexivity|]. repeat constructor. Qed.

(** C29: the value for a row of the neighbor list is the kernel sum over the
    rows of the same center. *)
Lemma C29_inside_partial_proof :
  forall dev n D M bw mode,
    rshape (nranges n) = [M] -> 0 < M -> delimits (rdata (nranges n)) (nnbs n) M ->
    dim (gcloud (ngrid n)) = D -> Forall (fun q => fst q < length (gspts (ngrid n))) (nnbs n) ->
    length bw = D -> length (nradii n) = D ->
    let pt := fun q : nat * nat => nth (fst q) (gspts (ngrid n)) [] in
    compute_pdf_inside dev n bw mode = Ok (map (fun q =>
      (fold_right Rplus 0 (map (fun q' => kernel D bw (nradii n) (pt q) (pt q'))
         (filter (fun q' => Nat.eqb (snd q') (snd q)) (nnbs n))) / product_over (seq 0 D) (fun d => nth d bw 0))%R) (nnbs n)).
Proof. intros. rewrite (inside_ok n D M bw) by assumption. now rewrite (rprod_nth bw D) by assumption. Qed.

Example C29_inside_partial_ex_proof :
  exists g n, mk_grid GPU (1#1000) (seg 2 exN_rows exN_ids 2) [1#1] = Ok g /\
    snd (mk_nbh (find_neighbors_tf GPU) g [1#1] None 0) = Ok n /\
    rshape (nranges n) = [6] /\ delimits (rdata (nranges n)) (nnbs n) 6 /\ dim (gcloud (ngrid n)) = 2 /\
    Forall (fun q => fst q < length (gspts (ngrid n))) (nnbs n) /\ length (nradii n) = 2 /\
    nnbs n = [(0,0);(1,0);(0,1);(1,1);(2,2);(3,3);(4,4);(5,4);(4,5);(5,5)].
Proof.
  destruct exN_usable as (g & Hu & Hr & Eg). exists g.
  destruct (snd (mk_nbh (find_neighbors_tf GPU) g [1#1] None 0)) as [n|] eqn:En;
    [|vm_compute in Eg; inversion Eg; subst g; vm_compute in En; discriminate].
  exists n. split; [exact Eg|]. split; [reflexivity|].
  destruct (self_nbh _ _ _ _ _ _ _ _ _ _ Hu Hr En ltac:(discriminate)) as (_ & _ & _ & _ & _ & _ & _ & _ & _ & _ & Hd & Hs).
  split; [exact Hs|]. split; [exact Hd|].
  vm_compute in Eg. inversion Eg; subst g. clear -En. vm_compute in En. inversion En; subst n. clear.
  split; [reflexivity|]. split; [repeat constructor|]. split; reflexivity.
Qed.


(** C29: with a single center the ranges of the search are a scalar and the
    op fails. *)
Lemma C29_single_center_refuted_proof :
  forall dev n bw mode, rshape (nranges n) = [] -> exists e, compute_pdf_inside dev n bw mode = Err e.
Proof. intros dev n bw mode H. unfold compute_pdf_inside. rewrite H. now eexists. Qed.
