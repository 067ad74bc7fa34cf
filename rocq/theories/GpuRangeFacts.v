(** The ranges of sorted points that the CUDA neighbor search visits. *)
From Coq Require Import List Arith ZArith Lia Bool Permutation.
From Verif Require Import Tensor TensorFacts PointCloud Grid GridFacts Cuda CudaFacts GpuGrid GpuGridFacts GpuNeighbors.
Import ListNotations.
Local Open Scope Z_scope.

Lemma radix_snoc nc cs n z : length cs = length nc -> radix (nc ++ [n]) (cs ++ [z]) = radix nc cs * n + z.
Proof.
  revert cs. induction nc as [|m nc IH]; intros [|c cs] L; try discriminate; cbn [app radix].
  - change (zprod []) with 1. lia.
  - rewrite IH by (cbn in L; lia). assert (E : zprod (nc ++ [n]) = zprod nc * n).
    { clear. induction nc as [|m nc IH]; cbn [app]; [rewrite zprod_cons; change (zprod []) with 1; lia|]. rewrite !zprod_cons, IH. lia. }
    rewrite E. lia.
Qed.

Lemma rdz_nth l i : 0 <= i < Z.of_nat (length l) -> rdz i l = Some (nth (Z.to_nat i) l 0).
Proof. intros H. unfold rdz, rd. destruct (Z.ltb_spec i 0); [lia|]. apply nth_error_nth'. lia. Qed.

Lemma bsearch_ok keys base up fuel x y : 0 <= x <= y -> y - x <= Z.of_nat fuel + 1 ->
  (forall p, x <= p <= y -> 0 <= p + base < Z.of_nat (length keys)) ->
  exists x' y', bsearch fuel keys base up x y = Some (x', y') /\ x <= x' /\ x' <= y' <= y /\ y' - x' <= 1 /\
    (x' = x \/ up (nth (Z.to_nat (x' + base)) keys 0) = true) /\ (y' = y \/ up (nth (Z.to_nat (y' + base)) keys 0) = false).
Proof.
  revert x y. induction fuel as [|f IH]; intros x y Hxy Hf Hr; cbn [bsearch].
  - destruct (Z.leb_spec (y - x) 1); [|lia]. exists x, y. repeat split; auto; lia.
  - destruct (Z.leb_spec (y - x) 1) as [|H1].
    { exists x, y. repeat split; auto; lia. }
    assert (Hp : x < Z.quot (y + x) 2 < y).
    { rewrite Z.quot_div_nonneg by lia. pose proof (Z.div_mod (y + x) 2 ltac:(lia)). pose proof (Z.mod_pos_bound (y + x) 2). lia. }
    set (p := Z.quot (y + x) 2) in *. rewrite rdz_nth by (apply Hr; lia). cbn [obind].
    destruct (up (nth (Z.to_nat (p + base)) keys 0)) eqn:E.
    + destruct (IH p y) as (x' & y' & Q & ? & ? & ? & Cx & Cy); try lia. { intros q Hq. apply Hr. lia. }
      exists x', y'. split; [exact Q|]. do 3 (split; [lia|]). split; [|auto]. destruct Cx as [->|]; auto.
    + destruct (IH x p) as (x' & y' & Q & ? & ? & ? & Cx & Cy); try lia. { intros q Hq. apply Hr. lia. }
      exists x', y'. split; [exact Q|]. do 3 (split; [lia|]). split; [auto|]. destruct Cy as [->|]; auto.
Qed.

(** [ds] gives for every entry the range of the points it stands for. *)
Definition ds_ok (f : nat -> Z) (n : nat) (S : Z) (ds : list (Z * Z)) : Prop :=
  forall d, 0 <= d < S -> exists s e, rdz d ds = Some (s, e) /\ 0 <= s <= e /\ e <= Z.of_nat n /\
    forall j, (j < n)%nat -> (s <= Z.of_nat j < e <-> f j = d).

(** Sum of two lists of coordinates. *)
Definition shifted (a off : list Z) : list Z := map (fun q => fst q + snd q) (combine a off).
Lemma shifted_length a off : length off = length a -> length (shifted a off) = length a.
Proof. intros L. unfold shifted. rewrite map_length, combine_length. lia. Qed.
Lemma shifted_nth a off d : length off = length a -> nth d (shifted a off) 0 = nth d a 0 + nth d off 0.
Proof.
  revert off d. induction a as [|x a IH]; intros [|y off] [|d] L; cbn in *; auto; try discriminate. apply IH. lia.
Qed.
Lemma in_cells_nth nc c : in_cells nc c <-> length c = length nc /\ forall d, (d < length nc)%nat -> 0 <= nth d c 0 < nth d nc 0.
Proof.
  split.
  - intros H. induction H as [|n x nc c Hx H IH]; [split; auto; cbn; lia|]. destruct IH as [L IH]. split; [cbn; lia|].
    intros [|d] Hd; cbn in *; [lia|]. apply IH. lia.
  - revert c. induction nc as [|n nc IH]; intros [|x c] [L H]; try discriminate; constructor.
    + apply (H 0%nat). cbn. lia.
    + apply IH. split; [cbn in L; lia|]. intros d Hd. apply (H (S d)). cbn. lia.
Qed.

Section Ranges.
  Variables (n0 n1 : Z) (rest : list Z) (keys : list Z) (B : Z) (ds : list (Z * Z)).
  Let nc := n0 :: n1 :: rest.
  Let D := length nc.
  Let n := length keys.
  Let f j := gpu_ds_of_key nc (nth j keys 0).
  Hypothesis Hnc : forall x, In x nc -> 1 <= x.
  Hypothesis Hkey : forall j, (j < n)%nat -> 0 <= nth j keys 0 < B * zprod nc.
  Hypothesis Hsort : forall j k, (j < k)%nat -> (k < n)%nat -> nth k keys 0 <= nth j keys 0.
  Hypothesis Hds : ds_ok f n (B * n0 * n1) ds.

  (** Point [j] is in the range of offset [off] from cell [a] of element [b]. *)
  Definition ranged (b : Z) (a off : list Z) (j : nat) : Prop :=
    let c := shifted a off in
    in_cells nc c /\ f j = gpu_ds_of_cell nc b c /\ (D = 2%nat \/ Z.abs (nth j keys 0 - (b * zprod nc + radix nc c)) <= 1).

  Lemma search_range_ok b a off : 0 <= b < B -> in_cells nc a -> length off = D -> (D <> 2%nat -> nth (D - 1) off 0 = 0) ->
    exists o, search_range D nc keys ds off (b * zprod nc + radix nc a) = Some o /\
      let r := match o with None => (0, 0) | Some r => r end in
      0 <= fst r /\ snd r <= Z.of_nat n /\ forall j, (j < n)%nat -> (fst r <= Z.of_nat j < snd r <-> ranged b a off j).
  Proof.
    intros Hb Ha Lo Lz. unfold search_range. rewrite gpu_decode by (auto; lia).
    fold (shifted a off). set (c := shifted a off).
    assert (La : length a = D) by (unfold D; apply in_cells_nth in Ha; apply Ha).
    assert (Lc : length c = D) by (unfold c; rewrite shifted_length; lia).
    assert (P0 : 1 <= n0) by (apply Hnc; left; auto). assert (P1 : 1 <= n1) by (apply Hnc; right; left; auto).
    assert (PR : 1 <= zprod rest) by (apply zprod_pos; intros; apply Hnc; right; right; auto).
    assert (PN : 1 <= zprod nc) by (apply zprod_pos; auto).
    assert (D2 : (2 <= D)%nat) by (unfold D, nc; cbn; lia).
    assert (Chk : forallb (fun d => (0 <=? nth d c 0) && (nth d c 0 <? nth d nc 0)) (seq 0 (if Nat.eqb D 2 then D else (D - 1)%nat)) = true <-> in_cells nc c).
    { rewrite forallb_forall, in_cells_nth. fold D. split.
      - intros H. split; auto. intros d Hd.
        assert (E : In d (seq 0 (if Nat.eqb D 2 then D else (D - 1)%nat)) \/ (D <> 2%nat /\ d = (D - 1)%nat)).
        { destruct (Nat.eqb_spec D 2); rewrite in_seq; lia. }
        destruct E as [E|[N E]]; [specialize (H d E); lia|]. unfold c. rewrite shifted_nth by lia. subst d. rewrite (Lz N).
        apply in_cells_nth in Ha. destruct Ha as [_ Ha]. specialize (Ha (D - 1)%nat). fold D in Ha. lia.
      - intros [_ H] d Hd. assert (d < D)%nat by (destruct (Nat.eqb_spec D 2); apply in_seq in Hd; lia). specialize (H d). lia. }
    destruct (forallb _ _) eqn:Ec; cbn [negb].
    2:{ exists None. split; auto. cbn. split; [lia|]. split; [lia|]. intros j Hj. split; [lia|]. intros (H & _). fold c in H.
        apply Chk in H. discriminate. }
    pose proof (proj1 Chk eq_refl) as Hc. clear Chk Ec.
    assert (Hd : 0 <= gpu_ds_of_cell nc b c < B * n0 * n1 /\
                 b * zprod nc <= gpu_ds_of_cell nc b c * zprod rest /\ gpu_ds_of_cell nc b c * zprod rest + zprod rest <= b * zprod nc + zprod nc).
    { unfold gpu_ds_of_cell. apply in_cells_nth in Hc. destruct Hc as [_ Hc]. pose proof (Hc 0%nat ltac:(unfold nc; cbn; lia)) as C0.
      pose proof (Hc 1%nat ltac:(unfold nc; cbn; lia)) as C1. unfold nc in *. cbn [nth] in *. rewrite !zprod_cons.
      set (x := nth 0 c 0) in *. set (y := nth 1 c 0) in *. set (R := zprod rest) in *. clear -C0 C1 Hb P0 P1 PR.
      assert (E1 : 0 <= x * n1 + y < n0 * n1) by nia. assert (E2 : 0 <= b * n0 * n1) by nia. assert (E3 : b * n0 * n1 + n0 * n1 <= B * n0 * n1) by nia.
      split; [lia|]. split; [nia|]. nia. }
    destruct Hd as (Hd & Hd1 & Hd2). set (dd := gpu_ds_of_cell nc b c) in *.
    destruct (Hds dd Hd) as (s & e & Er & Hse & He & Hj). rewrite Er. cbn [obind fst snd].
    destruct (Nat.eqb_spec D 2) as [ED|ED].
    { exists (Some (s, e)). split; auto. cbn. split; [lia|]. split; [lia|]. intros j Hjn. rewrite Hj by auto. unfold ranged. fold c. tauto. }
    assert (Kd : forall j, (j < n)%nat -> f j = dd -> b * zprod nc <= nth j keys 0 < b * zprod nc + zprod nc).
    { intros j Hjn E. unfold f, gpu_ds_of_key in E. cbn [skipn] in E. unfold nc at 1 in E. cbn [skipn] in E. specialize (Hkey j Hjn).
      rewrite Z.quot_div_nonneg in E by lia. pose proof (Z.div_mod (nth j keys 0) (zprod rest) ltac:(lia)) as M. pose proof (Z.mod_pos_bound (nth j keys 0) (zprod rest)).
      rewrite E in M. lia. }
    destruct (Z.ltb_spec (e - s - 1) 0) as [Hn|Hn].
    { exists None. split; auto. cbn. split; [lia|]. split; [lia|]. intros j Hjn. split; [lia|]. intros (_ & H & _). fold c dd in H. apply Hj in H; auto. lia. }
    rewrite gpu_key_radix by auto. rewrite Z2Nat.id by lia.
    set (aux := b * zprod nc + radix nc c). pose proof (radix_range nc c Hc) as Rc.
    assert (Eq : Z.quot aux (zprod nc) = b).
    { unfold aux. assert (0 <= b * zprod nc) by nia. rewrite Z.quot_div_nonneg by lia. rewrite Z.div_add_l by lia. rewrite Z.div_small by lia. lia. }
    rewrite Eq. set (maxk := if b =? _ then aux + 1 else _). set (mink := if b =? _ then aux - 1 else _).
    assert (Kk : forall k, b * zprod nc <= k < b * zprod nc + zprod nc -> (mink <= k <= maxk <-> Z.abs (k - aux) <= 1)).
    { intros k Hk. assert (0 <= b * zprod nc) by nia.
      assert (M1 : maxk = aux + 1 \/ maxk = aux /\ aux = b * zprod nc + zprod nc - 1).
      { unfold maxk. destruct (Z.eqb_spec b (Z.quot (aux + 1) (zprod nc))) as [|E]; auto. right.
        assert (aux + 1 >= b * zprod nc + zprod nc).
        { destruct (Z_lt_le_dec (aux + 1) (b * zprod nc + zprod nc)); [|lia]. exfalso. apply E.
          rewrite Z.quot_div_nonneg by (unfold aux in *; lia). apply Z.div_unique with (r := aux + 1 - b * zprod nc); unfold aux in *; lia. }
        unfold aux in *. lia. }
      assert (M2 : mink = aux - 1 \/ mink = aux /\ aux = b * zprod nc).
      { unfold mink. destruct (Z.eqb_spec b (Z.quot (aux - 1) (zprod nc))) as [|E]; auto. right.
        assert (aux - 1 < b * zprod nc).
        { destruct (Z_lt_le_dec (aux - 1) (b * zprod nc)); [lia|]. exfalso. apply E.
          rewrite Z.quot_div_nonneg by (unfold aux in *; lia). apply Z.div_unique with (r := aux - 1 - b * zprod nc); unfold aux in *; lia. }
        unfold aux in *. lia. }
      clearbody maxk mink aux. clear -Hk M1 M2. lia. }
    assert (Kr : forall j, (j < n)%nat -> (ranged b a off j <-> f j = dd /\ mink <= nth j keys 0 <= maxk)).
    { intros j Hjn. unfold ranged. cbv zeta. fold c. fold dd. fold aux. split.
      - intros (_ & H & [H'|H']); [tauto|]. split; auto. apply Kk; auto.
      - intros (H & H'). split; auto. split; auto. right. apply Kk; auto. }
    clearbody maxk mink. clear Kk.
    destruct (bsearch_ok keys s (fun k => maxk <? k) (Z.to_nat (e - s - 1)) 0 (e - s - 1)) as (x1 & y1 & E1 & ? & ? & ? & X1 & Y1); try lia.
    destruct (bsearch_ok keys s (fun k => mink <=? k) (Z.to_nat (e - s - 1)) 0 (e - s - 1)) as (x2 & y2 & E2 & ? & ? & ? & X2 & Y2); try lia.
    rewrite E1, E2. cbn [obind fst snd]. rewrite !rdz_nth by (fold n; lia). cbn [obind].
    set (k1 := nth (Z.to_nat (x1 + s)) keys 0) in *. set (k2 := nth (Z.to_nat (y1 + s)) keys 0) in *.
    set (l1 := nth (Z.to_nat (x2 + s)) keys 0) in *. set (l2 := nth (Z.to_nat (y2 + s)) keys 0) in *.
    eexists. split; [reflexivity|]. cbn [fst snd].
    (* keys of the range as a function of Z *)
    set (K := fun z : Z => nth (Z.to_nat z) keys 0).
    assert (Kdesc : forall z z', s <= z -> z <= z' -> z' < e -> K z' <= K z).
    { intros z z' ? ? ?. destruct (Z.eq_dec z z') as [->|]; [lia|]. apply Hsort; unfold n in *; lia. }
    assert (Kj : forall j, s <= Z.of_nat j < e -> nth j keys 0 = K (Z.of_nat j)) by (intros j _; unfold K; now rewrite Nat2Z.id).
    change k1 with (K (x1 + s)) in *. change k2 with (K (y1 + s)) in *. change l1 with (K (x2 + s)) in *. change l2 with (K (y2 + s)) in *.
    clearbody K. clear k1 k2 l1 l2 E1 E2 Eq.
    set (st := if (mink <=? K (x1 + s)) && (K (x1 + s) <=? maxk) then x1 + s else if (mink <=? K (y1 + s)) && (K (y1 + s) <=? maxk) then y1 + s else 0).
    set (en := if (mink <=? K (y2 + s)) && (K (y2 + s) <=? maxk) then y2 + s + 1 else if (mink <=? K (x2 + s)) && (K (x2 + s) <=? maxk) then x2 + s + 1 else 0).
    assert (Main : 0 <= st /\ en <= e /\ forall z, st <= z < en <-> s <= z < e /\ mink <= K z <= maxk \/ False).
    { assert (T : (exists z, s <= z < e /\ mink <= K z <= maxk) \/ ~ exists z, s <= z < e /\ mink <= K z <= maxk).
      { destruct (existsb (fun i => (mink <=? K (s + Z.of_nat i)) && (K (s + Z.of_nat i) <=? maxk)) (seq 0 (Z.to_nat (e - s)))) eqn:Ex.
        - left. apply existsb_exists in Ex. destruct Ex as (i & Hi & Hk). apply in_seq in Hi. exists (s + Z.of_nat i). lia.
        - right. intros (z & Hz & Hk). assert (existsb (fun i => (mink <=? K (s + Z.of_nat i)) && (K (s + Z.of_nat i) <=? maxk)) (seq 0 (Z.to_nat (e - s))) = true); [|congruence].
          apply existsb_exists. exists (Z.to_nat (z - s)). split; [apply in_seq; lia|]. rewrite Z2Nat.id by lia. replace (s + (z - s)) with z by lia. lia. }
      destruct T as [(z0 & Hz0 & Hk0)|T].
      - (* there are hits *)
        assert (S1 : s <= st < e /\ mink <= K st <= maxk /\ forall z, s <= z < st -> K z > maxk).
        { destruct (Z_le_gt_dec (K (x1 + s)) maxk) as [Q|Q].
          - assert (Ex : x1 = 0) by (destruct X1 as [|X1]; [auto|apply Z.ltb_lt in X1; lia]). subst x1.
            assert (mink <= K (0 + s)) by (specialize (Kdesc (0 + s) z0); lia).
            unfold st. replace ((mink <=? K (0 + s)) && (K (0 + s) <=? maxk)) with true by lia. repeat split; try lia.
          - assert (Q2 : K (y1 + s) <= maxk).
            { destruct Y1 as [->|Y1]; [|apply Z.ltb_ge in Y1; auto]. destruct (Z.eq_dec z0 (x1 + s)); [subst; lia|].
              assert (x1 + s < z0). { destruct (Z_lt_le_dec (x1 + s) z0); auto. specialize (Kdesc z0 (x1 + s)). lia. }
              assert (z0 = e - s - 1 + s) by lia. subst z0. lia. }
            assert (mink <= K (y1 + s)).
            { assert (y1 + s <= z0). { destruct (Z_lt_le_dec z0 (y1 + s)); [|auto]. assert (z0 <= x1 + s) by lia. specialize (Kdesc z0 (x1 + s)). lia. }
              specialize (Kdesc (y1 + s) z0). lia. }
            unfold st. replace ((mink <=? K (x1 + s)) && (K (x1 + s) <=? maxk)) with false by lia.
            replace ((mink <=? K (y1 + s)) && (K (y1 + s) <=? maxk)) with true by lia.
            split; [lia|]. split; [lia|]. intros z Hz. specialize (Kdesc z (x1 + s)). lia. }
        assert (S2 : s < en <= e /\ mink <= K (en - 1) <= maxk /\ forall z, en <= z < e -> K z < mink).
        { destruct (Z_le_gt_dec mink (K (y2 + s))) as [Q|Q].
          - assert (Ex : y2 = e - s - 1) by (destruct Y2 as [|Y2]; [auto|apply Z.leb_gt in Y2; lia]). subst y2.
            assert (K (e - s - 1 + s) <= maxk) by (specialize (Kdesc z0 (e - s - 1 + s)); lia).
            unfold en. replace ((mink <=? K (e - s - 1 + s)) && (K (e - s - 1 + s) <=? maxk)) with true by lia.
            replace (e - s - 1 + s + 1 - 1) with (e - s - 1 + s) by lia. repeat split; try lia.
          - assert (Hx : z0 < y2 + s). { destruct (Z_lt_le_dec z0 (y2 + s)); auto. specialize (Kdesc (y2 + s) z0). lia. }
            assert (z0 <= x2 + s) by lia.
            assert (Q2 : mink <= K (x2 + s)).
            { destruct X2 as [->|X2]; [|apply Z.leb_le in X2; auto]. assert (z0 = 0 + s) by lia. subst z0. lia. }
            assert (K (x2 + s) <= maxk) by (specialize (Kdesc z0 (x2 + s)); lia).
            unfold en. replace ((mink <=? K (y2 + s)) && (K (y2 + s) <=? maxk)) with false by lia.
            replace ((mink <=? K (x2 + s)) && (K (x2 + s) <=? maxk)) with true by lia.
            replace (x2 + s + 1 - 1) with (x2 + s) by lia. split; [lia|]. split; [lia|].
            intros z Hz. specialize (Kdesc (y2 + s) z). lia. }
        destruct S1 as (S1 & S1' & S1''), S2 as (S2 & S2' & S2''). split; [lia|]. split; [lia|].
        clearbody st en. clear X1 Y1 X2 Y2. intros z. split.
        + intros Hz. left. split; [lia|]. pose proof (Kdesc st z). pose proof (Kdesc z (en - 1)). lia.
        + intros [[Hz Hk]|[]]. split.
          * destruct (Z_lt_le_dec z st); [|lia]. specialize (S1'' z). lia.
          * destruct (Z_lt_le_dec z en); [lia|]. specialize (S2'' z). lia.
      - assert (N : forall z, s <= z < e -> (mink <=? K z) && (K z <=? maxk) = false).
        { intros z Hz. destruct ((mink <=? K z) && (K z <=? maxk)) eqn:E; auto. exfalso. apply T. exists z. lia. }
        assert (E1 : st = 0) by (unfold st; rewrite !N by lia; auto). assert (E2 : en = 0) by (unfold en; rewrite !N by lia; auto).
        rewrite E1, E2. split; [lia|]. split; [lia|]. intros z. split; [lia|]. intros [[Hz Hk]|[]]. exfalso. apply T. eauto. }
    destruct Main as (M0 & M1 & M2). split; [lia|]. split; [lia|]. intros j Hjn. rewrite M2, (Kr j Hjn), <- Hj by auto.
    split; intros Hx.
    - destruct Hx as [[Hx Hk]|[]]. split; auto. rewrite Kj by auto. auto.
    - destruct Hx as [Hx Hk]. left. split; auto. rewrite <- Kj by auto. auto.
  Qed.
End Ranges.
