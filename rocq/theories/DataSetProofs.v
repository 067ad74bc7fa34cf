(** Proofs about the loading of the data set (C61). *)
From Coq Require Import String Ascii List Arith ZArith QArith Lia Bool Permutation.
From Verif Require Import Tensor TensorFacts Loaders SpecLoaders LoaderProofs Generator SpecGenerator GeneratorProofs DataSet SpecDataSet.
Import ListNotations.
Local Open Scope nat_scope.

Lemma ok_of {A B} (m : result A) (f : A -> result B) b : bind m f = Ok b -> exists a, m = Ok a /\ f a = Ok b.
Proof. destruct m; cbn; [eauto|discriminate]. Qed.

(** ** Listings *)
Lemma text_eqb_spec a b : text_eqb a b = true <-> a = b.
Proof.
  unfold text_eqb. revert b. induction a as [|x a IH]; intros [|y b]; cbn; split; intros H; try discriminate; auto.
  - apply andb_true_iff in H as [H1 H2]. apply Ascii.eqb_eq in H1. apply IH in H2. congruence.
  - injection H as -> ->. rewrite Ascii.eqb_refl. now apply IH.
Qed.
Lemma index_found c names k : index_of c names = Some k -> label_of names c k.
Proof.
  revert k. induction names as [|n r IH]; intros k H; [discriminate|]. cbn in H. destruct (text_eqb n c) eqn:E.
  - injection H as <-. apply text_eqb_spec in E. subst. split; [reflexivity|]. intros i Hi. lia.
  - destruct (index_of c r) as [k'|] eqn:F; [|discriminate]. injection H as <-. destruct (IH _ eq_refl) as [A B].
    split; [exact A|]. intros [|i] Hi; cbn; [|apply B; lia]. intros X. injection X as ->.
    assert (text_eqb c c = true) by (now apply text_eqb_spec). congruence.
Qed.
Lemma index_some c names : In c names -> exists k, index_of c names = Some k.
Proof.
  induction names as [|n r IH]; intros H; [destruct H|]. cbn. destruct (text_eqb n c) eqn:E; eauto.
  destruct H as [->|H]; [|destruct (IH H) as [k ->]; cbn; eauto].
  assert (text_eqb c c = true) by (now apply text_eqb_spec). congruence.
Qed.
Lemma index_none c names : ~ In c names -> index_of c names = None.
Proof.
  intros H. destruct (index_of c names) as [k|] eqn:E; auto. apply index_found in E as [E _]. apply nth_error_In in E. contradiction.
Qed.
Lemma plain_line t : ~ In line_end t -> without_newlines t = t.
Proof.
  unfold without_newlines, newline. fold line_end. induction t as [|c t IH]; intros H; auto. cbn [filter].
  destruct (Ascii.eqb_spec c line_end) as [->|E]; [exfalso; apply H; left; auto|]. cbn [negb]. rewrite IH; auto. intros X. apply H. right. auto.
Qed.
Lemma plain_line_end t : ~ In line_end t -> without_newlines (t ++ [line_end]) = t.
Proof.
  intros H. unfold without_newlines. rewrite filter_app. fold (without_newlines t). rewrite plain_line by auto. cbn [filter]. unfold newline. fold line_end.
  rewrite Ascii.eqb_refl. cbn. apply app_nil_r.
Qed.
Lemma file_lines_last t : ~ In line_end t -> t <> [] -> file_lines t = [t].
Proof.
  induction t as [|c t IH]; intros H N; [congruence|]. cbn [file_lines]. unfold newline. fold line_end.
  destruct (Ascii.eqb_spec c line_end) as [->|E]; [exfalso; apply H; left; auto|].
  destruct t as [|c' t]; [reflexivity|]. rewrite IH; [reflexivity| |discriminate]. intros X. apply H. right. auto.
Qed.
Lemma lines_end t r : exists p, lines_of (t :: r) = p ++ [line_end].
Proof.
  revert t. induction r as [|u r IH]; intros t.
  - exists t. unfold lines_of. cbn. now rewrite app_nil_r.
  - destruct (IH u) as [p E]. exists ((t ++ [line_end]) ++ p). unfold lines_of in *. cbn [map concat] in *. rewrite E. now rewrite app_assoc.
Qed.
Lemma lines_read ts s : text_file ts s -> map without_newlines (file_lines s) = ts.
Proof.
  intros [F H]. revert s H. induction ts as [|t r IH]; intros s H.
  - destruct H as [->|[N _]]; [reflexivity|]. cbn in N. congruence.
  - inversion F as [|? ? Ft Fr]; subst. specialize (IH Fr).
    assert (C : forall c, In c t -> c <> line_end) by (intros c Hc ->; auto).
    unfold lines_of in H. cbn [map concat] in H. fold (lines_of r) in H. rewrite <- app_assoc in H. cbn [app] in H. destruct H as [->|[N E]].
    + rewrite file_lines_line by exact C. cbn [map]. rewrite plain_line_end by auto. f_equal. apply IH. now left.
    + destruct r as [|t' r'].
      * cbn [lines_of map concat] in E. apply app_inj_tail in E as [-> _]. cbn in N. rewrite file_lines_last by auto. cbn [map]. rewrite plain_line by auto. reflexivity.
      * assert (X : exists s', s = t ++ line_end :: s' /\ s' ++ [line_end] = lines_of (t' :: r')).
        { assert (L : exists p, lines_of (t' :: r') = p ++ [line_end]).
          { apply lines_end. }
          destruct L as [p L]. rewrite L in E. exists p. split; [|auto].
          change (t ++ line_end :: p ++ [line_end]) with (t ++ (line_end :: p) ++ [line_end]) in E. rewrite app_assoc in E. now apply app_inj_tail in E as [-> _]. }
        destruct X as (s' & -> & E'). rewrite file_lines_line by exact C. cbn [map]. rewrite plain_line_end by auto. f_equal. apply IH. right. split; auto.
Qed.

(** ** Points *)
Lemma rows_widen rows : Forall (fun r => length r = 3) rows -> all_rows (widen 3) rows = Ok rows.
Proof. induction 1 as [|r rows E F IH]; auto. cbn [all_rows]. unfold widen at 1. rewrite E, Nat.eqb_refl. cbn [bind]. rewrite IH. reflexivity. Qed.
Lemma holds_width num fs d w f t : holds num fs d w f t -> 3 <= w -> Forall (fun r => length r = 3) (xyz t).
Proof.
  intros (lines & T & _) W. destruct T as (_ & _ & _ & F & _ & R). pose proof (reads_width _ _ _ _ R F) as V.
  apply (widths _ w); auto. intros r E. rewrite firstn_length, E. lia.
Qed.
Lemma holds_load num fs d w f t p : holds num fs d w f t -> 3 <= w ->
  exists rest, load_to_numpy num fs (Path f) d 3 (Some p) = Ok (firstn p (xyz t), rest).
Proof.
  intros (lines & T & H) W. eexists. rewrite (C37_numpy_loader_partial_proof num fs f d w lines t 3 p T ltac:(lia) H).
  unfold xyz. rewrite firstn_map. reflexivity.
Qed.
Lemma assign_first p rows : Forall (fun r => length r = 3) rows -> 0 < p -> p <= length rows -> assign_block p 3 (firstn p rows) = Ok (firstn p rows).
Proof.
  intros F P L. unfold assign_block. assert (N : firstn p rows <> []) by (destruct rows, p; cbn in *; try lia; discriminate).
  destruct (firstn p rows) as [|r rs] eqn:E; [congruence|]. rewrite <- E. rewrite rows_widen by (now apply Forall_take). cbn [bind].
  unfold assign_rows. rewrite firstn_length, Nat.min_l, Nat.eqb_refl by auto. reflexivity.
Qed.
Lemma assign_some p n rows out : Forall (fun r => length r = 3) rows -> n <= p -> n <= length rows ->
  assign_block p 3 (firstn p rows) = Ok out -> firstn n out = firstn n rows.
Proof.
  intros F P L H. unfold assign_block in H. assert (E : firstn p rows = [] \/ firstn p rows <> []) by (destruct (firstn p rows); [left|right]; congruence).
  destruct E as [E|E]; [rewrite E in H; discriminate|].
  assert (H' : assign_rows p (firstn p rows) = Ok out).
  { destruct (firstn p rows) as [|r rs] eqn:X; [congruence|]. rewrite <- X in H |- *. rewrite rows_widen in H by (now apply Forall_take). exact H. }
  clear H. unfold assign_rows in H'. rewrite firstn_length in H'. destruct (Nat.eqb_spec (Nat.min p (length rows)) p) as [M|M].
  - injection H' as <-. rewrite firstn_firstn, Nat.min_l by auto. reflexivity.
  - rewrite (firstn_all2 rows) in H' by lia. destruct rows as [|r [|]]; try discriminate. injection H' as <-. cbn [length] in *.
    destruct n as [|[|n]]; [reflexivity| |lia]. destruct p; [lia|reflexivity].
Qed.

Section Fill.
  Context (num : text -> option Q) (fs : text -> option text).
  Lemma fill_ok q p i files tables memory : 0 < p -> model_files num fs p files tables -> length memory = length files ->
    (q = true -> i + length files <= 102) -> fill num fs q p i files memory = Ok (first_points p tables).
  Proof.
    intros P [H G]. revert i memory. induction H as [|f t files tables (w & W & Ht) H IH]; intros i memory L Q.
    - destruct memory; [reflexivity|discriminate].
    - destruct memory as [|m memory]; [discriminate|]. inversion G; subst. cbn [fill].
      destruct (holds_load num fs _ w f t p Ht W) as [rest E]. unfold chars. rewrite E. cbn [bind fst].
      assert (X : length (xyz t) = length t) by apply map_length.
      rewrite assign_first by (first [assumption|eapply holds_width; eassumption|lia]). cbn [bind].
      destruct q; cbn [andb].
      + cbn [length] in *. specialize (Q eq_refl). destruct (Nat.ltb_spec 100 i) as [I|I].
        * assert (files = []) by (destruct files; cbn in *; [auto|lia]). subst. inversion H; subst. destruct memory; [reflexivity|discriminate].
        * rewrite IH by (auto; intros; cbn in *; lia). reflexivity.
      + rewrite IH by (auto; discriminate). reflexivity.
  Qed.
  Lemma fill_some q p n i files tables memory a : n <= p -> model_files num fs n files tables -> length memory = length files ->
    (q = true -> i + length files <= 102) -> fill num fs q p i files memory = Ok a -> map (firstn n) a = first_points n tables.
  Proof.
    intros P [H G]. revert i memory a. induction H as [|f t files tables (w & W & Ht) H IH]; intros i memory a L Q E.
    - destruct memory; [|discriminate]. injection E as <-. reflexivity.
    - destruct memory as [|m memory]; [discriminate|]. inversion G; subst. cbn [fill] in E.
      destruct (holds_load num fs _ w f t p Ht W) as [rest E1]. unfold chars in E. rewrite E1 in E. cbn [bind fst] in E.
      apply ok_of in E as (rows & E2 & E).
      assert (X : length (xyz t) = length t) by apply map_length.
      assert (R : firstn n rows = firstn n (xyz t)) by (apply (assign_some p n (xyz t) rows); [eapply holds_width; eassumption|exact P|lia|exact E2]).
      assert (Y : exists i' a', (q = true -> i' + length files <= 102) /\ fill num fs q p i' files memory = Ok a' /\ a = rows :: a').
      { destruct q; cbn [andb] in E.
        - specialize (Q eq_refl). cbn [length] in Q. destruct (Nat.ltb_spec 100 i) as [I|I].
          + assert (files = []) by (destruct files; cbn in *; [auto|lia]). subst. exists 0, memory. injection E as <-. cbn. repeat split; auto. lia.
          + apply ok_of in E as (a' & E3 & E4). injection E4 as <-. exists (S i), a'. repeat split; auto. intros _. lia.
        - apply ok_of in E as (a' & E3 & E4). injection E4 as <-. exists (S i), a'. repeat split; auto. discriminate. }
      destruct Y as (i' & a' & Q' & E3 & ->). cbn [map first_points]. f_equal; [exact R|]. eapply IH; eauto.
  Qed.
  (** What a quick test leaves of the memory. *)
  Lemma fill_quick p i files tables memory : 0 < p -> model_files num fs p files tables -> length memory = length files -> i <= 101 ->
    102 < i + length files -> exists a, fill num fs true p i files memory = Ok a /\
      length a = length files /\
      (Forall (fun m => length m = p) memory -> Forall (fun m => length m = p) a) /\
      forall j, 102 - i <= j -> j < length files -> nth j a [] = nth j memory [].
  Proof.
    intros P [H G]. revert i memory. induction H as [|f t files tables (w & W & Ht) H IH]; intros i memory L I Q; [cbn in Q; lia|].
    destruct memory as [|m memory]; [discriminate|]. inversion G; subst. cbn [fill].
    destruct (holds_load num fs _ w f t p Ht W) as [rest E]. unfold chars. rewrite E. cbn [bind fst].
    assert (X : length (xyz t) = length t) by apply map_length.
    assert (Z : length (firstn p (xyz t)) = p) by (rewrite firstn_length; lia).
    rewrite assign_first by (first [assumption|eapply holds_width; eassumption|lia]). cbn [bind andb]. cbn [length] in *.
    destruct (Nat.ltb_spec 100 i) as [J|J].
    - eexists; split; [reflexivity|]. split; [cbn; lia|]. split; [intros F; inversion F; subst; constructor; auto|]. intros [|j] A B; [lia|reflexivity].
    - destruct (IH ltac:(assumption) (S i) memory) as (a & -> & La & Fa & Na); try lia. eexists; split; [reflexivity|]. cbn [length]. split; [lia|].
      split; [intros F; inversion F; subst; constructor; auto|]. intros [|j] A B; [lia|]. cbn [nth]. apply Na; lia.
  Qed.
End Fill.

(** ** Histories *)
Definition useful (sc : script) (n : nat) (tables : array) (d : disk) : Prop :=
  (tmp_dir d = true \/ sc = Large) /\
  (cache d = None \/ exists a, cache d = Some (Dataset a) /\ read_cache sc n (Dataset a) = Ok (first_points n tables)).

Lemma after_useful num fs sc n files tables d e : 0 < n -> model_files num fs n files tables -> harmless sc n files e -> useful sc n tables d ->
  useful sc n tables (after num fs sc files d e).
Proof.
  intros N M (L & Qk & St & Pn) [U1 U2]. unfold after, states, run.
  set (d1 := match sc with Large => Disk true (cache d) | Small => d end).
  assert (D1 : tmp_dir d1 = true /\ cache d1 = cache d) by (unfold d1; destruct sc; cbn; destruct U1; auto; discriminate).
  assert (Ud : useful sc n tables d) by (split; auto).
  assert (Ud1 : useful sc n tables d1) by (split; [left; apply D1|destruct D1 as [_ ->]; exact U2]).
  assert (B : forall k (l : list disk), l = [d; d1] -> useful sc n tables match k with None => last l d | Some k => nth k l (last l d) end).
  { intros [k|] l ->; cbn; auto. destruct k as [|[|k]]; auto. destruct k; auto. }
  destruct (cache d1) eqn:C; cbn [fst]; [apply B; reflexivity|].
  destruct (fill _ _ _ _ _ _ _) as [a|er] eqn:F; cbn [fst]; [|apply B; reflexivity].
  destruct D1 as [-> D1]. cbn [fst].
  assert (Ua : useful sc n tables (Disk true (Some (Dataset a)))).
  { split; [left; reflexivity|]. right. exists a. split; [reflexivity|]. cbn [read_cache].
    assert (X : map (firstn n) a = first_points n tables).
    { apply (fill_some num fs (ev_quick e) (ev_points e) n 0 files tables (ev_memory e)); [destruct sc; lia|exact M|exact L|intros Hq; specialize (Qk Hq); lia|exact F]. }
    destruct sc; [now rewrite X|]. subst n. f_equal.
    rewrite (fill_ok num fs (ev_quick e) (ev_points e) 0 files tables (ev_memory e)) in F by (first [assumption|intros Hq; specialize (Qk Hq); lia]). congruence. }
  destruct (ev_stop e) as [k|]; [|exact Ua]. cbn [last]. destruct k as [|[|[|[|k]]]]; cbn [nth]; auto; [congruence|]. destruct k; exact Ua.
Qed.

Lemma history_useful num fs sc n files tables d events : 0 < n -> model_files num fs n files tables ->
  Forall (harmless sc n files) events -> useful sc n tables d -> useful sc n tables (history num fs sc files d events).
Proof.
  intros N M F. unfold history. revert d. induction F as [|e events H F IH]; intros d U; cbn [fold_left]; auto. apply IH. now apply after_useful.
Qed.

(** C61. Every model of a listing gets the file name made from its category and
    its name, and the position of its category in the list of names as label;
    a listing with an unknown category is rejected with a ValueError. *)
Lemma C61_listing_proof :
  forall data_dir names models names_text listing_text,
    text_file names names_text -> text_file (map model_name models) listing_text -> Forall (fun m => length (snd m) = 5) models ->
    (Forall (fun m => In (fst m) names) models -> exists l,
       load_listing data_dir names_text listing_text = Ok l /\
       Forall2 (fun m r => fst r = data_dir ++ fst m ++ list_ascii_of_string "/" ++ model_name m ++ list_ascii_of_string ".txt" /\
                           label_of names (fst m) (snd r)) models l) /\
    (forall m, In m models -> ~ In (fst m) names -> load_listing data_dir names_text listing_text = Err ValueError).
Proof.
  intros dir names ms nt lt Hn Hl F. unfold load_listing, read_names. rewrite (lines_read _ _ Hn).
  assert (E : map without_newlines (file_lines lt) = map model_name ms) by (apply lines_read; auto).
  revert E. generalize (file_lines lt) as ls. clear Hl lt. induction F as [|m ms L F IH]; intros [|l ls] E; try discriminate.
  - split; [intros _; exists []; cbn; auto|]. intros m [].
  - cbn [map] in E. injection E as E1 E2. destruct (IH ls E2) as [I1 I2].
    assert (C : firstn (length (without_newlines l) - 5) (without_newlines l) = fst m).
    { rewrite E1. unfold model_name. rewrite app_length, L, Nat.add_sub, firstn_app, Nat.sub_diag, firstn_all. cbn. apply app_nil_r. }
    cbn [read_listing]. rewrite C. split.
    + intros G. inversion G as [|? ? G1 G2]; subst. destruct (index_some _ _ G1) as [k K]. rewrite K. destruct (I1 G2) as (r & -> & H2). cbn [bind].
      eexists; split; [reflexivity|]. constructor; [|exact H2]. cbn [fst snd]. split; [rewrite E1; reflexivity|now apply index_found].
    + intros m' [<-|I] N; [now rewrite (index_none _ _ N)|]. destruct (index_of (fst m) names) as [k|]; [|reflexivity]. rewrite (I2 m' I N). reflexivity.
Qed.

(** C61. After any number of earlier runs that do no harm, interrupted or not, a
    run gets the first points of every file, whether it reads the files or the
    cache. *)
Lemma C61_history_partial_proof :
  forall num fs sc n files tables d events quick memory damage,
    0 < n -> model_files num fs n files tables -> tmp_dir d = true \/ sc = Large -> cache d = None ->
    Forall (harmless sc n files) events -> length memory = length files -> (quick = true -> length files <= 102) ->
    snd (run num fs sc quick n files memory damage (history num fs sc files d events)) = Ok (first_points n tables).
Proof.
  intros num fs sc n files tables d events q memory damage N M T C F L Q.
  assert (U : useful sc n tables (history num fs sc files d events)) by (apply history_useful; auto; split; auto).
  set (d' := history num fs sc files d events) in *. clearbody d'. destruct U as [U1 U2]. unfold run.
  set (d1 := match sc with Large => Disk true (cache d') | Small => d' end).
  assert (D1 : tmp_dir d1 = true /\ cache d1 = cache d') by (unfold d1; destruct sc; cbn; destruct U1; auto; discriminate).
  destruct D1 as [D1 D2]. destruct U2 as [U2|(a & U2 & U3)]; rewrite D2, U2.
  - rewrite (fill_ok num fs q n 0 files tables memory) by auto. rewrite D1. reflexivity.
  - exact U3.
Qed.

Lemma run_cached num fs sc q n files memory damage d s : cache d = Some s ->
  run num fs sc q n files memory damage d = ([d; match sc with Large => Disk true (cache d) | Small => d end], read_cache sc n s).
Proof. intros C. unfold run. destruct sc; cbn [cache]; rewrite C; reflexivity. Qed.
Lemma after_cached num fs sc files d e s : cache d = Some s -> cache (after num fs sc files d e) = Some s.
Proof.
  intros C. unfold after, states. rewrite (run_cached _ _ _ _ _ _ _ _ _ _ C). cbn [fst]. destruct (ev_stop e) as [[|[|[|k]]]|]; cbn; destruct sc; auto.
Qed.
Lemma history_cached num fs sc files d events s : cache d = Some s -> cache (history num fs sc files d events) = Some s.
Proof. unfold history. revert d. induction events as [|e events IH]; intros d C; cbn [fold_left]; auto. apply IH. now apply after_cached. Qed.
Lemma run_new num fs sc q n files memory damage d a : tmp_dir d = true \/ sc = Large -> cache d = None -> fill num fs q n 0 files memory = Ok a ->
  exists d0 d1, run num fs sc q n files memory damage d = ([d0; d1; Disk true (Some (Broken damage)); Disk true (Some (Dataset a))], Ok a).
Proof.
  intros T C F. unfold run. destruct sc; cbn [cache tmp_dir]; rewrite C, F; [|eexists; eexists; reflexivity].
  destruct T as [T|T]; [|discriminate]. rewrite T. eexists; eexists; reflexivity.
Qed.

(** After a quick test every later run gets, for all models from number 102 on,
    what happened to be in the memory when the quick test was started. *)
Lemma C61_quick_refuted_proof :
  forall num fs sc n files tables d damage memory events quick memory' damage',
    0 < n -> model_files num fs n files tables -> tmp_dir d = true \/ sc = Large -> cache d = None -> 102 < length files ->
    length memory = length files -> Forall (fun m => length m = n) memory ->
    exists a,
      snd (run num fs sc quick n files memory' damage' (history num fs sc files d (Event true n memory damage None :: events))) = Ok a /\
      forall j, 102 <= j -> j < length files -> nth j a [] = nth j memory [].
Proof.
  intros num fs sc n files tables d damage memory events q memory' damage' N M T C L Lm Fm.
  destruct (fill_quick num fs n 0 files tables memory) as (a & E & La & Fa & Na); auto; try lia. specialize (Fa Fm).
  destruct (run_new num fs sc true n files memory damage d a T C E) as (d0 & d1 & R).
  assert (H : cache (history num fs sc files d (Event true n memory damage None :: events)) = Some (Dataset a)).
  { unfold history. cbn [fold_left]. apply history_cached. unfold after, states. cbn [ev_quick ev_points ev_memory ev_damage ev_stop]. rewrite R. reflexivity. }
  rewrite (run_cached _ _ _ _ _ _ _ _ _ _ H). cbn [snd read_cache]. eexists; split; [reflexivity|]. intros j J1 J2.
  replace (match sc with Small => map (firstn n) a | Large => a end) with a; [apply Na; lia|].
  destruct sc; auto. rewrite <- (map_id a) at 1. apply map_ext_in. intros m Hm. rewrite Forall_forall in Fa. specialize (Fa _ Hm). rewrite firstn_all2; lia || auto.
Qed.

(** After a run that was interrupted while it wrote the cache every later run
    raises an exception. *)
Lemma C61_interrupted_refuted_proof :
  forall num fs sc n files tables d damage memory events quick n' memory' damage',
    0 < n -> model_files num fs n files tables -> tmp_dir d = true \/ sc = Large -> cache d = None -> length memory = length files ->
    snd (run num fs sc quick n' files memory' damage' (history num fs sc files d (Event false n memory damage (Some 2) :: events))) = Err damage.
Proof.
  intros num fs sc n files tables d damage memory events q n' memory' damage' N M T C L.
  assert (E : fill num fs false n 0 files memory = Ok (first_points n tables)) by (apply fill_ok; auto; discriminate).
  destruct (run_new num fs sc false n files memory damage d _ T C E) as (d0 & d1 & R).
  assert (H : cache (history num fs sc files d (Event false n memory damage (Some 2) :: events)) = Some (Broken damage)).
  { unfold history. cbn [fold_left]. apply history_cached. unfold after, states. cbn [ev_quick ev_points ev_memory ev_damage ev_stop]. rewrite R. reflexivity. }
  rewrite (run_cached _ _ _ _ _ _ _ _ _ _ H). reflexivity.
Qed.

(** The number of points of the first run stays: modelnet40.py ignores another
    value, modelnet40_small.py a larger one. *)
Lemma C61_points_refuted_proof :
  forall num fs sc n n' files tables d damage memory quick memory' damage',
    0 < n -> n <> n' -> sc = Large \/ n < n' -> files <> [] -> model_files num fs n files tables -> Forall (fun t => n' <= length t) tables ->
    tmp_dir d = true \/ sc = Large -> cache d = None -> length memory = length files ->
    snd (run num fs sc quick n' files memory' damage' (history num fs sc files d [Event false n memory damage None])) = Ok (first_points n tables) /\
    first_points n tables <> first_points n' tables.
Proof.
  intros num fs sc n n' files tables d damage memory q memory' damage' N X S0 Ne M M' T C L.
  assert (E : fill num fs false n 0 files memory = Ok (first_points n tables)) by (apply fill_ok; auto; discriminate).
  destruct (run_new num fs sc false n files memory damage d _ T C E) as (d0 & d1 & R).
  assert (H : cache (history num fs sc files d [Event false n memory damage None]) = Some (Dataset (first_points n tables))).
  { unfold history. cbn [fold_left]. unfold after, states. cbn [ev_quick ev_points ev_memory ev_damage ev_stop]. rewrite R. reflexivity. }
  rewrite (run_cached _ _ _ _ _ _ _ _ _ _ H). cbn [snd read_cache]. split.
  - destruct sc; [|reflexivity]. destruct S0 as [S0|S0]; [discriminate|]. f_equal. unfold first_points. rewrite map_map. apply map_ext. intros t.
    rewrite firstn_firstn, Nat.min_r by lia. reflexivity.
  - destruct M as [M G]. destruct M as [|f t files tables Hf M]; [congruence|]. inversion G; inversion M'; subst. cbn. intros Y. injection Y as Y _.
    apply (f_equal (@length _)) in Y. rewrite !firstn_length in Y. unfold xyz in Y. rewrite map_length in Y. lia.
Qed.

(** modelnet40_small.py never works if the directory of the cache is missing. *)
Lemma C61_directory_refuted_proof :
  forall num fs n files tables d events quick memory damage,
    0 < n -> model_files num fs n files tables -> tmp_dir d = false -> cache d = None -> length memory = length files ->
    forall a, snd (run num fs Small quick n files memory damage (history num fs Small files d events)) <> Ok a.
Proof.
  intros num fs n files tables d events q memory damage N M T C L a.
  assert (H : history num fs Small files d events = d).
  { unfold history. induction events as [|e events IH]; [reflexivity|]. cbn [fold_left]. replace (after num fs Small files d e) with d; [exact IH|].
    unfold after, states, run. rewrite C, T. destruct (fill _ _ _ _ _ _ _); cbn [fst]; destruct (ev_stop e) as [[|[|[|k]]]|]; reflexivity. }
  rewrite H. unfold run. rewrite C, T. destruct (fill _ _ _ _ _ _ _); discriminate.
Qed.

(** C61 with C48: the batches of an epoch show the first points of the files
    named by the listing together with the number of the category. *)
Lemma C61_batches_proof :
  forall num fs sc n data_dir names models names_text listing_text tables d events memory damage B samples aug perm draws,
    text_file names names_text -> text_file (map model_name models) listing_text -> Forall (fun m => length (snd m) = 5 /\ In (fst m) names) models ->
    let files := map (fun m => data_dir ++ fst m ++ list_ascii_of_string "/" ++ model_name m ++ list_ascii_of_string ".txt") models in
    0 < n -> samples <= n -> model_files num fs n files tables -> tmp_dir d = true \/ sc = Large -> cache d = None ->
    Forall (harmless sc n files) events -> length memory = length files -> B <> 0 -> Permutation perm (seq 0 (length models)) ->
    exists l a batches js,
      load_listing data_dir names_text listing_text = Ok l /\
      snd (run num fs sc false n (map fst l) memory damage (history num fs sc (map fst l) d events)) = Ok a /\
      iterate (new_generator a (map snd l) B aug perm) samples draws = Ok batches /\
      length batches = length models / B /\ NoDup js /\ length js = length models / B * B /\ Forall (fun j => j < length models) js /\
      forall i b, i < length models / B -> b < B -> let j := nth (i * B + b) js 0 in exists data k,
        nth_error batches i = Some data /\ nth_error (slots data) b = Some (shown aug samples (draws i b) (xyz (nth j tables [])), k) /\
        label_of names (fst (nth j models ([], []))) k.
Proof.
  intros num fs sc n dir names ms nt lt tables d events memory damage B samples aug perm draws Hn Hl F files N Sn M T C Fe Lm HB Hp.
  assert (F1 : Forall (fun m => length (snd m) = 5) ms) by (eapply Forall_impl; [|exact F]; intros m [? _]; auto).
  assert (F2 : Forall (fun m => In (fst m) names) ms) by (eapply Forall_impl; [|exact F]; intros m [_ ?]; auto).
  destruct (C61_listing_proof dir names ms nt lt Hn Hl F1) as [H _]. destruct (H F2) as (l & El & Fl).
  assert (Ef : map fst l = files).
  { unfold files. clear -Fl. induction Fl as [|m r ms l [E _] Fl IH]; [reflexivity|]. cbn [map]. now rewrite E, IH. }
  assert (Ll : length l = length ms) by (symmetry; eapply Forall2_len; exact Fl).
  assert (Lt : length tables = length ms) by (destruct M as [M _]; apply Forall2_len in M; unfold files in M; rewrite map_length in M; auto).
  assert (R : snd (run num fs sc false n files memory damage (history num fs sc files d events)) = Ok (first_points n tables)).
  { apply C61_history_partial_proof; auto. discriminate. }
  assert (La : length (first_points n tables) = length ms) by (unfold first_points; rewrite map_length; auto).
  destruct (C48_epoch_proof (first_points n tables) (map snd l) B samples aug (new_generator (first_points n tables) (map snd l) B aug perm) draws) as
    (batches & js & I1 & I2 & I3 & I4 & I5 & _ & I6); auto.
  { rewrite map_length. lia. }
  { destruct M as [_ G]. apply Forall_forall. intros m Hm. unfold first_points in Hm. apply in_map_iff in Hm as (t & <- & Ht).
    rewrite Forall_forall in G. specialize (G _ Ht). rewrite firstn_length. unfold xyz. rewrite map_length. lia. }
  { constructor. rewrite La. exact Hp. }
  rewrite La in *. exists l, (first_points n tables), batches, js. rewrite Ef. repeat split; auto.
  intros i b Hi Hb j. destruct (I6 i Hi) as (data & D1 & D2 & _ & D3). specialize (D3 b Hb). cbv zeta in D3. fold j in D3.
  assert (Hj : j < length ms).
  { rewrite Forall_forall in I5. apply I5. apply nth_In. rewrite I4. nia. }
  exists data, (nth j (map snd l) 0). split; auto. split.
  - rewrite D3. f_equal. f_equal. unfold shown.
    replace (nth j (first_points n tables) []) with (firstn n (xyz (nth j tables []))).
    2: { unfold first_points. rewrite <- (map_nth (fun t => firstn n (xyz t))). cbn. now rewrite firstn_nil. }
    rewrite firstn_firstn, Nat.min_l by auto. reflexivity.
  - clearbody j. clear -Fl Hj. revert j Hj. induction Fl as [|m r ms l [_ E] Fl IH]; intros j Hj; [cbn in Hj; lia|]. destruct j as [|j]; [exact E|]. cbn. apply IH. cbn in Hj. lia.
Qed.

(** ** Examples: two models of two categories, stored in tables of four columns. *)
Definition ex61_names : list text := [chars "chair"; chars "bed"].
Definition ex61_models : list (text * text) := [(chars "bed", chars "_0001"); (chars "chair", chars "_0002")].
Definition ex61_file (k : nat) : text :=
  nth k [chars "d/bed/bed_0001.txt"; chars "d/chair/chair_0002.txt"] [].
Definition ex61_lines (k : nat) : list (list text) :=
  nth k [[[chars "1"; chars "2"; chars "3"; chars "9"]; [chars "4"; chars "5"; chars "6"; chars "9"]];
         [[chars "7"; chars "8"; chars "9"; chars "0"]; [chars "3"; chars "2"; chars "1"; chars "0"]; [chars "5"; chars "5"; chars "5"; chars "0"]]] [].
Definition ex61_tables : array :=
  [[[1; 2; 3; 9]; [4; 5; 6; 9]]; [[7; 8; 9; 0]; [3; 2; 1; 0]; [5; 5; 5; 0]]]%Q.
Definition ex61_fs (p : text) : option text :=
  if text_eqb p (ex61_file 0) then Some (written (chars ",") (ex61_lines 0))
  else if text_eqb p (ex61_file 1) then Some (written (chars ",") (ex61_lines 1)) else None.
Lemma ex61_plain ls : forallb (forallb (forallb (fun c => negb (Ascii.eqb c line_end) && negb (Ascii.eqb c (ascii_of_nat 44))))) ls = true ->
  Forall (Forall (plain (list_ascii_of_string ","))) ls.
Proof.
  intros H. rewrite forallb_forall in H. apply Forall_forall. intros l Hl. specialize (H l Hl). rewrite forallb_forall in H.
  apply Forall_forall. intros e He c Hc. specialize (H e He). rewrite forallb_forall in H. specialize (H c Hc).
  apply andb_true_iff in H as [H1 H2]. apply negb_true_iff in H1, H2. apply Ascii.eqb_neq in H1, H2. split; auto. intros [X|[]]. apply H2. rewrite <- X. reflexivity.
Qed.
Lemma ex61_holds k : k < 2 -> holds decimal ex61_fs (list_ascii_of_string ",") 4 (ex61_file k) (nth k ex61_tables []).
Proof.
  intros K. exists (ex61_lines k). destruct k as [|[|k]]; [| |lia]; (split; [|reflexivity]);
    (split; [discriminate|split; [cbn; intros [X|[]]; discriminate|split; [lia|split; [repeat constructor|split]]]]).
  1,3: apply ex61_plain; reflexivity.
  all: repeat constructor.
Qed.
Lemma ex61_model_files n : n <= 2 -> model_files decimal ex61_fs n (map ex61_file [0; 1]) ex61_tables.
Proof.
  intros N. split.
  - constructor; [exists 4; split; [lia|apply (ex61_holds 0); lia]|]. constructor; [exists 4; split; [lia|apply (ex61_holds 1); lia]|]. constructor.
  - constructor; [cbn; lia|]. constructor; [cbn; lia|]. constructor.
Qed.
Example C61_listing_ex_proof :
  text_file ex61_names (chars "chair" ++ [line_end] ++ chars "bed" ++ [line_end]) /\
  text_file (map model_name ex61_models) (chars "bed_0001" ++ [line_end] ++ chars "chair_0002") /\
  load_listing (chars "d/") (chars "chair" ++ [line_end] ++ chars "bed" ++ [line_end]) (chars "bed_0001" ++ [line_end] ++ chars "chair_0002") =
    Ok [(ex61_file 0, 1); (ex61_file 1, 0)].
Proof.
  split; [|split; [|reflexivity]]; (split; [repeat constructor; cbn; intuition discriminate|]); [left; reflexivity|right]. split; [discriminate|reflexivity].
Qed.

(** A first run is interrupted, a second one stores two points per model, then
    one point per model is asked for. *)
Example C61_history_ex_proof :
  forall m1 m2 e1 e2,
    let events := [Event false 2 [m1; m2] e1 (Some 1); Event false 2 [m2; m1] e2 None] in
    Forall (harmless Small 1 (map ex61_file [0; 1])) events /\
    snd (run decimal ex61_fs Small false 1 (map ex61_file [0; 1]) [m1; m2] e1
           (history decimal ex61_fs Small (map ex61_file [0; 1]) (Disk true None) events)) = Ok [[[1; 2; 3]]; [[7; 8; 9]]]%Q.
Proof.
  intros m1 m2 e1 e2 events. assert (H : Forall (harmless Small 1 (map ex61_file [0; 1])) events).
  { constructor; [|constructor; [|constructor]]; (split; [reflexivity|split; [discriminate|split; [discriminate|cbn; lia]]]). }
  split; [exact H|]. rewrite (C61_history_partial_proof decimal ex61_fs Small 1 (map ex61_file [0; 1]) ex61_tables); auto; [apply ex61_model_files; lia|discriminate].
Qed.
Example C61_interrupted_ex_proof :
  forall m1 m2 e,
    snd (run decimal ex61_fs Large false 2 (map ex61_file [0; 1]) [m1; m2] e
           (history decimal ex61_fs Large (map ex61_file [0; 1]) (Disk false None) [Event false 2 [m1; m2] KeyError (Some 2); Event false 2 [m2; m1] e None])) =
      Err KeyError.
Proof.
  intros m1 m2 e. apply (C61_interrupted_refuted_proof decimal ex61_fs Large 2 (map ex61_file [0; 1]) ex61_tables); auto. apply ex61_model_files; lia.
Qed.
(** 200 times the same model: the last one is loaded as zeros. *)
Example C61_quick_ex_proof :
  exists a,
    snd (run decimal ex61_fs Small false 2 (repeat (ex61_file 0) 200) (repeat (repeat [0; 0; 0]%Q 2) 200) ValueError
           (history decimal ex61_fs Small (repeat (ex61_file 0) 200) (Disk true None) [Event true 2 (repeat (repeat [0; 0; 0]%Q 2) 200) ValueError None])) = Ok a /\
    nth 199 a [] = repeat [0; 0; 0]%Q 2.
Proof.
  destruct (C61_quick_refuted_proof decimal ex61_fs Small 2 (repeat (ex61_file 0) 200) (repeat (nth 0 ex61_tables []) 200) (Disk true None) ValueError
              (repeat (repeat [0; 0; 0]%Q 2) 200) [] false (repeat (repeat [0; 0; 0]%Q 2) 200) ValueError) as (a & E & H); auto; try lia.
  - split.
    + assert (X : forall k, Forall2 (fun f t => exists w, 3 <= w /\ holds decimal ex61_fs (list_ascii_of_string ",") w f t) (repeat (ex61_file 0) k) (repeat (nth 0 ex61_tables []) k)).
      { induction k; cbn [repeat]; constructor; auto. exists 4. split; [lia|apply (ex61_holds 0); lia]. }
      apply X.
    + apply Forall_forall. intros t Ht. apply repeat_spec in Ht. subst t. cbn. lia.
  - rewrite repeat_length. lia.
  - apply Forall_forall. intros t Ht. apply repeat_spec in Ht. subst t. reflexivity.
  - exists a. split; [exact E|]. rewrite H by (try rewrite repeat_length; lia). reflexivity.
Qed.
Example C61_batches_ex_proof :
  exists batches,
    iterate (new_generator (first_points 2 ex61_tables) [1; 0] 2 false [1; 0]) 1 (fun _ _ => []) = Ok batches /\
    map slots batches = [[([[7; 8; 9]]%Q, 0); ([[1; 2; 3]]%Q, 1)]].
Proof. eexists. split; reflexivity. Qed.
Example C61_points_ex_proof :
  forall m1 m2 e,
    snd (run decimal ex61_fs Small false 2 (map ex61_file [0; 1]) [m1; m2] e
           (history decimal ex61_fs Small (map ex61_file [0; 1]) (Disk true None) [Event false 1 [m1; m2] e None])) = Ok [[[1; 2; 3]]; [[7; 8; 9]]]%Q.
Proof.
  intros m1 m2 e. apply (C61_points_refuted_proof decimal ex61_fs Small 1 2 (map ex61_file [0; 1]) ex61_tables (Disk true None) e [m1; m2] false [m1; m2] e); auto; try lia; try discriminate.
  - apply ex61_model_files; lia.
  - constructor; [cbn; lia|]. constructor; [cbn; lia|]. constructor.
Qed.
Example C61_directory_ex_proof :
  forall m1 m2 e, snd (run decimal ex61_fs Small false 2 (map ex61_file [0; 1]) [m1; m2] e (Disk false None)) = Err FileNotFound.
Proof. intros. unfold run. rewrite (fill_ok decimal ex61_fs false 2 0 (map ex61_file [0; 1]) ex61_tables); auto; [apply ex61_model_files; lia|discriminate]. Qed.
