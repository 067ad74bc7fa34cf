(** Running a kernel along a given schedule; used to exhibit executions. *)
From Coq Require Import List Arith Lia Bool.
From Verif Require Import Cuda CudaFacts.
Import ListNotations.

Section Exec.
  Context {M : Type}.
  (** [(b, Some t)]: thread [t] of block [b] performs its next action;
      [(b, None)]: the barrier of block [b] opens. *)
  Definition exec1 (c : nat * option nat) (s : state M) : option (state M) :=
    obind (nth_error (snd s) (fst c)) (fun blk =>
      match snd c with
      | Some t => obind (nth_error blk t) (fun th =>
          match th with
          | (a :: ph) :: rest => option_map (fun m' => (m', upd (fst c) (upd t (ph :: rest) blk) (snd s))) (a (fst s))
          | _ => None
          end)
      | None => if forallb (fun t => waiting t || exited t) blk && existsb waiting blk
                then Some (fst s, upd (fst c) (map release blk) (snd s)) else None
      end).
  Fixpoint exec (cs : list (nat * option nat)) (s : state M) : option (state M) :=
    match cs with
    | [] => Some s
    | c :: r => obind (exec1 c s) (exec r)
    end.
  Lemma exec1_step c s s' : exec1 c s = Some s' -> step s s'.
  Proof.
    destruct c as [b [t|]], s as [m bs]; unfold exec1; cbn [fst snd].
    - destruct (nth_error bs b) as [blk|] eqn:Eb; cbn [obind]; [|discriminate].
      destruct (nth_error blk t) as [th|] eqn:Et; cbn [obind]; [|discriminate].
      destruct th as [|[|a ph] rest]; try discriminate. destruct (a m) as [m'|] eqn:Ea; cbn [option_map]; [|discriminate].
      intros [= <-]. econstructor; eauto.
    - destruct (nth_error bs b) as [blk|] eqn:Eb; cbn [obind]; [|discriminate].
      destruct (forallb _ blk && existsb waiting blk) eqn:E; [|discriminate]. apply andb_true_iff in E as [E1 E2].
      intros [= <-]. apply step_sync; auto.
      + apply Forall_forall. rewrite forallb_forall in E1. auto.
      + apply Exists_exists. apply existsb_exists in E2. auto.
  Qed.
  Definition finishedb (s : state M) : bool := forallb (forallb exited) (snd s).
  Lemma finishedb_finished s : finishedb s = true -> finished s.
  Proof.
    unfold finishedb, finished. rewrite forallb_forall. intros H. apply Forall_forall. intros blk Hb. apply Forall_forall.
    specialize (H blk Hb). rewrite forallb_forall in H. auto.
  Qed.
  Lemma exec_run cs : forall s s', exec cs s = Some s' -> finishedb s' = true -> some_run s (fst s').
  Proof.
    induction cs as [|c cs IH]; intros s s' E F; cbn in E.
    - injection E as <-. constructor. now apply finishedb_finished.
    - destruct (exec1 c s) as [s1|] eqn:E1; cbn in E; [|discriminate]. eapply some_run_step; [eapply exec1_step; eauto|eauto].
  Qed.
  (** Some thread is about to fault. *)
  Definition faultyb (s : state M) : bool :=
    existsb (existsb (fun th => match th with (a :: _) :: _ => match a (fst s) with None => true | _ => false end | _ => false end)) (snd s).
  Lemma faultyb_faulty s : faultyb s = true -> faulty s.
  Proof.
    unfold faultyb. rewrite existsb_exists. intros (blk & Hb & H). apply existsb_exists in H as (th & Ht & H).
    destruct th as [|[|a ph] rest]; try discriminate. exists blk, a, ph, rest. split; auto. split; auto. destruct (a (fst s)); [discriminate|auto].
  Qed.
  Lemma exec_fault cs : forall s s', exec cs s = Some s' -> faultyb s' = true -> some_fault s.
  Proof.
    induction cs as [|c cs IH]; intros s s' E F; cbn in E.
    - injection E as <-. constructor. now apply faultyb_faulty.
    - destruct (exec1 c s) as [s1|] eqn:E1; cbn in E; [|discriminate]. eapply some_fault_step; [eapply exec1_step; eauto|eauto].
  Qed.
  (** Block after block, phase after phase, thread after thread. *)
  Definition in_order (bs : list (block M)) : list (nat * option nat) :=
    flat_map (fun b => flat_map (fun p =>
        (if p =? 0 then [] else [(b, None)]) ++
        flat_map (fun t => map (fun _ => (b, Some t)) (nth p (nth t (nth b bs []) []) [])) (seq 0 (length (nth b bs []))))
      (seq 0 (list_max (map (@length _) (nth b bs []))))) (seq 0 (length bs)).
End Exec.
