(** C27, C28, C29: life of an I/O request, cancelling, shutdown.
    [k] ranges over the two queue implementations, [p] over the priority
    setting, [isw] tells reads from writes, [NU] is the number of user threads. *)
From Coq Require Import ZArith List Bool Arith.
From Verif Require Import SumLib IoQueueModel IoQueueSpec IoQueueProofs.
Import ListNotations.
Local Open Scope Z_scope.

Theorem C27_exactly_once k p isw NU st : reach k p isw NU st -> forall r,
  0 <= served st r /\ 0 <= cancelled st r /\ served st r + cancelled st r <= 1 /\ 0 <= handled st r <= served st r /\
  (rst st r = READY2DIE -> finished st r) /\
  (issued st r = false -> served st r = 0 /\ cancelled st r = 0) /\
  (issued st r = true -> pending st r \/ worker_has (worker st) r \/ (exists u, user_has (users st u) r) \/ finished st r).
Proof. intros R r. exact (req_facts k isw NU st r (reach_inv k p isw NU st R)). Qed.

Theorem C27_wait_returns_when_finished k p isw NU st u o r st' : reach k p isw NU st ->
  users st u = UWait r -> step k p isw NU st (U u o) = Ok st' -> finished st r.
Proof. intro R. exact (wait_finished k p isw NU st u o r st' (reach_inv k p isw NU st R)). Qed.

Theorem C27_cancel_answer k p isw NU st u o r st' : reach k p isw NU st ->
  users st u = UFind r -> step k p isw NU st (U u o) = Ok st' ->
  (users st' u = UIdle /\ ~ pending st r /\ cancelled st' r = cancelled st r) \/
  (users st' u = UCDown r /\ pending st r /\ ~ pending st' r /\ served st' r = 0 /\ cancelled st' r = 1).
Proof. intro R. exact (cancel_false k p isw NU st u o r st' (reach_inv k p isw NU st R)). Qed.

Theorem C27_no_undefined_behaviour_but_cancel k p isw NU st e : reach k p isw NU st -> step k p isw NU st e = UB ->
  exists u o r, e = U u o /\ users st u = UFile r /\ mfile st r = false.
Proof. intro R. exact (ub_only_cancel k p isw NU st e (reach_inv k p isw NU st R)). Qed.

Theorem C27_worker_finishes_everything k p isw NU st : reach k p isw NU st -> thr st = RUNNING -> calm st ->
  exists n st', worker_run k p st n = Some st' /\ issued st' = issued st /\ users st' = users st /\
    forall r, issued st' r = true -> finished st' r.
Proof.
  intros R T C. apply (drain_running k p isw NU st (reach_inv k p isw NU st R) T).
  intro u. destruct (C u) as [->|(x & ->)]; exact I.
Qed.

(** C28 as stated is false: both queue implementations can deadlock, and cancel can read a null pointer. *)
Theorem C28_cancel_deadlock_refuted : forall k, exists p isw NU st u r,
  reach k p isw NU st /\ users st u = UCDown r /\ deadlock k p isw NU st.
Proof.
  intro k. exists PWrite, (fun _ => true), 1%nat.
  destruct (run_witness k PWrite (fun _ => true) 1
    [U 0 (Submit 7); U 0 Stop; U 0 Stop; U 0 Stop; W; U 0 (Cancel 7); U 0 Stop; U 0 Stop]
    (fun st => users st 0%nat = UCDown 7%nat /\ sem st = 0 /\ worker st = WLock /\ locked st (qsel k (wph st)) = true))
    as (st & R & H1 & H2 & H3 & H4).
  { destruct k; vm_compute; auto. }
  exists st, 0%nat, 7%nat. split; [exact R|]. split; [exact H1|]. exact (deadlock_state k PWrite (fun _ => true) 1 st 7 eq_refl H1 H2 H3 H4).
Qed.

Theorem C28_cancel_null_refuted : forall k, exists p isw NU st u o r,
  reach k p isw NU st /\ users st u = UFile r /\ step k p isw NU st (U u o) = UB.
Proof.
  intro k. exists PWrite, (fun _ => true), 1%nat.
  destruct (run_witness k PWrite (fun _ => true) 1
    [U 0 (Submit 7); U 0 Stop; U 0 Stop; U 0 Stop; W; W; U 0 (Cancel 7); W; W; W; W; W]
    (fun st => users st 0%nat = UFile 7%nat /\ step k PWrite (fun _ => true) 1 st (U 0 Stop) = UB))
    as (st & R & H1 & H2).
  { destruct k; vm_compute; auto. }
  exists st, 0%nat, Stop, 7%nat. auto.
Qed.

(** What holds: with one cancelling thread the wait for the token can only happen when it removed the
    last pending request just after the worker took a token for it. *)
Theorem C28_cancel_blocks_only_on_last_partial k p isw NU st u o r : reach k p isw NU st -> users st u = UCDown r ->
  (forall v, v <> u -> users st v = UIdle \/ exists x, users st v = UWait x) ->
  step k p isw NU st (U u o) = Blocked ->
  queue st true = [] /\ queue st false = [] /\ (worker st = WUp \/ worker st = WLock).
Proof. intro R. exact (cancel_blocks k p isw NU st u o r (reach_inv k p isw NU st R)). Qed.

(** C29 as stated is false: the worker can leave while an accepted request is still queued. *)
Theorem C29_shutdown_loses_request_refuted : forall k, exists p isw NU st r,
  reach k p isw NU st /\ worker st = WGone /\ thr st = TERMINATED /\ (forall u, users st u = UIdle) /\
  issued st r = true /\ pending st r /\ rst st r = OP.
Proof.
  intro k. exists PWrite, (fun _ => true), 1%nat.
  destruct (run_witness k PWrite (fun _ => true) 1
    [U 0 (Submit 7); U 0 Stop; U 0 Stop; U 0 Stop; U 0 (Submit 8); U 0 Stop; U 0 Stop; U 0 Stop;
     W; W; W; W; W; W; W; W; U 0 Stop; W; W; W; U 0 Stop; U 0 Stop]
    (fun st => worker st = WGone /\ thr st = TERMINATED /\ users st 0%nat = UIdle /\
       issued st 8%nat = true /\ pending st 8%nat /\ rst st 8%nat = OP))
    as (st & R & H1 & H2 & H3 & H4).
  { destruct k; vm_compute; auto 10. }
  exists st, 8%nat. split; [exact R|]. split; [exact H1|]. split; [exact H2|]. split; [|exact H4].
  intros [|u]; [exact H3|]. apply (i_out _ _ _ _ (reach_inv _ _ _ _ st R)). auto with arith.
Qed.

(** What holds: if the two actions of stop_thread are not separated, nothing is lost. *)
Theorem C29_shutdown_complete_partial k p isw NU st : reach_atomic_stop k p isw NU st -> worker st = WGone ->
  forall r, issued st r = true -> finished st r.
Proof. exact (atomic_stop_complete k p isw NU st). Qed.

Theorem C29_shutdown_terminates_partial k p isw NU st :
  reach_atomic_stop k p isw NU st -> thr st <> RUNNING -> (forall u, users st u <> UStopUp) ->
  exists n st', worker_run k p st n = Some st' /\ worker st' = WGone /\ thr st' = TERMINATED /\
    forall r, issued st r = true -> finished st' r.
Proof. exact (shutdown_terminates k p isw NU st). Qed.

(** Examples: two requests, one served, one cancelled, a waiter, then shutdown. *)
Definition ex_es : list event :=
  [U 0 (Submit 1); U 1 (Submit 2); U 1 Stop; U 1 Stop; U 1 Stop; U 0 Stop; U 0 Stop; U 0 Stop;
   U 1 (Cancel 1); U 1 Stop; U 1 Stop; U 1 Stop; U 0 (Wait 2); U 1 Stop; U 1 Stop; U 1 Stop; U 1 Stop].
Example C27_ex1 :
  match run QWQR PWrite (fun r => Nat.eqb r 1) 2 init ex_es with
  | Some st => cancelled st 1%nat = 1 /\ rst st 1%nat = READY2DIE /\ In 2%nat (queue st false) /\ calm st /\ thr st = RUNNING
  | None => False end.
Proof.
  vm_compute. repeat split; auto.
  intro u. destruct u as [|[|u]]; eauto.
Qed.
Example C27_ex2 :
  match run QWQR PWrite (fun r => Nat.eqb r 1) 2 init (ex_es ++ repeat W 12) with
  | Some st => served st 2%nat = 1 /\ handled st 2%nat = 1 /\ rst st 2%nat = READY2DIE
  | None => False end.
Proof. vm_compute. auto. Qed.
Example C29_ex :
  match run Q1 PWrite (fun _ => true) 1 init
    [U 0 (Submit 7); U 0 Stop; U 0 Stop; U 0 Stop; U 0 (Submit 8); U 0 Stop; U 0 Stop; U 0 Stop;
     W; W; W; W; W; W; W; W; U 0 Stop; U 0 Stop; W; W; W; W; W; W; W; W; W; W; W; W; W; W] with
  | Some st => worker st = WGone /\ served st 8%nat = 1 /\ rst st 8%nat = READY2DIE
  | None => False end.
Proof. vm_compute. auto. Qed.

Print Assumptions C27_exactly_once.
Print Assumptions C27_wait_returns_when_finished.
Print Assumptions C27_cancel_answer.
Print Assumptions C27_no_undefined_behaviour_but_cancel.
Print Assumptions C27_worker_finishes_everything.
Print Assumptions C28_cancel_deadlock_refuted.
Print Assumptions C28_cancel_null_refuted.
Print Assumptions C28_cancel_blocks_only_on_last_partial.
Print Assumptions C29_shutdown_loses_request_refuted.
Print Assumptions C29_shutdown_complete_partial.
Print Assumptions C29_shutdown_terminates_partial.
