(** Statements for C27-C29 in terms of requests, threads and what can run. *)
From Coq Require Import ZArith List Bool Arith.
From Verif Require Import SumLib IoQueueModel.
Import ListNotations.
Local Open Scope Z_scope.

(** wait() may return: the request was served and its handler ran, or it was cancelled; never both *)
Definition finished (st : state) (r : nat) : Prop :=
  rst st r = READY2DIE /\
  ((served st r = 1 /\ handled st r = 1 /\ cancelled st r = 0) \/
   (served st r = 0 /\ handled st r = 0 /\ cancelled st r = 1)).

(** request waits in a queue / a thread is just dealing with it *)
Definition pending (st : state) (r : nat) : Prop := In r (queue st true) \/ In r (queue st false).
Definition worker_has (w : wpc) (r : nat) : Prop :=
  match w with
  | WServe x | WDone x | WHandler x | WNotify x | WClear x | WReady x => x = r
  | _ => False end.
Definition user_has (c : upc) (r : nat) : Prop :=
  match c with
  | UProbe x | UPush x | UCDown x | UCDone x | UCNotify x | UCClear x | UCReady x => x = r
  | _ => False end.

(** no thread can take a step *)
Definition deadlock k p isw NU (st : state) : Prop :=
  forall e st', step k p isw NU st e <> Ok st'.

(** only waiting or doing nothing *)
Definition calm (st : state) : Prop := forall u, users st u = UIdle \/ exists r, users st u = UWait r.

(** executions in which nothing happens between the two actions of stop_thread *)
Inductive reach_atomic_stop k p isw NU : state -> Prop :=
| ra_init : reach_atomic_stop k p isw NU init
| ra_step st e st' : reach_atomic_stop k p isw NU st ->
    (forall u, users st u = UStopUp -> exists o, e = U u o) ->
    step k p isw NU st e = Ok st' -> reach_atomic_stop k p isw NU st'.

(** n actions of the worker in a row *)
Fixpoint worker_run k p (st : state) (n : nat) : option state :=
  match n with
  | O => Some st
  | S m => match wstep k p st with Ok st' => worker_run k p st' m | _ => None end
  end.
