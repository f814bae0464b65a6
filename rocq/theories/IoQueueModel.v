(** Model of the disk request queues and of the life of a request.
    Sources under /repo:
      lib/io/request_queue_impl_qwqr.cpp  ([QWQR]: two queues, writes first)
      lib/io/request_queue_impl_1q.cpp    ([Q1]: one queue)
      lib/io/request_queue_impl_worker.cpp, lib/io/request_with_state.cpp,
      lib/io/serving_request.cpp, include/stxxl/bits/common/semaphore.h, state.h.

    One worker thread and [NU] user threads; each user thread runs operations
    (submit, cancel, wait, stop).  One action of the model is one access to a
    shared variable: a semaphore operation, one change of a request's state, or
    a mutex-protected section.  A mutex is kept across actions exactly where the
    code performs a semaphore operation while holding it.  Interleaving is
    arbitrary.  The semaphore is its value; [operator--] is enabled only when
    the value is positive (semaphore.h:51-58; the condition variable with its
    while loop makes notify_one and spurious wakeups unobservable).

    Simplifications: the I/O itself (file::serve) is one action counted by
    [served]; io_error only adds a stored error and is left out; notify_waiters
    is modelled in WaitAnyModel; disk_queues' map from disk to queue is left
    out (one disk). *)
From Coq Require Import ZArith List Bool Arith.
From Verif Require Import SumLib.
Import ListNotations.
Local Open Scope Z_scope.

Inductive kind := Q1 | QWQR.
(** request_queue.h:29 *)
Inductive prio := PRead | PWrite | PNone.
(** request_with_state.h / request.h: states of a request *)
Inductive rstate := OP | DONE | READY2DIE.
(** request_queue_impl_worker.h: thread_state *)
Inductive tstate := RUNNING | TERMINATING | TERMINATED.

(** worker: qwqr.cpp:142-225, 1q.cpp:111-157; [w] is the local write_phase *)
Inductive wpc :=
| WDown               (** before m_sem-- at the loop head *)
| WLock               (** before taking the queue mutex *)
| WServe (r : nat)    (** has popped r, before file::serve (serving_request.cpp:58) *)
| WDone (r : nat)     (** request_with_state.cpp:84 m_state.set_to(DONE) *)
| WHandler (r : nat)  (** 86 m_on_complete *)
| WNotify (r : nat)   (** 87 notify_waiters *)
| WClear (r : nat)    (** 88-89 m_file = 0 *)
| WReady (r : nat)    (** 90 m_state.set_to(READY2DIE) *)
| WUp                 (** queue was empty: before m_sem++ *)
| WCheck              (** before reading m_thread_state *)
| WTryDown            (** before (m_sem--) == 0 *)
| WTryUp              (** before the m_sem++ that undoes it *)
| WExit               (** before m_thread_state.set_to(TERMINATED) *)
| WGone.

(** user threads *)
Inductive upc :=
| UIdle
| UProbe (r : nat)     (** add_request passed the RUNNING test; before the pending-request probe *)
| UPush (r : nat)      (** before taking the mutex and push_back *)
| UUp (r : nat)        (** before m_sem++ *)
| UFile (r : nat)      (** cancel(): m_file was non-null; before m_file->get_queue_id() *)
| UFind (r : nat)      (** cancel_request: before taking the mutex *)
| UCDown (r : nat)     (** erased; mutex held; before m_sem-- *)
| UCDone (r : nat)     (** request_with_state.cpp:65 *)
| UCNotify (r : nat)   (** 66 *)
| UCClear (r : nat)    (** 67-68 *)
| UCReady (r : nat)    (** 69 *)
| UWait (r : nat)      (** wait(): before m_state.wait_for(READY2DIE) *)
| UStopUp              (** stop_thread: TERMINATING is set, before sem++ *)
| UJoin.               (** before join *)

Inductive op := Submit (r : nat) | Cancel (r : nat) | Wait (r : nat) | Stop.

Record state := mk_state {
  queue : bool -> list nat;    (** true: m_write_queue, false: m_read_queue / m_queue *)
  locked : bool -> bool;       (** the corresponding mutex is held across actions *)
  sem : Z;
  thr : tstate;
  wph : bool;                  (** write_phase *)
  worker : wpc;
  users : nat -> upc;
  issued : nat -> bool;        (** submitted to the queue at some time *)
  rst : nat -> rstate;         (** m_state *)
  mfile : nat -> bool;         (** m_file is not null *)
  served : nat -> Z;           (** how often file::serve ran for it *)
  handled : nat -> Z;          (** how often its completion handler ran *)
  cancelled : nat -> Z }.      (** how often cancel_request reported success *)

Inductive outcome := Ok (s : state) | Blocked | UB | Misuse.

Definition bupd {A} (f : bool -> A) (i : bool) (v : A) : bool -> A :=
  fun j => if Bool.eqb j i then v else f j.

Section Queue.
Variable k : kind.
Variable p : prio.             (** m_priority_op (a constant in the code: WRITE) *)
Variable is_write : nat -> bool.
Variable NU : nat.

(** queue a request belongs to / a phase looks at *)
Definition qof (r : nat) : bool := match k with Q1 => false | QWQR => is_write r end.
Definition qsel (w : bool) : bool := match k with Q1 => false | QWQR => w end.

(** qwqr.cpp:166-175, 196-204: write_phase after an iteration *)
Definition next_phase (w nonempty : bool) : bool :=
  if w then
    let w1 := if nonempty then w else match p with PWrite => false | _ => w end in
    match p with PNone | PRead => false | _ => w1 end
  else
    let w1 := if nonempty then w else match p with PRead => true | _ => w end in
    match p with PNone | PWrite => true | _ => w1 end.

Definition set_worker st w := mk_state (queue st) (locked st) (sem st) (thr st) (wph st) w (users st)
  (issued st) (rst st) (mfile st) (served st) (handled st) (cancelled st).
Definition set_phase st w := mk_state (queue st) (locked st) (sem st) (thr st) w (worker st) (users st)
  (issued st) (rst st) (mfile st) (served st) (handled st) (cancelled st).
Definition set_user st u c := mk_state (queue st) (locked st) (sem st) (thr st) (wph st) (worker st) (upd (users st) u c)
  (issued st) (rst st) (mfile st) (served st) (handled st) (cancelled st).
Definition set_sem st v := mk_state (queue st) (locked st) v (thr st) (wph st) (worker st) (users st)
  (issued st) (rst st) (mfile st) (served st) (handled st) (cancelled st).
Definition set_thr st t := mk_state (queue st) (locked st) (sem st) t (wph st) (worker st) (users st)
  (issued st) (rst st) (mfile st) (served st) (handled st) (cancelled st).
Definition set_queue st q l := mk_state (bupd (queue st) q l) (locked st) (sem st) (thr st) (wph st) (worker st) (users st)
  (issued st) (rst st) (mfile st) (served st) (handled st) (cancelled st).
Definition set_lock st q b := mk_state (queue st) (bupd (locked st) q b) (sem st) (thr st) (wph st) (worker st) (users st)
  (issued st) (rst st) (mfile st) (served st) (handled st) (cancelled st).
(** only [Q1] holds the mutex across push_back and m_sem++ *)
Definition lock1 st q b := set_lock st q (match k with Q1 => b | QWQR => locked st q end).
Definition set_issued st r := mk_state (queue st) (locked st) (sem st) (thr st) (wph st) (worker st) (users st)
  (upd (issued st) r true) (rst st) (mfile st) (served st) (handled st) (cancelled st).
Definition set_rst st r x := mk_state (queue st) (locked st) (sem st) (thr st) (wph st) (worker st) (users st)
  (issued st) (upd (rst st) r x) (mfile st) (served st) (handled st) (cancelled st).
Definition clear_file st r := mk_state (queue st) (locked st) (sem st) (thr st) (wph st) (worker st) (users st)
  (issued st) (rst st) (upd (mfile st) r false) (served st) (handled st) (cancelled st).
Definition inc_served st r := mk_state (queue st) (locked st) (sem st) (thr st) (wph st) (worker st) (users st)
  (issued st) (rst st) (mfile st) (upd (served st) r (served st r + 1)) (handled st) (cancelled st).
Definition inc_handled st r := mk_state (queue st) (locked st) (sem st) (thr st) (wph st) (worker st) (users st)
  (issued st) (rst st) (mfile st) (served st) (upd (handled st) r (handled st r + 1)) (cancelled st).
Definition inc_cancelled st r := mk_state (queue st) (locked st) (sem st) (thr st) (wph st) (worker st) (users st)
  (issued st) (rst st) (mfile st) (served st) (handled st) (upd (cancelled st) r (cancelled st r + 1)).

(** semaphore.h:51-58 *)
Definition down (st : state) (f : state -> Z -> outcome) : outcome :=
  if sem st <=? 0 then Blocked else let v := sem st - 1 in f (set_sem st v) v.
(** semaphore.h:41-48 *)
Definition up (st : state) : state := set_sem st (sem st + 1).

(** next action of the worker *)
Definition wstep (st : state) : outcome :=
  match worker st with
  | WDown => down st (fun s _ => Ok (set_worker s WLock))
  | WLock =>
      let q := qsel (wph st) in
      if locked st q then Blocked else
      match queue st q with
      | r :: l => Ok (set_worker (set_queue st q l) (WServe r))
      | [] => Ok (set_worker st WUp)
      end
  | WServe r => Ok (set_worker (inc_served st r) (WDone r))
  | WDone r => Ok (set_worker (set_rst st r DONE) (WHandler r))
  | WHandler r => Ok (set_worker (inc_handled st r) (WNotify r))
  | WNotify r => Ok (set_worker st (WClear r))
  | WClear r => if mfile st r then Ok (set_worker (clear_file st r) (WReady r)) else UB
  | WReady r => Ok (set_worker (set_phase (set_rst st r READY2DIE) (next_phase (wph st) true)) WCheck)
  | WUp => Ok (set_worker (set_phase (up st) (next_phase (wph st) false)) WCheck)
  | WCheck => match thr st with
              | TERMINATING => Ok (set_worker st WTryDown)
              | _ => Ok (set_worker st WDown)
              end
  | WTryDown => down st (fun s v => Ok (set_worker s (if v =? 0 then WExit else WTryUp)))
  | WTryUp => Ok (set_worker (up st) WDown)
  | WExit => Ok (set_worker (set_thr st TERMINATED) WGone)
  | WGone => Blocked
  end.

Definition memb (x : nat) (l : list nat) : bool := existsb (Nat.eqb x) l.
(** std::list::erase of the found position *)
Fixpoint erase1 (r : nat) (l : list nat) : list nat :=
  match l with [] => [] | x :: t => if Nat.eqb x r then t else x :: erase1 r t end.

Definition busy (c : upc) : bool := match c with UIdle | UWait _ => false | _ => true end.

(** next action of user [u]; [o] is the operation an idle user starts *)
Definition ustep (st : state) (u : nat) (o : op) : outcome :=
  if Nat.ltb u NU then
  match users st u with
  | UIdle =>
      match o with
      | Submit r => (* qwqr.cpp:56-57, 1q.cpp:57-58; a request object is submitted once (file::aread/awrite) *)
          if issued st r then Misuse else
          match thr st with
          | RUNNING => Ok (set_user (set_issued st r) u (UProbe r))
          | _ => Misuse end
      | Cancel r => (* request_with_state.cpp:60 if (m_file) *)
          if issued st r then
            if mfile st r then Ok (set_user st u (UFile r)) else Ok st
          else Misuse
      | Wait r => if issued st r then Ok (set_user st u (UWait r)) else Misuse
      | Stop => (* request_queue_impl_worker.cpp:46-48, from the destructor: no other
                   thread may be using the queue any more *)
          match thr st with
          | RUNNING => if existsb (fun v => busy (users st v)) (seq 0 NU) then Misuse
                       else Ok (set_user (set_thr st TERMINATING) u UStopUp)
          | _ => Misuse end
      end
  | UProbe r => (* qwqr.cpp:64-73 / 81-90 the other queue's mutex; 1q.cpp:63-71 *)
      let q := match k with Q1 => false | QWQR => negb (is_write r) end in
      if locked st q then Blocked else Ok (set_user st u (UPush r))
  | UPush r =>
      let q := qof r in
      if locked st q then Blocked else
      let st' := set_queue st q (queue st q ++ [r]) in
      (* 1q.cpp:73-76 keeps the mutex until after m_sem++, qwqr.cpp releases it before *)
      Ok (set_user (lock1 st' q true) u (UUp r))
  | UUp r =>
      let st' := up st in
      Ok (set_user (lock1 st' (qof r) false) u UIdle)
  | UFile r => (* second read of m_file: null if the request has completed meanwhile *)
      if mfile st r then
        match thr st with RUNNING => Ok (set_user st u (UFind r)) | _ => Misuse end
      else UB
  | UFind r =>
      let q := qof r in
      if locked st q then Blocked else
      if memb r (queue st q)
      then Ok (set_user (inc_cancelled (set_lock (set_queue st q (erase1 r (queue st q))) q true) r) u (UCDown r))
      else Ok (set_user st u UIdle)
  | UCDown r => down st (fun s _ => Ok (set_user (set_lock s (qof r) false) u (UCDone r)))
  | UCDone r => Ok (set_user (set_rst st r DONE) u (UCNotify r))
  | UCNotify r => Ok (set_user st u (UCClear r))
  | UCClear r => if mfile st r then Ok (set_user (clear_file st r) u (UCReady r)) else UB
  | UCReady r => Ok (set_user (set_rst st r READY2DIE) u UIdle)
  | UWait r => match rst st r with READY2DIE => Ok (set_user st u UIdle) | _ => Blocked end
  | UStopUp => Ok (set_user (up st) u UJoin)
  | UJoin => match thr st with TERMINATED => Ok (set_user st u UIdle) | _ => Blocked end
  end
  else Misuse.

Inductive event := W | U (u : nat) (o : op).
Definition step (st : state) (e : event) : outcome :=
  match e with W => wstep st | U u o => ustep st u o end.

(** just after start_thread *)
Definition init : state := mk_state (fun _ => []) (fun _ => false) 0 RUNNING true WDown (fun _ => UIdle)
  (fun _ => false) (fun _ => OP) (fun _ => true) (fun _ => 0) (fun _ => 0) (fun _ => 0).

Inductive reach : state -> Prop :=
| reach_init : reach init
| reach_step st e st' : reach st -> step st e = Ok st' -> reach st'.

(** executable form of [reach]: None if some step is not possible *)
Fixpoint run (st : state) (es : list event) : option state :=
  match es with
  | [] => Some st
  | e :: r => match step st e with Ok st' => run st' r | _ => None end
  end.
End Queue.
