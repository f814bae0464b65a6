(** Model of wait_any.  Sources under /repo:
      include/stxxl/bits/io/request_operations.h:103-141 (wait_any)
      lib/io/request_with_waiters.cpp:23-52 (add_waiter, delete_waiter, notify_waiters)
      include/stxxl/bits/common/onoff_switch.h:45-66 (on, wait_for_on)
      lib/io/request_with_state.cpp (poll, completed, cancel: set DONE, then notify_waiters)

    One thread executes wait_any on requests 0..N-1; one thread per request
    finishes it at an arbitrary time.  Each action is one access to shared
    data; m_waiters_mutex is kept across notify_waiters' two accesses to the
    switch.  [sp] says whether condition variables may wake up spuriously (the
    C++ standard allows it); [fails r] whether request r ends with an io_error,
    which poll() and check_errors() throw.

    Simplification: m_waiters holds the switch of this wait_any call or not;
    switches of other calls are independent. *)
From Coq Require Import List Bool Arith.
From Verif Require Import SumLib.
Import ListNotations.

(** the thread in wait_any *)
Inductive apc :=
| AAdd (i : nat)                       (** before add_waiter on request i; registered on 0..i-1 *)
| AUndo (j res : nat)                  (** res was done: before delete_waiter on j-1 (113-119) *)
| ACheck (res : nat)                   (** check_errors (121) *)
| ASwitch                              (** before wait_for_on *)
| ASleep                               (** in m_cond.wait *)
| ADel (i : nat) (res : option nat)    (** scan (130-135): before delete_waiter on i *)
| APoll (i : nat)                      (** before poll on i; result == reqs_end *)
| ARet (res : option nat)              (** returned; None is reqs_end; the switch is destroyed *)
| AThrow.                              (** left by exception; the switch is destroyed *)

(** the thread finishing request r *)
Inductive cpc := CRun | CLock | CNotify | CDone.

Record state := mk_state {
  pc : apc;
  comp : nat -> cpc;
  done : nat -> bool;     (** m_state is DONE or READY2DIE *)
  err : nat -> bool;      (** an error is stored *)
  reg : nat -> bool;      (** the switch is in m_waiters *)
  held : nat -> bool;     (** m_waiters_mutex held by the finishing thread *)
  on : bool }.            (** m_on *)

Inductive outcome := Ok (s : state) | Blocked | UB.

Section WaitAny.
Variable N : nat.
Variable sp : bool.
Variable fails : nat -> bool.

Definition set_pc st c := mk_state c (comp st) (done st) (err st) (reg st) (held st) (on st).
Definition set_comp st r c := mk_state (pc st) (upd (comp st) r c) (done st) (err st) (reg st) (held st) (on st).
Definition set_done st r := mk_state (pc st) (comp st) (upd (done st) r true) (err st) (reg st) (held st) (on st).
Definition set_err st r b := mk_state (pc st) (comp st) (done st) (upd (err st) r b) (reg st) (held st) (on st).
Definition set_reg st r b := mk_state (pc st) (comp st) (done st) (err st) (upd (reg st) r b) (held st) (on st).
Definition set_held st r b := mk_state (pc st) (comp st) (done st) (err st) (reg st) (upd (held st) r b) (on st).
Definition set_on st := mk_state (pc st) (comp st) (done st) (err st) (reg st) (held st) true.

Definition alive (st : state) : bool := match pc st with ARet _ | AThrow => false | _ => true end.

(** after the scan handled request i *)
Definition next (i : nat) (res : option nat) : apc :=
  if Nat.ltb (S i) N then ADel (S i) res else ARet res.

(** one action of the thread in wait_any *)
Definition astep (st : state) : outcome :=
  match pc st with
  | AAdd i =>
      if held st i then Blocked else
      if err st i then Ok (set_pc st AThrow) else    (* poll: check_errors throws *)
      if done st i then Ok (set_pc st (if Nat.eqb i 0 then ACheck i else AUndo i i))
      else Ok (set_pc (set_reg st i true) (if Nat.ltb (S i) N then AAdd (S i) else ASwitch))
  | AUndo j res =>
      if held st (pred j) then Blocked else
      Ok (set_pc (set_reg st (pred j) false) (if Nat.eqb (pred j) 0 then ACheck res else AUndo (pred j) res))
  | ACheck res => if err st res then Ok (set_pc st AThrow) else Ok (set_pc st (ARet (Some res)))
  | ASwitch => if on st then Ok (set_pc st (ADel 0 None)) else Ok (set_pc st ASleep)
  | ASleep => Blocked
  | ADel i res =>
      if held st i then Blocked else
      Ok (set_pc (set_reg st i false) (match res with None => APoll i | Some _ => next i res end))
  | APoll i =>
      if err st i then Ok (set_pc st AThrow) else
      Ok (set_pc st (next i (if done st i then Some i else None)))
  | ARet _ | AThrow => Blocked
  end.

(** one action of the thread finishing r *)
Definition cstep (st : state) (r : nat) : outcome :=
  match comp st r with
  | CRun => Ok (set_comp (set_done (set_err st r (fails r)) r) r CLock)
  | CLock => (* notify_waiters takes the mutex; on() sets m_on of a registered switch *)
      if held st r then Blocked else
      if reg st r then
        if alive st then Ok (set_comp (set_on (set_held st r true)) r CNotify)
        else UB                                     (* dangling pointer in m_waiters *)
      else Ok (set_comp st r CDone)
  | CNotify => (* m_cond.notify_one, then release of the mutex *)
      let st' := set_comp (set_held st r false) r CDone in
      Ok (match pc st with ASleep => set_pc st' (ADel 0 None) | _ => st' end)
  | CDone => Blocked
  end.

Inductive event := A | C (r : nat) | Spurious.
Definition step (st : state) (e : event) : outcome :=
  match e with
  | A => astep st
  | C r => cstep st r
  | Spurious => if sp then match pc st with ASleep => Ok (set_pc st (ADel 0 None)) | _ => Blocked end else Blocked
  end.

(** the caller has just entered wait_any on N requests; other requests' state is arbitrary *)
Definition init (dn : nat -> bool) : state :=
  mk_state (if Nat.eqb N 0 then ASwitch else AAdd 0) (fun r => if dn r then CDone else CRun) dn (fun r => dn r && fails r)
    (fun _ => false) (fun _ => false) false.

Inductive reach : state -> Prop :=
| reach_init dn : reach (init dn)
| reach_step st e st' : reach st -> step st e = Ok st' -> reach st'.

Fixpoint run (st : state) (es : list event) : option state :=
  match es with
  | [] => Some st
  | e :: l => match step st e with Ok st' => run st' l | _ => None end
  end.
Fixpoint arun (st : state) (n : nat) : option state :=
  match n with O => Some st | S m => match astep st with Ok st' => arun st' m | _ => None end end.
End WaitAny.
