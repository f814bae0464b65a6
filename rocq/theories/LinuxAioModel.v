(** Model of the request queue of Linux asynchronous I/O.  Sources under /repo:
      lib/io/linuxaio_queue.cpp            ([Q])
      lib/io/linuxaio_request.cpp          ([R])
      lib/io/request_queue_impl_worker.cpp ([S], [stop_thread])
      include/stxxl/bits/common/semaphore.h 41-58, lib/io/request_with_state.cpp 81-91.

    A machine with two threads of the queue (posting, waiting), the kernel, callers of [add_request] and
    [cancel_request], and the destructor.  Every operation on a semaphore, every critical section of
    [waiting_mtx] and every system call is one atomic step.  Requests are numbers.

    Simplified: [posted_mtx] protects nothing and is left out; the [int] semaphores do not overflow; the
    statistics calls are the ones of IoStatsModel.v; [io_getevents] and [io_submit] do not fail in other ways
    than [EAGAIN] (their failures throw out of the thread); [cancel_aio] (R 110-124), which nobody calls, is not
    modelled; the public calls are not made any more once the destructor runs; the assignment of [req] in
    Q 142 that drops the previous reference is not modelled. *)
From Coq Require Import ZArith List Bool Arith.
Import ListNotations.

(** Q 47-58: the negotiation with the kernel.  [limit]: the largest number of events that [io_setup] grants;
    the [int] is 32 bits wide, a result outside of it is undefined ([NUndef]); [NFail]: exception of 56.
    [io_setup] fails with EINVAL for numbers that are not positive. *)
Inductive nego := NOk (max_events : Z) | NFail (max_events : Z) | NUndef | NFuel.
Fixpoint negotiate (fuel : nat) (limit max_events : Z) : nego :=
  match fuel with
  | O => NFuel
  | S f =>
    if max_events <=? 0 then NFail max_events
    else if max_events <=? limit then NOk max_events
    else if 1 <? max_events
         then (let x := 2 * max_events in if x <? 2 ^ 31 then negotiate f limit x else NUndef)
         else NFail max_events
  end%Z.
(** Q 39-45; the [int] has at most 31 halvings or doublings. *)
Definition queue_setup (limit desired : Z) : nego := negotiate 33 limit (if desired =? 0 then 64 else desired)%Z.

(** Kernel event: the request ([aio_data], R 55) and whether the whole transfer succeeded ([res]). *)
Definition kev : Type := (nat * bool)%type.

(** Position inside [handle_events] (Q 179-190) for the first event of the list. *)
Inductive hpc := HComplete (* 185-186 *) | HFree (* 187 *) | HPosted (* 188 *).

(** Posting thread, Q 125-177. *)
Inductive ppc :=
| PTop                                        (* 133 *)
| PChk (v : nat)                              (* 136 *)
| PLock                                       (* 139-144 *)
| PComp                                       (* 172 *)
| PFree (r : nat)                             (* 146 *)
| PSub (r : nat)                              (* 149 *)
| PGet (r : nat)                              (* 155 *)
| PHnd (evs : list kev) (h : hpc) (r : nat)   (* 161 *)
| PInc                                        (* 165 *)
| PEnd.                                       (* 176, 236 *)

(** Waiting thread, Q 193-229. *)
Inductive wpc :=
| WTop                                        (* 201 *)
| WChk (v : nat)                              (* 204 *)
| WGet                                        (* 210 *)
| WInc (evs : list kev)                       (* 223 *)
| WHnd (evs : list kev) (h : hpc)             (* 225 *)
| WEnd.                                       (* 228, 252 *)

(** Destructor, Q 69-74 with S 48-81: not called; state of the posting thread set; semaphore raised (join);
    the same for the waiting thread; returned. *)
Inductive dpc := D0 | D1 | D2 | D3 | D4 | D5.

Record st := mkSt {
  waiting : list nat;       (* waiting_requests *)
  nw : nat; nf : nat; np : nat;  (* num_waiting_requests, num_free_events, num_posted_requests *)
  kern : list nat;          (* transfers the kernel works on *)
  evts : list kev;          (* events not yet fetched *)
  ptrs : list nat;          (* request_ptr objects allocated by R 55 and not deleted *)
  pp : ppc; wp : wpc;
  mtx : option nat;         (* waiting_mtx is held by cancel_request of this request, at Q 114 *)
  dp : dpc }.

(** What can be observed. *)
Inductive obs :=
| OAdd (r : nat)                  (* add_request returned *)
| OCancel (r : nat)               (* the request became ready because of cancel_request *)
| OSubmit (r : nat)               (* io_submit accepted the request *)
| OAgain (r : nat)                (* io_submit said EAGAIN *)
| OKern (r : nat) (ok : bool)     (* the kernel finished the transfer *)
| ODone (r : nat) (err : bool).   (* the request became ready; [err]: wait() will throw *)

(** Q 35-67 after a successful negotiation. *)
Definition init (n : nat) : st := mkSt [] 0 n 0 [] [] [] PTop WTop None D0.

Definition set_pp (p : ppc) (s : st) : st :=
  mkSt (waiting s) (nw s) (nf s) (np s) (kern s) (evts s) (ptrs s) p (wp s) (mtx s) (dp s).
Definition set_wp (w : wpc) (s : st) : st :=
  mkSt (waiting s) (nw s) (nf s) (np s) (kern s) (evts s) (ptrs s) (pp s) w (mtx s) (dp s).
Definition set_nw (x : nat) (s : st) : st :=
  mkSt (waiting s) x (nf s) (np s) (kern s) (evts s) (ptrs s) (pp s) (wp s) (mtx s) (dp s).
Definition set_nf (x : nat) (s : st) : st :=
  mkSt (waiting s) (nw s) x (np s) (kern s) (evts s) (ptrs s) (pp s) (wp s) (mtx s) (dp s).
Definition set_np (x : nat) (s : st) : st :=
  mkSt (waiting s) (nw s) (nf s) x (kern s) (evts s) (ptrs s) (pp s) (wp s) (mtx s) (dp s).
Definition set_waiting (l : list nat) (s : st) : st :=
  mkSt l (nw s) (nf s) (np s) (kern s) (evts s) (ptrs s) (pp s) (wp s) (mtx s) (dp s).
Definition set_kern (l : list nat) (s : st) : st :=
  mkSt (waiting s) (nw s) (nf s) (np s) l (evts s) (ptrs s) (pp s) (wp s) (mtx s) (dp s).
Definition set_evts (l : list kev) (s : st) : st :=
  mkSt (waiting s) (nw s) (nf s) (np s) (kern s) l (ptrs s) (pp s) (wp s) (mtx s) (dp s).
Definition set_ptrs (l : list nat) (s : st) : st :=
  mkSt (waiting s) (nw s) (nf s) (np s) (kern s) (evts s) l (pp s) (wp s) (mtx s) (dp s).
Definition set_mtx (m : option nat) (s : st) : st :=
  mkSt (waiting s) (nw s) (nf s) (np s) (kern s) (evts s) (ptrs s) (pp s) (wp s) m (dp s).
Definition set_dp (d : dpc) (s : st) : st :=
  mkSt (waiting s) (nw s) (nf s) (np s) (kern s) (evts s) (ptrs s) (pp s) (wp s) (mtx s) d.

(** [post_thread_state() == TERMINATING], [wait_thread_state() == TERMINATING] (S 51) while the thread runs. *)
Definition pterm (s : st) : bool := match dp s with D0 => false | _ => true end.
Definition wterm (s : st) : bool := match dp s with D0 | D1 | D2 => false | _ => true end.

(** [std::find] and [erase] (Q 104-108), and [delete] of one pointer. *)
Fixpoint erase (r : nat) (l : list nat) : list nat :=
  match l with [] => [] | x :: t => if (x =? r)%nat then t else x :: erase r t end.
Definition mem (r : nat) (l : list nat) : bool := existsb (Nat.eqb r) l.

(** Semaphore (semaphore.h 51-58): [--] blocks while the value is 0. *)
Definition down (v : nat) : option nat := match v with O => None | S v' => Some v' end.

(** One step of [handle_events] (Q 181-189); [fin] rebuilds the state of the running thread from the remaining
    work ([[]]: the loop is over).  Q 185 does not look at [events[e].res]. *)
Definition hstep (fin : list kev -> hpc -> st -> st) (evs : list kev) (h : hpc) (s : st) : option (st * list obs) :=
  match evs with
  | [] => None
  | (r, ok) :: rest =>
    match h with
    | HComplete => Some (fin evs HFree (set_ptrs (erase r (ptrs s)) s), [ODone r false])
    | HFree => Some (fin evs HPosted (set_nf (S (nf s)) s), [])
    | HPosted =>
      match down (np s) with
      | None => None
      | Some v => Some (fin rest HComplete (set_np v s), [])
      end
    end
  end.

(** [io_getevents] with at least one event (Q 155, 210): [k] of them at most. *)
Definition getevents (k : nat) (s : st) : option (list kev * st) :=
  match evts s with
  | [] => None
  | _ :: _ => let k' := Nat.max 1 k in Some (firstn k' (evts s), set_evts (skipn k' (evts s)) s)
  end.

(** Posting thread; [again]: the kernel answers EAGAIN; [k]: number of events it delivers. *)
Definition post_step (again : bool) (k : nat) (s : st) : option (st * list obs) :=
  match pp s with
  | PTop => match down (nw s) with None => None | Some v => Some (set_pp (PChk v) (set_nw v s), []) end
  | PChk v => Some (set_pp (if pterm s && (v =? 0)%nat then PEnd else PLock) s, [])
  | PLock =>
    match mtx s with
    | Some _ => None
    | None =>
      match waiting s with
      | r :: l => Some (set_pp (PFree r) (set_waiting l s), [])
      | [] => Some (set_pp PComp s, [])
      end
    end
  | PComp => Some (set_pp PTop (set_nw (S (nw s)) s), [])
  | PFree r => match down (nf s) with None => None | Some v => Some (set_pp (PSub r) (set_nf v s), []) end
  | PSub r =>
    (* R 66-91 *)
    let s1 := set_ptrs (r :: ptrs s) s in
    if again then Some (set_pp (PGet r) s1, [OAgain r])
    else Some (set_pp PInc (set_kern (kern s1 ++ [r]) s1), [OSubmit r])
  | PGet r =>
    match getevents k s with
    | None => None
    | Some (evs, s1) => Some (set_pp (PHnd evs HComplete r) s1, [])
    end
  | PHnd evs h r =>
    hstep (fun evs' h' s' => set_pp (match evs' with [] => PSub r | _ => PHnd evs' h' r end) s') evs h s
  | PInc => Some (set_pp PTop (set_np (S (np s)) s), [])
  | PEnd => None
  end.

(** Waiting thread. *)
Definition wait_step (k : nat) (s : st) : option (st * list obs) :=
  match wp s with
  | WTop => match down (np s) with None => None | Some v => Some (set_wp (WChk v) (set_np v s), []) end
  | WChk v => Some (set_wp (if wterm s && (v =? 0)%nat then WEnd else WGet) s, [])
  | WGet =>
    match getevents k s with
    | None => None
    | Some (evs, s1) => Some (set_wp (WInc evs) s1, [])
    end
  | WInc evs => Some (set_wp (WHnd evs HComplete) (set_np (S (np s)) s), [])
  | WHnd evs h =>
    hstep (fun evs' h' s' => set_wp (match evs' with [] => WTop | _ => WHnd evs' h' end) s') evs h s
  | WEnd => None
  end.

(** Destructor. *)
Definition destr_step (s : st) : option st :=
  match dp s with
  | D0 => None
  | D1 => Some (set_dp D2 (set_nw (S (nw s)) s))
  | D2 => match pp s with PEnd => Some (set_dp D3 s) | _ => None end
  | D3 => Some (set_dp D4 (set_np (S (np s)) s))
  | D4 => match wp s with WEnd => Some (set_dp D5 s) | _ => None end
  | D5 => None
  end.

Inductive ev :=
| EAdd (r : nat)                    (* Q 76-89 *)
| ECancel (r : nat)                 (* Q 91-112, or 119-121 when it is not found *)
| ECancelDec                        (* Q 114-116 *)
| EPost (again : bool) (k : nat)
| EWait (k : nat)
| EKern (r : nat) (ok : bool)       (* the kernel finishes a transfer, in any order *)
| EDestroy                          (* the destructor is called, S 51 *)
| EDStep.

Definition calls_ok (s : st) : bool := match dp s, mtx s with D0, None => true | _, _ => false end.

Definition step (e : ev) (s : st) : option (st * list obs) :=
  match e with
  | EAdd r =>
    if calls_ok s then Some (set_nw (S (nw s)) (set_waiting (waiting s ++ [r]) s), [OAdd r]) else None
  | ECancel r =>
    if calls_ok s
    then if mem r (waiting s)
         then Some (set_mtx (Some r) (set_waiting (erase r (waiting s)) s), [OCancel r])
         else Some (s, [])
    else None
  | ECancelDec =>
    match mtx s with
    | None => None
    | Some _ => match down (nw s) with None => None | Some v => Some (set_mtx None (set_nw v s), []) end
    end
  | EPost again k => post_step again k s
  | EWait k => wait_step k s
  | EKern r ok =>
    if mem r (kern s) then Some (set_evts (evts s ++ [(r, ok)]) (set_kern (erase r (kern s)) s), [OKern r ok])
    else None
  | EDestroy => if calls_ok s then Some (set_dp D1 s, []) else None
  | EDStep => match destr_step s with None => None | Some s' => Some (s', []) end
  end.

(** Executions in which all steps satisfy [P], with their traces. *)
Inductive exec (P : ev -> Prop) : st -> list obs -> st -> Prop :=
| exec_nil s : exec P s [] s
| exec_snoc s tr s1 e s2 o : exec P s tr s1 -> P e -> step e s1 = Some (s2, o) -> exec P s (tr ++ o) s2.

(** The same as a function, for examples. *)
Fixpoint run (es : list ev) (s : st) : option (st * list obs) :=
  match es with
  | [] => Some (s, [])
  | e :: t =>
    match step e s with
    | None => None
    | Some (s1, o) => match run t s1 with None => None | Some (s2, o2) => Some (s2, o ++ o2) end
    end
  end.

(** Steps that happen without anybody calling the queue, the kernel granting every submission. *)
Definition no_again (e : ev) : Prop := match e with EPost true _ => False | _ => True end.
Definition internal (e : ev) : Prop :=
  match e with EPost false _ | EWait _ | EKern _ _ | ECancelDec | EDStep => True | _ => False end.
