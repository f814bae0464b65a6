(** Model of stxxl::counting_ptr over counted_object / atomic_counted_object.
    Source: /repo/include/stxxl/bits/common/counting_ptr.h.

    Threads run pointer operations; every access to a reference count is one
    atomic action (lines 414-434, __sync_add_and_fetch), every other memory
    access of an operation is an action of its own, and actions of different
    threads interleave arbitrarily.  Touching a destroyed object, destroying an
    object twice and destroying an object whose count is not zero (the assert
    in lines 349-350 / 409-410) are the outcome [UB].

    The pointer objects themselves are not synchronised by the class, so a
    client must not access one pointer object from two threads at the same time
    unless both only read it; an operation that starts in conflict with a
    running one gives the outcome [Race].  const_counting_ptr (190-320) has the
    same bodies and is not modelled separately.  The non-atomic counted_object
    is the case of one thread.

    Simplifications: pointees own no counting_ptr themselves (their destructor
    does nothing but check the count); allocation never fails. *)
From Coq Require Import ZArith List Bool Arith.
Import ListNotations.
Local Open Scope Z_scope.

Notation oid := nat (only parsing).   (** an object of class Type *)
Notation slot := nat (only parsing).  (** a variable of class counting_ptr<Type> *)
Notation tid := nat (only parsing).

(** counting_ptr.h:55-57: [m_ptr], NULL = [None]; [Raw] = storage in which no
    counting_ptr lives *)
Inductive slotv := Raw | Ptr (p : option oid).

(** counting_ptr.h:329-370, 385-: a counted object with its [m_reference_count] *)
Inductive cell := Unborn | Alive (count : Z) | Freed.

(** where a thread is inside an operation; the parameters are the values the
    C++ code holds in locals *)
Inductive pc :=
| Idle
| PInc (d : slot) (src : option slot) (r : option oid)  (** 93: before inc_reference(ptr) *)
| PDec (d : slot) (r : option oid)                      (** 94: before dec_reference() *)
| PDel (d : slot) (r : option oid) (o : oid)            (** 71 in 94: before delete m_ptr *)
| PStore (d : slot) (r : option oid)                    (** 95: before m_ptr = ptr *)
| PCtor (d : slot) (src : option slot) (r : option oid) (** 80, 84: before inc_reference() *)
| PDDel (d : slot) (o : oid)                            (** 71 in 101: before delete m_ptr *)
| PDEnd (d : slot)                                      (** 101: end of destructor *)
| PSwap (a b : slot) (x : option oid).                  (** 159: second store of std::swap *)

Record state := mk_state {
  slots : nat -> slotv;
  heap : nat -> cell;
  next : nat;          (** next object identity handed out by operator new *)
  pcs : nat -> pc;
  log : list nat }.    (** objects whose destructor has run, latest first *)

Inductive outcome := Ok (s : state) | UB | Race | Misuse.

(** client-visible operations *)
Inductive op :=
| CtorNull (d : slot)        (** 75-76 counting_ptr() *)
| CtorNew (d : slot)         (** 79-80 counting_ptr(new Type) *)
| CtorCopy (d s : slot)      (** 83-84; also 79-80 with s.get() *)
| AssignNull (d : slot)      (** 91-98 with NULL *)
| AssignNew (d : slot)       (** 91-98 with new Type *)
| Assign (d s : slot)        (** 87-88 *)
| Destroy (d : slot)         (** 100-101 *)
| Unify (d : slot)           (** 150-154 *)
| Swap (a b : slot)          (** 157-160 *)
| Use (d : slot)             (** 104-115: dereference *).

(** width of unsigned_type *)
Definition w64 (z : Z) : Z := z mod 2 ^ 64.

Definition upd {A} (f : nat -> A) (i : nat) (v : A) : nat -> A :=
  fun j => if Nat.eqb j i then v else f j.

Definition set_slot (st : state) d v := mk_state (upd (slots st) d v) (heap st) (next st) (pcs st) (log st).
Definition set_cell (st : state) o c := mk_state (slots st) (upd (heap st) o c) (next st) (pcs st) (log st).
Definition set_pc (st : state) t p := mk_state (slots st) (heap st) (next st) (upd (pcs st) t p) (log st).

(** 66-67 with 354-355 / 414-421 *)
Definition inc_reference (st : state) (r : option oid) : option state :=
  match r with
  | None => Some st
  | Some o => match heap st o with
              | Alive c => Some (set_cell st o (Alive (w64 (c + 1))))
              | _ => None
              end
  end.

(** 70-71 up to the decision to delete, with 360-361 / 426-433 *)
Definition dec_reference (st : state) (r : option oid) : option (state * bool) :=
  match r with
  | None => Some (st, false)
  | Some o => match heap st o with
              | Alive c => let c' := w64 (c - 1) in
                           Some (set_cell st o (Alive c'), c' =? 0)
              | _ => None
              end
  end.

(** delete m_ptr, with the destructor's assert 349-350 / 409-410 *)
Definition delete_object (st : state) (o : oid) : option state :=
  match heap st o with
  | Alive c => if c =? 0
               then Some (mk_state (slots st) (upd (heap st) o Freed) (next st) (pcs st) (o :: log st))
               else None
  | _ => None
  end.

(** new Type: lines 337-343 / 397-403, count zero (also for a copy) *)
Definition new_object (st : state) : state * oid :=
  (mk_state (slots st) (upd (heap st) (next st) (Alive 0)) (S (next st)) (pcs st) (log st), next st).

(** slots a running operation may still write / read *)
Definition writes (p : pc) : list slot :=
  match p with
  | Idle => []
  | PInc d _ _ | PDec d _ | PDel d _ _ | PStore d _ | PCtor d _ _ | PDDel d _ | PDEnd d => [d]
  | PSwap a b _ => [a; b]
  end.
Definition reads (p : pc) : list slot :=
  match p with
  | PInc _ (Some s) _ | PCtor _ (Some s) _ => [s]
  | _ => []
  end.
Definition op_writes (o : op) : list slot :=
  match o with
  | CtorNull d | CtorNew d | CtorCopy d _ | AssignNull d | AssignNew d
  | Assign d _ | Destroy d | Unify d => [d]
  | Swap a b => [a; b]
  | Use _ => []
  end.
Definition op_reads (o : op) : list slot :=
  match o with CtorCopy _ s | Assign _ s => [s] | Use d => [d] | _ => [] end.

Definition memb (x : nat) (l : list nat) : bool := existsb (Nat.eqb x) l.
Definition conflict (w r : list slot) (p : pc) : bool :=
  existsb (fun s => memb s (writes p) || memb s (reads p)) w ||
  existsb (fun s => memb s (writes p)) r.

(** does [o], started by [t], touch a pointer object another thread is using? *)
Definition racy (NT : nat) (st : state) (t : tid) (o : op) : bool :=
  existsb (fun t' => negb (Nat.eqb t' t) && conflict (op_writes o) (op_reads o) (pcs st t')) (seq 0 NT).

Definition lift (o : option state) : outcome := match o with Some s => Ok s | None => UB end.

(** dec_reference() in a destructor and what follows *)
Definition dtor_dec (st : state) (t : tid) (d : slot) (r : option oid) : outcome :=
  match dec_reference st r with
  | None => UB
  | Some (st', true) => match r with
                        | Some o => Ok (set_pc st' t (PDDel d o))
                        | None => UB
                        end
  | Some (st', false) => Ok (set_pc st' t (PDEnd d))
  end.

(** first action of an operation of thread [t] *)
Definition start (st : state) (t : tid) (o : op) : outcome :=
  match o with
  | CtorNull d => match slots st d with
                  | Raw => Ok (set_slot st d (Ptr None))
                  | _ => Misuse end
  | CtorNew d => match slots st d with
                 | Raw => let (st', n) := new_object st in
                          Ok (set_pc (set_slot st' d (Ptr (Some n))) t (PCtor d None (Some n)))
                 | _ => Misuse end
  | CtorCopy d s => match slots st d, slots st s with
                    | Raw, Ptr r => Ok (set_pc (set_slot st d (Ptr r)) t (PCtor d (Some s) r))
                    | _, _ => Misuse end
  | AssignNull d => match slots st d with
                    | Ptr _ => Ok (set_pc st t (PInc d None None))
                    | _ => Misuse end
  | AssignNew d => match slots st d with
                   | Ptr _ => let (st', n) := new_object st in
                              Ok (set_pc st' t (PInc d None (Some n)))
                   | _ => Misuse end
  | Assign d s => match slots st d, slots st s with
                  | Ptr _, Ptr r => Ok (set_pc st t (PInc d (Some s) r))
                  | _, _ => Misuse end
  | Destroy d => match slots st d with
                 | Ptr r => dtor_dec st t d r
                 | _ => Misuse end
  | Unify d => match slots st d with
               | Ptr None => Ok st
               | Ptr (Some o) =>
                   match heap st o with
                   | Alive c => if c =? 1 then Ok st
                                else let (st', n) := new_object st in
                                     Ok (set_pc st' t (PInc d None (Some n)))
                   | _ => UB
                   end
               | _ => Misuse end
  | Swap a b => match slots st a, slots st b with
                | Ptr x, Ptr y => Ok (set_pc (set_slot st a (Ptr y)) t (PSwap a b x))
                | _, _ => Misuse end
  | Use d => match slots st d with
             | Ptr (Some o) => match heap st o with Alive _ => Ok st | _ => UB end
             | _ => Misuse end
  end.

(** next action of the operation thread [t] is in *)
Definition continue (st : state) (t : tid) : outcome :=
  match pcs st t with
  | Idle => Ok st
  | PInc d _ r => match inc_reference st r with
                  | Some st' => Ok (set_pc st' t (PDec d r))
                  | None => UB end
  | PDec d r => match slots st d with
                | Ptr old =>
                    match dec_reference st old with
                    | None => UB
                    | Some (st', true) => match old with
                                          | Some o => Ok (set_pc st' t (PDel d r o))
                                          | None => UB end
                    | Some (st', false) => Ok (set_pc st' t (PStore d r))
                    end
                | Raw => UB end
  | PDel d r o => match delete_object st o with
                  | Some st' => Ok (set_pc st' t (PStore d r))
                  | None => UB end
  | PStore d r => Ok (set_pc (set_slot st d (Ptr r)) t Idle)
  | PCtor d _ r => match inc_reference st r with
                   | Some st' => Ok (set_pc st' t Idle)
                   | None => UB end
  | PDDel d o => match delete_object st o with
                 | Some st' => Ok (set_pc st' t (PDEnd d))
                 | None => UB end
  | PDEnd d => Ok (set_pc (set_slot st d Raw) t Idle)
  | PSwap a b x => Ok (set_pc (set_slot st b (Ptr x)) t Idle)
  end.

(** one scheduler decision: thread [t] takes its next action; an idle thread
    starts [o] (a busy one continues and [o] is ignored) *)
Definition step (NT NS : nat) (st : state) (t : tid) (o : op) : outcome :=
  if Nat.ltb t NT then
    match pcs st t with
    | Idle => if forallb (fun s => Nat.ltb s NS) (op_writes o ++ op_reads o)
              then if racy NT st t o then Race else start st t o
              else Misuse
    | _ => continue st t
    end
  else Misuse.

(** no pointers, no objects *)
Definition init : state := mk_state (fun _ => Raw) (fun _ => Unborn) 0 (fun _ => Idle) [].

Fixpoint run (NT NS : nat) (st : state) (sched : list (tid * op)) : outcome :=
  match sched with
  | [] => Ok st
  | (t, o) :: r => match step NT NS st t o with
                   | Ok st' => run NT NS st' r
                   | x => x
                   end
  end.
