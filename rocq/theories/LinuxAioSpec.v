(** Specification of the queue of Linux asynchronous I/O, on traces only. *)
From Coq Require Import List Bool Arith.
From Verif Require Import LinuxAioModel.
Import ListNotations.

Fixpoint adds (tr : list obs) : list nat :=
  match tr with [] => [] | OAdd r :: t => r :: adds t | _ :: t => adds t end.
Fixpoint cancels (tr : list obs) : list nat :=
  match tr with [] => [] | OCancel r :: t => r :: cancels t | _ :: t => cancels t end.
Fixpoint submits (tr : list obs) : list nat :=
  match tr with [] => [] | OSubmit r :: t => r :: submits t | _ :: t => submits t end.
Fixpoint agains (tr : list obs) : list nat :=
  match tr with [] => [] | OAgain r :: t => r :: agains t | _ :: t => agains t end.
Fixpoint kerns (tr : list obs) : list nat :=
  match tr with [] => [] | OKern r _ :: t => r :: kerns t | _ :: t => kerns t end.
Fixpoint dones (tr : list obs) : list nat :=
  match tr with [] => [] | ODone r _ :: t => r :: dones t | _ :: t => dones t end.

(** Requests that are ready: wait() and poll() of their owner return. *)
Definition ready (tr : list obs) (r : nat) : Prop := In r (cancels tr) \/ In r (dones tr).
Definition all_ready (tr : list obs) : Prop := forall r, In r (adds tr) -> ready tr r.

(** Requests in the order of [add_request], without the cancelled ones. *)
Definition kept (tr : list obs) : list nat :=
  filter (fun r => negb (existsb (Nat.eqb r) (cancels tr))) (adds tr).
