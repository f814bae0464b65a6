(** What C45 asks of reference-counted pointers, in terms of pointer variables
    and objects only. *)
From Coq Require Import ZArith List Bool Arith.
From Verif Require Import CountPtrModel.
Import ListNotations.
Local Open Scope Z_scope.

(** no thread is inside a pointer operation *)
Definition quiet (st : state) : Prop := forall t, pcs st t = Idle.
(** pointer variable [s] points to object [o] *)
Definition points (st : state) (s o : nat) : Prop := slots st s = Ptr (Some o).
(** no running operation will still write the variable [s] *)
Definition stable (st : state) (s : nat) : Prop := forall t, ~ In s (writes (pcs st t)).
Definition alive (st : state) (o : nat) : Prop := exists c, heap st o = Alive c.
Definition created (st : state) (o : nat) : Prop := (o < next st)%nat.

(** number of the variables [0 .. NS-1] that point to [o] *)
Definition pointers_to (NS : nat) (st : state) (o : nat) : Z :=
  Z.of_nat (length (filter (fun s => match slots st s with
                                     | Ptr (Some o') => Nat.eqb o' o
                                     | _ => false end) (seq 0 NS))).

(** a running operation has the address of [o] in a local variable *)
Definition in_hand (p : pc) (o : nat) : Prop :=
  match p with
  | Idle | PDEnd _ => False
  | PInc _ _ r | PDec _ r | PStore _ r | PCtor _ _ r | PSwap _ _ r => r = Some o
  | PDel _ r x => r = Some o \/ x = o
  | PDDel _ x => x = o
  end.

(** let thread [t] take [n] more actions of its running operation *)
Fixpoint finish (n : nat) (st : state) (t : nat) : outcome :=
  match n with
  | O => Ok st
  | S k => match continue st t with Ok st' => finish k st' t | x => x end
  end.

Definition only (d : nat) (v : slotv) (st st' : state) : Prop :=
  slots st' d = v /\ forall s, s <> d -> slots st' s = slots st s.
Definition unshared (st : state) (o : nat) : Prop := heap st o = Alive 1.

(** what an operation does to the pointer variables *)
Definition effect (a : op) (st st' : state) : Prop :=
  match a with
  | CtorNull d | AssignNull d => only d (Ptr None) st st'
  | CtorNew d | AssignNew d => exists o, ~ created st o /\ created st' o /\ only d (Ptr (Some o)) st st'
  | CtorCopy d s | Assign d s => only d (slots st s) st st'
  | Destroy d => only d Raw st st'
  | Unify d => match slots st d with
               | Ptr (Some o) =>
                   (unshared st o -> st' = st) /\
                   (~ unshared st o -> exists n, ~ created st n /\ created st' n /\ only d (Ptr (Some n)) st st')
               | _ => st' = st
               end
  | Swap a b => slots st' a = slots st b /\ slots st' b = slots st a /\
                forall s, s <> a -> s <> b -> slots st' s = slots st s
  | Use _ => st' = st
  end.
