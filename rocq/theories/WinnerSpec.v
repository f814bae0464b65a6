(** What a user of the winner tree relies on. *)
From Coq Require Import List Bool Arith.
From Verif Require Import SumLib WinnerModel.
Import ListNotations.

Section Spec.
  Variable A : Type.
  Variable lt : A -> A -> bool.

  (** [r] names a player with the smallest value; nobody if there is no player *)
  Definition smallest (val : nat -> option A) (r : option nat) : Prop :=
    match r with
    | None => forall i, val i = None
    | Some w => exists a, val w = Some a /\ forall i b, val i = Some b -> lt b a = false
    end.

  (** Admissible operations for a tree of n slots whose players have values [val] *)
  Definition admissible (n : nat) (val : nat -> option A) (o : op A) : Prop :=
    match o with
    | Change i _ => i < n
    | Kill i => i < n
    | Kills l => forall i, In i l -> i < n
    | Pop _ => exists i, val i <> None
    | Batch l => forall e, In e l -> fst e < n
    | Clear => True
    | Resize n => 0 < n
    | Restart l => l <> []
    end.
  (** number of slots afterwards: the power of two not below the number of players *)
  Definition slots_after (n : nat) (o : op A) : nat :=
    match o with Resize m => 2 ^ Nat.log2_up m | Restart l => 2 ^ Nat.log2_up (length l) | _ => n end.

  (** [val'] are the values after an operation, [val] those before, [w] the winner before *)
  Definition outcome (val : nat -> option A) (w : option nat) (o : op A) (val' : nat -> option A) : Prop :=
    match o with
    | Change i a => val' i = Some a /\ forall j, j <> i -> val' j = val j
    | Kill i => val' i = None /\ forall j, j <> i -> val' j = val j
    | Kills l => (forall j, In j l -> val' j = None) /\ (forall j, ~ In j l -> val' j = val j)
    | Pop a => exists i, w = Some i /\ val' i = a /\ forall j, j <> i -> val' j = val j
    | Batch l => (forall j, ~ In j (map fst l) -> val' j = val j) /\
                 (forall l1 j v l2, l = l1 ++ (j, v) :: l2 -> ~ In j (map fst l2) -> val' j = v)
    | Clear => forall j, val' j = None
    | Resize _ => forall j, val' j = None
    | Restart l => forall j, val' j = nth_error l j
    end.
End Spec.
Arguments outcome {A}.
Arguments smallest {A}. Arguments admissible {A}. Arguments slots_after {A}.
