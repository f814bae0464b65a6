(** What a user of the scanning algorithms relies on: the STL algorithms on lists. *)
From Coq Require Import List Bool Arith.
Import ListNotations.

Section Spec.
  Variables A St : Type.
  (** the elements of [first,last) *)
  Definition range (v : list A) (first last : nat) : list A := firstn (last - first) (skipn first v).
  (** [v] with the elements of [first,last) replaced *)
  Definition replaced (v : list A) (first last : nat) (mid : list A) : list A := firstn first v ++ mid ++ skipn last v.
  (** a function object applied to one element after the other *)
  Fixpoint mapped (f : St -> A -> St * A) (st : St) (l : list A) : St * list A :=
    match l with
    | [] => (st, [])
    | x :: l => let (st, y) := f st x in let (st, l) := mapped f st l in (st, y :: l)
    end.
  (** n results of a generator *)
  Fixpoint generated (g : St -> A * St) (st : St) (n : nat) : St * list A :=
    match n with 0 => (st, []) | S n => let (x, st) := g st in let (st, l) := generated g st n in (st, x :: l) end.
  (** the first position in [first,last) with a wanted element, or last *)
  Definition first_match (p : A -> bool) (v : list A) (first last i : nat) : Prop :=
    first <= i <= last /\ (forall j x, first <= j < i -> nth_error v j = Some x -> p x = false) /\
    (i < last -> exists x, nth_error v i = Some x /\ p x = true).
End Spec.
Arguments range {A}. Arguments replaced {A}. Arguments mapped {A St}. Arguments generated {A St}. Arguments first_match {A}.
