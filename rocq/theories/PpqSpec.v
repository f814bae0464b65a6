(** What a caller of the parallel priority queue relies on: a bag of elements, no arrays, buffers, trees or blocks. *)
From Coq Require Import List Bool Arith Permutation.
From Verif Require Import OrderLib.
Import ListNotations.

Section Spec.
  Variable A : Type.
  Variable lt : A -> A -> bool.
  Inductive call := Push (x : A) | Top | Pop | BulkPop (max_size : nat) | BulkPopLimit (limit : A) (max_size : nat).
  Inductive answer := Nothing | Elem (x : A) | Elems (l : list A) | Range (l : list A) (full : bool).
  (** nothing in the bag is smaller *)
  Definition minimal (x : A) (bag : list A) : Prop := In x bag /\ forall y, In y bag -> le lt x y.
  (** the elements [out], in order, are removed; none of those left is smaller than one of them *)
  Definition removes (out bag bag' : list A) : Prop :=
    sorted lt out /\ Permutation bag (out ++ bag') /\ forall x y, In x out -> In y bag' -> le lt x y.
  (** [strict]: bulk_pop gets as many elements as there are up to max_size, bulk_pop_limit stops early only at max_size *)
  Definition allowed (strict : bool) (bag : list A) (c : call) (a : answer) (bag' : list A) : Prop :=
    match c, a with
    | Push x, Nothing => Permutation bag' (x :: bag)
    | Top, Elem x => minimal x bag /\ Permutation bag' bag
    | Pop, Nothing => exists x, minimal x bag /\ Permutation bag (x :: bag')
    | BulkPop n, Elems out => removes out bag bag' /\ length out <= n /\ (strict = true -> length out = Nat.min n (length bag))
    | BulkPopLimit v n, Range out full => removes out bag bag' /\ length out <= n /\ (forall x, In x out -> lt x v = true) /\
        (full = true -> forall y, In y bag' -> lt y v = false) /\ (strict = true -> full = false -> length out = n)
    | _, _ => False
    end.
  (** a whole sequence of calls with their answers *)
  Inductive conforms : list A -> list (call * answer) -> Prop :=
  | conforms_nil bag : conforms bag []
  | conforms_cons bag bag' c a h : allowed false bag c a bag' -> conforms bag' h -> conforms bag ((c, a) :: h).
End Spec.
Arguments Push {A}. Arguments Top {A}. Arguments Pop {A}. Arguments BulkPop {A}. Arguments BulkPopLimit {A}.
Arguments Nothing {A}. Arguments Elem {A}. Arguments Elems {A}. Arguments Range {A}.
Arguments minimal {A}. Arguments removes {A}. Arguments allowed {A}. Arguments conforms {A}.
