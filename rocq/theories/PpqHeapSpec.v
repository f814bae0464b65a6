(** What is asked of the insertion heaps. *)
From Coq Require Import List Arith.
Import ListNotations.

(** the heap property of an array: no element is before its parent *)
Definition heap {A} (lt : A -> A -> bool) (l : list A) : Prop :=
  forall i x y, 0 < i -> nth_error l i = Some x -> nth_error l ((i - 1) / 2) = Some y -> lt x y = false.
