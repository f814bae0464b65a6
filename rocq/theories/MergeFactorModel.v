(** Model of include/stxxl/bits/algo/sort_base.h 40-43, optimal_merge_factor.
    Simplified: exact instead of floating point arithmetic.  With doubles the quotient of the logarithms may be rounded upwards or downwards when
    the number of runs is a power of the largest arity. *)
From Coq Require Import List Arith.

(** the least k >= i with [p k], at most [fuel] steps ahead *)
Fixpoint least (p : nat -> bool) (fuel i : nat) : nat :=
  match fuel with 0 => i | S f => if p i then i else least p f (S i) end.
(** ceil(log n / log m) *)
Definition passes (n m : nat) : nat := least (fun k => Nat.leb n (Nat.pow m k)) n 0.
(** ceil(pow(n, 1 / passes)) *)
Definition merge_factor (n m : nat) : nat := let k := passes n m in least (fun f => Nat.leb n (Nat.pow f k)) n 0.
