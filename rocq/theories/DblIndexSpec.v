(** Positional arithmetic the two-level index must implement. *)
From Coq Require Import ZArith.
Local Open Scope Z_scope.

(** the triple that denotes linear position p: page, block in page, element in block *)
Definition denotes (modulo1 modulo2 b2 b1 off p : Z) : Prop :=
  p = (b2 * modulo2 + b1) * modulo1 + off /\
  0 <= off < modulo1 /\ 0 <= b1 < modulo2 /\ 0 <= b2.
