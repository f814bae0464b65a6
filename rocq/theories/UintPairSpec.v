(** Specification of the packed integers: the number a pair stands for, and
    what it means to be a stored object (both fields within their types). *)
From Coq Require Import ZArith.
From Verif Require Import UintPairModel.
Open Scope Z_scope.

Definition modulus (hb : Z) : Z := 2 ^ (32 + hb).

Definition stored (hb : Z) (x : uint_pair) : Prop :=
  0 <= low x < 2 ^ 32 /\ 0 <= high x < 2 ^ hb.

Definition value (x : uint_pair) : Z := high x * 2 ^ 32 + low x.
