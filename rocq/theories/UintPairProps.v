(** C44: 40/48-bit integers compute like integers modulo 2^40 / 2^48.
    [hb] = 8 gives uint40, [hb] = 16 gives uint48; the theorems hold for every
    width of the high part from 1 to 32 bits. *)
From Coq Require Import ZArith.
From Verif Require Import UintPairModel UintPairSpec UintPairProofs.
Open Scope Z_scope.

Theorem C44_uint_pair_conversions :
  forall hb, 0 < hb <= 32 ->
    (forall a, 0 <= a < 2 ^ 32 -> stored hb (of_u32 a) /\ value (of_u32 a) = a) /\
    (forall a, - 2 ^ 31 <= a < 2 ^ 31 ->
       stored hb (of_i32 hb a) /\ value (of_i32 hb a) = a mod modulus hb) /\
    (forall a, 0 <= a < 2 ^ 64 ->
       stored hb (of_u64 hb a) /\ value (of_u64 hb a) = a mod modulus hb) /\
    (forall x, stored hb x -> ull x = value x) /\
    (forall x, stored hb x -> of_u64 hb (ull x) = x).
Proof.
  exact (fun hb H => conj (of_u32_ok hb H) (conj (of_i32_ok hb H)
    (conj (of_u64_ok hb H) (conj (ull_ok hb H) (u64_round_trip hb H))))).
Qed.

Theorem C44_uint_pair_arithmetic :
  forall hb, 0 < hb <= 32 ->
    (forall x, stored hb x ->
       stored hb (incr hb x) /\ value (incr hb x) = (value x + 1) mod modulus hb) /\
    (forall x, stored hb x ->
       stored hb (decr hb x) /\ value (decr hb x) = (value x - 1) mod modulus hb) /\
    (forall x y, stored hb x -> stored hb y ->
       stored hb (plus_assign hb x y) /\
       value (plus_assign hb x y) = (value x + value y) mod modulus hb).
Proof. exact (fun hb H => conj (incr_ok hb H) (conj (decr_ok hb H) (plus_assign_ok hb H))). Qed.

Theorem C44_uint_pair_comparisons :
  forall hb, 0 < hb <= 32 -> forall x y, stored hb x -> stored hb y ->
    (eqb x y = true <-> value x = value y) /\
    (neb x y = true <-> value x <> value y) /\
    (ltb x y = true <-> value x < value y) /\
    (leb x y = true <-> value x <= value y) /\
    (gtb x y = true <-> value x > value y) /\
    (geb x y = true <-> value x >= value y).
Proof. exact cmp_ok. Qed.

Theorem C44_uint_pair_limits :
  forall hb, 0 < hb <= 32 ->
    stored hb min_up /\ value min_up = 0 /\
    stored hb (max_up hb) /\ value (max_up hb) = modulus hb - 1.
Proof. exact limits_ok. Qed.

(** the hypotheses are met by real values; a carry and a borrow *)
Example uint40_carry :
  stored 8 (UP 4294967295 7) /\ incr 8 (UP 4294967295 7) = UP 0 8 /\
  plus_assign 8 (UP 4294967295 255) (UP 2 1) = UP 1 1.
Proof. repeat split; reflexivity || (cbn; intro; discriminate). Qed.
Example uint48_negative : of_i32 16 (-2) = UP 4294967294 65535 /\ decr 16 (UP 0 0) = max_up 16.
Proof. split; reflexivity. Qed.

Print Assumptions C44_uint_pair_conversions.
Print Assumptions C44_uint_pair_arithmetic.
Print Assumptions C44_uint_pair_comparisons.
Print Assumptions C44_uint_pair_limits.
