(** Model of [uint_pair<HighType>] (uint40 / uint48).
    Source: /repo/include/stxxl/bits/common/uint_types.h lines 51-245.

    [hb] is the number of bits of HighType (8 for uint40, 16 for uint48).
    Machine words are non-negative [Z]; every C++ conversion to a narrower
    unsigned type is written as an explicit [mod]. *)
From Coq Require Import ZArith Bool.
Open Scope Z_scope.

(** uint_types.h:60-64 *)
Record uint_pair := UP { low : Z; high : Z }.

(** uint_types.h:67-73: [low_max()], [low_bits] *)
Definition low_bits : Z := 32.
Definition low_max : Z := 4294967295.

Section UintPair.
  (** uint_types.h:76-82: [high_bits] = 8 * sizeof(high_type) *)
  Variable hb : Z.
  Definition high_max : Z := 2 ^ hb - 1.

  (** conversion to [low_type] / [high_type] (C++ unsigned conversion) *)
  Definition to_low (z : Z) : Z := z mod 2 ^ 32.
  Definition to_high (z : Z) : Z := z mod 2 ^ hb.
  (** conversion to uint64 *)
  Definition to_u64 (z : Z) : Z := z mod 2 ^ 64.

  (** uint_types.h:114-116 constructor from uint32 *)
  Definition of_u32 (a : Z) : uint_pair := UP a 0.

  (** uint_types.h:119-126 constructor from int32 (negative: low = (uint32)a,
      high = high_max) *)
  Definition of_i32 (a : Z) : uint_pair :=
    if 0 <=? a then UP (to_low a) 0 else UP (to_low a) (to_high high_max).

  (** uint_types.h:129-135 constructor from uint64; the assertion of line 134
      is a debug-only check and is not part of the value *)
  Definition of_u64 (a : Z) : uint_pair :=
    UP (to_low (Z.land a low_max))
       (to_high (Z.land (Z.shiftr a low_bits) high_max)).

  (** uint_types.h:138-153 [ull()], [operator uint64], [u64()] *)
  Definition ull (x : uint_pair) : Z :=
    Z.lor (to_u64 (Z.shiftl (high x) low_bits)) (low x).

  (** uint_types.h:156-163 prefix increment *)
  Definition incr (x : uint_pair) : uint_pair :=
    if low x =? low_max then UP 0 (to_high (high x + 1))
    else UP (to_low (low x + 1)) (high x).

  (** uint_types.h:166-173 prefix decrement *)
  Definition decr (x : uint_pair) : uint_pair :=
    if low x =? 0 then UP (to_low low_max) (to_high (high x - 1))
    else UP (to_low (low x - 1)) (high x).

  (** uint_types.h:176-182 [operator +=] *)
  Definition plus_assign (x b : uint_pair) : uint_pair :=
    let add := to_u64 (low x + low b) in
    UP (to_low (Z.land add low_max))
       (to_high (high x + high b + Z.land (Z.shiftr add low_bits) high_max)).

  (** uint_types.h:185-218 comparisons *)
  Definition eqb (x b : uint_pair) : bool := (low x =? low b) && (high x =? high b).
  Definition neb (x b : uint_pair) : bool :=
    negb (low x =? low b) || negb (high x =? high b).
  Definition ltb (x b : uint_pair) : bool :=
    (high x <? high b) || ((high x =? high b) && (low x <? low b)).
  Definition leb (x b : uint_pair) : bool :=
    (high x <? high b) || ((high x =? high b) && (low x <=? low b)).
  Definition gtb (x b : uint_pair) : bool :=
    (high x >? high b) || ((high x =? high b) && (low x >? low b)).
  Definition geb (x b : uint_pair) : bool :=
    (high x >? high b) || ((high x =? high b) && (low x >=? low b)).

  (** uint_types.h:227-238 [min()], [max()] *)
  Definition min_up : uint_pair := UP 0 0.
  Definition max_up : uint_pair := UP low_max high_max.
End UintPair.
