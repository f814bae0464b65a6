(** Model of the integer helpers of include/stxxl/bits/common/utils.h (176-192, 196-209, 230-241, 264-274) for 64-bit unsigned integers,
    held in Z.  round_up_to_power_of_two(n) (254-262) is in MultiseqModel. *)
From Coq Require Import ZArith.
Open Scope Z_scope.

(** reduction to uint64 *)
Definition w64 (x : Z) : Z := x mod 2 ^ 64.

(** 177-184: while (i >= 256) i >>= 8, p += 8; then while (i >>= 1) ++p *)
Fixpoint ilog2_bytes (fuel : nat) (i p : Z) : option (Z * Z) :=
  if 256 <=? i then match fuel with O => None | S fuel => ilog2_bytes fuel (Z.shiftr i 8) (p + 8) end else Some (i, p).
Fixpoint ilog2_bits (fuel : nat) (i p : Z) : option Z :=
  let i := Z.shiftr i 1 in
  if i =? 0 then Some p else match fuel with O => None | S fuel => ilog2_bits fuel i (p + 1) end.
Definition ilog2_floor (i : Z) : option Z :=
  match ilog2_bytes 64 i 0 with Some (i, p) => ilog2_bits 64 i p | None => None end.
(** 187-192 *)
Definition ilog2_ceil (i : Z) : option Z :=
  if i <=? 1 then Some 0 else match ilog2_floor (i - 1) with Some p => Some (p + 1) | None => None end.

(** 196-209; None is a division by zero *)
Definition div_ceil (n d : Z) : option Z :=
  if d =? 0 then None else Some (w64 (n / d + (if n mod d =? 0 then 0 else 1))).

(** 264-274; ~mask in 64 bits *)
Definition round_up_to_multiple (n power : Z) : Z :=
  let pot := Z.shiftl 1 power in
  let mask := pot - 1 in
  if Z.land n mask =? 0 then n else w64 (Z.land n (2 ^ 64 - 1 - mask) + pot).

(** 230-241 *)
Definition not64 (x : Z) : Z := 2 ^ 64 - 1 - x.
Definition add_not (s x : Z) : Z := w64 (x + not64 (w64 (Z.shiftl x s))).        (* key_ += ~(key_ << s) *)
Definition xor_shift (s x : Z) : Z := Z.lxor x (Z.shiftr x s).                    (* key_ ^= (key_ >> s) *)
Definition add_shift (s x : Z) : Z := w64 (x + w64 (Z.shiftl x s)).               (* key_ += (key_ << s) *)
Definition longhash1 (key : Z) : Z :=
  let key := add_not 32 key in
  let key := xor_shift 22 key in
  let key := add_not 13 key in
  let key := xor_shift 8 key in
  let key := add_shift 3 key in
  let key := xor_shift 15 key in
  let key := add_not 27 key in
  xor_shift 31 key.
