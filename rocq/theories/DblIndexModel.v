(** Model of stxxl::double_blocked_index and of the vector's file length
    arithmetic.  Source: /repo/include/stxxl/bits/containers/vector.h.
    All integers are 64-bit unsigned ([size_type] = uint64, [unsigned_type] on
    a 64-bit platform); wrap-around is modelled by [w64]. *)
From Coq Require Import ZArith.
Local Open Scope Z_scope.

Definition w64 (z : Z) : Z := z mod 2 ^ 64.

(** the four data members, vector.h:54-55 *)
Record dbi := mk_dbi { pos : Z; block2 : Z; block1 : Z; offset : Z }.

Section DBI.
(** template parameters, vector.h:44-47 (elements per block, blocks per page) *)
Variables modulo1 modulo2 : Z.
(** vector.h:52 *)
Definition modulo12 : Z := w64 (modulo1 * modulo2).

(** vector.h:59-70 [set]; the casts to int_type and back do not change a
    64-bit pattern *)
Definition dbi_set (p : Z) : dbi :=
  let b2 := p / modulo12 in
  let p' := w64 (p - b2 * modulo12) in
  let b1 := p' / modulo1 in
  mk_dbi p b2 b1 (w64 (p' - b1 * modulo1)).

(** vector.h:83-92 constructor from the three components *)
Definition dbi_of_parts (b2 b1 off : Z) : dbi :=
  mk_dbi (w64 (b2 * modulo12 + b1 * modulo1 + off)) b2 b1 off.

(** vector.h:101-121 pre-increment *)
Definition dbi_incr (d : dbi) : dbi :=
  let p := w64 (pos d + 1) in
  let o := w64 (offset d + 1) in
  if o =? modulo1 then
    let b1 := w64 (block1 d + 1) in
    if b1 =? modulo2 then mk_dbi p (w64 (block2 d + 1)) 0 0
    else mk_dbi p (block2 d) b1 0
  else mk_dbi p (block2 d) (block1 d) o.

(** vector.h:132-152 pre-decrement *)
Definition dbi_decr (d : dbi) : dbi :=
  let p := w64 (pos d - 1) in
  if offset d =? 0 then
    if block1 d =? 0 then mk_dbi p (w64 (block2 d - 1)) (w64 (modulo2 - 1)) (w64 (modulo1 - 1))
    else mk_dbi p (block2 d) (w64 (block1 d - 1)) (w64 (modulo1 - 1))
  else mk_dbi p (block2 d) (block1 d) (w64 (offset d - 1)).

(** vector.h:163-171 operator +, += *)
Definition dbi_add (d : dbi) (n : Z) : dbi := dbi_set (w64 (pos d + n)).
(** vector.h:173-188 operator - (number), -= *)
Definition dbi_sub (d : dbi) (n : Z) : dbi := dbi_set (w64 (pos d - n)).
(** vector.h:178-181 difference of two indices *)
Definition dbi_diff (d e : dbi) : Z := w64 (pos d - pos e).
(** vector.h:219-223 operator >>= *)
Definition dbi_shr (d : dbi) (n : Z) : dbi := dbi_set (Z.shiftr (pos d) n).
(** vector.h:189-217 comparisons *)
Definition dbi_eqb (d e : dbi) : bool := pos d =? pos e.
Definition dbi_neb (d e : dbi) : bool := negb (pos d =? pos e).
Definition dbi_ltb (d e : dbi) : bool := pos d <? pos e.
Definition dbi_leb (d e : dbi) : bool := pos d <=? pos e.
Definition dbi_gtb (d e : dbi) : bool := pos e <? pos d.
Definition dbi_geb (d e : dbi) : bool := pos e <=? pos d.
End DBI.

Section FileLength.
(** bytes per block on disk, elements per block, bytes per element *)
Variables raw_size bsize vsize : Z.

(** vector.h:924-930 [size_from_file_length] *)
Definition size_from_file_length (len : Z) : Z :=
  let blocks_fit := len / raw_size in
  let cur_size := w64 (blocks_fit * bsize) in
  let rest := w64 (len - blocks_fit * raw_size) in
  w64 (cur_size + rest / vsize).

(** vector.h:932-943 [file_length] *)
Definition file_length (cur_size : Z) : Z :=
  let full := cur_size / bsize in
  if negb (cur_size mod bsize =? 0) then
    let rest := w64 (cur_size - full * bsize) in
    w64 (full * raw_size + rest * vsize)
  else w64 (full * raw_size).
End FileLength.
