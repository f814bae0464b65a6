(** Model of binary_buffer / binary_reader.
    Source: /repo/include/stxxl/bits/common/binary_buffer.h.

    Bytes are [Z] in [0,256).  [size_t] arithmetic in the *reader* is done
    modulo 2^64 as in the code.  In the *writer* sizes are unbounded (a buffer
    whose size approaches 2^64 cannot be allocated). *)
From Coq Require Import ZArith List Bool.
Import ListNotations.
Open Scope Z_scope.

(** ** Outcomes *)
Inductive res (A : Type) : Type :=
| Ok (a : A)
| Underflow           (* std::underflow_error, binary_buffer.h:526 *)
| Overflow            (* std::overflow_error, binary_buffer.h:592, 621 *)
| OutOfBounds.        (* memory outside the buffer would be touched: UB *)
Arguments Ok {A} a.
Arguments Underflow {A}.
Arguments Overflow {A}.
Arguments OutOfBounds {A}.

Definition bind {A B} (x : res A) (f : A -> res B) : res B :=
  match x with
  | Ok a => f a
  | Underflow => Underflow
  | Overflow => Overflow
  | OutOfBounds => OutOfBounds
  end.

(** ** Writer *)

(** binary_buffer.h:41-51: [m_data] (with capacity many cells, [None] =
    uninitialised), [m_size]; [m_capacity] is the length of [mem]. *)
Record buffer := Buf { mem : list (option Z); bsize : Z }.

Definition capacity (b : buffer) : Z := Z.of_nat (length (mem b)).

(** binary_buffer.h:55-57 default constructor *)
Definition empty_buffer : buffer := Buf [] 0.

(** the observable bytes: binary_buffer.h:118-121 [str()] *)
Definition contents (b : buffer) : list (option Z) := firstn (Z.to_nat (bsize b)) (mem b).

(** binary_buffer.h:134-143 [alloc]: realloc keeps the old bytes *)
Definition alloc (n : Z) (b : buffer) : buffer :=
  if capacity b <? n
  then Buf (mem b ++ repeat None (Z.to_nat (n - capacity b))) (bsize b)
  else b.

(** binary_buffer.h:227-233: the growth loop, fuelled; [None] = fuel exhausted *)
Fixpoint grow_loop (fuel : nat) (newsize n : Z) : option Z :=
  if newsize <? n then
    match fuel with
    | O => None
    | S fuel' =>
        grow_loop fuel'
          (if newsize <? 256 then 512
           else if newsize <? 1024 * 1024 then 2 * newsize
           else newsize + 1024 * 1024) n
    end
  else Some newsize.

(** binary_buffer.h:222-239 [dynalloc] *)
Definition dynalloc (n : Z) (b : buffer) : option buffer :=
  if capacity b <? n then
    match grow_loop (Z.to_nat (n / (1024 * 1024) + 16)) (capacity b) n with
    | Some newsize => Some (alloc newsize b)
    | None => None
    end
  else Some b.

(** memcpy / memset of [data] at position [pos]; [None] = outside capacity *)
Definition store (pos : Z) (data : list (option Z)) (b : buffer) : option buffer :=
  if pos + Z.of_nat (length data) <=? capacity b then
    Some (Buf (firstn (Z.to_nat pos) (mem b) ++ data
                 ++ skipn (Z.to_nat pos + length data) (mem b)) (bsize b))
  else None.

Definition set_bsize (n : Z) (b : buffer) : buffer := Buf (mem b) n.

Definition obind {A B} (x : option A) (f : A -> option B) : option B :=
  match x with Some a => f a | None => None end.

(** binary_buffer.h:244-252 [append(data,len)] (263-265, 255-258 are the same
    for string and binary_buffer arguments) *)
Definition append (data : list Z) (b : buffer) : option buffer :=
  let len := Z.of_nat (length data) in
  obind (if capacity b <? bsize b + len then dynalloc (bsize b + len) b else Some b)
    (fun b1 => obind (store (bsize b1) (map Some data) b1)
    (fun b2 => Some (set_bsize (bsize b2 + len) b2))).

(** binary_buffer.h:204-218 [align] *)
Definition align (n : Z) (b : buffer) : option buffer :=
  let rem := bsize b mod n in
  if rem =? 0 then Some b else
    let add := n - rem in
    obind (if capacity b <? bsize b + add then dynalloc (bsize b + add) b else Some b)
      (fun b1 => obind (store (bsize b1) (map Some (repeat 0 (Z.to_nat add))) b1)
      (fun b2 => Some (set_bsize (bsize b2 + add) b2))).

(** little-endian object representation of an unsigned integer of [k] bytes *)
Fixpoint le_bytes (k : nat) (v : Z) : list Z :=
  match k with
  | O => []
  | S k' => (v mod 256) :: le_bytes k' (v / 256)
  end.

(** binary_buffer.h:269-278 [put<Type>] for an unsigned integer type of [k]
    bytes, on a little-endian machine *)
Definition put (k : nat) (v : Z) (b : buffer) : option buffer :=
  append (le_bytes k v) b.

(** [(uint8)(((v >> s) & 0x7F) | 0x80)] and [(uint8)((v >> s) & 0x7F)] *)
Definition cont (v s : Z) : Z := (Z.lor (Z.land (Z.shiftr v s) 127) 128) mod 256.
Definition last7 (v s : Z) : Z := (Z.land (Z.shiftr v s) 127) mod 256.

(** binary_buffer.h:281-310 [put_varint(uint32)]: the bytes in order *)
Definition varint32_bytes (v : Z) : list Z :=
  if v <? 128 then [v mod 256]
  else if v <? 128 * 128 then [cont v 0; last7 v 7]
  else if v <? 128 * 128 * 128 then [cont v 0; cont v 7; last7 v 14]
  else if v <? 128 * 128 * 128 * 128 then [cont v 0; cont v 7; cont v 14; last7 v 21]
  else [cont v 0; cont v 7; cont v 14; cont v 21; last7 v 28].

(** binary_buffer.h:319-398 [put_varint(uint64)] (the octal constants 00 and 07
    of the source are 0 and 7) *)
Definition varint64_bytes (v : Z) : list Z :=
  if v <? 128 then [v mod 256]
  else if v <? 128 * 128 then [cont v 0; last7 v 7]
  else if v <? 128 * 128 * 128 then [cont v 0; cont v 7; last7 v 14]
  else if v <? 128 * 128 * 128 * 128 then [cont v 0; cont v 7; cont v 14; last7 v 21]
  else if v <? 128 * 128 * 128 * 128 * 128 then
    [cont v 0; cont v 7; cont v 14; cont v 21; last7 v 28]
  else if v <? 128 * 128 * 128 * 128 * 128 * 128 then
    [cont v 0; cont v 7; cont v 14; cont v 21; cont v 28; last7 v 35]
  else if v <? 128 * 128 * 128 * 128 * 128 * 128 * 128 then
    [cont v 0; cont v 7; cont v 14; cont v 21; cont v 28; cont v 35; last7 v 42]
  else if v <? 128 * 128 * 128 * 128 * 128 * 128 * 128 * 128 then
    [cont v 0; cont v 7; cont v 14; cont v 21; cont v 28; cont v 35; cont v 42; last7 v 49]
  else if v <? 128 * 128 * 128 * 128 * 128 * 128 * 128 * 128 * 128 then
    [cont v 0; cont v 7; cont v 14; cont v 21; cont v 28; cont v 35; cont v 42; cont v 49;
     last7 v 56]
  else
    [cont v 0; cont v 7; cont v 14; cont v 21; cont v 28; cont v 35; cont v 42; cont v 49;
     cont v 56; last7 v 63].

(** successive [put<uint8>] calls *)
Fixpoint put_all (bytes : list Z) (b : buffer) : option buffer :=
  match bytes with
  | [] => Some b
  | x :: r => obind (put 1 x b) (put_all r)
  end.

Definition put_varint32 (v : Z) (b : buffer) : option buffer := put_all (varint32_bytes v) b.
Definition put_varint64 (v : Z) (b : buffer) : option buffer := put_all (varint64_bytes v) b.

(** binary_buffer.h:313-316 [put_varint(int)] *)
Definition put_varint_int (v : Z) (b : buffer) : option buffer :=
  put_varint32 (v mod 2 ^ 32) b.

(** binary_buffer.h:401-416 [put_string]: the length is cast to uint32 *)
Definition put_string (s : list Z) (b : buffer) : option buffer :=
  obind (put_varint32 (Z.of_nat (length s) mod 2 ^ 32) b) (append s).

(** ** Reader *)

(** binary_buffer.h:424-431, 480-484: memory area and cursor *)
Record reader := Rd { rdata : list Z; curr : Z }.
Definition rsize (r : reader) : Z := Z.of_nat (length (rdata r)).
Definition set_curr (c : Z) (r : reader) : reader := Rd (rdata r) c.

(** binary_buffer.h:488-513 constructor, [rewind] *)
Definition reader_of (d : list Z) : reader := Rd d 0.

(** binary_buffer.h:516-519 [cursor_available]: [m_curr + n] in size_t *)
Definition cursor_available (n : Z) (r : reader) : bool :=
  (curr r + n) mod 2 ^ 64 <=? rsize r.

(** binary_buffer.h:523-527 [check_available] *)
Definition check_available (n : Z) (r : reader) : res unit :=
  if cursor_available n r then Ok tt else Underflow.

(** binary_buffer.h:530-533 [empty] *)
Definition rempty (r : reader) : bool := curr r =? rsize r.

(** memory access [m_data + m_curr .. + n) *)
Definition fetch (n : Z) (r : reader) : res (list Z) :=
  if (curr r + n <=? rsize r) && (0 <=? curr r)
  then Ok (firstn (Z.to_nat n) (skipn (Z.to_nat (curr r)) (rdata r)))
  else OutOfBounds.

(** binary_buffer.h:536-542 [skip] *)
Definition skip (n : Z) (r : reader) : res reader :=
  bind (check_available n r) (fun _ => Ok (set_curr ((curr r + n) mod 2 ^ 64) r)).

(** binary_buffer.h:546-563 [read] *)
Definition read (n : Z) (r : reader) : res (list Z * reader) :=
  bind (check_available n r) (fun _ =>
  bind (fetch n r) (fun d => Ok (d, set_curr ((curr r + n) mod 2 ^ 64) r))).

(** value of a little-endian byte string *)
Fixpoint le_value (l : list Z) : Z :=
  match l with [] => 0 | x :: r => x + 256 * le_value r end.

(** binary_buffer.h:567-576 [get<Type>] for an unsigned type of [k] bytes *)
Definition get (k : nat) (r : reader) : res (Z * reader) :=
  bind (check_available (Z.of_nat k) r) (fun _ =>
  bind (fetch (Z.of_nat k) r) (fun d =>
    Ok (le_value d, set_curr ((curr r + Z.of_nat k) mod 2 ^ 64) r))).

Definition has_cont (u : Z) : bool := negb (Z.land u 128 =? 0).
Definition or32 (v u s : Z) : Z := (Z.lor v (Z.shiftl (Z.land u 127) s)) mod 2 ^ 32.
Definition or64 (v u s : Z) : Z := (Z.lor v (Z.shiftl (Z.land u 127) s)) mod 2 ^ 64.

(** binary_buffer.h:579-595 [get_varint] *)
Definition get_varint (r : reader) : res (Z * reader) :=
  bind (get 1 r) (fun '(v, r) => if negb (has_cont v) then Ok (v, r) else
  let v := Z.land v 127 in
  bind (get 1 r) (fun '(u, r) => let v := or32 v u 7 in if negb (has_cont u) then Ok (v, r) else
  bind (get 1 r) (fun '(u, r) => let v := or32 v u 14 in if negb (has_cont u) then Ok (v, r) else
  bind (get 1 r) (fun '(u, r) => let v := or32 v u 21 in if negb (has_cont u) then Ok (v, r) else
  bind (get 1 r) (fun '(u, r) =>
    if negb (Z.land u 240 =? 0) then Overflow else Ok (or32 v u 28, r)))))).

(** binary_buffer.h:598-624 [get_varint64] *)
Definition get_varint64 (r : reader) : res (Z * reader) :=
  bind (get 1 r) (fun '(v, r) => if negb (has_cont v) then Ok (v, r) else
  let v := Z.land v 127 in
  bind (get 1 r) (fun '(u, r) => let v := or64 v u 7 in if negb (has_cont u) then Ok (v, r) else
  bind (get 1 r) (fun '(u, r) => let v := or64 v u 14 in if negb (has_cont u) then Ok (v, r) else
  bind (get 1 r) (fun '(u, r) => let v := or64 v u 21 in if negb (has_cont u) then Ok (v, r) else
  bind (get 1 r) (fun '(u, r) => let v := or64 v u 28 in if negb (has_cont u) then Ok (v, r) else
  bind (get 1 r) (fun '(u, r) => let v := or64 v u 35 in if negb (has_cont u) then Ok (v, r) else
  bind (get 1 r) (fun '(u, r) => let v := or64 v u 42 in if negb (has_cont u) then Ok (v, r) else
  bind (get 1 r) (fun '(u, r) => let v := or64 v u 49 in if negb (has_cont u) then Ok (v, r) else
  bind (get 1 r) (fun '(u, r) => let v := or64 v u 56 in if negb (has_cont u) then Ok (v, r) else
  bind (get 1 r) (fun '(u, r) =>
    if negb (Z.land u 254 =? 0) then Overflow else Ok (or64 v u 63, r))))))))))).

(** binary_buffer.h:627-631 [get_string] *)
Definition get_string (r : reader) : res (list Z * reader) :=
  bind (get_varint r) (fun '(len, r) => read len r).

(** binary_buffer.h:635-643 [get_binary_buffer_ref]: the reference is the
    (offset, length) of the sub-block; the reference is formed before the
    range is checked by [skip] *)
Definition get_binary_buffer_ref (r : reader) : res ((Z * Z) * reader) :=
  bind (get_varint r) (fun '(len, r) =>
    let br := (curr r, len) in
    bind (skip len r) (fun r' => Ok (br, r'))).

(** binary_buffer.h:462-473 comparison of two areas *)
Fixpoint memcmp_eq (a b : list Z) : bool :=
  match a, b with
  | [], [] => true
  | x :: a', y :: b' => (x =? y) && memcmp_eq a' b'
  | _, _ => false
  end.
Definition ref_eqb (a b : list Z) : bool :=
  if negb (Z.of_nat (length a) =? Z.of_nat (length b)) then false else memcmp_eq a b.
