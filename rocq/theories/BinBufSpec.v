(** Specification for the codec: what a byte string means as a varint, and a
    sequence of items as an append-only log. *)
From Coq Require Import ZArith List Bool.
From Verif Require Import BinBufModel.
Import ListNotations.
Open Scope Z_scope.

Definition is_byte (b : Z) : Prop := 0 <= b < 256.
Definition bytes (l : list Z) : Prop := Forall is_byte l.

(** base-128 little-endian value of the low seven bits of each byte *)
Fixpoint varint_value (l : list Z) : Z :=
  match l with [] => 0 | b :: r => b mod 128 + 128 * varint_value r end.

(** all bytes but the last carry the continuation bit, the last one does not *)
Fixpoint well_terminated (l : list Z) : Prop :=
  match l with
  | [] => False
  | [b] => 0 <= b < 128
  | b :: r => 128 <= b < 256 /\ well_terminated r
  end.

(** Items that can be put into a buffer. *)
Inductive item :=
| IInt (k : nat) (v : Z)        (* put<uintN>, N = 8k *)
| IVar32 (v : Z)
| IVar64 (v : Z)
| IStr (s : list Z)
| IRaw (s : list Z)             (* append / read(len) *)
| IAlign (n : Z).

Definition item_ok (i : item) : Prop :=
  match i with
  | IInt k v => 0 <= v < 256 ^ Z.of_nat k
  | IVar32 v => 0 <= v < 2 ^ 32
  | IVar64 v => 0 <= v < 2 ^ 64
  | IStr s => bytes s /\ Z.of_nat (length s) < 2 ^ 32
  | IRaw s => bytes s
  | IAlign n => 0 < n
  end.

Definition put_item (i : item) (b : buffer) : option buffer :=
  match i with
  | IInt k v => put k v b
  | IVar32 v => put_varint32 v b
  | IVar64 v => put_varint64 v b
  | IStr s => put_string s b
  | IRaw s => append s b
  | IAlign n => align n b
  end.

Fixpoint put_items (l : list item) (b : buffer) : option buffer :=
  match l with [] => Some b | i :: r => obind (put_item i b) (put_items r) end.

(** Read the same kind of item back. *)
Definition get_item (i : item) (r : reader) : res (item * reader) :=
  match i with
  | IInt k _ => bind (get k r) (fun '(v, r) => Ok (IInt k v, r))
  | IVar32 _ => bind (get_varint r) (fun '(v, r) => Ok (IVar32 v, r))
  | IVar64 _ => bind (get_varint64 r) (fun '(v, r) => Ok (IVar64 v, r))
  | IStr _ => bind (get_string r) (fun '(s, r) => Ok (IStr s, r))
  | IRaw s => bind (read (Z.of_nat (length s)) r) (fun '(s, r) => Ok (IRaw s, r))
  | IAlign n => bind (skip ((- curr r) mod n) r) (fun r => Ok (IAlign n, r))
  end.

Fixpoint get_items (l : list item) (r : reader) : res (list item * reader) :=
  match l with
  | [] => Ok ([], r)
  | i :: l' => bind (get_item i r) (fun '(x, r) =>
               bind (get_items l' r) (fun '(xs, r) => Ok (x :: xs, r)))
  end.
