(** What stable_ksort has to do, and for which inputs the code does at least sort. *)
From Coq Require Import List Bool Arith NArith Permutation.
From Verif Require Import OrderLib.
Import ListNotations.

Section Spec.
  Variable A : Type.
  Variable w : N.
  Variable key : A -> N.
  Definition range (v : list A) (first last : nat) : list A := firstn (last - first) (skipn first v).
  Definition with_key (k : N) (l : list A) : list A := filter (fun x => N.eqb (key x) k) l.
  (** elements with equal keys in the same order *)
  Definition stable (l l' : list A) : Prop := forall k, with_key k l' = with_key k l.
  Definition by_key (x y : A) : bool := N.ltb (key x) (key y).

  (** elements whose keys start with the given bits, the first [b] ones *)
  Definition starting (b : nat) (i : nat) (l : list A) : list A := filter (fun x => N.eqb (key x / 2 ^ (w - N.of_nat b)) (N.of_nat i)) l.

  Variables B m nd tk l2 : nat.
  (** number of bits of a key looked at by the second level for n elements *)
  Definition second (n : nat) : nat := Nat.max (Nat.log2_up (n * tk / l2)) 1.
  Definition first_bits : nat := Nat.log2 (m - 4 * nd).
  (** the keys of [l] are evenly distributed: all buckets have a size that leads to the same number [b2] of bits, are neither empty nor too large,
      and at least two elements are in the first part of each *)
  Definition even (l : list A) (b2 : nat) : Prop :=
    1 <= b2 /\ first_bits + b2 <= N.to_nat w /\
    forall k, k < 2 ^ first_bits ->
      let n := length (starting first_bits k l) in
      n <= (m - 2 * nd) / 2 * B /\ second n = b2 /\ 2 <= length (starting (first_bits + b2) (k * 2 ^ b2) l) /\ Nat.log2 n - 1 <= N.to_nat w - first_bits - b2.
  (** the streams are opened on the right blocks *)
  Definition aligned (v : list A) (first last : nat) : Prop :=
    (first mod B = 0 -> last mod B = 0) /\ (first mod B <> 0 -> last mod B = 0 -> last + B <= length v).
End Spec.
