(** Model of random_shuffle on vectors, include/stxxl/bits/algo/random_shuffle.h 190-362.

    The streams on the blocks of the vector are those of ScanModel.  A bucket is a stack (C25..C28), here the list of its elements, top
    first; the pool of blocks behind the stacks is not modelled.  The random number generator is a state machine; std::random_shuffle
    on the temporary array is a parameter.  Numbers of bytes: the subtraction of line 274 wraps around, the additions 321 and 344 are taken
    without overflow.  A temporary vector consists of whole blocks whose unused elements are arbitrary.
    The events record the size of each temporary array and the memory handed to each recursive call. *)
From Coq Require Import List Bool Arith NArith.
From Verif Require Import ScanModel.
Import ListNotations.

(** Done, a failed assertion or undefined behaviour, or fuel exhausted *)
Inductive res (X : Type) := Done (x : X) | Stuck | More.
Arguments Done {X}. Arguments Stuck {X}. Arguments More {X}.
Definition rbind {X Y} (x : res X) (f : X -> res Y) : res Y := match x with Done v => f v | Stuck => Stuck | More => More end.
Notation "'try' x <- e ; f" := (rbind e (fun x => f)) (at level 200, x pattern, e at level 100, f at level 200).
Definition lift {X} (x : option X) : res X := match x with Some v => Done v | None => Stuck end.

Inductive event := Array (bytes : N) | Recurse (M : N).

Section Shuffle.
  Variable A : Type.
  Variable junk : A.                                  (* content of unused elements *)
  Variable B : nat.                                   (* elements per block *)
  Variables BlockSize PageSize sz : N.                (* bytes per block, blocks per page, bytes per element *)
  Variable St : Type.
  Variable rnd : N -> St -> N * St.                   (* rand(k) *)
  Variable shuffle : St -> list A -> St * list A.     (* std::random_shuffle *)

  (** 259-266: distribute input into random buckets *)
  Fixpoint push (i : nat) (x : A) (buckets : list (list A)) : option (list (list A)) :=
    match buckets, i with
    | [], _ => None
    | b :: bs, 0 => Some ((x :: b) :: bs)
    | b :: bs, S i => do bs <- push i x bs; Some (b :: bs)
    end.
  Definition distribute1 (k : N) (c : St * io A * list (list A)) : option (St * io A * list (list A)) :=
    let '(st, s, buckets) := c in
    let (i, st) := rnd k st in
    do (x, s) <- io_get A s;
    do buckets <- push (N.to_nat i) x buckets;
    Some (st, s, buckets).

  (** writing back *)
  Fixpoint put_all (l : list A) (s : io A) : option (io A) :=
    match l with [] => Some s | x :: l => do s <- io_put A x s; put_all l s end.

  (** 281-345: shuffle each bucket *)
  Fixpoint process (rec : St -> list A -> nat -> N -> res (St * list A * list event)) (buckets : list (list A))
    (space_left : N) (st : St) (s : io A) : res (St * io A * list event) :=
    match buckets with
    | [] => Done (st, s, [])
    | b :: bs =>
        let size := length b in
        if N.ltb (N.of_nat size * sz) space_left then
          let (st, l) := shuffle st b in
          try s <- lift (put_all l s);
          try (st, s, e) <- process rec bs (space_left + BlockSize) st s;
          Done (st, s, Array (N.of_nat size * sz) :: e)
        else
          let temp_vector := b ++ repeat junk (tail_length B size) in
          let space_left := (space_left + PageSize * BlockSize)%N in
          try (st, v, e1) <- rec st temp_vector size space_left;
          try s <- lift (put_all (firstn size v) s);
          try (st, s, e2) <- process rec bs (space_left + BlockSize)%N st s;
          Done (st, s, Recurse space_left :: e1 ++ e2)
    end.

  (** 209-214 *)
  Definition min_memory : N := 6 * BlockSize + PageSize * BlockSize.
  Definition memory (M : N) : N := if N.ltb M min_memory then min_memory else M.
  (** 217 *)
  Definition nbuckets (M : N) : N := (M / (3 * BlockSize))%N.
  (** 274 *)
  Definition sub64 (a b : N) : N := if N.ltb a b then (2 ^ 64 + a - b)%N else (a - b)%N.
  Definition space (M : N) : N := sub64 (sub64 M (nbuckets M * BlockSize)) (PageSize * BlockSize).

  Fixpoint random_shuffle (fuel : nat) (st : St) (v : list A) (first last : nat) (M : N) : res (St * list A * list event) :=
    match fuel with
    | 0 => More
    | S fuel =>
        let M := memory M in
        let k := nbuckets M in
        try r <- lift (open_in A B v (first / B) (end_block B last));
        try s <- lift (times (first mod B) (copy A) (mkio A r 0 []));
        try (st, s, buckets) <- lift (times (last - first) (distribute1 k) (st, s, repeat [] (N.to_nat k)));
        try (st, s, e) <- process (fun st v size M => random_shuffle fuel st v 0 size M) buckets (space M) st s;
        try s <- lift (times (tail_length B last) (copy A) s);
        try v <- lift (close_out A B v (first / B) (written A s));
        Done (st, v, e)
    end.
End Shuffle.
