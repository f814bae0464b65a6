(** Model of include/stxxl/bits/algo/scan.h (for_each 52-97, for_each_m 120-183, generate 204-261, find 284-325) and of the use
    of buf_istream (mng/buf_istream.h) and buf_ostream (mng/buf_ostream.h) on the blocks of one vector.

    A vector is the list of the elements of its blocks (after begin.flush() the blocks on disk are up to date, and afterwards no
    page is cached: VectorModel); positions are indices.  The input stream is opened over a range of blocks and delivers their
    elements (C33); opening it over no blocks or beyond the blocks of the vector, or reading past its end, fails assertions.
    The output stream writes whole blocks from a given block on; destroying it with a partly filled block fails an assertion
    (mng/buf_ostream.h 121).  Blocks are prefetched and written in the background, so an element may only be written when the
    element at that position has already been read: otherwise it is not known which one of both the reader sees (a race).
    None is a failed assertion, undefined behaviour or such a race. *)
From Coq Require Import List Bool Arith.
Import ListNotations.

Definition obind {X Y} (x : option X) (f : X -> option Y) : option Y := match x with Some v => f v | None => None end.
Notation "'do' x <- e ; f" := (obind e (fun x => f)) (at level 200, x pattern, e at level 100, f at level 200).

Section Scan.
  Variable A : Type.
  Variable B : nat.                                   (* elements per block *)

  (** buf_istream over the blocks [b1, b2): what is left to read *)
  Definition open_in (v : list A) (b1 b2 : nat) : option (list A) :=
    if andb (Nat.ltb b1 b2) (Nat.leb (b2 * B) (length v)) then Some (firstn ((b2 - b1) * B) (skipn (b1 * B) v)) else None.
  (** operator>> *)
  Definition get (s : list A) : option (A * list A) := match s with [] => None | x :: s => Some (x, s) end.

  (** buf_ostream from block b: the elements written so far *)
  Definition close_out (v : list A) (b : nat) (written : list A) : option (list A) :=
    if andb (Nat.eqb (length written mod B) 0) (Nat.leb (b * B + length written) (length v)) then
      Some (firstn (b * B) v ++ written ++ skipn (b * B + length written) v)
    else None.

  (** both streams on the same blocks *)
  Record io := mkio { rest : list A; nread : nat; written : list A }.
  Definition io_get (s : io) : option (A * io) :=
    match rest s with [] => None | x :: r => Some (x, mkio r (S (nread s)) (written s)) end.
  Definition io_put (x : A) (s : io) : option io :=
    if Nat.ltb (length (written s)) (nread s) then Some (mkio (rest s) (nread s) (written s ++ [x])) else None.

  (** do something n times *)
  Fixpoint times {S} (n : nat) (f : S -> option S) (s : S) : option S :=
    match n with 0 => Some s | S n => do s <- f s; times n f s end.

  (** in >> tmp; out << tmp *)
  Definition copy (s : io) : option io := do (x, s) <- io_get s; io_put x s.

  (** number of elements from [last] to the end of its block, 0 at a block boundary *)
  Definition tail_length (last : nat) : nat := if Nat.eqb (last mod B) 0 then 0 else B - last mod B.
  (** end.bid() + ((end.block_offset()) ? 1 : 0) *)
  Definition end_block (last : nat) : nat := last / B + (if Nat.eqb (last mod B) 0 then 0 else 1).

  Section Functor.
    Variable St : Type.

    (** for_each 52-97 *)
    Definition for_each (f : St -> A -> St) (st : St) (v : list A) (first last : nat) : option St :=
      if Nat.eqb first last then Some st else
      do r <- open_in v (first / B) (end_block last);
      do r <- times (first mod B) (fun r => do (_, r) <- get r; Some r) r;
      do (st, r) <- times (last - first) (fun '(st, r) => do (x, r) <- get r; Some (f st x, r)) (st, r);
      do _ <- times (tail_length last) (fun r => do (_, r) <- get r; Some r) r;
      Some st.

    (** for_each_m 120-183; the functor changes its argument *)
    Definition for_each_m (f : St -> A -> St * A) (st : St) (v : list A) (first last : nat) : option (St * list A) :=
      if Nat.eqb first last then Some (st, v) else
      do r <- open_in v (first / B) (end_block last);
      do s <- times (first mod B) copy (mkio r 0 []);
      do (st, s) <- times (last - first)
        (fun '(st, s) => do (x, s) <- io_get s; let (st, y) := f st x in do s <- io_put y s; Some (st, s)) (st, s);
      do s <- times (tail_length last) copy s;
      do v <- close_out v (first / B) (written s);
      Some (st, v).

    Fixpoint set_nth (i : nat) (x : A) (v : list A) : list A :=
      match v, i with [], _ => [] | _ :: v, 0 => x :: v | y :: v, S i => y :: set_nth i x v end.
    (** generate 204-261; 212-220: elements up to the start of a block are assigned through the vector *)
    Fixpoint generate_head (fuel : nat) (g : St -> A * St) (st : St) (v : list A) (first last : nat) : option (St * list A * nat) :=
      if Nat.eqb (first mod B) 0 then Some (st, v, first)
      else if Nat.eqb first last then Some (st, v, first)
      else match fuel with
      | 0 => None
      | S n => let (x, st) := g st in generate_head n g st (set_nth first x v) (S first) last
      end.
    Definition generate (g : St -> A * St) (st : St) (v : list A) (first last : nat) : option (St * list A) :=
      do (st, v, begin) <- generate_head B g st v first last;
      if negb (Nat.eqb (begin mod B) 0) then Some (st, v)                 (* 215: return *)
      else
        do (st, out) <- times (last - begin) (fun '(st, out) => let (x, st) := g st in Some (st, out ++ [x])) (st, []);
        (* 250-255: the rest of the block is copied *)
        do out <- (if Nat.leb (last + tail_length last) (length v) then Some (out ++ firstn (tail_length last) (skipn last v)) else None);
        do v <- close_out v (begin / B) out;
        Some (st, v).
  End Functor.

  (** find 284-325; the position of the result *)
  Fixpoint find_loop (n : nat) (eqb : A -> bool) (cur : nat) (r : list A) : option nat :=
    match n with
    | 0 => Some cur
    | S n => do (x, r) <- get r; if eqb x then Some cur else find_loop n eqb (S cur) r
    end.
  Definition find (eqb : A -> bool) (v : list A) (first last : nat) : option nat :=
    if Nat.eqb first last then Some last else
    do r <- open_in v (first / B) (end_block last);
    do r <- times (first mod B) (fun r => do (_, r) <- get r; Some r) r;
    find_loop (last - first) eqb first r.
End Scan.
