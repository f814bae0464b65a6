(** Model of stxxl::sequence (include/stxxl/bits/containers/sequence.h) and stxxl::queue (queue.h).
    [S] = block_type::size.  The read_write_pool is replaced by its specification (C11): write makes the block contain
    the buffer's content, read(..)->wait() delivers the latest content of the block, hint has no visible effect (the
    indices the hint loops use are i+1 and size-1-i for i < size-1, so in range).  steal() returns a buffer with a new
    number and unknown content.  back_element is stored as its distance to begin()-1, so that begin()-1 is 0.
    m_size is unbounded (in the code 64 bits).  assert()s are checked.  Not modelled: swap, destructors, constructors
    other than the effect of init(), I/O errors. *)
From Coq Require Import List Bool Arith.
From Verif Require Import SumLib AsyncIoModel.
Import ListNotations.
Local Open Scope prog_scope.

(** operations and what they return; the argument of a push is a value, or a reference to an element of the container *)
Inductive arg (A : Type) := Val (v : A) | RefFront | RefBack.
Inductive sop (A : Type) := PushFront (a : arg A) | PushBack (a : arg A) | PopFront | PopBack | Front | Back
  | SetFront (v : A) | SetBack (v : A) | Size | Stream | RevStream.
Inductive sout_ (A : Type) := OUnit | OVal (v : A) | ONum (n : nat) | OList (l : list A).
Arguments Val {A}. Arguments RefFront {A}. Arguments RefBack {A}.
Arguments PushFront {A}. Arguments PushBack {A}. Arguments PopFront {A}. Arguments PopBack {A}. Arguments Front {A}. Arguments Back {A}.
Arguments SetFront {A}. Arguments SetBack {A}. Arguments Size {A}. Arguments Stream {A}. Arguments RevStream {A}.
Arguments OUnit {A}. Arguments OVal {A}. Arguments ONum {A}. Arguments OList {A}.

Section Sequence.
Variable A : Type.
Variable S : nat.
Notation prog := (prog A).

(** m_size, m_front_block, m_front_element - begin, m_back_block, m_back_element - (begin - 1), m_bids; [q_new]: number of
    the next buffer that steal() returns *)
Record seqst := mk_q { q_size : nat; q_fb : nat; q_fi : nat; q_bb : nat; q_be : nat; q_bids : list nat; q_new : nat }.
(** sequence.h:193-215, queue.h:178-198 *)
Definition q_init : seqst := mk_q 0 0 0 0 0 [] 1.

(** what a const value_type& refers to *)
Inductive ref := RVal (v : A) | RAt (x i : nat).
Definition deref {R} (r : ref) (k : A -> prog R) : prog R := match r with RVal v => k v | RAt x i => DoGet x i k end.
Definition resolve (a : arg A) (t : seqst) : ref :=
  match a with Val v => RVal v | RefFront => RAt (q_fb t) (q_fi t) | RefBack => RAt (q_bb t) (q_be t - 1) end.
Definition store {R} (x i : nat) (r : ref) (k : prog R) : prog R := deref r (fun v => DoPut x i v k).

(** std::copy of n elements from (x,i) to (y,j) *)
Fixpoint copy {R} (n x i y j : nat) (k : prog R) : prog R :=
  match n with 0 => k | Datatypes.S n' => DoGet x i (fun v => DoPut y j v (copy n' x (i + 1) y (j + 1) k)) end.
(** std::copy_backward of the n elements from (x,i) to the n elements from (y,j) *)
Fixpoint copy_backward {R} (n x i y j : nat) (k : prog R) : prog R :=
  match n with 0 => k | Datatypes.S n' => DoGet x (i + n') (fun v => DoPut y (j + n') v (copy_backward n' x i y j k)) end.

(** sequence.h:246-313 *)
Definition q_push_front (r : ref) (t : seqst) : prog seqst :=
  let fin bids :=
    let x := q_new t in
    store x (S - 1) r (Ret (mk_q (q_size t + 1) x (S - 1) (q_bb t) (q_be t) bids (q_new t + 1))) in
  if Nat.eqb (q_fi t) 0 then
    if Nat.eqb (q_size t) 0 then
      if negb (Nat.eqb (q_fb t) (q_bb t)) then Err
      else store (q_fb t) (S - 1) r (Ret (mk_q (q_size t + 1) (q_fb t) (S - 1) (q_bb t) S (q_bids t) (q_new t)))
    else if Nat.eqb (q_fb t) (q_bb t) then fin (q_bids t)
    else if Nat.ltb (q_size t) (2 * S) then
      let gap := S - q_be t in
      if negb (Nat.eqb (length (q_bids t)) 0) || Nat.eqb gap 0 then Err else
      copy_backward (q_be t) (q_bb t) 0 (q_bb t) (S - q_be t) (
      copy_backward gap (q_fb t) (S - gap) (q_bb t) 0 (
      copy_backward (S - gap) (q_fb t) 0 (q_fb t) gap (
      let fi := q_fi t + gap in
      store (q_fb t) (fi - 1) r (Ret (mk_q (q_size t + 1) (q_fb t) (fi - 1) (q_bb t) (q_be t + gap) (q_bids t) (q_new t))))))
    else
      DoAlloc 1 (fun l => match l with
        | [b] => DoWrite (q_fb t) b (fun q => DoWait q (fin (b :: q_bids t)))
        | _ => Err end)
  else
    store (q_fb t) (q_fi t - 1) r (Ret (mk_q (q_size t + 1) (q_fb t) (q_fi t - 1) (q_bb t) (q_be t) (q_bids t) (q_new t))).

(** sequence.h:316-374; the same text as queue::push, queue.h:211-266 *)
Definition q_push_back (r : ref) (t : seqst) : prog seqst :=
  let fin bids :=
    let x := q_new t in
    store x 0 r (Ret (mk_q (q_size t + 1) (q_fb t) (q_fi t) x 1 bids (q_new t + 1))) in
  if Nat.eqb (q_be t) S then
    if Nat.eqb (q_fb t) (q_bb t) then fin (q_bids t)
    else if Nat.ltb (q_size t) (2 * S) then
      let gap := q_fi t in
      if negb (Nat.eqb (length (q_bids t)) 0) || Nat.eqb gap 0 then Err else
      copy (S - q_fi t) (q_fb t) (q_fi t) (q_fb t) 0 (
      copy gap (q_bb t) 0 (q_fb t) (S - gap) (
      copy (S - gap) (q_bb t) gap (q_bb t) 0 (
      let be := q_be t - gap in
      store (q_bb t) be r (Ret (mk_q (q_size t + 1) (q_fb t) (q_fi t - gap) (q_bb t) (be + 1) (q_bids t) (q_new t))))))
    else
      DoAlloc 1 (fun l => match l with
        | [b] => DoWrite (q_bb t) b (fun q => DoWait q (fin (q_bids t ++ [b])))
        | _ => Err end)
  else
    store (q_bb t) (q_be t) r (Ret (mk_q (q_size t + 1) (q_fb t) (q_fi t) (q_bb t) (q_be t + 1) (q_bids t) (q_new t))).

(** sequence.h:377-432; the same text as queue::pop, queue.h:269-323 *)
Definition q_pop_front (t : seqst) : prog seqst :=
  if Nat.eqb (q_size t) 0 then Err else
  if Nat.eqb (q_fi t) (S - 1) then
    if Nat.eqb (q_bb t) (q_fb t) then
      if Nat.eqb (q_size t) 1 && Nat.eqb (q_be t) (q_fi t + 1) && Nat.eqb (length (q_bids t)) 0
      then Ret (mk_q 0 (q_fb t) 0 (q_bb t) 0 (q_bids t) (q_new t)) else Err
    else if Nat.leb (q_size t - 1) S then
      if Nat.eqb (length (q_bids t)) 0
      then Ret (mk_q (q_size t - 1) (q_bb t) 0 (q_bb t) (q_be t) (q_bids t) (q_new t)) else Err
    else match q_bids t with
      | [] => Err
      | b :: bids =>
          DoRead (q_fb t) b (fun q => DoWait q (DoFree [b] (
          Ret (mk_q (q_size t - 1) (q_fb t) 0 (q_bb t) (q_be t) bids (q_new t)))))
      end
  else Ret (mk_q (q_size t - 1) (q_fb t) (q_fi t + 1) (q_bb t) (q_be t) (q_bids t) (q_new t)).

(** sequence.h:435-491 *)
Definition q_pop_back (t : seqst) : prog seqst :=
  if Nat.eqb (q_size t) 0 then Err else
  if Nat.eqb (q_be t) 1 then
    if Nat.eqb (q_bb t) (q_fb t) then
      if Nat.eqb (q_size t) 1 && Nat.eqb (q_be t) (q_fi t + 1) && Nat.eqb (length (q_bids t)) 0
      then Ret (mk_q 0 (q_fb t) 0 (q_bb t) 0 (q_bids t) (q_new t)) else Err
    else if Nat.leb (q_size t - 1) S then
      if Nat.eqb (length (q_bids t)) 0
      then Ret (mk_q (q_size t - 1) (q_fb t) (q_fi t) (q_fb t) S (q_bids t) (q_new t)) else Err
    else match rev (q_bids t) with
      | [] => Err
      | b :: r =>
          DoRead (q_bb t) b (fun q => DoWait q (DoFree [b] (
          Ret (mk_q (q_size t - 1) (q_fb t) (q_fi t) (q_bb t) S (rev r) (q_new t)))))
      end
  else Ret (mk_q (q_size t - 1) (q_fb t) (q_fi t) (q_bb t) (q_be t - 1) (q_bids t) (q_new t)).

(** sequence.h:517-543 *)
Definition q_front (t : seqst) : prog A := if Nat.eqb (q_size t) 0 then Err else DoGet (q_fb t) (q_fi t) Ret.
Definition q_back (t : seqst) : prog A := if Nat.eqb (q_size t) 0 then Err else DoGet (q_bb t) (q_be t - 1) Ret.
Definition q_set_front (v : A) (t : seqst) : prog unit := if Nat.eqb (q_size t) 0 then Err else DoPut (q_fb t) (q_fi t) v (Ret tt).
Definition q_set_back (v : A) (t : seqst) : prog unit := if Nat.eqb (q_size t) 0 then Err else DoPut (q_bb t) (q_be t - 1) v (Ret tt).

(** * sequence::stream, 564-681: while (!empty()) { use( * ); ++ }.
    m_size, m_current_block, m_current_element - begin, the bids from m_next_bid on; [t_buf] is the number of the buffer
    steal() returns *)
Fixpoint stream_from (fuel : nat) (t : seqst) (size blk idx : nat) (next : list nat) : prog (list A) :=
  if Nat.eqb size 0 then Ret [] else
  match fuel with 0 => Err | Datatypes.S fuel' =>
    DoGet blk idx (fun v =>
    let go size blk idx next := let* l := stream_from fuel' t size blk idx next in Ret (v :: l) in
    if Nat.eqb idx (S - 1) then
      let size := size - 1 in
      if Nat.eqb size 0 then if Nat.eqb (length next) 0 && Nat.eqb blk (q_bb t) then Ret [v] else Err
      else if Nat.leb size S then if Nat.eqb (length next) 0 then go size (q_bb t) 0 next else Err
      else let blk := if Nat.eqb blk (q_fb t) then q_new t else blk in
           match next with
           | [] => Err
           | b :: next' => DoRead blk b (fun q => DoWait q (go size blk 0 next'))
           end
    else go (size - 1) blk (idx + 1) next)
  end.
Definition q_stream (t : seqst) : prog (list A) := stream_from (q_size t) t (q_size t) (q_fb t) (q_fi t) (q_bids t).
(** 699-816; the index is m_current_element - (begin - 1) *)
Fixpoint rev_stream_from (fuel : nat) (t : seqst) (size blk be : nat) (next : list nat) : prog (list A) :=
  if Nat.eqb size 0 then Ret [] else
  match fuel with 0 => Err | Datatypes.S fuel' =>
    DoGet blk (be - 1) (fun v =>
    let go size blk be next := let* l := rev_stream_from fuel' t size blk be next in Ret (v :: l) in
    if Nat.eqb be 1 then
      let size := size - 1 in
      if Nat.eqb size 0 then if Nat.eqb (length next) 0 && Nat.eqb blk (q_fb t) then Ret [v] else Err
      else if Nat.leb size S then if Nat.eqb (length next) 0 then go size (q_fb t) S next else Err
      else let blk := if Nat.eqb blk (q_bb t) then q_new t else blk in
           match next with
           | [] => Err
           | b :: next' => DoRead blk b (fun q => DoWait q (go size blk S next'))
           end
    else go (size - 1) blk (be - 1) next)
  end.
Definition q_rev_stream (t : seqst) : prog (list A) := rev_stream_from (q_size t) t (q_size t) (q_bb t) (q_be t) (rev (q_bids t)).
(** a stream may keep a buffer it got from steal() *)
Definition q_used (t : seqst) : seqst := mk_q (q_size t) (q_fb t) (q_fi t) (q_bb t) (q_be t) (q_bids t) (q_new t + 1).

Definition seq_op (o : sop A) (t : seqst) : prog (seqst * sout_ A) :=
  match o with
  | PushFront a => if match a with Val _ => false | _ => Nat.eqb (q_size t) 0 end then Err
                   else let* t' := q_push_front (resolve a t) t in Ret (t', OUnit)
  | PushBack a => if match a with Val _ => false | _ => Nat.eqb (q_size t) 0 end then Err
                  else let* t' := q_push_back (resolve a t) t in Ret (t', OUnit)
  | PopFront => let* t' := q_pop_front t in Ret (t', OUnit)
  | PopBack => let* t' := q_pop_back t in Ret (t', OUnit)
  | Front => let* v := q_front t in Ret (t, OVal v)
  | Back => let* v := q_back t in Ret (t, OVal v)
  | SetFront v => let* _ := q_set_front v t in Ret (t, OUnit)
  | SetBack v => let* _ := q_set_back v t in Ret (t, OUnit)
  | Size => Ret (t, ONum (q_size t))
  | Stream => let* l := q_stream t in Ret (q_used t, OList l)
  | RevStream => let* l := q_rev_stream t in Ret (q_used t, OList l)
  end.
Fixpoint seq_ops (os : list (sop A)) (t : seqst) : prog (seqst * list (sout_ A)) :=
  match os with
  | [] => Ret (t, [])
  | o :: l => let* r := seq_op o t in let* r' := seq_ops l (fst r) in Ret (fst r', snd r :: snd r')
  end.
End Sequence.
