(** Model of the stream operators: include/stxxl/bits/stream/stream.h (iterator2stream 43-81, vector_iterator2stream 104-190,
    vector_iterator2stream_sr 282-365, materialize 418-612, discard 614-624, generator2stream 630-692, transform 714-1144,
    make_tuple 1146-1520), choose.h and unique.h.

    A stream is a state with empty(), operator* and operator++ (operator-> is the same as the former).  The streams on the input side are arbitrary
    such machines; None is a failed assertion or undefined behaviour.  Where the code holds references to its input streams, the state of the inputs is
    part of the state of the operator.  The inputs of transform and make_tuple are a list of streams of one type, of any number (the code
    has 1 to 6, of possibly different types).  Vectors are as in ScanModel. *)
From Coq Require Import List Bool Arith.
From Verif Require Import ScanModel.
Import ListNotations.

Record stream (S A : Type) := mkstream { s_empty : S -> bool; s_get : S -> option A; s_next : S -> option S }.
Arguments mkstream {S A}. Arguments s_empty {S A}. Arguments s_get {S A}. Arguments s_next {S A}.

(** iterator2stream: what lies between m_current and m_end *)
Definition iterator2stream {A} : stream (list A) A :=
  mkstream (fun l => match l with [] => true | _ => false end) (@hd_error A) (fun l => match l with [] => None | _ :: l => Some l end).

(** generator2stream: the generator and m_current *)
Definition generator_new {G A} (gen : G -> A * G) (g : G) : A * G := gen g.
Definition generator2stream {G A} (gen : G -> A * G) : stream (A * G) A :=
  mkstream (fun _ => false) (fun s => Some (fst s)) (fun s => Some (gen (snd s))).

(** all of a list, or none *)
Fixpoint all {X} (l : list (option X)) : option (list X) :=
  match l with [] => Some [] | x :: l => do x <- x; do l <- all l; Some (x :: l) end.

Section Transform.
  Context {S A B O : Type}.
  Variable I : stream S A.
  Variable op : O -> list A -> O * B.                  (* the functor has a state *)
  (** inputs, functor, current *)
  Definition tstate := (list S * O * option B)%type.
  Definition t_inputs_empty (ss : list S) : bool := existsb (s_empty I) ss.
  (** if (!empty()) current = op( *i1, *i2, ...) *)
  Definition t_eval (ss : list S) (o : O) (cur : option B) : option tstate :=
    if t_inputs_empty ss then Some (ss, o, cur)
    else do xs <- all (map (s_get I) ss); let (o, b) := op o xs in Some (ss, o, Some b).
  Definition transform_new (ss : list S) (o : O) : option tstate := t_eval ss o None.
  Definition transform : stream tstate B :=
    mkstream (fun '(ss, _, _) => t_inputs_empty ss) (fun '(_, _, cur) => cur)
      (fun '(ss, o, cur) => do ss <- all (map (s_next I) ss); t_eval ss o cur).
End Transform.

(** make_tuple: a tuple is the list of its components *)
Definition make_tuple {S A} (I : stream S A) : stream (tstate (S := S) (B := list A) (O := unit)) (list A) := transform I (fun _ xs => (tt, xs)).
Definition make_tuple_new {S A} (I : stream S A) (ss : list S) : option tstate := transform_new (O := unit) I (fun _ xs => (tt, xs)) ss tt.

(** choose: component [which] of tuples *)
Definition choose {S A} (I : stream S (list A)) (which : nat) : stream S A :=
  mkstream (s_empty I) (fun s => do t <- s_get I s; nth_error t which) (s_next I).

Section Unique.
  Context {S A : Type}.
  Variable I : stream S A.
  Variable pred : A -> A -> bool.
  Definition unique_new (s : S) : option (S * option A) :=
    if s_empty I s then Some (s, None) else do x <- s_get I s; Some (s, Some x).
  (** while (!input.empty() && binary_pred(current = *input, old_value)) ++input *)
  Fixpoint unique_skip (fuel : nat) (s : S) (cur old : A) : option (S * A) :=
    if s_empty I s then Some (s, cur)
    else do x <- s_get I s;
      if pred x old then match fuel with 0 => None | Datatypes.S fuel => do s <- s_next I s; unique_skip fuel s x old end
      else Some (s, x).
  (** [fuel] bounds the loop *)
  Definition unique (fuel : nat) : stream (S * option A) A :=
    mkstream (fun s => s_empty I (fst s)) snd
      (fun '(s, cur) => do old <- cur; do s <- s_next I s; do (s, cur) <- unique_skip fuel s old old; Some (s, Some cur)).
End Unique.

Section Materialize.
  Context {S A : Type}.
  Variable I : stream S A.
  (** 418-430, 432-455: to an output iterator that takes [room] elements (None: any number); the elements written and the stream *)
  Fixpoint materialize (fuel : nat) (room : option nat) (s : S) : option (list A * S) :=
    if s_empty I s then Some ([], s)
    else match room with
    | Some 0 => Some ([], s)
    | _ => match fuel with
           | 0 => None
           | Datatypes.S fuel =>
               do x <- s_get I s; do s <- s_next I s;
               do (l, s) <- materialize fuel (option_map Nat.pred room) s; Some (x :: l, s)
           end
    end.
  (** 614-624 *)
  Definition discard (fuel : nat) (s : S) : option S := do (_, s) <- materialize fuel None s; Some s.

  (** 457-536, 538-612: to a vector, [out] and [outend] are positions in it (None: no end given); the vector, the new position and the stream *)
  Variable B : nat.
  Fixpoint mat_head (fuel : nat) (v : list A) (out : nat) (outend : option nat) (s : S) : option (list A * nat * S) :=
    if Nat.eqb (out mod B) 0 then Some (v, out, s)
    else if s_empty I s || match outend with Some e => Nat.eqb out e | None => false end then Some (v, out, s)
    else match fuel with
    | 0 => None
    | Datatypes.S fuel =>
        do x <- s_get I s;
        if Nat.ltb out (length v) then do s <- s_next I s; mat_head fuel (set_nth A out x v) (out + 1) outend s else None
    end.
  Definition mat_vector (fuel : nat) (v : list A) (out : nat) (outend : option nat) (s : S) : option (list A * nat * S) :=
    do (v, out, s) <- mat_head B v out outend s;
    if negb (Nat.eqb (out mod B) 0) then Some (v, out, s)
    else
      do (l, s) <- materialize fuel (option_map (fun e => e - out) outend) s;
      let last := out + length l in
      do t <- (if Nat.leb (last + tail_length B last) (length v) then Some (firstn (tail_length B last) (skipn last v)) else None);
      do v <- close_out A B v (out / B) (l ++ t);
      Some (v, last, s).
End Materialize.

Section VectorStream.
  Context {A : Type}.
  Variable B : nat.
  (** vector_iterator2stream: m_current, m_end and what the buf_istream still delivers (None: no stream) *)
  Definition vstate := (nat * nat * option (list A))%type.
  Definition vstream_new (v : list A) (first last : nat) : option vstate :=
    if Nat.eqb first last then Some (first, last, None)
    else
      do r <- open_in A B v (first / B) (end_block B last);
      do r <- times (first mod B) (fun r => do (_, r) <- get A r; Some r) r;
      Some (first, last, Some r).
  Definition vstream : stream vstate A :=
    mkstream (fun '(cur, e, _) => Nat.eqb cur e) (fun '(_, _, r) => do r <- r; hd_error r)
      (fun '(cur, e, r) => if Nat.eqb cur e then None else
         do r <- r; do (_, r) <- get A r; Some (cur + 1, e, if Nat.eqb (cur + 1) e then None else Some r)).
  (** the copy constructor (150-152): the new stream, and what is left of the old one *)
  Definition vstream_copy (s : vstate) : vstate * vstate := let '(cur, e, r) := s in ((cur, e, r), (cur, e, None)).

  (** vector_iterator2stream_sr: one of two streams *)
  Definition sr_new (v : list A) (first last : nat) : option (list A + vstate) :=
    if Nat.ltb (last - first) B then Some (inl (firstn (last - first) (skipn first v)))
    else do s <- vstream_new v first last; Some (inr s).
  Definition sr_stream : stream (list A + vstate) A :=
    mkstream (fun s => match s with inl l => s_empty iterator2stream l | inr s => s_empty vstream s end)
             (fun s => match s with inl l => s_get iterator2stream l | inr s => s_get vstream s end)
             (fun s => match s with
                       | inl l => do l <- s_next iterator2stream l; Some (inl l)
                       | inr s => do s <- s_next vstream s; Some (inr s) end).
End VectorStream.

(** The objects vector_iterator2stream_sr points to, 282-365: the heap is the list of live objects; a stream is a pointer into it.
    The copy constructor (316-318) copies the pointer, the destructor (356-364) deletes the object. *)
Definition sr_copy (p : nat) : nat := p.
Definition sr_use (heap : list nat) (p : nat) : option (list nat) := if existsb (Nat.eqb p) heap then Some heap else None.
Definition sr_destroy (heap : list nat) (p : nat) : option (list nat) :=
  if existsb (Nat.eqb p) heap then Some (remove Nat.eq_dec p heap) else None.
