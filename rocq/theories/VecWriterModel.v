(** Model of vector_bufwriter (include/stxxl/bits/containers/vector.h:2380-2591) on top of the vector of VectorModel, for
    writers that are used through operator << and finish() (the destructor calls finish()).
    The buf_ostream (mng/buf_ostream.h) is modelled with one block, buffer v_base + N * P, which is written, and waited for,
    when it is full; that several blocks are on their way at the same time is C66.  In finish() the code reads the page of the
    last block while earlier blocks of it may still be on their way; what is read of them is not used.  The number of
    the next block to be written stands for the iterator into m_bids: resize() in between would move m_bids, but no
    buf_ostream is alive then.  Iterators are offsets. *)
From Coq Require Import List Bool Arith.
From Verif Require Import SumLib AsyncIoModel VectorModel.
Import ListNotations.
Local Open Scope prog_scope.

Section Writer.
Variable A : Type.
Variables S P N : nat.
Variable PT : Type.
Variable pinit : PT.
Variable kick : PT -> nat * PT.
Variable hit : nat -> PT -> PT.
Notation prog := (prog A).
Notation vst := (vst PT).

(** 2403-2423: m_iter, m_end, m_grown, m_prevblk, m_bufout (number of the block that is filled, current_elem) *)
Record bw := mk_bw { w_iter : nat; w_end : nat; w_grown : bool; w_prev : nat; w_out : option (nat * nat) }.
(** 2429-2441 and 2446-2458 *)
Definition bw_init (a : nat) (t : vst) : prog bw :=
  if Nat.leb a (v_size t) then Ret (mk_bw a (v_size t) false 0 None) else Err.
(** the block of the buf_ostream *)
Definition obuf (t : vst) : nat := v_base t + N * P.
(** writer.write(current_blk, bid), buf_ostream.h:92, 113 *)
Definition out_block (j : nat) (t : vst) : prog unit :=
  match nth_error (v_bids t) j with
  | None => Err
  | Some b => DoWrite (obuf t) b (fun q => DoWait q (Ret tt))
  end.
(** buf_ostream::operator ++, buf_ostream.h:86-95 *)
Definition out_next (j e : nat) (t : vst) : prog (nat * nat) :=
  if Nat.leb S (e + 1) then let* _ := out_block j t in Ret (j + 1, 0) else Ret (j, e + 1).
(** 2470-2499; buf_ostream::flush(), buf_ostream.h:109-114, and its destructor's assert(current_elem == 0) *)
Definition bw_grow (t : vst) (w : bw) : prog (vst * bw) :=
  let* t :=
    match w_out w with
    | None => Ret t
    | Some (j, e) =>
        if Nat.eqb (w_iter w mod S) 0 then (if Nat.eqb e 0 then Ret t else Err)
        else let* _ := out_block j t in page_updated A PT (w_iter w / S / P) t
    end in
  let* t := resize A S P PT (if Nat.ltb (v_size t) (2 * S) then 2 * S else 2 * v_size t) t in
  Ret (t, mk_bw (w_iter w) (v_size t) true (w_prev w) None).
(** operator << after the vector was made long enough: 2501-2549 *)
Definition bw_put2 (v : A) (t : vst) (w : bw) : prog (vst * bw) :=
  if negb (Nat.ltb (w_iter w) (w_end w)) then Err else
  let aligned := Nat.eqb (w_iter w mod S) 0 in
  match w_out w with
  | None =>
      if negb aligned then
        let* t := set A S P PT kick hit (w_iter w) v t in
        Ret (t, mk_bw (w_iter w + 1) (w_end w) (w_grown w) (w_prev w) None)
      else
        let* t := flush A P N PT t in
        DoPut (obuf t) 0 v (
        let* o := out_next (w_iter w / S) 0 t in
        Ret (t, mk_bw (w_iter w + 1) (w_end w) (w_grown w) (w_iter w) (Some o)))
  | Some (j, e) =>
      let* r :=
        (if aligned && negb (Nat.eqb (w_prev w) (w_iter w)) then
           let* t := page_updated A PT (w_prev w / S / P) t in Ret (t, w_iter w)
         else Ret (t, w_prev w)) in
      let (t, prev) := r in
      DoPut (obuf t) e v (
      let* o := out_next j e t in
      Ret (t, mk_bw (w_iter w + 1) (w_end w) (w_grown w) prev (Some o)))
  end.
(** operator << : 2464-2549 *)
Definition bw_put (v : A) (t : vst) (w : bw) : prog (vst * bw) :=
  let* r := (if Nat.eqb (w_iter w) (w_end w) then bw_grow t w else Ret (t, w)) in bw_put2 v (fst r) (snd r).
Fixpoint bw_puts (vs : list A) (t : vst) (w : bw) : prog (vst * bw) :=
  match vs with [] => Ret (t, w) | v :: vs' => let* r := bw_put v t w in bw_puts vs' (fst r) (snd r) end.
(** 2560-2566; the loop runs at most S times *)
Fixpoint bw_fill (n i j e : nat) (t : vst) : prog vst :=
  if Nat.eqb (i mod S) 0 then Ret t else
  match n with
  | 0 => Err
  | Datatypes.S n' =>
      let* r := locate A S P PT kick hit false i t in
      let t := fst r in
      DoCopy (fst (snd r)) (snd (snd r)) (obuf t) e (
      let* o := out_next j e t in
      bw_fill n' (i + 1) (fst o) (snd o) t)
  end.
(** 2552-2589 *)
Definition bw_finish (t : vst) (w : bw) : prog vst :=
  let* t :=
    match w_out w with
    | None => Ret t
    | Some (j, e) =>
        let* t := bw_fill S (w_iter w) j e t in
        if Nat.eqb (w_prev w) (w_iter w) then Ret t else page_updated A PT (w_prev w / S / P) t
    end in
  if w_grown w then resize A S P PT (w_iter w) t else Ret t.
Definition bw_write (a : nat) (vs : list A) (t : vst) : prog vst :=
  let* w := bw_init a t in
  let* r := bw_puts vs t w in
  bw_finish (fst r) (snd r).

(** a vector that is used by itself and through writers *)
Inductive wop := WVec (o : vop A) | WWrite (a : nat) (vs : list A).
Definition w_op (o : wop) (t : vst) : prog (vst * vout A) :=
  match o with
  | WVec o => vec_op A S P N PT pinit kick hit o t
  | WWrite a vs => let* t := bw_write a vs t in Ret (t, VUnit)
  end.
Fixpoint w_ops (os : list wop) (t : vst) : prog (vst * list (vout A)) :=
  match os with
  | [] => Ret (t, [])
  | o :: l => let* r := w_op o t in let* r' := w_ops l (fst r) in Ret (fst r', snd r :: snd r')
  end.
End Writer.
Arguments WVec {A}. Arguments WWrite {A}.
