(** Model of vector_bufreader, vector_bufreader_iterator and vector_bufreader_reverse
    (include/stxxl/bits/containers/vector.h:1919-2360) and of buf_istream_reverse (include/stxxl/bits/mng/buf_istream_reverse.h)
    over the prefetcher of BufIoModel.
    Iterators of the vector are offsets; [vb]: the block identifiers of the vector.  The constructor flushes the vector (C20), so
    the content of the vector is that of its blocks; nobody writes to them while the reader exists.
    The two readers have the same code but for the direction; [rev] says which one is meant. *)
From Coq Require Import List Bool Arith.
From Verif Require Import SumLib AsyncIoModel ScheduleModel BufIoModel.
Import ListNotations.
Local Open Scope prog_scope.

Section Reader.
Variable A : Type.
Notation prog := (prog A).
Variable S : nat.   (* block_type::size *)
Variables (ndisks mdev : nat) (dev ch : nat -> nat) (base : nat).

(** * buf_istream_reverse.h *)
(** 68-95: the block identifiers are copied in reverse order *)
Definition ir_new (bids : list nat) (nbuf : nat) : prog istr :=
  let bids := rev bids in
  let m := is_nbuf ndisks (length bids) nbuf in
  match schedule (length bids) m mdev (fun k => dev (nth k bids 0)) ch with
  | None => Err
  | Some order => let* t := pf_new A base bids order m in let* r := pull_block A t in Ret (mk_is (fst r) (S - 1) (snd r) true)
  end.
(** 136-154: current_elem is signed, it is below 0 after the element 0 *)
Definition ir_incr (t : istr) : prog istr :=
  if i_open t then
    if Nat.eqb (i_elem t) 0 then
      let* r := block_consumed A (i_blk t) (i_pf t) in
      Ret (match snd r with Some x => mk_is (fst r) (S - 1) x true | None => mk_is (fst r) (S - 1) (i_blk t) false end)
    else Ret (mk_is (i_pf t) (i_elem t - 1) (i_blk t) true)
  else Err.
(** 101-120 operator >> *)
Definition ir_get (t : istr) : prog (istr * A) :=
  if i_open t then DoGet (i_blk t) (i_elem t) (fun v => let* t := ir_incr t in Ret (t, v)) else Err.
(** 123-132 current, unary star *)
Definition ir_current (t : istr) : prog A := DoGet (i_blk t) (i_elem t) Ret.

(** A user of the stream *)
Definition ir_op (o : isop) (t : istr) : prog (istr * list A) :=
  match o with
  | IGet => let* r := ir_get t in Ret (fst r, [snd r])
  | ICurrent => let* v := ir_current t in Ret (t, [v])
  | IIncr => let* t := ir_incr t in Ret (t, [])
  end.
Fixpoint ir_ops (os : list isop) (t : istr) : prog (istr * list A) :=
  match os with
  | [] => Ret (t, [])
  | o :: os' => let* r := ir_op o t in let* r' := ir_ops os' (fst r) in Ret (fst r', snd r ++ snd r')
  end.
(** 157-161: the destructor is that of buf_istream *)
Definition ir_run (bids : list nat) (nbuf : nat) (os : list isop) : prog (list A) :=
  let* t := ir_new bids nbuf in let* r := ir_ops os t in let* _ := is_delete A (fst r) in Ret (snd r).

(** * vector.h *)
Variable rev : bool.
Definition in_new (bids : list nat) (nbuf : nat) : prog istr := if rev then ir_new bids nbuf else is_new A ndisks mdev dev ch base bids nbuf.
Definition in_incr (t : istr) : prog istr := if rev then ir_incr t else is_incr A S t.
Definition in_current (t : istr) : prog A := if rev then ir_current t else is_current A t.
Fixpoint in_skip (n : nat) (t : istr) : prog istr := match n with 0 => Ret t | Datatypes.S n' => let* t := in_incr t in in_skip n' t end.

(** 1949-1961, 2229-2241: m_begin, m_iter, m_end, m_bufin *)
Record rdr := mk_r { r_a : nat; r_it : nat; r_e : nat; r_in : option istr }.
(** 2073-2076, 2356-2359 *)
Definition r_empty (r : rdr) : bool := if rev then Nat.eqb (r_it r) (r_a r) else Nat.eqb (r_it r) (r_e r).
(** 2066-2070, 2349-2353 *)
Definition r_size (r : rdr) : nat := if rev then r_it r - r_a r else r_e r - r_it r.
(** [is_delete] is the destructor of both streams *)
Definition in_delete (o : option istr) : prog unit := match o with Some t => is_delete A t | None => Ret tt end.
(** 2003-2021, 2280-2304 *)
Definition rewind (vb : list nat) (nbuf : nat) (r : rdr) : prog rdr :=
  let r := mk_r (r_a r) (if rev then r_e r else r_a r) (r_e r) (r_in r) in
  if r_empty r then Ret r
  else
    let* _ := in_delete (r_in r) in
    let first := r_a r / S in
    let last := r_e r / S + (if Nat.eqb (r_e r mod S) 0 then 0 else 1) in
    let* t := in_new (firstn (last - first) (skipn first vb)) nbuf in
    let* t := in_skip (if rev then (if Nat.eqb (r_e r mod S) 0 then 0 else S - r_e r mod S) else r_a r mod S) t in
    Ret (mk_r (r_a r) (r_it r) (r_e r) (Some t)).
(** 1971-1999, 2248-2276; nbuffers = 0 stands for twice the number of disks *)
Definition r_new (vb : list nat) (nbuf a e : nat) : prog rdr :=
  rewind vb (if Nat.eqb nbuf 0 then 2 * ndisks else nbuf) (mk_r a 0 e None).
(** 2024-2027, 2307-2310 *)
Definition r_delete (r : rdr) : prog unit := in_delete (r_in r).
(** 2030-2033, 2313-2316 *)
Definition r_current (r : rdr) : prog A := match r_in r with Some t => in_current t | None => Err end.
(** 2042-2054, 2325-2337 *)
Definition r_incr (r : rdr) : prog rdr :=
  if r_empty r then Err
  else match r_in r with
       | None => Err
       | Some t =>
         let it := if rev then r_it r - 1 else r_it r + 1 in
         let* t := in_incr t in
         let r := mk_r (r_a r) it (r_e r) (Some t) in
         if r_empty r then let* _ := is_delete A t in Ret (mk_r (r_a r) it (r_e r) None) else Ret r
       end.
(** 2057-2063, 2340-2346 *)
Definition r_get (r : rdr) : prog (rdr * A) := let* v := r_current r in let* r := r_incr r in Ret (r, v).
(** for (v : reader), with vector_bufreader_iterator (2079-2088, 2118-2181): [jt] is m_iter of the iterator, which has to agree with
    the reader; [n] bounds the number of rounds *)
Fixpoint r_for (n : nat) (jt : nat) (r : rdr) : prog (rdr * list A) :=
  if Nat.eqb jt (r_e r) then Ret (r, [])
  else match n with
       | 0 => Err
       | Datatypes.S n' =>
         if Nat.eqb (r_it r) jt then
           let* v := r_current r in let* r := r_incr r in
           let* x := r_for n' (jt + 1) r in Ret (fst x, v :: snd x)
         else Err
       end.

Inductive rop := RGet | RCurrent | RIncr | RRewind | RSize | REmpty | RFor.
Inductive rout := OVal (v : A) | ONum (n : nat) | OBool (b : bool) | OList (l : list A).
Definition r_op (vb : list nat) (nbuf : nat) (o : rop) (r : rdr) : prog (rdr * list rout) :=
  match o with
  | RGet => let* x := r_get r in Ret (fst x, [OVal (snd x)])
  | RCurrent => let* v := r_current r in Ret (r, [OVal v])
  | RIncr => let* r := r_incr r in Ret (r, [])
  | RRewind => let* r := rewind vb (if Nat.eqb nbuf 0 then 2 * ndisks else nbuf) r in Ret (r, [])
  | RSize => Ret (r, [ONum (r_size r)])
  | REmpty => Ret (r, [OBool (r_empty r)])
  | RFor => if rev then Err else let* x := r_for (r_e r - r_a r) (r_a r) r in Ret (fst x, [OList (snd x)])
  end.
Fixpoint r_ops (vb : list nat) (nbuf : nat) (os : list rop) (r : rdr) : prog (rdr * list rout) :=
  match os with
  | [] => Ret (r, [])
  | o :: os' => let* x := r_op vb nbuf o r in let* y := r_ops vb nbuf os' (fst x) in Ret (fst y, snd x ++ snd y)
  end.
Definition r_run (vb : list nat) (nbuf a e : nat) (os : list rop) : prog (list rout) :=
  let* r := r_new vb nbuf a e in
  let* x := r_ops vb nbuf os r in
  let* _ := r_delete (fst x) in Ret (snd x).
End Reader.
