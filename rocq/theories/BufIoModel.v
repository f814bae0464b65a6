(** Model of buffered block I/O: block_prefetcher.h, buf_istream.h, buf_writer.h, buf_ostream.h (include/stxxl/bits/mng).
    Programs over the primitives of AsyncIoModel.  [base]: number of the first buffer (read_buffers, write_buffers).
    Not modelled: I/O errors, do_after_fetch. *)
From Coq Require Import List Bool Arith.
From Verif Require Import SumLib AsyncIoModel ScheduleModel.
Import ListNotations.
Local Open Scope prog_scope.

Section BufIo.
Variable A : Type.
Notation prog := (prog A).

(** * block_prefetcher.h *)
(** p_bids: the consumption sequence; p_seq: prefetch_seq; p_nread: nreadblocks; p_next: nextread; p_cons: nextconsume; p_breq: read_reqs;
    p_blk k: pref_buffer[k] and the request that switches completed[k] on *)
Record pf := mk_pf { p_bids : list nat; p_seq : list nat; p_nread : nat; p_base : nat; p_next : nat; p_cons : nat; p_breq : nat -> option nat; p_blk : nat -> option (nat * nat) }.
Definition p_len (t : pf) : nat := length (p_bids t).
(** 138-148, 178-186: read block k into buffer x; the switch must not be on yet (179) *)
Definition fetch (x k : nat) (t : pf) : prog pf :=
  match nth_error (p_bids t) k, p_blk t k with
  | Some b, None => DoRead x b (fun q => Ret (mk_pf (p_bids t) (p_seq t) (p_nread t) (p_base t) (p_next t) (p_cons t) (upd (p_breq t) x (Some q)) (upd (p_blk t) k (Some (x, q)))))
  | _, _ => Err
  end.
(** 136-149 *)
Fixpoint first_reads (n i : nat) (t : pf) : prog pf :=
  match n with
  | 0 => Ret t
  | S n' => match nth_error (p_seq t) i with
            | None => Err
            | Some k => let* t := fetch (p_base t + i) k t in first_reads n' (i + 1) t
            end
  end.
(** 107-150 *)
Definition pf_new (base : nat) (bids order : list nat) (nbuf : nat) : prog pf :=
  if Nat.eqb (length bids) 0 || Nat.eqb nbuf 0 then Err
  else let n := Nat.min nbuf (length bids) in
       first_reads n 0 (mk_pf bids order n base n 0 (fun _ => None) (fun _ => None)).
(** 84-97; nobody will switch on a block that was not requested *)
Definition pf_wait (k : nat) (t : pf) : prog nat :=
  match p_blk t k with None => Err | Some (x, q) => DoWait q (Ret x) end.
(** 153-157 *)
Definition pull_block (t : pf) : prog (pf * nat) :=
  let* x := pf_wait (p_cons t) t in
  Ret (mk_pf (p_bids t) (p_seq t) (p_nread t) (p_base t) (p_next t) (p_cons t + 1) (p_breq t) (p_blk t), x).
(** 163-195; None: no more blocks *)
Definition set_breq (t : pf) f := mk_pf (p_bids t) (p_seq t) (p_nread t) (p_base t) (p_next t) (p_cons t) f (p_blk t).
Definition set_next (t : pf) n := mk_pf (p_bids t) (p_seq t) (p_nread t) (p_base t) n (p_cons t) (p_breq t) (p_blk t).
Definition wait_opt {R} (q : option nat) (k : prog R) : prog R := match q with Some q => DoWait q k | None => k end.
Definition block_consumed (x : nat) (t : pf) : prog (pf * option nat) :=
  wait_opt (p_breq t x) (
  let t := set_breq t (upd (p_breq t) x None) in
  let* t := (if Nat.ltb (p_next t) (p_len t) then
               match nth_error (p_seq t) (p_next t) with
               | None => Err
               | Some k => fetch x k (set_next t (p_next t + 1))
               end
             else Ret t) in
  if Nat.leb (p_len t) (p_cons t) then Ret (t, None)
  else let* r := pull_block t in Ret (fst r, Some (snd r))).
(** 211-215 *)
Definition pf_delete (t : pf) : prog unit :=
  fold_right (fun x k => wait_opt (p_breq t x) k) (Ret tt) (seq (p_base t) (p_nread t)).

(** A user of the prefetcher: holds the buffers it pulled; a buffer for which block_consumed returned false is not used any more. *)
Inductive pfop := PPull | PDone (h : nat) | PGet (h i : nat).
Definition replace_at {B} (h : nat) (x : B) (l : list B) : list B := firstn h l ++ x :: skipn (h + 1) l.
Definition remove_at {B} (h : nat) (l : list B) : list B := firstn h l ++ skipn (h + 1) l.
Definition pf_op (o : pfop) (t : pf) (held : list nat) : prog (pf * list nat * list A) :=
  match o with
  | PPull => let* r := pull_block t in Ret (fst r, held ++ [snd r], [])
  | PDone h => match nth_error held h with
               | None => Err
               | Some x => let* r := block_consumed x t in
                           match snd r with
                           | Some y => Ret (fst r, replace_at h y held, [])
                           | None => Ret (fst r, remove_at h held, [])
                           end
               end
  | PGet h i => match nth_error held h with None => Err | Some x => DoGet x i (fun v => Ret (t, held, [v])) end
  end.
Fixpoint pf_ops (os : list pfop) (t : pf) (held : list nat) : prog (pf * list A) :=
  match os with
  | [] => Ret (t, [])
  | o :: os' => let* r := pf_op o t held in let* r' := pf_ops os' (fst (fst r)) (snd (fst r)) in Ret (fst r', snd r ++ snd r')
  end.
Definition pf_run (base : nat) (bids order : list nat) (nbuf : nat) (os : list pfop) : prog (list A) :=
  let* t := pf_new base bids order nbuf in
  let* r := pf_ops os t [] in
  let* _ := pf_delete (fst r) in Ret (snd r).

(** * buf_istream.h *)
Variable S : nat.   (* block_type::size *)
Record istr := mk_is { i_pf : pf; i_elem : nat; i_blk : nat; i_open : bool }.
(** 61-84.  [dev b]: device of block b (get_disk of it), [mdev]: get_max_device_id().  nbuffers - 1 is unsigned: for nbuffers = 0 it is
    the largest number, and there are more buffers than blocks *)
Definition is_nbuf (ndisks n nbuf : nat) : nat := Nat.max (2 * ndisks) (if Nat.eqb nbuf 0 then n else nbuf - 1).
Definition is_new (ndisks mdev : nat) (dev : nat -> nat) (ch : nat -> nat) (base : nat) (bids : list nat) (nbuf : nat) : prog istr :=
  let m := is_nbuf ndisks (length bids) nbuf in
  match schedule (length bids) m mdev (fun k => dev (nth k bids 0)) ch with
  | None => Err
  | Some order => let* t := pf_new base bids order m in let* r := pull_block t in Ret (mk_is (fst r) 0 (snd r) true)
  end.
(** 138-146 *)
Definition is_next_block (t : istr) : prog istr :=
  let* r := block_consumed (i_blk t) (i_pf t) in
  Ret (match snd r with Some x => mk_is (fst r) 0 x true | None => mk_is (fst r) 0 (i_blk t) false end).
(** 90-102 *)
Definition is_get (t : istr) : prog (istr * A) :=
  if i_open t then
    DoGet (i_blk t) (i_elem t) (fun v =>
    let t := mk_is (i_pf t) (i_elem t + 1) (i_blk t) true in
    if Nat.leb S (i_elem t) then let* t := is_next_block t in Ret (t, v) else Ret (t, v))
  else Err.
(** 105-114 *)
Definition is_current (t : istr) : prog A := DoGet (i_blk t) (i_elem t) Ret.
(** 118-129 *)
Definition is_incr (t : istr) : prog istr :=
  if i_open t then
    let t := mk_is (i_pf t) (i_elem t + 1) (i_blk t) true in
    if Nat.leb S (i_elem t) then is_next_block t else Ret t
  else Err.
(** 149-153 *)
Definition is_delete (t : istr) : prog unit := pf_delete (i_pf t).
(** A user of the stream *)
Inductive isop := IGet | ICurrent | IIncr.
Definition is_op (o : isop) (t : istr) : prog (istr * list A) :=
  match o with
  | IGet => let* r := is_get t in Ret (fst r, [snd r])
  | ICurrent => let* v := is_current t in Ret (t, [v])
  | IIncr => let* t := is_incr t in Ret (t, [])
  end.
Fixpoint is_ops (os : list isop) (t : istr) : prog (istr * list A) :=
  match os with
  | [] => Ret (t, [])
  | o :: os' => let* r := is_op o t in let* r' := is_ops os' (fst r) in Ret (fst r', snd r ++ snd r')
  end.
Definition is_run (ndisks mdev : nat) (dev : nat -> nat) (ch : nat -> nat) (base : nat) (bids : list nat) (nbuf : nat) (os : list isop) : prog (list A) :=
  let* t := is_new ndisks mdev dev ch base bids nbuf in
  let* r := is_ops os t in
  let* _ := is_delete (fst r) in Ret (snd r).

(** * buf_writer.h *)
(** [order] stands for the std::priority_queue: any way to put the (offset, buffer) pairs in order *)
Variable order : list (nat * nat) -> list (nat * nat).
Variable offset : nat -> nat.
Record bw := mk_bw { w_n : nat; w_b : nat; w_base : nat; w_req : nat -> option nat; w_bid : nat -> nat; w_free : list nat; w_busy : list nat; w_batch : list (nat * nat) }.
(** 74-88 *)
Definition bw_new (base nbuf batch : nat) : bw :=
  let n := if Nat.ltb 2 nbuf then nbuf else 2 in
  mk_bw n (if Nat.eqb batch 0 then 1 else batch) base (fun _ => None) (fun _ => 0) (seq base n) [] [].
Definition set_lists (w : bw) f b := mk_bw (w_n w) (w_b w) (w_base w) (w_req w) (w_bid w) f b (w_batch w).
(** 94-104: pre: the part of busy_write_blocks before it *)
Fixpoint poll_busy (pre l : list nat) (w : bw) : prog bw :=
  match l with
  | [] => Ret w
  | x :: l' => match w_req w x with
               | None => Err
               | Some q => DoPoll q (fun b : bool => if b then Ret (set_lists w (w_free w ++ [x]) (pre ++ l')) else poll_busy (pre ++ [x]) l' w)
               end
  end.
Fixpoint all_some {B} (l : list (option B)) : option (list B) :=
  match l with [] => Some [] | None :: _ => None | Some x :: l' => match all_some l' with Some r => Some (x :: r) | None => None end end.
(** 91-125 *)
Definition get_free_block (w : bw) : prog (bw * nat) :=
  let* w := poll_busy [] (w_busy w) w in
  match w_free w with
  | [] => match all_some (map (w_req w) (w_busy w)) with
          | None => Err
          | Some qs => DoWaitAny qs (fun i => match nth_error (w_busy w) i with
                                              | None => Err
                                              | Some x => Ret (set_lists w [] (remove_at i (w_busy w)), x)
                                              end)
          end
  | _ => Ret (set_lists w (removelast (w_free w)) (w_busy w), last (w_free w) 0)
  end.
(** 136-147, 162-173, 193-204 *)
Fixpoint write_batch (l : list (nat * nat)) (w : bw) : prog bw :=
  match l with
  | [] => Ret (mk_bw (w_n w) (w_b w) (w_base w) (w_req w) (w_bid w) (w_free w) (w_busy w) [])
  | (_, x) :: l' => wait_opt (w_req w x) (DoWrite x (w_bid w x) (fun q =>
                    write_batch l' (mk_bw (w_n w) (w_b w) (w_base w) (upd (w_req w) x (Some q)) (w_bid w) (w_free w) (w_busy w ++ [x]) (w_batch w))))
  end.
Definition flush_batch (w : bw) : prog bw := write_batch (order (w_batch w)) w.
(** 131-156 *)
Definition bw_write (x b : nat) (w : bw) : prog (bw * nat) :=
  let* w := (if Nat.leb (w_b w) (length (w_batch w)) then flush_batch w else Ret w) in
  get_free_block (mk_bw (w_n w) (w_b w) (w_base w) (w_req w) (upd (w_bid w) x b) (w_free w) (w_busy w) ((offset b, x) :: w_batch w)).
(** 174-180, 205-211 *)
Definition wait_busy (w : bw) : prog unit :=
  match all_some (map (w_req w) (w_busy w)) with None => Err | Some qs => wait_all qs (Ret tt) end.
(** 158-188 *)
Definition bw_flush (w : bw) : prog bw :=
  let* w := flush_batch w in
  let* _ := wait_busy w in
  Ret (mk_bw (w_n w) (w_b w) (w_base w) (w_req w) (w_bid w) (seq (w_base w) (w_n w)) [] []).
(** 191-216 *)
Definition bw_delete (w : bw) : prog unit := let* w := flush_batch w in wait_busy w.

(** A user of the writer: holds buffers, writes into them, hands them over *)
Inductive bwop := BGet | BPut (h i : nat) (v : A) | BWrite (h b : nat)
  | BFlush       (* and forgets the blocks it holds *)
  | BFlushKeep.  (* goes on using them *)
Definition bw_op (o : bwop) (w : bw) (held : list nat) : prog (bw * list nat) :=
  match o with
  | BGet => let* r := get_free_block w in Ret (fst r, held ++ [snd r])
  | BPut h i v => match nth_error held h with None => Err | Some x => DoPut x i v (Ret (w, held)) end
  | BWrite h b => match nth_error held h with None => Err | Some x => let* r := bw_write x b w in Ret (fst r, replace_at h (snd r) held) end
  | BFlush => let* w := bw_flush w in Ret (w, [])
  | BFlushKeep => let* w := bw_flush w in Ret (w, held)
  end.
Fixpoint bw_ops (os : list bwop) (w : bw) (held : list nat) : prog (bw * list nat) :=
  match os with [] => Ret (w, held) | o :: os' => let* r := bw_op o w held in bw_ops os' (fst r) (snd r) end.
Definition bw_run (base nbuf batch : nat) (os : list bwop) : prog unit :=
  let* r := bw_ops os (bw_new base nbuf batch) [] in bw_delete (fst r).

(** * buf_ostream.h *)
(** o_bids: the blocks from current_bid on *)
Record ostr := mk_os { o_w : bw; o_bids : list nat; o_elem : nat; o_blk : nat }.
(** 49-55 *)
Definition os_new (base : nat) (bids : list nat) (nbuf : nat) : prog ostr :=
  let* r := get_free_block (bw_new base nbuf (nbuf / 2)) in Ret (mk_os (fst r) bids 0 (snd r)).
(** 65-66, 95-96, 111-112; no block left: the iterator is dereferenced behind the end *)
Definition os_write (t : ostr) : prog ostr :=
  match o_bids t with
  | [] => Err
  | b :: bids => let* r := bw_write (o_blk t) b (o_w t) in Ret (mk_os (fst r) bids 0 (snd r))
  end.
(** 88-99 *)
Definition os_incr (t : ostr) : prog ostr :=
  let t := mk_os (o_w t) (o_bids t) (o_elem t + 1) (o_blk t) in if Nat.leb S (o_elem t) then os_write t else Ret t.
(** 60-69 *)
Definition os_put (v : A) (t : ostr) : prog ostr := DoPut (o_blk t) (o_elem t) v (os_incr t).
(** 74-83: * and current() *)
Definition os_set (v : A) (t : ostr) : prog ostr := DoPut (o_blk t) (o_elem t) v (Ret t).
(** 101-108; at most S rounds *)
Fixpoint os_fill (n : nat) (v : A) (t : ostr) : prog ostr :=
  if Nat.eqb (o_elem t) 0 then Ret t else match n with 0 => Err | Datatypes.S n' => let* t := os_put v t in os_fill n' v t end.
(** 112-117 *)
Definition os_flush (t : ostr) : prog ostr := os_write t.
(** 120-123 *)
Definition os_delete (t : ostr) : prog unit := if Nat.eqb (o_elem t) 0 then bw_delete (o_w t) else Err.
(** A user of the stream *)
Inductive osop := OPut (v : A) | OSet (v : A) | OIncr | OFill (v : A) | OFlush.
Definition os_op (o : osop) (t : ostr) : prog ostr :=
  match o with
  | OPut v => os_put v t
  | OSet v => os_set v t
  | OIncr => os_incr t
  | OFill v => os_fill S v t
  | OFlush => os_flush t
  end.
Fixpoint os_ops (os : list osop) (t : ostr) : prog ostr :=
  match os with [] => Ret t | o :: os' => let* t := os_op o t in os_ops os' t end.
Definition os_run (base : nat) (bids : list nat) (nbuf : nat) (os : list osop) : prog unit :=
  let* t := os_new base bids nbuf in let* t := os_ops os t in os_delete t.
End BufIo.
