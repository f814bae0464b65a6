(** Model of lib/io/wbtl_file.cpp (33-345) and include/stxxl/bits/io/wbtl_file.h: a file that collects writes in two buffers and maps logical to
    physical addresses.

    Programs in terms of AsyncIoModel: the write of a buffer to the storage goes on in the background.  Sizes and addresses are in units (all blocks
    and the write buffers consist of whole units, a unit has at least two bytes and does not divide 0xffffffff, e.g. 4096).  A unit holds one value.
    Buffers 0 .. 2 * W - 1 are the units of the two write buffers, buffers from 2 * W on belong to the user.  Unit [u] of the storage is block
    number [u] of [b_store].
    buffer_address is None instead of offset_type(-1).  [sent] is the unit that contains byte 0xffffffff, which is used as the physical address of
    blocks without one (206).
    Maps are functions, free_space is a sorted list; decrementing free_space.begin() (137) is undefined, and gives end() as the code expects.
    Results: the state and whether an exception was thrown.  Err is a failed assertion.
    Simplified: free_bytes; messages; storage->discard; one thread at a time (swrite changes free_space without the mapping lock, 271 and 283);
    the destructor. *)
From Coq Require Import List Bool Arith.
From Verif Require Import SumLib AsyncIoModel.
Import ListNotations.
Local Open Scope prog_scope.

Section Wbtl.
  Variable A : Type.
  Variable junk : A.                                   (* 233-236: not initialised *)
  Variable W : nat.                                    (* write_block_size *)
  Variable sent : nat.
  Notation prog := (prog A).

  Record wb := mkb {
    b_size : nat; b_store : list nat; b_map : nat -> option nat; b_rev : nat -> option (nat * nat); b_free : list (nat * nat);
    b_addr : bool -> option nat; b_cur : bool; b_pos : nat; b_reqs : list nat }.
  (** 33-48 *)
  Definition b_new : wb := mkb 0 [] (fun _ => None) (fun _ => None) [] (fun _ => None) true W [].

  (** upper_bound *)
  Definition before (pos : nat) (fs : list (nat * nat)) : list (nat * nat) := filter (fun r => Nat.leb (fst r) pos) fs.
  Definition after (pos : nat) (fs : list (nat * nat)) : list (nat * nat) := filter (fun r => Nat.ltb pos (fst r)) fs.
  (** 326-345; true: throws *)
  Definition corrupt (pos size : nat) (pred succ : option (nat * nat)) : bool :=
    match pred with Some (p, n) => Nat.leb p pos && Nat.ltb pos (p + n) | None => false end ||
    match succ with Some (p, n) => Nat.leb pos p && Nat.ltb p (pos + size) | None => false end.
  Definition last_opt {X} (l : list X) : option X := match rev l with [] => None | x :: _ => Some x end.
  Definition hd_opt {X} (l : list X) : option X := match l with [] => None | x :: _ => Some x end.
  (** coalesce with the successor / predecessor: what remains of its side, and the region *)
  Definition join_succ (succs : list (nat * nat)) (pos size : nat) : list (nat * nat) * nat :=
    match succs with (p, n) :: r => if Nat.eqb p (pos + size) then (r, size + n) else (succs, size) | [] => (succs, size) end.
  Definition join_pred (preds : list (nat * nat)) (pos size : nat) : list (nat * nat) * nat * nat :=
    match last_opt preds with Some (p, n) => if Nat.eqb (p + n) pos then (removelast preds, p, size + n) else (preds, pos, size) | None => (preds, pos, size) end.
  (** 125-195; None: throws *)
  Definition add_free (fs : list (nat * nat)) (pos size : nat) : option (list (nat * nat)) :=
    match fs with
    | [] => Some [(pos, size)]
    | _ =>
        let preds := before pos fs in let succs := after pos fs in
        if corrupt pos size (last_opt preds) (hd_opt succs) then None else
        match succs with
        | [] => let '(preds, pos, size) := join_pred preds pos size in Some (preds ++ [(pos, size)])
        | _ =>
            if Nat.ltb 1 (length fs) then
              let '(succs, size) := join_succ succs pos size in
              let '(preds, pos, size) := join_pred preds pos size in
              Some (preds ++ (pos, size) :: succs)
            else let '(succs, size) := join_succ succs pos size in Some (preds ++ (pos, size) :: succs)
        end
    end.
  (** 302-324; None: throws *)
  Fixpoint next_write_block (fs : list (nat * nat)) : option (nat * list (nat * nat)) :=
    match fs with
    | [] => None
    | (p, n) :: fs =>
        if Nat.leb W n then Some (p, if Nat.ltb W n then (p + W, n - W) :: fs else fs)
        else match next_write_block fs with Some (q, fs) => Some (q, (p, n) :: fs) | None => None end
    end.

  (** 83-94; the new units of the storage *)
  Definition set_size (n : nat) (st : wb) : prog (wb * bool) :=
    if Nat.leb (b_size st) n then
      if Nat.ltb (b_size st) n then
        match add_free (b_free st) (b_size st) (n - b_size st) with
        | None => Ret (st, true)
        | Some fs => DoAlloc (n - b_size st) (fun l =>
            Ret (mkb n (b_store st ++ l) (b_map st) (b_rev st) fs (b_addr st) (b_cur st) (b_pos st) (b_reqs st), false))
        end
      else Ret (st, false)
    else Err.

  (** 100-123 *)
  Definition discard (off n : nat) (st : wb) : prog (wb * bool) :=
    match b_map st off with
    | None => Ret (st, false)
    | Some p =>
        let map' := upd (b_map st) off None in
        match add_free (b_free st) p n with
        | None => Ret (mkb (b_size st) (b_store st) map' (b_rev st) (b_free st) (b_addr st) (b_cur st) (b_pos st) (b_reqs st), true)
        | Some fs =>
            match b_rev st p with
            | None => Ret (mkb (b_size st) (b_store st) map' (b_rev st) fs (b_addr st) (b_cur st) (b_pos st) (b_reqs st), false)
            | Some (o, _) => if Nat.eqb o off
                then Ret (mkb (b_size st) (b_store st) map' (upd (b_rev st) p None) fs (b_addr st) (b_cur st) (b_pos st) (b_reqs st), false)
                else Err
            end
        end
    end.

  Definition unit_buf (c : bool) (i : nat) : nat := (if c then W else 0) + i.
  Fixpoint gets (xs : list nat) : prog (list A) :=
    match xs with [] => Ret [] | x :: xs => DoGet x 0 (fun v => let* l := gets xs in Ret (v :: l)) end.
  Fixpoint puts (xs : list nat) (l : list A) : prog unit :=
    match xs, l with x :: xs, v :: l => DoPut x 0 v (puts xs l) | _, _ => Ret tt end.
  (** the units [a, a + n) of the storage *)
  Definition units (st : wb) (a n : nat) : option (list nat) :=
    if Nat.leb (a + n) (length (b_store st)) then Some (firstn n (skipn a (b_store st))) else None.

  (** physical_offset is in a write buffer: position in it *)
  Definition in_buf (st : wb) (c : bool) (p : nat) : option nat :=
    match b_addr st c with Some a => if Nat.leb a p && Nat.ltb p (a + W) then Some (p - a) else None | None => None end.
  (** 197-248 *)
  Definition sread (off n : nat) (st : wb) : prog (list A) :=
    match b_map st off with
    | Some p =>
        match in_buf st (b_cur st) p with
        | Some i => if Nat.leb (i + n) W then gets (map (unit_buf (b_cur st)) (seq i n)) else Err
        | None =>
            match in_buf st (negb (b_cur st)) p with
            | Some i => if Nat.leb (i + n) W then gets (map (unit_buf (negb (b_cur st))) (seq i n)) else Err
            | None =>
                match units st p n with
                | Some bs => read_all (seq (2 * W) n) bs (fun qs => wait_all qs (gets (seq (2 * W) n)))
                | None => Err
                end
            end
        end
    | None =>
        (* byte 0xffffffff is not the first one of its unit *)
        match in_buf st (b_cur st) sent with
        | Some i => if Nat.ltb (i + n) W then Ret (repeat junk n) else Err
        | None => match in_buf st (negb (b_cur st)) sent with
                  | Some i => if Nat.ltb (i + n) W then Ret (repeat junk n) else Err
                  | None => Ret (repeat junk n)
                  end
        end
    end.

  (** 264-279: the current buffer is written *)
  Definition write_buffer (st : wb) : prog (wb * bool) :=
    match b_addr st (b_cur st) with
    | None => Ret (st, false)
    | Some a =>
        match (if Nat.ltb (b_pos st) W then add_free (b_free st) (a + b_pos st) (W - b_pos st) else Some (b_free st)) with
        | None => Ret (st, true)
        | Some fs =>
            wait_all (b_reqs st)
            (match units st a W with
             | None => Err
             | Some bs => write_all (map (unit_buf (b_cur st)) (seq 0 W)) bs (fun qs =>
                 Ret (mkb (b_size st) (b_store st) (b_map st) (b_rev st) fs (b_addr st) (b_cur st) (b_pos st) qs, false))
             end)
        end
    end.
  (** 281-284: the other buffer becomes the current one *)
  Definition next_buffer (st : wb) : wb * bool :=
    let c := negb (b_cur st) in
    match next_write_block (b_free st) with
    | None => (mkb (b_size st) (b_store st) (b_map st) (b_rev st) (b_free st) (b_addr st) c (b_pos st) (b_reqs st), true)
    | Some (a, fs) => (mkb (b_size st) (b_store st) (b_map st) (b_rev st) fs (fun d => if Bool.eqb d c then Some a else b_addr st d) c 0 (b_reqs st), false)
    end.
  Definition make_room (n : nat) (st : wb) : prog (wb * bool) :=
    if Nat.ltb (W - b_pos st) n then
      let* (st, t) := write_buffer st in
      if t then Ret (st, true) else Ret (next_buffer st)
    else Ret (st, false).
  (** 286-299 *)
  Definition append (off : nat) (l : list A) (st : wb) : prog wb :=
    match b_addr st (b_cur st) with
    | None => Err
    | Some a =>
        if Nat.leb (length l) (W - b_pos st) then
          let* _ := puts (map (unit_buf (b_cur st)) (seq (b_pos st) (length l))) l in
          let p := a + b_pos st in
          Ret (mkb (b_size st) (b_store st) (upd (b_map st) off (Some p)) (upd (b_rev st) p (Some (off, length l))) (b_free st) (b_addr st) (b_cur st)
                 (b_pos st + length l) (b_reqs st))
        else Err
    end.
  (** 250-300 *)
  Definition swrite (off : nat) (l : list A) (st : wb) : prog (wb * bool) :=
    let* (st, t) := (match b_map st off with Some _ => discard off (length l) st | None => Ret (st, false) end) in
    if t then Ret (st, true) else
    let* (st, t) := make_room (length l) st in
    if t then Ret (st, true) else
    let* st := append off l st in Ret (st, false).

  (** the user *)
  Inductive bop := BSize (n : nat) | BWrite (off : nat) (l : list A) | BRead (off n : nat) | BDiscard (off n : nat).
  Inductive bout := ODone | ORead (l : list A) | OThrow.
  Definition done (x : wb * bool) : wb * bout := (fst x, if snd x then OThrow else ODone).
  Definition b_op (o : bop) (st : wb) : prog (wb * bout) :=
    match o with
    | BSize n => let* x := set_size n st in Ret (done x)
    | BWrite off l => let* x := swrite off l st in Ret (done x)
    | BRead off n => let* l := sread off n st in Ret (st, ORead l)
    | BDiscard off n => let* x := discard off n st in Ret (done x)
    end.
  (** [on]: go on after an exception *)
  Fixpoint b_ops (on : bool) (os : list bop) (st : wb) : prog (wb * list bout) :=
    match os with
    | [] => Ret (st, [])
    | o :: os =>
        let* (st, x) := b_op o st in
        match x with
        | OThrow => if on then let* (st, l) := b_ops on os st in Ret (st, x :: l) else Ret (st, [OThrow])
        | _ => let* (st, l) := b_ops on os st in Ret (st, x :: l)
        end
    end.
End Wbtl.
