(** Model of include/stxxl/bits/stream/sorted_runs.h, include/stxxl/bits/stream/sort_stream.h (basic_runs_creator 47-338,
    runs_creator<use_push> 395-690, runs_creator<from_sorted_sequences> 722-860, basic_runs_merger 925-1478, sort 1520-1590)
    and include/stxxl/bits/containers/sorter.h.

    Blocks, block manager and writing of runs as in SortModel; the loser tree as in LoserModel (by C32 and C33 the prefetcher and buf_ostream
    deliver and write the blocks of their sequences).
    Simplified: writes are finished when they are issued (the requests of runs_creator<use_push> are the subject of RunWriteModel); the blocks
    of the runs are read when the tree is built; sizeof(block_type) is block_type::raw_size; memory limits only where they decide what is done.
    Not modelled: do_parallel_merge(), STXXL_CHECK_ORDER_IN_SORTS, STXXL_SMALL_INPUT_PSORT_OPT, an exception in an inner merger, what happens
    after an exception.
    [Undef] is undefined behaviour or a failed assertion, [Bad] the exception bad_parameter.
    Parameters: [srt] is std::sort, [fresh] as in SortModel, [mf] is optimal_merge_factor (floating point), [D] the number of disks, [raw] the size of
    a block in bytes. *)
From Coq Require Import List Bool Arith.
From Verif Require Import SumLib OrderLib LoserModel SortModel.
Import ListNotations.

Inductive res (X : Type) := Val (x : X) | Bad | Undef.
Arguments Val {X}. Arguments Bad {X}. Arguments Undef {X}.
Definition rbind {X Y} (x : res X) (f : X -> res Y) : res Y := match x with Val v => f v | Bad => Bad | Undef => Undef end.
Definition lift {X} (x : option X) : res X := match x with Some v => Val v | None => Undef end.
Notation "'let!' x ':=' e 'in' f" := (rbind e (fun x => f)) (at level 200, x pattern, e at level 100, f at level 200).

Section Sorter.
  Variable A : Type.
  Variable cmp : A -> A -> bool.
  Variable maxv : A.                                      (* cmp.max_value() *)
  Variable srt : list A -> list A.
  Variable B : nat.                                       (* block_type::size *)
  Variable fresh : nat -> list nat -> nat -> list nat.
  Variable mf : nat -> nat -> nat.
  Variable D : nat.
  Variable raw : nat.

  Notation st := (SortModel.st A).
  Notation run := (list (nat * A)).
  Definition managed (_ : nat) : bool := true.            (* all blocks are the block manager's *)
  Notation delete_blocks := (SortModel.delete_blocks managed).
  Definition div_ceil (n d : nat) : nat := (n + d - 1) / d.

  (** sorted_runs.h 37-119 *)
  Record sruns := mkr { r_elements : nat; r_runs : list run; r_sizes : list nat; r_small : list A }.
  Definition sr_empty : sruns := mkr 0 [] [] [].
  Definition deallocate_blocks (r : sruns) (s : st) : option st := delete_blocks (map fst (concat (r_runs r))) s.
  Definition sr_clear (r : sruns) (s : st) : option (sruns * st) := do s <- deallocate_blocks r s; Some (sr_empty, s).
  Definition add_run (r : sruns) (rn : run) (n : nat) : sruns := mkr (r_elements r + n) (r_runs r ++ [rn]) (r_sizes r ++ [n]) (r_small r).

  (** allocate blocks for a run, fill the last block with max_value(), write the blocks and note the triggers:
      sort_stream.h 212-226, 300-317, 467-487, 628-642 *)
  Definition store_run (l : list A) (s : st) : option (run * st) :=
    let n := div_ceil (length l) B in
    let (bids, s) := new_blocks fresh n s in
    write_run A bids (chunks B (l ++ repeat maxv (n * B - length l))) s.

  (** * basic_runs_creator; [m2] is m_memsize / 2, [l] what the input stream delivers *)
  (** 295-327: the loop of the general case *)
  Fixpoint more_runs (fuel m2 : nat) (l : list A) (r : sruns) (s : st) : option (sruns * st) :=
    match l with
    | [] => Some (r, s)
    | _ =>
        match fuel with
        | 0 => None
        | S f =>
            let d := firstn (m2 * B) l in
            do (rn, s) <- store_run (srt d) s;
            more_runs f m2 (skipn (m2 * B) l) (add_run r rn (length d)) s
        end
    end.
  (** 158-332 *)
  Definition compute_result (m2 : nat) (l : list A) (s : st) : option (sruns * st) :=
    let el_in_run := m2 * B in
    let d1 := firstn el_in_run l in
    let l := skipn el_in_run l in
    let b1 := srt d1 in
    if Nat.leb (length d1) B && match l with [] => true | _ => false end
    then Some (mkr (length d1) [] [] b1, s)                                             (* 197-206 *)
    else
      do (run1, s) <- store_run b1 s;                                                   (* 208-230 *)
      match l with
      | [] => Some (mkr (length d1) [run1] [length d1] [], s)                           (* 232-239 *)
      | _ =>
        let d2 := firstn el_in_run l in
        let l := skipn el_in_run l in
        match l with
        | [] =>                                                                         (* 244-288 *)
          let n := length d2 + el_in_run in
          let both := srt (b1 ++ d2) in
          do s <- delete_blocks (map fst run1) s;
          if Nat.leb (div_ceil n B) m2 then None else                                   (* 262 *)
          do (rn, s) <- store_run both s;
          Some (mkr n [rn] [n] [], s)
        | _ =>                                                                          (* 290-327 *)
          do (run2, s) <- store_run (srt d2) s;
          more_runs (length l) m2 l (mkr (length d1 + length d2) [run1; run2] [length d1; length d2] []) s
        end
      end.

  (** * runs_creator<use_push>
      c_cur: the first m_cur_el elements of m_blocks1; c_alloc: the buffers are allocated; m2 is m_m2 *)
  Record creator := mkc { c_res : sruns; c_computed : bool; c_cur : list A; c_alloc : bool }.
  (** 452-499 *)
  Definition push_result (r : sruns) (cur : list A) (s : st) : option (sruns * list A * st) :=
    match cur with
    | [] => Some (r, cur, s)
    | _ =>
        let cur := srt cur in
        if Nat.leb (length cur) B && Nat.eqb (r_elements r) 0 then Some (mkr (length cur) (r_runs r) (r_sizes r) cur, cur, s)
        else do (rn, s) <- store_run cur s; Some (add_run r rn (length cur), cur, s)
    end.
  (** 660-671 *)
  Definition cr_result (c : creator) (s : st) : option (creator * st) :=
    if c_computed c then Some (c, s)
    else if c_alloc c then do (r, cur, s) <- push_result (c_res c) (c_cur c) s; Some (mkc r true cur (c_alloc c), s)
    else None.
  (** 533-547, 549-562 *)
  Definition cr_allocate (c : creator) (s : st) : option (creator * st) :=
    do (r, s) <- sr_clear (c_res c) s; Some (mkc r false [] true, s).
  (** 564-577 *)
  Definition cr_deallocate (c : creator) (s : st) : option (creator * st) :=
    do (c, s) <- cr_result c s; Some (mkc (c_res c) (c_computed c) (c_cur c) false, s).
  (** 579-622 *)
  Definition cr_push (m2 : nat) (x : A) (c : creator) (s : st) : option (creator * st) :=
    if c_computed c then None else if c_alloc c then
      if Nat.ltb (length (c_cur c)) (m2 * B) then Some (mkc (c_res c) false (c_cur c ++ [x]) true, s)
      else do (rn, s) <- store_run (srt (c_cur c)) s;
           if Nat.ltb 0 (m2 * B) then Some (mkc (add_run (c_res c) rn (m2 * B)) false [x] true, s) else None
    else None.
  (** 674-677 *)
  Definition cr_size (c : creator) : nat := r_elements (c_res c) + length (c_cur c).

  (** * runs_creator<from_sorted_sequences> 722-860
      f_full: the blocks of the current run that were written; f_cur: the first [offset] elements of cur_block *)
  Record fcreator := mkf { f_res : sruns; f_full : run; f_cur : list A }.
  Definition f_new : fcreator := mkf sr_empty [] [].
  (** 781-806: allocate one block and write cur_block *)
  Definition f_write (c : list A) (s : st) : option (run * st) :=
    let (bids, s) := new_blocks fresh 1 s in write_run A bids [c] s.
  Definition f_push (x : A) (f : fcreator) (s : st) : option (fcreator * st) :=
    if Nat.ltb (length (f_cur f)) B then
      let cur := f_cur f ++ [x] in
      let r := f_res f in
      let r := mkr (r_elements r + 1) (r_runs r) (r_sizes r) (r_small r) in
      if Nat.eqb (length cur) B then do (b, s) <- f_write cur s; Some (mkf r (f_full f ++ b) [], s)
      else Some (mkf r (f_full f) cur, s)
    else None.
  (** 809-846; runs[irun] is the current run *)
  Definition f_finish (f : fcreator) (s : st) : option (fcreator * st) :=
    match f_cur f, f_full f with
    | [], [] => Some (f, s)
    | _, _ =>
        let r := f_res f in
        let n := length (f_full f) * B + length (f_cur f) in
        do (b, s) <- match f_cur f with [] => Some ([], s) | _ => f_write (f_cur f ++ repeat maxv (B - length (f_cur f))) s end;
        Some (mkf (mkr (r_elements r) (r_runs r ++ [f_full f ++ b]) (r_sizes r ++ [n]) (r_small r)) [] [], s)
    end.

  (** * basic_runs_merger
      m_tree: prefetcher and loser tree, if they exist; m_buf: the elements from m_current_ptr to m_current_end *)
  Record merger := mkm { m_mem : nat; m_rem : nat; m_buf : list A; m_tree : option (ltree A) }.

  (** 1024-1098, native merging *)
  Definition fill_buffer_block (m : merger) : option merger :=
    do t <- m_tree m;
    do (o, t) <- multi_merge A cmp (Nat.min B (m_rem m)) t;
    Some (mkm (m_mem m) (m_rem m) o (if Nat.leb (m_rem m) B then None else Some t)).
  (** 1208-1281: prefetcher and tree for runs that can be merged in one pass, first block of output *)
  Definition one_pass (mem elements : nat) (runs : list run) (s : st) : option merger :=
    let consume_seq := ssort (trigger_cmp A cmp) (concat runs) in
    do t <- new_tree A cmp (length runs) (map (fun e => s_disk s (fst e)) consume_seq);
    fill_buffer_block (mkm mem elements [] (Some t)).
  Definition input_buffers (mem : nat) : nat := (if Nat.ltb raw mem then mem - raw else 0) / raw.

  (** 1297-1351 *)
  Definition m_get (m : merger) : option A := if Nat.eqb (m_rem m) 0 then None else hd_error (m_buf m).
  Definition m_next (m : merger) : option merger :=
    if Nat.eqb (m_rem m) 0 then None else
    match m_buf m with
    | [] => None
    | _ :: b =>
        let m := mkm (m_mem m) (m_rem m - 1) b (m_tree m) in
        match b with
        | [] => if Nat.eqb (m_rem m) 0 then Some m else fill_buffer_block m
        | _ => Some m
        end
    end.
  Fixpoint m_read (n : nat) (m : merger) : option (list A * merger) :=
    match n with
    | 0 => Some ([], m)
    | S n' => do x <- m_get m; do m <- m_next m; do (l, m) <- m_read n' m; Some (x :: l, m)
    end.

  (** 1386-1445, one group; an inner merger that cannot merge in one pass is left out (Undef) *)
  Definition merge_group (mem : nat) (runs : list run) (sizes : list nat) (s : st) : option (run * nat * st) :=
    match runs, sizes with
    | [r], [n] => Some (r, n, s)                                                          (* 1447-1456 *)
    | _, _ =>
        let n := list_sum sizes in
        let (bids, s) := new_blocks fresh (div_ceil n B) s in
        let mem' := mem - 2 * D * raw in
        if Nat.ltb (input_buffers mem') (length runs + 2 * D) then None else
        do m <- (if Nat.eqb n 0 then Some (mkm mem' 0 [] None) else one_pass mem' n runs s);
        do (l, m) <- m_read n m;
        do (rn, s) <- write_run A bids (chunks B (l ++ repeat maxv (div_ceil n B * B - n))) s;
        do s <- delete_blocks (map fst (concat runs)) s;
        Some (rn, n, s)
    end.
  Fixpoint merge_groups (mem : nat) (groups : list (list run)) (sizes : list (list nat)) (s : st) : option (list run * list nat * st) :=
    match groups, sizes with
    | g :: groups, z :: sizes =>
        do (r, n, s) <- merge_group mem g z s;
        do (rs, ns, s) <- merge_groups mem groups sizes s;
        Some (r :: rs, n :: ns, s)
    | [], [] => Some ([], [], s)
    | _, _ => None
    end.
  (** 1335-1477 *)
  Definition max_arity (mem : nat) : nat := (if Nat.ltb ((4 * D + 1) * raw) mem then mem - (4 * D + 1) * raw else 0) / raw.
  Fixpoint merge_rounds (fuel mem f : nat) (r : sruns) (s : st) : option (sruns * st) :=
    if Nat.leb (length (r_runs r)) (max_arity mem) then Some (r, s) else
    match fuel with
    | 0 => None
    | S fuel =>
        do (rs, ns, s) <- merge_groups mem (chunks f (r_runs r)) (chunks f (r_sizes r)) s;
        merge_rounds fuel mem f (mkr (r_elements r) rs ns (r_small r)) s
    end.
  Definition merge_recursively (mem : nat) (r : sruns) (s : st) : option (sruns * st) :=
    let nruns := length (r_runs r) in
    let f := mf nruns (max_arity mem) in
    if Nat.leb f 1 || Nat.ltb (max_arity mem) f then None                                  (* 1355, 1356 *)
    else merge_rounds nruns mem f r s.

  (** 1127-1282; the sorted_runs object is shared with the runs creator and changed by merge_recursively *)
  Definition initialize (m : merger) (r : sruns) (s : st) : res (merger * sruns * st) :=
    let n := r_elements r in
    let mem := m_mem m in
    if Nat.eqb n 0 then Val (mkm mem 0 (m_buf m) (m_tree m), r, s) else
    match r_small r with
    | _ :: _ => if Nat.eqb n (length (r_small r)) then Val (mkm mem n (r_small r) (m_tree m), r, s) else Undef
    | [] =>
        let! (r, s) :=
          (if Nat.ltb (input_buffers mem) (length (r_runs r) + 2 * D) then
             if Nat.ltb (mem / raw) (2 * (2 * D) + 1 + 2) then Bad else lift (merge_recursively mem r s)
           else Val (r, s)) in
        if Nat.ltb (input_buffers mem) (length (r_runs r) + 2 * D) then Undef                (* 1204 *)
        else let! m := lift (one_pass mem n (r_runs r) s) in Val (m, r, s)
    end.
  (** 1284-1289 *)
  Definition m_deallocate (m : merger) : merger := mkm (m_mem m) (m_rem m) (m_buf m) None.
  Definition m_new (mem : nat) : merger := mkm mem 0 [] None.

  (** * sort 1520-1590, the whole stream; afterwards the runs are freed *)
  Definition stream_sort (m2 mem : nat) (l : list A) (s : st) : res (list A * st) :=
    let! (r, s) := lift (compute_result m2 l s) in
    let! (m, r, s) := initialize (m_new mem) r s in
    let! (out, m) := lift (m_read (r_elements r) m) in
    let! s := lift (deallocate_blocks r s) in
    Val (out, s).
  (** presorted sequences, merged *)
  Fixpoint f_pushes (l : list A) (f : fcreator) (s : st) : option (fcreator * st) :=
    match l with [] => Some (f, s) | x :: l => do (f, s) <- f_push x f s; f_pushes l f s end.
  Fixpoint f_seqs (ls : list (list A)) (f : fcreator) (s : st) : option (fcreator * st) :=
    match ls with [] => Some (f, s) | l :: ls => do (f, s) <- f_pushes l f s; do (f, s) <- f_finish f s; f_seqs ls f s end.
  Definition merge_sequences (mem : nat) (ls : list (list A)) (s : st) : res (list A * st) :=
    let! (f, s) := lift (f_seqs ls f_new s) in
    let! (f, s) := lift (f_finish f s) in
    let! (m, r, s) := initialize (m_new mem) (f_res f) s in
    let! (out, m) := lift (m_read (r_elements r) m) in
    let! s := lift (deallocate_blocks r s) in
    Val (out, s).

  (** * sorter.h *)
  Record sorter := mkt { t_out : bool (* m_state is STATE_OUTPUT *); t_creator : creator; t_merger : merger }.
  Inductive op := Push (x : A) | Sort | Sort_reuse | Rewind | Clear | Finish | Finish_clear | Size | Empty | Get | Next | Set_memory (mem : nat).
  Inductive obs := Nothing | Number (n : nat) | Yes_no (b : bool) | Item (x : A).

  (** 176-186 *)
  Definition do_sort (t : sorter) (s : st) : res (obs * sorter * st) :=
    let m := if t_out t then m_deallocate (t_merger t) else t_merger t in
    let! (c, s) := lift (cr_deallocate (t_creator t) s) in
    let! (c, s) := lift (cr_result c s) in
    let! (m, r, s) := initialize m (c_res c) s in
    Val (Nothing, mkt true (mkc r (c_computed c) (c_cur c) (c_alloc c)) m, s).
  Definition step (m2 : nat) (o : op) (t : sorter) (s : st) : res (obs * sorter * st) :=
    match o with
    | Push x =>                                                                             (* 136-140 *)
        if t_out t then Undef else let! (c, s) := lift (cr_push m2 x (t_creator t) s) in Val (Nothing, mkt false c (t_merger t), s)
    | Sort => do_sort t s
    | Sort_reuse =>                                                                         (* 201-207 *)
        if t_out t then Undef else
        let! (c, s) := lift (cr_result (t_creator t) s) in
        let! (m, r, s) := initialize (t_merger t) (c_res c) s in
        Val (Nothing, mkt true (mkc r (c_computed c) (c_cur c) (c_alloc c)) m, s)
    | Rewind =>                                                                             (* 210-218 *)
        if t_out t then do_sort (mkt false (t_creator t) (m_deallocate (t_merger t))) s else Undef
    | Clear =>                                                                              (* 126-133 *)
        let m := if t_out t then m_deallocate (t_merger t) else t_merger t in
        let! (c, s) := lift (cr_allocate (t_creator t) s) in
        Val (Nothing, mkt false c m, s)
    | Finish =>                                                                             (* 148-156 *)
        let m := if t_out t then m_deallocate (t_merger t) else t_merger t in
        let! (c, s) := lift (cr_deallocate (t_creator t) s) in
        Val (Nothing, mkt (t_out t) c m, s)
    | Finish_clear =>                                                                       (* 159-168 *)
        let! (c, m, s) :=
          (if t_out t then
             let m := m_deallocate (t_merger t) in
             let! (c, s) := lift (cr_result (t_creator t) s) in
             let! (r, s) := lift (sr_clear (c_res c) s) in
             Val (mkc r (c_computed c) (c_cur c) (c_alloc c), m, s)
           else Val (t_creator t, t_merger t, s)) in
        let! (c, s) := lift (cr_deallocate c s) in
        Val (Nothing, mkt (t_out t) c m, s)
    | Size => Val (Number (if t_out t then m_rem (t_merger t) else cr_size (t_creator t)), t, s)      (* 234-240 *)
    | Empty => if t_out t then Val (Yes_no (Nat.eqb (m_rem (t_merger t)) 0), t, s) else Undef         (* 242-246 *)
    | Get => if t_out t then let! x := lift (m_get (t_merger t)) in Val (Item x, t, s) else Undef      (* 254-264 *)
    | Next => if t_out t then let! m := lift (m_next (t_merger t)) in Val (Nothing, mkt true (t_creator t) m, s) else Undef   (* 267-272 *)
    | Set_memory mem => let m := t_merger t in Val (Nothing, mkt (t_out t) (t_creator t) (mkm mem (m_rem m) (m_buf m) (m_tree m)), s)  (* 223-226 *)
    end.
  (** 106-118, 506-525: fac is sort_memory_usage_factor(), mem1 and mem2 the memory of the creator and of the merger *)
  Definition new_sorter (mem2 : nat) : sorter := mkt false (mkc sr_empty false [] true) (m_new mem2).
  Definition blocks_per_half (fac mem1 : nat) : nat := mem1 / raw / fac / 2.
  (** ~runs_creator and ~sorted_runs free the blocks *)
  Definition destroy (t : sorter) (s : st) : option st := deallocate_blocks (c_res (t_creator t)) s.

  (** what a sequence of operations shows *)
  Inductive ending := Ends (t : sorter) (s : st) | Throws | Breaks.
  Fixpoint run_ops (m2 : nat) (os : list op) (t : sorter) (s : st) : list obs * ending :=
    match os with
    | [] => ([], Ends t s)
    | o :: os =>
        match step m2 o t s with
        | Val (v, t, s) => let (vs, e) := run_ops m2 os t s in (v :: vs, e)
        | Bad => ([], Throws)
        | Undef => ([], Breaks)
        end
    end.
  (** constructor, operations; an exception of the constructor shows nothing *)
  Definition use_sorter (fac mem1 mem2 : nat) (os : list op) (s : st) : list obs * ending :=
    if Nat.leb (2 * raw * fac) mem1 then run_ops (blocks_per_half fac mem1) os (new_sorter mem2) s else ([], Throws).
End Sorter.
Arguments mkr {A}. Arguments r_elements {A}. Arguments r_runs {A}. Arguments r_sizes {A}. Arguments r_small {A}. Arguments sr_empty {A}.
Arguments mkc {A}. Arguments c_res {A}. Arguments c_computed {A}. Arguments c_cur {A}. Arguments c_alloc {A}.
Arguments mkf {A}. Arguments f_res {A}. Arguments f_full {A}. Arguments f_cur {A}. Arguments f_new {A}.
Arguments mkm {A}. Arguments m_mem {A}. Arguments m_rem {A}. Arguments m_buf {A}. Arguments m_tree {A}.
Arguments mkt {A}. Arguments t_out {A}. Arguments t_creator {A}. Arguments t_merger {A}.
Arguments Push {A}. Arguments Sort {A}. Arguments Sort_reuse {A}. Arguments Rewind {A}. Arguments Clear {A}. Arguments Finish {A}. Arguments Finish_clear {A}.
Arguments Size {A}. Arguments Empty {A}. Arguments Get {A}. Arguments Next {A}. Arguments Set_memory {A}.
Arguments Nothing {A}. Arguments Number {A}. Arguments Yes_no {A}. Arguments Item {A}.
Arguments Ends {A}. Arguments Throws {A}. Arguments Breaks {A}.
Arguments add_run {A}. Arguments deallocate_blocks {A}. Arguments sr_clear {A}. Arguments cr_size {A}. Arguments m_get {A}. Arguments m_new {A}. Arguments m_deallocate {A}.
Arguments cr_allocate {A}. Arguments destroy {A}. Arguments new_sorter {A}.
