(** Model of the requests of runs_creator<use_push>, include/stxxl/bits/stream/sort_stream.h 413-692: which buffers and blocks are used while
    requests are under way.

    Programs in terms of AsyncIoModel.  Buffers 0 .. 2 * m2 - 1 are the blocks of m_blocks1 and m_blocks2; buffer 2 * m2 is used to read runs back.
    The memory of deleted buffers may be reused at once: [drop_buffers] overwrites them.
    cancel() does not stop a request that the disk is serving: clear() is modelled for the case that no request could be cancelled.
    Simplified: small_run is a list; the sort is done on a list of the elements read from the buffers. *)
From Coq Require Import List Bool Arith.
From Verif Require Import AsyncIoModel.
Import ListNotations.
Local Open Scope prog_scope.

Section RunWrite.
  Variable A : Type.
  Variable maxv : A.                                      (* cmp.max_value() *)
  Variable srt : list A -> list A.
  Variable B : nat.                                       (* block_type::size *)
  Variable m2 : nat.                                      (* m_m2 *)
  Notation prog := (prog A).

  (** a run: identifiers and triggers of its blocks, number of elements *)
  Definition wrun : Type := list (nat * A) * nat.
  (** w_half: m_blocks1 is the second half; w_cur: m_cur_el; w_reqs: m_write_reqs *)
  Record wstate := mkw {
    w_half : bool; w_cur : nat; w_reqs : list (option nat); w_runs : list wrun; w_small : list A; w_elements : nat; w_computed : bool; w_alloc : bool }.

  Definition buffer (half : bool) (i : nat) : nat := (if half then m2 else 0) + i.
  (** element j of m_blocks1 *)
  Fixpoint get_elements (half : bool) (js : list nat) : prog (list A) :=
    match js with
    | [] => Ret []
    | j :: js => DoGet (buffer half (j / B)) (j mod B) (fun v => let* l := get_elements half js in Ret (v :: l))
    end.
  Fixpoint put_elements (half : bool) (j : nat) (l : list A) : prog unit :=
    match l with [] => Ret tt | v :: l => DoPut (buffer half (j / B)) (j mod B) v (put_elements half (S j) l) end.
  (** 489-495 *)
  Definition sort_run (half : bool) (n : nat) : prog unit :=
    let* l := get_elements half (seq 0 n) in put_elements half 0 (srt l).

  Definition wait_opt (q : option nat) : prog unit := match q with Some q => DoWait q (Ret tt) | None => Ret tt end.
  Fixpoint set_nth {X} (i : nat) (x : X) (l : list X) : list X :=
    match l, i with [], _ => [] | _ :: l, 0 => x :: l | y :: l, S i => y :: set_nth i x l end.
  (** 526-534, 642-649: the loop over the blocks of the run *)
  Fixpoint write_blocks (half : bool) (i : nat) (bids : list nat) (reqs : list (option nat)) : prog (list (nat * A) * list (option nat)) :=
    match bids with
    | [] => Ret ([], reqs)
    | b :: bids =>
        DoGet (buffer half i) 0 (fun v =>
        let* _ := wait_opt (nth i reqs None) in
        DoWrite (buffer half i) b (fun q =>
        let* (r, reqs) := write_blocks half (S i) bids (set_nth i (Some q) reqs) in
        Ret ((b, v) :: r, reqs)))
    end.
  Fixpoint wait_opts (qs : list (option nat)) : prog unit :=
    match qs with [] => Ret tt | q :: qs => let* _ := wait_opt q in wait_opts qs end.

  Definition blocks_of (n : nat) : nat := (n + B - 1) / B.
  (** 497-542 *)
  Definition w_compute (w : wstate) : prog wstate :=
    if Nat.eqb (w_cur w) 0 then Ret w else
    let* _ := sort_run (w_half w) (w_cur w) in
    if Nat.leb (w_cur w) B && Nat.eqb (w_elements w) 0 then
      let* l := get_elements (w_half w) (seq 0 (w_cur w)) in
      Ret (mkw (w_half w) (w_cur w) (w_reqs w) (w_runs w) l (w_cur w) (w_computed w) (w_alloc w))
    else
      let n := blocks_of (w_cur w) in
      DoAlloc n (fun bids =>
      let* _ := put_elements (w_half w) (w_cur w) (repeat maxv (n * B - w_cur w)) in
      let* (r, reqs) := write_blocks (w_half w) 0 bids (w_reqs w) in
      let* _ := wait_opts reqs in
      Ret (mkw (w_half w) (w_cur w) reqs (w_runs w ++ [(r, w_cur w)]) (w_small w) (w_elements w + w_cur w) (w_computed w) (w_alloc w))).
  (** 662-673 *)
  Definition w_result (w : wstate) : prog wstate :=
    if w_computed w then Ret w else
    if w_alloc w then
      let* w := w_compute w in Ret (mkw (w_half w) (w_cur w) (w_reqs w) (w_runs w) (w_small w) (w_elements w) true (w_alloc w))
    else Err.
  (** 620-656 *)
  Definition w_push (x : A) (w : wstate) : prog wstate :=
    if w_computed w then Err else if w_alloc w then
      if Nat.ltb (w_cur w) (m2 * B) then
        let* _ := put_elements (w_half w) (w_cur w) [x] in
        Ret (mkw (w_half w) (S (w_cur w)) (w_reqs w) (w_runs w) (w_small w) (w_elements w) false true)
      else
        let* _ := sort_run (w_half w) (m2 * B) in
        DoAlloc (blocks_of (m2 * B)) (fun bids =>
        let* (r, reqs) := write_blocks (w_half w) 0 bids (w_reqs w) in
        if Nat.ltb 0 (m2 * B) then
          let* _ := put_elements (negb (w_half w)) 0 [x] in
          Ret (mkw (negb (w_half w)) 1 reqs (w_runs w ++ [(r, m2 * B)]) (w_small w) (w_elements w + m2 * B) false true)
        else Err)
    else Err.
  Definition run_blocks (rs : list wrun) : list nat := concat (map (fun r => map fst (fst r)) rs).
  (** 572-587; sorted_runs::clear *)
  Definition w_clear (w : wstate) : prog wstate :=
    DoFree (run_blocks (w_runs w)) (Ret (mkw (w_half w) 0 (w_reqs w) [] [] 0 false (w_alloc w))).
  (** 590-601 *)
  Definition w_allocate (w : wstate) : prog wstate :=
    if w_alloc w then w_clear w
    else w_clear (mkw false (w_cur w) (repeat None m2) (w_runs w) (w_small w) (w_elements w) (w_computed w) true).
  (** 604-616 *)
  Definition drop_buffers : prog unit :=
    (fix go (xs : list nat) : prog unit := match xs with [] => Ret tt | x :: xs => DoPut x 0 maxv (go xs) end) (seq 0 (2 * m2)).
  Definition w_deallocate (w : wstate) : prog wstate :=
    let* w := w_result w in
    if w_alloc w then
      let* _ := drop_buffers in Ret (mkw false (w_cur w) [] (w_runs w) (w_small w) (w_elements w) (w_computed w) false)
    else Ret w.
  (** 548-569: constructor and destructor; afterwards the sorted_runs object is destroyed *)
  Definition w_new : wstate := mkw false 0 (repeat None m2) [] [] 0 false true.
  Definition w_destroy (w : wstate) : prog unit :=
    let* w := w_deallocate (mkw (w_half w) (w_cur w) (w_reqs w) (w_runs w) (w_small w) (w_elements w) true (w_alloc w)) in
    DoFree (run_blocks (w_runs w)) (Ret tt).

  (** the user *)
  Inductive wop := WPush (x : A) | WResult | WClear | WAllocate | WDeallocate.
  Definition w_op (o : wop) (w : wstate) : prog wstate :=
    match o with
    | WPush x => w_push x w
    | WResult => w_result w
    | WClear => if w_alloc w then w_clear w else Err          (* m_write_reqs[i] is looked at *)
    | WAllocate => w_allocate w
    | WDeallocate => w_deallocate w
    end.
  Fixpoint w_ops (os : list wop) (w : wstate) : prog wstate :=
    match os with [] => Ret w | o :: os => let* w := w_op o w in w_ops os w end.

  (** what a reader of the runs gets *)
  Fixpoint read_block (js : list nat) : prog (list A) :=
    match js with [] => Ret [] | j :: js => DoGet (2 * m2) j (fun v => let* l := read_block js in Ret (v :: l)) end.
  Fixpoint read_run (r : list (nat * A)) : prog (list A) :=
    match r with
    | [] => Ret []
    | (b, _) :: r => DoRead (2 * m2) b (fun q => DoWait q (let* l := read_block (seq 0 B) in let* l' := read_run r in Ret (l ++ l')))
    end.
  Fixpoint read_runs (rs : list wrun) : prog (list (list A * nat)) :=
    match rs with [] => Ret [] | r :: rs => let* l := read_run (fst r) in let* ls := read_runs rs in Ret ((l, snd r) :: ls) end.
  (** operations, then read all runs if the result has been computed, then destroy *)
  Definition use_runs (os : list wop) : prog (list A * list (list A * nat)) :=
    let* w := w_ops os w_new in
    let* rs := (if w_computed w then read_runs (w_runs w) else Ret []) in
    let* _ := w_destroy w in
    Ret (w_small w, rs).
End RunWrite.
Arguments mkw {A}. Arguments w_half {A}. Arguments w_cur {A}. Arguments w_reqs {A}. Arguments w_runs {A}. Arguments w_small {A}. Arguments w_elements {A}. Arguments w_computed {A}. Arguments w_alloc {A}.
Arguments WPush {A}. Arguments WResult {A}. Arguments WClear {A}. Arguments WAllocate {A}. Arguments WDeallocate {A}. Arguments w_new {A}. Arguments run_blocks {A}.
