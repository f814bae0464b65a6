(** Insertion heaps of the parallel priority queue as arrays: push_heap, push and bulk pushes of
    include/stxxl/bits/containers/parallel_priority_queue.h (2267-2295, 2599-2808, 3025-3043, 3912-3965).

    [lt] is m_inv_compare: comp(a, b) of the source, comp being m_compare, is [lt b a].
    std::push_heap is the source's own push_heap (2267-2272 calls them identical) behind its precondition.
    What happens to a flushed array after add_as_internal_array is modelled in PpqModel; here it is only kept.
    The winner tree over the heaps is reduced to the root each heap had when the tree was last told about it.
    Left out: branches switched off by "&& 0" and "very large" bulks, which nothing switches on (2609);
    memory, statistics, delayed hints (2803-2806); calls of different threads are one sequence of calls in any order.
    None: a failing assertion, a violated precondition, an index out of range or a wrapping counter. *)
From Coq Require Import List Bool Arith.
From Verif Require Import OrderLib PpqModel.
Import ListNotations.

Section Heap.
  Variable A : Type.
  Variable lt : A -> A -> bool.
  Variable srt : list A -> list A.
  (** m_insertion_heap_capacity *)
  Variable cap : nat.

  (** 2281-2292: the loop; [index] is the hole *)
  Fixpoint sift (fuel : nat) (l : list A) (index : nat) (value : A) : option (list A * nat) :=
    match fuel with 0 => None | S fuel =>
    let parent := (index - 1) / 2 in
    if Nat.ltb 0 index then
      y <- nth_error l parent ;;
      if lt value y then sift fuel (set_nth index y l) parent value else Some (set_nth index value l, index)
    else Some (set_nth index value l, index)
    end.
  (** 2275-2295: the array afterwards and the index returned *)
  Definition push_heap (l : list A) : option (list A * nat) :=
    value <- nth_error l (length l - 1) ;; sift (length l) l (length l - 1) value.

  (** the precondition of std::push_heap: all but the last element form a heap *)
  Definition heapb (l : list A) : bool :=
    forallb (fun i => match nth_error l i, nth_error l ((i - 1) / 2) with Some x, Some y => negb (lt x y) | _, _ => true end) (seq 1 (length l)).
  Definition std_push_heap (l : list A) : option (list A) :=
    if heapb (firstn (length l - 1) l) then r <- push_heap l ;; Some (fst r) else None.

  (** insertion_heap, heap_add_size, and the root the winner tree was last told (None: not in the tree) *)
  Record pheap := PH { arr : list A; added : nat; seen : option A }.
  (** the heaps, the arrays flushed so far, m_heaps_size *)
  Record hst := HS { procs : list pheap; out : list (list A); hsize : nat }.

  (** 1595-1650: comparisons of the winner trees read the roots of the heaps in them, which must exist *)
  Definition rootless (hs : list pheap) : bool :=
    existsb (fun h => is_nil (arr h) && match seen h with Some _ => true | None => false end) hs.
  (** 3912-3965; adding the array to the winner trees compares (4416-4422, 1748-1752); the counter must not wrap *)
  Definition flush_heap (p : nat) (s : hst) : option hst :=
    h <- nth_error (procs s) p ;;
    if is_nil (arr h) then None else
    if Nat.ltb (hsize s) (length (arr h)) then None else
    let hs := set_nth p (PH [] (added h) None) (procs s) in
    if rootless hs then None else
    Some (HS hs (out s ++ [srt (arr h)]) (hsize s - length (arr h))).

  (** 3025-3043 *)
  Definition hpush (p : nat) (x : A) (s : hst) : option hst :=
    h <- nth_error (procs s) p ;;
    s <- (if Nat.leb cap (length (arr h)) then flush_heap p s else Some s) ;;
    h <- nth_error (procs s) p ;;
    r <- push_heap (arr h ++ [x]) ;;
    let told := if Nat.eqb (length (fst r)) 1 || Nat.eqb (snd r) 0 then hd_error (fst r) else seen h in
    Some (HS (set_nth p (PH (fst r) (added h) told) (procs s)) (out s) (S (hsize s))).

  (** 2599-2625 *)
  Definition bulk_begin (s : hst) : hst := HS (map (fun h => PH (arr h) 0 (seen h)) (procs s)) (out s) (hsize s).
  (** 2634-2638, 2660-2679, 2698 *)
  Definition bulk_push (p : nat) (x : A) (s : hst) : option hst :=
    h <- nth_error (procs s) p ;;
    s <- (if Nat.leb cap (length (arr h))
          then flush_heap p (HS (set_nth p (PH (arr h) 0 (seen h)) (procs s)) (out s) (hsize s + added h)) else Some s) ;;
    h <- nth_error (procs s) p ;;
    if negb (Nat.ltb (length (arr h)) cap) then None else
    Some (HS (set_nth p (PH (arr h ++ [x]) (S (added h)) (seen h)) (procs s)) (out s) (hsize s)).
  (** 2745-2749: [index] elements at the end are not yet sifted up *)
  Fixpoint resift (index : nat) (l : list A) : option (list A) :=
    match index with
    | 0 => Some l
    | S index =>
        if Nat.ltb (length l) index then None else
        l' <- std_push_heap (firstn (length l - index) l) ;; resift index (l' ++ skipn (length l - index) l)
    end.
  (** 2739-2763 *)
  Fixpoint end_heaps (hs : list pheap) : option (list pheap * nat) :=
    match hs with
    | [] => Some ([], 0)
    | h :: hs =>
        l <- resift (added h) (arr h) ;;
        r <- end_heaps hs ;;
        Some (PH l (added h) (if is_nil l then seen h else hd_error l) :: fst r, added h + snd r)
    end.
  Definition bulk_end (s : hst) : option hst :=
    r <- end_heaps (procs s) ;; Some (HS (fst r) (out s) (hsize s + snd r)).

  Fixpoint bulk_pushes (l : list (nat * A)) (s : hst) : option hst :=
    match l with [] => Some s | (p, x) :: l => s <- bulk_push p x s ;; bulk_pushes l s end.
  (** a push, or a bulk: begin, any pushes, end *)
  Inductive hcall := HPush (p : nat) (x : A) | HBulk (l : list (nat * A)).
  Definition hstep (c : hcall) (s : hst) : option hst :=
    match c with
    | HPush p x => hpush p x s
    | HBulk l => s <- bulk_pushes l (bulk_begin s) ;; bulk_end s
    end.
  Fixpoint hrun (l : list hcall) (s : hst) : option hst :=
    match l with [] => Some s | c :: l => s <- hstep c s ;; hrun l s end.
End Heap.
Arguments PH {A}. Arguments arr {A}. Arguments added {A}. Arguments seen {A}.
Arguments HS {A}. Arguments procs {A}. Arguments out {A}. Arguments hsize {A}.
Arguments HPush {A}. Arguments HBulk {A}.
