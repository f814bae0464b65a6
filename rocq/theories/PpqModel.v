(** Model of the parallel priority queue: include/stxxl/bits/containers/parallel_priority_queue.h
    (push, top, pop, bulk_pop, bulk_pop_limit and what they call).

    [lt] is m_inv_compare; [mm] is what multiway_merge does (output, rests of the sequences), [srt] what sorting does.
    Insertion heaps are sorted lists (heap operations as specified).  A winner tree yields the first least of its players.
    Which players are in the tree of internal arrays is kept ([itree]), since arrays enter it at certain points only.
    Memory and prefetching decide nothing but when something is done; the decisions are inputs:
    [dec] for the comparisons with m_mem_left, and the numbers of blocks each wait_next_blocks finds (0: no block hinted).
    Simplified: merging external arrays (4165-4395) merges all elements at once instead of in rounds;
    counters of elements and levels are computed from the arrays; statistics, hints and pools are left out.
    None: a failing assertion or check, or an access outside a container. *)
From Coq Require Import List Bool Arith.
From Verif Require Import OrderLib MwSortModel.
Import ListNotations.

Notation "x <- a ;; b" := (match a with Some x => b | None => None end) (at level 61, a at next level, right associativity).
Definition is_nil {X} (l : list X) : bool := match l with [] => true | _ => false end.
Fixpoint set_nth {X} (n : nat) (x : X) (l : list X) : list X :=
  match l, n with [], _ => [] | _ :: l, 0 => x :: l | y :: l, S n => y :: set_nth n x l end.

(** outcomes of the comparisons with the memory left: 3379, 4076, 4192, 4456 *)
Record dec := Dec { enough : bool; small : bool; ext_ok : nat -> bool; int_ok : nat -> bool }.

Section Ppq.
  Variable A : Type.
  Variable lt : A -> A -> bool.
  Variable mm : list (list A) -> nat -> list A * list (list A).
  Variable srt : list A -> list A.
  (** m_insertion_heap_capacity, block_items, m_extract_buffer_limit, 2333-2334, 2102-2108 *)
  Variables (cap bs ebl lsz maxl : nat).

  (** 275-415: level, elements from m_min_index on, in the tree *)
  Record iarr := IA { ilevel : nat; ivals : list A; itree : bool }.
  (** 442-: level, elements from m_index to m_end_index, blocks behind *)
  Record earr := EA { elevel : nat; eram : list A; eem : list (list A) }.
  Record st := St { heaps : list (list A); eb : list A; ias : list iarr; eas : list earr }.
  Definition eall (e : earr) : list A := eram e ++ concat (eem e).
  Definition total (s : list (list A)) : nat := length (concat s).

  (** 2184-2202 with 1794-1805; 2205-2262 *)
  Definition clean_ias (l : list iarr) : list iarr := map (fun i => IA (ilevel i) (ivals i) true) (filter (fun i => negb (is_nil (ivals i))) l).
  Definition clean_eas (l : list earr) : list earr := filter (fun e => negb (is_nil (eall e))) l.
  (** 1788-1792 *)
  Definition clear_tree (l : list iarr) : list iarr := map (fun i => IA (ilevel i) (ivals i) false) l.

  (** 4403-4490; the tree is told only if the extract buffer is not empty *)
  Fixpoint add_ia (fuel : nat) (d : dec) (b : list A) (l : list iarr) (values : list A) (level : nat) : option (list iarr) :=
    match fuel with 0 => None | S fuel =>
    if is_nil values then None else
    let l := l ++ [IA level values (negb (is_nil b))] in
    if Nat.ltb (length (filter (fun i => Nat.eqb (ilevel i) level) l)) lsz then Some l else
    let sel := filter (fun i => Nat.eqb (ilevel i) level && negb (is_nil (ivals i))) l in
    if negb (int_ok d level) then Some l else
    let seqs := map ivals sel in
    let merged := fst (mm seqs (total seqs)) in
    add_ia fuel d b (clean_ias (filter (fun i => negb (Nat.eqb (ilevel i) level)) l)) merged (S level)
    end.
  Definition add_array (d : dec) (b : list A) (l : list iarr) (values : list A) : option (list iarr) := add_ia maxl d b l values 0.

  (** the blocks of a new external array *)
  Fixpoint blocks (fuel : nat) (l : list A) : list (list A) :=
    match fuel, l with 0, _ => [] | _, [] => [] | S fuel, l => firstn bs l :: blocks fuel (skipn bs l) end.
  Definition new_ea (level : nat) (l : list A) : earr := EA level [] (blocks (length l) l).
  (** 4165-4395 *)
  Fixpoint check_level (fuel : nat) (d : dec) (l : list earr) (level : nat) : option (list earr) :=
    match fuel with 0 => None | S fuel =>
    if Nat.ltb (length (filter (fun e => Nat.eqb (elevel e) level) l)) lsz then Some l else
    if negb (ext_ok d level) then Some l else
    let sel := filter (fun e => Nat.eqb (elevel e) level && negb (is_nil (eall e))) l in
    if negb (Nat.eqb (length sel) lsz) then None else
    let seqs := map eall sel in
    let merged := fst (mm seqs (total seqs)) in
    check_level fuel d (clean_eas (filter (fun e => negb (Nat.eqb (elevel e) level)) l) ++ [new_ea (S level) merged]) (S level)
    end.
  (** 3357-3373: force_merge_all *)
  Definition merge_external (l : list earr) : list earr :=
    let seqs := map eall (clean_eas l) in [new_ea (maxl - 1) (fst (mm seqs (total seqs)))].

  (** 4048-4140 *)
  Definition flush_ias (d : dec) (s : st) : option st :=
    l <- (if is_nil (eb s) then Some (clear_tree (ias s)) else add_array d (eb s) (clear_tree (ias s)) (eb s)) ;;
    let l := clean_ias l in
    if small d then Some (St (heaps s) [] l (merge_external (eas s))) else
    let seqs := map ivals l in
    es <- check_level maxl d (eas s ++ [new_ea 0 (fst (mm seqs (total seqs)))]) 0 ;;
    Some (St (heaps s) [] [] es).
  (** 3377-3389 *)
  Definition free_memory (d : dec) (s : st) : option st :=
    if enough d then Some s else
    if Nat.ltb 0 (total (map ivals (ias s))) then flush_ias d s else Some (St (heaps s) (eb s) (ias s) (merge_external (eas s))).
  (** 3716-3743 *)
  Definition convert_eb (d : dec) (s : st) : option st :=
    if is_nil (eb s) then Some s else
    s <- free_memory d s ;;
    if is_nil (eb s) then Some s else
    l <- add_array d (eb s) (ias s) (eb s) ;; Some (St (heaps s) [] l (eas s)).

  (** 3937-3984 *)
  Definition flush_heap (d : dec) (p : nat) (h : list A) (s : st) : option st :=
    s <- free_memory d s ;;
    l <- add_array d (eb s) (ias s) (srt h) ;; Some (St (set_nth p [] (heaps s)) (eb s) l (eas s)).
  (** 3025-3043 *)
  Definition push (d : dec) (p : nat) (x : A) (s : st) : option st :=
    h <- nth_error (heaps s) p ;;
    s <- (if Nat.leb cap (length h) then flush_heap d p h s else Some s) ;;
    h <- nth_error (heaps s) p ;;
    Some (St (set_nth p (insert lt x h) (heaps s)) (eb s) (ias s) (eas s)).
  (** 3987-4044 with c_merge_sorted_heaps *)
  Definition flush_heaps (d : dec) (s : st) : option st :=
    s <- free_memory d s ;;
    let seqs := map srt (heaps s) in
    l <- add_array d (eb s) (ias s) (fst (mm seqs (total seqs))) ;;
    Some (St (map (fun _ => []) (heaps s)) (eb s) l (eas s)).

  (** the external array whose next block has the least minimum: 764-775, 3612 *)
  Fixpoint limiting (i : nat) (l : list earr) : option (nat * A) :=
    match l with
    | [] => None
    | e :: l => match eem e with
                | (x :: _) :: _ => match limiting (S i) l with Some (j, y) => if lt y x then Some (j, y) else Some (i, x) | None => Some (i, x) end
                | _ => limiting (S i) l
                end
    end.
  (** 1035-1075: [k] blocks have arrived *)
  Definition wait (i k : nat) (l : list earr) : list earr :=
    match nth_error l i with Some e => set_nth i (EA (elevel e) (eram e ++ concat (firstn k (eem e))) (skipn k (eem e))) l | None => l end.
  (** 3661-3697: the part below the limit *)
  Definition below (lim : option A) (l : list A) : list A := match lim with Some v => firstn (lower A lt v l) l | None => l end.
  Definition arrays (es : list earr) (l : list iarr) : list (list A) := map eram es ++ map ivals l.
  (** 3786-3816; searching from the previous end finds the same end *)
  Fixpoint fill (waits : list nat) (minimum : nat) (es : list earr) (l : list iarr) : list earr :=
    if Nat.leb minimum (total (map (below (option_map snd (limiting 0 es))) (arrays es l))) then es else
    match limiting 0 es, waits with
    | Some (i, _), S k :: waits => fill waits minimum (wait i (S k) es) l
    | _, _ => es
    end.
  (** 3838-3842, 3868-3905: merge [n] elements below the limit, remove them from the arrays *)
  Definition take (lim : option A) (n : nat) (es : list earr) (l : list iarr) : list A * list iarr * list earr :=
    let pres := map (below lim) (arrays es l) in
    let r := mm pres n in
    let rests := map (fun q => skipn (length (fst (snd q)) - length (snd (snd q))) (fst q)) (combine (arrays es l) (combine pres (snd r))) in
    let es := map (fun q => EA (elevel (fst q)) (snd q) (eem (fst q))) (combine es (firstn (length es) rests)) in
    let l := map (fun q => IA (ilevel (fst q)) (snd q) (itree (fst q))) (combine l (skipn (length es) rests)) in
    (fst r, clean_ias l, clean_eas es).
  (** 3750-3853 *)
  Definition refill (waits : list nat) (minimum maximum : nat) (s : st) : option st :=
    let maximum := if Nat.eqb maximum 0 then ebl else maximum in
    let es := clean_eas (eas s) in
    let l := clean_ias (ias s) in
    if is_nil es && is_nil l then Some (St (heaps s) [] [] []) else
    let es := fill waits minimum es l in
    let lim := option_map snd (limiting 0 es) in
    let n := Nat.min (total (map (below lim) (arrays es l))) maximum in
    if Nat.eqb n 0 then None else
    let '(out, l, es) := take lim n es l in Some (St (heaps s) out l es).
  Definition ensure (waits : list nat) (s : st) : option st :=
    if is_nil (eb s) then refill waits (Nat.min ebl (total (map ivals (ias s)) + total (map eall (eas s)))) 0 s else Some s.

  (** 1577-1786: the players of the three trees *)
  Inductive src := Heap (p : nat) | Int (i : nat) | Buf.
  Fixpoint candidates {X} (f : X -> option A) (mk : nat -> src) (i : nat) (l : list X) : list (A * src) :=
    match l with [] => [] | x :: l => match f x with Some a => (a, mk i) :: candidates f mk (S i) l | None => candidates f mk (S i) l end end.
  Definition players (s : st) : list (A * src) :=
    candidates (@hd_error A) Heap 0 (heaps s) ++
    candidates (fun i => if itree i then hd_error (ivals i) else None) Int 0 (ias s) ++
    candidates (@hd_error A) (fun _ => Buf) 0 [eb s].
  Fixpoint least (l : list (A * src)) : option (A * src) :=
    match l with [] => None | c :: l => match least l with Some c' => if lt (fst c') (fst c) then Some c' else Some c | None => Some c end end.

  (** 3046-3081 *)
  Definition top (waits : list nat) (s : st) : option (A * st) :=
    s <- ensure waits s ;; c <- least (players s) ;; Some (fst c, s).
  (** 3084-3156 *)
  Definition pop (waits : list nat) (s : st) : option st :=
    s <- ensure waits s ;; c <- least (players s) ;;
    match snd c with
    | Heap p => h <- nth_error (heaps s) p ;; Some (St (set_nth p (tl h) (heaps s)) (eb s) (ias s) (eas s))
    | Int i => a <- nth_error (ias s) i ;; Some (St (heaps s) (eb s) (set_nth i (IA (ilevel a) (tl (ivals a)) (itree a)) (ias s)) (eas s))
    | Buf => Some (St (heaps s) (tl (eb s)) (ias s) (eas s))
    end.
  Definition elements (s : st) : list A := concat (heaps s) ++ eb s ++ concat (map ivals (ias s)) ++ concat (map eall (eas s)).
  (** 2812-2836 *)
  Definition bulk_pop (d1 d2 : dec) (waits : list nat) (max_size : nat) (s : st) : option (list A * st) :=
    let n := Nat.min max_size (length (elements s)) in
    s <- (if Nat.ltb 0 (total (heaps s)) then flush_heaps d1 s else Some s) ;;
    s <- convert_eb d2 s ;;
    s <- refill waits n n s ;;
    Some (eb s, St (heaps s) [] (ias s) (eas s)).

  (** 3279-3350 *)
  Definition flush_limit (d : dec) (limit : A) (s : st) : option st :=
    let values := concat (map (below (Some limit)) (heaps s)) in
    if is_nil values then Some s else
    s' <- free_memory d s ;;
    l <- add_array d (eb s') (ias s') (srt values) ;;
    Some (St (map (fun h => skipn (lower A lt limit h) h) (heaps s)) (eb s') l (eas s')).
  (** 2866-2889: the limit, and whether it is the one asked for *)
  Fixpoint reach (waits : list nat) (limit : A) (es : list earr) : list earr * A * bool :=
    match limiting 0 es with
    | None => (es, limit, true)
    | Some (i, v) => if lt limit v then (es, limit, true) else
                     match waits with S k :: waits => reach waits limit (wait i (S k) es) | _ => (es, v, false) end
    end.
  (** 2842-2935 *)
  Definition bulk_pop_limit (d1 d2 : dec) (waits : list nat) (limit : A) (max_size : nat) (s : st) : option (list A * bool * st) :=
    s <- convert_eb d1 s ;;
    s <- (if Nat.ltb 0 (total (heaps s)) then flush_limit d2 limit s else Some s) ;;
    let '(es, v, full) := reach waits limit (eas s) in
    let n := total (map (below (Some v)) (arrays es (ias s))) in
    let '(out, l, es) := take (Some v) (Nat.min n max_size) es (ias s) in
    Some (out, full && Nat.leb n max_size, St (heaps s) (eb s) l es).
  (** 2896-2904: what bulk_pop_limit asserts in a debug build when it has waited for blocks; a release build goes on *)
  Definition limit_asserts (d1 d2 : dec) (waits : list nat) (limit : A) (s : st) : option bool :=
    s <- convert_eb d1 s ;;
    s <- (if Nat.ltb 0 (total (heaps s)) then flush_limit d2 limit s else Some s) ;;
    let '(es, _, _) := reach waits limit (eas s) in
    Some (forallb (fun e => negb (is_nil (eall e))) es && forallb (fun i => negb (is_nil (ivals i))) (ias s)).
End Ppq.
