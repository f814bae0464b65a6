(** Model of the external priority queue: include/stxxl/bits/containers/priority_queue.h
    (class priority_queue), with ext_merger::append_merger of
    include/stxxl/bits/containers/pq_ext_merger.h and internal_priority_queue of
    include/stxxl/bits/containers/pq_helpers.h.  The mergers are PqTreeModel.

    A buffer is the list of its elements from the current position to its end; behind the end
    the code keeps the sentinel cmp.min_value().  None is a failing assertion, an exception or
    undefined behaviour.  std::push_heap, std::pop_heap and the sort are parameters.
    Not modelled: the block pool (its results are those of C11), memory consumption, dumps and
    hints, the parallel variants.  64-bit sizes are unbounded. *)
From Coq Require Import List Bool Arith.
From Verif Require Import SumLib PqTreeModel.
Import ListNotations.

(** priority_queue.h 40-68: the parameters; [c_block] is block_type::size, [c_wpool] the number
    of blocks in the write pool *)
Record config := cfg {
  c_dbs : nat;        (* delete_buffer_size *)
  c_N : nat;          (* N *)
  c_IK : nat;         (* IntKMAX *)
  c_NI : nat;         (* num_int_groups *)
  c_block : nat;
  c_EK : nat;         (* ExtKMAX *)
  c_NE : nat;         (* num_ext_groups *)
  c_wpool : nat }.
(** priority_queue.h 109 *)
Definition c_T (c : config) : nat := c_NI c + c_NE c.

Section Pq.
  Variable A : Type.
  Variable cmp : A -> A -> bool.
  Variable mn : A.
  Variable c : config.
  Variable push_heap pop_heap sortf : list A -> list A.

  (** the arity and the number of leaf slots of the merger of level [i] *)
  Definition ar (i : nat) : nat := if Nat.ltb i (c_NI c) then c_IK c else c_EK c.
  Definition ns (i : nat) : nat := if Nat.ltb i (c_NI c) then c_IK c else max_arity (c_EK c).

  (** priority_queue.h 141-168 *)
  Record pq := mkpq {
    q_D : list A;                (* delete_buffer_current_min .. delete_buffer_end *)
    q_G : nat -> list A;         (* group_buffer_current_mins[i] .. group_buffers[i] + N *)
    q_M : nat -> tree A;         (* int_mergers[i], ext_mergers[i - num_int_groups] *)
    q_act : nat;                 (* num_active_groups *)
    q_size : nat;                (* size_ *)
    q_heap : list A }.           (* insert_heap *)
  Definition with_D (s : pq) d := mkpq d (q_G s) (q_M s) (q_act s) (q_size s) (q_heap s).
  Definition with_G (s : pq) g := mkpq (q_D s) g (q_M s) (q_act s) (q_size s) (q_heap s).
  Definition with_M (s : pq) m := mkpq (q_D s) (q_G s) m (q_act s) (q_size s) (q_heap s).
  Definition with_act (s : pq) n := mkpq (q_D s) (q_G s) (q_M s) n (q_size s) (q_heap s).
  Definition with_qsize (s : pq) n := mkpq (q_D s) (q_G s) (q_M s) (q_act s) n (q_heap s).
  Definition with_heap (s : pq) h := mkpq (q_D s) (q_G s) (q_M s) (q_act s) (q_size s) h.

  (** pq_helpers.h 123-128 with the capacity N + 2 of priority_queue.h 381 *)
  Definition heap_push (h : list A) (x : A) : option (list A) :=
    if Nat.ltb (length h) (c_N c + 2) then Some (push_heap (h ++ [x])) else None.
  (** pq_helpers.h 141-146 *)
  Definition heap_pop (h : list A) : option (list A) :=
    match h with [] => None | _ => Some (removelast (pop_heap h)) end.
  (** pq_helpers.h 148-155: sort_to *)
  Definition sort_to (h : list A) : list A := rev (sortf h).

  (** priority_queue.h 376-433: the constructors and init *)
  Definition init : option pq :=
    if cmp mn mn then None else
    match new_tree A cmp mn (c_IK c), new_tree A cmp mn (c_EK c), heap_push [] mn with
    | Some ti, Some te, Some h =>
        Some (mkpq [] (fun _ => []) (fun i => if Nat.ltb i (c_NI c) then ti else te) 0 0 h)
    | _, _, _ => None
    end.

  (** priority_queue.h 322-329: size_ + insert_heap.size() - 1 + delete buffer *)
  Definition size (s : pq) : nat := q_size s + length (q_heap s) - 1 + length (q_D s).
  Definition empty (s : pq) : bool := Nat.eqb (size s) 0.

  (** priority_queue.h 331-342 *)
  Definition top (s : pq) : option A :=
    match q_heap s with
    | [] => None
    | t :: _ => Some (if cmp (deref A mn (q_D s)) t then t else deref A mn (q_D s))
    end.

  (** priority_queue.h 450-508: refill_group_buffer; the result is the new filling *)
  Definition refill_group (s : pq) (i : nat) : option (nat * pq) :=
    let gs := t_size (q_M s i) in
    let left := length (q_G s i) in
    if Nat.ltb (c_N c) left then None else
    let len := if Nat.leb (c_N c) (gs + left) then c_N c - left else gs in
    if Nat.eqb len 0 then Some (len + left, s) else
    match multi_merge A cmp mn (ar i) (ns i) len (q_M s i) with
    | None => None
    | Some (out, t) =>
        Some (len + left, with_G (with_M s (upd (q_M s) i t)) (upd (q_G s) i (q_G s i ++ out)))
    end.

  (** priority_queue.h 514-531: the groups i-1 .. 0 *)
  Fixpoint refill_loop (i total : nat) (s : pq) : option (nat * pq) :=
    match i with
    | 0 => Some (total, s)
    | S j =>
        if Nat.ltb (length (q_G s j)) (c_dbs c) then
          match refill_group s j with
          | None => None
          | Some (len, s) =>
              let s := if Nat.eqb len 0 && Nat.eqb (S j) (q_act s) then with_act s (q_act s - 1) else s in
              refill_loop j (total + len) s
          end
        else refill_loop j (total + c_dbs c) s
    end.

  (** priority_queue.h 553-643: fill the delete buffer with [len] elements of the group buffers *)
  Definition merge_groups (len : nat) (s : pq) : option pq :=
    match q_act s with
    | 0 => if Nat.eqb len 0 then Some (with_D s []) else None
    | 1 => match copy_n A mn len (q_G s 0) with
           | None => None
           | Some (out, r) => Some (with_D (with_G s (upd (q_G s) 0 r)) out) end
    | 2 => match merge2 A cmp mn len (q_G s 0) (q_G s 1) with
           | None => None
           | Some (out, (r0, r1)) => Some (with_D (with_G s (upd (upd (q_G s) 0 r0) 1 r1)) out) end
    | 3 => match merge3 A cmp mn len (q_G s) with
           | None => None
           | Some (out, g) => Some (with_D (with_G s g) out) end
    | 4 => match merge4 A cmp mn len (q_G s) with
           | None => None
           | Some (out, g) => Some (with_D (with_G s g) out) end
    | _ => None
    end.

  (** priority_queue.h 510-658: refill_delete_buffer *)
  Definition refill_delete_buffer (s : pq) : option pq :=
    match refill_loop (q_act s) 0 s with
    | None => None
    | Some (total, s) =>
        if Nat.leb (c_dbs c) total then
          if Nat.ltb (q_size s) (c_dbs c) then None else
          merge_groups (c_dbs c) (with_qsize s (q_size s - c_dbs c))
        else
          if Nat.eqb (q_size s) total then merge_groups total (with_qsize s 0) else None
    end.

  (** pq_ext_merger.h 402-422: one multi_merge for every block of the new segment *)
  Fixpoint merge_pieces (a n : nat) (sizes : list nat) (t : tree A) : option (list A * tree A) :=
    match sizes with
    | [] => Some ([], t)
    | k :: r =>
        match multi_merge A cmp mn a n k t with
        | None => None
        | Some (out, t) =>
            if match out with [] => true | x :: o => cmp x (last o x) end then None else
            match merge_pieces a n r t with
            | None => None
            | Some (out', t) => Some (out ++ out', t)
            end
        end
    end.
  (** pq_ext_merger.h 366-430: append_merger; [a], [n] belong to the other merger *)
  Definition append_merger (dst : tree A) (a n : nat) (src : tree A) (seg : nat) : option (tree A * tree A) :=
    if Nat.eqb seg 0 then Some (dst, src) else
    match new_player A cmp mn (c_EK c) (max_arity (c_EK c)) dst with
    | None => None
    | Some (i, dst) =>
        let B := c_block c in
        let first := if Nat.eqb (seg mod B) 0 then B else seg mod B in
        let nblocks := if Nat.eqb (seg mod B) 0 then seg / B - 1 else seg / B in
        match merge_pieces a n (first :: repeat B nblocks) src with
        | None => None
        | Some (l, src) =>
            if Nat.eqb (c_wpool c) 0 then None else
            match link A cmp mn dst i l with
            | None => None
            | Some dst => Some (dst, src)
            end
        end
    end.

  (** priority_queue.h 665-738: make_space_available *)
  Fixpoint make_space (fuel level : nat) (s : pq) : option (nat * pq) :=
    match fuel with
    | 0 => None
    | S fuel =>
        if negb (Nat.ltb level (c_T c)) || Nat.ltb (q_act s) level then None else
        let s := if Nat.eqb level (q_act s) then with_act s (S (q_act s)) else s in
        if space_available A (ar level) (q_M s level) then Some (level, s)
        else if Nat.eqb level (c_T c - 1) then
          if Nat.ltb level (c_NI c) then None else
          match new_tree A cmp mn (c_EK c) with
          | None => None
          | Some over =>
              match append_merger over (ar level) (ns level) (q_M s level) (t_size (q_M s level)) with
              | None => None
              | Some (over, _) => Some (level, with_M s (upd (q_M s) level over))
              end
          end
        else
          match make_space fuel (S level) s with
          | None => None
          | Some (final, s) =>
              let seg := t_size (q_M s level) in
              if Nat.ltb (S level) (c_NI c) then
                match multi_merge A cmp mn (ar level) (ns level) seg (q_M s level) with
                | None => None
                | Some (l, t) =>
                    match append_array A cmp mn (ar (S level)) (ns (S level)) (q_M s (S level)) l with
                    | None => None
                    | Some t' => Some (final, with_M s (upd (upd (q_M s) level t) (S level) t'))
                    end
                end
              else
                match append_merger (q_M s (S level)) (ar level) (ns level) (q_M s level) seg with
                | None => None
                | Some (t', t) => Some (final, with_M s (upd (upd (q_M s) level t) (S level) t'))
                end
          end
    end.

  (** the store into newSegment[w] *)
  Fixpoint store (l : list A) (w : nat) (x : A) : list A :=
    match l, w with
    | [], _ => []
    | _ :: r, 0 => x :: r
    | y :: r, S w => y :: store r w x
    end.
  (** priority_queue.h 795-796: merge2_iterator (pq_mergers.h 40-61) with the target in the
      array that the second input is read from; [w] is the position of the target, [r] the
      position of the second input *)
  Fixpoint merge2_in_place (n : nat) (s0 : list A) (arr : list A) (w r : nat) : option (list A) :=
    match n with
    | 0 => Some arr
    | S n' =>
        if cmp (deref A mn s0) (nth r arr mn) then
          if Nat.ltb (S r) (length arr)
          then merge2_in_place n' s0 (store arr w (nth r arr mn)) (S w) (S r) else None
        else
          match next s0 with
          | None => None
          | Some s0' => merge2_in_place n' s0' (store arr w (deref A mn s0)) (S w) r
          end
    end.

  (** priority_queue.h 804-817: the group buffers i-1 .. 0 go into int_mergers[0] *)
  Fixpoint flush_groups (i : nat) (s : pq) : option pq :=
    match i with
    | 0 => Some s
    | S j =>
        match append_array A cmp mn (ar 0) (ns 0) (q_M s 0) (q_G s j) with
        | None => None
        | Some t => flush_groups j (with_G (with_M s (upd (q_M s) 0 t)) (upd (q_G s) j []))
        end
    end.

  (** priority_queue.h 741-825: empty_insert_heap *)
  Definition empty_insert_heap (s : pq) : option pq :=
    if negb (Nat.eqb (length (q_heap s)) (c_N c + 1)) then None else
    let sorted := sort_to (q_heap s) in
    match heap_push [] (nth (c_N c) sorted mn) with
    | None => None
    | Some h =>
        let seg := firstn (c_N c) sorted in
        let sz1 := length (q_D s) in
        let sz2 := length (q_G s 0) in
        match merge2 A cmp mn sz1 (q_D s ++ q_G s 0) seg with
        | None => None
        | Some (d, (pos, new)) =>
            match merge2 A cmp mn sz2 pos new with
            | None => None
            | Some (g0, (pos, new)) =>
                (* newPos is length seg - length new *)
                match merge2_in_place (c_N c) pos (seg ++ [mn]) 0 (length seg - length new) with
                | None => None
                | Some arr =>
                    let s := with_heap (with_G (with_D s d) (upd (q_G s) 0 g0)) h in
                    match make_space (c_T c) 0 s with
                    | None => None
                    | Some (free, s) =>
                        if negb (Nat.eqb free 0) && negb (Nat.eqb (t_size (q_M s 0)) 0) then None else
                        match append_array A cmp mn (ar 0) (ns 0) (q_M s 0) (firstn (c_N c) arr) with
                        | None => None
                        | Some t =>
                            let s := with_M s (upd (q_M s) 0 t) in
                            match (if Nat.ltb 0 free then flush_groups (S free) s else Some s) with
                            | None => None
                            | Some s =>
                                let s := with_qsize s (q_size s + c_N c) in
                                match q_D s with [] => refill_delete_buffer s | _ => Some s end
                            end
                        end
                    end
                end
            end
        end
    end.

  (** priority_queue.h 361-372 *)
  Definition push (s : pq) (x : A) : option pq :=
    if is_sentinel A cmp mn x then None else
    match (if Nat.eqb (length (q_heap s)) (c_N c + 1) then empty_insert_heap s else Some s) with
    | None => None
    | Some s =>
        match q_heap s with
        | [] => None
        | _ => match heap_push (q_heap s) x with None => None | Some h => Some (with_heap s h) end
        end
    end.

  (** priority_queue.h 344-359 *)
  Definition pop (s : pq) : option pq :=
    match q_heap s with
    | [] => None
    | t :: _ =>
        if cmp (deref A mn (q_D s)) t then
          match heap_pop (q_heap s) with None => None | Some h => Some (with_heap s h) end
        else
          match q_D s with
          | [] => None
          | _ :: d => let s := with_D s d in match d with [] => refill_delete_buffer s | _ => Some s end
          end
    end.

  (** ** runs *)
  Inductive op := Push (x : A) | Top | Pop | Size | Empty.
  Inductive res := RUnit | RVal (x : A) | RNat (n : nat) | RBool (b : bool).
  (** Pop is observed as top() followed by pop() *)
  Definition step (s : pq) (o : op) : option (res * pq) :=
    match o with
    | Push x => match push s x with None => None | Some s => Some (RUnit, s) end
    | Top => match top s with None => None | Some v => Some (RVal v, s) end
    | Pop => match top s with
             | None => None
             | Some v => match pop s with None => None | Some s => Some (RVal v, s) end
             end
    | Size => Some (RNat (size s), s)
    | Empty => Some (RBool (empty s), s)
    end.
  Fixpoint runs (s : pq) (os : list op) : option (list res * pq) :=
    match os with
    | [] => Some ([], s)
    | o :: os =>
        match step s o with
        | None => None
        | Some (r, s) =>
            match runs s os with None => None | Some (rs, s) => Some (r :: rs, s) end
        end
    end.
  Definition exec (os : list op) : option (list res * pq) :=
    match init with None => None | Some s => runs s os end.
End Pq.

Arguments q_D {A}. Arguments q_G {A}. Arguments q_M {A}. Arguments q_act {A}. Arguments q_size {A}.
Arguments q_heap {A}. Arguments with_D {A}. Arguments with_G {A}. Arguments with_M {A}.
Arguments with_act {A}. Arguments with_qsize {A}. Arguments with_heap {A}. Arguments mkpq {A}.
Arguments Push {A}. Arguments Top {A}. Arguments Pop {A}. Arguments Size {A}. Arguments Empty {A}.
Arguments RUnit {A}. Arguments RVal {A}. Arguments RNat {A}. Arguments RBool {A}.
