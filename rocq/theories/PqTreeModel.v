(** Model of the mergers of the priority queue: include/stxxl/bits/containers/pq_mergers.h
    (merge2_iterator, merge3_iterator, merge4_iterator, class loser_tree) with the leaf arrays
    of include/stxxl/bits/containers/pq_int_merger.h (class int_merger) and
    include/stxxl/bits/containers/pq_ext_merger.h (class ext_merger).

    A leaf sequence is the list of its elements from the current position on; behind its last
    element the code has a copy of cmp.min_value() (the sentinel), so reading the current
    element is [hd mn], and advancing beyond the sentinel is undefined ([next], None).  That
    the blocks of an external sequence deliver this list is PqSeqModel.

    None is a failing assertion or undefined behaviour.  Not modelled: mem_cons_, the parallel
    variants (STXXL_PARALLEL), prefetch hints (prefetch_arrays), and swap().  unsigned_type is
    unbounded. *)
From Coq Require Import List Bool Arith.
From Verif Require Import SumLib.
Import ListNotations.

Section PqTree.
  Variable A : Type.
  Variable cmp : A -> A -> bool.        (* the comparator: cmp a b, a has lower priority than b *)
  Variable mn : A.                      (* cmp.min_value() *)
  Variable arity : nat.                 (* template parameter Arity *)
  Variable nslots : nat.                (* length of the leaf arrays: MaxArity in int_merger
                                           (pq_int_merger.h 70-76), max_arity in ext_merger
                                           (pq_ext_merger.h 179) *)

  (** pq_mergers.h 260: max_arity = 1UL << LOG2<Arity>::ceil *)
  Definition max_arity : nat := 2 ^ Nat.log2_up arity.

  (** pq_mergers.h 316-319, pq_int_merger.h 200-203, pq_ext_merger.h 107-115 *)
  Definition is_sentinel (a : A) : bool := negb (cmp mn a).

  (** operator * of a sequence *)
  Definition deref (l : list A) : A := hd mn l.
  (** operator ++ of a sequence: pq_ext_merger.h 131 asserts that the current element is not a
      sentinel; a pointer must not be advanced beyond the terminating sentinel *)
  Definition next (l : list A) : option (list A) :=
    match l with [] => None | _ :: r => Some r end.

  (** pq_mergers.h 40-61, merge2_iterator *)
  Fixpoint merge2 (n : nat) (s0 s1 : list A) : option (list A * (list A * list A)) :=
    match n with
    | 0 => Some ([], (s0, s1))
    | S n' =>
        if cmp (deref s0) (deref s1) then
          match next s1 with
          | None => None
          | Some r => match merge2 n' s0 r with
                      | None => None
                      | Some (out, s) => Some (deref s1 :: out, s) end
          end
        else
          match next s0 with
          | None => None
          | Some r => match merge2 n' r s1 with
                      | None => None
                      | Some (out, s) => Some (deref s0 :: out, s) end
          end
    end.

  (** pq_mergers.h 105-125, Merge3Case(a,b,c): the label is the triple *)
  Fixpoint merge3_case (n a b c : nat) (s : nat -> list A) : option (list A * (nat -> list A)) :=
    match n with
    | 0 => Some ([], s)
    | S n' =>
        match next (s a) with
        | None => None
        | Some r =>
            let s' := upd s a r in
            let rest :=
              if cmp (deref (s' b)) (deref (s' a)) then merge3_case n' a b c s'
              else if cmp (deref (s' c)) (deref (s' a)) then merge3_case n' b a c s'
              else merge3_case n' b c a s' in
            match rest with
            | None => None
            | Some (out, s'') => Some (deref (s a) :: out, s'')
            end
        end
    end.
  (** pq_mergers.h 69-128, merge3_iterator; the sources are s 0, s 1, s 2 *)
  Definition merge3 (n : nat) (s : nat -> list A) : option (list A * (nat -> list A)) :=
    let c i j := cmp (deref (s i)) (deref (s j)) in
    if c 1 0 then
      if c 2 1 then merge3_case n 0 1 2 s
      else if c 0 2 then merge3_case n 2 0 1 s
      else merge3_case n 0 2 1 s
    else
      if c 2 1 then
        if c 2 0 then merge3_case n 1 0 2 s
        else merge3_case n 1 2 0 s
      else merge3_case n 2 1 0 s.

  (** pq_mergers.h 187-237, Merge4Case(a,b,c,d) *)
  Fixpoint merge4_case (n a b c d : nat) (s : nat -> list A) : option (list A * (nat -> list A)) :=
    match n with
    | 0 => Some ([], s)
    | S n' =>
        match next (s a) with
        | None => None
        | Some r =>
            let s' := upd s a r in
            let rest :=
              if cmp (deref (s' c)) (deref (s' a)) then
                if cmp (deref (s' b)) (deref (s' a)) then merge4_case n' a b c d s'
                else merge4_case n' b a c d s'
              else
                if cmp (deref (s' d)) (deref (s' a)) then merge4_case n' b c a d s'
                else merge4_case n' b c d a s' in
            match rest with
            | None => None
            | Some (out, s'') => Some (deref (s a) :: out, s'')
            end
        end
    end.
  (** pq_mergers.h 157-185, the order in which StartMerge4 tries the labels *)
  Definition starts4 : list (nat * nat * nat * nat) :=
    [ (0, 1, 2, 3); (1, 2, 3, 0); (2, 3, 0, 1); (3, 0, 1, 2);
      (0, 3, 1, 2); (3, 1, 2, 0); (1, 2, 0, 3); (2, 0, 3, 1);
      (0, 2, 3, 1); (2, 3, 1, 0); (3, 1, 0, 2); (1, 0, 2, 3);
      (2, 0, 1, 3); (0, 1, 3, 2); (1, 3, 2, 0); (3, 2, 0, 1);
      (3, 0, 2, 1); (0, 2, 1, 3); (2, 1, 3, 0); (1, 3, 0, 2);
      (1, 0, 3, 2); (0, 3, 2, 1); (3, 2, 1, 0); (2, 1, 0, 3) ].
  (** pq_mergers.h 146-150, the condition of StartMerge4(a,b,c,d) *)
  Definition start4_ok (s : nat -> list A) (p : nat * nat * nat * nat) : bool :=
    let '(a, b, c, d) := p in
    negb (cmp (deref (s a)) (deref (s b))) && negb (cmp (deref (s b)) (deref (s c))) &&
    negb (cmp (deref (s c)) (deref (s d))).
  (** pq_mergers.h 136-241, merge4_iterator; if no StartMerge4 succeeds control reaches the
      first label, 0 1 2 3 (line 209) *)
  Definition merge4 (n : nat) (s : nat -> list A) : option (list A * (nat -> list A)) :=
    match find (start4_ok s) starts4 with
    | Some (a, b, c, d) => merge4_case n a b c d s
    | None => merge4_case n 0 1 2 3 s
    end.

  (** pq_mergers.h 268-295 with the members of the linked arrays (pq_int_merger.h 64-81,
      pq_ext_merger.h 174-188) *)
  Record tree := mk {
    t_k : nat;                       (* k *)
    t_log : nat;                     (* logK *)
    t_entry : nat -> A * nat;        (* entry: key and index *)
    t_free : list nat;               (* free_slots, top first *)
    t_arr : nat -> list A;           (* current / states *)
    t_alloc : nat -> bool;           (* is_array_allocated *)
    t_size : nat }.                  (* m_size *)
  Definition with_entry (t : tree) e := mk (t_k t) (t_log t) e (t_free t) (t_arr t) (t_alloc t) (t_size t).
  Definition with_free (t : tree) f := mk (t_k t) (t_log t) (t_entry t) f (t_arr t) (t_alloc t) (t_size t).
  Definition with_arr (t : tree) a := mk (t_k t) (t_log t) (t_entry t) (t_free t) a (t_alloc t) (t_size t).
  Definition with_alloc (t : tree) a := mk (t_k t) (t_log t) (t_entry t) (t_free t) (t_arr t) a (t_size t).
  Definition with_size (t : tree) n := mk (t_k t) (t_log t) (t_entry t) (t_free t) (t_arr t) (t_alloc t) n.

  (** pq_int_merger.h 88-91, pq_ext_merger.h 221-224 *)
  Definition is_array_empty (t : tree) (i : nat) : bool := is_sentinel (deref (t_arr t i)).

  (** pq_helpers.h 217-221, internal_bounded_stack::push *)
  Definition push_slot (f : list nat) (i : nat) : option (list nat) :=
    if Nat.ltb (length f) arity then Some (i :: f) else None.

  (** pq_mergers.h 363-391, init_winner; the recursion depth is logK + 1 *)
  Fixpoint init_winner (fuel k : nat) (arr : nat -> list A) (root : nat) (e : nat -> A * nat)
    : option (nat * (nat -> A * nat)) :=
    match fuel with
    | 0 => None
    | S f =>
        if Nat.leb k root || Nat.leb max_arity root then Some (root - k, e) else
        match init_winner f k arr (2 * root) e with
        | None => None
        | Some (lw, e) =>
            match init_winner f k arr (2 * root + 1) e with
            | None => None
            | Some (rw, e) =>
                let lk := deref (arr lw) in
                let rk := deref (arr rw) in
                if negb (cmp lk rk)
                then Some (lw, upd e root (rk, rw))
                else Some (rw, upd e root (lk, lw))
            end
        end
    end.

  (** pq_mergers.h 351-356, rebuild_loser_tree *)
  Definition rebuild (t : tree) : option tree :=
    match init_winner (S (t_log t)) (t_k t) (t_arr t) 1 (t_entry t) with
    | None => None
    | Some (w, e) => Some (with_entry t (upd e 0 (deref (t_arr t w), w)))
    end.

  (** the constructors: pq_mergers.h 298-313, pq_int_merger.h 150-163, pq_ext_merger.h 191-199
      and 277-303.  Entries that were never written hold [(mn, 0)]. *)
  Definition new_tree : option tree :=
    match push_slot [] 0 with
    | None => None
    | Some f => rebuild (mk 1 0 (fun _ => (mn, 0)) f (fun _ => []) (fun _ => false) 0)
    end.

  (** pq_mergers.h 345-348, is_space_available *)
  Definition space_available (t : tree) : bool :=
    Nat.ltb (t_k t) arity || negb (match t_free t with [] => true | _ => false end).

  (** pq_int_merger.h 124-140, pq_ext_merger.h 252-261 and pq_mergers.h 338-342: free_array *)
  Definition free_array (t : tree) (i : nat) : option tree :=
    if t_alloc t i then
      match push_slot (t_free t) i with
      | None => None
      | Some f => Some (with_free (with_alloc (with_arr t (upd (t_arr t) i [])) (upd (t_alloc t) i false)) f)
      end
    else None.

  (** pq_int_merger.h 116-121, pq_ext_merger.h 246-249: make_array_sentinel, with the bounds of
      the leaf arrays.  (In ext_merger the flag [allocated] is left as it is; it is false for
      every slot this is called for.) *)
  Definition make_array_sentinel (t : tree) (i : nat) : option tree :=
    if Nat.ltb i nslots
    then Some (with_alloc (with_arr t (upd (t_arr t) i [])) (upd (t_alloc t) i false))
    else None.

  (** pq_mergers.h 469-474: i = k + n - 1 down to k *)
  Fixpoint add_slots (n : nat) (t : tree) : option tree :=
    match n with
    | 0 => Some t
    | S n' =>
        let i := t_k t + n' in
        match make_array_sentinel t i with
        | None => None
        | Some t =>
            if Nat.ltb i arity then
              match push_slot (t_free t) i with
              | None => None
              | Some f => add_slots n' (with_free t f)
              end
            else add_slots n' t
        end
    end.

  (** pq_mergers.h 461-486, double_k *)
  Definition double_k (t : tree) : option tree :=
    if Nat.ltb 0 (t_k t) && Nat.ltb (t_k t) arity && match t_free t with [] => true | _ => false end then
      match add_slots (t_k t) t with
      | None => None
      | Some t =>
          let t := mk (t_k t * 2) (S (t_log t)) (t_entry t) (t_free t) (t_arr t) (t_alloc t) (t_size t) in
          if Nat.leb (t_k t) max_arity && negb (match t_free t with [] => true | _ => false end)
          then rebuild t else None
      end
    else None.

  (** pq_mergers.h 322-335, new_player *)
  Definition new_player (t : tree) : option (nat * tree) :=
    match (match t_free t with [] => double_k t | _ => Some t end) with
    | None => None
    | Some t => match t_free t with [] => None | i :: f => Some (i, with_free t f) end
    end.

  (** pq_mergers.h 408: the mask 1 << (logK - 1).  For logK = 0 the shift count is the largest
      unsigned number, which is undefined; the value is then never used. *)
  Definition root_mask (logk : nat) : option nat :=
    match logk with 0 => None | S l => Some (2 ^ l) end.

  (** pq_mergers.h 399-448, update_on_insert; the result is the entry array, the handed down
      winner and the mask.  The recursion depth is logK. *)
  Fixpoint update_on_insert (fuel logk node : nat) (nk : A) (ni : nat) (e : nat -> A * nat)
    : option ((nat -> A * nat) * (A * nat) * option nat) :=
    if Nat.eqb node 0 then
      Some (if cmp (fst (e 0)) nk then upd e 0 (nk, ni) else e, e 0, root_mask logk)
    else
      match fuel with
      | 0 => None
      | S f =>
          match update_on_insert f logk (node / 2) nk ni e with
          | None => None
          | Some (e, w, mask) =>
              match mask with
              | None => None
              | Some m =>
                  let loser := e node in
                  if negb (Nat.eqb (Nat.land (snd w) m) (Nat.land ni m)) then
                    let e' := if cmp (fst loser) nk then
                                if cmp (fst w) nk then upd e node w else upd e node (nk, ni)
                              else e in
                    Some (e', loser, Some (m / 2))
                  else Some (e, w, Some (m / 2))
              end
          end
      end.

  (** pq_int_merger.h 207-238 (append_array) and pq_ext_merger.h 348-362, 378-379, 424-429
      (insert_segment and the rest of append_merger): link the sequence [l] to the slot [i] *)
  Definition link (t : tree) (i : nat) (l : list A) : option tree :=
    if t_alloc t i then None else
    let t := with_size (with_alloc (with_arr t (upd (t_arr t) i l)) (upd (t_alloc t) i true))
                       (t_size t + length l) in
    match update_on_insert (t_log t) (t_log t) ((i + t_k t) / 2) (deref l) i (t_entry t) with
    | None => None
    | Some (e, _, _) => Some (with_entry t e)
    end.
  Definition append_array (t : tree) (l : list A) : option tree :=
    match l with
    | [] => Some t
    | x :: r =>
        if is_sentinel x || is_sentinel (last r x) then None else
        match new_player t with
        | None => None
        | Some (i, t) => link t i l
        end
    end.

  (** pq_mergers.h 496-520, the loop over pos *)
  Fixpoint compact_loop (n pos last : nat) (arr : nat -> list A) (al : nat -> bool)
    : option (nat * (nat -> list A) * (nat -> bool)) :=
    match n with
    | 0 => Some (last, arr, al)
    | S n' =>
        if is_sentinel (deref (arr pos)) then compact_loop n' (S pos) last arr al else
        if negb (al pos) then None else
        if Nat.eqb pos last then compact_loop n' (S pos) (S last) arr al else
        if al last then None else
        compact_loop n' (S pos) (S last)
          (upd (upd arr last (arr pos)) pos (arr last)) (upd (upd al last (al pos)) pos (al last))
    end.
  (** pq_mergers.h 523-527 *)
  Fixpoint halve (fuel last k logk : nat) : option (nat * nat) :=
    if Nat.ltb 1 k && Nat.leb last (k / 2) then
      match fuel with 0 => None | S f => halve f last (k / 2) (logk - 1) end
    else Some (k, logk).
  (** pq_mergers.h 531-537: n slots from [i] on *)
  Fixpoint refree (n i : nat) (t : tree) : option tree :=
    match n with
    | 0 => Some t
    | S n' =>
        if t_alloc t i then None else
        match make_array_sentinel t i with
        | None => None
        | Some t =>
            if Nat.ltb i arity then
              match push_slot (t_free t) i with
              | None => None
              | Some f => refree n' (S i) (with_free t f)
              end
            else refree n' (S i) t
        end
    end.
  (** pq_mergers.h 489-543, compact_tree *)
  Definition compact_tree (t : tree) : option tree :=
    if Nat.eqb (t_log t) 0 then None else
    match compact_loop (t_k t) 0 0 (t_arr t) (t_alloc t) with
    | None => None
    | Some (last, arr, al) =>
        match halve (t_log t) last (t_k t) (t_log t) with
        | None => None
        | Some (k, logk) =>
            match refree (k - last) last (mk k logk (t_entry t) [] arr al (t_size t)) with
            | None => None
            | Some t => rebuild t
            end
        end
    end.
  (** pq_mergers.h 546-567, maybe_compact *)
  Definition maybe_compact (t : tree) : option tree :=
    let used := t_k t - length (t_free t) in
    let trigger := t_k t - 3 * t_k t / 5 in
    if Nat.ltb 1 (t_k t) &&
       (Nat.leb used trigger ||
        (Nat.eqb (t_k t) 4 && negb (match t_free t with [] => true | _ => false end) &&
         negb (is_array_empty t 3)))
    then compact_tree t else Some t.

  (** pq_mergers.h 696-697 and its repetitions *)
  Definition free_if_empty (t : tree) (i : nat) : option tree :=
    if is_array_empty t i && t_alloc t i then free_array t i else Some t.
  Fixpoint free_empties (n i : nat) (t : tree) : option tree :=
    match n with
    | 0 => Some t
    | S n' => match free_if_empty t i with None => None | Some t => free_empties n' (S i) t end
    end.

  (** pq_mergers.h 692-693 *)
  Fixpoint copy_n (n : nat) (l : list A) : option (list A * list A) :=
    match n with
    | 0 => Some ([], l)
    | S n' => match next l with
              | None => None
              | Some r => match copy_n n' r with
                          | None => None
                          | Some (out, r') => Some (deref l :: out, r') end
              end
    end.

  (** one comparison on the way up: pq_mergers.h 596-605 and the macro TreeStep 634-646 *)
  Definition tree_step (i : nat) (e : nat -> A * nat) (w : A * nat) : (A * nat) * (nat -> A * nat) :=
    if cmp (fst w) (fst (e i)) then (e i, upd e i w) else (w, e).
  (** pq_mergers.h 594-606: the node index [i] is halved *)
  Fixpoint path_k (fuel i : nat) (e : nat -> A * nat) (w : A * nat)
    : option ((A * nat) * (nat -> A * nat)) :=
    if Nat.eqb i 0 then Some (w, e) else
    match fuel with
    | 0 => None
    | S f => let (w, e) := tree_step i e w in path_k f (i / 2) e w
    end.
  (** pq_mergers.h 647-656: TreeStep(L) for L = LogK down to 1; the node index is computed from
      the present winner *)
  Fixpoint path_f (L LogK : nat) (e : nat -> A * nat) (w : A * nat)
    : (A * nat) * (nat -> A * nat) :=
    match L with
    | 0 => (w, e)
    | S L' =>
        let (w, e) := tree_step ((snd w + 2 ^ LogK) / 2 ^ (LogK - L + 1)) e w in
        path_f L' LogK e w
    end.
  (** the way up chosen by multi_merge: pq_mergers.h 740-757 *)
  Definition path (t : tree) (w : A * nat) : option ((A * nat) * (nat -> A * nat)) :=
    if Nat.leb (t_log t) 10 then Some (path_f (t_log t) (t_log t) (t_entry t) w)
    else path_k (S (t_log t)) ((snd w + t_k t) / 2) (t_entry t) w.

  (** pq_mergers.h 571-610 (multi_merge_k) and 613-661 (multi_merge_f): entry[0] is written at
      the end in the code; here the present winner is kept in entry[0] all the time *)
  Fixpoint merge_loop (n : nat) (t : tree) : option (list A * tree) :=
    match n with
    | 0 => Some ([], t)
    | S n' =>
        let w := snd (t_entry t 0) in
        let x := deref (t_arr t w) in
        match next (t_arr t w) with
        | None => None
        | Some r =>
            let t := with_arr t (upd (t_arr t) w r) in
            let key := deref r in
            match (if is_sentinel key then free_array t w else Some t) with
            | None => None
            | Some t =>
                match path t (key, w) with
                | None => None
                | Some (w', e) =>
                    match merge_loop n' (with_entry t (upd e 0 w')) with
                    | None => None
                    | Some (out, t) => Some (x :: out, t)
                    end
                end
            end
        end
    end.

  (** pq_mergers.h 667-763, multi_merge of loser_tree *)
  Definition tree_merge (n : nat) (t : tree) : option (list A * tree) :=
    if Nat.eqb n 0 then Some ([], t) else
    let res :=
      match t_log t with
      | 0 =>
          if Nat.eqb (t_k t) 1 && Nat.eqb (snd (t_entry t 0)) 0 &&
             match t_free t with [] => true | _ => false end then
            match copy_n n (t_arr t 0) with
            | None => None
            | Some (out, r) =>
                let t := with_arr t (upd (t_arr t) 0 r) in
                let t := with_entry t (upd (t_entry t) 0 (deref r, snd (t_entry t 0))) in
                match free_empties 1 0 t with None => None | Some t => Some (out, t) end
            end
          else None
      | 1 =>
          if Nat.eqb (t_k t) 2 then
            match merge2 n (t_arr t 0) (t_arr t 1) with
            | None => None
            | Some (out, (r0, r1)) =>
                match rebuild (with_arr t (upd (upd (t_arr t) 0 r0) 1 r1)) with
                | None => None
                | Some t => match free_empties 2 0 t with None => None | Some t => Some (out, t) end
                end
            end
          else None
      | 2 =>
          if Nat.eqb (t_k t) 4 then
            match (if is_array_empty t 3 then merge3 n (t_arr t) else merge4 n (t_arr t)) with
            | None => None
            | Some (out, arr) =>
                match rebuild (with_arr t arr) with
                | None => None
                | Some t => match free_empties 4 0 t with None => None | Some t => Some (out, t) end
                end
            end
          else None
      | _ => merge_loop n t
      end in
    match res with
    | None => None
    | Some (out, t) =>
        match maybe_compact t with None => None | Some t => Some (out, t) end
    end.

  (** pq_int_merger.h 249-260, pq_ext_merger.h 438-448: multi_merge of the mergers *)
  Definition multi_merge (n : nat) (t : tree) : option (list A * tree) :=
    if Nat.ltb (t_size t) n then None else
    match tree_merge n t with
    | None => None
    | Some (out, t) => Some (out, with_size t (t_size t - n))
    end.
End PqTree.

Arguments t_k {A}. Arguments t_log {A}. Arguments t_entry {A}. Arguments t_free {A}.
Arguments t_arr {A}. Arguments t_alloc {A}. Arguments t_size {A}. Arguments mk {A}.
Arguments with_entry {A}. Arguments with_free {A}. Arguments with_arr {A}. Arguments with_alloc {A}.
Arguments with_size {A}. Arguments next {A}.
