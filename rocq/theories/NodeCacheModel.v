(** Model of the cache for nodes and leaves of the B+-tree
    (/repo/include/stxxl/bits/containers/btree/node_cache.h) with its pager
    (/repo/include/stxxl/bits/containers/pager.h 65-104 [lru_pager]).

    Simplifications.
    - A node is its identifier [my_bid()] and its other content; a pointer to a node is
      the index of its place in [m_nodes].
    - Reading requests ([load], [prefetch]) are complete at once: nothing writes a block
      while it is read, because a block is at one place of the cache only.
    - [block_manager::new_block] gives an identifier chosen by an oracle; the external memory has
      an entry for each allocated block, [None] if nothing was written yet.
    - The hash map [m_bid2node] is an association list.
    - [None] is a failed assertion or an access without defined result. *)
From Coq Require Import List Bool Arith Lia.
Import ListNotations.

Notation "'do' x <- e ; f" := (match e with Some x => f | None => None end)
  (at level 200, x pattern, e at level 100, f at level 200, right associativity).

Definition nset {A} (l : list A) (i : nat) (x : A) : list A := firstn i l ++ x :: skipn (S i) l.
Fixpoint aget {A} (l : list (nat * A)) (k : nat) : option A :=
  match l with [] => None | (k', x) :: l' => if k =? k' then Some x else aget l' k end.
Definition adel {A} (l : list (nat * A)) (k : nat) : list (nat * A) := filter (fun e => negb (fst e =? k)) l.
Definition aput {A} (l : list (nat * A)) (k : nat) (x : A) : list (nat * A) := (k, x) :: adel l k.

Section Cache.
  Variable D : Type.
  (** Content after [init] (leaf.h 257-263, node.h 290-296). *)
  Variable dinit : D.
  Notation blk := (nat * D)%type.
  Notation disk := (list (nat * option blk)).

  (** node_cache.h 92-98. *)
  Inductive counter := NFound | NNotFound | NCreated | NDeleted | NRead | NWritten | NCleanForced.
  Scheme Equality for counter.
  Definition bump (s : counter -> nat) (k : counter) : counter -> nat := fun x => if counter_beq x k then S (s x) else s x.

  (** node_cache.h 79-91; [hist] is the list [history] of the pager, the most recently used place first. *)
  Record cache := { nodes : list blk; fixed : list bool; dirty : list bool; freel : list nat; b2n : list (nat * nat);
                    hist : list nat; st : counter -> nat }.
  Definition set_nodes (c : cache) x := {| nodes := x; fixed := fixed c; dirty := dirty c; freel := freel c; b2n := b2n c; hist := hist c; st := st c |}.
  Definition set_fixed (c : cache) x := {| nodes := nodes c; fixed := x; dirty := dirty c; freel := freel c; b2n := b2n c; hist := hist c; st := st c |}.
  Definition set_dirty (c : cache) x := {| nodes := nodes c; fixed := fixed c; dirty := x; freel := freel c; b2n := b2n c; hist := hist c; st := st c |}.
  Definition set_freel (c : cache) x := {| nodes := nodes c; fixed := fixed c; dirty := dirty c; freel := x; b2n := b2n c; hist := hist c; st := st c |}.
  Definition set_b2n (c : cache) x := {| nodes := nodes c; fixed := fixed c; dirty := dirty c; freel := freel c; b2n := x; hist := hist c; st := st c |}.
  Definition set_hist (c : cache) x := {| nodes := nodes c; fixed := fixed c; dirty := dirty c; freel := freel c; b2n := b2n c; hist := x; st := st c |}.
  Definition count (c : cache) k := {| nodes := nodes c; fixed := fixed c; dirty := dirty c; freel := freel c; b2n := b2n c; hist := hist c; st := bump (st c) k |}.

  (** node_cache.h 112-146, pager.h 78-82.  The new nodes have no content; [freel] is a stack
      with its top first. *)
  Definition init (n : nat) : option cache :=
    if n <? 3 then None
    else Some {| nodes := repeat (0, dinit) n; fixed := repeat false n; dirty := repeat true n; freel := rev (seq 0 n);
                 b2n := []; hist := seq 0 n; st := fun _ => 0 |}.
  Definition size (c : cache) : nat := length (nodes c).

  (** pager.h 84-93 [kick], [hit]. *)
  Definition kick (h : list nat) : option nat := match rev h with [] => None | k :: _ => Some k end.
  Definition hit (h : list nat) (i : nat) : list nat := i :: remove Nat.eq_dec i h.

  (** node_cache.h 195-210: the loop looking for a place which is not fixed; [tries] is
      [max_tries - 1 - i]. *)
  Fixpoint kick_loop (tries : nat) (c : cache) : option (cache * option nat) :=
    match tries with
    | 0 => Some (c, None)
    | S t =>
      do k <- kick (hist c);
      let c' := set_hist c (hit (hist c) k) in
      do f <- nth_error (fixed c) k;
      if f then kick_loop t c' else Some (c', Some k)
    end.

  Definition save (d : disk) (x : blk) : option disk := do _ <- aget d (fst x); Some (aput d (fst x) (Some x)).
  (** [load] with its assertion (leaf.h 244-250, node.h 277-283). *)
  Definition load (d : disk) (b : nat) : option blk :=
    do o <- aget d b; do x <- o; if fst x =? b then Some x else None.

  (** node_cache.h 190-225, 289-321, 382-413, 483-514: a place is made free.  [None] as the place: the cache
      is too small.  [chk]: the assertion in line 224. *)
  Definition make_room (chk : bool) (c : cache) (d : disk) : option (cache * disk * option nat) :=
    do r <- kick_loop (size c) c;
    match snd r with
    | None => Some (fst r, d, None)
    | Some k =>
      do x <- nth_error (nodes c) k;
      do dt <- nth_error (dirty c) k;
      do d' <- (if dt then save d x else Some d);
      let c1 := count (fst r) (if dt then NWritten else NCleanForced) in
      do _ <- (if chk then aget (b2n c1) (fst x) else Some 0);
      Some (set_b2n c1 (adel (b2n c1) (fst x)), d', Some k)
    end.
  (** Either a free place (node_cache.h 242-253, 336-345, ...) or one that is made free. *)
  Definition get_room (chk : bool) (c : cache) (d : disk) : option (cache * disk * option nat) :=
    match freel c with
    | [] => make_room chk c d
    | k :: l =>
      do f <- nth_error (fixed c) k;
      if f then None else Some (set_hist (set_freel c l) (hit (hist c) k), d, Some k)
    end.
  Definition full (c : cache) : bool := size c =? length (b2n c) + length (freel c).

  (** node_cache.h 186-262 [get_new_node]; [b] is the new identifier. *)
  Definition get_new_node (c : cache) (d : disk) (b : nat) : option (cache * disk * option nat) :=
    let c0 := count c NCreated in
    do r <- get_room true c0 d;
    let '(c1, d1, o) := r in
    match o with
    | None => Some (c1, d1, None)
    | Some k =>
      match aget d1 b with Some _ => None | None =>
      let c2 := set_b2n c1 (aput (b2n c1) b k) in
      let c3 := set_dirty (set_nodes c2 (nset (nodes c2) k (b, dinit))) (nset (dirty c2) k true) in
      if full c3 then Some (c3, aput d1 b None, Some k) else None
      end
    end.

  (** Putting block [b] into a place. *)
  Definition place (c : cache) (d : disk) (b : nat) (fx wr : bool) : option (cache * disk * option nat) :=
    do r <- get_room false c d;
    let '(c1, d1, o) := r in
    match o with
    | None => Some (c1, d1, None)
    | Some k =>
      do x <- load d1 b;
      let c2 := set_b2n (set_nodes c1 (nset (nodes c1) k x)) (aput (b2n c1) b k) in
      let c3 := set_dirty (set_fixed c2 (nset (fixed c2) k fx)) (nset (dirty c2) k wr) in
      if full c3 then Some (c3, d1, Some k) else None
    end.
  (** node_cache.h 264-356 [get_node] ([wr]) and 358-448 [get_const_node] (not [wr]). *)
  Definition get_node (c : cache) (d : disk) (b : nat) (fx wr : bool) : option (cache * disk * option nat) :=
    let c0 := count c NRead in
    match aget (b2n c0) b with
    | Some k =>
      let c1 := set_hist (set_fixed c0 (nset (fixed c0) k fx)) (hit (hist c0) k) in
      let c2 := if wr then set_dirty c1 (nset (dirty c1) k true) else c1 in
      Some (count c2 NFound, d, Some k)
    | None => place (count c0 NNotFound) d b fx wr
    end.
  (** node_cache.h 477-551 [prefetch_node]. *)
  Definition prefetch_node (c : cache) (d : disk) (b : nat) : option (cache * disk) :=
    match aget (b2n c) b with
    | Some _ => Some (c, d)
    | None => do r <- place c d b false false; Some (fst r)
    end.
  (** node_cache.h 450-475 [delete_node]. *)
  Definition delete_node (c : cache) (d : disk) (b : nat) : option (cache * disk) :=
    let c1 := match aget (b2n c) b with
              | Some k => set_fixed (set_b2n (set_freel c (k :: freel c)) (adel (b2n c) b)) (nset (fixed c) k false)
              | None => c
              end in
    do _ <- aget d b;
    Some (count c1 NDeleted, adel d b).
  (** node_cache.h 553-558 [unfix_node]. *)
  Definition unfix_node (c : cache) (b : nat) : option cache :=
    do k <- aget (b2n c) b; Some (set_fixed c (nset (fixed c) k false)).
  (** node_cache.h 168-184, the destructor. *)
  Fixpoint save_all (l : list (nat * nat)) (c : cache) (d : disk) : option disk :=
    match l with
    | [] => Some d
    | (_, k) :: l' =>
      do x <- nth_error (nodes c) k;
      do dt <- nth_error (dirty c) k;
      do d' <- (if dt then save d x else Some d);
      save_all l' c d'
    end.
  Definition destroy (c : cache) (d : disk) : option disk := save_all (b2n c) c d.

  (** node_cache.h 560-579 [swap] of [this] and [obj]; [m_dirty] is not exchanged, and [n_not_found] is
      exchanged with [n_found] of the other cache. *)
  Definition swap (a b : cache) : cache * cache :=
    ({| nodes := nodes b; fixed := fixed b; dirty := dirty a; freel := freel b; b2n := b2n b; hist := hist b;
        st := fun k => match k with NNotFound => st a NFound | _ => st b k end |},
     {| nodes := nodes a; fixed := fixed a; dirty := dirty b; freel := freel a; b2n := b2n a; hist := hist a;
        st := fun k => match k with NFound => st a NNotFound | NNotFound => st b NNotFound | _ => st a k end |}).

  (** ** Programs *)
  Inductive op :=
  | ONew (b : nat) | OGet (b : nat) (fx : bool) | OGetConst (b : nat) (fx : bool)
  | ORead (p : nat) | OWrite (p : nat) (x : D)
  | ODelete (b : nat) | OPrefetch (b : nat) | OUnfix (b : nat).
  (** Result: the node behind a pointer, or a null pointer. *)
  Inductive res := RUnit | RNode (x : blk) | RNull.
  (** Pointers are numbered in the order in which they were obtained. *)
  Record state := { ca : cache; di : disk; ptrs : list nat }.

  Definition got (s : state) (r : option (cache * disk * option nat)) : option (state * res) :=
    do x <- r;
    let '(c, d, o) := x in
    match o with
    | Some k => Some ({| ca := c; di := d; ptrs := ptrs s ++ [k] |}, RUnit)
    | None => Some ({| ca := c; di := d; ptrs := ptrs s |}, RNull)
    end.
  Definition step (s : state) (o : op) : option (state * res) :=
    match o with
    | ONew b => got s (get_new_node (ca s) (di s) b)
    | OGet b fx => got s (get_node (ca s) (di s) b fx true)
    | OGetConst b fx => got s (get_node (ca s) (di s) b fx false)
    | ORead p => do k <- nth_error (ptrs s) p; do x <- nth_error (nodes (ca s)) k; Some (s, RNode x)
    | OWrite p v =>
      do k <- nth_error (ptrs s) p;
      do x <- nth_error (nodes (ca s)) k;
      Some ({| ca := set_nodes (ca s) (nset (nodes (ca s)) k (fst x, v)); di := di s; ptrs := ptrs s |}, RUnit)
    | ODelete b => do r <- delete_node (ca s) (di s) b; Some ({| ca := fst r; di := snd r; ptrs := ptrs s |}, RUnit)
    | OPrefetch b => do r <- prefetch_node (ca s) (di s) b; Some ({| ca := fst r; di := snd r; ptrs := ptrs s |}, RUnit)
    | OUnfix b => do c <- unfix_node (ca s) b; Some ({| ca := c; di := di s; ptrs := ptrs s |}, RUnit)
    end.
  Fixpoint run (s : state) (os : list op) : option (state * list res) :=
    match os with
    | [] => Some (s, [])
    | o :: os' => do x <- step s o; do y <- run (fst x) os'; Some (fst y, snd x :: snd y)
    end.
End Cache.
