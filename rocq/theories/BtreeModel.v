(** Model of the external B+-tree of /repo/include/stxxl/bits/containers/btree/
    (btree.h, node.h, leaf.h, iterator.h, iterator_map.h), the implementation of stxxl::map.

    Leaves are blocks in a store, found by their identifiers; they are linked to their
    neighbours.  An iterator is the identifier of a leaf and a position; all
    iterators of a tree are registered and corrected when elements move.

    Simplifications.
    - The caches are transparent (get_node gives the block with that identifier); the
      number of nodes in the node cache only limits the height.
    - An inner node is part of its parent instead of a block of its own.
    - Iterators of the program live forever; those inside an operation are removed at
      its end.  The first iterator is [m_end_iterator].
    - [std::lower_bound] and [std::upper_bound] are their contracts for sorted ranges, a
      [std::map] is a sorted list.
    - [None] is a failed assertion, an exception, or an access without defined result.
    - Sizes do not overflow. *)
From Coq Require Import List Bool Arith Lia.
Import ListNotations.

Notation "'do' x <- e ; f" := (match e with Some x => f | None => None end)
  (at level 200, x pattern, e at level 100, f at level 200, right associativity).

Definition lset {A} (l : list A) (i : nat) (x : A) : list A := firstn i l ++ x :: skipn (S i) l.
Definition lins {A} (l : list A) (i : nat) (x : A) : list A := firstn i l ++ x :: skipn i l.
Definition lrem {A} (l : list A) (i : nat) : list A := firstn i l ++ skipn (S i) l.
(** Number of leading elements with a property. *)
Fixpoint lead {A} (p : A -> bool) (l : list A) : nat :=
  match l with
  | [] => 0
  | x :: l' => if p x then S (lead p l') else 0
  end.

Section Btree.
  Context {K V : Type}.
  Notation E := (K * V)%type.
  (** Comparator, [operator==] of keys, [key_compare::max_value()], [data_type()]. *)
  Variable cmp : K -> K -> bool.
  Variable keqb : K -> K -> bool.
  Variable kmax : K.
  Variable vdef : V.
  (** [max_size] of leaves and nodes; [min_size] is half of it (leaf.h 53-57, node.h 53-57). *)
  Variable lmax nmax : nat.
  Definition lmin : nat := lmax / 2.
  Definition nmin : nat := nmax / 2.
  (** [m_node_cache.size()]. *)
  Variable ncap : nat.

  Definition eqv (a b : K) : bool := negb (cmp a b || cmp b a).

  (** leaf.h 44-48: data, pred, succ. *)
  Record leaf := { ld : list E; lp : option nat; ln : option nat }.
  Notation store := (list (nat * leaf)).
  Notation iter := (nat * nat)%type.

  Fixpoint lget (s : store) (b : nat) : option leaf :=
    match s with
    | [] => None
    | (b', l) :: s' => if b =? b' then Some l else lget s' b
    end.
  Definition ldel (s : store) (b : nat) : store := filter (fun x => negb (fst x =? b)) s.
  Definition lput (s : store) (b : nat) (l : leaf) : store := (b, l) :: ldel s b.
  (** [block_manager::new_block]: an identifier that is not in use. *)
  Variable alloc : store -> nat.

  Inductive tree := Leaf (b : nat) | Node (l : list (K * tree)).

  Definition lower {A} (l : list (K * A)) (k : K) : nat := lead (fun e => cmp (fst e) k) l.
  Definition upper {A} (l : list (K * A)) (k : K) : nat := lead (fun e => negb (cmp k (fst e))) l.
  Definition last_key {A} (l : list (K * A)) : option K := do e <- nth_error l (length l - 1); Some (fst e).
  Definition first_key {A} (l : list (K * A)) : option K := do e <- nth_error l 0; Some (fst e).
  (** [m_vcmp(left.back(), right.front())]. *)
  Definition in_order {A} (l r : list (K * A)) : bool :=
    match last_key l, first_key r with Some a, Some b => cmp a b | _, _ => false end.

  (** iterator_map.h 124-140 [find] with the correction of what was found. *)
  Definition fix_its (its : list iter) (b first last : nat) (f : nat -> iter) : list iter :=
    map (fun it => if (fst it =? b) && (first <=? snd it) && (snd it <=? last) then f (snd it) else it) its.

  Definition set_ld (l : leaf) (d : list E) : leaf := {| ld := d; lp := lp l; ln := ln l |}.
  Definition set_lp (l : leaf) (p : option nat) : leaf := {| ld := ld l; lp := p; ln := ln l |}.
  Definition set_ln (l : leaf) (n : option nat) : leaf := {| ld := ld l; lp := lp l; ln := n |}.

  (** ** Leaves *)

  (** leaf.h 87-158 [split]; the splitter is the key and the new leaf. *)
  Definition leaf_split (s : store) (its : list iter) (b : nat) : option (store * list iter * (K * option nat)) :=
    do l <- lget s b;
    let nb := alloc s in
    do s1 <- match lp l with
             | None => Some s
             | Some p => do pl <- lget s p;
                         if in_order (ld pl) (ld l) then Some (lput s p (set_ln pl (Some nb))) else None
             end;
    let half := length (ld l) / 2 in
    do e <- nth_error (ld l) (half - 1);
    let s2 := lput s1 nb {| ld := firstn half (ld l); lp := lp l; ln := Some b |} in
    let s3 := lput s2 b {| ld := skipn half (ld l); lp := Some nb; ln := ln l |} in
    Some (s3, fix_its its b 0 (length (ld l)) (fun p => if p <? half then (nb, p) else (b, p - half)), (fst e, Some nb)).

  (** leaf.h 302-354 [insert]; the splitter key is [max_value] if there was no split. *)
  Definition leaf_insert (s : store) (its : list iter) (b : nat) (x : E)
    : option (store * list iter * (K * option nat) * bool) :=
    do l <- lget s b;
    if length (ld l) <=? lmax then
      let p := lower (ld l) (fst x) in
      if match nth_error (ld l) p with Some e => eqv (fst e) (fst x) | None => false end
      then Some (s, its ++ [(b, p)], (kmax, None), false)
      else
        let d := lins (ld l) p x in
        let its1 := fix_its its b p (length (ld l)) (fun q => (b, S q)) ++ [(b, p)] in
        let s1 := lput s b (set_ld l d) in
        if length d <=? lmax then Some (s1, its1, (kmax, None), true)
        else do r <- leaf_split s1 its1 b; Some (r, true)
    else None.

  (** leaf.h 506-533 [erase]. *)
  Definition leaf_erase (s : store) (its : list iter) (b : nat) (k : K) : option (store * list iter * bool) :=
    do l <- lget s b;
    let p := lower (ld l) k in
    if match nth_error (ld l) p with Some e => keqb (fst e) k | None => false end
    then Some (lput s b (set_ld l (lrem (ld l) p)), fix_its its b (p + 1) (length (ld l)) (fun q => (b, q - 1)), true)
    else Some (s, its, false).

  (** leaf.h 535-584 [fuse] of the left leaf into the right one, and [delete_node] of the left one. *)
  Definition leaf_fuse (s : store) (its : list iter) (bl br : nat) : option (store * list iter) :=
    do l <- lget s bl;
    do r <- lget s br;
    if in_order (ld l) (ld r) then
      let n := length (ld l) in
      let its1 := fix_its its br 0 (length (ld r)) (fun q => (br, q + n)) in
      let its2 := fix_its its1 bl 0 n (fun q => (br, q)) in
      let s1 := lput s br {| ld := ld l ++ ld r; lp := lp l; ln := ln r |} in
      do s2 <- match lp l with
               | None => Some s1
               | Some p => do pl <- lget s1 p; Some (lput s1 p (set_ln pl (Some br)))
               end;
      Some (ldel s2 bl, its2)
    else None.

  (** leaf.h 586-686 [balance]; the result is the new splitter. *)
  Definition leaf_balance (s : store) (its : list iter) (bl br : nat) : option (store * list iter * K) :=
    do l <- lget s bl;
    do r <- lget s br;
    let nl := (length (ld l) + length (ld r)) / 2 in
    let nr := length (ld l) + length (ld r) - nl in
    if (nl <=? lmax) && (lmin <=? nl) && (nr <=? lmax) && (lmin <=? nr)
       && (in_order (ld l) (ld r) || (length (ld r) =? 0)) then
      do x <- (if nl <? length (ld l) then
                 let mv := length (ld l) - nl in
                 Some (firstn nl (ld l), skipn nl (ld l) ++ ld r,
                       (* both sets of iterators are determined before either is corrected *)
                       map (fun it => if (fst it =? br) && (snd it <=? length (ld r)) then (br, snd it + mv)
                                      else if (fst it =? bl) && (nl <=? snd it) && (snd it <=? length (ld l)) then (br, snd it - nl)
                                      else it) its)
               else if nr <? length (ld r) then
                 let mv := length (ld r) - nr in
                 Some (ld l ++ firstn mv (ld r), skipn mv (ld r),
                       map (fun it => if (fst it =? br) && (mv <=? snd it) && (snd it <=? length (ld r)) then (br, snd it - mv)
                                      else if (fst it =? br) && (snd it <=? mv - 1) then (bl, snd it + length (ld l))
                                      else it) its)
               else None);
      let '(dl, dr, its1) := x in
      do k <- last_key dl;
      Some (lput (lput s bl (set_ld l dl)) br (set_ld r dr), its1, k)
    else None.

  (** ** Nodes *)

  (** Splitting the entries of a full node (node.h 108-136, btree.h 112-145). *)
  Definition node_split (l : list (K * tree)) : option (list (K * tree) * list (K * tree) * K) :=
    let half := length l / 2 in
    do e <- nth_error l (half - 1);
    Some (firstn half l, skipn half l, fst e).

  (** node.h 91-139 [insert] of a splitter. *)
  Definition node_insert (l : list (K * tree)) (k : K) (t : tree) (i : nat) : option (list (K * tree) * (K * option tree)) :=
    do e <- nth_error l i;
    if cmp (fst e) k || cmp k (fst e) then
      let l' := lins l i (k, t) in
      if length l' <=? nmax then Some (l', (kmax, None))
      else do x <- node_split l'; let '(a, c, k') := x in Some (c, (k', Some (Node a)))
    else None.

  (** node.h 318-372 [insert]; [h] is [height - 2]. *)
  Fixpoint tree_insert (h : nat) (t : tree) (s : store) (its : list iter) (x : E)
    : option (store * list iter * tree * (K * option tree) * bool) :=
    match h, t with
    | 0, Leaf b =>
      do r <- leaf_insert s its b x;
      let '(s', its', sp, fl) := r in
      Some (s', its', t, (fst sp, match snd sp with Some nb => Some (Leaf nb) | None => None end), fl)
    | S h', Node l =>
      if length l <=? nmax then
        let i := lower l (fst x) in
        do e <- nth_error l i;
        do r <- tree_insert h' (snd e) s its x;
        let '(s', its', c, sp, fl) := r in
        let l1 := lset l i (fst e, c) in
        if eqv kmax (fst sp) then Some (s', its', Node l1, (kmax, None), fl)
        else do t2 <- snd sp;
             do y <- node_insert l1 (fst sp) t2 i;
             Some (s', its', Node (fst y), snd y, fl)
      else None
    | _, _ => None
    end.

  (** node.h 611-627 [fuse]. *)
  Definition node_fuse (l r : list (K * tree)) : option (list (K * tree)) := if in_order l r then Some (l ++ r) else None.
  (** node.h 629-676 [balance]. *)
  Definition node_balance (l r : list (K * tree)) (check : bool) : option (list (K * tree) * list (K * tree) * K) :=
    let nl := (length l + length r) / 2 in
    let nr := length l + length r - nl in
    if (negb check || (nl <=? nmax) && (nmin <=? nl) && (nr <=? nmax) && (nmin <=? nr))
       && (in_order l r || (length r =? 0)) then
      do x <- (if nl <? length l then Some (firstn nl l, skipn nl l ++ r)
               else if nr <? length r then
                 let mv := length r - nr in Some (l ++ firstn mv r, skipn mv r)
               else None);
      do k <- last_key (fst x);
      Some (fst x, snd x, k)
    else None.

  Definition tsize (s : store) (t : tree) : option nat :=
    match t with Leaf b => do l <- lget s b; Some (length (ld l)) | Node l => Some (length l) end.
  Definition tmin (t : tree) : nat := match t with Leaf _ => lmin | Node _ => nmin end.
  Definition underflows (s : store) (t : tree) : option bool := do n <- tsize s t; Some (n <? tmin t).

  (** Fusing or balancing two neighbours: [inl] of the right one, or [inr] of both and the splitter
      (node.h 161-196, btree.h 187-221). *)
  Definition fob (s : store) (its : list iter) (tl tr : tree) : option (store * list iter * (tree + tree * tree * K)) :=
    match tl, tr with
    | Leaf bl, Leaf br =>
      do l <- lget s bl;
      do r <- lget s br;
      if length (ld l) + length (ld r) <=? lmax
      then do x <- leaf_fuse s its bl br; Some (fst x, snd x, inl tr)
      else do x <- leaf_balance s its bl br; Some (fst x, inr (tl, tr, snd x))
    | Node l, Node r =>
      if length l + length r <=? nmax
      then do x <- node_fuse l r; Some (s, its, inl (Node x))
      else do x <- node_balance l r true; let '(a, c, k) := x in Some (s, its, inr (Node a, Node c, k))
    | _, _ => None
    end.

  (** node.h 141-197 [fuse_or_balance]. *)
  Definition node_fob (s : store) (its : list iter) (l : list (K * tree)) (i : nat) : option (store * list iter * list (K * tree)) :=
    let j := if i =? length l - 1 then i - 1 else i in
    if (i =? length l - 1) && (i =? 0) then None else
    do el <- nth_error l j;
    do er <- nth_error l (S j);
    do x <- fob s its (snd el) (snd er);
    let '(s', its', y) := x in
    match y with
    | inl tr => Some (s', its', lset (lrem l j) j (fst er, tr))
    | inr (tl, tr, k) =>
      if cmp k (fst er) then Some (s', its', lset (lset l j (k, tl)) (S j) (fst er, tr)) else None
    end.

  (** node.h 678-722 [erase]. *)
  Fixpoint tree_erase (h : nat) (t : tree) (s : store) (its : list iter) (k : K) : option (store * list iter * tree * bool) :=
    match h, t with
    | 0, Leaf b => do r <- leaf_erase s its b k; let '(s', its', fl) := r in Some (s', its', t, fl)
    | S h', Node l =>
      let i := lower l k in
      do e <- nth_error l i;
      if 2 <=? length l then
        do r <- tree_erase h' (snd e) s its k;
        let '(s', its', c, fl) := r in
        let l1 := lset l i (fst e, c) in
        do u <- underflows s' c;
        if u then do y <- node_fob s' its' l1 i; let '(s2, its2, l2) := y in Some (s2, its2, Node l2, fl)
        else Some (s', its', Node l1, fl)
      else None
    | _, _ => None
    end.

  (** ** The tree (btree.h) *)

  Record core := { lv : store; its : list iter; root : list (K * tree); ht : nat; sz : nat }.

  (** [std::map::insert]; nothing happens if the key is present. *)
  Definition map_insert (l : list (K * tree)) (k : K) (t : tree) : list (K * tree) * bool :=
    let i := lower l k in
    if match nth_error l i with Some e => eqv (fst e) k | None => false end then (l, false) else (lins l i (k, t), true).

  (** btree.h 106-164 [insert_into_root]: new root and height. *)
  Definition root_insert (l : list (K * tree)) (h : nat) (k : K) (t : tree) : option (list (K * tree) * nat) :=
    let x := map_insert l k t in
    if snd x then
      if length (fst x) <=? nmax then Some (fst x, h)
      else do y <- node_split (fst x);
           let '(a, c, kl) := y in
           do kr <- last_key c;
           let r := fst (map_insert (fst (map_insert [] kl (Node a))) kr (Node c)) in
           if ncap <? S h + 1 then None else Some (r, S h)
    else None.

  (** btree.h 500-556 [insert]. *)
  Definition insert (c : core) (x : E) : option (core * bool) :=
    let i := lower (root c) (fst x) in
    do e <- nth_error (root c) i;
    do r <- tree_insert (ht c) (snd e) (lv c) (its c) x;
    let '(s', its', t, sp, fl) := r in
    let l1 := lset (root c) i (fst e, t) in
    let n := if fl then S (sz c) else sz c in
    if eqv kmax (fst sp) then Some ({| lv := s'; its := its'; root := l1; ht := ht c; sz := n |}, fl)
    else do t2 <- snd sp;
         do y <- root_insert l1 (ht c) (fst sp) t2;
         Some ({| lv := s'; its := its'; root := fst y; ht := snd y; sz := n |}, fl).

  (** btree.h 166-223 [fuse_or_balance]. *)
  Definition root_fob (s : store) (its : list iter) (l : list (K * tree)) (i : nat) : option (store * list iter * list (K * tree)) :=
    do u <- nth_error l i;
    let last := keqb (fst u) kmax in
    let j := if last then i - 1 else i in
    if last && (i =? 0) then None else
    do el <- nth_error l j;
    do er <- nth_error l (S j);
    do x <- fob s its (snd el) (snd er);
    let '(s', its', y) := x in
    match y with
    | inl tr => Some (s', its', lset (lrem l j) j (fst er, tr))
    | inr (tl, tr, k) => Some (s', its', fst (map_insert (lset (lrem l j) j (fst er, tr)) k tl))
    end.

  (** btree.h 850-919 [erase] of a key. *)
  Definition erase (c : core) (k : K) : option (core * bool) :=
    let i := lower (root c) k in
    do e <- nth_error (root c) i;
    if (ht c =? 0) || (2 <=? length (root c)) then
      do r <- tree_erase (ht c) (snd e) (lv c) (its c) k;
      let '(s', its', t, fl) := r in
      let l1 := lset (root c) i (fst e, t) in
      let n := if fl then sz c - 1 else sz c in
      do u <- underflows s' t;
      if negb u || (ht c =? 0) && (length (root c) =? 1)
      then Some ({| lv := s'; its := its'; root := l1; ht := ht c; sz := n |}, fl)
      else
        do y <- root_fob s' its' l1 i;
        let '(s2, its2, l2) := y in
        match ht c, l2 with
        | S h', [(k1, Node l3)] =>
          if keqb k1 kmax && match last_key l3 with Some k3 => keqb k3 kmax | None => false end
          then Some ({| lv := s2; its := its2; root := fold_left (fun m e => fst (map_insert m (fst e) (snd e))) l3 [];
                        ht := h'; sz := n |}, fl)
          else None
        | S _, [_] => None
        | _, _ => Some ({| lv := s2; its := its2; root := l2; ht := ht c; sz := n |}, fl)
        end
    else None.

  (** The way to a leaf: the entry behind those with property [p] (lower or upper bound of a key). *)
  Fixpoint descend (p : K -> bool) (h : nat) (t : tree) : option nat :=
    match h, t with
    | 0, Leaf b => Some b
    | S h', Node l => do e <- nth_error l (lead (fun e => p (fst e)) l); descend p h' (snd e)
    | _, _ => None
    end.
  Definition to_leaf (p : K -> bool) (c : core) : option nat :=
    do e <- nth_error (root c) (lead (fun e => p (fst e)) (root c)); descend p (ht c) (snd e).

  Definition end_it (c : core) : option iter := nth_error (its c) 0.
  (** btree.h 628-657, node.h 418-448, leaf.h 423-432 [find]. *)
  Definition find (c : core) (k : K) : option iter :=
    do b <- to_leaf (fun a => cmp a k) c;
    do l <- lget (lv c) b;
    let p := lower (ld l) k in
    if match nth_error (ld l) p with Some e => keqb (fst e) k | None => false end then Some (b, p) else end_it c.
  (** leaf.h 452-458, 482-488: a position in the leaf, or the start of the next leaf. *)
  Definition norm (b : nat) (l : leaf) (p : nat) : iter :=
    match ln l with
    | Some b' => if p =? length (ld l) then (b', 0) else (b, p)
    | None => (b, p)
    end.
  (** btree.h 690-717, node.h 483-513, leaf.h 445-459 [lower_bound]. *)
  Definition lower_bound (c : core) (k : K) : option iter :=
    do b <- to_leaf (fun a => cmp a k) c;
    do l <- lget (lv c) b;
    Some (norm b l (lower (ld l) k)).
  (** btree.h 749-777, node.h 547-577, leaf.h 476-489 [upper_bound]. *)
  Definition upper_bound (c : core) (k : K) : option iter :=
    do b <- to_leaf (fun a => negb (cmp k a)) c;
    do l <- lget (lv c) b;
    Some (norm b l (upper (ld l) k)).
  (** btree.h 558-585, node.h 374-394 [begin]. *)
  Fixpoint first_leaf (h : nat) (t : tree) : option nat :=
    match h, t with
    | 0, Leaf b => Some b
    | S h', Node l => if negb (h' =? 0) || (1 <? length l) then do e <- nth_error l 0; first_leaf h' (snd e) else None
    | _, _ => None
    end.
  Definition begin (c : core) : option iter :=
    do e <- nth_error (root c) 0;
    do b <- first_leaf (ht c) (snd e);
    do l <- lget (lv c) b;
    Some (b, 0).

  Definition it_eqb (a b : iter) : bool := (fst a =? fst b) && (snd a =? snd b).
  (** leaf.h 371-394 [increment_iterator], iterator.h 140-149, 224-229 [operator++]. *)
  Definition incr (c : core) (it : iter) : option iter :=
    do e <- end_it c;
    if it_eqb it e then None else
    do l <- lget (lv c) (fst it);
    if snd it =? length (ld l) then None else
    match ln l with
    | Some b' => if S (snd it) =? length (ld l) then Some (b', 0) else Some (fst it, S (snd it))
    | None => Some (fst it, S (snd it))
    end.
  (** leaf.h 396-421 [decrement_iterator]. *)
  Definition decr (c : core) (it : iter) : option iter :=
    do l <- lget (lv c) (fst it);
    match snd it with
    | 0 => do p <- lp l; do pl <- lget (lv c) p;
           if length (ld pl) =? 0 then None else Some (p, length (ld pl) - 1)
    | S q => Some (fst it, q)
    end.
  (** iterator.h 114-120, 204-207 [operator *]. *)
  Definition deref (c : core) (it : iter) : option E := do l <- lget (lv c) (fst it); nth_error (ld l) (snd it).
  Definition assign (c : core) (it : iter) (v : V) : option core :=
    do l <- lget (lv c) (fst it);
    do e <- nth_error (ld l) (snd it);
    Some {| lv := lput (lv c) (fst it) (set_ld l (lset (ld l) (snd it) (fst e, v)));
            its := its c; root := root c; ht := ht c; sz := sz c |}.

  Definition set_its (c : core) (l : list iter) : core :=
    {| lv := lv c; its := l; root := root c; ht := ht c; sz := sz c |}.
  Definition new_it (c : core) (it : iter) : core := set_its c (its c ++ [it]).

  (** btree.h 236-260, node.h 724-748 [deallocate_children]. *)
  Fixpoint dealloc (h : nat) (t : tree) (s : store) : option store :=
    match h, t with
    | 0, Leaf b => Some (ldel s b)
    | S h', Node l => fold_left (fun a e => do s' <- a; dealloc h' (snd e) s') l (Some s)
    | _, _ => None
    end.
  (** btree.h 225-234 [create_empty_leaf]. *)
  Definition create_empty (s : store) (its : list iter) : core :=
    let nb := alloc s in
    {| lv := lput s nb {| ld := []; lp := None; ln := None |}; its := lset its 0 (nb, 0);
       root := [(kmax, Leaf nb)]; ht := 0; sz := 0 |}.
  Definition empty : core := create_empty [] [(0, 0)].
  (** btree.h 947-959 [clear]. *)
  Definition clear (c : core) : option core :=
    do s <- fold_left (fun a e => do s' <- a; dealloc (ht c) (snd e) s') (root c) (Some (lv c));
    Some (create_empty s (its c)).

  (** btree.h 929-939 [erase] of an iterator. *)
  Definition erase_it (c : core) (it : iter) : option core :=
    do e <- end_it c;
    if it_eqb it e then None else
    do x <- deref c it;
    do r <- erase c (fst x);
    if snd r then Some (fst r) else None.
  (** btree.h 1040-1047 [erase] of a range; the arguments are the last two iterators. *)
  Fixpoint erase_loop (fuel : nat) (c : core) (i : nat) : option core :=
    do a <- nth_error (its c) i;
    do b <- nth_error (its c) (S i);
    if it_eqb a b then Some c else
    match fuel with
    | 0 => None
    | S f =>
      do a' <- incr c a;
      do c' <- erase_it (set_its c (lset (its c) i a')) a;
      erase_loop f c' i
    end.
  Definition erase_range (c : core) (a b : iter) : option core :=
    do e <- end_it c;
    do f <- begin c;
    let n := length (its c) in
    do c' <- (if it_eqb a f && it_eqb b e then clear c
              else erase_loop (S (sz c)) (set_its c (its c ++ [a; b])) n);
    Some (set_its c' (firstn n (its c'))).

  (** btree.h 809-829 [equal_range]. *)
  Definition equal_range (c : core) (k : K) : option (iter * iter) :=
    do l <- lower_bound c k;
    do e <- end_it c;
    if it_eqb l e then Some (l, l) else
    do x <- deref c l;
    if cmp k (fst x) then Some (l, l) else do u <- incr c l; Some (l, u).

  (** ** Histories: iterators of the program are numbered in the order of their creation. *)
  Inductive op :=
  | OInsert (k : K) (v : V)
  | OIndex (k : K)
  | OIndexSet (k : K) (v : V)
  | OInsertRange (l : list E)
  | OFind (k : K) | OLower (k : K) | OUpper (k : K) | OBegin | OEnd
  | OEqualRange (k : K)
  | OCount (k : K)
  | OInc (i : nat) | ODec (i : nat)
  | OGet (i : nat)
  | OSet (i : nat) (v : V)
  | OEq (i j : nat)
  | OErase (k : K)
  | OEraseIt (i : nat)
  | OEraseRange (i j : nat)
  | OClear
  | OSize.
  Inductive res := RUnit | RBool (b : bool) | RNum (n : nat) | RElem (e : E).

  Fixpoint insert_all (c : core) (l : list E) : option core :=
    match l with
    | [] => Some c
    | x :: l' => let n := length (its c) in
                 do r <- insert c x; insert_all (set_its (fst r) (firstn n (its (fst r)))) l'
    end.
  Definition user_it (c : core) (i : nat) : option iter := nth_error (its c) (S i).

  Definition exec (c : core) (o : op) : option (core * res) :=
    match o with
    | OInsert k v => do r <- insert c (k, v); Some (fst r, RBool (snd r))
    | OIndex k =>
      let n := length (its c) in
      do r <- insert c (k, vdef);
      do it <- nth_error (its (fst r)) n;
      do e <- deref (fst r) it;
      Some (set_its (fst r) (firstn n (its (fst r))), RElem e)
    | OIndexSet k v =>
      let n := length (its c) in
      do r <- insert c (k, vdef);
      do it <- nth_error (its (fst r)) n;
      do c' <- assign (fst r) it v;
      Some (set_its c' (firstn n (its c')), RUnit)
    | OInsertRange l => do c' <- insert_all c l; Some (c', RUnit)
    | OFind k => do it <- find c k; Some (new_it c it, RUnit)
    | OLower k => do it <- lower_bound c k; Some (new_it c it, RUnit)
    | OUpper k => do it <- upper_bound c k; Some (new_it c it, RUnit)
    | OBegin => do it <- begin c; Some (new_it c it, RUnit)
    | OEnd => do it <- end_it c; Some (new_it c it, RUnit)
    | OEqualRange k => do x <- equal_range c k; Some (new_it (new_it c (fst x)) (snd x), RUnit)
    | OCount k =>
      do it <- find c k; do e <- end_it c; Some (c, RNum (if it_eqb it e then 0 else 1))
    | OInc i => do it <- user_it c i; do it' <- incr c it; Some (set_its c (lset (its c) (S i) it'), RUnit)
    | ODec i => do it <- user_it c i; do it' <- decr c it; Some (set_its c (lset (its c) (S i) it'), RUnit)
    | OGet i => do it <- user_it c i; do e <- deref c it; Some (c, RElem e)
    | OSet i v => do it <- user_it c i; do c' <- assign c it v; Some (c', RUnit)
    | OEq i j => do a <- user_it c i; do b <- user_it c j; Some (c, RBool (it_eqb a b))
    | OErase k => do r <- erase c k; Some (fst r, RNum (if snd r then 1 else 0))
    | OEraseIt i => do it <- user_it c i; do c' <- erase_it c it; Some (c', RUnit)
    | OEraseRange i j =>
      do a <- user_it c i; do b <- user_it c j; do c' <- erase_range c a b; Some (c', RUnit)
    | OClear => do c' <- clear c; Some (c', RUnit)
    | OSize => Some (c, RNum (sz c))
    end.
  Fixpoint run (c : core) (os : list op) : option (core * list res) :=
    match os with
    | [] => Some (c, [])
    | o :: os' => do x <- exec c o; do y <- run (fst x) os'; Some (fst y, snd x :: snd y)
    end.
End Btree.

#[global] Arguments lmin : simpl never.
#[global] Arguments nmin : simpl never.
