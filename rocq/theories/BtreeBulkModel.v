(** Model of the construction of a B+-tree from a sorted range
    (/repo/include/stxxl/bits/containers/btree/btree.h 262-430 [bulk_construction]; used by the constructors
    965-1038 with [range_sorted]).  Conventions and simplifications are those of BtreeModel.v; moreover
    - a fill factor is an exact fraction instead of a double,
    - the vectors [bids] and [parent_bids] are lists,
    - there are no iterators yet but [m_end_iterator]. *)
From Coq Require Import List Bool Arith Lia.
From Verif Require Import BtreeModel.
Import ListNotations.

Section Bulk.
  Context {K V : Type}.
  Notation E := (K * V)%type.
  Notation store := (list (nat * @leaf K V)).
  Notation tree := (@tree K).
  Variable cmp : K -> K -> bool.
  Variable kmax : K.
  Variable lmax nmax ncap : nat.
  Variable alloc : store -> nat.
  (** [max_leaf_elements] (279-281) and [max_node_elements] (340-342). *)
  Variable lfe nfe : nat.

  (** The blocks, the leaf being filled ([new_bid]), [last_key], [bids], and [m_size]. *)
  Record bst := { b_s : store; b_cur : nat; b_last : K; b_bids : list (K * tree); b_n : nat }.

  (** btree.h 277-278. *)
  Definition bulk_init : bst :=
    let nb := alloc [] in
    {| b_s := lput [] nb {| ld := []; lp := None; ln := None |}; b_cur := nb; b_last := kmax; b_bids := []; b_n := 0 |}.

  (** btree.h 283-308: one round of the loop. *)
  Definition bulk_step (st : bst) (x : E) : option bst :=
    if cmp (fst x) (b_last st) || cmp (b_last st) (fst x) then
      do l <- lget (b_s st) (b_cur st);
      do y <- (if length (ld l) =? lfe then
                 do k <- last_key (ld l);
                 let nb := alloc (b_s st) in
                 Some (lput (lput (b_s st) (b_cur st) (set_ln l (Some nb))) nb {| ld := []; lp := Some (b_cur st); ln := None |},
                       nb, b_bids st ++ [(k, Leaf (b_cur st))])
               else Some (b_s st, b_cur st, b_bids st));
      let '(s1, cur, bids) := y in
      do l1 <- lget s1 cur;
      Some {| b_s := lput s1 cur (set_ld l1 (ld l1 ++ [x])); b_cur := cur; b_last := fst x; b_bids := bids; b_n := S (b_n st) |}
    else Some st.
  Fixpoint bulk_leaves (st : bst) (l : list E) : option bst :=
    match l with
    | [] => Some st
    | x :: l' => do st' <- bulk_step st x; bulk_leaves st' l'
    end.

  Definition fits (s : store) (t : tree) : option bool :=
    do n <- tsize s t;
    Some ((tmin lmax nmax t <=? n) && (n <=? match t with Leaf _ => lmax | Node _ => nmax end)).

  (** btree.h 310-338: the last leaf, [m_end_iterator], and the last entry. *)
  Definition bulk_last (st : bst) : option (store * list (nat * nat) * list (K * tree) * nat) :=
    let cur := b_cur st in
    do l <- lget (b_s st) cur;
    do y <- match rev (b_bids st) with
            | (_, tl) :: _ =>
              if length (ld l) <? lmin lmax then
                do x <- fob cmp lmax nmax (b_s st) [] tl (Leaf cur);
                let '(s', _, z) := x in
                match z with
                | inl t => do f <- fits s' t; if f then Some (s', removelast (b_bids st)) else None
                | inr (t1, _, k) => do f <- fits s' t1; if f then Some (s', removelast (b_bids st) ++ [(k, t1)]) else None
                end
              else Some (b_s st, b_bids st)
            | [] => Some (b_s st, b_bids st)
            end;
    let '(s, bids) := y in
    do l1 <- lget s cur;
    if (length (ld l1) <=? lmax) && ((lmin lmax <=? length (ld l1)) || (b_n st <=? lmax))
    then Some (s, [(cur, length (ld l1))], bids ++ [(kmax, Leaf cur)], b_n st)
    else None.

  (** btree.h 393-395. *)
  Definition bulk_push (acc : list (K * tree)) (node : list (K * tree)) : option (list (K * tree)) :=
    if (nmin nmax <=? length node) && (length node <=? nmax)
    then do k <- last_key node; Some (acc ++ [(k, Node node)]) else None.
  (** btree.h 356-396: the nodes above a sequence of entries. *)
  Fixpoint bulk_nodes (fuel : nat) (acc bids : list (K * tree)) : option (list (K * tree)) :=
    match bids, fuel with
    | [], _ => Some acc
    | _, 0 => None
    | _, S fuel' =>
      let node := firstn nfe bids in
      let rest := skipn nfe bids in
      do acc' <- (if length node <? nmin nmax then
                    match rest, rev acc with
                    | [], (_, Node lft) :: _ =>
                      if length lft + length node <=? nmax
                      then do n <- node_fuse cmp lft node; bulk_push (removelast acc) n
                      else do x <- node_balance cmp nmax lft node false;
                           let '(a, c, k) := x in
                           if (nmin nmax <=? length a) && (length a <=? nmax)
                           then bulk_push (removelast acc ++ [(k, Node a)]) c else None
                    | _, _ => None
                    end
                  else bulk_push acc node);
      bulk_nodes fuel' acc' rest
    end.

  (** btree.h 344-413; each round leaves fewer entries. *)
  Fixpoint bulk_up (fuel : nat) (h : nat) (bids : list (K * tree)) : option (list (K * tree) * nat) :=
    if length bids <=? nmax then Some (bids, h)
    else match fuel with
         | 0 => None
         | S fuel' =>
           let np := (length bids + nfe - 1) / nfe in
           if 2 <=? np then
             do p <- bulk_nodes (length bids) [] bids;
             if (np =? length p) || (np - 1 =? length p) then
               if ncap <? S h + 1 then None else bulk_up fuel' (S h) p
             else None
           else None
         end.

  Definition bulk (l : list E) : option (@core K V) :=
    do st <- bulk_leaves bulk_init l;
    do x <- bulk_last st;
    let '(s, its, bids, n) := x in
    do y <- bulk_up (length bids) 0 bids;
    Some {| lv := s; its := its; root := fold_left (fun m e => fst (map_insert cmp m (fst e) (snd e))) (fst y) [];
            ht := snd y; sz := n |}.
End Bulk.

(** btree.h 266-267, 279-281, 340-342: fill factors of leaves and nodes as numerator and denominator. *)
Definition bulk_construction {K V : Type} (cmp : K -> K -> bool) (kmax : K) (lmax nmax ncap : nat)
    (alloc : list (nat * @leaf K V) -> nat) (lf nf : nat * nat) (l : list (K * V)) : option (@core K V) :=
  if (snd nf <=? 2 * fst nf) && (snd lf <=? 2 * fst lf)
  then bulk cmp kmax lmax nmax ncap alloc (lmax * fst lf / snd lf) (nmax * fst nf / snd nf) l
  else None.
