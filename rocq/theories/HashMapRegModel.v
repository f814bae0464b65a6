(** Model of iterators of the hash map as objects that live while the map changes:
    [hash_map_iterator_base] of /repo/include/stxxl/bits/containers/hash_map/iterator.h,
    the register of the live iterators of a map, iterator_map.h, and [swap] of hash_map.h.

    There are two maps, so that they can be swapped; [false] and [true] are their
    addresses.  An iterator object has a number as its address.

    Simplifications, beside those of HashMapModel.v and HashMapIterModel.v.
    - The temporary object in which an operation returns an iterator has the address 0; it is
      copied to the variable and destroyed.  Further copies (in [insert], in [return], for the
      parameter of [erase]) are made and destroyed within one operation and left out.
    - [prefetch_] has no effect on values.
    - The order in which the multimap gives the iterators of a bucket is the order of
      registration, newest first.
    - The reader of an iterator is a position in the blocks of its map; the reference of the
      reader to the block cache is left out. *)
From Coq Require Import List Bool Arith NArith.
From Verif Require Import HashMapModel HashMapIterModel.
Import ListNotations.

Section Reg.
  Context {K V L : Type}.
  Notation E := (K * V)%type.
  Variable hash : K -> N.
  Variable cmp : K -> K -> bool.
  Variable keqb : K -> K -> bool.
  Variable kdef : K.
  Variable edef : E.
  Variable vdef : V.
  Variable ss spb inc : nat.
  Variable bkt : N -> nat -> nat.
  Variable nbuck : L -> N -> N.
  Variable lgt : L -> N -> nat -> bool.
  Variable maxb : N.
  Variable fits : N -> bool.
  Variable junk : nat -> nat -> E.
  Variable srt : list E -> list E.

  Notation keq := (keq cmp).
  Notation core := (@core K V L).
  Notation itspec := (@itspec K).
  Notation ev := (@ev K).
  Notation op := (@op K V L).
  Notation res := (@res V).
  Notation rpos := (nat * nat)%type.
  Notation iter := (@iter K).
  Notation rnext := (rnext ss spb).
  Notation erase := (erase hash cmp edef vdef ss spb inc bkt nbuck maxb fits junk).
  Notation erase_it := (erase_it hash cmp edef vdef ss spb inc bkt nbuck maxb fits junk).
  Notation erase_oblivious := (erase_oblivious hash cmp edef vdef ss spb inc bkt nbuck maxb fits junk).
  Notation insert := (insert hash cmp edef ss spb inc bkt nbuck maxb fits junk).
  Notation insert_oblivious := (insert_oblivious hash cmp edef ss spb inc bkt nbuck maxb fits junk).
  Notation find := (find hash cmp edef ss spb inc bkt nbuck maxb fits junk).
  Notation cfind := (cfind hash cmp edef ss spb bkt).
  Notation index := (index hash cmp edef vdef ss spb inc bkt nbuck maxb fits junk).
  Notation rebuild := (rebuild hash cmp edef ss spb inc bkt nbuck maxb fits junk).
  Notation bulk := (bulk hash cmp keqb edef ss spb inc bkt nbuck maxb fits junk srt).
  Notation set_load := (set_load hash cmp edef ss spb inc bkt nbuck lgt maxb fits junk).
  Notation set_maxbuf := (set_maxbuf hash cmp edef ss spb inc bkt nbuck maxb fits junk).
  Notation exec := (exec hash cmp keqb edef vdef ss spb inc bkt nbuck lgt maxb fits junk srt).
  Notation find_next := (@find_next K V L hash cmp ss spb).
  Notation reader := (@reader K V hash cmp ss spb).

  (** ** Objects *)

  (** iterator.h 58-88: [map_], [end_], the members of [itspec], [reader_]. *)
  Record obj := { o_map : bool; o_end : bool; o_sp : itspec; o_rd : option rpos }.
  Definition it_of (o : obj) : iter := {| i_sp := o_sp o; i_rd := o_rd o |}.
  (** iterator.h 110-121. *)
  Definition end_obj (a : bool) : obj :=
    {| o_map := a; o_end := true;
       o_sp := {| is_b := 0; is_node := None; is_ext := 0; is_src := Unknown; is_valid := false; is_key := kdef |};
       o_rd := None |}.
  (** iterator.h 91-108. *)
  Definition new_obj (a : bool) (sp : itspec) : obj := {| o_map := a; o_end := false; o_sp := sp; o_rd := None |}.

  Definition updb {A} (f : bool -> A) (a : bool) (x : A) : bool -> A := fun b => if eqb b a then x else f b.
  Definition updn {A} (f : nat -> A) (i : nat) (x : A) : nat -> A := fun j => if j =? i then x else f j.

  (** The maps, the members [it_map_] and [map_] of their [iterator_map] (iterator_map.h 74-75):
      a register is a list of bucket and address; the iterator objects. *)
  Record mst := { cores : bool -> core; regs : bool -> list (nat * nat); rmap : bool -> bool; objs : nat -> option obj }.
  Definition set_core (st : mst) (a : bool) (c : core) : mst :=
    {| cores := updb (cores st) a c; regs := regs st; rmap := rmap st; objs := objs st |}.
  Definition set_reg (st : mst) (a : bool) (l : list (nat * nat)) : mst :=
    {| cores := cores st; regs := updb (regs st) a l; rmap := rmap st; objs := objs st |}.
  Definition set_obj (st : mst) (id : nat) (o : option obj) : mst :=
    {| cores := cores st; regs := regs st; rmap := rmap st; objs := updn (objs st) id o |}.

  (** ** iterator_map.h *)

  (** iterator_map.h 87-96 [register_iterator]. *)
  Definition register (st : mst) (a : bool) (b id : nat) : mst := set_reg st a ((b, id) :: regs st a).
  (** iterator_map.h 98-122 [unregister_iterator]: throws if the iterator is not registered. *)
  Fixpoint rem (b id : nat) (l : list (nat * nat)) : option (list (nat * nat)) :=
    match l with
    | [] => None
    | p :: l' => if (fst p =? b) && (snd p =? id) then Some l' else do r <- rem b id l'; Some (p :: r)
    end.
  Definition unregister (st : mst) (a : bool) (b id : nat) : option mst :=
    do l <- rem b id (regs st a); Some (set_reg st a l).
  (** iterator_map.h 218-227 [_find]. *)
  Definition reg_ids (st : mst) (a : bool) (b : nat) : list nat := map snd (filter (fun p => fst p =? b) (regs st a)).

  Fixpoint foldo {S A} (f : S -> A -> option S) (l : list A) (s : S) : option S :=
    match l with [] => Some s | x :: l' => do s' <- f s x; foldo f l' s' end.

  (** iterator_map.h 124-156 [fix_iterators_2ext]. *)
  Definition to_ext (o : obj) (bn ie : nat) : obj :=
    {| o_map := o_map o; o_end := o_end o;
       o_sp := {| is_b := bn; is_node := None; is_ext := ie; is_src := External; is_valid := true; is_key := is_key (o_sp o) |};
       o_rd := None |}.
  Definition fix_2ext (a : bool) (bo : nat) (k : K) (bn ie : nat) (st : mst) (id : nat) : option mst :=
    do o <- objs st id;
    if keq k (is_key (o_sp o)) then
      do s1 <- (if bo =? bn then Some st
                else do s <- unregister st a (is_b (o_sp o)) id; Some (register s a bn id));
      Some (set_obj s1 id (Some (to_ext o bn ie)))
    else Some st.
  (** iterator_map.h 158-181 [fix_iterators_2int]; a node pointer is the key of the node. *)
  Definition to_int (m : list (list E)) (o : obj) (k : K) : obj :=
    {| o_map := o_map o; o_end := o_end o;
       o_sp := {| is_b := is_b (o_sp o); is_node := Some k; is_ext := S (is_ext (o_sp o)); is_src := Internal;
                  is_valid := is_valid (o_sp o); is_key := is_key (o_sp o) |};
       o_rd := match o_rd o with Some r => Some (rnext m r) | None => None end |}.
  Definition fix_2int (m : list (list E)) (k : K) (st : mst) (id : nat) : option mst :=
    do o <- objs st id;
    if keq (is_key (o_sp o)) k then
      match is_src (o_sp o) with
      | External => Some (set_obj st id (Some (to_int m o k)))
      | _ => None
      end
    else Some st.
  (** iterator_map.h 183-202 [fix_iterators_2end]. *)
  Definition to_end (o : obj) : obj := {| o_map := o_map o; o_end := true; o_sp := o_sp o; o_rd := None |}.
  Definition fix_2end (a : bool) (k : K) (st : mst) (id : nat) : option mst :=
    do o <- objs st id;
    if keq k (is_key (o_sp o)) then unregister (set_obj st id (Some (to_end o))) a (is_b (o_sp o)) id
    else Some st.
  (** iterator_map.h 204-215 [fix_iterators_all2end]. *)
  Definition fix_all (st : mst) (id : nat) : option mst :=
    do o <- objs st id; Some (set_obj st id (Some (to_end o))).

  (** What an operation of map [a] does to the iterators; [m] are the blocks when
      [fix_iterators_2int] advances the readers. *)
  Definition sev (m : list (list E)) (a : bool) (st : mst) (e : ev) : option mst :=
    match e with
    | EMk None => Some (set_obj st 0 (Some (end_obj a)))
    | EMk (Some sp) => Some (register (set_obj st 0 (Some (new_obj a sp))) a (is_b sp) 0)
    | E2ext bo k bn ie => foldo (fix_2ext a bo k bn ie) (reg_ids st a bo) st
    | E2int b k => foldo (fix_2int m k) (reg_ids st a b) st
    | E2end b k => foldo (fix_2end a k) (reg_ids st a b) st
    | EAllEnd => do s <- foldo fix_all (map snd (regs st a)) st; Some (set_reg s a [])
    end.
  Definition sevs (m : list (list E)) (a : bool) (evs : list ev) (st : mst) : option mst := foldo (sev m a) evs st.

  (** ** Operations of iterators *)

  (** iterator.h 371-378: the destructor. *)
  Definition destroy (st : mst) (id : nat) : option mst :=
    do o <- objs st id;
    do s <- (if o_end o then Some st else unregister st (o_map o) (is_b (o_sp o)) id);
    Some (set_obj s id None).
  (** iterator.h 123-140, 142-168: copy construction and assignment. *)
  Definition copy_obj (o : obj) : obj := {| o_map := o_map o; o_end := o_end o; o_sp := o_sp o; o_rd := None |}.
  Definition it_copy (st : mst) (dst src : nat) : option mst :=
    do o <- objs st src;
    if dst =? src then Some st
    else
      do s <- match objs st dst with
              | Some d => if o_end d then Some st else unregister st (o_map d) (is_b (o_sp d)) dst
              | None => Some st
              end;
      let s1 := set_obj s dst (Some (copy_obj o)) in
      Some (if o_end o then s1 else register s1 (o_map o) (is_b (o_sp o)) dst).
  (** The variable [x] has the address [S x]. *)
  Definition give (st : mst) (x : nat) : option mst := do s <- it_copy st (S x) 0; destroy s 0.

  (** What [find_next] leaves in the members when it arrives at the end (iterator.h 251-357): the last bucket
      has been searched to its end. *)
  Fixpoint last_key (l : list (@node K V)) : option K :=
    match l with [] => None | n :: l' => match l' with [] => Some (nkey n) | _ => last_key l' end end.
  Definition end_sp (c : core) (sp : itspec) : itspec :=
    let n := length (bks c) in
    let lst := match nth_error (bks c) (n - 1) with Some b => b | None => bucket0 end in
    let ns := match is_node sp with Some k => match chain_from cmp (blist lst) k with Some l => l | None => [] end | None => blist lst end in
    let rest := match is_src sp with External => drop_leq hash cmp ns (is_key sp) | Internal => tl ns | Unknown => ns end in
    {| is_b := n;
       is_node := if S (is_b sp) =? n then match last_key rest with Some k => Some k | None => is_node sp end else last_key (blist lst);
       is_ext := bn lst; is_src := is_src sp; is_valid := true; is_key := is_key sp |}.
  (** iterator.h 251-369 [find_next], with the change of the registration. *)
  Definition it_next (st : mst) (id : nat) : option mst :=
    do o <- objs st id;
    if o_end o then None
    else
      let a := o_map o in
      let b := is_b (o_sp o) in
      do z <- find_next (cores st a) (it_of o);
      match z with
      | None => unregister (set_obj st id (Some {| o_map := a; o_end := true; o_sp := end_sp (cores st a) (o_sp o); o_rd := None |})) a b id
      | Some it =>
        let s1 := set_obj st id (Some {| o_map := a; o_end := false; o_sp := i_sp it; o_rd := i_rd it |}) in
        if b =? is_b (i_sp it) then Some s1
        else do s2 <- unregister s1 a b id; Some (register s2 a (is_b (i_sp it)) id)
      end.
  (** hash_map.h 846-861 [_begin]. *)
  Definition it_begin (st : mst) (a : bool) (x : nat) : option mst :=
    match bks (cores st a) with
    | [] => do s <- sev [] a st (EMk None); give s x
    | b :: _ =>
      do s <- sev [] a st (EMk (Some {| is_b := 0; is_node := match blist b with n :: _ => Some (nkey n) | [] => None end;
                                        is_ext := 0; is_src := Unknown; is_valid := true; is_key := kdef |}));
      do s1 <- it_next s 0;
      give s1 x
    end.
  (** iterator.h 454-467 [operator*]: the value, and the object with its reader. *)
  Definition touch (c : core) (o : obj) : option obj :=
    match is_src (o_sp o) with
    | Internal => Some o
    | _ =>
      do b <- nth_error (bks c) (is_b (o_sp o));
      do x <- reader (mem c) b (it_of o);
      Some {| o_map := o_map o; o_end := o_end o;
              o_sp := {| is_b := is_b (o_sp o); is_node := is_node (o_sp o); is_ext := fst x; is_src := is_src (o_sp o);
                         is_valid := true; is_key := is_key (o_sp o) |};
              o_rd := Some (snd x) |}
    end.
  Definition it_get (st : mst) (id : nat) : option (mst * E) :=
    do o <- objs st id;
    if o_end o then None
    else
      do e <- value hash cmp ss spb (cores st (o_map o)) (it_of o);
      do o' <- touch (cores st (o_map o)) o;
      Some (set_obj st id (Some o'), e).
  (** [it->second = v]. *)
  Definition write (c : core) (o : obj) (v : V) : option core :=
    match is_src (o_sp o), o_rd o with
    | Internal, _ => assign hash cmp ss spb c (o_sp o) v
    | _, Some p =>
      do blk <- nth_error (mem c) (fst p);
      do e <- nth_error blk (snd p);
      Some (set_mem c (lset (mem c) (fst p) (lset blk (snd p) (fst e, v))))
    | _, None => None
    end.
  Definition it_set (st : mst) (id : nat) (v : V) : option mst :=
    do x <- it_get st id;
    do o <- objs (fst x) id;
    do c <- write (cores st (o_map o)) o v;
    Some (set_core (fst x) (o_map o) c).
  (** iterator.h 171-185 [operator==]. *)
  Definition obj_eqb (x y : obj) : bool :=
    if o_end x && o_end y then true
    else eqb (o_map x) (o_map y) && (is_b (o_sp x) =? is_b (o_sp y)) && src_eqb (is_src (o_sp x)) (is_src (o_sp y))
         && match is_src (o_sp x) with
            | Internal => match is_node (o_sp x), is_node (o_sp y) with
                          | Some k, Some k' => keq k k' | None, None => true | _, _ => false end
            | _ => is_ext (o_sp x) =? is_ext (o_sp y)
            end.

  (** ** [swap] (hash_map.h 568-589, iterator_map.h 237-244) *)

  (** iterator_map.h 229-234 [change_hash_map_pointers]. *)
  Definition repoint (a : bool) (st : mst) (id : nat) : option mst :=
    do o <- objs st id;
    Some (set_obj st id (Some {| o_map := a; o_end := o_end o; o_sp := o_sp o; o_rd := o_rd o |})).
  Definition swap (st : mst) : option mst :=
    let s := {| cores := fun a => cores st (negb a); regs := fun a => regs st (negb a);
                rmap := fun a => rmap st (negb a); objs := objs st |} in
    do s1 <- foldo (repoint (rmap s false)) (map snd (regs s false)) s;
    foldo (repoint (rmap s true)) (map snd (regs s true)) s1.

  (** ** Programs *)

  Inductive rop :=
  | RMap (a : bool) (o : op)               (* an operation that returns no iterator *)
  | RInsert (a : bool) (x : nat) (k : K) (v : V)     (* x = insert(k, v).first *)
  | RInsertObl (a : bool) (x : nat) (k : K) (v : V)  (* x = insert_oblivious(k, v) *)
  | RFind (a : bool) (x : nat) (k : K)
  | RCFind (a : bool) (x : nat) (k : K)
  | RBegin (a : bool) (x : nat)
  | REnd (a : bool) (x : nat)
  | RCopy (x y : nat)                      (* x = y, or x is constructed from y *)
  | RDrop (x : nat)                        (* the destructor *)
  | RNext (x : nat)                        (* ++x *)
  | RGet (x : nat)                         (* the value of x *)
  | RSet (x : nat) (v : V)                 (* x->second = v *)
  | REraseIt (a : bool) (x : nat)          (* erase(x) *)
  | REq (x y : nat)                        (* x == y *)
  | RSwap.                                 (* swap of the maps *)
  Inductive rres := QU | QB (b : bool) | QE (e : E) | QR (r : res).

  (** The calls of [iterator_map] by operations that return no iterator. *)
  Definition mevs (c : core) (o : op) : option (list ev) :=
    match o with
    | OErase k => do x <- erase c k; Some (snd (fst x))
    | OEraseObl k => do x <- erase_oblivious c k; Some (snd x)
    | OClear => Some (snd (clear c))
    | OCount _ | OSize => Some []
    | OIndex k | OIndexSet k _ => do x <- index c k; Some (snd (fst x))
    | ORehash n => do x <- rebuild c n; Some (snd x)
    | OLoad l => do x <- set_load c l; Some (snd x)
    | OMaxBuf n => do x <- set_maxbuf c n; Some (snd x)
    | OBulk l => do x <- bulk c l; Some (snd x)
    | _ => None
    end.

  Definition rexec (st : mst) (o : rop) : option (mst * rres) :=
    match o with
    | RMap a o =>
      do evs <- mevs (cores st a) o;
      do x <- exec (cores st a) o;
      do s <- sevs (mem (cores st a)) a evs st;
      Some (set_core s a (fst x), QR (snd x))
    | RInsert a x k v =>
      do y <- insert (cores st a) k v;
      do s <- sevs (mem (cores st a)) a (snd (fst y)) st;
      do s1 <- give (set_core s a (fst (fst y))) x;
      Some (s1, QB (snd y))
    | RInsertObl a x k v =>
      do y <- insert_oblivious (cores st a) k v;
      do s <- sevs (mem (cores st a)) a (snd y) st;
      do s1 <- give (set_core s a (fst y)) x;
      Some (s1, QU)
    | RFind a x k =>
      do y <- find (cores st a) k;
      do s <- sevs (mem (fst (fst y))) a (snd (fst y)) st;
      do s1 <- give (set_core s a (fst (fst y))) x;
      Some (s1, QU)
    | RCFind a x k =>
      do r <- cfind (cores st a) k;
      do s <- sev (mem (cores st a)) a st (EMk r);
      do s1 <- give s x;
      Some (s1, QU)
    | RBegin a x => do s <- it_begin st a x; Some (s, QU)
    | REnd a x => do s <- sev [] a st (EMk None); do s1 <- give s x; Some (s1, QU)
    | RCopy x y => do s <- it_copy st (S x) (S y); Some (s, QU)
    | RDrop x => do s <- destroy st (S x); Some (s, QU)
    | RNext x => do s <- it_next st (S x); Some (s, QU)
    | RGet x => do y <- it_get st (S x); Some (fst y, QE (snd y))
    | RSet x v => do s <- it_set st (S x) v; Some (s, QU)
    | REraseIt a x =>
      do o <- objs st (S x);
      if o_end o then None
      else
        do y <- erase_it (cores st a) (o_sp o);
        do s <- sevs (mem (cores st a)) a (snd y) st;
        Some (set_core s a (fst y), QU)
    | REq x y => do a <- objs st (S x); do b <- objs st (S y); Some (st, QB (obj_eqb a b))
    | RSwap => do s <- swap st; Some (s, QU)
    end.
  Fixpoint rrun (st : mst) (os : list rop) : option (mst * list rres) :=
    match os with
    | [] => Some (st, [])
    | o :: os' => do x <- rexec st o; do y <- rrun (fst x) os'; Some (fst y, snd x :: snd y)
    end.
  (** Two maps, no iterators (iterator_map.h 78-80). *)
  Definition rinit (f : bool -> core) : mst :=
    {| cores := f; regs := fun _ => []; rmap := fun a => a; objs := fun _ => None |}.
End Reg.
