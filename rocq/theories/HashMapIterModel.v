(** Model of the iterators of the hash map: [init_reader], [find_next], [operator*] of
    /repo/include/stxxl/bits/containers/hash_map/iterator.h, and [_begin] of hash_map.h.

    [None] is an undefined outcome; [end()] is [Some None].  Prefetching hints
    and the registration in the iterator map are left out. *)
From Coq Require Import List Bool Arith NArith.
From Verif Require Import HashMapModel.
Import ListNotations.

Section Iter.
  Context {K V L : Type}.
  Notation E := (K * V)%type.
  Variable hash : K -> N.
  Variable cmp : K -> K -> bool.
  Variable kdef : K.
  Variable ss spb : nat.

  Notation klt := (klt hash cmp).
  Notation kleq := (kleq hash cmp).
  Notation keq := (keq cmp).
  Notation node := (@node K V).
  Notation bucket := (@bucket K V).
  Notation core := (@core K V L).
  Notation itspec := (@itspec K).
  Notation rpos := (nat * nat)%type.
  Notation rnext := (rnext ss spb).

  (** An iterator that is not [end()]; [reader_] may be null (iterator.h 57-88). *)
  Record iter := { i_sp : itspec; i_rd : option rpos }.

  (** A pointer to a node, followed by the chain behind it. *)
  Fixpoint chain_from (l : list node) (k : K) : option (list node) :=
    match l with
    | [] => None
    | n :: l' => if keq (nkey n) k then Some l else chain_from l' k
    end.
  (** iterator.h 254-255. *)
  Fixpoint drop_leq (l : list node) (k : K) : list node :=
    match l with
    | [] => []
    | n :: l' => if kleq (nkey n) k then drop_leq l' k else l
    end.

  (** iterator.h 212-220: the number of external values passed, and the reader. *)
  Fixpoint seek (m : list (list E)) (k : K) (cnt ie : nat) (r : rpos) : option (nat * rpos) :=
    match cnt with
    | 0 => Some (ie, r)
    | S cnt' =>
      do e <- rvalue m r;
      if klt k (fst e) then Some (ie, r) else seek m k cnt' (S ie) (rnext m r)
    end.
  (** iterator.h 186-228 [init_reader]. *)
  Definition init_reader (m : list (list E)) (b : bucket) (it : itspec) : option (nat * rpos) :=
    let r0 := (bblk b, bsub b * ss) in
    if is_valid it then Some (is_ext it, Nat.iter (is_ext it) (rnext m) r0)
    else match is_node it with
         | None => Some (0, r0)
         | Some k => seek m k (bn b) 0 r0
         end.
  Definition reader (m : list (list E)) (b : bucket) (it : iter) : option (nat * rpos) :=
    match i_rd it with
    | Some r => Some (is_ext (i_sp it), r)
    | None => init_reader m b (i_sp it)
    end.

  (** What the search in one bucket finds (iterator.h 263-317): the iterator, or the
      reader behind the values of the bucket. *)
  Definition at_int (i ie : nat) (n : node) (r : rpos) : iter :=
    {| i_sp := {| is_b := i; is_node := Some (nkey n); is_ext := ie; is_src := Internal;
                  is_valid := true; is_key := nkey n |}; i_rd := Some r |}.
  Definition at_ext (i ie : nat) (nd : option K) (k : K) (r : rpos) : iter :=
    {| i_sp := {| is_b := i; is_node := nd; is_ext := ie; is_src := External;
                  is_valid := true; is_key := k |}; i_rd := Some r |}.
  Fixpoint search (m : list (list E)) (i ne : nat) (ns : list node) (nd : option K) (ie : nat) (r : rpos)
    : option (iter + rpos) :=
    match ns with
    | n :: ns' =>
      if ie <? ne then
        do e <- rvalue m r;
        if kleq (nkey n) (fst e) then
          let same := keq (nkey n) (fst e) in
          let ie' := if same then S ie else ie in
          let r' := if same then rnext m r else r in
          if ndel n then search m i ne ns' (Some (nkey n)) ie' r' else Some (inl (at_int i ie' n r'))
        else Some (inl (at_ext i ie nd (fst e) r))
      else if ndel n then search m i ne ns' (Some (nkey n)) ie r else Some (inl (at_int i ie n r))
    | [] =>
      if ie <? ne then do e <- rvalue m r; Some (inl (at_ext i ie nd (fst e) r))
      else Some (inr r)
    end.
  (** The outer loop (iterator.h 261, 319-335): the buckets behind the current one. *)
  Fixpoint go_on (m : list (list E)) (i : nat) (x : iter + rpos) (bs : list bucket) : option (option iter) :=
    match x with
    | inl it => Some (Some it)
    | inr r =>
      match bs with
      | [] => Some None
      | b :: bs' =>
        do r' <- rskip ss m r (bblk b) (bsub b);
        do y <- search m (S i) (bn b) (blist b) None 0 r';
        go_on m (S i) y bs'
      end
    end.

  (** iterator.h 245-352 [find_next]. *)
  Definition find_next (c : core) (it : iter) : option (option iter) :=
    let sp := i_sp it in
    do b <- nth_error (bks c) (is_b sp);
    do x <- reader (mem c) b it;
    do ns <- match is_node sp with Some k => chain_from (blist b) k | None => Some (blist b) end;
    let '(ie, r) := x in
    do y <- match is_src sp with
            | External => search (mem c) (is_b sp) (bn b) (drop_leq ns (is_key sp)) (is_node sp) (S ie) (rnext (mem c) r)
            | Internal =>
              match is_node sp with
              | Some _ => search (mem c) (is_b sp) (bn b) (tl ns) (is_node sp) ie r
              | None => None
              end
            | Unknown => search (mem c) (is_b sp) (bn b) ns (is_node sp) ie r
            end;
    go_on (mem c) (is_b sp) y (skipn (S (is_b sp)) (bks c)).

  (** hash_map.h 846-861 [_begin]. *)
  Definition begin (c : core) : option (option iter) :=
    match bks c with
    | [] => Some None
    | b :: _ =>
      find_next c {| i_sp := {| is_b := 0; is_node := match blist b with n :: _ => Some (nkey n) | [] => None end;
                                is_ext := 0; is_src := Unknown; is_valid := true; is_key := kdef |}; i_rd := None |}
    end.

  (** iterator.h 455-470, 590-605 [operator*]. *)
  Definition value (c : core) (it : iter) : option E :=
    let sp := i_sp it in
    do b <- nth_error (bks c) (is_b sp);
    match is_src sp with
    | Internal => do k <- is_node sp; do ns <- chain_from (blist b) k; do n <- hd_error ns; Some (nval n)
    | _ => do x <- reader (mem c) b it; rvalue (mem c) (snd x)
    end.

  (** [for (it = begin(); it != end(); ++it)]: the values seen; [None] also when the loop does not
      end within the given number of steps. *)
  Fixpoint collect (fuel : nat) (c : core) (x : option iter) : option (list E) :=
    match x with
    | None => Some []
    | Some it =>
      match fuel with
      | 0 => None
      | S f =>
        do e <- value c it;
        do y <- find_next c it;
        do l <- collect f c y;
        Some (e :: l)
      end
    end.
  Definition traverse (fuel : nat) (c : core) : option (list E) :=
    do x <- begin c; collect fuel c x.

  (** iterator.h 171-185 [operator==]; both iterators belong to the map. *)
  Definition src_eqb (a b : source) : bool :=
    match a, b with Internal, Internal | External, External | Unknown, Unknown => true | _, _ => false end.
  Definition it_eqb (a b : option itspec) : bool :=
    match a, b with
    | None, None => true
    | Some x, Some y =>
      (is_b x =? is_b y) && src_eqb (is_src x) (is_src y)
      && match is_src x with
         | Internal => match is_node x, is_node y with Some k, Some k' => keq k k' | None, None => true | _, _ => false end
         | _ => is_ext x =? is_ext y
         end
    | _, _ => false
    end.
  (** hash_map.h 735-742 [equal_range], const. *)
  Variable edef : E.
  Variable bkt : N -> nat -> nat.
  Definition equal_range (c : core) (k : K) : option (option itspec * option itspec) :=
    do x <- cfind hash cmp edef ss spb bkt c k; Some (x, x).
  (** [for (it = p.first; it != p.second; ++it)]: the values seen. *)
  Fixpoint range_from (fuel : nat) (c : core) (x : option iter) (last : option itspec) : option (list E) :=
    if it_eqb (match x with Some it => Some (i_sp it) | None => None end) last then Some []
    else match x, fuel with
         | Some it, S f =>
           do e <- value c it;
           do y <- find_next c it;
           do l <- range_from f c y last;
           Some (e :: l)
         | _, _ => None
         end.
  Definition range (fuel : nat) (c : core) (p : option itspec * option itspec) : option (list E) :=
    range_from fuel c (match fst p with Some it => Some {| i_sp := it; i_rd := None |} | None => None end) (snd p).
End Iter.
