(** Model of matrix_iterator, matrix_row_major_iterator and matrix_col_major_iterator: matrix.h 423-712.

    An iterator that has acquired its block keeps a pointer to the internal block (current_iblock); the pointer is
    represented by the block that was acquired.  The state has one entry for each acquire of a block that was not yet
    released; the release of a block that is not acquired is an error.  elem_size_type is signed and as wide as 64 bits;
    its overflow is not modelled.  The const iterators (714-1030) have the same code; they release blocks as not changed. *)
From Coq Require Import List Arith Bool PeanoNat ZArith.
From Verif Require Import MatrixModel MatrixFeedModel MatrixSpec MatrixObjModel MatrixIterSpec.
Import ListNotations.

Section Iter.
  Variable R : Type.
  Variables (rO : R) (radd rmul rsub : R -> R -> R) (ropp : R -> R).
  Variable B : nat.

  Notation mstate := (mstate R).
  (** the members: 442-447 *)
  Record it := mk_it { im : nat; ir : Z; ic : Z; ibr : Z; ibc : Z; ib : option nat }.
  Record istate := mk_ist { ms : mstate; its : list (option it); pins : list nat }.

  (** block_index_from_elem: 369-370; division rounds towards zero *)
  Definition block_index (z : Z) : Z := Z.quot z (Z.of_nat B).
  (** m->data->block(row, col): 383-385 *)
  Definition data (st : mstate) (o : nat) : option bmat := do m <- as_matrix R st o; Some (md m).
  Definition block_at (M : bmat) (br bc : Z) : option nat :=
    if (0 <=? br)%Z && (0 <=? bc)%Z then at_ M (Z.to_nat br) (Z.to_nat bc) else None.
  Fixpoint remove_one (b : nat) (l : list nat) : option (list nat) :=
    match l with
    | [] => None
    | x :: l' => if x =? b then Some l' else do l'' <- remove_one b l'; Some (x :: l'')
    end.

  (** acquire_current_iblock: 449-453 *)
  Definition acquire (st : mstate) (p : list nat) (x : it) : option (mstate * list nat * it) :=
    match ib x with
    | Some _ => Some (st, p, x)
    | None =>
      do M <- data st (im x); do b <- block_at M (ibr x) (ibc x);
      Some (with_sto R st (put R (sto R st) b (Some (acquired R rO B (sto R st) b))), b :: p, mk_it (im x) (ir x) (ic x) (ibr x) (ibc x) (Some b))
    end.
  (** release_current_iblock: 455-462 *)
  Definition release (st : mstate) (p : list nat) (x : it) : option (list nat * it) :=
    match ib x with
    | None => Some (p, x)
    | Some _ =>
      do M <- data st (im x); do b <- block_at M (ibr x) (ibc x); do p' <- remove_one b p;
      Some (p', mk_it (im x) (ir x) (ic x) (ibr x) (ibc x) None)
    end.
  (** the constructors: 464-480 *)
  Definition at_pos (o : nat) (r c : Z) : it := mk_it o r c (block_index r) (block_index c) None.
  Definition empty_it (o : nat) : it := mk_it o (-1) (-1) (-1) (-1) None.
  (** set_empty: 482-489 *)
  Definition set_empty (st : mstate) (p : list nat) (x : it) : option (list nat * it) :=
    do (p, x) <- release st p x; Some (p, mk_it (im x) (-1) (-1) (-1) (-1) (ib x)).
  (** set_row: 516-525, set_col: 527-536, set_pos: 538-550 *)
  Definition set_row (st : mstate) (p : list nat) (x : it) (r : Z) : option (list nat * it) :=
    do (p, x) <- (if (block_index r =? ibr x)%Z then Some (p, x)
                  else do (p, x) <- release st p x; Some (p, mk_it (im x) (ir x) (ic x) (block_index r) (ibc x) (ib x)));
    Some (p, mk_it (im x) r (ic x) (ibr x) (ibc x) (ib x)).
  Definition set_col (st : mstate) (p : list nat) (x : it) (c : Z) : option (list nat * it) :=
    do (p, x) <- (if (block_index c =? ibc x)%Z then Some (p, x)
                  else do (p, x) <- release st p x; Some (p, mk_it (im x) (ir x) (ic x) (ibr x) (block_index c) (ib x)));
    Some (p, mk_it (im x) (ir x) c (ibr x) (ibc x) (ib x)).
  Definition set_pos (st : mstate) (p : list nat) (x : it) (r c : Z) : option (list nat * it) :=
    do (p, x) <- (if (block_index c =? ibc x)%Z && (block_index r =? ibr x)%Z then Some (p, x)
                  else do (p, x) <- release st p x; Some (p, mk_it (im x) (ir x) (ic x) (block_index r) (block_index c) (ib x)));
    Some (p, mk_it (im x) r c (ibr x) (ibc x) (ib x)).
  (** copy constructor: 492-502 *)
  Definition copy_it (st : mstate) (p : list nat) (y : it) : option (mstate * list nat * it) :=
    let x := mk_it (im y) (ir y) (ic y) (ibr y) (ibc y) None in
    match ib y with Some _ => acquire st p x | None => Some (st, p, x) end.
  (** operator =: 504-511 *)
  Definition assign_it (st : mstate) (p : list nat) (x y : it) : option (mstate * list nat * it) :=
    do (p, x) <- set_pos st p x (ir y) (ic y);
    let x := mk_it (im y) (ir x) (ic x) (ibr x) (ibc x) (ib x) in
    match ib y with Some _ => acquire st p x | None => Some (st, p, x) end.
  (** operator ++: 615-627, 681-693 *)
  Definition next_it (col : bool) (st : mstate) (p : list nat) (x : it) : option (list nat * it) :=
    do ob <- the R st (im x);
    let h := Z.of_nat (oh ob) in let w := Z.of_nat (ow ob) in
    if col then
      if (ir x + 1 <? h)%Z then set_row st p x (ir x + 1) else if (ic x + 1 <? w)%Z then set_pos st p x 0 (ic x + 1) else set_empty st p x
    else
      if (ic x + 1 <? w)%Z then set_col st p x (ic x + 1) else if (ir x + 1 <? h)%Z then set_pos st p x (ir x + 1) 0 else set_empty st p x.
  (** operator --: 630-642, 696-708 *)
  Definition prev_it (col : bool) (st : mstate) (p : list nat) (x : it) : option (list nat * it) :=
    do ob <- the R st (im x);
    let h := Z.of_nat (oh ob) in let w := Z.of_nat (ow ob) in
    if col then
      if (ir x - 1 >=? 0)%Z then set_row st p x (ir x - 1) else if (ic x - 1 >=? 0)%Z then set_pos st p x (h - 1) (ic x - 1) else set_empty st p x
    else
      if (ic x - 1 >=? 0)%Z then set_col st p x (ic x - 1) else if (ir x - 1 >=? 0)%Z then set_pos st p x (ir x - 1) (w - 1) else set_empty st p x.
  (** the element in the acquired block: 577-581, elem_index_in_block_from_elem: 376-381 *)
  Definition elem (st : mstate) (x : it) : option (nat * nat) :=
    do b <- ib x; do M <- data st (im x); Some (b, elem_index B M (Z.to_nat (ir x)) (Z.to_nat (ic x))).

  Definition itn (st : istate) (k : nat) : option it := nth k (its st) None.
  (** the variable k becomes x; a variable that is in use may be declared again only after the end of its life *)
  Definition store_it (st : istate) (m : mstate) (p : list nat) (k : nat) (x : option it) : option istate :=
    if k <? length (its st) then Some (mk_ist m (upd (its st) k x) p) else None.
  Definition fresh (st : istate) (k : nat) : option unit := match itn st k with None => Some tt | Some _ => None end.
  Notation out := (list nat * list R)%type.
  Definition quietly (r : option istate) : option (istate * out) := do st <- r; Some (st, ([], [])).
  (** a statement that moves the iterator k *)
  Definition move (st : istate) (k : nat) (f : mstate -> list nat -> it -> option (list nat * it)) : option (istate * out) :=
    quietly (do x <- itn st k; do (p, x') <- f (ms st) (pins st) x; store_it st (ms st) p k (Some x')).
  Definition it_step (c : icmd R) (st : istate) : option (istate * out) :=
    match c with
    | IMat c => do (m, o) <- m_step R rO radd rmul rsub ropp B c (ms st); Some (mk_ist m (its st) (pins st), o)
    | INew k o r c =>                                                                          (* 1117-1121, 1138-1142 *)
      quietly (do _ <- fresh st k; do m <- unify R rO radd B (ms st) o;
               store_it st m (pins st) k (Some (at_pos o (Z.of_nat r) (Z.of_nat c))))
    | IEnd k o =>                                                                              (* 1126-1130 *)
      quietly (do _ <- fresh st k; do m <- unify R rO radd B (ms st) o; store_it st m (pins st) k (Some (empty_it o)))
    | ICopy k a =>
      quietly (do _ <- fresh st k; do y <- itn st a; do (m, p, x) <- copy_it (ms st) (pins st) y; store_it st m p k (Some x))
    | IAssign k a =>
      quietly (do x <- itn st k; do y <- itn st a; do (m, p, x') <- assign_it (ms st) (pins st) x y; store_it st m p k (Some x'))
    | IDel k =>                                                                                (* 513-514 *)
      quietly (do x <- itn st k; do (p, _) <- release (ms st) (pins st) x; store_it st (ms st) p k None)
    | ISetRow k r => move st k (fun m p x => set_row m p x (Z.of_nat r))
    | ISetCol k c => move st k (fun m p x => set_col m p x (Z.of_nat c))
    | ISetPos k r c => move st k (fun m p x => set_pos m p x (Z.of_nat r) (Z.of_nat c))
    | INext col k => move st k (next_it col)
    | IPrev col k => move st k (prev_it col)
    | IGet k =>
      do x <- itn st k; do (m, p, x) <- acquire (ms st) (pins st) x; do (b, i) <- elem m x;
      do st' <- store_it st m p k (Some x); Some (st', ([], [get R rO (acquired R rO B (sto R m) b) i]))
    | IPut k v =>
      quietly (do x <- itn st k; do (m, p, x) <- acquire (ms st) (pins st) x; do (b, i) <- elem m x;
               store_it st (with_sto R m (put R (sto R m) b (Some (set_elem R rO B (acquired R rO B (sto R m) b) i v)))) p k (Some x))
    | IPos k =>                                                                                (* 555-568 *)
      do x <- itn st k;
      Some (st, (if (ir x =? -1)%Z && (ic x =? -1)%Z then [] else [Z.to_nat (ir x); Z.to_nat (ic x)], []))
    | IEq k a =>                                                                               (* 570-573 *)
      do x <- itn st k; do y <- itn st a;
      Some (st, ([if (ir x =? ir y)%Z && (ic x =? ic y)%Z && (im x =? im y) then 1 else 0], []))
    end.
  Fixpoint it_run (cs : list (icmd R)) (st : istate) : option (istate * list out) :=
    match cs with
    | [] => Some (st, [])
    | c :: cs' => do (st', o) <- it_step c st; do (st'', outs) <- it_run cs' st'; Some (st'', o :: outs)
    end.
  (** a program with n objects and k iterators *)
  Definition it_init (n k : nat) : istate := mk_ist (mk_st R [] [] (repeat None n)) (repeat None k) [].
End Iter.
