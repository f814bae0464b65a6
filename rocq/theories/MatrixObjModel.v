(** Model of matrix objects that share their blocks until one of them is changed: class matrix (matrix.h 1038-1420) with
    counting_ptr (common/counting_ptr.h 40-160).  Statements: MatrixSpec.v.

    An object has its size and a pointer to a swappable_block_matrix.  The reference count of a swappable_block_matrix is
    the number of objects that point to it; iterators do not count.  A swappable_block_matrix that is no longer referenced
    stays in the heap of the model and is not used again. *)
From Coq Require Import List Arith Bool PeanoNat.
From Verif Require Import MatrixModel MatrixFeedModel MatrixSpec.
Import ListNotations.

Section Obj.
  Variable R : Type.
  Variables (rO : R) (radd rmul rsub : R -> R -> R) (ropp : R -> R).
  Variable B : nat.

  Notation store := (list (option (list R))).
  Record mobj := mk_obj { oh : nat; ow : nat; op : nat }.
  Record mstate := mk_st { sto : store; heap : list bmat; objs : list (option mobj) }.

  Definition the (st : mstate) (o : nat) : option mobj := nth o (objs st) None.
  (** the reference count: counting_ptr.h inc_reference, dec_reference *)
  Definition refs (st : mstate) (p : nat) : nat :=
    length (filter (fun x => match x with Some ob => op ob =? p | None => false end) (objs st)).
  Definition unique (st : mstate) (ob : mobj) : bool := refs st (op ob) =? 1.
  (** assignment to the variable o *)
  Definition assign (st : mstate) (o : nat) (x : option mobj) : option mstate :=
    if o <? length (objs st) then Some (mk_st (sto st) (heap st) (upd (objs st) o x)) else None.
  (** a new swappable_block_matrix *)
  Definition push (st : mstate) (M : bmat) (s : store) : nat * mstate :=
    (length (heap st), mk_st s (heap st ++ [M]) (objs st)).
  Definition with_sto (st : mstate) (s : store) : mstate := mk_st s (heap st) (objs st).
  (** unify: counting_ptr.h 150-154 *)
  Definition unify (st : mstate) (o : nat) : option mstate :=
    do ob <- the st o;
    if unique st ob then Some st
    else
      do M <- nth_error (heap st) (op ob);
      do (M', s) <- copy R rO radd B M (sto st);
      let '(p, st') := push st M' s in
      assign st' o (Some (mk_obj (oh ob) (ow ob) p)).
  (** the object as a value: sizes and blocks *)
  Definition as_matrix (st : mstate) (o : nat) : option matrix :=
    do ob <- the st o; do M <- nth_error (heap st) (op ob); Some (mk_matrix (oh ob) (ow ob) M).
  (** the result of an operator is assigned *)
  Definition give (st : mstate) (o : nat) (r : option (matrix * store)) : option mstate :=
    do (m, s) <- r;
    let '(p, st') := push st (md m) s in
    assign st' o (Some (mk_obj (mh m) (mw m) p)).

  (** block_index_from_elem, elem_index_in_block_from_elem: matrix.h 369-381 *)
  Definition elem_block (M : bmat) (i j : nat) : option nat := at_ M (i / B) (j / B).
  Definition elem_index (M : bmat) (i j : nat) : nat := idx B (tr M) (i mod B) (j mod B).
  (** assignment to an element of a block, an array of BlockSideLength * BlockSideLength elements *)
  Definition set_elem (l : list R) (i : nat) (x : R) : list R := map (fun k => if k =? i then x else get R rO l k) (seq 0 (B * B)).
  (** writing through a temporary iterator: 1138-1142, 577-581, 449-462 *)
  Definition put_elem (M : bmat) (i j : nat) (x : R) (s : store) : option store :=
    do b <- elem_block M i j;
    Some (put R s b (Some (set_elem (acquired R rO B s b) (elem_index M i j) x))).
  (** reading through a temporary const_iterator: 1135-1136, 880-884.  The acquired block is kept as initialised; the code
      releases it as not changed, and a block that is not initialised counts as zero before and after *)
  Definition get_elem (M : bmat) (i j : nat) (s : store) : option (R * store) :=
    do b <- elem_block M i j;
    Some (get R rO (acquired R rO B s b) (elem_index M i j), put R s b (Some (acquired R rO B s b))).

  Definition quiet (r : option mstate) : option (mstate * (list nat * list R)) := do st <- r; Some (st, ([], [])).
  Definition m_step (c : mcmd R) (st : mstate) : option (mstate * (list nat * list R)) :=
    match c with
    | CNew o h w => quiet (give st o (m_new R B h w (sto st)))                                  (* 1079-1089 *)
    | CCopy o a => quiet (do ob <- the st a; assign st o (Some ob))
    | CDel o => quiet (assign st o None)
    | CSet o i j x =>                                                                           (* 1138-1142 *)
      quiet (do st <- unify st o; do m <- as_matrix st o; do s <- put_elem (md m) i j x (sto st); Some (with_sto st s))
    | CZero o =>                                                                                (* 1154-1161 *)
      quiet (do ob <- the st o;
             if unique st ob then do m <- as_matrix st o; Some (with_sto st (set_zero R (md m) (sto st)))
             else give st o (m_new R B (oh ob) (ow ob) (sto st)))
    | CTrans o =>                                                                               (* 1147-1152 *)
      quiet (do st <- unify st o; do ob <- the st o; do m <- as_matrix st o; do m' <- m_transpose m;
             assign (mk_st (sto st) (upd (heap st) (op ob) (md m')) (objs st)) o (Some (mk_obj (mh m') (mw m') (op ob))))
    | CAdd o a b =>
      quiet (do m <- as_matrix st a; do n <- as_matrix st b; give st o (m_add R rO radd B m n (sto st)))
    | CSub o a b =>
      quiet (do m <- as_matrix st a; do n <- as_matrix st b; give st o (m_sub R rO rsub ropp B m n (sto st)))
    | CScale o a x => quiet (do m <- as_matrix st a; give st o (m_scale R rO rmul B m x (sto st)))
    | CMul alg o a b =>
      quiet (do m <- as_matrix st a; do n <- as_matrix st b; give st o (m_multiply R rO radd rmul rsub ropp B alg m n (sto st)))
    | CAddTo o b =>
      quiet (do st <- unify st o; do m <- as_matrix st o; do n <- as_matrix st b;
             do s <- m_add_assign R rO radd B m n (sto st); Some (with_sto st s))
    | CSubTo o b =>
      quiet (do st <- unify st o; do m <- as_matrix st o; do n <- as_matrix st b;
             do s <- m_sub_assign R rO rsub ropp B m n (sto st); Some (with_sto st s))
    | CScaleBy o x =>
      quiet (do st <- unify st o; do m <- as_matrix st o; do s <- m_scale_assign R rO rmul B m x (sto st); Some (with_sto st s))
    | CMulBy o b =>                                                                             (* 1208-1209 *)
      quiet (do m <- as_matrix st o; do n <- as_matrix st b; give st o (m_multiply R rO radd rmul rsub ropp B 1 m n (sto st)))
    | CGet o i j =>
      do m <- as_matrix st o; do (x, s) <- get_elem (md m) i j (sto st); Some (with_sto st s, ([], [x]))
    | CDims o => do m <- as_matrix st o; Some (st, ([mh m; mw m], []))
    | CCol o x =>
      do m <- as_matrix st o; do (z, s) <- m_col_vector R rO radd rmul B m x (sto st); Some (with_sto st s, ([], z))
    | CRow o y =>
      do m <- as_matrix st o; do (z, s) <- m_row_vector R rO radd rmul B y m (sto st); Some (with_sto st s, ([], z))
    end.
  Fixpoint m_run (cs : list (mcmd R)) (st : mstate) : option (list (list nat * list R)) :=
    match cs with
    | [] => Some []
    | c :: cs' => do (st', out) <- m_step c st; do outs <- m_run cs' st'; Some (out :: outs)
    end.
  Definition outputs (n : nat) (cs : list (mcmd R)) : option (list (list nat * list R)) :=
    m_run cs (mk_st [] [] (repeat None n)).
End Obj.
