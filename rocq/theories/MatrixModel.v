(** Model of the external-memory matrix: include/stxxl/bits/containers/matrix.h, matrix_arithmetic.h and the generic part of
    matrix_low_level.h.

    The element type is any type with the operations of a ring.  A block is the list of its BlockSideLength *
    BlockSideLength elements; a block that is not initialised counts as zero, as in matrix_swappable_block (matrix.h
    199-224).  The block scheduler is represented by the contents of its swappable blocks: acquire, release and swapping
    are the subject of BlockSchedModel.v.  The identifier of a freed block is not given out again.  Every access to
    blocks[...] outside of the vector yields None.

    Not modelled here: the statistics, the BLAS specialisations, the simulation run that precedes the product, the
    feedable (multi-level) algorithms (in MatrixFeedModel.v) and the iterators (in MatrixIterModel.v). *)
From Coq Require Import List Arith Bool PeanoNat.
Import ListNotations.

Notation "'do' x <- e ; k" := (match e with Some x => k | None => None end)
  (at level 200, x pattern, e at level 100, k at level 200, right associativity).

Section Mat.
  Variable R : Type.
  Variables (rO : R) (radd rmul rsub : R -> R -> R) (ropp : R -> R).
  Variable B : nat.                                                     (* BlockSideLength *)

  (** ** matrix_low_level.h *)

  Definition get (b : list R) (i : nat) : R := nth i b rO.
  (** switch_major_index: matrix_low_level.h 36-60 *)
  Definition idx (t : bool) (row col : nat) : nat := if t then row + col * B else row * B + col.
  (** the loops over row and col that assign c[row * BlockSideLength + col]; no element of c is read at another index *)
  Definition tab (f : nat -> nat -> R) : list R := map (fun x => f (x / B) (x mod B)) (seq 0 (B * B)).

  (** op(c,a,b), op(c,a), op(a): matrix_arithmetic.h 1034-1068.  scalar_multiplication has no ternary form. *)
  Record elop := mk_op { op3 : R -> R -> R; op2 : R -> R -> R; op1 : R -> R }.
  Definition addition : elop := mk_op radd radd (fun a => a).                                   (* 1034-1049 *)
  Definition subtraction : elop := mk_op rsub rsub ropp.                                        (* 1051-1056 *)
  Definition scalar_multiplication (s : R) : elop :=                                            (* 1058-1066 *)
    mk_op (fun a _ => rmul a s) (fun _ a => rmul a s) (fun a => rmul a s).

  Definition oget (b : option (list R)) (i : nat) : R := match b with Some l => get l i | None => rO end.

  (** low_level_matrix_binary_ass_op: matrix_low_level.h 62-97; a null pointer stands for zeros *)
  Definition ll_binary_ass (o : elop) (ta tb : bool) (a b : option (list R)) : list R :=
    tab (fun r c => op3 o (oget a (idx ta r c)) (oget b (idx tb r c))).
  (** low_level_matrix_unary_ass_op: 99-114 *)
  Definition ll_unary_ass (o : elop) (ta : bool) (c a : list R) : list R :=
    tab (fun r cl => op2 o (get c (idx false r cl)) (get a (idx ta r cl))).
  (** low_level_matrix_unary_op: 116-131 *)
  Definition ll_unary (o : elop) (ta : bool) (a : list R) : list R := tab (fun r c => op1 o (get a (idx ta r c))).
  (** low_level_matrix_multiply_and_add: 133-206.  In each of the four loop nests every element of c receives its
      products in the order of k. *)
  Definition ll_multiply_and_add (a : list R) (ta : bool) (b : list R) (tb : bool) (c : list R) (tc : bool) : list R :=
    let '(a', ta', b', tb') := if tc then (b, negb tb, a, negb ta) else (a, ta, b, tb) in
    tab (fun i j => fold_left (fun acc k => radd acc (rmul (get a' (idx ta' i k)) (get b' (idx tb' k j))))
                              (seq 0 B) (get c (idx false i j))).

  (** ** The blocks *)

  Notation store := (list (option (list R))).
  Definition blk (s : store) (i : nat) : option (list R) := nth i s None.
  Fixpoint put (s : store) (i : nat) (v : option (list R)) : store :=
    match s, i with
    | [], _ => []
    | _ :: s', 0 => v :: s'
    | x :: s', S i' => x :: put s' i' v
    end.
  (** bs.allocate_swappable_block *)
  Definition fresh (s : store) : nat * store := (length s, s ++ [None]).
  (** the content after bs.acquire(c): fill_default on a block without content, matrix.h 209-221 *)
  Definition zeros : list R := repeat rO (B * B).
  Definition acquired (s : store) (c : nat) : list R := match blk s c with Some l => l | None => zeros end.

  (** element_op_swappable_block, c = a op b: matrix_arithmetic.h 1109-1186 *)
  Definition block_op3 (o : elop) (c : nat) (tc : bool) (a : nat) (ta : bool) (b : nat) (tb : bool) (s : store) : store :=
    match blk s a, blk s b with
    | None, None => put s c None
    | ba, bb => put s c (Some (ll_binary_ass o (xorb ta tc) (xorb tb tc) ba bb))
    end.
  (** element_op_swappable_block, c op= a: 1188-1230 *)
  Definition block_op2 (o : elop) (c : nat) (tc : bool) (a : nat) (ta : bool) (s : store) : store :=
    match blk s a with
    | None => s
    | Some la =>
      match blk s c with
      | None => put s c (Some (ll_unary o (xorb ta tc) la))
      | Some lc => put s c (Some (ll_unary_ass o (xorb ta tc) lc la))
      end
    end.
  (** element_op_swappable_block, c = op c: 1231-1254 *)
  Definition block_op1 (o : elop) (c : nat) (s : store) : store :=
    match blk s c with
    | None => s
    | Some lc => put s c (Some (ll_unary o false lc))
    end.
  (** multiply_and_add_swappable_block: 1823-1855 *)
  Definition block_multiply_and_add (a : nat) (ta : bool) (b : nat) (tb : bool) (c : nat) (tc : bool) (s : store) : store :=
    match blk s a, blk s b with
    | Some la, Some lb => put s c (Some (ll_multiply_and_add la ta lb tb (acquired s c) tc))
    | _, _ => s
    end.

  (** ** swappable_block_matrix: matrix.h 226-420 *)

  Record bmat := mk_bmat { ht : nat; wd : nat; ids : list nat; tr : bool }.
  (** block(row, col), operator () : 379-385 *)
  Definition at_ (M : bmat) (row col : nat) : option nat := nth_error (ids M) (row * wd M + col).

  (** for row < h, for col < w *)
  Definition cells (h w : nat) : list (nat * nat) := list_prod (seq 0 h) (seq 0 w).
  Fixpoint for_each {P : Type} (ps : list P) (f : P -> store -> option store) (s : store) : option store :=
    match ps with
    | [] => Some s
    | p :: ps' => do s' <- f p s; for_each ps' f s'
    end.

  (** the body of the constructors: a block of the supermatrix or a new one *)
  Fixpoint fill (pick : nat * nat -> option (option nat)) (ps : list (nat * nat)) (s : store) : option (list nat * store) :=
    match ps with
    | [] => Some ([], s)
    | p :: ps' =>
      do c <- pick p;
      let '(i, s1) := match c with Some i => (i, s) | None => fresh s end in
      do (l, s2) <- fill pick ps' s1;
      Some (i :: l, s2)
    end.
  (** constructor of an empty matrix: 265-279 *)
  Definition alloc (h w : nat) (t : bool) (s : store) : option (bmat * store) :=
    do (l, s') <- fill (fun _ => Some None) (cells h w) s;
    Some (mk_bmat h w l t, s').
  (** constructor of a submatrix: 286-309.  A start behind the end of the supermatrix would give negative sizes. *)
  Definition sub (M : bmat) (h w r0 c0 : nat) (s : store) : option (bmat * store) :=
    if (r0 <=? ht M) && (c0 <=? wd M) then
      let hs := Nat.min (ht M - r0) h in
      let ws := Nat.min (wd M - c0) w in
      do (l, s') <- fill (fun p => if (fst p <? hs) && (snd p <? ws)
                                   then do i <- at_ M (fst p + r0) (snd p + c0); Some (Some i)
                                   else Some None) (cells h w) s;
      Some (mk_bmat h w l (tr M), s')
    else None.
  (** set_zero: 414-418 *)
  Definition set_zero (M : bmat) (s : store) : store := fold_left (fun s i => put s i None) (ids M) s.
  (** transpose: 399-412; bn[col * height + row] = bl(row, col), so the new vector lists the blocks by columns *)
  Definition transpose_ids (M : bmat) : option (list nat) :=
    fold_right (fun p l => do l' <- l; do i <- at_ M (snd p) (fst p); Some (i :: l')) (Some []) (cells (wd M) (ht M)).
  Definition transpose (M : bmat) : option bmat :=
    do l <- transpose_ids M; Some (mk_bmat (wd M) (ht M) l (negb (tr M))).

  (** ** matrix_operations: element operations *)

  (** element_op(C, A, B): matrix_arithmetic.h 1068-1082 *)
  Definition element_op3 (o : elop) (C A Bm : bmat) (s : store) : option store :=
    for_each (cells (ht C) (wd C)) (fun p s =>
      do c <- at_ C (fst p) (snd p); do a <- at_ A (fst p) (snd p); do b <- at_ Bm (fst p) (snd p);
      Some (block_op3 o c (tr C) a (tr A) b (tr Bm) s)) s.
  (** element_op(C, A): 1084-1096 *)
  Definition element_op2 (o : elop) (C A : bmat) (s : store) : option store :=
    for_each (cells (ht C) (wd C)) (fun p s =>
      do c <- at_ C (fst p) (snd p); do a <- at_ A (fst p) (snd p);
      Some (block_op2 o c (tr C) a (tr A) s)) s.
  (** element_op(C): 1098-1107 *)
  Definition element_op1 (o : elop) (C : bmat) (s : store) : option store :=
    for_each (cells (ht C) (wd C)) (fun p s => do c <- at_ C (fst p) (snd p); Some (block_op1 o c s)) s.
  (** copy constructor: matrix.h 339-355, "0 + other is copying" *)
  Definition copy (M : bmat) (s : store) : option (bmat * store) :=
    do (M', s1) <- alloc (ht M) (wd M) false s;
    do s2 <- element_op2 addition M' M s1;
    Some (M', s2).

  (** op_swappable_block_nontransposed: 1340-1364 *)
  Definition nt3 (o : elop) (c a b : bmat) (p : nat * nat) (s : store) : option store :=
    do ic <- at_ c (fst p) (snd p); do ia <- at_ a (fst p) (snd p); do ib <- at_ b (fst p) (snd p);
    Some (block_op3 o ic false ia false ib false s).
  Definition nt2 (o : elop) (c a : bmat) (p : nat * nat) (s : store) : option store :=
    do ic <- at_ c (fst p) (snd p); do ia <- at_ a (fst p) (snd p);
    Some (block_op2 o ic false ia false s).
  (** strassen_winograd_preaddition_a: 1258-1277 *)
  Definition preaddition_a (a11 a12 a21 a22 s1 s2 s3 s4 : bmat) (s : store) : option store :=
    for_each (cells (ht a11) (wd a11)) (fun p s =>
      do s <- nt3 subtraction s3 a11 a21 p s;
      do s <- nt3 addition s1 a21 a22 p s;
      do s <- nt3 subtraction s2 s1 a11 p s;
      nt3 subtraction s4 a12 s2 p s) s.
  (** strassen_winograd_preaddition_b: 1279-1298 *)
  Definition preaddition_b (b11 b12 b21 b22 t1 t2 t3 t4 : bmat) (s : store) : option store :=
    for_each (cells (ht b11) (wd b11)) (fun p s =>
      do s <- nt3 subtraction t3 b22 b12 p s;
      do s <- nt3 subtraction t1 b12 b11 p s;
      do s <- nt3 subtraction t2 b22 t1 p s;
      nt3 subtraction t4 b21 t2 p s) s.
  (** strassen_winograd_postaddition: 1300-1320 *)
  Definition postaddition (c11 c12 c21 c22 p1 p3 p5 : bmat) (s : store) : option store :=
    for_each (cells (ht c11) (wd c11)) (fun p s =>
      do s <- nt2 addition c11 p1 p s;
      do s <- nt2 addition p1 c22 p s;
      do s <- nt2 addition p5 p1 p s;
      do s <- nt2 addition c21 p5 p s;
      do s <- nt3 addition c22 p5 p3 p s;
      do s <- nt2 addition p1 p3 p s;
      nt2 addition c12 p1 p s) s.
  (** element_op_twice_nontransposed: 1322-1338 *)
  Definition twice_nontransposed (o : elop) (c1 c2 a : bmat) (s : store) : option store :=
    for_each (cells (ht a) (wd a)) (fun p s => do s <- nt2 o c1 a p s; nt2 o c2 a p s) s.

  (** ** matrix_operations: products *)

  Record quad := mk_quad { ul : bmat; ur : bmat; dl : bmat; dr : bmat }.
  Definition div_ceil2 (n : nat) : nat := (n + 1) / 2.                                          (* div_ceil(n, 2) *)
  (** swappable_block_matrix_padding_quarterer: 1394-1406 *)
  Definition padding_quarterer (M : bmat) (s : store) : option (quad * store) :=
    let h := div_ceil2 (ht M) in
    let w := div_ceil2 (wd M) in
    do (a, s) <- sub M h w 0 0 s;
    do (b, s) <- sub M h w 0 w s;
    do (c, s) <- sub M h w h 0 s;
    do (d, s) <- sub M h w h w s;
    Some (mk_quad a b c d, s).
  (** swappable_block_matrix_approximative_quarterer: 1408-1420 *)
  Definition approximative_quarterer (M : bmat) (s : store) : option (quad * store) :=
    let h := ht M / 2 in
    let w := wd M / 2 in
    do (a, s) <- sub M h w 0 0 s;
    do (b, s) <- sub M h (wd M - w) 0 w s;
    do (c, s) <- sub M (ht M - h) w h 0 s;
    do (d, s) <- sub M (ht M - h) (wd M - w) h w s;
    Some (mk_quad a b c d, s).

  (** naive_multiply_and_add: 1805-1821 *)
  Definition naive_multiply_and_add (A Bm C : bmat) (s : store) : option store :=
    for_each (cells (ht C) (wd C)) (fun p s =>
      for_each (seq 0 (wd A)) (fun k s =>
        do a <- at_ A (fst p) k; do b <- at_ Bm k (snd p); do c <- at_ C (fst p) (snd p);
        Some (block_multiply_and_add a (tr A) b (tr Bm) c (tr C) s)) s) s.

  Definition ones (n m l : nat) : nat :=
    (if n =? 1 then 1 else 0) + (if m =? 1 then 1 else 0) + (if l =? 1 then 1 else 0).
  (** recursive_multiply_and_add: 1773-1803; None when the fuel is used up *)
  Fixpoint recursive_multiply_and_add (fuel : nat) (A Bm C : bmat) (s : store) : option store :=
    match fuel with
    | 0 => None
    | S f =>
      if ht C * wd C * wd A =? 0 then Some s
      else if 2 <=? ones (ht C) (wd C) (wd A) then naive_multiply_and_add A Bm C s
      else
        do (qa, s) <- approximative_quarterer A s;
        do (qb, s) <- approximative_quarterer Bm s;
        do (qc, s) <- approximative_quarterer C s;
        do s <- recursive_multiply_and_add f (ul qa) (ul qb) (ul qc) s;
        do s <- recursive_multiply_and_add f (ur qa) (dl qb) (ul qc) s;
        do s <- recursive_multiply_and_add f (ur qa) (dr qb) (ur qc) s;
        do s <- recursive_multiply_and_add f (ul qa) (ur qb) (ur qc) s;
        do s <- recursive_multiply_and_add f (dl qa) (ur qb) (dr qc) s;
        do s <- recursive_multiply_and_add f (dr qa) (dr qb) (dr qc) s;
        do s <- recursive_multiply_and_add f (dr qa) (dl qb) (dl qc) s;
        recursive_multiply_and_add f (dl qa) (ul qb) (dl qc) s
    end.
  Definition fuel_of (A C : bmat) : nat := S (ht C + wd C + wd A).
  Definition rec_multiply_and_add (A Bm C : bmat) (s : store) : option store :=
    recursive_multiply_and_add (fuel_of A C) A Bm C s.

  (** strassen_winograd_base_case_size: 2062; the test at the head of the three Strassen-Winograd algorithms *)
  Definition sw_base (A C : bmat) : bool := (ht C <=? 3) || (wd C <=? 3) || (wd A <=? 3).

  (** strassen_winograd_multiply_and_add: 1720-1771 *)
  Fixpoint strassen_winograd_multiply_and_add (fuel : nat) (A Bm C : bmat) (s : store) : option store :=
    match fuel with
    | 0 => None
    | S f =>
      if sw_base A C then rec_multiply_and_add A Bm C s
      else
        do (qa, s) <- padding_quarterer A s;
        do (qb, s) <- padding_quarterer Bm s;
        do (qc, s) <- padding_quarterer C s;
        do (s1, s) <- alloc (ht (ul qa)) (wd (ul qa)) false s;
        do (s2, s) <- alloc (ht (ul qa)) (wd (ul qa)) false s;
        do (s3, s) <- alloc (ht (ul qa)) (wd (ul qa)) false s;
        do (s4, s) <- alloc (ht (ul qa)) (wd (ul qa)) false s;
        do (t1, s) <- alloc (ht (ul qb)) (wd (ul qb)) false s;
        do (t2, s) <- alloc (ht (ul qb)) (wd (ul qb)) false s;
        do (t3, s) <- alloc (ht (ul qb)) (wd (ul qb)) false s;
        do (t4, s) <- alloc (ht (ul qb)) (wd (ul qb)) false s;
        do s <- element_op3 subtraction s3 (ul qa) (dl qa) s;
        do s <- element_op3 addition s1 (dl qa) (dr qa) s;
        do s <- element_op3 subtraction s2 s1 (ul qa) s;
        do s <- element_op3 subtraction s4 (ur qa) s2 s;
        do s <- element_op3 subtraction t3 (dr qb) (ur qb) s;
        do s <- element_op3 subtraction t1 (ur qb) (ul qb) s;
        do s <- element_op3 subtraction t2 (dr qb) t1 s;
        do s <- element_op3 subtraction t4 (dl qb) t2 s;
        do (px, s) <- alloc (ht (ul qc)) (wd (ul qc)) false s;
        do s <- strassen_winograd_multiply_and_add f (ur qa) (dl qb) (ul qc) s;
        do s <- strassen_winograd_multiply_and_add f (ul qa) (ul qb) px s;
        do s <- element_op2 addition (ul qc) px s;
        do s <- strassen_winograd_multiply_and_add f s2 t2 px s;
        do s <- element_op2 addition (ur qc) px s;
        do s <- strassen_winograd_multiply_and_add f s3 t3 px s;
        do s <- element_op2 addition (dl qc) px s;
        do s <- element_op2 addition (dr qc) px s;
        let s := set_zero px s in
        do s <- strassen_winograd_multiply_and_add f (dr qa) t4 (dl qc) s;
        do s <- strassen_winograd_multiply_and_add f s1 t1 px s;
        do s <- element_op2 addition (dr qc) px s;
        do s <- element_op2 addition (ur qc) px s;
        strassen_winograd_multiply_and_add f s4 (dr qb) (ur qc) s
    end.

  (** strassen_winograd_multiply_and_add_interleaved: 1668-1718 *)
  Fixpoint strassen_winograd_multiply_and_add_interleaved (fuel : nat) (A Bm C : bmat) (s : store) : option store :=
    match fuel with
    | 0 => None
    | S f =>
      if sw_base A C then rec_multiply_and_add A Bm C s
      else
        do (qa, s) <- padding_quarterer A s;
        do (qb, s) <- padding_quarterer Bm s;
        do (qc, s) <- padding_quarterer C s;
        do (s1, s) <- alloc (ht (ul qa)) (wd (ul qa)) (tr (ul qa)) s;
        do (s2, s) <- alloc (ht (ul qa)) (wd (ul qa)) (tr (ul qa)) s;
        do (s3, s) <- alloc (ht (ul qa)) (wd (ul qa)) (tr (ul qa)) s;
        do (s4, s) <- alloc (ht (ul qa)) (wd (ul qa)) (tr (ul qa)) s;
        do (t1, s) <- alloc (ht (ul qb)) (wd (ul qb)) (tr (ul qb)) s;
        do (t2, s) <- alloc (ht (ul qb)) (wd (ul qb)) (tr (ul qb)) s;
        do (t3, s) <- alloc (ht (ul qb)) (wd (ul qb)) (tr (ul qb)) s;
        do (t4, s) <- alloc (ht (ul qb)) (wd (ul qb)) (tr (ul qb)) s;
        do s <- preaddition_a (ul qa) (ur qa) (dl qa) (dr qa) s1 s2 s3 s4 s;
        do s <- preaddition_b (ul qb) (ur qb) (dl qb) (dr qb) t1 t2 t3 t4 s;
        do (px, s) <- alloc (ht (ul qc)) (wd (ul qc)) (tr (ul qc)) s;
        do s <- strassen_winograd_multiply_and_add_interleaved f (ur qa) (dl qb) (ul qc) s;
        do s <- strassen_winograd_multiply_and_add_interleaved f (ul qa) (ul qb) px s;
        do s <- element_op2 addition (ul qc) px s;
        do s <- strassen_winograd_multiply_and_add_interleaved f s2 t2 px s;
        let s := set_zero s2 s in
        let s := set_zero t2 s in
        do s <- element_op2 addition (ur qc) px s;
        do s <- strassen_winograd_multiply_and_add_interleaved f s3 t3 px s;
        let s := set_zero s3 s in
        let s := set_zero t3 s in
        do s <- twice_nontransposed addition (dl qc) (dr qc) px s;
        let s := set_zero px s in
        do s <- strassen_winograd_multiply_and_add_interleaved f (dr qa) t4 (dl qc) s;
        let s := set_zero t4 s in
        do s <- strassen_winograd_multiply_and_add_interleaved f s1 t1 px s;
        let s := set_zero s1 s in
        let s := set_zero t1 s in
        do s <- twice_nontransposed addition (dr qc) (ur qc) px s;
        let s := set_zero px s in
        strassen_winograd_multiply_and_add_interleaved f s4 (dr qb) (ur qc) s
    end.

  (** strassen_winograd_multiply: 1623-1666 *)
  Fixpoint strassen_winograd_multiply (fuel : nat) (A Bm C : bmat) (s : store) : option store :=
    match fuel with
    | 0 => None
    | S f =>
      if sw_base A C then rec_multiply_and_add A Bm C (set_zero C s)
      else
        do (qa, s) <- padding_quarterer A s;
        do (qb, s) <- padding_quarterer Bm s;
        do (qc, s) <- padding_quarterer C s;
        do (s1, s) <- alloc (ht (ul qa)) (wd (ul qa)) (tr (ul qa)) s;
        do (s2, s) <- alloc (ht (ul qa)) (wd (ul qa)) (tr (ul qa)) s;
        do (s3, s) <- alloc (ht (ul qa)) (wd (ul qa)) (tr (ul qa)) s;
        do (s4, s) <- alloc (ht (ul qa)) (wd (ul qa)) (tr (ul qa)) s;
        do (t1, s) <- alloc (ht (ul qb)) (wd (ul qb)) (tr (ul qb)) s;
        do (t2, s) <- alloc (ht (ul qb)) (wd (ul qb)) (tr (ul qb)) s;
        do (t3, s) <- alloc (ht (ul qb)) (wd (ul qb)) (tr (ul qb)) s;
        do (t4, s) <- alloc (ht (ul qb)) (wd (ul qb)) (tr (ul qb)) s;
        do s <- preaddition_a (ul qa) (ur qa) (dl qa) (dr qa) s1 s2 s3 s4 s;
        do s <- preaddition_b (ul qb) (ur qb) (dl qb) (dr qb) t1 t2 t3 t4 s;
        do (p1, s) <- alloc (ht (ul qc)) (wd (ul qc)) (tr (ul qc)) s;
        do (p3, s) <- alloc (ht (ul qc)) (wd (ul qc)) (tr (ul qc)) s;
        do (p5, s) <- alloc (ht (ul qc)) (wd (ul qc)) (tr (ul qc)) s;
        do s <- strassen_winograd_multiply f (ul qa) (ul qb) p1 s;
        do s <- strassen_winograd_multiply f (ur qa) (dl qb) (ul qc) s;
        do s <- strassen_winograd_multiply f s1 t1 p3 s;
        do s <- strassen_winograd_multiply f s2 t2 (dr qc) s;
        do s <- strassen_winograd_multiply f s3 t3 p5 s;
        do s <- strassen_winograd_multiply f s4 (dr qb) (ur qc) s;
        do s <- strassen_winograd_multiply f (dr qa) t4 (dl qc) s;
        postaddition (ul qc) (ur qc) (dl qc) (dr qc) p1 p3 p5 s
    end.

  (** ** matrix_operations: products with vectors *)

  Definition set_vec (z : list R) (i : nat) (f : R -> R) : list R :=
    firstn i z ++ match skipn i z with [] => [] | x :: t => f x :: t end.
  (** the order of the two loops depends on the transposition: 1914-1922, 1985-1993 *)
  Definition block_cells (t : bool) (rl cl : nat) : list (nat * nat) :=
    if t then map (fun p => (snd p, fst p)) (cells cl rl) else cells rl cl.
  (** matrix_col_vector_multiply_and_add_swappable_block: 1893-1926.  The offsets lie inside of the vectors. *)
  Definition block_col_vector (s : store) (a : nat) (t : bool) (x z : list R) (ox oz : nat) : list R :=
    match blk s a with
    | None => z
    | Some ia =>
      fold_left (fun z p => set_vec z (oz + fst p) (fun v => radd v (rmul (get x (ox + snd p)) (get ia (idx t (fst p) (snd p))))))
                (block_cells t (Nat.min B (length z - oz)) (Nat.min B (length x - ox))) z
    end.
  (** naive_matrix_col_vector_multiply_and_add: 1881-1891 *)
  Definition naive_col_vector (s : store) (A : bmat) (x z : list R) (ox oz : nat) : option (list R) :=
    fold_left (fun oz' p => do z <- oz'; do a <- at_ A (fst p) (snd p);
                            Some (block_col_vector s a (tr A) x z ((ox + snd p) * B) ((oz + fst p) * B)))
              (cells (ht A) (wd A)) (Some z).
  (** recursive_matrix_col_vector_multiply_and_add: 1857-1879 *)
  Fixpoint recursive_col_vector (fuel : nat) (A : bmat) (x z : list R) (ox oz : nat) (s : store) : option (list R * store) :=
    match fuel with
    | 0 => None
    | S f =>
      if ht A * wd A =? 0 then Some (z, s)
      else if (ht A =? 1) || (wd A =? 1) then do z' <- naive_col_vector s A x z ox oz; Some (z', s)
      else
        do (qa, s) <- approximative_quarterer A s;
        do (z, s) <- recursive_col_vector f (ul qa) x z ox oz s;
        do (z, s) <- recursive_col_vector f (ur qa) x z (ox + wd (ul qa)) oz s;
        do (z, s) <- recursive_col_vector f (dr qa) x z (ox + wd (ul qa)) (oz + ht (ul qa)) s;
        recursive_col_vector f (dl qa) x z ox (oz + ht (ul qa)) s
    end.
  (** matrix_row_vector_multiply_and_add_swappable_block: 1963-1997 *)
  Definition block_row_vector (s : store) (a : nat) (t : bool) (y z : list R) (oy oz : nat) : list R :=
    match blk s a with
    | None => z
    | Some ia =>
      fold_left (fun z p => set_vec z (oz + snd p) (fun v => radd v (rmul (get ia (idx t (fst p) (snd p))) (get y (oy + fst p)))))
                (block_cells t (Nat.min B (length y - oy)) (Nat.min B (length z - oz))) z
    end.
  (** naive_matrix_row_vector_multiply_and_add: 1951-1961 *)
  Definition naive_row_vector (s : store) (A : bmat) (y z : list R) (oy oz : nat) : option (list R) :=
    fold_left (fun oz' p => do z <- oz'; do a <- at_ A (fst p) (snd p);
                            Some (block_row_vector s a (tr A) y z ((oy + fst p) * B) ((oz + snd p) * B)))
              (cells (ht A) (wd A)) (Some z).
  (** recursive_matrix_row_vector_multiply_and_add: 1927-1949 *)
  Fixpoint recursive_row_vector (fuel : nat) (A : bmat) (y z : list R) (oy oz : nat) (s : store) : option (list R * store) :=
    match fuel with
    | 0 => None
    | S f =>
      if ht A * wd A =? 0 then Some (z, s)
      else if (ht A =? 1) || (wd A =? 1) then do z' <- naive_row_vector s A y z oy oz; Some (z', s)
      else
        do (qa, s) <- approximative_quarterer A s;
        do (z, s) <- recursive_row_vector f (ul qa) y z oy oz s;
        do (z, s) <- recursive_row_vector f (dl qa) y z (oy + ht (ul qa)) oz s;
        do (z, s) <- recursive_row_vector f (dr qa) y z (oy + ht (ul qa)) (oz + wd (ul qa)) s;
        recursive_row_vector f (ur qa) y z oy (oz + wd (ul qa)) s
    end.

  (** matrix_from_vectors_swappable_block: 2028-2051.  acquire(a, true) does not fill the block; [junk] stands for what the
      memory contained. *)
  Variable junk : list R.
  Definition block_from_vectors (a : nat) (t : bool) (l r : list R) (ol or_ : nat) (s : store) : store :=
    put s a (Some (fold_left (fun b p => set_vec b (idx t (fst p) (snd p)) (fun _ => rmul (get l (fst p + ol)) (get r (snd p + or_))))
                             (block_cells t (Nat.min B (length l - ol)) (Nat.min B (length r - or_))) junk)).
  (** naive_matrix_from_vectors: 2019-2026; the parameter A is taken by value, that is, copied *)
  Definition naive_from_vectors (A0 : bmat) (l r : list R) (ol or_ : nat) (s : store) : option store :=
    do (A, s) <- copy A0 s;
    for_each (cells (ht A) (wd A)) (fun p s =>
      do a <- at_ A (fst p) (snd p);
      Some (block_from_vectors a (tr A) l r ((ol + fst p) * B) ((or_ + snd p) * B) s)) s.
  (** recursive_matrix_from_vectors: 1996-2017; the parameter A is taken by value, that is, copied *)
  Fixpoint recursive_from_vectors (fuel : nat) (A0 : bmat) (l r : list R) (ol or_ : nat) (s : store) : option store :=
    match fuel with
    | 0 => None
    | S f =>
      do (A, s) <- copy A0 s;
      if ht A * wd A =? 0 then Some s
      else if (ht A =? 1) || (wd A =? 1) then naive_from_vectors A l r ol or_ s
      else
        do (qa, s) <- approximative_quarterer A s;
        do s <- recursive_from_vectors f (ul qa) l r ol or_ s;
        do s <- recursive_from_vectors f (ur qa) l r ol (or_ + wd (ul qa)) s;
        do s <- recursive_from_vectors f (dr qa) l r (ol + ht (ul qa)) (or_ + wd (ul qa)) s;
        recursive_from_vectors f (dl qa) l r (ol + ht (ul qa)) or_ s
    end.

  (** ** class matrix: matrix.h 1038-1420

      The value of a matrix object is its size in elements and its blocks.  Sharing of the blocks between copies
      (counting_ptr) is in MatrixObjModel.v; here each object has blocks of its own. *)
  Record matrix := mk_matrix { mh : nat; mw : nat; md : bmat }.
  Definition blocks_for (n : nat) : nat := (n + (B - 1)) / B.                          (* div_ceil(n, BlockSideLength) *)
  (** constructor: 1078-1088 *)
  Definition m_new (h w : nat) (s : store) : option (matrix * store) :=
    do (M, s') <- alloc (blocks_for h) (blocks_for w) false s;
    Some (mk_matrix h w M, s').
  (** constructor from two vectors: 1091-1102 *)
  Definition m_from_vectors (l r : list R) (s : store) : option (matrix * store) :=
    do (m, s) <- m_new (length l) (length r) s;
    do s <- recursive_from_vectors (S (ht (md m) + wd (md m))) (md m) l r 0 0 s;
    Some (m, s).
  (** transpose: 1147-1152 *)
  Definition m_transpose (m : matrix) : option matrix :=
    do M <- transpose (md m); Some (mk_matrix (mw m) (mh m) M).
  (** operator + and operator -: 1167-1181, operator +=, -=: 1194-1209, scalar products: 1186-1192, 1214-1219 *)
  Definition m_add (a b : matrix) (s : store) : option (matrix * store) :=
    do (m, s) <- m_new (mh a) (mw a) s; do s <- element_op3 addition (md m) (md a) (md b) s; Some (m, s).
  Definition m_sub (a b : matrix) (s : store) : option (matrix * store) :=
    do (m, s) <- m_new (mh a) (mw a) s; do s <- element_op3 subtraction (md m) (md a) (md b) s; Some (m, s).
  Definition m_scale (a : matrix) (x : R) (s : store) : option (matrix * store) :=
    do (m, s) <- m_new (mh a) (mw a) s; do s <- element_op2 (scalar_multiplication x) (md m) (md a) s; Some (m, s).
  Definition m_add_assign (a b : matrix) (s : store) : option store := element_op2 addition (md a) (md b) s.
  Definition m_sub_assign (a b : matrix) (s : store) : option store := element_op2 subtraction (md a) (md b) s.
  Definition m_scale_assign (a : matrix) (x : R) (s : store) : option store := element_op1 (scalar_multiplication x) (md a) s.
  (** operator * (column_vector): 1221-1228; multiply_from_left: 1230-1237 *)
  Definition m_col_vector (a : matrix) (x : list R) (s : store) : option (list R * store) :=
    recursive_col_vector (S (ht (md a) + wd (md a))) (md a) x (repeat rO (mh a)) 0 0 s.
  Definition m_row_vector (y : list R) (a : matrix) (s : store) : option (list R * store) :=
    recursive_row_vector (S (ht (md a) + wd (md a))) (md a) y (repeat rO (mw a)) 0 0 s.
End Mat.
