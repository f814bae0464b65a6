(** Model of the multi-level (feedable) variants of the Strassen-Winograd algorithm, algorithms 3 and 6 of matrix::multiply:
    matrix_arithmetic.h 100-1014 and 1422-1600.

    The elements of a block are fed and read one by one to and from all trees in the original; here a tree receives whole
    blocks, the operations on elements being applied to every element of the list.  Elements with different numbers are
    independent, and the blocks read differ from the blocks written.  Blocks freed by the destructors are not used again. *)
From Coq Require Import List Arith Bool PeanoNat.
From Verif Require Import MatrixModel.
Import ListNotations.

Section Feed.
  Variable R : Type.
  Variables (rO : R) (radd rmul rsub : R -> R -> R) (ropp : R -> R).
  Variable B : nat.

  Notation store := (list (option (list R))).
  Notation blk := (blk R). Notation put := (put R). Notation acquired := (acquired R rO B).
  Notation alloc := (alloc R). Notation sub := (sub R).

  (** ilog2_ceil: common/utils.h 176-192 *)
  Definition ilog2_ceil (n : nat) : nat := if n <=? 1 then 0 else Nat.log2 (n - 1) + 1.
  (** round_up_to_power_of_two(n, power): common/utils.h 264-274 *)
  Definition round_up (n power : nat) : nat :=
    if n mod 2 ^ power =? 0 then n else (n / 2 ^ power) * 2 ^ power + 2 ^ power.

  (** static_quadtree: 118-218 *)
  Inductive qt (X : Type) := QL (x : X) | QN (a b c d : qt X).
  Arguments QL {X}. Arguments QN {X}.
  (** operators that work element by element: 163-170, 210-217; None if the depths differ *)
  Fixpoint qmap2 {X Y Z : Type} (f : X -> Y -> Z) (u : qt X) (v : qt Y) : option (qt Z) :=
    match u, v with
    | QL x, QL y => Some (QL (f x y))
    | QN a b c d, QN a' b' c' d' =>
      do r <- qmap2 f a a'; do r' <- qmap2 f b b'; do r'' <- qmap2 f c c'; do r''' <- qmap2 f d d'; Some (QN r r' r'' r''')
    | _, _ => None
    end.
  (** operations on all elements of a block *)
  Definition lmap2 (f : R -> R -> R) (l l' : list R) : list R :=
    map (fun i => f (get R rO l i) (get R rO l' i)) (seq 0 (B * B)).
  Notation qadd := (qmap2 (lmap2 radd)). Notation qsub := (qmap2 (lmap2 rsub)). Notation qand := (qmap2 andb).

  (** feedable_strassen_winograd, the trees of seven products: 220-240, 444-456; the flags are AExists and BExists *)
  Inductive fsw :=
  | FL (ae be : bool) (a b c : bmat)
  | FN (p1 p2 p3 p4 p5 p6 p7 : fsw).

  (** a matrix that is a part of an existing one, or a new one *)
  Definition part := option (bmat * nat * nat).
  Definition operand (e : part) (h w : nat) (s : store) : option (bmat * store) :=
    match e with Some (M, r, c) => sub M h w r c s | None => alloc h w false s end.
  Definition exists_ (e : part) : bool := match e with Some _ => true | None => false end.
  Definition shift (e : part) (r c : nat) : part := match e with Some (M, r0, c0) => Some (M, r0 + r, c0 + c) | None => None end.
  (** the constructors: 242-288, 458-492.  In the base case a and b are both constructed with height n and width l. *)
  Fixpoint make (level : nat) (ea eb : part) (n m l : nat) (s : store) : option (fsw * store) :=
    match level with
    | 0 =>
      do (a, s) <- operand ea n l s;
      do (b, s) <- operand eb n l s;
      do (c, s) <- alloc n m false s;
      Some (FL (exists_ ea) (exists_ eb) a b c, s)
    | S k =>
      let n' := n / 2 in let m' := m / 2 in let l' := l / 2 in
      do (p1, s) <- make k (shift ea 0 0) (shift eb 0 0) n' m' l' s;
      do (p2, s) <- make k (shift ea 0 l') (shift eb l' 0) n' m' l' s;
      do (p3, s) <- make k None None n' m' l' s;
      do (p4, s) <- make k None None n' m' l' s;
      do (p5, s) <- make k None None n' m' l' s;
      do (p6, s) <- make k None (shift eb l' m') n' m' l' s;
      do (p7, s) <- make k (shift ea n' l') None n' m' l' s;
      Some (FN p1 p2 p3 p4 p5 p6 p7, s)
    end.

  (** a block acquired without its content, filled and released as dirty iff it is not a zero block: 494-534 *)
  Definition feed_block (id : nat) (v : list R) (zb : bool) (s : store) : store :=
    if zb then match blk s id with None => s | Some _ => put s id (Some v) end else put s id (Some v).
  (** begin_feeding_a_block, feed_a_element for all elements, end_feeding_a_block: 290-336, 494-513 *)
  Fixpoint feed_a (t : fsw) (row col : nat) (v : qt (list R)) (zb : qt bool) (s : store) : option store :=
    match t, v, zb with
    | FL ae _ a _ _, QL x, QL z => if ae then Some s else do id <- at_ a row col; Some (feed_block id x z s)
    | FN p1 p2 p3 p4 p5 p6 p7, QN vul vur vdl vdr, QN zul zur zdl zdr =>
      do s1 <- qadd vdl vdr; do s2 <- qsub s1 vul; do s3 <- qsub vul vdl; do s4 <- qsub vur s2;
      do z1 <- qand zdl zdr; do z2 <- qand z1 zul; do z3 <- qand zul zdl; do z4 <- qand zur z2;
      do s <- feed_a p1 row col vul zul s;
      do s <- feed_a p2 row col vur zur s;
      do s <- feed_a p3 row col s1 z1 s;
      do s <- feed_a p4 row col s2 z2 s;
      do s <- feed_a p5 row col s3 z3 s;
      do s <- feed_a p6 row col s4 z4 s;
      feed_a p7 row col vdr zdr s
    | _, _, _ => None
    end.
  (** begin_feeding_b_block, feed_b_element for all elements, end_feeding_b_block: 338-384, 515-534 *)
  Fixpoint feed_b (t : fsw) (row col : nat) (v : qt (list R)) (zb : qt bool) (s : store) : option store :=
    match t, v, zb with
    | FL _ be _ b _, QL x, QL z => if be then Some s else do id <- at_ b row col; Some (feed_block id x z s)
    | FN p1 p2 p3 p4 p5 p6 p7, QN vul vur vdl vdr, QN zul zur zdl zdr =>
      do t1 <- qsub vur vul; do t2 <- qsub vdr t1; do t3 <- qsub vdr vur; do t4 <- qsub vdl t2;
      do z1 <- qand zur zul; do z2 <- qand zdr z1; do z3 <- qand zdr zur; do z4 <- qand zdl z2;
      do s <- feed_b p1 row col vul zul s;
      do s <- feed_b p2 row col vdl zdl s;
      do s <- feed_b p3 row col t1 z1 s;
      do s <- feed_b p4 row col t2 z2 s;
      do s <- feed_b p5 row col t3 z3 s;
      do s <- feed_b p6 row col vdr zdr s;
      feed_b p7 row col t4 z4 s
    | _, _, _ => None
    end.
  (** begin_reading_block, read_element for all elements, end_reading_block: 397-440, 539-554; a block that was not
      initialised is released without change *)
  Fixpoint read_block (t : fsw) (row col : nat) (s : store) : option (qt (list R) * qt bool) :=
    match t with
    | FL _ _ _ _ c =>
      do id <- at_ c row col; Some (QL (acquired s id), QL (match blk s id with None => true | Some _ => false end))
    | FN p1 p2 p3 p4 p5 p6 p7 =>
      do (v1, z1) <- read_block p1 row col s;
      do (v2, z2) <- read_block p2 row col s; do vul <- qadd v1 v2; do zul <- qand z1 z2;
      do (v4, z4) <- read_block p4 row col s; do vur <- qadd v1 v4; do zur <- qand z1 z4;
      do (v5, z5) <- read_block p5 row col s; do vdl <- qadd v5 vur; do zdl <- qand z5 zur;
      do (v7, z7) <- read_block p7 row col s; do vdl <- qadd vdl v7; do zdl <- qand zdl z7;
      do (v3, z3) <- read_block p3 row col s; do vur <- qadd vur v3; do zur <- qand zur z3;
      do vdr <- qadd v5 vur; do zdr <- qand z5 zur;
      do (v6, z6) <- read_block p6 row col s; do vur <- qadd vur v6; do zur <- qand zur z6;
      Some (QN vul vur vdl vdr, QN zul zur zdl zdr)
    end.

  (** matrix_to_quadtree, the constructors: 572-585, 670-677 *)
  Fixpoint mtq (level : nat) (M : bmat) (h w r c : nat) (s : store) : option (qt bmat * store) :=
    match level with
    | 0 => do (x, s) <- sub M h w r c s; Some (QL x, s)
    | S k =>
      do (a, s) <- mtq k M (h / 2) (w / 2) r c s;
      do (b, s) <- mtq k M (h / 2) (w / 2) r (c + w / 2) s;
      do (d, s) <- mtq k M (h / 2) (w / 2) (r + h / 2) c s;
      do (e, s) <- mtq k M (h / 2) (w / 2) (r + h / 2) (c + w / 2) s;
      Some (QN a b d e, s)
    end.
  (** get_height_in_blocks, get_width_in_blocks: 649-653, 711-715 *)
  Fixpoint qfirst (q : qt bmat) : bmat := match q with QL x => x | QN a _ _ _ => qfirst a end.
  (** reading a block: 619-647, 694-709 *)
  Fixpoint qread (q : qt bmat) (row col : nat) (s : store) : option (qt (list R) * qt bool) :=
    match q with
    | QL m => do id <- at_ m row col; Some (QL (acquired s id), QL (match blk s id with None => true | Some _ => false end))
    | QN a b c d =>
      do (va, za) <- qread a row col s; do (vb, zb) <- qread b row col s;
      do (vc, zc) <- qread c row col s; do (vd, zd) <- qread d row col s;
      Some (QN va vb vc vd, QN za zb zc zd)
    end.
  (** begin_feeding_block, feed_and_add_element for all elements, end_feeding_block: 587-617, 679-692 *)
  Fixpoint qfeed_add (q : qt bmat) (row col : nat) (v : qt (list R)) (zb : qt bool) (s : store) : option store :=
    match q, v, zb with
    | QL m, QL x, QL z =>
      do id <- at_ m row col; Some (feed_block id (lmap2 radd (acquired s id) x) z s)
    | QN a b c d, QN va vb vc vd, QN za zb' zc zd =>
      do s <- qfeed_add a row col va za s; do s <- qfeed_add b row col vb zb' s;
      do s <- qfeed_add c row col vc zc s; qfeed_add d row col vd zd s
    | _, _, _ => None
    end.

  (** multiply: 386-395; [mul] is choose_level_for_feedable_sw: 536-537 *)
  Fixpoint fmultiply (mul : bmat -> bmat -> bmat -> store -> option store) (t : fsw) (s : store) : option store :=
    match t with
    | FL _ _ a b c => mul a b c s
    | FN p1 p2 p3 p4 p5 p6 p7 =>
      do s <- fmultiply mul p1 s; do s <- fmultiply mul p2 s; do s <- fmultiply mul p3 s; do s <- fmultiply mul p4 s;
      do s <- fmultiply mul p5 s; do s <- fmultiply mul p6 s; fmultiply mul p7 s
    end.

  (** use_feedable_sw: 1546-1600 *)
  Definition use_feedable_sw (level : nat) (mul : bmat -> bmat -> bmat -> store -> option store) (A Bm C : bmat) (s : store)
    : option store :=
    do (t, s) <- make level (Some (A, 0, 0)) (Some (Bm, 0, 0)) (ht C) (wd C) (wd A) s;
    do (qa, s) <- mtq level A (ht A) (wd A) 0 0 s;
    do s <- for_each R (cells (ht (qfirst qa)) (wd (qfirst qa))) (fun p s =>
              do (v, z) <- qread qa (fst p) (snd p) s; feed_a t (fst p) (snd p) v z s) s;
    do (qb, s) <- mtq level Bm (ht Bm) (wd Bm) 0 0 s;
    do s <- for_each R (cells (ht (qfirst qb)) (wd (qfirst qb))) (fun p s =>
              do (v, z) <- qread qb (fst p) (snd p) s; feed_b t (fst p) (snd p) v z s) s;
    do s <- fmultiply mul t s;
    do (qc, s) <- mtq level C (ht C) (wd C) 0 0 s;
    for_each R (cells (ht (qfirst qc)) (wd (qfirst qc))) (fun p s =>
      do (v, z) <- read_block t (fst p) (snd p) s; qfeed_add qc (fst p) (snd p) v z s) s.
  (** the number of levels: 1429, 1506, 1525 *)
  Definition levels (A C : bmat) : nat := ilog2_ceil (Nat.min (wd A) (Nat.min (wd C) (ht C))).
  (** choose_level_for_feedable_sw: 1520-1543 *)
  Fixpoint choose_level (fuel : nat) (A Bm C : bmat) (s : store) : option store :=
    match fuel with
    | 0 => None
    | S f => if levels A C <=? 1 then rec_multiply_and_add R rO radd rmul B A Bm C s
             else use_feedable_sw 2 (choose_level f) A Bm C s
    end.
  (** multi_level_strassen_winograd_multiply_and_add: 1499-1516 *)
  Definition padded (M : bmat) (p : nat) (s : store) : option (bmat * store) := sub M (round_up (ht M) p) (round_up (wd M) p) 0 0 s.
  Definition multi_level (A Bm C : bmat) (s : store) : option store :=
    let p := levels A C in
    do (a, s) <- padded A p s; do (b, s) <- padded Bm p s; do (c, s) <- padded C p s;
    choose_level (S (S p)) a b c s.

  (** ** The variant that works on blocks *)

  (** swappable_block_matrix_quarterer: 1379-1392 *)
  Definition quarterer (M : bmat) (s : store) : option (quad * store) :=
    let h := ht M / 2 in let w := wd M / 2 in
    do (a, s) <- sub M h w 0 0 s; do (b, s) <- sub M h w 0 w s; do (c, s) <- sub M h w h 0 s; do (d, s) <- sub M h w h w s;
    Some (mk_quad a b c d, s).
  (** constructor of a combination: matrix.h 311-337 *)
  Definition combine (a b c d : bmat) : option bmat :=
    do l <- fold_right (fun p l => do l' <- l;
              do i <- (if fst p <? ht a then if snd p <? wd a then at_ a (fst p) (snd p) else at_ b (fst p) (snd p - wd a)
                       else if snd p <? wd a then at_ c (fst p - ht a) (snd p) else at_ d (fst p - ht a) (snd p - wd a));
              Some (i :: l')) (Some []) (cells (ht a + ht c) (wd a + wd b));
    Some (mk_bmat (ht a + ht c) (wd a + wd b) l (tr a)).
  (** matrix_to_quadtree_block_grained with granularity 1, operator (): 975-978, 1004-1007 *)
  Fixpoint qblock (q : qt bmat) (row col : nat) (s : store) : option (bmat * store) :=
    match q with
    | QL m => sub m 1 1 row col s
    | QN a b c d =>
      do (x, s) <- qblock a row col s; do (y, s) <- qblock b row col s;
      do (z, s) <- qblock c row col s; do (w, s) <- qblock d row col s;
      do M <- combine x y z w; Some (M, s)
    end.
  Notation add := (addition R radd).
  (** four new matrices like M *)
  Definition alloc4 (M : bmat) (s : store) : option (bmat * bmat * bmat * bmat * store) :=
    do (a, s) <- alloc (ht M) (wd M) (tr M) s; do (b, s) <- alloc (ht M) (wd M) (tr M) s;
    do (c, s) <- alloc (ht M) (wd M) (tr M) s; do (d, s) <- alloc (ht M) (wd M) (tr M) s;
    Some (a, b, c, d, s).
  (** feed_a: 789-808, 907-915 *)
  Fixpoint bg_feed_a (t : fsw) (row col : nat) (bl : bmat) (s : store) : option store :=
    match t with
    | FL ae _ a _ _ =>
      if ae then Some s else do (at', s) <- sub a (ht bl) (wd bl) row col s; element_op2 R rO B add at' bl s
    | FN p1 p2 p3 p4 p5 p6 p7 =>
      do (q, s) <- quarterer bl s;
      do (s1, s2, s3, s4, s) <- alloc4 (ul q) s;
      do s <- preaddition_a R rO radd rsub ropp B (ul q) (ur q) (dl q) (dr q) s1 s2 s3 s4 s;
      do s <- bg_feed_a p1 row col (ul q) s; do s <- bg_feed_a p2 row col (ur q) s;
      do s <- bg_feed_a p3 row col s1 s; do s <- bg_feed_a p4 row col s2 s; do s <- bg_feed_a p5 row col s3 s;
      do s <- bg_feed_a p6 row col s4 s; bg_feed_a p7 row col (dr q) s
    end.
  (** feed_b: 810-829, 917-925 *)
  Fixpoint bg_feed_b (t : fsw) (row col : nat) (bl : bmat) (s : store) : option store :=
    match t with
    | FL _ be _ b _ =>
      if be then Some s else do (bt, s) <- sub b (ht bl) (wd bl) row col s; element_op2 R rO B add bt bl s
    | FN p1 p2 p3 p4 p5 p6 p7 =>
      do (q, s) <- quarterer bl s;
      do (t1, t2, t3, t4, s) <- alloc4 (ul q) s;
      do s <- preaddition_b R rO rsub ropp B (ul q) (ur q) (dl q) (dr q) t1 t2 t3 t4 s;
      do s <- bg_feed_b p1 row col (ul q) s; do s <- bg_feed_b p2 row col (dl q) s;
      do s <- bg_feed_b p3 row col t1 s; do s <- bg_feed_b p4 row col t2 s; do s <- bg_feed_b p5 row col t3 s;
      do s <- bg_feed_b p6 row col (dr q) s; bg_feed_b p7 row col t4 s
    end.
  (** read_and_add: 842-860, 938-944 *)
  Fixpoint bg_read_and_add (t : fsw) (row col : nat) (bl : bmat) (s : store) : option store :=
    match t with
    | FL _ _ _ _ c =>
      do (ct, s) <- sub c (ht bl) (wd bl) row col s; do s <- element_op2 R rO B add bl ct s; Some (set_zero R ct s)
    | FN p1 p2 p3 p4 p5 p6 p7 =>
      do (q, s) <- quarterer bl s;
      do (px, s) <- alloc (ht (ul q)) (wd (ul q)) (tr (ul q)) s;
      do s <- bg_read_and_add p2 row col (ul q) s;
      do s <- bg_read_and_add p1 row col px s;
      do s <- element_op2 R rO B add (ul q) px s;
      do s <- bg_read_and_add p4 row col px s;
      do s <- element_op2 R rO B add (ur q) px s;
      do s <- bg_read_and_add p5 row col px s;
      do s <- twice_nontransposed R rO B add (dl q) (dr q) px s;
      let s := set_zero R px s in
      do s <- bg_read_and_add p7 row col (dl q) s;
      do s <- bg_read_and_add p3 row col px s;
      do s <- twice_nontransposed R rO B add (dr q) (ur q) px s;
      bg_read_and_add p6 row col (ur q) s
    end.
  (** multiply: 831-840, 927-935 *)
  Definition bg_leaf (mul : bmat -> bmat -> bmat -> store -> option store) (ae be : bool) (a b c : bmat) (s : store) : option store :=
    do s <- mul a b c s;
    let s := if ae then s else set_zero R a s in
    Some (if be then s else set_zero R b s).
  Fixpoint bg_multiply (mul : bmat -> bmat -> bmat -> store -> option store) (t : fsw) (s : store) : option store :=
    match t with
    | FL ae be a b c => bg_leaf mul ae be a b c s
    | FN p1 p2 p3 p4 p5 p6 p7 =>
      do s <- bg_multiply mul p1 s; do s <- bg_multiply mul p2 s; do s <- bg_multiply mul p3 s; do s <- bg_multiply mul p4 s;
      do s <- bg_multiply mul p5 s; do s <- bg_multiply mul p6 s; bg_multiply mul p7 s
    end.
  (** use_feedable_sw_block_grained: 1474-1495; the constructors of the trees are those of 741-787 and 879-905, which are
      [make] *)
  Definition use_bg (level : nat) (mul : bmat -> bmat -> bmat -> store -> option store) (A Bm C : bmat) (s : store) : option store :=
    do (t, s) <- make level (Some (A, 0, 0)) (Some (Bm, 0, 0)) (ht C) (wd C) (wd A) s;
    do (qa, s) <- mtq level A (ht A) (wd A) 0 0 s;
    do s <- for_each R (cells (ht (qfirst qa)) (wd (qfirst qa))) (fun p s =>
              do (bl, s) <- qblock qa (fst p) (snd p) s; bg_feed_a t (fst p) (snd p) bl s) s;
    do (qb, s) <- mtq level Bm (ht Bm) (wd Bm) 0 0 s;
    do s <- for_each R (cells (ht (qfirst qb)) (wd (qfirst qb))) (fun p s =>
              do (bl, s) <- qblock qb (fst p) (snd p) s; bg_feed_b t (fst p) (snd p) bl s) s;
    do s <- bg_multiply mul t s;
    do (qc, s) <- mtq level C (ht C) (wd C) 0 0 s;
    for_each R (cells (ht (qfirst qc)) (wd (qfirst qc))) (fun p s =>
      do (bl, s) <- qblock qc (fst p) (snd p) s; bg_read_and_add t (fst p) (snd p) bl s) s.
  (** multi_level_strassen_winograd_multiply_and_add_block_grained: 1424-1471, with the default
      STXXL_MATRIX_MULTI_LEVEL_STRASSEN_WINOGRAD_MAX_NUM_LEVELS = 3 and BASE_CASE = 2 (22-25).  The second operand of
      use_feedable_sw_block_grained is padded_a. *)
  Fixpoint multi_level_bg (fuel : nat) (A Bm C : bmat) (s : store) : option store :=
    match fuel with
    | 0 => None
    | S f =>
      if levels A C <=? 2 then strassen_winograd_multiply_and_add_interleaved R rO radd rmul rsub ropp B (fuel_of A C) A Bm C s
      else
        do (a, s) <- padded A 3 s; do (b, s) <- padded Bm 3 s; do (c, s) <- padded C 3 s;
        use_bg 3 (multi_level_bg f) a a c s
    end.

  (** multiply: matrix.h 1250-1337.  An invalid number of the algorithm is an error here.  The simulation run and the choice of
      the scheduling algorithm do not change values (BlockSchedModel.v). *)
  Definition m_multiply (alg : nat) (a b : matrix) (s : store) : option (matrix * store) :=
    do (m, s) <- m_new R B (mh a) (mw b) s;
    let f := fuel_of (md a) (md m) in
    do s <- match alg with
            | 0 => naive_multiply_and_add R rO radd rmul B (md a) (md b) (md m) s
            | 1 => rec_multiply_and_add R rO radd rmul B (md a) (md b) (md m) s
            | 2 => strassen_winograd_multiply_and_add R rO radd rmul rsub ropp B f (md a) (md b) (md m) s
            | 3 => multi_level (md a) (md b) (md m) s
            | 4 => strassen_winograd_multiply R rO radd rmul rsub ropp B f (md a) (md b) (md m) s
            | 5 => strassen_winograd_multiply_and_add_interleaved R rO radd rmul rsub ropp B f (md a) (md b) (md m) s
            | 6 => multi_level_bg (S (levels (md a) (md m))) (md a) (md b) (md m) s
            | _ => None
            end;
    Some (m, s).
End Feed.
