(** Model of stxxl::deque and its iterators (include/stxxl/bits/containers/deque.h), on top of VectorModel.
    [D] = STXXL_DEFAULT_BLOCK_SIZE / sizeof(value_type), the size of the vector of an empty deque.  The assignment *to = *from
    inside std::copy gets two references into the vector; [rf]: which one is computed first.
    assert()s are checked.  Not modelled: swap.  Sizes are unbounded, except in the iterator arithmetic at the end. *)
From Coq Require Import List Bool Arith NArith ZArith.
From Verif Require Import SumLib AsyncIoModel VectorModel.
Import ListNotations.
Local Open Scope prog_scope.

Inductive dop (A : Type) :=
  | DPushFront (v : A) | DPushBack (v : A) | DPopFront | DPopBack
  | DFront | DBack | DGet (mark : bool) (i : nat) (* non-const and const operator [] *) | DSet (i : nat) (v : A)
  | DResize (n : nat) | DClear | DSize
  | DScan | DRevScan. (* all elements, with ++ from begin() to end(); with -- from end() to begin() *)
Inductive dout (A : Type) := DUnit | DVal (v : A) | DNum (n : nat) | DList (l : list A).
Arguments DPushFront {A}. Arguments DPushBack {A}. Arguments DPopFront {A}. Arguments DPopBack {A}. Arguments DFront {A}. Arguments DBack {A}. Arguments DGet {A}. Arguments DSet {A}.
Arguments DResize {A}. Arguments DClear {A}. Arguments DSize {A}. Arguments DScan {A}. Arguments DRevScan {A}.
Arguments DUnit {A}. Arguments DVal {A}. Arguments DNum {A}. Arguments DList {A}.

Section Deque.
Variable A : Type.
Variables S P N D : nat.
Variable PT : Type.
Variable pinit : PT.
Variable kick : PT -> nat * PT.
Variable hit : nat -> PT -> PT.
Variable rf : bool.
Notation prog := (prog A).
Notation vresize := (resize A S P PT).
Notation vget := (get A S P PT kick hit).
Notation vset := (set A S P PT kick hit).

Record dst := mk_d { d_v : vst PT; d_begin : nat; d_end : nat; d_size : nat }.

(** std::copy: n elements, from and to are positions in the vector *)
Fixpoint copy_els (n from to : nat) (t : vst PT) : prog (vst PT) :=
  match n with
  | 0 => Ret t
  | Datatypes.S n' => let* t := assign A S P PT kick hit rf to from t in copy_els n' (from + 1) (to + 1) t
  end.
(** 446-458 and 677-687: make the vector [n] elements long *)
Definition enlarge (n : nat) (t : dst) : prog dst :=
  let old := v_size (d_v t) in
  let* v := vresize n (d_v t) in
  if Nat.ltb (d_end t) (d_begin t) then
    let nb := v_size v - old + d_begin t in
    let* v := copy_els (old - d_begin t) (d_begin t) nb v in
    Ret (mk_d v nb (d_end t) (d_size t))
  else Ret (mk_d v (d_begin t) (d_end t) (d_size t)).
Definition double_array (t : dst) : prog dst := enlarge (2 * v_size (d_v t)) t.

(** 464-472; a new vector with n elements is an empty one after resize(n) *)
Definition d_new (base : nat) : prog dst := let* v := vresize D (v_init N PT pinit base) in Ret (mk_d v 0 0 0).
Definition d_new_n (n base : nat) : prog dst := let* v := vresize (Nat.max D (2 * n)) (v_init N PT pinit base) in Ret (mk_d v 0 n n).

(** 586-598 *)
Definition push_front (x : A) (t : dst) : prog dst :=
  let V := v_size (d_v t) in
  let* t := (if Nat.eqb ((d_begin t + V - 1) mod V) (d_end t) then double_array t else Ret t) in
  let V := v_size (d_v t) in
  let b := (d_begin t + V - 1) mod V in
  let* v := vset b x (d_v t) in
  Ret (mk_d v b (d_end t) (d_size t + 1)).
(** 600-610 *)
Definition push_back (x : A) (t : dst) : prog dst :=
  let V := v_size (d_v t) in
  let* t := (if Nat.eqb ((d_end t + 1) mod V) (d_begin t) then double_array t else Ret t) in
  let* v := vset (d_end t) x (d_v t) in
  Ret (mk_d v (d_begin t) ((d_end t + 1) mod v_size v) (d_size t + 1)).
(** 612-624 *)
Definition pop_front (t : dst) : prog dst :=
  if Nat.eqb (d_size t) 0 then Err else Ret (mk_d (d_v t) ((d_begin t + 1) mod v_size (d_v t)) (d_end t) (d_size t - 1)).
Definition pop_back (t : dst) : prog dst :=
  if Nat.eqb (d_size t) 0 then Err else Ret (mk_d (d_v t) (d_begin t) ((d_end t + v_size (d_v t) - 1) mod v_size (d_v t)) (d_size t - 1)).
(** 545-583 *)
Definition at_el (mark : bool) (i : nat) (t : dst) : prog (dst * A) :=
  if Nat.leb (d_size t) i then Err else
  let* r := vget mark ((d_begin t + i) mod v_size (d_v t)) (d_v t) in Ret (mk_d (fst r) (d_begin t) (d_end t) (d_size t), snd r).
Definition set_el (i : nat) (x : A) (t : dst) : prog dst :=
  if Nat.leb (d_size t) i then Err else
  let* v := vset ((d_begin t + i) mod v_size (d_v t)) x (d_v t) in Ret (mk_d v (d_begin t) (d_end t) (d_size t)).
Definition front (t : dst) : prog (dst * A) :=
  if Nat.eqb (d_size t) 0 then Err else
  let* r := vget true (d_begin t) (d_v t) in Ret (mk_d (fst r) (d_begin t) (d_end t) (d_size t), snd r).
Definition back (t : dst) : prog (dst * A) :=
  if Nat.eqb (d_size t) 0 then Err else
  let* r := vget true ((d_end t + v_size (d_v t) - 1) mod v_size (d_v t)) (d_v t) in Ret (mk_d (fst r) (d_begin t) (d_end t) (d_size t), snd r).
(** 640-647 *)
Definition d_clear (t : dst) : prog dst := let* v := clear A N PT (d_v t) in let* v := vresize D v in Ret (mk_d v 0 0 0).
(** 654-681 *)
Fixpoint pops (k : nat) (t : dst) : prog dst := match k with 0 => Ret t | Datatypes.S k' => let* t := pop_back t in pops k' t end.
Definition d_resize (n : nat) (t : dst) : prog dst :=
  if Nat.ltb n (d_size t) then pops (d_size t - n) t else
  let* t := (if Nat.ltb (v_size (d_v t)) (n + 1) then enlarge (2 * n) t else Ret t) in
  Ret (mk_d (d_v t) (d_begin t) ((d_end t + n - d_size t) mod v_size (d_v t)) n).
(** for (it = begin(); it != end(); ++it) *it, with iterators 130-158; the loop visits at most as many positions as the vector has *)
Fixpoint scan (fuel off : nat) (t : dst) : prog (dst * list A) :=
  if Nat.eqb off (d_end t) then Ret (t, []) else
  match fuel with
  | 0 => Err
  | Datatypes.S f =>
      let* r := vget true off (d_v t) in
      let* r' := scan f ((off + 1) mod v_size (d_v t)) (mk_d (fst r) (d_begin t) (d_end t) (d_size t)) in
      Ret (fst r', snd r :: snd r')
  end.
(** for (it = end(); it != begin(); ) *--it *)
Fixpoint rev_scan (fuel off : nat) (t : dst) : prog (dst * list A) :=
  if Nat.eqb off (d_begin t) then Ret (t, []) else
  match fuel with
  | 0 => Err
  | Datatypes.S f =>
      let off := (off + v_size (d_v t) - 1) mod v_size (d_v t) in
      let* r := vget true off (d_v t) in
      let* r' := rev_scan f off (mk_d (fst r) (d_begin t) (d_end t) (d_size t)) in
      Ret (fst r', snd r :: snd r')
  end.

Definition deque_op (o : dop A) (t : dst) : prog (dst * dout A) :=
  match o with
  | DPushFront v => let* t := push_front v t in Ret (t, DUnit)
  | DPushBack v => let* t := push_back v t in Ret (t, DUnit)
  | DPopFront => let* t := pop_front t in Ret (t, DUnit)
  | DPopBack => let* t := pop_back t in Ret (t, DUnit)
  | DFront => let* r := front t in Ret (fst r, DVal (snd r))
  | DBack => let* r := back t in Ret (fst r, DVal (snd r))
  | DGet m i => let* r := at_el m i t in Ret (fst r, DVal (snd r))
  | DSet i v => let* t := set_el i v t in Ret (t, DUnit)
  | DResize n => let* t := d_resize n t in Ret (t, DUnit)
  | DClear => let* t := d_clear t in Ret (t, DUnit)
  | DSize => Ret (t, DNum (d_size t))
  | DScan => let* r := scan (v_size (d_v t)) (d_begin t) t in Ret (fst r, DList (snd r))
  | DRevScan => let* r := rev_scan (v_size (d_v t)) (d_end t) t in Ret (fst r, DList (snd r))
  end.
Fixpoint deque_ops (os : list (dop A)) (t : dst) : prog (dst * list (dout A)) :=
  match os with
  | [] => Ret (t, [])
  | o :: l => let* r := deque_op o t in let* r' := deque_ops l (fst r) in Ret (fst r', snd r :: snd r')
  end.
(** the destructor: of the vector *)
Definition d_destroy (t : dst) : prog unit := destroy A P N PT (d_v t).
End Deque.
Arguments mk_d {PT}. Arguments d_v {PT}. Arguments d_begin {PT}. Arguments d_end {PT}. Arguments d_size {PT}.

(** * Comparisons, 693-703.  A deque as its iterators see it: the vector, and the positions of begin() and end().
    The vectors are replaced by their contents (C19), None: a position that was never written or is out of range. *)
Record dview (A : Type) := mk_dview { w_vec : list A; w_begin : nat; w_end : nat }.
Arguments mk_dview {A}. Arguments w_vec {A}. Arguments w_begin {A}. Arguments w_end {A}.
Definition next {A} (w : dview A) (off : nat) : nat := (off + 1) mod length (w_vec w).
(** std::equal(a.begin(), a.end(), b.begin()) *)
Fixpoint equal_from {A} (eqb : A -> A -> bool) (fuel : nat) (a b : dview A) (i j : nat) : option bool :=
  if Nat.eqb i (w_end a) then Some true else
  match fuel with
  | 0 => None
  | S f => match nth_error (w_vec a) i, nth_error (w_vec b) j with
           | Some x, Some y => if eqb x y then equal_from eqb f a b (next a i) (next b j) else Some false
           | _, _ => None
           end
  end.
Definition deque_eq {A} eqb (a b : dview A) : option bool := equal_from eqb (length (w_vec a)) a b (w_begin a) (w_begin b).
(** std::lexicographical_compare(a.begin(), a.end(), b.begin(), b.end()) *)
Fixpoint less_from {A} (ltb : A -> A -> bool) (fuel : nat) (a b : dview A) (i j : nat) : option bool :=
  if Nat.eqb i (w_end a) then Some (negb (Nat.eqb j (w_end b))) else if Nat.eqb j (w_end b) then Some false else
  match fuel with
  | 0 => None
  | S f => match nth_error (w_vec a) i, nth_error (w_vec b) j with
           | Some x, Some y => if ltb x y then Some true else if ltb y x then Some false else less_from ltb f a b (next a i) (next b j)
           | _, _ => None
           end
  end.
Definition deque_lt {A} ltb (a b : dview A) : option bool := less_from ltb (length (w_vec a)) a b (w_begin a) (w_begin b).

(** * Iterator arithmetic with 64 bit numbers, 66-106 and 163-198.  [V] = m_vector.size(), [b] = m_begin *)
Local Open Scope N_scope.
Definition M64 : N := 2 ^ 64.
Definition wrap (n : N) : N := n mod M64.
Definition it_plus (V off op : N) : N := wrap (off + op) mod V.
Definition it_minus (V off op : N) : N := wrap (wrap (off + V) + (M64 - op)) mod V.
Definition it_inc (V off : N) : N := wrap (off + 1) mod V.
Definition it_dec (V off : N) : N := wrap (wrap (off + V) + (M64 - 1)) mod V.
Definition abs_off (V b off : N) : N := if b <=? off then off else wrap (V + off).
(** the difference is converted to a signed number *)
Definition signed (n : N) : Z := if n <? 2 ^ 63 then Z.of_N n else (Z.of_N n - Z.of_N M64)%Z.
Definition it_diff (V b x y : N) : Z := signed (wrap (abs_off V b x + (M64 - abs_off V b y))).
Definition it_lt (V b x y : N) : bool := (0 <? it_diff V b y x)%Z.
