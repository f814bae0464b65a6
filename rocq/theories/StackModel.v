(** Model of the external stacks: include/stxxl/bits/containers/stack.h.
    [P] = blocks_per_page, [S] = block_type::size (elements per block).
    The 2P buffers of the array [cache] have the numbers 0..2P-1; the iterators front_page etc. are the number of the
    first buffer of the page.  A pointer to an element is (buffer, index), NULL or an invalid pointer is [None].
    m_size is unbounded (in the code 64 bits).  Not modelled: swap, destructors (normal_stack: deletes its blocks;
    grow_shrink_stack: waits, then deletes), I/O errors. *)
From Coq Require Import List Bool Arith ZArith.
From Verif Require Import SumLib AsyncIoModel.
Import ListNotations.
Local Open Scope prog_scope.

(** operations of a stack and what they return *)
Inductive op (A : Type) := Push (v : A) | Pop | Top | SetTop (v : A) | Size | Aggr (n : nat).
Inductive out (A : Type) := OUnit | OVal (v : A) | ONum (n : nat).
Arguments Push {A}. Arguments Pop {A}. Arguments Top {A}. Arguments SetTop {A}. Arguments Size {A}. Arguments Aggr {A}.
Arguments OUnit {A}. Arguments OVal {A}. Arguments ONum {A}.

Section Stacks.
Variable A : Type.
Variables P S : nat.
Notation prog := (prog A).

Definition get_at {R} (c : option (nat * nat)) (k : A -> prog R) : prog R :=
  match c with Some (x, i) => DoGet x i k | None => Err end.
Definition put_at {R} (c : option (nat * nat)) (v : A) (k : prog R) : prog R :=
  match c with Some (x, i) => DoPut x i v k | None => Err end.
Definition last_page (bids : list nat) : list nat := skipn (length bids - P) bids.
Definition but_last_page (bids : list nat) : list nat := firstn (length bids - P) bids.

(** * normal_stack, 60-294 *)
Record nstack := mk_n { n_size : nat; n_off : nat; n_cur : option (nat * nat); n_front : nat; n_back : nat; n_bids : list nat }.
(** 94-104 *)
Definition n_init : nstack := mk_n 0 0 None P 0 [].
(** 285-293 *)
Definition n_element (front back off : nat) : option (nat * nat) :=
  if Nat.ltb off (P * S) then Some (back + off / S, off mod S)
  else Some (front + (off - P * S) / S, (off - P * S) mod S).
(** 201-240 *)
Definition n_push (v : A) (t : nstack) : prog nstack :=
  if Nat.ltb (2 * (P * S)) (n_off t) then Err else
  if Nat.eqb (n_off t) (2 * (P * S)) then
    DoAlloc P (fun l =>
    write_all (seq (n_back t) P) l (fun qs =>
    wait_all qs (
    DoPut (n_back t) 0 v (
    Ret (mk_n (n_size t + 1) (P * S + 1) (Some (n_back t, 0)) (n_back t) (n_front t) (n_bids t ++ l))))))
  else
    let c := n_element (n_front t) (n_back t) (n_off t) in
    put_at c v (Ret (mk_n (n_size t + 1) (n_off t + 1) c (n_front t) (n_back t) (n_bids t))).
(** 244-281; after the last pop current_element is element(-1), an invalid pointer *)
Definition n_pop (t : nstack) : prog nstack :=
  if Nat.ltb (2 * (P * S)) (n_off t) || Nat.eqb (n_off t) 0 || Nat.eqb (n_size t) 0 then Err else
  if Nat.eqb (n_off t) 1 && Nat.leb P (length (n_bids t)) then
    read_all (rev (seq (n_front t) P)) (rev (last_page (n_bids t))) (fun qs =>
    wait_all qs (
    DoFree (last_page (n_bids t)) (
    Ret (mk_n (n_size t - 1) (P * S) (Some (n_front t + (P - 1), S - 1)) (n_back t) (n_front t) (but_last_page (n_bids t))))))
  else
    Ret (mk_n (n_size t - 1) (n_off t - 1)
              (if Nat.eqb (n_off t) 1 then None else n_element (n_front t) (n_back t) (n_off t - 2)) (n_front t) (n_back t) (n_bids t)).
(** 183-187 *)
Definition n_top (t : nstack) : prog A := if Nat.eqb (n_size t) 0 then Err else get_at (n_cur t) Ret.
Definition n_set (v : A) (t : nstack) : prog unit := if Nat.eqb (n_size t) 0 then Err else put_at (n_cur t) v (Ret tt).

(** * grow_shrink_stack, 301-535 *)
Record gstack := mk_g { g_size : nat; g_off : nat; g_cur : option (nat * nat); g_cache : nat; g_over : nat; g_reqs : list (option nat); g_bids : list nat }.
(** 333-346 *)
Definition g_init : gstack := mk_g 0 0 None 0 P (repeat None P) [].
Definition somes (l : list (option nat)) : list nat := flat_map (fun o => match o with Some q => [q] | None => [] end) l.
(** 467-473: wait for the old request of this position, then issue the write *)
Fixpoint g_loop {R} (rq : list (option nat)) (xs bs : list nat) (k : list nat -> prog R) : prog R :=
  match rq, xs, bs with
  | o :: rq', x :: xs', b :: bs' =>
      let next := DoWrite x b (fun q => g_loop rq' xs' bs' (fun qs => k (q :: qs))) in
      match o with Some p => DoWait p next | None => next end
  | _, _, _ => k []
  end.
(** 454-492 *)
Definition g_push (v : A) (t : gstack) : prog gstack :=
  if Nat.ltb (P * S) (g_off t) then Err else
  if Nat.eqb (g_off t) (P * S) then
    DoAlloc P (fun l =>
    g_loop (g_reqs t) (seq (g_cache t) P) l (fun qs =>
    DoPut (g_over t) 0 v (
    Ret (mk_g (g_size t + 1) 1 (Some (g_over t, 0)) (g_over t) (g_cache t) (map Some qs) (g_bids t ++ l)))))
  else
    let c := Some (g_cache t + g_off t / S, g_off t mod S) in
    put_at c v (Ret (mk_g (g_size t + 1) (g_off t + 1) c (g_cache t) (g_over t) (g_reqs t) (g_bids t))).
(** 496-532 *)
Definition g_pop (t : gstack) : prog gstack :=
  if Nat.ltb (P * S) (g_off t) || Nat.eqb (g_off t) 0 || Nat.eqb (g_size t) 0 then Err else
  if Nat.eqb (g_off t) 1 && Nat.leb P (length (g_bids t)) then
    let wait := match g_reqs t with Some _ :: _ => fun k => wait_all (somes (g_reqs t)) k | _ => fun k => k end in
    let rest := but_last_page (g_bids t) in
    let fin rq := DoFree (last_page (g_bids t)) (
                  Ret (mk_g (g_size t - 1) (P * S) (Some (g_over t + (P - 1), S - 1)) (g_over t) (g_cache t) rq rest)) in
    wait (
    if Nat.ltb P (length (g_bids t))
    then read_all (rev (seq (g_cache t) P)) (rev (last_page rest)) (fun qs => fin (map Some (rev qs)))
    else fin (g_reqs t))
  else
    Ret (mk_g (g_size t - 1) (g_off t - 1)
              (if Nat.eqb (g_off t) 1 then None else Some (g_cache t + (g_off t - 2) / S, (g_off t - 2) mod S))
              (g_cache t) (g_over t) (g_reqs t) (g_bids t)).
Definition g_top (t : gstack) : prog A := if Nat.eqb (g_size t) 0 then Err else get_at (g_cur t) Ret.
Definition g_set (v : A) (t : gstack) : prog unit := if Nat.eqb (g_size t) 0 then Err else put_at (g_cur t) v (Ret tt).

(** * grow_shrink_stack2, 540-812.  The read_write_pool is replaced by its specification (C11): write makes the block
    contain the buffer's content, read(..)->wait() delivers the latest content of the block, hint and invalidate have no
    visible effect.  Buffer [s_cache] is the one the stack holds; steal() returns a buffer with a new number, whose
    content is unknown. *)
Record s2stack := mk_s2 { s_size : nat; s_off : nat; s_cache : nat; s_bids : list nat; s_aggr : nat }.
Definition s_init (aggr : nat) : s2stack := mk_s2 0 0 0 [] aggr.
(** bids[i] for i = from downto to (int_type): an access outside the vector is an error *)
Definition in_range (i : Z) (n : nat) : bool := (Z.leb 0 i && Z.ltb i (Z.of_nat n))%Z.
Definition touch {R} (from to : Z) (n : nat) (k : prog R) : prog R :=
  (if Z.ltb from to then k else if in_range from n && in_range to n then k else Err).
(** 800-808 *)
Definition s_rehint {R} (bids : list nat) (aggr : nat) (k : prog R) : prog R :=
  let n := Z.of_nat (length bids) in touch (n - 1) (Z.max (n - Z.of_nat aggr) 0) (length bids) k.
(** 691-720 *)
Definition s_push (v : A) (t : s2stack) : prog s2stack :=
  if Nat.ltb S (s_off t) then Err else
  let fin c off bids := DoPut c off v (Ret (mk_s2 (s_size t + 1) (off + 1) c bids (s_aggr t))) in
  if Nat.eqb (s_off t) S then
    DoAlloc 1 (fun l =>
    match l with
    | [b] =>
      let bids := s_bids t ++ [b] in
      let n := Z.of_nat (length bids) in
      DoWrite (s_cache t) b (fun q => DoWait q (                                 (* pool->write; pool->steal *)
      touch (n - 2) (Z.max (n - Z.of_nat (s_aggr t) - 1) 0) (length bids) (fin (s_cache t + 1) 0 bids)))
    | _ => Err end)
  else fin (s_cache t) (s_off t) (s_bids t).
(** 722-738 *)
Definition s_top (t : s2stack) : prog A :=
  if Nat.eqb (s_size t) 0 || Nat.eqb (s_off t) 0 || Nat.ltb S (s_off t) then Err else DoGet (s_cache t) (s_off t - 1) Ret.
Definition s_set (v : A) (t : s2stack) : prog unit :=
  if Nat.eqb (s_size t) 0 || Nat.eqb (s_off t) 0 || Nat.ltb S (s_off t) then Err else DoPut (s_cache t) (s_off t - 1) v (Ret tt).
(** 744-764 *)
Definition s_pop (t : s2stack) : prog s2stack :=
  if Nat.eqb (s_size t) 0 || Nat.eqb (s_off t) 0 || Nat.ltb S (s_off t) then Err else
  match s_off t, rev (s_bids t) with
  | 1, b :: r =>
      let bids := rev r in
      DoRead (s_cache t) b (fun q => DoWait q (
      DoFree [b] (
      s_rehint bids (s_aggr t) (Ret (mk_s2 (s_size t - 1) S (s_cache t) bids (s_aggr t))))))
  | _, _ => Ret (mk_s2 (s_size t - 1) (s_off t - 1) (s_cache t) (s_bids t) (s_aggr t))
  end.
(** 774-788 *)
Definition s_setaggr (a : nat) (t : s2stack) : prog s2stack :=
  let n := Z.of_nat (length (s_bids t)) in
  let rest := s_rehint (s_bids t) a (Ret (mk_s2 (s_size t) (s_off t) (s_cache t) (s_bids t) a)) in
  if Nat.ltb a (s_aggr t)
  then touch (n - Z.of_nat a - 1) (Z.max (n - Z.of_nat (s_aggr t)) 0) (length (s_bids t)) rest
  else rest.

(** * histories of a stack given by its operations *)
Section Run.
Variable T : Type.
Variables (push : A -> T -> prog T) (pop : T -> prog T) (top : T -> prog A) (set : A -> T -> prog unit) (size : T -> nat)
  (aggr : nat -> T -> prog T).
Definition do_op (o : op A) (t : T) : prog (T * out A) :=
  match o with
  | Push v => let* t' := push v t in Ret (t', OUnit)
  | Pop => let* t' := pop t in Ret (t', OUnit)
  | Top => let* v := top t in Ret (t, OVal v)
  | SetTop v => let* _ := set v t in Ret (t, OUnit)
  | Size => Ret (t, ONum (size t))
  | Aggr n => let* t' := aggr n t in Ret (t', OUnit)
  end.
Fixpoint do_ops (os : list (op A)) (t : T) : prog (T * list (out A)) :=
  match os with
  | [] => Ret (t, [])
  | o :: l => let* r := do_op o t in let* r' := do_ops l (fst r) in Ret (fst r', snd r :: snd r')
  end.
End Run.

(** stacks without set_prefetch_aggr *)
Definition no_aggr {T} (_ : nat) (t : T) : prog T := Ret t.
Definition normal_history := do_ops nstack n_push n_pop n_top n_set n_size no_aggr.
Definition gs_history := do_ops gstack g_push g_pop g_top g_set g_size no_aggr.
Definition gs2_history := do_ops s2stack s_push s_pop s_top s_set s_size s_setaggr.

(** * migrating_stack, 817-959, with an external stack of type [T].  The internal one is a std::stack, here a list with
    the top first. *)
Section Migrating.
Variable T : Type.
Variables (init : T) (push : A -> T -> prog T) (pop : T -> prog T) (top : T -> prog A) (set : A -> T -> prog unit) (size : T -> nat).
Variable crit : nat.
Inductive mstack := MInt (l : list A) | MExt (t : T).
(** the copy constructors of the external stacks, 130-153 and 373-397: tmp[sz-i-1] = top; pop; then push in order *)
Fixpoint push_list (l : list A) (t : T) : prog T :=
  match l with [] => Ret t | v :: m => let* t' := push v t in push_list m t' end.
Definition copy_ctor (l : list A) : prog T := push_list (rev l) init.
(** 927-944 *)
Definition m_push (v : A) (m : mstack) : prog mstack :=
  match m with
  | MInt l => if Nat.eqb (length (v :: l)) crit then let* t := copy_ctor (v :: l) in Ret (MExt t) else Ret (MInt (v :: l))
  | MExt t => let* t' := push v t in Ret (MExt t')
  end.
(** 948-956; pop of an empty std::stack is undefined *)
Definition m_pop (m : mstack) : prog mstack :=
  match m with
  | MInt [] => Err
  | MInt (_ :: l) => Ret (MInt l)
  | MExt t => let* t' := pop t in Ret (MExt t')
  end.
Definition m_top (m : mstack) : prog A := match m with MInt [] => Err | MInt (v :: _) => Ret v | MExt t => top t end.
Definition m_setp (v : A) (m : mstack) : prog mstack :=
  match m with MInt [] => Err | MInt (_ :: l) => Ret (MInt (v :: l)) | MExt t => let* _ := set v t in Ret (MExt t) end.
Definition m_size (m : mstack) : nat := match m with MInt l => length l | MExt t => size t end.
Definition m_op (o : op A) (m : mstack) : prog (mstack * out A) :=
  match o with
  | Push v => let* m' := m_push v m in Ret (m', OUnit)
  | Pop => let* m' := m_pop m in Ret (m', OUnit)
  | Top => let* v := m_top m in Ret (m, OVal v)
  | SetTop v => let* m' := m_setp v m in Ret (m', OUnit)
  | Size => Ret (m, ONum (m_size m))
  | Aggr _ => Ret (m, OUnit)
  end.
Fixpoint m_ops (os : list (op A)) (m : mstack) : prog (mstack * list (out A)) :=
  match os with
  | [] => Ret (m, [])
  | o :: l => let* r := m_op o m in let* r' := m_ops l (fst r) in Ret (fst r', snd r :: snd r')
  end.
End Migrating.
Definition migrating_normal_history crit := m_ops nstack n_init n_push n_pop n_top n_set n_size crit.
Definition migrating_gs_history crit := m_ops gstack g_init g_push g_pop g_top g_set g_size crit.
End Stacks.
Arguments MInt {A T}. Arguments MExt {A T}.
