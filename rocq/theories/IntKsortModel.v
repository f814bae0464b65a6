(** Model of include/stxxl/bits/algo/intksort.h (the radix sort of keys, lines 24-341) and of its use inside a run of
    ksort (include/stxxl/bits/algo/ksort.h 204-213, 228-281).

    [w] is the number of bits of the unsigned key type (32 or 64: smaller types are promoted to int by C++ and not
    modelled); shifting by w or more, or by a negative amount, is undefined.  An entry is a key and a pointer to an
    element; the pointer is an element of A here.  Arrays are functions with a bound checked on writing and on counting.
    [std_sort] is std::sort (or the parallel sort) of entries with operator< of type_key (ksort.h 92-96), which looks at
    the keys only.  None is undefined behaviour.
    Simplified: reading and writing of blocks (SortModel). *)
From Coq Require Import List Bool Arith NArith ZArith.
From Verif Require Import SumLib.
Import ListNotations.

Section IntKsort.
  Variable A : Type.
  Variable w : N.
  Notation entry := (N * A)%type.
  Variable std_sort : list entry -> list entry.

  (** ksort.h 92-96, stable_ksort.h 67-71 *)
  Definition klt (a b : entry) : bool := N.ltb (fst a) (fst b).

  (** (int_type)((key - offset) >> shift): 34, 69, 335 *)
  Definition bucket_of (offset : N) (shift : Z) (key : N) : option nat :=
    if andb (Z.leb 0 shift) (Z.ltb shift (Z.of_N w)) then
      Some (N.to_nat (N.shiftr ((key + 2 ^ w - offset) mod 2 ^ w) (Z.to_N shift)))
    else None.

  (** bucket[i]++ *)
  Definition incr (K : nat) (bucket : nat -> nat) (i : nat) : option (nat -> nat) :=
    if Nat.ltb i K then Some (upd bucket i (bucket i + 1)) else None.

  (** 24-45, count *)
  Fixpoint count_loop (a : list entry) (bucket : nat -> nat) (K : nat) (offset : N) (shift : Z) : option (nat -> nat) :=
    match a with
    | [] => Some bucket
    | e :: a =>
        match bucket_of offset shift (fst e) with
        | None => None
        | Some i => match incr K bucket i with None => None | Some bucket => count_loop a bucket K offset shift end
        end
    end.
  Definition count (a : list entry) (K : nat) (offset : N) (shift : Z) : option (nat -> nat) :=
    count_loop a (fun _ => 0) K offset shift.

  (** 47-57, exclusive_prefix_sum; [K] iterations from [i] *)
  Fixpoint prefix_loop (n i sum : nat) (bucket : nat -> nat) : nat -> nat :=
    match n with 0 => bucket | S n => prefix_loop n (S i) (sum + bucket i) (upd bucket i sum) end.
  Definition exclusive_prefix_sum (bucket : nat -> nat) (K : nat) : nat -> nat := prefix_loop K 0 0 bucket.

  (** 59-72, classify; the output array b starts at [base] of an array of [cap] entries *)
  Fixpoint classify (a : list entry) (b : nat -> entry) (base cap : nat) (bucket : nat -> nat) (K : nat) (offset : N) (shift : Z)
    : option ((nat -> entry) * (nat -> nat)) :=
    match a with
    | [] => Some (b, bucket)
    | e :: a =>
        match bucket_of offset shift (fst e) with
        | None => None
        | Some i =>
            if andb (Nat.ltb i K) (Nat.ltb (base + bucket i) cap) then
              classify a (upd b (base + bucket i) e) base cap (upd bucket i (bucket i + 1)) K offset shift
            else None
        end
    end.

  (** 74-80 *)
  Definition sort2 (a b : entry) : entry * entry := if klt b a then (b, a) else (a, b).
  (** 82-126 *)
  Definition sort3 (a b c : entry) : entry * entry * entry :=
    if klt b a then
      if klt c a then
        if klt b c then (b, c, a)
        else (c, b, a)
      else (b, a, c)
    else
      if klt c a then (c, a, b)
      else if klt c b then (a, c, b) else (a, b, c).
  (** 128-178 *)
  Definition sort4 (a b c d : entry) : entry * entry * entry * entry :=
    let (a, b) := sort2 a b in
    let (c, d) := sort2 c d in
    if klt c a then
      if klt d a then (c, d, a, b)
      else if klt d b then (c, a, d, b)
      else (c, a, b, d)
    else
      if klt c b then
        if klt d b then (a, c, d, b)
        else (a, c, b, d)
      else (a, b, c, d).
  (** 225-252, insertion_sort; the sorted part is given in reverse; 246: *a is used as a sentinel *)
  Fixpoint move_right (t : entry) (rev_sorted : list entry) : option (list entry) :=
    match rev_sorted with
    | [] => None                                             (* before the array *)
    | x :: r => if klt t x then match move_right t r with None => None | Some r => Some (x :: r) end
                else Some (t :: x :: r)
    end.
  Fixpoint insertion_loop (rev_sorted todo : list entry) : option (list entry) :=
    match todo with
    | [] => Some (rev rev_sorted)
    | t :: todo =>
        if klt t (last rev_sorted t) then insertion_loop (rev_sorted ++ [t]) todo
        else match move_right t rev_sorted with None => None | Some r => insertion_loop r todo end
    end.
  Definition insertion_sort (l : list entry) : option (list entry) :=
    match l with [] => Some [] | x :: r => insertion_loop [x] r end.

  (** 265-307, the switch in cleanup *)
  Definition small_sort (l : list entry) : option (list entry) :=
    match l with
    | [] => Some []
    | [a] => Some [a]
    | [a; b] => let (a, b) := sort2 a b in Some [a; b]
    | [a; b; c] => match sort3 a b c with (a, b, c) => Some [a; b; c] end
    | [a; b; c; d] => match sort4 a b c d with (a, b, c, d) => Some [a; b; c; d] end
    | _ => if Nat.leb (length l) 16 then insertion_sort l else Some (std_sort l)
    end.

  (** entries of an array *)
  Definition slice (b : nat -> entry) (from n : nat) : list entry := map b (seq from n).
  Fixpoint store (b : nat -> entry) (from : nat) (l : list entry) : nat -> entry :=
    match l with [] => b | e :: l => store (upd b from e) (S from) l end.

  (** 256-310, cleanup; [c] is the current start, [n] iterations from [i] *)
  Fixpoint cleanup_loop (n i : nat) (b : nat -> entry) (base c : nat) (bucket : nat -> nat) : option (nat -> entry) :=
    match n with
    | 0 => Some b
    | S n =>
        let cend := base + bucket i in
        match small_sort (slice b c (cend - c)) with
        | None => None
        | Some l => cleanup_loop n (S i) (store b c l) base cend bucket
        end
    end.
  Definition cleanup (b : nat -> entry) (base : nat) (bucket : nat -> nat) (K : nat) : option (nat -> entry) :=
    cleanup_loop K 0 b base base bucket.

  (** 312-326, l1sort *)
  Definition l1sort (a : list entry) (b : nat -> entry) (base cap K : nat) (offset : N) (shift : Z) : option (nat -> entry) :=
    match count a K offset shift with
    | None => None
    | Some bucket =>
        match classify a b base cap (exclusive_prefix_sum bucket K) K offset shift with
        | None => None
        | Some (b, bucket) => cleanup b base bucket K
        end
    end.

  (** 328-341, classify_block of all blocks of a run: the references and the counts *)
  Definition classify_block (key : A -> N) (l : list A) (K : nat) (offset : N) (shift : Z) : option (list entry * (nat -> nat)) :=
    let refs := map (fun x => (key x, x)) l in
    match count refs K offset shift with None => None | Some bucket => Some (refs, bucket) end.

  (** common/utils.h 177-192 *)
  Definition ilog2_floor (n : nat) : Z := Z.of_nat (Nat.log2 n).
  Definition ilog2_ceil (n : nat) : Z := Z.of_nat (Nat.log2_up n).
  (** 1 << s *)
  Definition shl1 (s : Z) : option nat := if Z.leb 0 s then Some (2 ^ Z.to_nat s) else None.

  (** ksort.h 260-281: bucket after bucket is sorted from refs2 into refs1 *)
  Fixpoint buckets_loop (n i : nat) (refs2 refs1 : nat -> entry) (cap c : nat) (bucket1 : nat -> nat) (k2 : nat) (shift1 shift2 : Z)
    : option (nat -> entry) :=
    match n with
    | 0 => Some refs1
    | S n =>
        let cend := bucket1 i in
        match l1sort (slice refs2 c (cend - c)) refs1 c cap k2 (N.shiftl 1 (Z.to_N shift1) * N.of_nat i)%N shift2 with
        | None => None
        | Some refs1 => buckets_loop n (S i) refs2 refs1 cap cend bucket1 k2 shift1 shift2
        end
    end.

  (** ksort.h 204-213, 228-281: one run of the elements [l]; [n] is m2 * BlockType::size, the capacity of the arrays of
      references, [tk] is sizeof(type_key_), [l2] is STXXL_L2_SIZE; [junk] is what the arrays contain before. *)
  Definition ksort_run_sort (key : A -> N) (n tk l2 : nat) (junk : nat -> entry) (l : list A) : option (list A) :=
    let q := n * tk / l2 in
    let log_k1 := ilog2_ceil (if Nat.eqb q 0 then 2 else q) in
    let log_k2 := (ilog2_floor n - log_k1 - 1)%Z in
    match shl1 log_k1, shl1 log_k2 with
    | Some k1, Some k2 =>
        let shift1 := (Z.of_N w - log_k1)%Z in
        let shift2 := (shift1 - log_k2)%Z in
        match classify_block key l k1 0 shift1 with
        | None => None
        | Some (refs1, bucket1) =>
            if Nat.ltb n (length refs1) then None else
            match classify refs1 junk 0 n (exclusive_prefix_sum bucket1 k1) k1 0 shift1 with
            | None => None
            | Some (refs2, bucket1) =>
                match buckets_loop k1 0 refs2 (store junk 0 refs1) n 0 bucket1 k2 shift1 shift2 with
                | None => None
                | Some refs1 => Some (map snd (slice refs1 0 (length l)))
                end
            end
        end
    | _, _ => None
    end.
End IntKsort.
