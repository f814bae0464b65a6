(** Model of stxxl::stable_ksort, include/stxxl/bits/algo/stable_ksort.h 42-460 (also the classify_block of namespace stable_ksort_local), on top
    of IntKsortModel (intksort.h) and of the streams of ScanModel.

    A vector is the list of the elements of its blocks.  [m] is M / raw_size, [nd] the number of disks, [tk] sizeof(type_key), [l2]
    STXXL_L2_SIZE, [w] the number of bits of a key; [junk] is what arrays of references contain before.
    None: the call does not return normally (insufficient memory throws an exception, a large bucket aborts) or has undefined behaviour:
    - a bucket without elements: nbucket_blocks - 1 is the largest unsigned number, and requests outside of reqs1 are waited for (369);
    - an element whose second-level index is not below k1: its counter is not initialised, or is left over from another bucket (365, 42-55);
    - log_k2 is negative (394).
    Simplified: the requests; the identifiers of the blocks of a bucket (bid_sequence), a bucket is the list of its blocks. *)
From Coq Require Import List Bool Arith NArith ZArith.
From Verif Require Import SumLib ScanModel IntKsortModel.
Import ListNotations.

Section StableKsort.
  Variable A : Type.
  Variable w : N.
  Variable std_sort : list (N * A) -> list (N * A).
  Variable key : A -> N.
  Variables B m nd tk l2 : nat.
  Variable junk : nat -> N * A.
  Notation entry := (N * A)%type.

  (** a bucket: the blocks written so far and the current block *)
  Notation bucket := (list (list A) * list A)%type.
  (** 190-198 *)
  Definition put_bucket (x : A) (b : bucket) : bucket :=
    let c := snd b ++ [x] in if Nat.eqb (length c) B then (fst b ++ [c], []) else (fst b, c).
  (** 208-209 *)
  Definition bucket_size (b : bucket) : nat := B * length (fst b) + length (snd b).
  (** 183-199 *)
  Fixpoint distribute_loop (n : nat) (shift : Z) (nb : nat) (r : list A) (bs : nat -> bucket) : option (nat -> bucket) :=
    match n with
    | 0 => Some bs
    | S n =>
        do (x, r) <- get A r;
        do i <- bucket_of w 0 shift (key x);
        if Nat.ltb i nb then distribute_loop n shift nb r (upd bs i (put_bucket x (bs i))) else None
    end.
  (** 133-217; 155: one block more only if the first one is not used from its start *)
  Definition distribute (v : list A) (first last lognb : nat) : option (nat -> bucket) :=
    do r <- open_in A B v (first / B) (last / B + (if Nat.eqb (first mod B) 0 then 0 else 1));
    do r <- times (first mod B) (fun r => do (_, r) <- get A r; Some r) r;
    distribute_loop (last - first) (Z.of_N w - Z.of_nat lognb) (2 ^ lognb) r (fun _ => ([], [])).

  (** 202-206: the blocks of a bucket on disk *)
  Definition bucket_blocks (b : bucket) : list (list A) := fst b ++ (match snd b with [] => [] | c => [c] end).
  (** 356, 367-382: the elements looked at by classify_block *)
  Definition bucket_elements (b : bucket) : option (list A) :=
    let n := (bucket_size b + B - 1) / B in
    if Nat.eqb n 0 then None else
    let last_block_size := bucket_size b - (n - 1) * B in
    do c <- nth_error (bucket_blocks b) (n - 1);
    Some (concat (firstn (n - 1) (bucket_blocks b)) ++ firstn last_block_size c).

  (** 344, 357 *)
  Definition log_k1 (n : nat) : nat := Nat.max (Nat.log2_up (n * tk / l2)) 1.
  (** 389-413: the elements are put out subbucket after subbucket *)
  Fixpoint subbuckets (n i : nat) (refs2 refs1 : nat -> entry) (cap c : nat) (bucket1 : nat -> nat) (offset1 : N) (shift1 : Z) (out : list A)
    : option (list A) :=
    match n with
    | 0 => Some out
    | S n =>
        let cend := bucket1 i in
        let log_k2 := (ilog2_floor cend - 1)%Z in
        do k2 <- shl1 log_k2;
        do refs1 <- l1sort A w std_sort (slice A refs2 c (cend - c)) refs1 c cap k2 (offset1 + N.shiftl 1 (Z.to_N shift1) * N.of_nat i)%N (shift1 - log_k2);
        subbuckets n (S i) refs2 refs1 cap cend bucket1 offset1 shift1 (out ++ map snd (slice A refs1 c (cend - c)))
    end.
  (** 354-413, bucket [k]; [max_rec] is max_bucket_size_rec *)
  Definition sort_bucket (lognb max_rec k : nat) (b : bucket) : option (list A) :=
    let shift := (Z.of_N w - Z.of_nat lognb)%Z in
    let shift1 := (shift - Z.of_nat (log_k1 max_rec))%Z in
    if Nat.leb (log_k1 (bucket_size b)) (log_k1 max_rec) then
      let k1 := 2 ^ log_k1 (bucket_size b) in
      let offset1 := (N.shiftl 1 (Z.to_N shift) * N.of_nat k)%N in
      do l <- bucket_elements b;
      do (refs1, bucket1) <- classify_block A w key l k1 offset1 shift1;
      do (refs2, bucket1) <- classify A w refs1 junk 0 max_rec (exclusive_prefix_sum bucket1 k1) k1 offset1 shift1;
      subbuckets k1 0 refs2 (store A junk 0 refs1) max_rec 0 bucket1 offset1 shift1 []
    else None.
  Fixpoint sort_buckets (ks : list nat) (lognb max_rec : nat) (bs : nat -> bucket) : option (list A) :=
    match ks with
    | [] => Some []
    | k :: ks => do l <- sort_bucket lognb max_rec k (bs k); do r <- sort_buckets ks lognb max_rec bs; Some (l ++ r)
    end.

  (** the blocks after the stream has written its full blocks *)
  Definition flushed (v : list A) (b : nat) (out : list A) : list A :=
    let n := length out / B * B in firstn (b * B) v ++ firstn n out ++ skipn (b * B + n) v.
  (** 230-460 *)
  Definition stable_ksort (v : list A) (first last : nat) : option (list A) :=
    if Nat.ltb m (4 * nd + 2) then None else
    let lognb := Nat.log2 (m - 4 * nd) in
    let nb := 2 ^ lognb in
    do bs <- distribute v first last lognb;
    let max_bl := (m - 2 * nd) / 2 in
    if existsb (fun k => Nat.ltb (max_bl * B) (bucket_size (bs k))) (seq 0 nb) then None else
    let max_rec := list_max (map (fun k => bucket_size (bs k)) (seq 0 nb)) in
    let head := firstn (first mod B) (skipn (first / B * B) v) in
    do l <- sort_buckets (seq 0 nb) lognb max_rec bs;
    let tail := if Nat.eqb (last mod B) 0 then [] else
                firstn (B - last mod B) (skipn (last mod B) (skipn (last / B * B) (flushed v (first / B) (head ++ l)))) in
    close_out A B v (first / B) (head ++ l ++ tail).
End StableKsort.
