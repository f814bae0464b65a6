(** Model of parallel multiway merging: include/stxxl/bits/parallel/multiway_merge.h 1357-1638 and
    include/stxxl/bits/parallel/equally_split.h 41-54, on top of the models of multiseq_partition
    (MultiseqModel) and of sequential merging (MwmergeModel, whose iterator pairs are used).

    A splitting is the list of its rows: row 0 holds the offsets of the beginnings of the part of
    thread 0, row i + 1 those of the ends of the part of thread i, which are the beginnings of the part
    of thread i + 1 (1398-1423, 1483-1498).  The result is the list of what each thread writes and where.
    None is an access outside an array or a part one of whose sequences has its first iterator behind
    its second one: the loops of the merging test iterators for equality with the end and run past it.
    Simplified: integers are unbounded; the timing and debug code is left out; std::upper_bound and
    std::sort stand for their specification (equivalent samples have the same upper bound); the sample
    index, a product of doubles rounded down, is a parameter [pick]. *)
From Coq Require Import List Bool Arith ZArith.
From Verif Require Import OrderLib MultiseqModel MwmergeModel.
Import ListNotations.

Fixpoint map_all {X Y} (f : X -> option Y) (l : list X) : option (list Y) :=
  match l with [] => Some [] | x :: l => y <- f x ;; r <- map_all f l ;; Some (y :: r) end.

(** equally_split.h 45-50: the loop, from iteration i on *)
Fixpoint starts (k i chunk_length split start : nat) : list nat :=
  match k with
  | 0 => []
  | S k => start :: starts k (S i) chunk_length split (start + (if Nat.ltb i split then chunk_length + 1 else chunk_length))
  end.
(** equally_split.h 41-54 *)
Definition equally_split (n p : nat) : list nat := starts p 0 (n / p) (n mod p) 0 ++ [n].

Section Par.
  Variable A : Type.
  Variable lt : A -> A -> bool.
  Notation seqs := (list (list A * list A)).

  Definition sizes (ne : seqs) : list nat := map (fun r => length (fst r)) ne.
  Definition origin (ne : seqs) : list nat := map (fun _ => 0) ne.

  (** 1447-1501: exact splitting; the last row is computed inside the loop over the other rows (1468-1479) *)
  Definition partition (ne : seqs) (rank : nat) : option (list nat) :=
    option_map (map Z.to_nat) (multiseq_partition A lt (map fst ne) (Z.of_nat rank)).
  Definition exact_splitting (ne : seqs) (len tot p : nat) : option (list (list nat)) :=
    let tight := Nat.eqb tot len in
    offsets <- map_all (partition ne) (firstn (p - 1) (tl (equally_split len p))) ;;
    end_row <- (if tight then Some (sizes ne) else if Nat.leb 2 p then partition ne len else None) ;;
    Some (origin ne :: offsets ++ [end_row]).

  (** std::upper_bound *)
  Fixpoint upper_bound (v : A) (l : list A) : nat :=
    match l with [] => 0 | x :: l => if lt v x then 0 else S (upper_bound v l) end.
  (** 1379-1390: the samples of one sequence; [pick size i] is the index of sample i *)
  Definition samples_of (pick : nat -> nat -> nat) (num_samples : nat) (l : list A) : option (list A) :=
    map_all (fun i => nth_error l (pick (length l) i)) (seq 0 num_samples).
  (** 1361-1426: sampling splitting; merge_oversampling is 10 (settings.h 158) *)
  Definition sampling_splitting (pick : nat -> nat -> nat) (ne : seqs) (len tot p : nat) : option (list (list nat)) :=
    let num_samples := p * 10 in
    samples <- map_all (fun r => samples_of pick num_samples (fst r)) ne ;;
    let samples := ssort lt (concat samples) in
    inner <- map_all (fun slab => v <- nth_error samples (num_samples * length ne * slab / p) ;; Some (map (fun r => upper_bound v (fst r)) ne))
      (seq 1 (p - 1)) ;;
    Some (origin ne :: inner ++ [sizes ne]).

  (** a part: the elements between two rows *)
  Fixpoint cut (ne : seqs) (lo hi : list nat) : option seqs :=
    match ne, lo, hi with
    | [], [], [] => Some []
    | (l, b) :: ne, o :: lo, o' :: hi =>
        if Nat.leb o o' then r <- cut ne lo hi ;; Some ((firstn (o' - o) (skipn o l), skipn o' l ++ b) :: r) else None
    | _, _, _ => None
    end.
  (** 1594-1609: one thread; the position in the target and what is written there *)
  Definition thread (stable copy : bool) (alg : algorithm) (ne : seqs) (len : nat) (rows : list nat * list nat) : option (nat * list A) :=
    let target_position := list_sum (fst rows) in
    part <- cut ne (fst rows) (snd rows) ;;
    if Nat.ltb len target_position then None else
    '(out, _) <- sequential A lt stable false copy alg part (Nat.min (total part) (len - target_position)) ;;
    Some (target_position, out).

  (** 1619-1626: the first iterators of the sequences that are not empty move to the ends of the last part *)
  Fixpoint moved (s : seqs) (ends : list nat) : seqs :=
    match s with
    | [] => []
    | ([], b) :: s => ([], b) :: moved s ends
    | (l, b) :: s => match ends with [] => (l, b) :: s | o :: ends => (skipn o l, b) :: moved s ends end
    end.

  (** 1524-1638; [threads] is SETTINGS::num_threads.  What the threads write, the sequences afterwards, the returned position *)
  Definition parallel (stable copy : bool) (alg : algorithm) (splitting : seqs -> nat -> nat -> nat -> option (list (list nat)))
      (threads : nat) (s : seqs) (len : nat) : option (list (nat * list A) * seqs * nat) :=
    let ne := filter (fun r => negb (Nat.eqb (length (fst r)) 0)) s in
    let tot := total ne in
    if Nat.eqb tot 0 then Some ([], s, 0) else
    let p := Nat.min threads tot in
    rows <- splitting ne len tot p ;;
    works <- map_all (thread stable copy alg ne len) (combine rows (tl rows)) ;;
    Some (works, moved s (last rows []), len).
End Par.
Arguments cut {A}. Arguments moved {A}. Arguments sizes {A}. Arguments origin {A}.
