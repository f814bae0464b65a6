(** Model of parallel multiway mergesort: include/stxxl/bits/parallel/multiway_mergesort.h 110-384, for the default
    of STXXL_MULTIWAY_MERGESORT_COPY_LAST (the threads sort in temporary arrays and merge into the input).

    Rows of offsets, parts and writes as in ParMergeModel.  [srt] is what std::sort does; std::stable_sort has one
    result only.  The cell behind each temporary array (156) is never written, so nothing is readable there.
    None is an access outside an array or a part whose end lies before its beginning.
    Simplified: all threads exist (omp_get_thread_num takes every value); steps between barriers of different
    threads touch different cells up to the merging, whose writes are kept apart; memory management is left out. *)
From Coq Require Import List Bool Arith ZArith.
From Verif Require Import OrderLib MultiseqModel MwmergeModel ParMergeModel.
Import ListNotations.

(** all neighbours in a list *)
Definition neighbours {X} (l : list X) : list (X * X) := combine l (tl l).

Section Sort.
  Variable A : Type.
  Variable lt : A -> A -> bool.
  Variable srt : list A -> list A.
  Notation seqs := (list (list A * list A)).

  (** 353-362, 142, 156-165: the elements from one start to the next *)
  Definition slice (l : list A) (p : nat * nat) : list A := firstn (snd p - fst p) (skipn (fst p) l).
  Definition slices (l : list A) (p : nat) : list (list A) := map (slice l) (neighbours (equally_split (length l) p)).
  Definition local_sort (stable : bool) (l : list A) : list A := if stable then ssort lt l else srt l.
  Definition sorting_places (stable : bool) (l : list A) (p : nat) : seqs := map (fun c => (local_sort stable c, [])) (slices l p).

  (** 213-249: exact; every thread computes the end of its part *)
  Definition exact_pieces (l : list A) (s : seqs) (p : nat) : option (list (list nat)) :=
    inner <- map_all (partition A lt s) (firstn (p - 1) (tl (equally_split (length l) p))) ;;
    Some (origin s :: inner ++ [sizes s]).

  (** 110-123: the samples of a thread, from the input; sort_mwms_oversampling is 10 (settings.h 155) *)
  Definition determine_samples (l : list A) (num_samples : nat) (p : nat * nat) : option (list A) :=
    map_all (fun e => nth_error l (fst p + e)) (firstn num_samples (tl (equally_split (snd p - fst p) (num_samples + 1)))).
  (** std::lower_bound *)
  Fixpoint lower (v : A) (l : list A) : nat :=
    match l with [] => 0 | x :: l => if lt x v then S (lower v l) else 0 end.
  (** 173-212 *)
  Definition sampling_pieces (l : list A) (s : seqs) (p : nat) : option (list (list nat)) :=
    let num_samples := 10 * p - 1 in
    samples <- map_all (determine_samples l num_samples) (neighbours (equally_split (length l) p)) ;;
    let samples := srt (concat samples) in
    inner <- map_all (fun slab => v <- nth_error samples (num_samples * slab) ;; Some (map (fun r => lower v (fst r)) s)) (seq 1 (p - 1)) ;;
    Some (origin s :: inner ++ [sizes s]).

  (** 254-280: one thread merges its part *)
  Definition merge_part (stable copy : bool) (alg : algorithm) (s : seqs) (rows : list nat * list nat) : option (nat * list A) :=
    part <- cut s (fst rows) (snd rows) ;;
    '(out, _) <- sequential A lt stable false copy alg part (total part) ;;
    Some (list_sum (fst rows), out).

  (** 311-384: what is written into the input *)
  Definition mwms (stable copy : bool) (alg : algorithm) (pieces : list A -> seqs -> nat -> option (list (list nat))) (threads : nat) (l : list A)
    : option (list (nat * list A)) :=
    if Nat.leb (length l) 1 then Some [] else
    let p := Nat.min threads (length l) in
    let s := sorting_places stable l p in
    rows <- pieces l s p ;;
    map_all (merge_part stable copy alg s) (neighbours rows).
End Sort.
