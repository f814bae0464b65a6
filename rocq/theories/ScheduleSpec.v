(** A prefetch order of L blocks. *)
From Coq Require Import List Permutation.

(** every block once *)
Definition complete (L : nat) (order : list nat) : Prop := Permutation order (seq 0 L).
(** with m buffers, in the order given, block k is there when the blocks before it have been consumed:
    it is one of the first k + m blocks fetched *)
Definition in_time (m : nat) (order : list nat) : Prop := forall p k, nth_error order p = Some k -> p < k + m.
