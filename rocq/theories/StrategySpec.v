(** What "balanced over the disks" means for a placement function
    [f : block index -> disk]. *)
From Coq Require Import List Arith.
Import ListNotations.

(** every block is placed on one of the disks begin .. begin+D-1 *)
Definition in_range (begin D : nat) (f : nat -> nat) : Prop :=
  forall i, begin <= f i < begin + D.

(** any D consecutive blocks are on different disks *)
Definition consecutive_distinct (D : nat) (f : nat -> nat) : Prop :=
  forall s i j, i < D -> j < D -> f (s + i) = f (s + j) -> i = j.

Definition blocks_on (f : nat -> nat) (s n d : nat) : nat :=
  length (filter (fun i => f i =? d) (seq s n)).

(** any n consecutive blocks put either n/D or n/D+1 blocks on each disk *)
Definition balanced (begin D : nat) (f : nat -> nat) : Prop :=
  forall s n d, begin <= d < begin + D ->
    n / D <= blocks_on f s n d <= n / D + 1 /\ (n mod D = 0 -> blocks_on f s n d = n / D).

Definition good_placement (begin D : nat) (f : nat -> nat) : Prop :=
  in_range begin D f /\ consecutive_distinct D f /\ balanced begin D f.

(** block number k of run r in an interleaving of [nruns] runs *)
Definition run_block (nruns r k : nat) : nat := k * nruns + r.
