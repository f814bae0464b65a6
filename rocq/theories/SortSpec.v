(** What a user of stxxl::sort / stxxl::ksort relies on, independent of runs and merging. *)
From Coq Require Import List Bool Arith Permutation.
From Verif Require Import OrderLib.
Import ListNotations.

Section Spec.
  Variable A : Type.
  Variable cmp : A -> A -> bool.
  Variables minv maxv : A.
  Variable managed : nat -> bool.

  (** block_manager::new_blocks gives distinct unused blocks (this is C02-C04 for the block manager) *)
  Definition allocates (fresh : nat -> list nat -> nat -> list nat) : Prop :=
    forall c live n, length (fresh c live n) = n /\ NoDup (fresh c live n) /\
      (forall b, In b (fresh c live n) -> ~ In b live /\ managed b = true).

  (** the table of allocated blocks *)
  Definition manager_ok (live : list nat) : Prop := NoDup live /\ forall b, In b live -> managed b = true.

  (** the elements of a vector with block identifiers [bids] *)
  Definition content (disk : nat -> list A) (bids : list nat) : list A := concat (map disk bids).

  (** a vector in external memory: distinct full blocks; those of the block manager are allocated *)
  Record vector_ok (B : nat) (disk : nat -> list A) (live : list nat) (bids : list nat) : Prop := {
    v_nodup : NoDup bids;
    v_full : forall b, In b bids -> length (disk b) = B;
    v_live : forall b, In b bids -> managed b = true -> In b live }.

  (** the sentinels: elements in the range are beyond them or equal to them *)
  Definition between (x : A) : Prop := (cmp minv x = true \/ x = minv) /\ (cmp x maxv = true \/ x = maxv).

  (** [first,last) is sorted, the rest of the vector, every other block and the set of allocated
      blocks are as before *)
  Record sorted_range (B : nat) (disk disk' : nat -> list A) (live live' bids bids' : list nat) (first last : nat) : Prop := {
    r_vector : vector_ok B disk' live' bids';
    r_length : length bids' = length bids;
    r_content : exists mid,
      content disk' bids' = firstn first (content disk bids) ++ mid ++ skipn last (content disk bids) /\
      Permutation mid (firstn (last - first) (skipn first (content disk bids))) /\ sorted cmp mid;
    r_others : forall b, ~ In b bids -> In b live \/ managed b = false -> disk' b = disk b;
    r_manager : manager_ok live';
    r_live : forall b, In b live' <-> (In b live /\ ~ In b bids) \/ (In b bids' /\ managed b = true) }.
End Spec.
Arguments content {A}. Arguments vector_ok {A}. Arguments sorted_range {A}. Arguments between {A}.
