(** What a user of the loser tree relies on, independent of the tree: the runs are sorted,
    and the blocks come from the prefetcher in the order of their first elements. *)
From Coq Require Import List Bool Arith Permutation.
From Verif Require Import OrderLib.
Import ListNotations.

Section Spec.
  Variable A : Type.
  Variable lt : A -> A -> bool.

  (** A block of a run on disk with its trigger value (sort_helper.h 36-51: trigger_entry);
      the block identifier is replaced by the content of the block. *)
  Notation entry_t := (A * list A)%type.
  Definition trig_lt (a b : entry_t) : bool := lt (fst a) (fst b).

  (** A run on disk: at least one block, the trigger is the first element of its block,
      sorted as a whole. *)
  Definition is_run (r : list entry_t) : Prop :=
    r <> [] /\ Forall (fun b => hd_error (snd b) = Some (fst b)) r /\ sorted lt (concat (map snd r)).

  (** The elements of all runs *)
  Definition elements (runs : list (list entry_t)) : list A := concat (map snd (concat runs)).

  (** [out] is a sorted list of smallest elements of [all] *)
  Definition smallest_first (out all : list A) : Prop :=
    sorted lt out /\
    exists rest, Permutation (out ++ rest) all /\ (forall x y, In x out -> In y rest -> le lt x y).
End Spec.
Arguments elements {A}. Arguments trig_lt {A}. Arguments is_run {A}. Arguments smallest_first {A}.
