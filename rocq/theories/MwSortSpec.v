(** What a caller of the parallel sort relies on. *)
From Coq Require Import List Bool Arith Permutation.
From Verif Require Import OrderLib ParMergeSpec.
Import ListNotations.

Section Spec.
  Variable A : Type.
  Variable lt : A -> A -> bool.
  (** the array [l] is sorted afterwards, in whatever order the writes of the threads take place *)
  Definition sorts_array (stable : bool) (l : list A) (r : option (list (nat * list A))) : Prop :=
    exists works out, r = Some works /\ sorted lt out /\ Permutation out l /\
      (stable = true -> forall z, filter (equiv A lt z) out = filter (equiv A lt z) l) /\
      forall w, Permutation w (concat (map cells works)) -> forall i, after w (nth_error l) i = nth_error out i.
  (** no two elements are equivalent *)
  Definition all_different (l : list A) : Prop := ForallOrdPairs (fun x y => lt x y = true \/ lt y x = true) l.
End Spec.
Arguments sorts_array {A}. Arguments all_different {A}.
