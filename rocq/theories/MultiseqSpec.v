(** What users of the splitting of sorted sequences rely on. *)
From Coq Require Import List Bool Arith ZArith.
From Verif Require Import OrderLib.
Import ListNotations.
Open Scope Z_scope.

Section Spec.
  Variable A : Type.
  Variable lt : A -> A -> bool.

  (** all elements before / behind the given positions *)
  Definition before (seqs : list (list A)) (offs : list Z) : list A := concat (map (fun p => firstn (Z.to_nat (snd p)) (fst p)) (combine seqs offs)).
  Definition behind (seqs : list (list A)) (offs : list Z) : list A := concat (map (fun p => skipn (Z.to_nat (snd p)) (fst p)) (combine seqs offs)).
  (** positions inside the sequences with [rank] elements before them, none greater than one behind *)
  Definition splits_at (seqs : list (list A)) (rank : Z) (offs : list Z) : Prop :=
    Forall2 (fun s o => 0 <= o <= Z.of_nat (length s)) seqs offs /\
    Z.of_nat (length (before seqs offs)) = rank /\
    (forall x y, In x (before seqs offs) -> In y (behind seqs offs) -> le lt x y).
  (** equal elements before come from sequences of smaller number: behind position i there is nothing equivalent to something before position j > i *)
  Definition ties_in_front (seqs : list (list A)) (offs : list Z) : Prop :=
    forall i j si sj oi oj x y, (i < j)%nat -> nth_error seqs i = Some si -> nth_error seqs j = Some sj -> nth_error offs i = Some oi -> nth_error offs j = Some oj ->
    In x (skipn (Z.to_nat oi) si) -> In y (firstn (Z.to_nat oj) sj) -> lt y x = true \/ lt x y = true.
  (** the element of a rank, and its rank among the elements equivalent to it *)
  Definition count (p : A -> bool) (l : list A) : Z := Z.of_nat (length (filter p l)).
  Definition selects (seqs : list (list A)) (rank : Z) (v : A) (offset : Z) : Prop :=
    In v (concat seqs) /\ 0 <= offset < count (fun x => negb (lt x v) && negb (lt v x)) (concat seqs) /\
    rank = count (fun x => lt x v) (concat seqs) + offset.
End Spec.
Arguments splits_at {A}. Arguments ties_in_front {A}. Arguments selects {A}. Arguments before {A}. Arguments behind {A}. Arguments count {A}.
