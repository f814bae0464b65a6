(** What a caller of multiway merging relies on, without any tree, label or queue. *)
From Coq Require Import List Bool Arith Permutation.
From Verif Require Import OrderLib.
Import ListNotations.

Section Spec.
  Variable A : Type.
  Variable lt : A -> A -> bool.

  (** [seqs] were the sequences, [rests] are what is left of them, [taken] went into [out]:
      sorted, and nothing left is smaller than something taken *)
  Definition merges (seqs taken rests : list (list A)) (out : list A) : Prop :=
    length taken = length seqs /\ length rests = length seqs /\
    (forall i, nth i seqs [] = nth i taken [] ++ nth i rests []) /\
    sorted lt out /\ Permutation out (concat taken) /\
    (forall x y, In x (concat taken) -> In y (concat rests) -> le lt x y).
  (** equivalent elements come in the order of the sequences: within the output, and before what is left *)
  Definition in_order (taken rests : list (list A)) (out : list A) : Prop :=
    (forall z, filter (equiv A lt z) out = filter (equiv A lt z) (concat taken)) /\
    (forall i j x y, i < j -> In x (nth i rests []) -> In y (nth j taken []) -> lt y x = true).
  (** the result of merging [len] elements; [stable] as the template parameter *)
  Definition merged (stable : bool) (seqs : list (list A)) (len : nat) (out : list A) (rests : list (list A)) : Prop :=
    length out = len /\ exists taken, merges seqs taken rests out /\ (stable = true -> in_order taken rests out).
  (** behind every sequence lies an element greater than all elements *)
  Definition fenced (seqs : list (list A * list A)) : Prop :=
    Forall (fun r => exists z b, snd r = z :: b /\ forall x, In x (concat (map fst seqs)) -> lt x z = true) seqs.
End Spec.
Arguments merges {A}. Arguments in_order {A}. Arguments merged {A}. Arguments fenced {A}.
