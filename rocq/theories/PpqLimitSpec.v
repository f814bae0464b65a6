(** What a caller of a bulk-limit session relies on: a bag and a limit. *)
From Coq Require Import List Bool Permutation.
From Verif Require Import OrderLib PpqSpec.
Import ListNotations.

Section Spec.
  Variable A : Type.
  Variable lt : A -> A -> bool.
  Inductive lcall := LPush (x : A) | LTop | LPop.
  Inductive lanswer := LNothing | LElem (x : A).
  (** top: the smallest element if it is below the limit, else the limit; pop: such an element is removed *)
  Definition lallowed (limit : A) (bag : list A) (c : lcall) (a : lanswer) (bag' : list A) : Prop :=
    match c, a with
    | LPush x, LNothing => Permutation bag' (x :: bag)
    | LTop, LElem x => Permutation bag' bag /\ ((minimal lt x bag /\ lt x limit = true) \/ (x = limit /\ forall y, In y bag -> lt y limit = false))
    | LPop, LNothing => exists x, minimal lt x bag /\ lt x limit = true /\ Permutation bag (x :: bag')
    | _, _ => False
    end.
  Inductive lconforms (limit : A) : list A -> list (lcall * lanswer) -> list A -> Prop :=
  | lconforms_nil bag : lconforms limit bag [] bag
  | lconforms_cons bag bag' bag'' c a h : lallowed limit bag c a bag' -> lconforms limit bag' h bag'' -> lconforms limit bag ((c, a) :: h) bag''.
End Spec.
Arguments LPush {A}. Arguments LTop {A}. Arguments LPop {A}. Arguments LNothing {A}. Arguments LElem {A}.
Arguments lallowed {A}. Arguments lconforms {A}.
