(** Specification of a priority queue (C37): a bag of elements; top() is an element that no
    other exceeds, pop() takes the element shown by top() out. *)
From Coq Require Import List Bool Arith Permutation.
From Verif Require Import OrderLib PqModel.
Import ListNotations.

Section Spec.
  Variable A : Type.
  Variable cmp : A -> A -> bool.
  Variable mn : A.

  (** no element of the bag has a higher priority *)
  Definition best (x : A) (l : list A) : Prop := forall y, In y l -> cmp x y = false.

  Inductive spec_step : list A -> op A -> res A -> list A -> Prop :=
  | sp_push l x : spec_step l (Push x) RUnit (x :: l)
  | sp_top l v : In v l -> best v l -> spec_step l Top (RVal v) l
  | sp_pop l v l' : Permutation l (v :: l') -> best v l -> spec_step l Pop (RVal v) l'
  | sp_size l : spec_step l Size (RNat (length l)) l
  | sp_empty l b : (b = true <-> l = []) -> spec_step l Empty (RBool b) l.
  Inductive spec_run : list A -> list (op A) -> list (res A) -> list A -> Prop :=
  | sr_nil l : spec_run l [] [] l
  | sr_cons l o os r rs l' l'' : spec_step l o r l' -> spec_run l' os rs l'' -> spec_run l (o :: os) (r :: rs) l''.

  (** the preconditions of the operations: values are above min_value(), top and pop only if
      there is an element ([n] is the number of elements) *)
  Fixpoint allowed (n : nat) (os : list (op A)) : Prop :=
    match os with
    | [] => True
    | Push x :: os => cmp mn x = true /\ allowed (S n) os
    | Top :: os => 0 < n /\ allowed n os
    | Pop :: os => 0 < n /\ allowed (n - 1) os
    | Size :: os | Empty :: os => allowed n os
    end.

  (** the contracts of std::push_heap and std::pop_heap *)
  Definition is_heap (l : list A) : Prop :=
    forall i x y, nth_error l (i / 2) = Some x -> nth_error l (S i) = Some y -> cmp x y = false.
  Definition push_heap_ok (f : list A -> list A) : Prop :=
    forall l x, is_heap l -> is_heap (f (l ++ [x])) /\ Permutation (f (l ++ [x])) (l ++ [x]).
  Definition pop_heap_ok (f : list A -> list A) : Prop :=
    forall x l, is_heap (x :: l) -> exists l', f (x :: l) = l' ++ [x] /\ is_heap l' /\ Permutation l' l.
End Spec.

(** parameters under which the queue works *)
Definition config_ok (c : config) : Prop :=
  1 <= c_dbs c <= c_N c /\ 1 <= c_NI c /\ 1 <= c_NE c /\ c_NI c + c_NE c <= 4 /\
  (exists p, c_IK c = 2 ^ p) /\ c_NI c + c_NE c + 1 <= c_IK c /\ 2 <= c_EK c /\
  1 <= c_block c /\ 1 <= c_wpool c.
