(** What users of streams rely on. *)
From Coq Require Import List Bool Arith.
From Verif Require Import StreamModel.
Import ListNotations.

(** a stream in state [s] delivers exactly the elements [l] *)
Fixpoint yields {S A} (I : stream S A) (s : S) (l : list A) : Prop :=
  match l with
  | [] => s_empty I s = true
  | x :: l => s_empty I s = false /\ s_get I s = Some x /\ exists s', s_next I s = Some s' /\ yields I s' l
  end.
(** ... or, if it never ends, f 0, f 1, ... *)
Definition yields_all {S A} (I : stream S A) (s : S) (f : nat -> A) : Prop :=
  exists run : nat -> S, run 0 = s /\ forall n, s_empty I (run n) = false /\ s_get I (run n) = Some (f n) /\ s_next I (run n) = Some (run (n + 1)).

(** the length of the shortest list *)
Definition shortest {A} (ls : list (list A)) : nat := fold_right (fun l m => Nat.min (length l) m) (length (hd [] ls)) ls.
(** row k: the k-th elements of all lists *)
Definition row {A} (k : nat) (ls : list (list A)) : list A := flat_map (fun l => match nth_error l k with Some x => [x] | None => [] end) ls.
Definition rows {A} (ls : list (list A)) : list (list A) := map (fun k => row k ls) (seq 0 (shortest ls)).
(** a function object applied to one argument after the other *)
Fixpoint applied {A B O} (op : O -> A -> O * B) (o : O) (l : list A) : list B :=
  match l with [] => [] | x :: l => let (o, y) := op o x in y :: applied op o l end.
(** n-th result of a generator *)
Fixpoint nth_result {G A} (gen : G -> A * G) (g : G) (n : nat) : A :=
  match n with 0 => fst (gen g) | Datatypes.S n => nth_result gen (snd (gen g)) n end.

(** [out] are the first elements of groups of consecutive elements that match their first one; a group ends before the first element that does not match *)
Inductive collapses {A} (pred : A -> A -> bool) : list A -> list A -> Prop :=
  | collapses_nil : collapses pred [] []
  | collapses_group x ys rest out : Forall (fun y => pred y x = true) ys ->
      (forall y, hd_error rest = Some y -> pred y x = false) -> collapses pred rest out -> collapses pred (x :: ys ++ rest) (x :: out).
