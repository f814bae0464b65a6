(** What a caller of parallel multiway merging relies on, in terms of single writes. *)
From Coq Require Import List Bool Arith Permutation.
From Verif Require Import OrderLib MwmergeSpec.
Import ListNotations.

Section Spec.
  Variable A : Type.
  Variable lt : A -> A -> bool.

  (** the single writes of a thread that writes [out] at [pos] *)
  Definition cells (w : nat * list A) : list (nat * A) := combine (seq (fst w) (length (snd w))) (snd w).
  (** memory after writes, the first one of the list first *)
  Fixpoint after (w : list (nat * A)) (mem : nat -> option A) : nat -> option A :=
    match w with [] => mem | (a, v) :: w => after w (fun i => if Nat.eqb i a then Some v else mem i) end.
  (** in whatever order the writes of the threads take place, [out] is in the target and nothing else has changed *)
  Definition target_holds (works : list (nat * list A)) (out : list A) : Prop :=
    forall w, Permutation w (concat (map cells works)) -> forall mem i,
    after w mem i = if Nat.ltb i (length out) then nth_error out i else mem i.
  (** merging [len] elements of [s] (each sequence with what lies behind it) gave [r]: what the threads write, the sequences afterwards, the returned position *)
  Definition par_ok (stable : bool) (s : list (list A * list A)) (len : nat) (r : option (list (nat * list A) * list (list A * list A) * nat)) : Prop :=
    exists works s' out, r = Some (works, s', len) /\ merged lt stable (map fst s) len out (map fst s') /\ map snd s' = map snd s /\ target_holds works out.
  (** no sequence has an element equivalent to one of another sequence *)
  Definition no_ties (seqs : list (list A)) : Prop :=
    forall i j x y, i <> j -> In x (nth i seqs []) -> In y (nth j seqs []) -> lt x y = true \/ lt y x = true.
End Spec.
Arguments cells {A}. Arguments after {A}. Arguments target_holds {A}. Arguments no_ties {A}. Arguments par_ok {A}.
