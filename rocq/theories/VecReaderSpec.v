(** What a reader of a range delivers: [l] is the range in the order of the reader, [k] what is left of it. *)
From Coq Require Import List Bool Arith.
From Verif Require Import VecReaderModel.
Import ListNotations.

Section Spec.
Context {A : Type}.
Variable rev : bool.
(** [None]: not allowed *)
Fixpoint rspec (l k : list A) (os : list rop) : option (list (rout A)) :=
  match os with
  | [] => Some []
  | o :: os' =>
    match o, k with
    | RGet, v :: k' => option_map (cons (OVal A v)) (rspec l k' os')
    | RCurrent, v :: _ => option_map (cons (OVal A v)) (rspec l k os')
    | RIncr, _ :: k' => rspec l k' os'
    | RRewind, _ => rspec l l os'
    | RSize, _ => option_map (cons (ONum A (length k))) (rspec l k os')
    | REmpty, _ => option_map (cons (OBool A (Nat.eqb (length k) 0))) (rspec l k os')
    | RFor, _ => if negb rev && Nat.eqb (length k) (length l) then option_map (cons (OList A l)) (rspec l [] os') else None
    | _, _ => None
    end
  end.
(** the elements [a, e) of a vector *)
Definition range (v : list A) (a e : nat) : list A := firstn (e - a) (skipn a v).
End Spec.
