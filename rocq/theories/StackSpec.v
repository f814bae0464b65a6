(** A stack is a list, top first. *)
From Coq Require Import List.
From Verif Require Import StackModel.
Import ListNotations.

Definition spec_op {A} (o : op A) (l : list A) : option (list A * out A) :=
  match o with
  | Push v => Some (v :: l, OUnit)
  | Pop => match l with [] => None | _ :: t => Some (t, OUnit) end
  | Top => match l with [] => None | v :: _ => Some (l, OVal v) end
  | SetTop v => match l with [] => None | _ :: t => Some (v :: t, OUnit) end
  | Size => Some (l, ONum (length l))
  | Aggr _ => Some (l, OUnit)
  end.
(** [None]: an operation was called that is not allowed on an empty stack *)
Fixpoint spec_ops {A} (os : list (op A)) (l : list A) : option (list A * list (out A)) :=
  match os with
  | [] => Some (l, [])
  | o :: r => match spec_op o l with
              | None => None
              | Some (l1, x) => match spec_ops r l1 with Some (l2, xs) => Some (l2, x :: xs) | None => None end
              end
  end.
