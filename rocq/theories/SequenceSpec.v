(** A sequence is a list, front first. *)
From Coq Require Import List.
From Verif Require Import SequenceModel.
Import ListNotations.

Definition back {A} (l : list A) : option A := match rev l with [] => None | v :: _ => Some v end.
Definition arg_val {A} (a : arg A) (l : list A) : option A :=
  match a with Val v => Some v | RefFront => hd_error l | RefBack => back l end.
(** [None]: an operation was called that is not allowed on an empty sequence *)
Definition spec_op {A} (o : sop A) (l : list A) : option (list A * sout_ A) :=
  match o with
  | PushFront a => match arg_val a l with Some v => Some (v :: l, OUnit) | None => None end
  | PushBack a => match arg_val a l with Some v => Some (l ++ [v], OUnit) | None => None end
  | PopFront => match l with [] => None | _ :: t => Some (t, OUnit) end
  | PopBack => match l with [] => None | _ => Some (removelast l, OUnit) end
  | Front => match hd_error l with Some v => Some (l, OVal v) | None => None end
  | Back => match back l with Some v => Some (l, OVal v) | None => None end
  | SetFront v => match l with [] => None | _ :: t => Some (v :: t, OUnit) end
  | SetBack v => match l with [] => None | _ => Some (removelast l ++ [v], OUnit) end
  | Size => Some (l, ONum (length l))
  | Stream => Some (l, OList l)
  | RevStream => Some (l, OList (rev l))
  end.
Fixpoint spec_ops {A} (os : list (sop A)) (l : list A) : option (list A * list (sout_ A)) :=
  match os with
  | [] => Some (l, [])
  | o :: r => match spec_op o l with
              | None => None
              | Some (l1, x) => match spec_ops r l1 with Some (l2, xs) => Some (l2, x :: xs) | None => None end
              end
  end.

(** the operations of a queue *)
Definition queue_op {A} (o : sop A) : bool :=
  match o with PushBack _ | PopFront | Front | Back | SetFront _ | SetBack _ | Size => true | _ => false end.
(** nothing of the container itself is passed by reference to push *)
Definition by_value {A} (o : sop A) : bool :=
  match o with PushFront (Val _) | PushBack (Val _) => true | PushFront _ | PushBack _ => false | _ => true end.
