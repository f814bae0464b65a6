(** A deque is a list; [None] is an element that was never written. *)
From Coq Require Import List Arith NArith ZArith.
From Verif Require Import DequeModel.
Import ListNotations.

Definition dresized {A} (n : nat) (l : list (option A)) : list (option A) := firstn n l ++ repeat None (n - length l).
Fixpoint all_some {A} (l : list (option A)) : option (list A) :=
  match l with [] => Some [] | Some x :: r => match all_some r with Some m => Some (x :: m) | None => None end | None :: _ => None end.
Definition read {A} (x : option (option A)) (l : list (option A)) : option (list (option A) * dout A) := match x with Some (Some v) => Some (l, DVal v) | _ => None end.
Definition deq_op {A} (o : dop A) (l : list (option A)) : option (list (option A) * dout A) :=
  match o with
  | DPushFront v => Some (Some v :: l, DUnit)
  | DPushBack v => Some (l ++ [Some v], DUnit)
  | DPopFront => match l with [] => None | _ :: r => Some (r, DUnit) end
  | DPopBack => match l with [] => None | _ => Some (removelast l, DUnit) end
  | DFront => read (nth_error l 0) l
  | DBack => read (nth_error l (length l - 1)) l
  | DGet _ i => read (nth_error l i) l
  | DSet i v => if Nat.ltb i (length l) then Some (firstn i l ++ Some v :: skipn (i + 1) l, DUnit) else None
  | DResize n => Some (dresized n l, DUnit)
  | DClear => Some ([], DUnit)
  | DSize => Some (l, DNum (length l))
  | DScan => match all_some l with Some m => Some (l, DList m) | None => None end
  | DRevScan => match all_some l with Some m => Some (l, DList (rev m)) | None => None end
  end.
Fixpoint deq_ops {A} (os : list (dop A)) (l : list (option A)) : option (list (option A) * list (dout A)) :=
  match os with
  | [] => Some (l, [])
  | o :: r => match deq_op o l with
              | None => None
              | Some (l1, x) => match deq_ops r l1 with Some (l2, xs) => Some (l2, x :: xs) | None => None end
              end
  end.
(** a view shows the list l: from begin on, cyclically, up to end; one place of the vector is always free *)
Definition shows {A} (w : dview A) (l : list A) : Prop :=
  length l < length (w_vec w) /\ w_begin w < length (w_vec w) /\ w_end w = (w_begin w + length l) mod length (w_vec w) /\
  forall i, i < length l -> nth_error (w_vec w) ((w_begin w + i) mod length (w_vec w)) = nth_error l i.
Fixpoint lex {A} (ltb : A -> A -> bool) (l m : list A) : bool :=
  match l, m with
  | _, [] => false | [], _ :: _ => true
  | x :: l', y :: m' => if ltb x y then true else if ltb y x then false else lex ltb l' m'
  end.
(** the offset of the iterator at position i (0 to size) *)
Definition off (V b i : N) : N := ((b + i) mod V)%N.
