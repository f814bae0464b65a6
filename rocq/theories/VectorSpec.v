(** A vector is a list of elements; [None] is an element that was never written since it came into being. *)
From Coq Require Import List Arith.
From Verif Require Import VectorModel.
Import ListNotations.

Definition resized {A} (n : nat) (l : list (option A)) : list (option A) := firstn n l ++ repeat None (n - length l).
(** element i of the result is x *)
Definition replaced {A} (i : nat) (x : option A) (l : list (option A)) : list (option A) := firstn i l ++ x :: skipn (i + 1) l.
(** elements from i on are vs, as far as the list goes *)
Fixpoint written {A} (i : nat) (vs : list A) (l : list (option A)) : list (option A) :=
  match vs with [] => l | v :: vs' => written (i + 1) vs' (if Nat.ltb i (length l) then replaced i (Some v) l else l) end.
Definition up (n d : nat) : nat := (n + (d - 1)) / d.

(** [None]: something was called outside of its precondition (index out of range, or reading what was never written).
    [S]: elements per block *)
Definition spec_op {A} (S : nat) (o : vop A) (l : list (option A)) : option (list (option A) * vout A) :=
  match o with
  | VPush v => Some (l ++ [Some v], VUnit)
  | VPop => match l with [] => None | _ => Some (removelast l, VUnit) end
  | VGet i | VGetM i => match nth_error l i with Some (Some v) => Some (l, VVal v) | _ => None end
  | VSet i v => if Nat.ltb i (length l) then Some (replaced i (Some v) l, VUnit) else None
  | VAssign _ i j => match nth_error l j with
                     | Some x => if Nat.ltb i (length l) then Some (replaced i x l, VUnit) else None
                     | None => None end
  | VPushOwn j => match nth_error l j with Some x => Some (l ++ [x], VUnit) | None => None end
  | VResize n => Some (resized n l, VUnit)
  | VReserve _ | VFlush | VDropCache | VReopen => Some (l, VUnit)
  | VClear => Some ([], VUnit)
  | VSize => Some (l, VNum (length l))
  | VWriteBlock k vs => if andb (Nat.ltb (k * S) (length l)) (Nat.eqb (length vs) S) then Some (written (k * S) vs l, VUnit) else None
  | VShrink n => Some (resized n l, VUnit)
  | VCapacity => None
  end.
Fixpoint spec_ops {A} (S : nat) (os : list (vop A)) (l : list (option A)) : option (list (option A) * list (vout A)) :=
  match os with
  | [] => Some (l, [])
  | o :: r => match spec_op S o l with
              | None => None
              | Some (l1, x) => match spec_ops S r l1 with Some (l2, xs) => Some (l2, x :: xs) | None => None end
              end
  end.
Definition is_shrink {A} (o : vop A) : bool := match o with VShrink _ => true | _ => false end.
Definition is_alias {A} (o : vop A) : bool := match o with VAssign _ _ _ | VPushOwn _ => true | _ => false end.

(** With capacity: number of blocks, and number of pages the vector had at most since it was created, cleared or reopened.
    After a shrink, growing to fewer pages than that is outside of this specification (C23). *)
Record vspec (A : Type) := mk_vs { vs_l : list (option A); vs_blocks : nat; vs_pages : nat }.
Arguments mk_vs {A}. Arguments vs_l {A}. Arguments vs_blocks {A}. Arguments vs_pages {A}.
Definition grow {A} (S P n : nat) (x : vspec A) : option (vspec A) :=
  if Nat.leb n (vs_blocks x * S) then Some x
  else if Nat.leb (vs_pages x) (up (up n S) P) then Some (mk_vs (vs_l x) (up n S) (up (up n S) P)) else None.
Definition spec_cap {A} (S P : nat) (o : vop A) (x : vspec A) : option (vspec A * vout A) :=
  match o with
  | VCapacity => Some (x, VNum (vs_blocks x * S))
  | VClear => Some (mk_vs [] 0 0, VUnit)
  | VReopen => Some (mk_vs (vs_l x) (up (length (vs_l x)) S) (up (up (length (vs_l x)) S) P), VUnit)
  | VShrink n => if Nat.ltb (up n S) (vs_blocks x) then Some (mk_vs (resized n (vs_l x)) (up n S) (vs_pages x), VUnit)
                 else match grow S P n x with Some y => Some (mk_vs (resized n (vs_l x)) (vs_blocks y) (vs_pages y), VUnit) | None => None end
  | _ =>
    match spec_op S o (vs_l x) with
    | None => None
    | Some (l, r) =>
        match o with
        | VReserve n => match grow S P n x with Some y => Some (y, r) | None => None end
        | _ => match grow S P (length l) x with Some y => Some (mk_vs l (vs_blocks y) (vs_pages y), r) | None => None end
        end
    end
  end.
Fixpoint spec_caps {A} (S P : nat) (os : list (vop A)) (x : vspec A) : option (vspec A * list (vout A)) :=
  match os with
  | [] => Some (x, [])
  | o :: r => match spec_cap S P o x with
              | None => None
              | Some (x1, y) => match spec_caps S P r x1 with Some (x2, ys) => Some (x2, y :: ys) | None => None end
              end
  end.
