(** Writing through a vector_bufwriter puts the elements one after the other into the list; the list grows if necessary. *)
From Coq Require Import List Bool Arith.
From Verif Require Import VectorModel VectorSpec VecWriterModel.
Import ListNotations.

Definition streamed {A} (a : nat) (vs : list A) (l : list (option A)) : list (option A) :=
  firstn a l ++ map Some vs ++ skipn (a + length vs) l.
(** When the vector must grow: pages have several blocks, and neither is the block where the writer starts the last block of
    the vector and the last one of its page, nor is the vector just one block long with pages of two blocks. *)
Definition grows_safely (S P n a : nat) : Prop :=
  2 <= P /\ ~ (a + S = n /\ n mod (S * P) = 0) /\ ~ (n = S /\ P = 2).
Definition writes_safely (S P n a k : nat) : Prop := a + k <= n \/ grows_safely S P n a.

(** [S] elements per block, [P] blocks per page *)
Inductive w_spec {A} (S P : nat) : list (wop A) -> list (option A) -> list (option A) -> list (vout A) -> Prop :=
  | ws_nil l : w_spec S P [] l l []
  | ws_vec o os l l1 l2 r rs : spec_op S o l = Some (l1, r) -> w_spec S P os l1 l2 rs -> w_spec S P (WVec o :: os) l l2 (r :: rs)
  | ws_write a vs os l l2 rs : a <= length l -> writes_safely S P (length l) a (length vs) ->
      w_spec S P os (streamed a vs l) l2 rs -> w_spec S P (WWrite a vs :: os) l l2 (VUnit :: rs).
Definition w_alias {A} (o : wop A) : bool := match o with WVec o => is_alias o | _ => false end.
Definition w_shrink {A} (o : wop A) : bool := match o with WVec o => is_shrink o | _ => false end.
(** without the condition *)
Fixpoint w_full {A} (S : nat) (os : list (wop A)) (l : list (option A)) : option (list (option A) * list (vout A)) :=
  match os with
  | [] => Some (l, [])
  | o :: r =>
      match (match o with
             | WVec o => spec_op S o l
             | WWrite a vs => if Nat.leb a (length l) then Some (streamed a vs l, VUnit) else None end) with
      | None => None
      | Some (l1, x) => match w_full S r l1 with Some (l2, xs) => Some (l2, x :: xs) | None => None end
      end
  end.
