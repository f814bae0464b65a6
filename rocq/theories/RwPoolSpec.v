(** Statements for C11, C12 *)
From Coq Require Import List Bool Arith.
From Verif Require Import SumLib RwPoolModel.
Import ListNotations.

(** every content got by a read is the content last written to that block,
    or the initial content [m] of the disk *)
Fixpoint consistent {V} (m : nat -> V) (os : list (obs V)) : Prop :=
  match os with
  | [] => True
  | OWrote b v :: l => consistent (fun c => if Nat.eqb c b then v else m c) l
  | OGot b v :: l => v = m b /\ consistent m l
  end.

(** all places where a buffer can be *)
Definition in_user {V} (st : state V) : list nat := map fst (user st).
Definition in_write_pool {V} (st : state V) : list nat := wfree st ++ map (fun e => snd (fst e)) (wbusy st).
Definition in_prefetch_pool {V} (st : state V) : list nat := pfree st ++ map (fun e => snd (fst e)) (pbusy st).
Definition everywhere {V} (st : state V) : list nat := in_user st ++ in_write_pool st ++ in_prefetch_pool st.

(** buffers that somebody may reuse or delete now *)
Definition reusable {V} (st : state V) (x : nat) : Prop :=
  In x (wfree st) \/ In x (pfree st) \/ In (x, None) (user st).

(** events that create or destroy buffers *)
Definition makes_buffers {V} (e : event V) : bool :=
  match e with New | ResizeW _ _ | ResizeP _ => true | _ => false end.
