(** What a file has to do, and what may be asked of a wbtl_file: blocks are written, read and discarded with the size they have. *)
From Coq Require Import List Bool Arith.
From Verif Require Import SumLib WbtlModel.
Import ListNotations.

Section Spec.
  Variable A : Type.
  Variable W sent : nat.
  Record file := mkf { f_size : nat; f_data : nat -> option (list A) }.
  Definition f_new : file := mkf 0 (fun _ => None).
  Inductive expect := EDone | EWritten | ERead (l : list A) | EAny (n : nat).

  (** None: not allowed.  Blocks that were not written may be read (anything is returned) if the file does not reach to byte 0xffffffff. *)
  Definition f_op (o : bop A) (f : file) : option (file * expect) :=
    match o with
    | BSize _ n => if Nat.leb (f_size f) n then Some (mkf n (f_data f), EDone) else None
    | BWrite _ off l =>
        if Nat.ltb 0 (length l) && Nat.leb (length l) W && match f_data f off with Some l' => Nat.eqb (length l) (length l') | None => true end
        then Some (mkf (f_size f) (upd (f_data f) off (Some l)), EWritten) else None
    | BRead _ off n =>
        match f_data f off with
        | Some l => if Nat.eqb n (length l) then Some (f, ERead l) else None
        | None => if Nat.leb (f_size f) sent then Some (f, EAny n) else None
        end
    | BDiscard _ off n =>
        match f_data f off with
        | Some l => if Nat.eqb n (length l) then Some (mkf (f_size f) (upd (f_data f) off None), EDone) else None
        | None => Some (f, EDone)
        end
    end.
  Fixpoint f_ops (os : list (bop A)) (f : file) : option (file * list expect) :=
    match os with
    | [] => Some (f, [])
    | o :: os => match f_op o f with
                 | None => None
                 | Some (f, e) => match f_ops os f with None => None | Some (f, es) => Some (f, e :: es) end
                 end
    end.

  Inductive agrees : bout A -> expect -> Prop :=
    | a_done : agrees (ODone A) EDone
    | a_written : agrees (ODone A) EWritten
    | a_read l : agrees (ORead A l) (ERead l)
    | a_any l n : length l = n -> agrees (ORead A l) (EAny n).

  (** every block has a place [where_ off] in the file, and the places do not overlap *)
  Definition placed (f : file) (where_ : nat -> option nat) : Prop :=
    (forall off, f_data f off = None <-> where_ off = None) /\
    (forall off l p, f_data f off = Some l -> where_ off = Some p -> p + length l <= f_size f) /\
    (forall o1 o2 l1 l2 p1 p2, o1 <> o2 -> f_data f o1 = Some l1 -> f_data f o2 = Some l2 -> where_ o1 = Some p1 -> where_ o2 = Some p2 ->
       p1 + length l1 <= p2 \/ p2 + length l2 <= p1).
  (** no W consecutive units without a part of a block *)
  Definition crowded (f : file) (where_ : nat -> option nat) : Prop :=
    forall a, a + W <= f_size f -> exists off l p u, f_data f off = Some l /\ where_ off = Some p /\ p <= u < p + length l /\ a <= u < a + W.
  Definition forget (f : file) (off : nat) : file := mkf (f_size f) (upd (f_data f) off None).
  (** the outputs up to the first exception; only a write may throw, and only if there are no W units in a row left *)
  Definition fine (f0 : file) (os : list (bop A)) (where_ : nat -> option nat) (outs : list (bout A)) : Prop :=
    (exists f es, f_ops os f0 = Some (f, es) /\ Forall2 agrees outs es /\ placed f where_) \/
    (exists os1 off l os2 f1 es1 outs1, os = os1 ++ BWrite A off l :: os2 /\ f_ops os1 f0 = Some (f1, es1) /\ outs = outs1 ++ [OThrow A] /\ Forall2 agrees outs1 es1 /\
       placed (forget f1 off) where_ /\ crowded (forget f1 off) where_).
End Spec.
Arguments mkf {A}. Arguments f_size {A}. Arguments f_data {A}. Arguments f_new {A}. Arguments EDone {A}. Arguments EWritten {A}. Arguments ERead {A}. Arguments EAny {A}.
