(** Reference behaviour for C46. *)
From Coq Require Import List Bool Arith.
From Verif Require Import AddrQueueModel.
Import ListNotations.

(** operator< on keys is a strict total order (up to Leibniz equality) *)
Definition strict_total {K} (lt : K -> K -> bool) : Prop :=
  (forall a, lt a a = false) /\
  (forall a b d, lt a b = true -> lt b d = true -> lt a d = true) /\
  (forall a b, lt a b = false -> lt b a = false -> a = b).

(** Cmp on priorities is a strict weak order *)
Definition strict_weak {P} (lt : P -> P -> bool) : Prop :=
  (forall a, lt a a = false) /\
  (forall a b d, lt a b = true -> lt b d = true -> lt a d = true) /\
  (forall a b d, lt a b = false -> lt b d = false -> lt a d = false).

Section Ref.
Variables K P : Type.
Variable keq : forall a b : K, {a = b} + {a <> b}.

(** FIFO reference: the list of present keys, oldest insertion first. *)
Definition drop (k : K) (l : list K) : list K := remove keq k l.
Definition fifo_ref (l : list K) (a : op K P) (l' : list K) (o : out K) : Prop :=
  match a with
  | Insert _ _ k _ => l' = drop k l ++ [k] /\ exists b, o = OBool _ b /\ (b = true <-> ~ In k l)
  | Erase _ _ k => l' = drop k l /\ exists b, o = OBool _ b /\ (b = true <-> In k l)
  | EraseHandle _ _ k => In k l /\ l' = drop k l /\ o = ONone _
  | Top _ _ => l' = l /\ exists k r, l = k :: r /\ o = OKey _ k
  | Pop _ _ => exists k, l = k :: l' /\ o = OKey _ k
  | Empty _ _ => l' = l /\ exists b, o = OBool _ b /\ (b = true <-> l = [])
  end.

Inductive fifo_hist : list K -> list (op K P) -> list (out K) -> list K -> Prop :=
| fh_nil l : fifo_hist l [] [] l
| fh_cons l a h o os l1 l2 : fifo_ref l a l1 o -> fifo_hist l1 h os l2 -> fifo_hist l (a :: h) (o :: os) l2.

(** Priority reference: a partial map from keys to priorities.  An insert may
    keep the old priority object if the new one is equivalent to it. *)
Variable klt : K -> K -> bool.
Variable c : P -> P -> bool.
Definition pmap := K -> option P.
Definition equiv (p q : P) : Prop := c p q = false /\ c q p = false.

(** k is the key to be served first: no present key has a smaller priority, and
    among keys of equivalent priority none is smaller *)
Definition first (m : pmap) (k : K) : Prop :=
  exists p, m k = Some p /\
  forall k' p', m k' = Some p' -> k' <> k ->
    c p p' = true \/ (equiv p p' /\ klt k k' = true).
Definition same_except (k : K) (m m' : pmap) : Prop := forall k', k' <> k -> m' k' = m k'.

Definition pq_ref (m : pmap) (a : op K P) (m' : pmap) (o : out K) : Prop :=
  match a with
  | Insert _ _ k p => same_except k m m' /\
      (exists p', m' k = Some p' /\ (p' = p \/ (equiv p' p /\ m k = Some p'))) /\
      exists b, o = OBool _ b /\ (b = true <-> m k = None)
  | Erase _ _ k => same_except k m m' /\ m' k = None /\ exists b, o = OBool _ b /\ (b = true <-> m k <> None)
  | EraseHandle _ _ k => m k <> None /\ same_except k m m' /\ m' k = None /\ o = ONone _
  | Top _ _ => m' = m /\ exists k, first m k /\ o = OKey _ k
  | Pop _ _ => exists k, first m k /\ o = OKey _ k /\ same_except k m m' /\ m' k = None
  | Empty _ _ => m' = m /\ exists b, o = OBool _ b /\ (b = true <-> forall k, m k = None)
  end.
Inductive pq_hist : pmap -> list (op K P) -> list (out K) -> pmap -> Prop :=
| ph_nil m : pq_hist m [] [] m
| ph_cons m a h o os m1 m2 : pq_ref m a m1 o -> pq_hist m1 h os m2 -> pq_hist m (a :: h) (o :: os) m2.
End Ref.
