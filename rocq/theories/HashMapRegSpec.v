(** What iterators of hash maps mean to a program: two maps and variables that hold
    iterators.  Independent of the model: no buckets, blocks or registers. *)
From Coq Require Import List Bool Arith NArith.
From Verif Require Import HashMapModel HashMapSpec HashMapRegModel.
Import ListNotations.

(** How well an iterator keeps its place among the keys while other values are
    inserted: [Sure] in any case; [Begun], made by [begin()] and not yet disturbed;
    [Lost], made by [begin()] and then disturbed. *)
Inductive qual := Sure | Begun | Lost.

Section RegSpec.
  Context {K V L : Type}.
  Variable eqv : K -> K -> bool.
  Variable bef : K -> K -> Prop.
  Variable vdef : V.
  Notation op := (@op K V L).
  Notation rop := (@rop K V L).
  Notation rres := (@rres K V).
  Notation smap := (@smap K V).
  Notation sstep := (@sstep K V L eqv vdef).

  (** [CEnd]: made by [end()], or returned for a missing value.  [CPast]: has run past the last
      value, or the value has been erased.  [CAt a k q]: at the value with key [k] of map [a]. *)
  Inductive cur := CEnd | CPast | CAt (a : bool) (k : K) (q : qual).
  Record sst := { s_m : bool -> smap; s_s : bool -> bool; s_v : nat -> option cur }.

  Definition weaken (ins : bool) (q : qual) : qual :=
    if ins then match q with Begun => Lost | _ => q end else q.
  (** An iterator after a change of map [a] to [m']. *)
  Definition settle (ins a : bool) (m' : smap) (x : cur) : cur :=
    match x with
    | CAt a' k q => if eqb a' a then match m' k with None => CPast | Some _ => CAt a' k (weaken ins q) end else x
    | _ => x
    end.
  Definition settles (ins a : bool) (m' : smap) (s : bool) (st : sst) : sst :=
    {| s_m := updb (s_m st) a m'; s_s := updb (s_s st) a s;
       s_v := fun x => option_map (settle ins a m') (s_v st x) |}.
  Definition bind (st : sst) (x : nat) (c : option cur) : sst :=
    {| s_m := s_m st; s_s := s_s st; s_v := updn (s_v st) x c |}.

  (** Operations that may create a node for a key. *)
  Definition inserts (o : op) : bool :=
    match o with
    | OClear | OCount _ | OSize | ORehash _ | OLoad _ | OMaxBuf _ | OBulk _ => false
    | _ => true
    end.
  Definition at_key (m : smap) (a : bool) (k : K) : cur := match m k with Some _ => CAt a k Sure | None => CEnd end.
  Definition same (x y : cur) : bool :=
    match x, y with
    | CAt a k _, CAt a' k' _ => eqb a a' && eqv k k'
    | CAt _ _ _, _ | _, CAt _ _ _ => false
    | _, _ => true
    end.
  Definition turn (x : cur) : cur := match x with CAt a k q => CAt (negb a) k q | _ => x end.

  Inductive rstep : sst -> rop -> rres -> sst -> Prop :=
  | R_map st a o r s' m' : sstep (s_s st a) (s_m st a) o r s' m' ->
      rstep st (RMap a o) (QR r) (settles (inserts o) a m' s' st)
  | R_insert st a x k v b s' m' : sstep (s_s st a) (s_m st a) (OInsert k v) (RBool b) s' m' ->
      rstep st (RInsert a x k v) (QB b) (bind (settles true a m' s' st) x (Some (at_key m' a k)))
  | R_insert_obl st a x k v r s' m' : sstep (s_s st a) (s_m st a) (OInsertObl k v) r s' m' ->
      rstep st (RInsertObl a x k v) QU (bind (settles true a m' s' st) x (Some (at_key m' a k)))
  | R_find st a x k :
      rstep st (RFind a x k) QU (bind (settles true a (s_m st a) (s_s st a) st) x (Some (at_key (s_m st a) a k)))
  | R_cfind st a x k : rstep st (RCFind a x k) QU (bind st x (Some (at_key (s_m st a) a k)))
  | R_begin st a x k : s_m st a k <> None -> (forall k', bef k' k -> s_m st a k' = None) ->
      rstep st (RBegin a x) QU (bind st x (Some (CAt a k Begun)))
  | R_begin_empty st a x : (forall k, s_m st a k = None) ->
      rstep st (RBegin a x) QU (bind st x (Some CPast))
  | R_end st a x : rstep st (REnd a x) QU (bind st x (Some CEnd))
  | R_copy st x y c : s_v st y = Some c -> rstep st (RCopy x y) QU (bind st x (Some c))
  | R_drop st x : rstep st (RDrop x) QU (bind st x None)
  | R_next st x a k q k' : s_v st x = Some (CAt a k q) -> bef k k' -> s_m st a k' <> None ->
      (forall k2, bef k k2 -> bef k2 k' -> s_m st a k2 = None) ->
      rstep st (RNext x) QU (bind st x (Some (CAt a k' q)))
  | R_next_end st x a k q : s_v st x = Some (CAt a k q) -> (forall k', bef k k' -> s_m st a k' = None) ->
      rstep st (RNext x) QU (bind st x (Some CPast))
  | R_get st x a k q e : s_v st x = Some (CAt a k q) -> eqv (fst e) k = true -> s_m st a k = Some (snd e) ->
      rstep st (RGet x) (QE e) st
  | R_set st x a k q v : s_v st x = Some (CAt a k q) ->
      rstep st (RSet x v) QU (settles false a (sput eqv (s_m st a) k v) (s_s st a) st)
  | R_erase st x a k q : s_v st x = Some (CAt a k q) ->
      rstep st (REraseIt a x) QU (settles true a (sdel eqv (s_m st a) k) (s_s st a) st)
  | R_eq st x y c d : s_v st x = Some c -> s_v st y = Some d -> rstep st (REq x y) (QB (same c d)) st
  | R_swap st : rstep st RSwap QU
      {| s_m := fun a => s_m st (negb a); s_s := fun a => s_s st (negb a); s_v := fun x => option_map turn (s_v st x) |}.

  Inductive rruns : sst -> list rop -> list rres -> sst -> Prop :=
  | RR_nil st : rruns st [] [] st
  | RR_cons st o r st1 os rs st2 : rstep st o r st1 -> rruns st1 os rs st2 -> rruns st (o :: os) (r :: rs) st2.

  (** ** Programs that respect the rules for iterators *)

  Variable tame : smap -> op -> Prop.  (* the restrictions of C40 *)

  (** Operations that return no iterator. *)
  Definition plain (o : op) : Prop :=
    match o with
    | OErase _ | OEraseObl _ | OClear | OCount _ | OIndex _ | OIndexSet _ _ | OSize | ORehash _ | OLoad _ | OMaxBuf _ | OBulk _ => True
    | _ => False
    end.
  Definition alive (st : sst) (x : nat) : Prop := s_v st x <> None.
  Definition is_at (st : sst) (x : nat) : Prop := exists a k q, s_v st x = Some (CAt a k q).
  (** No iterator is at key [k] of map [a]. *)
  Definition nobody (st : sst) (a : bool) (k : K) : Prop :=
    forall x k' q, s_v st x = Some (CAt a k' q) -> eqv k k' = false.
  Definition key_of (o : op) : option K := match o with OIndex k | OIndexSet k _ => Some k | _ => None end.

  (** [full]: every program that an STL user would write; otherwise without the cases
      that are wrong in the code. *)
  Definition legal (full : bool) (st : sst) (o : rop) : Prop :=
    match o with
    | RMap a o => plain o /\ tame (s_m st a) o /\ (full = true \/ forall k, key_of o = Some k -> nobody st a k)
    | RInsert a _ k v => tame (s_m st a) (OInsert k v)
    | RInsertObl a _ k v => tame (s_m st a) (OInsertObl k v)
    | RFind a _ k => tame (s_m st a) (OFind k)
    | RCFind a _ k => tame (s_m st a) (OCFind k)
    | RBegin _ _ | REnd _ _ => True
    | RCopy _ y => alive st y
    | RDrop x => alive st x
    | RNext x => is_at st x /\ (full = true \/ forall a k, s_v st x <> Some (CAt a k Lost))
    | RGet x | RSet x _ => is_at st x
    | REraseIt a x => exists k q, s_v st x = Some (CAt a k q)
    | REq x y => alive st x /\ alive st y
                 /\ (full = true \/ ~ (s_v st x = Some CPast /\ is_at st y) /\ ~ (s_v st y = Some CPast /\ is_at st x))
    | RSwap => full = true \/ forall x, ~ is_at st x
    end.
  Fixpoint legals (full : bool) (st : sst) (os : list rop) : Prop :=
    match os with
    | [] => True
    | o :: os' => legal full st o /\ forall r st', rstep st o r st' -> legals full st' os'
    end.

  Definition sinit : sst := {| s_m := fun _ => sempty; s_s := fun _ => true; s_v := fun _ => None |}.
End RegSpec.
