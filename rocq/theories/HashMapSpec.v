(** What a map is supposed to do, independently of buckets, chains and blocks:
    a map is a function from keys to values that does not distinguish
    equivalent keys. *)
From Coq Require Import List Bool NArith.
From Verif Require Import HashMapModel.
Import ListNotations.

Section HashMapSpec.
  Context {K V L : Type}.
  Variable eqv : K -> K -> bool.
  Variable vdef : V.

  Definition smap := K -> option V.
  Definition sempty : smap := fun _ => None.
  Definition sput (m : smap) (k : K) (v : V) : smap := fun k' => if eqv k k' then Some v else m k'.
  Definition sdel (m : smap) (k : K) : smap := fun k' => if eqv k k' then None else m k'.

  (** [n] is the number of values: they can be enumerated without repetition. *)
  Definition card (m : smap) (n : nat) : Prop :=
    exists l : list K, length l = n
      /\ ForallOrdPairs (fun a b => eqv a b = false) l
      /\ forall k, m k <> None <-> exists k', In k' l /\ eqv k' k = true.

  (** [m'] is [m] with the values of [l], one of them where [l] has several for a key. *)
  Definition smerged (m : smap) (l : list (K * V)) (m' : smap) : Prop :=
    forall k, (forall e, In e l -> eqv (fst e) k = false) /\ m' k = m k
           \/ exists e, In e l /\ eqv (fst e) k = true /\ m' k = Some (snd e).

  (** [l] contains every value of the map once. *)
  Definition enumerates (m : smap) (l : list (K * V)) : Prop :=
    ForallOrdPairs (fun a b => eqv (fst a) (fst b) = false) l
    /\ (forall e, In e l -> m (fst e) = Some (snd e))
    /\ (forall k, m k <> None -> exists e, In e l /\ eqv (fst e) k = true).

  (** [x] is the value with the smallest key after [k], if there is one; [bef] orders the keys. *)
  Definition next_after (bef : K -> K -> Prop) (m : smap) (k : K) (x : option (K * V)) : Prop :=
    match x with
    | Some e => bef k (fst e) /\ m (fst e) = Some (snd e) /\ forall k', bef k k' -> bef k' (fst e) -> m k' = None
    | None => forall k', bef k k' -> m k' = None
    end.

  Definition proper (m : smap) : Prop := forall a b, eqv a b = true -> m a = m b.

  (** One operation; [s] tells whether size() is reliable: operator[] has not
      created a value since the values were last counted. *)
  Inductive sstep : bool -> smap -> @op K V L -> res -> bool -> smap -> Prop :=
  | S_insert_new s m k v : m k = None -> sstep s m (OInsert k v) (RBool true) s (sput m k v)
  | S_insert_old s m k v : m k <> None -> sstep s m (OInsert k v) (RBool false) s m
  | S_insert_obl s m k v : sstep s m (OInsertObl k v) RUnit s (sput m k v)
  | S_erase_old s m k : m k <> None -> sstep s m (OErase k) (RNum 1) s (sdel m k)
  | S_erase_no s m k : m k = None -> sstep s m (OErase k) (RNum 0) s m
  | S_erase_obl s m k : sstep s m (OEraseObl k) RUnit s (sdel m k)
  | S_clear s m : sstep s m OClear RUnit true sempty
  | S_find s m k : sstep s m (OFind k) (RVal (m k)) s m
  | S_findset_old s m k v : m k <> None -> sstep s m (OFindSet k v) (RBool true) s (sput m k v)
  | S_findset_no s m k v : m k = None -> sstep s m (OFindSet k v) (RBool false) s m
  | S_finderase_old s m k : m k <> None -> sstep s m (OFindErase k) (RBool true) s (sdel m k)
  | S_finderase_no s m k : m k = None -> sstep s m (OFindErase k) (RBool false) s m
  | S_insertset_new s m k v w : m k = None -> sstep s m (OInsertSet k v w) (RBool true) s (sput m k w)
  | S_insertset_old s m k v w : m k <> None -> sstep s m (OInsertSet k v w) (RBool false) s (sput m k w)
  | S_cfind s m k : sstep s m (OCFind k) (RVal (m k)) s m
  | S_count_old s m k : m k <> None -> sstep s m (OCount k) (RNum 1) s m
  | S_count_no s m k : m k = None -> sstep s m (OCount k) (RNum 0) s m
  | S_index_old s m k v : m k = Some v -> sstep s m (OIndex k) (RVal (Some v)) s m
  | S_index_new s m k : m k = None -> sstep s m (OIndex k) (RVal (Some vdef)) false (sput m k vdef)
  | S_indexset_old s m k v : m k <> None -> sstep s m (OIndexSet k v) RUnit s (sput m k v)
  | S_indexset_new s m k v : m k = None -> sstep s m (OIndexSet k v) RUnit false (sput m k v)
  | S_size m n : card m n -> sstep true m OSize (RNum (N.of_nat n)) true m
  | S_size_any m r : sstep false m OSize r false m
  | S_rehash s m n : sstep s m (ORehash n) RUnit true m
  | S_load s m l : sstep s m (OLoad l) RUnit s m
  | S_maxbuf s m n : sstep s m (OMaxBuf n) RUnit s m
  | S_bulk s m l m' : smerged m l m' -> proper m' -> sstep s m (OBulk l) RUnit true m'.

  Inductive srun : bool -> smap -> list (@op K V L) -> list res -> bool -> smap -> Prop :=
  | SR_nil s m : srun s m [] [] s m
  | SR_cons s m o r s1 m1 os rs s2 m2 :
      sstep s m o r s1 m1 -> srun s1 m1 os rs s2 m2 -> srun s m (o :: os) (r :: rs) s2 m2.
End HashMapSpec.
