(** * What a client of the block cache of the hash map may rely on

    A client calls the public functions of [hash_map::block_cache] and holds
    pointers to subblocks in registers.  The specification knows nothing of
    slots, buffers, requests or the pager: it knows what each block contains
    ([lg]), which blocks the client has retained ([pins]), which are known to be
    in the cache, and which pointers are still good.

    A pointer to a subblock is good until an operation that may evict its block:
    [get_subblock] and [prefetch_block] of another block evict blocks that are
    not retained; [clear] evicts all. *)
From Coq Require Import Arith Bool List.
Import ListNotations.

Section Spec.
Context {V : Type}.

(** calls of the client; [OEnv] lets the device serve requests, [OExt] is a
    writer that writes a block of the map directly to disk, [OLoad] and
    [OStore] access memory through a pointer *)
Inductive op :=
| OGet (r b s : nat)
| OPrefetch (b : nat)
| ORetain (b : nat)
| ORelease (b : nat)
| ODirty (b : nat)
| OLoad (r : nat)
| OStore (r : nat) (v : V)
| OFlush
| OClear
| OExt (b : nat) (blk : list V)
| OEnv (ids : list nat)
| ODestroy.

Inductive res :=
| ROk
| RThrow
| RBool (t : bool)
| RVal (v : V)
| RDisk (d : nat -> list V).

Record sst := mkS {
  lg : nat -> option (list V);       (** content; [None]: not specified *)
  pins : nat -> nat;
  held : nat -> bool;                (** known to be in the cache *)
  sregs : nat -> option (nat * nat); (** good pointers: block, subblock *)
  wr : nat -> bool;                  (** marked dirty, writing is allowed *)
  drt : nat -> bool;                 (** marked dirty since flush or clear *)
  bad : nat -> bool;                 (** not to be used until clear *)
  cold : bool;                       (** nothing cached since clear *)
  dead : bool
}.

Definition s_init (d : nat -> list V) : sst :=
  mkS (fun b => Some (d b)) (fun _ => 0) (fun _ => false) (fun _ => None)
      (fun _ => false) (fun _ => false) (fun _ => false) true false.

Definition set {A} (f : nat -> A) (i : nat) (v : A) : nat -> A :=
  fun j => if Nat.eqb j i then v else f j.

(** a list with one element replaced *)
Definition replace (l : list V) (i : nat) (v : V) : list V :=
  firstn i l ++ match skipn i l with [] => [] | _ :: t => v :: t end.

Variable csize nsub : nat.

(** the exception may only be thrown if as many different blocks as the cache
    can hold are retained *)
Definition crowded (s : sst) (b : nat) : Prop :=
  held s b = false /\
  exists l, NoDup l /\ length l = csize /\ forall x, In x l -> 0 < pins s x.

Definition legal (s : sst) (o : op) : Prop :=
  dead s = false /\
  match o with
  | OGet r b k => k < nsub /\ bad s b = false
  | OPrefetch b => bad s b = false
  | ODirty b => bad s b = false
  | OLoad r => sregs s r <> None
  | OStore r v => exists b k, sregs s r = Some (b, k) /\ wr s b = true
  | OExt b blk => cold s = true /\ length blk = nsub
  | _ => True
  end.

Definition sp_ok (s : sst) (o : op) (r : res) : Prop :=
  match o with
  | OGet _ b _ | OPrefetch b => r = ROk \/ (r = RThrow /\ crowded s b)
  | ORetain b | ODirty b => exists t, r = RBool t /\ (held s b = true -> t = true)
  | ORelease b => r = RBool (Nat.ltb 0 (pins s b))
  | OLoad x => exists v, r = RVal v /\
      forall b k blk, sregs s x = Some (b, k) -> lg s b = Some blk ->
                      nth_error blk k = Some v
  | OFlush | ODestroy => exists d, r = RDisk d /\
      forall b blk, lg s b = Some blk -> d b = blk
  | _ => r = ROk
  end.

(** other blocks may have been evicted to make room for [b] *)
Definition keeps (s : sst) (b x : nat) : bool :=
  Nat.eqb x b || (held s x && Nat.ltb 0 (pins s x)).

Definition touch (s : sst) (b : nat) : sst :=
  mkS (lg s) (pins s) (keeps s b)
      (fun r => match sregs s r with
                | Some (x, k) => if keeps s b x then Some (x, k) else None
                | None => None
                end)
      (fun x => wr s x && keeps s b x) (drt s) (bad s) false (dead s).

Definition with_sregs (s : sst) g :=
  mkS (lg s) (pins s) (held s) g (wr s) (drt s) (bad s) (cold s) (dead s).
Definition with_lg (s : sst) g :=
  mkS g (pins s) (held s) (sregs s) (wr s) (drt s) (bad s) (cold s) (dead s).

Definition sp_next (s : sst) (o : op) (r : res) : sst :=
  match o, r with
  | OGet x b k, ROk => let s := touch s b in with_sregs s (set (sregs s) x (Some (b, k)))
  | OPrefetch b, ROk => touch s b
  | ORetain b, RBool true =>
      mkS (lg s) (set (pins s) b (S (pins s b))) (set (held s) b true) (sregs s)
          (wr s) (drt s) (bad s) (cold s) (dead s)
  | ORelease b, RBool true =>
      mkS (lg s) (set (pins s) b (pins s b - 1)) (held s) (sregs s)
          (wr s) (drt s) (bad s) (cold s) (dead s)
  | ODirty b, RBool true =>
      mkS (lg s) (pins s) (set (held s) b true) (sregs s)
          (set (wr s) b true) (set (drt s) b true) (bad s) (cold s) (dead s)
  | OStore x v, _ =>
      match sregs s x with
      | Some (b, k) =>
          match lg s b with
          | Some blk => with_lg s (set (lg s) b (Some (replace blk k v)))
          | None => s
          end
      | None => s
      end
  | OFlush, _ =>
      mkS (lg s) (pins s) (held s)
          (fun r => match sregs s r with
                    | Some (x, k) => if drt s x then None else Some (x, k)
                    | None => None
                    end)
          (fun _ => false) (fun _ => false) (fun b => bad s b || drt s b)
          (cold s) (dead s)
  | OClear, _ =>
      mkS (fun b => if drt s b then None else lg s b) (fun _ => 0) (fun _ => false)
          (fun _ => None) (fun _ => false) (fun _ => false) (fun _ => false)
          true (dead s)
  | OExt b blk, _ => with_lg s (set (lg s) b (Some blk))
  | ODestroy, _ =>
      mkS (lg s) (pins s) (held s) (sregs s) (wr s) (drt s) (bad s) (cold s) true
  | _, _ => s
  end.

(** a client that goes on using its blocks after flush: they stay in the cache,
    only writing needs make_dirty again *)
Definition sp_next_usable (s : sst) (o : op) (r : res) : sst :=
  match o with
  | OFlush =>
      mkS (lg s) (pins s) (held s) (sregs s) (fun _ => false) (fun _ => false)
          (bad s) (cold s) (dead s)
  | _ => sp_next s o r
  end.

(** a machine obeys the specification on a program if, as long as the client
    keeps to the rules, every call is defined and its result is as specified *)
Fixpoint conforms {M} (next : sst -> op -> res -> sst)
  (step : op -> M -> option (res * M)) (m : M) (s : sst) (p : list op) : Prop :=
  match p with
  | [] => True
  | o :: p' =>
      legal s o ->
      exists r m', step o m = Some (r, m') /\ sp_ok s o r /\
                   conforms next step m' (next s o r) p'
  end.

End Spec.

Arguments op V : clear implicits.
Arguments res V : clear implicits.
Arguments sst V : clear implicits.
