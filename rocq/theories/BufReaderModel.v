(** Model of [buffered_reader] of
    /repo/include/stxxl/bits/containers/hash_map/util.h 93-293, which reads a sequence of blocks
    through the block cache ([BlockCacheModel], [BlockCacheMach]).

    The elements of a block of the cache are subblocks: lists of values.  Reader [x] holds the pointer
    [subblock_] in register [S x] of the client of the cache; register 0 belongs to the rest of the map, which
    looks up subblocks (hash_map.h [_find_key_external]).

    Simplifications: [page_size_] and [prefetch_pages_] are parameters; an exception of the
    cache ends the program; assigning a value through the reference that [value()] returns is part of
    the call. *)
From Coq Require Import List Bool Arith.
From Verif Require Import BlockCacheModel BlockCacheSpec BlockCacheMach.
Import ListNotations.

Section Reader.
Context {E : Type}.
Notation V := (list E).
Notation mach := (mach V).
Variable step : op V -> mach -> option (res V * mach).
Variable ss nsub : nat.     (* values of a subblock, subblocks of a block *)
Variable page pages : nat.

(** util.h 110-135.  Iterators into the sequence are indices. *)
Record rdr := mkR {
  bids : list nat;
  cur : nat;
  prf : nat;
  on : bool;       (* [prefetch_] *)
  dty : bool;      (* [dirty_] *)
  iv : nat         (* [i_value_] *)
}.
Definition at_end (r : rdr) : bool := cur r =? length (bids r).

(** A call of the cache: its answer, or an exception; [None] is undefined behaviour. *)
Inductive ans (A : Type) := Ret (a : A) (m : mach) | Exc (m : mach).
Arguments Ret {A} a m.
Arguments Exc {A} m.
Definition bind {A B} (x : option (ans A)) (f : A -> mach -> option (ans B)) : option (ans B) :=
  match x with
  | None => None
  | Some (Exc m) => Some (Exc m)
  | Some (Ret a m) => f a m
  end.
Definition call (o : op V) (m : mach) : option (ans (res V)) :=
  match step o m with
  | None => None
  | Some (RThrow, m') => Some (Exc m')
  | Some (r, m') => Some (Ret r m')
  end.

Definition set_prf (r : rdr) (p : nat) : rdr := mkR (bids r) (cur r) p (on r) (dty r) (iv r).

(** the loops 182-189, 237-243, 280-286 *)
Fixpoint pref_loop (n : nat) (r : rdr) (m : mach) : option (ans rdr) :=
  match n with
  | 0 => Some (Ret r m)
  | S n' =>
    match nth_error (bids r) (prf r) with
    | None => Some (Ret r m)
    | Some b => bind (call (OPrefetch b) m) (fun _ m' => pref_loop n' (set_prf r (S (prf r))) m')
    end
  end.

(** 173-190 [enable_prefetching] *)
Definition enable (r : rdr) (m : mach) : option (ans rdr) :=
  if on r then Some (Ret r m)
  else pref_loop (page * pages) (mkR (bids r) (cur r) (cur r) true (dty r) (iv r)) m.

(** the loop 276-288 of [skip_to] *)
Fixpoint skip_loop (n : nat) (j : nat) (r : rdr) (m : mach) : option (ans rdr) :=
  if cur r =? j then Some (Ret r m)
  else
    match n with
    | 0 => None
    | S n' =>
      let r := mkR (bids r) (S (cur r)) (prf r) (on r) (dty r) (iv r) in
      bind (if on r && (cur r mod page =? 0) then pref_loop page r m else Some (Ret r m)) (skip_loop n' j)
    end.
(** 262-293 [skip_to] *)
Definition skip_to (x : nat) (r : rdr) (j isub : nat) (m : mach) : option (ans rdr) :=
  if at_end r then Some (Ret r m)
  else
    let r := if j =? cur r then r else mkR (bids r) (cur r) (prf r) (on r) false (iv r) in
    match nth_error (bids r) (cur r) with
    | None => None
    | Some b0 =>
      bind (call (ORelease b0) m) (fun _ m =>
      if j =? length (bids r) then Some (Ret r m)
      else
        bind (skip_loop (length (bids r)) j r m) (fun r m =>
        match nth_error (bids r) (cur r) with
        | None => None
        | Some b =>
          let r := mkR (bids r) (cur r) (prf r) (on r) (dty r) (isub * ss) in
          bind (call (OGet (S x) b isub) m) (fun _ m =>
          bind (call (ORetain b) m) (fun _ m => Some (Ret r m)))
        end))
    end.
(** 144-166 constructor *)
Definition open (x : nat) (l : list nat) (isub : nat) (pf : bool) (m : mach) : option (ans rdr) :=
  let r := mkR l 0 0 false false 0 in
  match l with
  | [] => Some (Ret r m)
  | _ :: _ => bind (if pf then enable r m else Some (Ret r m)) (fun r m => skip_to x r 0 isub m)
  end.
(** 168-172 destructor *)
Definition close (r : rdr) (m : mach) : option (ans unit) :=
  match nth_error (bids r) (cur r) with
  | None => Some (Ret tt m)
  | Some b => bind (call (ORelease b) m) (fun _ m => Some (Ret tt m))
  end.

(** 193-196 [const_value] *)
Definition const_value (x : nat) (r : rdr) (m : mach) : option (ans E) :=
  bind (call (OLoad (S x)) m) (fun a m =>
  match a with
  | RVal v => match nth_error v (iv r mod ss) with Some e => Some (Ret e m) | None => None end
  | _ => None
  end).
(** 200-208 [value], and an assignment through the reference *)
Definition set_value (x : nat) (r : rdr) (e : E) (m : mach) : option (ans rdr) :=
  match nth_error (bids r) (cur r) with
  | None => None
  | Some b =>
    bind (if dty r then Some (Ret r m)
          else bind (call (ODirty b) m) (fun _ m => Some (Ret (mkR (bids r) (cur r) (prf r) (on r) true (iv r)) m)))
      (fun r m =>
       bind (call (OLoad (S x)) m) (fun a m =>
       match a with
       | RVal v => bind (call (OStore (S x) (lset v (iv r mod ss) e)) m) (fun _ m => Some (Ret r m))
       | _ => None
       end))
  end.

(** 253-255: a new subblock *)
Definition enter (x : nat) (r : rdr) (m : mach) : option (ans (bool * rdr)) :=
  if iv r mod ss =? 0
  then match nth_error (bids r) (cur r) with
       | None => None
       | Some b => bind (call (OGet (S x) b (iv r / ss)) m) (fun _ m => Some (Ret (true, r) m))
       end
  else Some (Ret (true, r) m).
(** 212-258 [operator ++] *)
Definition incr (x : nat) (r : rdr) (m : mach) : option (ans (bool * rdr)) :=
  if at_end r then Some (Ret (false, r) m)
  else if S (iv r) <? nsub * ss
  then enter x (mkR (bids r) (cur r) (prf r) (on r) (dty r) (S (iv r))) m
  else
    match nth_error (bids r) (cur r) with
    | None => None
    | Some b0 =>
      bind (call (ORelease b0) m) (fun _ m =>
      let r := mkR (bids r) (S (cur r)) (prf r) (on r) false 0 in
      match nth_error (bids r) (cur r) with
      | None => Some (Ret (false, r) m)
      | Some b =>
        bind (call (ORetain b) m) (fun _ m =>
        bind (if on r && (cur r mod page =? 0) then pref_loop page r m else Some (Ret r m)) (enter x))
      end)
    end.
(** 261-265 [next_subblock] *)
Definition next_sub (x : nat) (r : rdr) (m : mach) : option (ans (bool * rdr)) :=
  incr x (mkR (bids r) (cur r) (prf r) (on r) (dty r) ((iv r / ss + 1) * ss - 1)) m.

(** ** Programs with several readers *)

Inductive bop :=
| BOpen (x : nat) (l : list nat) (isub : nat) (pf : bool)
| BEnable (x : nat)
| BConst (x : nat)
| BSet (x : nat) (e : E)
| BInc (x : nat)
| BNext (x : nat)
| BSkip (x j isub : nat)
| BClose (x : nat)
| BOther (b s : nat)             (* the map looks at a subblock *)
| BEnv (ids : list nat).         (* the device serves requests *)
Inductive bres := BU | BB (t : bool) | BV (e : E) | BL (v : V) | BX.

Record pst := mkP { pm : mach; prd : nat -> option rdr }.
Definition put (f : nat -> option rdr) (x : nat) (r : option rdr) : nat -> option rdr := fun y => if y =? x then r else f y.
(** a call of a reader *)
Definition done {A} (p : pst) (a : option (ans A)) (f : A -> bres * (nat -> option rdr)) : option (bres * pst) :=
  match a with
  | None => None
  | Some (Exc m) => Some (BX, mkP m (prd p))
  | Some (Ret a m) => Some (fst (f a), mkP m (snd (f a)))
  end.
Definition with_rd (p : pst) (x : nat) (f : rdr -> option (bres * pst)) : option (bres * pst) :=
  match prd p x with Some r => f r | None => None end.
Definition bexec (p : pst) (o : bop) : option (bres * pst) :=
  match o with
  | BOpen x l isub pf =>
    match prd p x with
    | Some _ => None
    | None => done p (open x l isub pf (pm p)) (fun r => (BU, put (prd p) x (Some r)))
    end
  | BEnable x => with_rd p x (fun r => done p (enable r (pm p)) (fun r => (BU, put (prd p) x (Some r))))
  | BConst x => with_rd p x (fun r => done p (const_value x r (pm p)) (fun e => (BV e, prd p)))
  | BSet x e => with_rd p x (fun r => done p (set_value x r e (pm p)) (fun r => (BU, put (prd p) x (Some r))))
  | BInc x => with_rd p x (fun r => done p (incr x r (pm p)) (fun a => (BB (fst a), put (prd p) x (Some (snd a)))))
  | BNext x => with_rd p x (fun r => done p (next_sub x r (pm p)) (fun a => (BU, put (prd p) x (Some (snd a)))))
  | BSkip x j isub => with_rd p x (fun r => done p (skip_to x r j isub (pm p)) (fun r => (BU, put (prd p) x (Some r))))
  | BClose x => with_rd p x (fun r => done p (close r (pm p)) (fun _ => (BU, put (prd p) x None)))
  | BOther b s =>
    done p (bind (call (OGet 0 b s) (pm p)) (fun _ m => bind (call (OLoad 0) m) (fun a m => match a with RVal v => Some (Ret v m) | _ => None end)))
      (fun v => (BL v, prd p))
  | BEnv ids => done p (call (OEnv ids) (pm p)) (fun _ => (BU, prd p))
  end.
Fixpoint bruns (p : pst) (os : list bop) : option (list bres) :=
  match os with
  | [] => Some []
  | o :: os' =>
    match bexec p o with
    | None => None
    | Some (BX, _) => Some [BX]
    | Some (r, p') => match bruns p' os' with Some rs => Some (r :: rs) | None => None end
    end
  end.
Definition binit (m : mach) : pst := mkP m (fun _ => None).
End Reader.
Arguments Ret {E A} a m.
Arguments Exc {E A} m.
