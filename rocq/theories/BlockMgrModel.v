(** Model of stxxl::block_manager on top of the disk allocators.
    Source: /repo/include/stxxl/bits/mng/block_manager.h.

    Simplifications: the allocation counters are unbounded integers (uint64 in
    the code, overflow needs 2^64 bytes of allocations); calls of different
    threads are not interleaved here (interference on one disk is covered by
    DiskAllocModel); [file::discard] (a hint to the storage) is omitted. *)
From Coq Require Import ZArith List Bool Arith.
From Verif Require Import DiskAllocModel.
Import ListNotations.
Local Open Scope Z_scope.

(** block_manager.h:62-81 data members *)
Record manager := mk_manager {
  disks : list alloc;
  total_allocation : Z;
  current_allocation : Z;
  maximum_allocation : Z }.

(** a block identifier (bid.h): storage and offset; the block size is a
    template parameter.  [NoStorage] = invalid BID, [OwnFile] = storage that is
    not managed by the block manager *)
Inductive storage := NoStorage | OwnFile | Disk (d : nat).
Record bid := mk_bid { bid_storage : storage; bid_offset : Z }.

(** l[k]++ *)
Fixpoint bump (l : list nat) (k : nat) : list nat :=
  match l, k with
  | [], _ => []
  | x :: t, O => S x :: t
  | x :: t, S k' => x :: bump t k'
  end.

(** block_manager.h:205-211: count the blocks per disk; [ds] are the disks
    chosen by the functor for offset, offset+1, ... *)
Definition count_blocks (ndisks : nat) (ds : list nat) : list nat :=
  fold_left bump ds (repeat 0%nat ndisks).

Inductive outcome := AllOk | Thrown | Diverged.

(** block_manager.h:215-222: allocate on one disk after the other; the result
    lists, per disk, the new allocator and the offsets obtained *)
Fixpoint alloc_disks (bs : Z) (as_ : list alloc) (bl : list nat)
  : list alloc * list (list Z) * outcome :=
  match as_, bl with
  | a :: at_, c :: ct =>
    match c with
    | O => let '(at', o, r) := alloc_disks bs at_ ct in (a :: at', [] :: o, r)
    | _ =>
      match new_blocks c bs (repeat bs c) a with
      | Done a' offs => let '(at', o, r) := alloc_disks bs at_ ct in (a' :: at', offs :: o, r)
      | Throw a' => (a' :: at_, [], Thrown)
      | Diverge => (a :: at_, [], Diverged)
      end
    end
  | _, _ => (as_, [], AllOk)
  end.

(** block_manager.h:226-234: hand the blocks out in the order of the request *)
Fixpoint distribute (obids : list (list Z)) (ds : list nat) (bl : list nat) : list bid :=
  match ds with
  | [] => []
  | d :: t => mk_bid (Disk d) (nth (nth d bl 0%nat) (nth d obids []) 0)
              :: distribute obids t (bump bl d)
  end.

Inductive bm_result :=
| BDone (m : manager) (out : list bid)
| BThrow (m : manager) (taken : list (list Z))  (* [taken]: offsets per disk that stay allocated *)
| BDiverge.

(** block_manager.h:189-241 [new_blocks_int] *)
Definition new_blocks_int (bs : Z) (n : nat) (f : nat -> nat) (offset : nat) (m : manager) : bm_result :=
  let ds := map f (seq offset n) in
  let bl := count_blocks (length (disks m)) ds in
  let '(as', o, r) := alloc_disks bs (disks m) bl in
  match r with
  | AllOk =>
    let cur := current_allocation m + Z.of_nat n * bs in
    BDone (mk_manager as' (total_allocation m + Z.of_nat n * bs) cur
             (Z.max (maximum_allocation m) cur))
          (distribute o ds (repeat 0%nat (length (disks m))))
  | Thrown => BThrow (mk_manager as' (total_allocation m) (current_allocation m) (maximum_allocation m)) o
  | Diverged => BDiverge
  end.

Fixpoint update (l : list alloc) (k : nat) (a : alloc) : list alloc :=
  match l, k with
  | [], _ => []
  | _ :: t, O => a :: t
  | x :: t, S k' => x :: update t k' a
  end.

(** block_manager.h:243-261 [delete_block]; [None] = bad_ext_alloc from the
    disk allocator *)
Definition bm_delete_block (bs : Z) (b : bid) (m : manager) : option manager :=
  match bid_storage b with
  | NoStorage | OwnFile => Some m
  | Disk d =>
    match nth_error (disks m) d with
    | None => Some m   (* not reachable: allocator ids are below ndisks *)
    | Some a =>
      match delete_block a (bid_offset b, bs) with
      | None => None
      | Some a' => Some (mk_manager (update (disks m) d a') (total_allocation m)
                           (current_allocation m - bs) (maximum_allocation m))
      end
    end
  end.

(** block_manager.cpp:25-60: one allocator per configured disk *)
Fixpoint make_disks (cfg : list (Z * bool)) : option (list alloc) :=
  match cfg with
  | [] => Some []
  | (c, g) :: t => match make_alloc c g, make_disks t with
                   | Some a, Some l => Some (a :: l)
                   | _, _ => None
                   end
  end.
Definition make_manager (cfg : list (Z * bool)) : option manager :=
  match make_disks cfg with Some l => Some (mk_manager l 0 0 0) | None => None end.

(** Histories.  The client's view: the blocks it holds; [lost] are the ranges
    that a throwing call left allocated (ghost state). *)
Inductive bm_event :=
| BAlloc (bs : Z) (n : nat) (f : nat -> nat) (offset : nat)
| BFree (bs : Z) (b : bid).

Record bm_sys := mk_sys { mgr : manager; held : list (bid * Z); lost : list (nat * (Z * Z)) }.

Fixpoint lost_of (bs : Z) (d : nat) (o : list (list Z)) : list (nat * (Z * Z)) :=
  match o with
  | [] => []
  | offs :: t => map (fun p => (d, (p, bs))) offs ++ lost_of bs (S d) t
  end.

Definition storage_eqb (s t : storage) : bool :=
  match s, t with
  | NoStorage, NoStorage | OwnFile, OwnFile => true
  | Disk a, Disk b => Nat.eqb a b
  | _, _ => false
  end.
Definition held_eqb (x y : bid * Z) : bool :=
  storage_eqb (bid_storage (fst x)) (bid_storage (fst y)) &&
  (bid_offset (fst x) =? bid_offset (fst y)) && (snd x =? snd y).
Fixpoint remove_held (x : bid * Z) (l : list (bid * Z)) : list (bid * Z) :=
  match l with [] => [] | y :: t => if held_eqb x y then t else y :: remove_held x t end.

Definition bm_exec (s : bm_sys) (e : bm_event) : bm_sys :=
  match e with
  | BAlloc bs n f off =>
    match new_blocks_int bs n f off (mgr s) with
    | BDone m out => mk_sys m (held s ++ map (fun b => (b, bs)) out) (lost s)
    | BThrow m o => mk_sys m (held s) (lost s ++ lost_of bs 0 o)
    | BDiverge => s
    end
  | BFree bs b =>
    match bm_delete_block bs b (mgr s) with
    | Some m => mk_sys m (remove_held (b, bs) (held s)) (lost s)
    | None => s
    end
  end.
Definition bm_run (s : bm_sys) (es : list bm_event) : bm_sys := fold_left bm_exec es s.

(** block_manager.cpp:83-103 [get_total_bytes], [get_free_bytes] *)
Definition bm_get_total_bytes (m : manager) : Z := fold_right (fun a n => get_total_bytes a + n) 0 (disks m).
Definition bm_get_free_bytes (m : manager) : Z := fold_right (fun a n => get_free_bytes a + n) 0 (disks m).
