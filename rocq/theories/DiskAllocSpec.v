(** Specification vocabulary for disk space: byte ranges and their overlap. *)
From Coq Require Import ZArith List.
Import ListNotations.
Local Open Scope Z_scope.

(** a range (position, size) *)
Definition contains (r : Z * Z) (byte : Z) : Prop := fst r <= byte < fst r + snd r.
Definition overlap (r s : Z * Z) : Prop := exists byte, contains r byte /\ contains s byte.
(** all ranges at different list positions are disjoint *)
Definition pairwise_disjoint (l : list (Z * Z)) : Prop := ForallOrdPairs (fun r s => ~ overlap r s) l.
Definition inside (r : Z * Z) (size : Z) : Prop := 0 <= fst r /\ fst r + snd r <= size.
Definition bytes_of (l : list (Z * Z)) : Z := fold_right (fun r n => snd r + n) 0 l.

(** [free] is the list of maximal free ranges: increasing, non-empty, and with
    at least one byte between neighbours *)
Fixpoint maximal_ranges (lo : Z) (free : list (Z * Z)) : Prop :=
  match free with
  | [] => True
  | r :: t => lo < fst r /\ 0 < snd r /\ maximal_ranges (fst r + snd r) t
  end.

(** the disk [0,size) is exactly partitioned into free and live ranges *)
Definition partition_of_disk (size : Z) (free live : list (Z * Z)) : Prop :=
  pairwise_disjoint (free ++ live) /\
  (forall r, In r (free ++ live) -> inside r size) /\
  (forall byte, 0 <= byte < size -> exists r, In r (free ++ live) /\ contains r byte).

(** ** Histories of a disk (over the model's events) *)
From Verif Require Import DiskAllocModel.

(** Allocation requests name positive sizes; a free returns a live block, or is
    a mistaken free that hits bytes that are already free. *)
Definition legal_event (s : sys) (e : event) : Prop :=
  match e with
  | EAlloc bs sizes => 0 < bs /\ Forall (fun z => 0 < z) sizes
  | EFree r => In r (snd s) \/
               (0 < snd r /\ exists f, In f (free_space (fst s)) /\ overlap f r)
  end.
Fixpoint legal (s : sys) (es : list event) : Prop :=
  match es with [] => True | e :: r => legal_event s e /\ legal (exec s e) r end.

(** the states of a disk configured with [cfg] bytes *)
Definition reachable (cfg : Z) (grow : bool) (s : sys) : Prop :=
  exists a0 es, make_alloc cfg grow = Some a0 /\ legal (a0, []) es /\ run (a0, []) es = s.
