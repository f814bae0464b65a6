(** Model of the disk allocation strategies.
    Source: /repo/include/stxxl/bits/mng/block_alloc.h and
    block_alloc_interleaved.h.

    Simplification: block indices, offsets and disk numbers are unbounded
    naturals (the code uses 64-bit unsigned arithmetic; an index would have to
    reach 2^64 to make a difference; [offset_allocator] is modelled for
    non-negative offsets, the only ones the library passes).
    A random number drawn by [rnd(N)] is a parameter; the theorems assume only
    that it is below [N]. *)
From Coq Require Import List Arith.
Import ListNotations.

(** block_alloc.h:41-63 [striping]: [begin], [diff] and operator() *)
Definition striping (begin diff i : nat) : nat := begin + i mod diff.

(** block_alloc.h:67-89 [FR]: [rnd i] is the number drawn for this call *)
Definition FR (begin : nat) (rnd : nat -> nat) (i : nat) : nat := begin + rnd i.

(** block_alloc.h:93-126 [SR]: [offset] drawn once in [init] *)
Definition SR (begin diff offset i : nat) : nat := begin + (i + offset) mod diff.

(** swap of two positions of an array *)
Fixpoint set_nth (l : list nat) (i x : nat) : list nat :=
  match l, i with
  | [], _ => []
  | _ :: r, O => x :: r
  | a :: r, S i' => a :: set_nth r i' x
  end.
Definition swap (l : list nat) (i j : nat) : list nat :=
  set_nth (set_nth l i (nth j l 0)) j (nth i l 0).

(** std::random_shuffle(first, last, rnd): for i = 1 .. n-1,
    swap(first[i], first[rnd(i+1)]); [draws] lists the drawn numbers *)
Fixpoint random_shuffle (i : nat) (draws : list nat) (l : list nat) : list nat :=
  match draws with
  | [] => l
  | j :: ds => random_shuffle (S i) ds (swap l i j)
  end.

(** block_alloc.h:135-142 [RC::init]: identity permutation, then shuffled;
    [draws] are the [diff]-1 numbers drawn *)
Definition rc_perm (diff : nat) (draws : list nat) : list nat :=
  random_shuffle 1 draws (seq 0 diff).

(** block_alloc.h:130-164 [RC::operator()] ([RC_disk], [RC_flash] 166-192 differ
    only in the disk range) *)
Definition RC (begin diff : nat) (perm : list nat) (i : nat) : nat :=
  begin + nth (i mod diff) perm 0.

(** block_alloc.h:196-214 [single_disk] *)
Definition single_disk (disk : nat) (i : nat) : nat := disk.

(** block_alloc.h:219-255 [offset_allocator] *)
Definition offset_allocator (base : nat -> nat) (offset i : nat) : nat := base (offset + i).

(** block_alloc_interleaved.h:26-46 *)
Definition interleaved_striping (nruns begindisk diff i : nat) : nat :=
  begindisk + (i / nruns) mod diff.

(** block_alloc_interleaved.h:48-61 *)
Definition interleaved_FR (begindisk : nat) (rnd : nat -> nat) (i : nat) : nat := begindisk + rnd i.

(** block_alloc_interleaved.h:63-80 *)
Definition interleaved_SR (nruns begindisk diff : nat) (offsets : list nat) (i : nat) : nat :=
  begindisk + (i / nruns + nth (i mod nruns) offsets 0) mod diff.

(** block_alloc_interleaved.h:82-104 *)
Definition interleaved_RC (nruns begindisk diff : nat) (perms : list (list nat)) (i : nat) : nat :=
  begindisk + nth ((i / nruns) mod diff) (nth (i mod nruns) perms []) 0.

(** block_alloc_interleaved.h:106-116 *)
Definition first_disk_only (begindisk i : nat) : nat := begindisk.
