(** C07, C08: allocation over several disks. *)
From Coq Require Import ZArith List Bool Arith.
From Verif Require Import DiskAllocModel DiskAllocSpec BlockMgrModel BlockMgrSpec BlockMgrProofs.
Import ListNotations.
Local Open Scope Z_scope.

(** In every reachable state held blocks do not collide and lie on their disks. *)
Theorem C08_held_blocks_distinct : forall cfg s, Forall (fun c => 0 <= fst c) cfg -> bm_reachable cfg s ->
  no_collision (held s) /\ (forall x, In x (held s) -> block_inside (mgr s) x).
Proof. exact C08_held_ok. Qed.

(** One call: succeeds iff every disk can serve its share, and then position i
    gets one fresh block on the disk named by the strategy for offset+i. *)
Theorem C08_one_block_per_position : forall cfg s bs n f off, Forall (fun c => 0 <= fst c) cfg -> bm_reachable cfg s -> 0 < bs ->
  (forall i, (i < n)%nat -> (f (off + i) < length cfg)%nat) ->
  ((forall d a, nth_error (disks (mgr s)) d = Some a ->
      autogrow a = true \/ Z.of_nat (demand f off n d) * bs <= get_free_bytes a) ->
    exists m out, new_blocks_int bs n f off (mgr s) = BDone m out /\ length out = n /\
      (forall i b, nth_error out i = Some b -> bid_storage b = Disk (f (off + i)%nat)) /\
      no_collision (held s ++ map (fun b => (b, bs)) out) /\
      (forall b, In b out -> block_inside m (b, bs))) /\
  (forall d a, nth_error (disks (mgr s)) d = Some a -> autogrow a = false ->
      get_free_bytes a < Z.of_nat (demand f off n d) * bs ->
    exists m o, new_blocks_int bs n f off (mgr s) = BThrow m o).
Proof. exact C08_one_call. Qed.

Theorem C08_counters_exact : forall cfg m es, Forall (fun c => 0 <= fst c) cfg -> make_manager cfg = Some m ->
  bm_legal (bm_start m) es ->
  let s := bm_run (bm_start m) es in
  current_allocation (mgr s) = held_bytes s /\
  total_allocation (mgr s) = ever_allocated (bm_start m) es /\
  maximum_allocation (mgr s) = high_water (trace (bm_start m) es) /\
  bm_get_total_bytes (mgr s) = bm_get_free_bytes (mgr s) + held_bytes s + lost_bytes s.
Proof. exact C08_counters_ok. Qed.

(** C07 is false: disk 1 is full, the block taken on disk 0 stays allocated. *)
Theorem C07_failed_call_leaks_refuted : exists cfg m m' o,
  make_manager cfg = Some m /\
  new_blocks_int 1 2 (fun i => Nat.modulo i 2) 0 m = BThrow m' o /\
  bm_get_total_bytes m' = bm_get_total_bytes m /\
  bm_get_free_bytes m' < bm_get_free_bytes m.
Proof.
  exists [(3, false); (0, false)]. do 3 eexists. split; [reflexivity|]. split; [vm_compute; reflexivity|].
  split; reflexivity.
Qed.

(** What holds: a failing call leaves the counters alone, leaves all disks from
    the failing one on untouched, and leaves everything untouched if the
    strategy uses a single disk. *)
Theorem C07_failed_call_effect_partial : forall cfg s bs n f off m o, Forall (fun c => 0 <= fst c) cfg -> bm_reachable cfg s -> 0 < bs ->
  (forall i, (i < n)%nat -> (f (off + i) < length cfg)%nat) ->
  new_blocks_int bs n f off (mgr s) = BThrow m o ->
  current_allocation m = current_allocation (mgr s) /\ total_allocation m = total_allocation (mgr s) /\
  maximum_allocation m = maximum_allocation (mgr s) /\
  (exists k a, nth_error (disks (mgr s)) k = Some a /\ autogrow a = false /\
     get_free_bytes a < Z.of_nat (demand f off n k) * bs /\
     (forall j, (k <= j)%nat -> nth_error (disks m) j = nth_error (disks (mgr s)) j)) /\
  (forall e, (forall i, (i < n)%nat -> f (off + i)%nat = e) -> disks m = disks (mgr s)).
Proof. exact C07_fail. Qed.

(** three disks, striped with offset 1, one of them growing on demand *)
Example C08_ex : exists m m' out, make_manager [(4, false); (4, true); (8, false)] = Some m /\
  new_blocks_int 2 7 (fun i => Nat.modulo i 3) 1 m = BDone m' out /\
  map (fun b => (bid_storage b, bid_offset b)) out =
    [(Disk 1, 0); (Disk 2, 0); (Disk 0, 0); (Disk 1, 2); (Disk 2, 2); (Disk 0, 2); (Disk 1, 4)] /\
  current_allocation m' = 14 /\ bm_get_total_bytes m' = 22.
Proof. do 3 eexists. split; [reflexivity|]. split; [vm_compute; reflexivity|]. repeat split. Qed.

Print Assumptions C08_held_blocks_distinct.
Print Assumptions C08_one_block_per_position.
Print Assumptions C08_counters_exact.
Print Assumptions C07_failed_call_leaks_refuted.
Print Assumptions C07_failed_call_effect_partial.
