(** C45: reference-counted pointers free exactly once, under every interleaving. *)
From Coq Require Import ZArith List Bool Arith.
From Verif Require Import CountPtrModel CountPtrSpec CountPtrProofs.
Import ListNotations.
Local Open Scope Z_scope.

(** No schedule of any number of threads over any number of pointer variables
    (together below 2^64, so that a count cannot wrap) touches a destroyed
    object, deletes twice or deletes with a non-zero count. *)
Theorem C45_no_use_after_free : forall NT NS sched,
  Z.of_nat NS + Z.of_nat NT + 1 < 2 ^ 64 -> run NT NS init sched <> UB.
Proof. exact C45_safe. Qed.

(** At every moment: no destructor ran twice, and the target of a pointer that
    no running operation is about to overwrite has not been destroyed. *)
Theorem C45_never_early_never_twice : forall NT NS sched st,
  Z.of_nat NS + Z.of_nat NT + 1 < 2 ^ 64 -> run NT NS init sched = Ok st ->
  NoDup (log st) /\
  (forall s o, points st s o -> stable st s -> alive st o /\ ~ In o (log st)).
Proof. exact C45_running. Qed.

(** At every moment a living object is pointed to, or in the hands of a running
    operation: nothing leaks. *)
Theorem C45_never_late : forall NT NS sched st o,
  Z.of_nat NS + Z.of_nat NT + 1 < 2 ^ 64 -> run NT NS init sched = Ok st ->
  alive st o -> (exists s, points st s o) \/ (exists t, in_hand (pcs st t) o).
Proof. exact C45_noleak. Qed.

(** Whenever no operation is running, exactly the created objects nobody points
    to have been destroyed, and a living object's count is the number of
    pointers to it (so unique() is exact). *)
Theorem C45_destroyed_iff_unreferenced : forall NT NS sched st,
  Z.of_nat NS + Z.of_nat NT + 1 < 2 ^ 64 -> run NT NS init sched = Ok st ->
  quiet st -> forall o,
  (alive st o <-> exists s, points st s o) /\
  (alive st o -> heap st o = Alive (pointers_to NS st o)) /\
  (In o (log st) <-> created st o /\ forall s, ~ points st s o).
Proof. exact C45_quiet_all. Qed.

(** An operation a thread has begun ends after at most four more actions of that
    thread and does to the pointer variables what its name says; unify() leaves
    an unshared pointer alone and otherwise installs a new object. *)
Theorem C45_operations_mean_what_they_say : forall NT NS sched st t a st1,
  Z.of_nat NS + Z.of_nat NT + 1 < 2 ^ 64 -> run NT NS init sched = Ok st ->
  pcs st t = Idle -> step NT NS st t a = Ok st1 ->
  exists st2, finish 4 st1 t = Ok st2 /\ pcs st2 t = Idle /\ effect a st st2.
Proof. exact C45_effects. Qed.

(** Two threads drop the last two references to one object concurrently while a
    third variable is self-assigned and unified; everything ends destroyed once. *)
Definition sched1 : list (nat * op) :=
  [ (0, CtorNew 0); (0, Use 0);                       (* object 0 *)
    (0, CtorCopy 1 0); (0, Use 0);
    (1, CtorCopy 2 1); (1, Use 0);
    (0, Assign 0 0); (0, Use 0); (0, Use 0); (0, Use 0); (* self-assignment *)
    (0, Destroy 0); (1, Unify 2); (0, Use 0);           (* unify: object 1 *)
    (1, Use 0); (1, Use 0); (1, Use 0);
    (0, Swap 1 2); (0, Use 0);
    (0, Destroy 1); (1, Destroy 2); (1, Use 0); (0, Use 0); (0, Use 0); (1, Use 0) ]%nat.
Example C45_sched1 :
  match run 2 3 init sched1 with
  | Ok st => log st = [1; 0]%nat /\ next st = 2%nat /\ pcs st 0%nat = Idle /\ pcs st 1%nat = Idle
  | _ => False
  end.
Proof. vm_compute. repeat split. Qed.

Print Assumptions C45_no_use_after_free.
Print Assumptions C45_never_early_never_twice.
Print Assumptions C45_never_late.
Print Assumptions C45_destroyed_iff_unreferenced.
Print Assumptions C45_operations_mean_what_they_say.
