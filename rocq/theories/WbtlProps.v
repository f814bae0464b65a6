(** C47: wbtl_file. *)
From Coq Require Import List Bool Arith Lia.
From Verif Require Import SumLib AsyncIoModel AsyncIoProofs AsyncIoRules WbtlModel WbtlSpec WbtlProofs.
Import ListNotations.

(** For every allowed history (blocks are used with the size they have, at most W) and every schedule of the writes of the buffers: up to the first
    exception, blocks are read as they were written; the places of the blocks lie in the file and do not overlap.  Only a write may throw, and only
    if there are no W consecutive units left without a part of a block.  Missing: histories that go on after an exception, other sizes. *)
Theorem C47_reads_partial : forall (A : Type) (junk : A) (W sent : nat), 0 < W ->
  forall (os : list (bop A)) x, f_ops A W sent os f_new = Some x ->
  forall c d al o, match arun (b_ops A junk W sent false os (b_new W)) (ainit c d al) o with
    | Done (st, outs) _ => fine A W sent f_new os (b_map st) outs
    | Error => False
    | Stuck => True
    end.
Proof.
  intros A junk W sent HW os x E c d al o.
  pose proof (ok_async A _ _ _ (fun al => b_ops_ok A junk W sent HW os f_new (b_new W) (sinit al) x (new_inv A W HW al) E) c d al o) as G.
  destruct (arun _ _ o) as [[st outs] (a & o')| |]; auto.
Qed.
Theorem C47_progress : forall (A : Type) (junk : A) (W sent : nat), 0 < W ->
  forall (os : list (bop A)) x, f_ops A W sent os f_new = Some x ->
  forall c d, exists al o st outs a, arun (b_ops A junk W sent false os (b_new W)) (ainit c d al) o = Done (st, outs) (a, []) /\ fine A W sent f_new os (b_map st) outs.
Proof.
  intros A junk W sent HW os x E c d.
  destruct (ok_async_progress A _ _ _ (fun al => b_ops_ok A junk W sent HW os f_new (b_new W) (sinit al) x (new_inv A W HW al) E) c d) as (al & o & [st outs] & a & H1 & H2).
  exists al, o, st, outs, a. split; assumption.
Qed.

Definition ex_zero : nat -> nat -> nat := fun _ _ => 0.
Definition ex_os : list (bop nat) :=
  [BSize nat 8; BWrite nat 0 [10; 11]; BWrite nat 2 [20]; BWrite nat 0 [12; 13]; BWrite nat 3 [30]; BRead nat 0 2; BRead nat 2 1; BWrite nat 2 [21]; BWrite nat 4 [40; 41];
   BRead nat 3 1; BDiscard nat 3 1; BWrite nat 0 [14; 15]; BRead nat 2 1; BRead nat 0 2; BRead nat 4 2; BRead nat 5 2].
(** buffers of 3 units; blocks come from both buffers and from the storage *)
Example C47_ex_allowed : exists f, f_ops nat 3 100 ex_os f_new =
  Some (f, [EDone; EWritten; EWritten; EWritten; EWritten; ERead [12; 13]; ERead [20]; EWritten; EWritten; ERead [30]; EDone; EWritten; ERead [21]; ERead [14; 15]; ERead [40; 41]; EAny 2]).
Proof. eexists. vm_compute. reflexivity. Qed.
Example C47_ex_run : let p := b_ops nat 0 3 100 false ex_os (b_new 3) in let i := ainit ex_zero ex_zero [[10; 11; 12; 13; 14; 15; 16; 17]] in
  match arun p i (eager p i) with
  | Done (_, outs) _ => outs = [ODone nat; ODone nat; ODone nat; ODone nat; ODone nat; ORead nat [12; 13]; ORead nat [20]; ODone nat; ODone nat; ORead nat [30];
      ODone nat; ODone nat; ORead nat [21]; ORead nat [14; 15]; ORead nat [40; 41]; ORead nat [0; 0]]
  | _ => False
  end.
Proof. vm_compute. reflexivity. Qed.

(** A block of a full file cannot be written again: its old place is freed, but there are no W consecutive units; the exception leaves the block lost. *)
Theorem C47_rewrite_refuted : exists (os : list (bop nat)) f es al o st outs a,
  os = [BSize nat 4; BWrite nat 0 [10]; BWrite nat 1 [11]; BWrite nat 2 [12]; BWrite nat 3 [13]; BWrite nat 0 [20]; BRead nat 0 1] /\
  f_ops nat 2 100 os f_new = Some (f, es) /\ es = [EDone; EWritten; EWritten; EWritten; EWritten; EWritten; ERead [20]] /\
  arun (b_ops nat 77 2 100 true os (b_new 2)) (ainit ex_zero ex_zero al) o = Done (st, outs) (a, []) /\
  outs = [ODone nat; ODone nat; ODone nat; ODone nat; ODone nat; OThrow nat; ORead nat [77]].
Proof.
  eexists. eexists. eexists. exists [[5; 6; 7; 8]].
  exists (eager (b_ops nat 77 2 100 true [BSize nat 4; BWrite nat 0 [10]; BWrite nat 1 [11]; BWrite nat 2 [12]; BWrite nat 3 [13]; BWrite nat 0 [20]; BRead nat 0 1] (b_new 2)) (ainit ex_zero ex_zero [[5; 6; 7; 8]])).
  eexists. eexists. eexists. split; [reflexivity|]. split; [vm_compute; reflexivity|]. split; [reflexivity|]. split; [vm_compute; reflexivity|reflexivity].
Qed.
(** After the exception the position belongs to the other buffer: the next write that fits overwrites block 2. *)
Theorem C47_after_throw_refuted : exists (os : list (bop nat)) f es al o st outs a,
  os = [BSize nat 6; BWrite nat 0 [10; 11]; BWrite nat 2 [12]; BWrite nat 3 [13; 14]; BWrite nat 5 [15; 16]; BWrite nat 7 [17]; BRead nat 2 1] /\
  f_ops nat 3 100 os f_new = Some (f, es) /\ es = [EDone; EWritten; EWritten; EWritten; EWritten; EWritten; ERead [12]] /\
  arun (b_ops nat 77 3 100 true os (b_new 3)) (ainit ex_zero ex_zero al) o = Done (st, outs) (a, []) /\
  outs = [ODone nat; ODone nat; ODone nat; ODone nat; OThrow nat; ODone nat; ORead nat [17]].
Proof.
  eexists. eexists. eexists. exists [[5; 6; 7; 8; 9; 10]].
  exists (eager (b_ops nat 77 3 100 true [BSize nat 6; BWrite nat 0 [10; 11]; BWrite nat 2 [12]; BWrite nat 3 [13; 14]; BWrite nat 5 [15; 16]; BWrite nat 7 [17]; BRead nat 2 1] (b_new 3)) (ainit ex_zero ex_zero [[5; 6; 7; 8; 9; 10]])).
  eexists. eexists. eexists. split; [reflexivity|]. split; [vm_compute; reflexivity|]. split; [reflexivity|]. split; [vm_compute; reflexivity|reflexivity].
Qed.
(** A block that was not written is read at address 0xffffffff; if that is in a buffer, an assertion fails. *)
Theorem C47_unwritten_refuted : exists (os : list (bop nat)) W sent al o,
  os = [BSize nat 4; BWrite nat 0 [10; 11]; BWrite nat 2 [12]; BRead nat 3 1] /\
  arun (b_ops nat 77 W sent false os (b_new W)) (ainit ex_zero ex_zero al) o = Error.
Proof.
  eexists. exists 2, 3, [[5; 6; 7; 8]].
  exists (eager (b_ops nat 77 2 3 false [BSize nat 4; BWrite nat 0 [10; 11]; BWrite nat 2 [12]; BRead nat 3 1] (b_new 2)) (ainit ex_zero ex_zero [[5; 6; 7; 8]])).
  split; [reflexivity|]. vm_compute. reflexivity.
Qed.

Print Assumptions C47_reads_partial.
Print Assumptions C47_progress.
Print Assumptions C47_rewrite_refuted.
Print Assumptions C47_after_throw_refuted.
Print Assumptions C47_unwritten_refuted.
