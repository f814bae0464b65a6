(** C31: compute_prefetch_schedule *)
From Coq Require Import List Bool Arith Permutation.
From Verif Require Import ScheduleModel ScheduleSpec ScheduleProofs.
Import ListNotations.

(** For every assignment of blocks to disks, every m >= 1 and however ties between simulated events are broken: the
    simulation ends with its assertions satisfied, the order has every block once, and block k is among the first
    k + m. *)
Theorem C31_schedule : forall L m D (disks : nat -> nat), 1 <= m -> (forall i, i < L -> disks i <= D) ->
  forall ch, exists order, schedule L m D disks ch = Some order /\ complete L order /\ in_time m order.
Proof. exact schedule_ok. Qed.
Print Assumptions C31_schedule.

(** seven blocks on disks 0 and 1, four buffers: block 4 is fetched before blocks 2 and 3; ties matter *)
Definition ex_disks (i : nat) : nat := nth i [1; 0; 1; 1; 0; 0; 0] 0.
Example schedule_ex : schedule 7 4 2 ex_disks (fun _ => 0) = Some [0; 1; 4; 2; 5; 3; 6] /\ schedule 7 4 2 ex_disks (fun _ => 1) = Some [1; 0; 4; 2; 5; 3; 6].
Proof. vm_compute. auto. Qed.
Example schedule_meets : 1 <= 4 /\ forall i, i < 7 -> ex_disks i <= 2.
Proof. split; [repeat constructor|]. intros i _. unfold ex_disks. do 7 (destruct i as [|i]; [simpl; repeat constructor|]). simpl. destruct i; repeat constructor. Qed.
(** with no buffers nothing is simulated and the assertion that all blocks are scheduled fails *)
Example schedule_zero : schedule 4 0 2 (fun _ => 0) (fun _ => 0) = None.
Proof. reflexivity. Qed.
