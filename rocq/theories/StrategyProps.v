(** C09 and C10: allocation strategies balance the disks. *)
From Coq Require Import List Arith Permutation.
From Verif Require Import StrategyModel StrategySpec StrategyProofs.
Import ListNotations.

(** Striping, SR (any offset) and RC (any result of the random shuffle) place
    every block in range, any D consecutive blocks on different disks, and any
    n consecutive blocks evenly. *)
Theorem C09_strategies_balance_disks : forall begin D, 0 < D ->
  good_placement begin D (striping begin D) /\
  (forall offset, good_placement begin D (SR begin D offset)) /\
  (forall draws, valid_draws 1 draws -> length draws = D - 1 ->
     good_placement begin D (RC begin D (rc_perm D draws))).
Proof.
  exact (fun b D H => conj (good_striping b D H) (conj (fun o => good_SR b D o H)
    (fun ds V L => good_RC b D _ H (rc_perm_ok D ds H V L)))).
Qed.

Theorem C09_random_and_single_in_range :
  (forall begin D rnd, (forall i, rnd i < D) -> in_range begin D (FR begin rnd)) /\
  (forall d, in_range d 1 (single_disk d)).
Proof. exact (conj range_FR range_single). Qed.

(** Shifting the index (vector growth) keeps all of this. *)
Theorem C09_offset_allocator_keeps_balance : forall begin D f offset, 0 < D ->
  good_placement begin D f -> good_placement begin D (offset_allocator f offset).
Proof. exact good_offset. Qed.

(** In an interleaving of several runs each run by itself is balanced. *)
Theorem C10_interleaved_runs_balanced : forall nruns begin D r, 0 < D -> r < nruns ->
  good_placement begin D (fun k => interleaved_striping nruns begin D (run_block nruns r k)) /\
  (forall offsets, good_placement begin D (fun k => interleaved_SR nruns begin D offsets (run_block nruns r k))) /\
  (forall perms, Permutation (nth r perms []) (seq 0 D) ->
     good_placement begin D (fun k => interleaved_RC nruns begin D perms (run_block nruns r k))).
Proof.
  exact (fun n b D r H1 H2 => conj (good_int_striping n b D r H1 H2)
    (conj (fun o => good_int_SR n b D o r H1 H2) (fun p P => good_int_RC n b D p r H1 H2 P))).
Qed.

Theorem C10_interleaved_in_range : forall nruns begin D, 0 < D -> 0 < nruns ->
  in_range begin D (interleaved_striping nruns begin D) /\
  (forall offsets, in_range begin D (interleaved_SR nruns begin D offsets)) /\
  (forall perms, length perms = nruns -> Forall (fun p => Permutation p (seq 0 D)) perms ->
     in_range begin D (interleaved_RC nruns begin D perms)) /\
  (forall rnd, (forall i, rnd i < D) -> in_range begin D (interleaved_FR begin rnd)) /\
  in_range begin 1 (first_disk_only begin).
Proof.
  exact (fun n b D H1 H2 => conj (int_range_striping n b D H1) (conj (fun o => int_range_SR n b D o H1)
    (conj (fun p L F => int_range_RC n b D p H1 H2 L F) (conj (range_int_FR b D) (range_first b))))).
Qed.

Example C09_ex_rc :
  valid_draws 1 [0; 1; 3] /\ rc_perm 4 [0; 1; 3] = [1; 2; 0; 3] /\
  map (RC 2 4 (rc_perm 4 [0; 1; 3])) (seq 0 6) = [3; 4; 2; 5; 3; 4].
Proof. cbn. repeat split; auto. Qed.
Example C10_ex :
  map (interleaved_SR 2 5 3 [1; 2]) (seq 0 8) = [6; 7; 7; 5; 5; 6; 6; 7].
Proof. reflexivity. Qed.

Print Assumptions C09_strategies_balance_disks.
Print Assumptions C09_random_and_single_in_range.
Print Assumptions C09_offset_allocator_keeps_balance.
Print Assumptions C10_interleaved_runs_balanced.
Print Assumptions C10_interleaved_in_range.
