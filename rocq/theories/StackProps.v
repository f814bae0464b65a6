(** C13-C16: the external stacks are stacks, for every schedule of their I/O requests. *)
From Coq Require Import List Bool Arith Lia.
From Verif Require Import SumLib AsyncIoModel AsyncIoRules StackModel StackSpec StackProofs.
Import ListNotations.

(** [P] blocks per page, [S] elements per block.  [c], [d]: initial contents of the buffers and the disk; [al]: the
    blocks the block manager returns; [o]: when the requests are served and what other programs do to other blocks. *)
Theorem C13_normal_stack : forall A P S, 1 <= P -> 1 <= S -> forall (os : list (op A)) l xs, spec_ops os [] = Some (l, xs) ->
  forall c d al o, match arun (normal_history A P S os (n_init P)) (ainit c d al) o with
                   | Done r _ => snd r = xs | Error => False | Stuck => True end.
Proof. intros A P S HP HS os l xs H. apply (ok_async A _ _ (fun r => snd r = xs)). intro al. exact (normal_ok A P S HP HS os l xs al H). Qed.
Theorem C13_normal_stack_progress : forall A P S, 1 <= P -> 1 <= S -> forall (os : list (op A)) l xs, spec_ops os [] = Some (l, xs) ->
  forall c d, exists al o r a, arun (normal_history A P S os (n_init P)) (ainit c d al) o = Done r (a, []) /\ snd r = xs.
Proof. intros A P S HP HS os l xs H. apply (ok_async_progress A _ _ (fun r => snd r = xs)). intro al. exact (normal_ok A P S HP HS os l xs al H). Qed.

Theorem C14_grow_shrink_stack : forall A P S, 1 <= P -> 1 <= S -> forall (os : list (op A)) l xs, spec_ops os [] = Some (l, xs) ->
  forall c d al o, match arun (gs_history A P S os (g_init P)) (ainit c d al) o with
                   | Done r _ => snd r = xs | Error => False | Stuck => True end.
Proof. intros A P S HP HS os l xs H. apply (ok_async A _ _ (fun r => snd r = xs)). intro al. exact (gs_ok A P S HP HS os l xs al H). Qed.
Theorem C14_grow_shrink_stack_progress : forall A P S, 1 <= P -> 1 <= S -> forall (os : list (op A)) l xs, spec_ops os [] = Some (l, xs) ->
  forall c d, exists al o r a, arun (gs_history A P S os (g_init P)) (ainit c d al) o = Done r (a, []) /\ snd r = xs.
Proof. intros A P S HP HS os l xs H. apply (ok_async_progress A _ _ (fun r => snd r = xs)). intro al. exact (gs_ok A P S HP HS os l xs al H). Qed.

(** [aggr]: the initial prefetch aggressiveness *)
Theorem C15_grow_shrink_stack2 : forall A S, 1 <= S -> forall aggr (os : list (op A)) l xs, spec_ops os [] = Some (l, xs) ->
  forall c d al o, match arun (gs2_history A S os (s_init aggr)) (ainit c d al) o with
                   | Done r _ => snd r = xs | Error => False | Stuck => True end.
Proof. intros A S HS aggr os l xs H. apply (ok_async A _ _ (fun r => snd r = xs)). intro al. exact (gs2_ok A 1 S (le_n 1) HS os l xs aggr al H). Qed.
Theorem C15_grow_shrink_stack2_progress : forall A S, 1 <= S -> forall aggr (os : list (op A)) l xs, spec_ops os [] = Some (l, xs) ->
  forall c d, exists al o r a, arun (gs2_history A S os (s_init aggr)) (ainit c d al) o = Done r (a, []) /\ snd r = xs.
Proof. intros A S HS aggr os l xs H. apply (ok_async_progress A _ _ (fun r => snd r = xs)). intro al. exact (gs2_ok A 1 S (le_n 1) HS os l xs aggr al H). Qed.

(** [crit]: CritSize, the size at which the stack moves to disk *)
Theorem C16_migrating_stack_normal : forall A P S, 1 <= P -> 1 <= S -> forall crit (os : list (op A)) l xs, spec_ops os [] = Some (l, xs) ->
  forall c d al o, match arun (migrating_normal_history A P S crit os (MInt [])) (ainit c d al) o with
                   | Done r _ => snd r = xs | Error => False | Stuck => True end.
Proof. intros A P S HP HS crit os l xs H. apply (ok_async A _ _ (fun r => snd r = xs)). intro al. exact (migrating_normal_ok A P S HP HS crit os l xs al H). Qed.
Theorem C16_migrating_stack_grow_shrink : forall A P S, 1 <= P -> 1 <= S -> forall crit (os : list (op A)) l xs, spec_ops os [] = Some (l, xs) ->
  forall c d al o, match arun (migrating_gs_history A P S crit os (MInt [])) (ainit c d al) o with
                   | Done r _ => snd r = xs | Error => False | Stuck => True end.
Proof. intros A P S HP HS crit os l xs H. apply (ok_async A _ _ (fun r => snd r = xs)). intro al. exact (migrating_gs_ok A P S HP HS crit os l xs al H). Qed.
Theorem C16_migrating_stack_progress : forall A P S, 1 <= P -> 1 <= S -> forall crit (os : list (op A)) l xs, spec_ops os [] = Some (l, xs) ->
  forall c d, (exists al o r a, arun (migrating_normal_history A P S crit os (MInt [])) (ainit c d al) o = Done r (a, []) /\ snd r = xs) /\
              (exists al o r a, arun (migrating_gs_history A P S crit os (MInt [])) (ainit c d al) o = Done r (a, []) /\ snd r = xs).
Proof.
  intros A P S HP HS crit os l xs H c d. split.
  - apply (ok_async_progress A _ _ (fun r => snd r = xs)). intro al. exact (migrating_normal_ok A P S HP HS crit os l xs al H).
  - apply (ok_async_progress A _ _ (fun r => snd r = xs)). intro al. exact (migrating_gs_ok A P S HP HS crit os l xs al H).
Qed.

(** Pages of one block of two elements: five pushes, pops over a page boundary. *)
Definition hist : list (op nat) :=
  [Push 1; Push 2; Push 3; Push 4; Push 5; Top; Size; Pop; SetTop 9; Pop; Top; Pop; Pop; Top; Push 6; Top; Size].
Example hist_legal : spec_ops hist [] =
  Some ([6; 1], [OUnit; OUnit; OUnit; OUnit; OUnit; OVal 5; ONum 5; OUnit; OUnit; OUnit; OVal 3; OUnit; OUnit; OVal 1; OUnit; OVal 6; ONum 2]).
Proof. reflexivity. Qed.
Definition outs {T S} (x : result (T * list (out nat)) S) : option (list (out nat)) := match x with Done r _ => Some (snd r) | _ => None end.
Example hist_normal : outs (srun (normal_history nat 1 2 hist (n_init 1)) (sinit [[3]; [4]])) = option_map snd (spec_ops hist []).
Proof. vm_compute. reflexivity. Qed.
Example hist_gs : outs (srun (gs_history nat 1 2 hist (g_init 1)) (sinit [[3]; [4]])) = option_map snd (spec_ops hist []).
Proof. vm_compute. reflexivity. Qed.
Example hist_gs2 : outs (srun (gs2_history nat 2 (Aggr 3 :: hist) (s_init 1)) (sinit [[3]; [4]; [5]])) = option_map snd (spec_ops (Aggr 3 :: hist) []).
Proof. vm_compute. reflexivity. Qed.
Example hist_migrating : outs (srun (migrating_gs_history nat 1 2 4 hist (MInt [])) (sinit [[3]; [4]])) = option_map snd (spec_ops hist []).
Proof. vm_compute. reflexivity. Qed.
Print Assumptions C13_normal_stack.
Print Assumptions C13_normal_stack_progress.
Print Assumptions C14_grow_shrink_stack.
Print Assumptions C14_grow_shrink_stack_progress.
Print Assumptions C15_grow_shrink_stack2.
Print Assumptions C15_grow_shrink_stack2_progress.
Print Assumptions C16_migrating_stack_normal.
Print Assumptions C16_migrating_stack_grow_shrink.
Print Assumptions C16_migrating_stack_progress.
