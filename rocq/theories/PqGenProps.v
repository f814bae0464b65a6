(** C75: the parameters that PRIORITY_QUEUE_GENERATOR finds. *)
From Coq Require Import List Bool Arith NArith Lia Permutation Sorted.
From Verif Require Import SumLib OrderLib PqTreeModel PqMergeProofs PqModel PqSpec PqListProofs PqProofs PqProps PqGenModel.
Import ListNotations.
Open Scope N_scope.

Lemma compute_N_facts a X crit n AI : compute_N a X crit = Some (n, AI) ->
  crit <= n /\ (exists p : nat, (1 <= p)%nat /\ AI = 2 ^ N.of_nat p).
Proof.
  induction a as [|a IH]; [discriminate|]. cbn [compute_N].
  destruct (N.leb_spec crit (X / (2 ^ N.of_nat (S a) * 2 ^ N.of_nat (S a)))) as [L|_]; [|exact IH].
  intro E. injection E as <- <-. split; [exact L|]. exists (S a). split; [lia|reflexivity].
Qed.
Lemma compute_N_large a X crit n AI : compute_N a X crit = Some (n, AI) -> (3 <= a)%nat -> crit * 64 <= X -> 8 <= AI.
Proof.
  intros E Ha HX. revert E. induction a as [|a IH]; [lia|]. cbn [compute_N].
  destruct (N.leb_spec crit (X / (2 ^ N.of_nat (S a) * 2 ^ N.of_nat (S a)))) as [L|L].
  - intro E. assert (Q : AI = 2 ^ N.of_nat (S a)) by congruence. rewrite Q. change 8 with (2 ^ 3). apply N.pow_le_mono_r; lia.
  - destruct (Nat.eq_dec a 2) as [->|Na]; [|apply IH; lia].
    exfalso. change (2 ^ N.of_nat 3 * 2 ^ N.of_nat 3) with 64 in L.
    apply N.lt_nge in L. apply L. apply N.div_le_lower_bound; lia.
Qed.
Lemma find_m_fits fuel : forall es im mi B m m', find_m fuel es im mi B m = Some m' -> gfits es im mi B m' = true.
Proof.
  induction fuel as [|fuel IH]; intros es im mi B m m'; cbn [find_m].
  - destruct (gfits es im mi B m) eqn:E; [|discriminate]. intro Q. injection Q as <-. exact E.
  - destruct (gfits es im mi B m) eqn:E; [intro Q; injection Q as <-; exact E|].
    destruct (gk im B <=? m + 1); [discriminate|apply IH].
Qed.
Lemma find_B_fits bs es im mi : forall B m, find_B bs es im mi = Some (B, m) -> In B bs /\ B <> 4096 /\ gfits es im mi B m = true.
Proof.
  induction bs as [|B0 bs IH]; intros B m; [discriminate|]. cbn [find_B].
  destruct (find_m (N.to_nat (gk im B0)) es im mi B0 1) as [m0|] eqn:E.
  - destruct (N.eqb_spec B0 4096) as [_|Nb]; [discriminate|]. intro Q. injection Q as <- <-.
    split; [left; reflexivity|]. split; [exact Nb|]. exact (find_m_fits _ _ _ _ _ _ _ E).
  - intro Q. destruct (IH B m Q) as (H1 & H2 & H3). split; [right; exact H1|]. split; assumption.
Qed.
Lemma fits_c es im mi B m : gfits es im mi B m = true -> 11 <= gk im B - m.
Proof.
  unfold gfits. intro H. apply andb_true_iff in H. destruct H as [H _]. apply andb_true_iff in H. destruct H as [H _].
  apply N.ltb_lt in H. lia.
Qed.
Lemma sizes_bound B : In B sizes -> B <> 4096 -> 8192 <= B.
Proof. unfold sizes. cbn [In]. intros H Nb. repeat (destruct H as [<-|H]; [lia|]). contradiction. Qed.

(** everything but the arity of the internal mergers is always right *)
Theorem C75_generator : forall es im mi tune w g, generator es im mi tune = Some g -> 1 <= es <= g_B g -> 1 <= w ->
  (config_ok (conf es w g) <-> 8 <= g_AI g).
Proof.
  intros es im mi tune w g E [He1 He2] Hw. unfold generator in E.
  destruct (find_B sizes es im mi) as [[B m]|] eqn:EB; [|discriminate].
  destruct (compute_N tune (B * (gk im B - m) / es) (4 * 32)) as [[n AI]|] eqn:EN; [|discriminate].
  injection E as <-. cbn [g_B] in He2. destruct (compute_N_facts _ _ _ _ _ EN) as (Ln & p & Hp & EA).
  assert (Blk : 1 <= B / es) by (apply N.div_le_lower_bound; lia).
  set (AE := if m / 2 <? 2 then 2 else m / 2).
  assert (HAE : 2 <= AE) by (unfold AE; destruct (N.ltb_spec (m / 2) 2); lia).
  unfold conf, config_ok. cbn [g_dbs g_N g_AI g_levels g_B g_AE c_dbs c_N c_IK c_NI c_block c_EK c_NE c_wpool]. split.
  - intros (_ & _ & _ & _ & _ & H & _). change (N.to_nat 2 + N.to_nat 2 + 1)%nat with 5%nat in H.
    assert (H5 : 5 <= AI) by lia. rewrite EA in *. change 8 with (2 ^ 3). apply N.pow_le_mono_r; [lia|].
    destruct (Nat.le_gt_cases 3 p) as [L|L]; [lia|]. exfalso.
    assert (Q : 2 ^ N.of_nat p <= 2 ^ 2) by (apply N.pow_le_mono_r; lia). change (2 ^ 2) with 4 in Q. lia.
  - intro H8. change (N.to_nat 2) with 2%nat. change (N.to_nat 32) with 32%nat. cbn [Nat.add].
    repeat split; try lia. exists p. rewrite EA, N2Nat.inj_pow, Nnat.Nat2N.id. reflexivity.
Qed.
(** small elements: the parameters found are good *)
Theorem C75_small_elements : forall es im mi tune w g, generator es im mi tune = Some g -> 1 <= es <= 11 -> (3 <= tune)%nat -> 1 <= w ->
  config_ok (conf es w g).
Proof.
  intros es im mi tune w g E He Ht Hw. pose proof E as E'. unfold generator in E.
  destruct (find_B sizes es im mi) as [[B m]|] eqn:EB; [|discriminate].
  destruct (compute_N tune (B * (gk im B - m) / es) (4 * 32)) as [[n AI]|] eqn:EN; [|discriminate].
  injection E as E. destruct (find_B_fits _ _ _ _ _ _ EB) as (H1 & H2 & H3).
  pose proof (sizes_bound _ H1 H2) as HB. pose proof (fits_c _ _ _ _ _ H3) as Hc.
  apply (C75_generator es im mi tune w g E'); [subst g; cbn; lia|exact Hw|].
  subst g. cbn [g_AI]. apply (compute_N_large _ _ _ _ _ EN Ht). apply N.div_le_lower_bound; [lia|].
  apply N.le_trans with (8192 * 11); [|apply N.mul_le_mono; assumption]. change (4 * 32 * 64) with 8192.
  rewrite N.mul_comm. apply N.mul_le_mono_l. lia.
Qed.
(** and the queue with them works *)
Theorem C75_works : forall es im mi tune w g, generator es im mi tune = Some g -> 1 <= es <= 11 -> (3 <= tune)%nat -> 1 <= w ->
  forall A (cmp : A -> A -> bool) mn push_heap pop_heap sortf,
  strict_weak cmp -> push_heap_ok A cmp push_heap -> pop_heap_ok A cmp pop_heap -> sorts cmp sortf ->
  forall os, allowed A cmp mn 0 os ->
  exists rs s l, exec A cmp mn (conf es w g) push_heap pop_heap sortf os = Some (rs, s) /\ spec_run A cmp [] os rs l.
Proof.
  intros es im mi tune w g E He Ht Hw A cmp mn ph pp sf SW PH PP SF os Al.
  apply C37_priority_queue; try assumption. exact (C75_small_elements es im mi tune w g E He Ht Hw).
Qed.
(** 8-byte elements, 128 MiB, 2^30 elements, as in the tutorial *)
Example tutorial : generator 8 (128 * 1024 * 1024) (1024 * 1024) 6 <> None.
Proof. vm_compute. discriminate. Qed.

(** 64-byte elements, 344 KiB, 360448 elements: the internal mergers get arity 2, and with about 2000 elements the queue
    overruns the slots of the first one *)
Definition os2 : list (op nat) := repeat (Push 5%nat) (353 * 4) ++ repeat Pop 40 ++ repeat (Push 5%nat) (353 * 3).
Theorem C75_refuted : exists es im mi tune g, generator es im mi tune = Some g /\ 1 <= es <= g_B g /\ fails (conf es 1 g).
Proof.
  exists 64, 352256, 352, 6%nat, (gr 32 352 2 2 8192 16). split; [vm_compute; reflexivity|]. split; [cbn; lia|].
  apply (fails_by _ os2); vm_compute; reflexivity.
Qed.

Print Assumptions C75_generator.
Print Assumptions C75_small_elements.
Print Assumptions C75_works.
Print Assumptions C75_refuted.
