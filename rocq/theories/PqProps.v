(** C37: the external priority queue. *)
From Coq Require Import List Bool Arith Lia Permutation Sorted.
From Verif Require Import SumLib OrderLib PqTreeModel PqTournProofs PqMergeProofs PqTreeProofs PqModel PqSpec PqListProofs PqProofs.
Import ListNotations.

(** For every configuration that works (PqSpec.config_ok), every strict weak order, every correct
    implementation of the heap functions and of the sort and every sequence of operations within
    their preconditions: no assertion fails, nothing is thrown, and the answers are those of a bag
    of elements. *)
Theorem C37_priority_queue : forall A (cmp : A -> A -> bool) mn c push_heap pop_heap sortf,
  strict_weak cmp -> push_heap_ok A cmp push_heap -> pop_heap_ok A cmp pop_heap -> sorts cmp sortf -> config_ok c ->
  forall os, allowed A cmp mn 0 os ->
  exists rs s l, exec A cmp mn c push_heap pop_heap sortf os = Some (rs, s) /\ spec_run A cmp [] os rs l.
Proof. intros A cmp mn c ph pp sf SW PH PP SF CO os Al. apply exec_ok; assumption. Qed.

(** what this means for filling the queue and emptying it: the elements come out in order *)
Lemma spec_pushes A cmp (xs : list A) : forall l os rs l', spec_run A cmp l (map Push xs ++ os) rs l' ->
  exists rs', rs = map (fun _ => RUnit) xs ++ rs' /\ spec_run A cmp (rev xs ++ l) os rs' l'.
Proof.
  induction xs as [|x xs IH]; intros l os rs l' H; [exists rs; split; [reflexivity|exact H]|].
  inversion H as [|? ? ? r rs0 l1 ? S R]; subst. inversion S; subst.
  destruct (IH _ _ _ _ R) as (rs' & -> & R'). exists rs'. split; [reflexivity|]. cbn [rev]. rewrite <- app_assoc. exact R'.
Qed.
Lemma spec_pops A cmp n : forall l rs l', length l = n -> spec_run A cmp l (repeat Pop n) rs l' ->
  exists ys, rs = map RVal ys /\ Permutation ys l /\ sorted (fun x y => cmp y x) ys /\ l' = [].
Proof.
  induction n as [|n IH]; intros l rs l' L H.
  - destruct l; [|discriminate]. inversion H; subst. exists []. repeat split; constructor.
  - cbn [repeat] in H. inversion H as [|? ? ? r rs0 l1 ? S R]; subst. inversion S as [| |? v ? P B| |]; subst.
    destruct (IH l1 rs0 l') as (ys & -> & P' & So & E).
    + apply Permutation_length in P. cbn in P. lia.
    + exact R.
    + exists (v :: ys). split; [reflexivity|]. split; [|split; [|exact E]].
      * eapply Permutation_trans; [constructor; exact P'|]. apply Permutation_sym, P.
      * constructor; [exact So|]. apply Forall_forall. intros y Hy. unfold le. apply B.
        apply (Permutation_in _ (Permutation_sym P)). right. apply (Permutation_in _ P'), Hy.
Qed.
Lemma allowed_pushes A cmp (mn : A) xs : forall n os, Forall (fun x => cmp mn x = true) xs ->
  allowed A cmp mn (length xs + n) os -> allowed A cmp mn n (map Push xs ++ os).
Proof.
  induction xs as [|x xs IH]; intros n os F H; [exact H|]. inversion F; subst. cbn. split; [assumption|].
  apply IH; [assumption|]. rewrite Nat.add_succ_r. exact H.
Qed.
Lemma allowed_pops A cmp (mn : A) n : allowed A cmp mn n (repeat Pop n).
Proof. induction n as [|n IH]; [exact I|]. cbn. split; [lia|]. rewrite Nat.sub_0_r. exact IH. Qed.
Theorem C37_sorts : forall A (cmp : A -> A -> bool) mn c push_heap pop_heap sortf,
  strict_weak cmp -> push_heap_ok A cmp push_heap -> pop_heap_ok A cmp pop_heap -> sorts cmp sortf -> config_ok c ->
  forall xs, Forall (fun x => cmp mn x = true) xs ->
  exists s ys, exec A cmp mn c push_heap pop_heap sortf (map Push xs ++ repeat Pop (length xs))
      = Some (map (fun _ => RUnit) xs ++ map RVal ys, s) /\
    Permutation ys xs /\ sorted (fun x y => cmp y x) ys.
Proof.
  intros A cmp mn c ph pp sf SW PH PP SF CO xs F.
  destruct (C37_priority_queue A cmp mn c ph pp sf SW PH PP SF CO (map Push xs ++ repeat Pop (length xs))) as (rs & s & l & E & R).
  { apply allowed_pushes; [exact F|]. rewrite Nat.add_0_r. apply allowed_pops. }
  destruct (spec_pushes _ _ _ _ _ _ _ R) as (rs' & -> & R').
  rewrite app_nil_r in R'.
  destruct (spec_pops _ _ (length xs) _ _ _ (rev_length xs) R') as (ys & -> & P & So & _).
  exists s, ys. split; [exact E|]. split; [|exact So].
  eapply Permutation_trans; [exact P|]. apply Permutation_sym, Permutation_rev.
Qed.

(** ** an instance: numbers, the largest first; std::push_heap and std::pop_heap by sorting *)
Definition ph (l : list nat) : list nat := rev (ssort Nat.ltb l).
Definition pp (l : list nat) : list nat := match ph l with [] => [] | x :: r => r ++ [x] end.
Notation exec_nat c os := (exec nat Nat.ltb 0 c ph pp (ssort Nat.ltb) os).
Lemma sw_nat : strict_weak Nat.ltb.
Proof.
  split; intros.
  - apply Nat.ltb_irrefl.
  - apply Nat.ltb_lt in H, H0. apply Nat.ltb_lt. lia.
  - apply Nat.ltb_lt in H. destruct (Nat.ltb_spec x y); [left; reflexivity|right]. apply Nat.ltb_lt. lia.
Qed.
Lemma ph_facts l : sorted (PqMergeProofs.gt nat Nat.ltb) (ph l) /\ Permutation (ph l) l.
Proof.
  split.
  - apply sorted_rev, ssort_sorted, sw_nat.
  - eapply Permutation_trans; [apply Permutation_sym, Permutation_rev|]. apply ssort_perm.
Qed.
Lemma ph_ok : push_heap_ok nat Nat.ltb ph.
Proof. intros l x _. split; [apply desc_heap|]; apply ph_facts. Qed.
Lemma pp_ok : pop_heap_ok nat Nat.ltb pp.
Proof.
  intros x l H. unfold pp. destruct (ph_facts (x :: l)) as [S P]. destruct (ph (x :: l)) as [|y r]; [apply Permutation_nil in P; discriminate|].
  assert (E : y = x).
  { assert (Q1 : Nat.ltb x y = false).
    { apply (heap_top_best nat Nat.ltb sw_nat l x H). apply (Permutation_in _ P). left. reflexivity. }
    assert (Q2 : Nat.ltb y x = false).
    { assert (I : In x (y :: r)) by (apply (Permutation_in _ (Permutation_sym P)); left; reflexivity).
      destruct I as [->|I]; [apply Nat.ltb_irrefl|]. inversion S as [|? ? _ F]; subst. rewrite Forall_forall in F. exact (F x I). }
    apply Nat.ltb_ge in Q1, Q2. lia. }
  subst y. exists r. split; [reflexivity|]. split.
  - apply desc_heap. inversion S; assumption.
  - exact (Permutation_cons_inv P).
Qed.
Lemma sort_ok : sorts Nat.ltb (ssort Nat.ltb).
Proof. intro l. split; [apply ssort_perm|apply ssort_sorted, sw_nat]. Qed.

Definition ups (n : nat) : list (op nat) := map (fun i => Push (1 + 7 * i mod 31)) (seq 0 n).
Definition mix (k p n : nat) : list (op nat) :=
  concat (map (fun i => map (fun j => Push (1 + (7 * i + 3 * j) mod 31)) (seq 0 k) ++ repeat Pop p) (seq 0 n)).
Definition answer (c : config) (os : list (op nat)) : option (list (res nat)) :=
  match exec_nat c os with Some (rs, _) => Some rs | None => None end.
(** a configuration with four levels *)
Definition four : config := cfg 2 3 8 2 3 2 2 1.
Example four_ok : config_ok four.
Proof. unfold config_ok, four. cbn. repeat split; try lia. exists 3. reflexivity. Qed.
Example four_reached : match exec_nat four (ups 1000) with Some (_, s) => q_act s = 4 | None => False end.
Proof. vm_compute. reflexivity. Qed.
Example four_answers : answer four (ups 5 ++ [Top; Pop; Size; Pop; Pop; Empty; Pop; Pop; Empty])
  = Some [RUnit; RUnit; RUnit; RUnit; RUnit; RVal 29; RVal 29; RNat 4; RVal 22; RVal 15; RBool false; RVal 8; RVal 1; RBool true].
Proof. vm_compute. reflexivity. Qed.
Example four_allowed : allowed nat Nat.ltb 0 0 (ups 5 ++ [Top; Pop; Size; Pop; Pop; Empty; Pop; Pop; Empty]).
Proof. cbn. repeat split; lia. Qed.

(** ** configurations with which it does not work *)
Fixpoint allowed_b (n : nat) (os : list (op nat)) : bool :=
  match os with
  | [] => true
  | Push x :: os => Nat.ltb 0 x && allowed_b (S n) os
  | Top :: os => Nat.ltb 0 n && allowed_b n os
  | Pop :: os => Nat.ltb 0 n && allowed_b (n - 1) os
  | Size :: os | Empty :: os => allowed_b n os
  end.
Lemma allowed_spec os : forall n, allowed_b n os = true -> allowed nat Nat.ltb 0 n os.
Proof.
  induction os as [|o os IH]; intros n H; [exact I|]. destruct o; cbn [allowed_b allowed] in *.
  - apply andb_true_iff in H. destruct H as [H1 H2]. split; [exact H1|apply IH, H2].
  - apply andb_true_iff in H. destruct H as [H1 H2]. apply Nat.ltb_lt in H1. split; [exact H1|apply IH, H2].
  - apply andb_true_iff in H. destruct H as [H1 H2]. apply Nat.ltb_lt in H1. split; [exact H1|apply IH, H2].
  - apply IH, H.
  - apply IH, H.
Qed.
(** allowed operations that end in a failing assertion, an exception or an overrun *)
Definition fails (c : config) : Prop :=
  exists A (cmp : A -> A -> bool) mn push_heap pop_heap sortf os,
    strict_weak cmp /\ push_heap_ok A cmp push_heap /\ pop_heap_ok A cmp pop_heap /\ sorts cmp sortf /\
    allowed A cmp mn 0 os /\ exec A cmp mn c push_heap pop_heap sortf os = None.
Lemma fails_by c os : allowed_b 0 os = true -> answer c os = None -> fails c.
Proof.
  intros H E. exists nat, Nat.ltb, 0, ph, pp, (ssort Nat.ltb), os.
  split; [apply sw_nat|]. split; [apply ph_ok|]. split; [apply pp_ok|]. split; [apply sort_ok|]. split; [apply allowed_spec, H|].
  unfold answer in E. destruct (exec_nat c os) as [[rs s]|]; [discriminate|reflexivity].
Qed.
(** more than four levels (the default of priority_queue_config has 4 + 2): refilling throws once
    five of them have been used *)
Theorem C37_refuted_levels : fails (cfg 1 1 8 1 2 2 4 1).
Proof. apply (fails_by _ (ups 300 ++ [Pop])); vm_compute; reflexivity. Qed.
(** two plus two levels as PRIORITY_QUEUE_GENERATOR makes them, with internal mergers of arity 4:
    emptying the group buffers into the first merger overruns its slots *)
Theorem C37_refuted_arity : fails (cfg 1 2 4 2 2 2 2 1).
Proof. apply (fails_by _ (mix 6 1 28)); vm_compute; reflexivity. Qed.
(** a delete buffer larger than the group buffers *)
Theorem C37_refuted_buffer : fails (cfg 2 1 8 1 2 2 1 1).
Proof. apply (fails_by _ (mix 5 2 50)); vm_compute; reflexivity. Qed.
(** an internal arity that is not a power of two *)
Theorem C37_refuted_power : fails (cfg 1 1 3 1 2 2 1 1).
Proof. apply (fails_by _ (ups 100)); vm_compute; reflexivity. Qed.
(** external mergers of arity 1, no external level, no blocks for writing *)
Theorem C37_refuted_external : fails (cfg 1 1 8 1 2 1 1 1) /\ fails (cfg 1 1 8 1 2 2 0 1) /\ fails (cfg 1 1 8 1 2 2 1 0).
Proof. split; [|split]; apply (fails_by _ (ups 100)); vm_compute; reflexivity. Qed.

Print Assumptions C37_priority_queue.
Print Assumptions C37_sorts.
Print Assumptions C37_refuted_levels.
Print Assumptions C37_refuted_arity.
Print Assumptions C37_refuted_buffer.
Print Assumptions C37_refuted_power.
Print Assumptions C37_refuted_external.
