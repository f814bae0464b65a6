(** C38 the winner tree. *)
From Coq Require Import List Bool Arith Lia.
From Verif Require Import SumLib OrderLib WinnerModel WinnerSpec WinnerProofs.
Import ListNotations.

Section Theorems.
  Variable A : Type.
  Variable lt : A -> A -> bool.

  (** All states of a winner tree: made for some number of players, then used with admissible operations. *)
  Inductive reachable : (nat -> option A) -> wtree -> Prop :=
  | reach_new n t : 0 < n -> new_wtree n = Some t -> reachable (fun _ => None) t
  | reach_step val t o val' t' : reachable val t -> admissible (slots t) val o -> step A lt o (val, t) = Some (val', t') -> reachable val' t'.

  Lemma reachable_ok val t : strict_weak lt -> reachable val t -> ok A lt val t.
  Proof.
    intro SW. induction 1 as [n t Hn E|val t o val' t' R IH AD E].
    - unfold new_wtree in E. destruct (Nat.eqb n 0); [discriminate|]. injection E as <-. apply empty_ok.
    - destruct (step_ok A lt SW val t o IH AD) as (v & u & E' & V & _). rewrite E in E'. injection E' as -> ->. exact V.
  Qed.

  (** After any sequence of operations on the players of the tree, top() names a player of smallest value, or none if there is
      none; every further operation is defined and has its effect on the values and on nothing else. *)
  Theorem C38_winner_partial val t : strict_weak lt -> reachable val t ->
    smallest lt val (top t) /\
    forall o, admissible (slots t) val o -> exists val' t', step A lt o (val, t) = Some (val', t') /\
      outcome val (top t) o val' /\ slots t' = slots_after (slots t) o /\ smallest lt val' (top t').
  Proof.
    intros SW R. pose proof (reachable_ok val t SW R) as V. split; [apply ok_smallest; assumption|].
    intros o AD. destruct (step_ok A lt SW val t o V AD) as (val' & t' & E & V' & S & O). exists val', t'.
    split; [exact E|]. split; [exact O|]. split; [exact S|]. apply ok_smallest; assumption.
  Qed.
  (** the number of slots for n players is the next power of two: there is a slot for each *)
  Theorem C38_slots n t : 0 < n -> new_wtree n = Some t -> n <= slots t /\ slots t < 2 * n.
  Proof.
    unfold new_wtree. intros Hn. destruct (Nat.eqb_spec n 0); [lia|]. intros [= <-]. unfold slots. cbn [w_log].
    destruct (Nat.eq_dec n 1) as [->|N1]; [cbn; lia|]. pose proof (Nat.log2_up_spec n ltac:(lia)) as H.
    assert (0 < Nat.log2_up n) as HP by (apply Nat.log2_up_pos; lia).
    destruct (Nat.log2_up n) as [|k]; [lia|]. cbn [pred] in H. rewrite Nat.pow_succ_r' in *. lia.
  Qed.

  (** FALSE: players beyond the slots. Growing never succeeds, for any tree, by either way of activating a player. *)
  Theorem C38_growth_never (val : nat -> option A) (t : wtree) i :
    slots t <= i -> activate_player A lt val i t = None /\ activate_without_replay i t = None.
  Proof.
    intro H. unfold activate_player, activate_without_replay. apply Nat.ltb_ge in H. rewrite H.
    unfold double_num_slots. rewrite double_loop_none. auto.
  Qed.
  Theorem C38_growth_refuted (a : A) : exists n t (val : nat -> option A), 0 < n /\ new_wtree n = Some t /\ val n = Some a /\
    activate_player A lt val n t = None.
  Proof.
    exists 1, (mkw 0 (fun _ => None)), (fun _ => Some a). split; [lia|]. split; [reflexivity|]. split; [reflexivity|].
    apply C38_growth_never. cbn. lia.
  Qed.
End Theorems.

Section Examples.
  (** three players with equal values among them; the winner leaves, a step-wise deactivation of two, then one remains *)
  Let ops : list (op nat) := [Change 2 5; Change 0 7; Change 1 5; Pop None; Change 3 9; Kills [0; 2; 0]].
  Example C38_ex : exists t, new_wtree 3 = Some t /\ slots t = 4 /\
    match run nat Nat.ltb [Change 2 5; Change 0 7; Change 1 5] (fun _ => None, t) with Some (v, t) => top t = Some 2 | None => False end /\
    match run nat Nat.ltb ops (fun _ => None, t) with Some (v, t) => top t = Some 1 /\ map v [0;1;2;3] = [None; Some 5; None; Some 9] | None => False end.
  Proof. eexists. split; [reflexivity|]. vm_compute. auto. Qed.
  Example C38_ex_adm : forall t, new_wtree 3 = Some t -> admissible (slots t) (fun _ => None) (Change 2 5).
  Proof. intros t [= <-]. cbn. lia. Qed.
  Example C38_ex_batch : exists t, new_wtree 5 = Some t /\
    match run nat Nat.ltb [Batch [(4, Some 2); (3, Some 8); (4, Some 9)]; Pop (Some 10)] (fun _ => None, t) with
    | Some (v, t) => top t = Some 4 /\ v 3 = Some 10 | None => False end.
  Proof. eexists. split; [reflexivity|]. vm_compute. auto. Qed.
  Example C38_ex_grow : activate_player nat Nat.ltb (fun _ => Some 1) 4 (mkw 2 (fun _ => None)) = None.
  Proof. vm_compute. reflexivity. Qed.
End Examples.

Print Assumptions C38_winner_partial.
Print Assumptions C38_slots.
Print Assumptions C38_growth_never.
Print Assumptions C38_growth_refuted.
