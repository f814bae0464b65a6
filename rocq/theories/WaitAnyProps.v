(** C30: wait_any *)
From Coq Require Import List Bool Arith.
From Verif Require Import SumLib WaitAnyModel WaitAnyProofs.
Import ListNotations.

(** What holds, for any number of requests none of which ends with an I/O error. *)
Theorem C30_returns_finished_partial N fails st res : 1 <= N -> (forall r, fails r = false) ->
  reach N false fails st -> pc st = ARet res -> exists i, res = Some i /\ i < N /\ done st i = true.
Proof.
  intros HN HF R E. pose proof (returns_finished N false st res (reach_inv N HN false fails HF st R) E) as H.
  destruct res as [i|]; [exists i; auto|discriminate].
Qed.
(** with spurious wakeups it may also return reqs_end *)
Theorem C30_result_sound_partial N fails st i : 1 <= N -> (forall r, fails r = false) ->
  reach N true fails st -> pc st = ARet (Some i) -> i < N /\ done st i = true.
Proof. intros HN HF R E. exact (returns_finished N true st _ (reach_inv N HN true fails HF st R) E). Qed.
(** a sleeping caller whose request has finished is woken by the two next actions of the finishing thread *)
Theorem C30_no_lost_wakeup_partial N sp fails st r : 1 <= N -> (forall r, fails r = false) ->
  reach N sp fails st -> pc st = ASleep -> r < N -> done st r = true -> comp st r <> CRun ->
  (comp st r = CLock /\ exists st', step N sp fails st (C r) = Ok st' /\ comp st' r = CNotify /\ pc st' = ASleep) \/
  (comp st r = CNotify /\ exists st', step N sp fails st (C r) = Ok st' /\ pc st' = ADel 0 None).
Proof. intros HN HF R. exact (no_lost_wakeup N sp fails st r (reach_inv N HN sp fails HF st R)). Qed.
(** once a request of the range has finished, the caller returns by its own actions *)
Theorem C30_returns_partial N sp fails st : 1 <= N -> (forall r, fails r = false) -> reach N sp fails st ->
  (forall r, comp st r <> CNotify) -> (exists r, r < N /\ comp st r = CDone) ->
  exists n st' res, arun N st n = Some st' /\ pc st' = ARet res.
Proof.
  intros HN HF R NC D. destruct (returns N HN sp st (reach_inv N HN sp fails HF st R) NC D) as (n & st' & res & A & B & _).
  exists n, st', res. auto.
Qed.
Theorem C30_no_dangling_switch_partial N sp fails st e : 1 <= N -> (forall r, fails r = false) ->
  reach N sp fails st -> step N sp fails st e <> UB.
Proof. intros HN HF R. exact (no_dangling N sp fails st e (reach_inv N HN sp fails HF st R)). Qed.

(** What does not hold: a spurious wakeup makes wait_any return reqs_end with no request finished ... *)
Theorem C30_spurious_wakeup_refuted : forall N, 1 <= N -> exists fails st,
  (forall r, fails r = false) /\ reach N true fails st /\ pc st = ARet None /\ forall r, done st r = false.
Proof.
  intros N HN. exists (fun _ => false).
  pose (F := fun _ : nat => false).
  assert (G1 : forall n, n < N -> exists st, reach N true F st /\ pc st = AAdd n /\ (forall r, done st r = false) /\
     (forall r, held st r = false) /\ (forall r, err st r = false) /\ on st = false).
  { induction n as [|n IH]; intro Hn.
    - exists (init N F (fun _ => false)). split; [constructor|]. unfold init. destruct (Nat.eqb_spec N 0) as [E|E].
      + rewrite E in HN. inversion HN.
      + repeat split; reflexivity.
    - destruct IH as (st & R & E & D & H & Er & O); [auto with arith|].
      destruct (step N true F st A) as [st'| |] eqn:S.
      + exists st'. split; [econstructor; eauto|]. simpl in S. unfold astep in S. rewrite E, H, Er, D in S.
        assert (X : Nat.ltb (Datatypes.S n) N = true) by (apply Nat.ltb_lt; exact Hn). rewrite X in S.
        injection S as <-. simpl. repeat split; auto.
      + simpl in S. unfold astep in S. rewrite E, H, Er, D in S. discriminate.
      + simpl in S. unfold astep in S. rewrite E, H, Er, D in S. discriminate. }
  assert (G2 : exists st, reach N true F st /\ pc st = ASleep /\ (forall r, done st r = false) /\
     (forall r, held st r = false) /\ (forall r, err st r = false)).
  { destruct (G1 (pred N)) as (st & R & E & D & H & Er & O); [destruct N; [inversion HN|auto]|].
    assert (X : Nat.ltb (S (pred N)) N = false). { destruct N; [inversion HN|apply Nat.ltb_irrefl]. }
    eexists. split; [eapply (reach_step N true F) with (e := A); [eapply (reach_step N true F) with (e := A); [exact R|]|]|].
    - simpl. unfold astep. rewrite E, H, Er, D, X. reflexivity.
    - simpl. unfold astep. simpl. rewrite O. reflexivity.
    - simpl. repeat split; auto. }
  assert (G3 : forall n, n < N -> exists st, reach N true F st /\ pc st = ADel n None /\ (forall r, done st r = false) /\
     (forall r, held st r = false) /\ (forall r, err st r = false)).
  { induction n as [|n IH]; intro Hn.
    - destruct G2 as (st & R & E & D & H & Er).
      eexists. split; [eapply (reach_step N true F) with (e := Spurious); [exact R|]|].
      + simpl. rewrite E. reflexivity.
      + simpl. repeat split; auto.
    - destruct IH as (st & R & E & D & H & Er); [auto with arith|].
      assert (X : Nat.ltb (S n) N = true) by (apply Nat.ltb_lt; exact Hn).
      eexists. split; [eapply (reach_step N true F) with (e := A); [eapply (reach_step N true F) with (e := A); [exact R|]|]|].
      + simpl. unfold astep. rewrite E, H. reflexivity.
      + simpl. unfold astep, next. simpl. rewrite Er, X, D. reflexivity.
      + simpl. repeat split; auto. }
  destruct (G3 (pred N)) as (st & R & E & D & H & Er); [destruct N; [inversion HN|auto]|].
  assert (X : Nat.ltb (S (pred N)) N = false). { destruct N; [inversion HN|apply Nat.ltb_irrefl]. }
  eexists. split; [reflexivity|].
  split; [eapply (reach_step N true F) with (e := A); [eapply (reach_step N true F) with (e := A); [exact R|]|]|].
  - simpl. unfold astep. rewrite E, H. reflexivity.
  - simpl. unfold astep, next. simpl. rewrite Er, X, D. reflexivity.
  - simpl. split; auto.
Qed.

(** ... and when a request ended with an error the switch stays registered on the
    others after it has been destroyed; their completion then uses freed memory. *)
Theorem C30_error_dangling_switch_refuted : exists N fails st r,
  reach N false fails st /\ pc st = AThrow /\ r < N /\ fails r = false /\ step N false fails st (C r) = UB.
Proof.
  exists 2, (fun r => Nat.eqb r 1).
  destruct (run_witness 2 false (fun r => Nat.eqb r 1) (fun r => Nat.eqb r 1) [A; A; C 0]
    (fun st => pc st = AThrow /\ step 2 false (fun r => Nat.eqb r 1) st (C 0) = UB)) as (st & R & H1 & H2).
  { vm_compute. auto. }
  exists st, 0. split; [exact R|]. split; [exact H1|]. split; [auto with arith|]. auto.
Qed.

Example C30_ex : (* request 1 of 3 finishes while the caller sleeps; request 0 afterwards *)
  match run 3 false (fun _ => false) (init 3 (fun _ => false) (fun _ => false))
    [A; A; A; A; C 1; C 1; C 1; A; A; C 0; A; A; A] with
  | Some st => pc st = ARet (Some 1) /\ done st 0 = true /\ comp st 0 = CLock
  | None => False end.
Proof. vm_compute. auto. Qed.
Example C30_ex_sleep :
  match run 2 false (fun _ => false) (init 2 (fun _ => false) (fun _ => false)) [A; A; A; C 1] with
  | Some st => pc st = ASleep /\ done st 1 = true /\ comp st 1 = CLock
  | None => False end.
Proof. vm_compute. auto. Qed.

Print Assumptions C30_returns_finished_partial.
Print Assumptions C30_result_sound_partial.
Print Assumptions C30_no_lost_wakeup_partial.
Print Assumptions C30_returns_partial.
Print Assumptions C30_no_dangling_switch_partial.
Print Assumptions C30_spurious_wakeup_refuted.
Print Assumptions C30_error_dangling_switch_refuted.
