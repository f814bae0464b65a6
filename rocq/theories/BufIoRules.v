(** Rules for components that share one immediate machine: each has its own buffers and blocks and does not disturb the others. *)
From Coq Require Import List Bool Arith Permutation Lia.
From Verif Require Import SumLib AsyncIoModel AsyncIoProofs AsyncIoRules.
Import ListNotations.

Section Rules.
Variable A : Type.
Notation sstate := (sstate A).
Notation prog := (prog A).

Definition wf (s : sstate) : Prop :=
  (forall r, In r (sout s) -> a_id r < snext s) /\ (forall r r', In r (sout s) -> In r' (sout s) -> a_id r = a_id r' -> r = r').
(** from s to s' only buffers in P, blocks in B changed; new requests are on buffers in P: writes to B, reads of C *)
Record stay (P B C : nat -> Prop) (s s' : sstate) : Prop := mk_stay {
  f_own : sown s' = sown s;
  f_cont : forall x, ~ P x -> scont s' x = scont s x;
  f_disk : forall b, ~ B b -> sdisk s' b = sdisk s b;
  f_out : forall r, ~ P (a_buf r) -> In r (sout s) -> In r (sout s');
  f_new : forall r, In r (sout s') -> In r (sout s) \/ (P (a_buf r) /\ snext s <= a_id r /\ if a_write r then B (a_bid r) else C (a_bid r));
  f_next : snext s <= snext s' }.
Lemma stay_refl P B C s : stay P B C s s.
Proof. constructor; auto. Qed.
Lemma stay_trans P B C s1 s2 s3 : stay P B C s1 s2 -> stay P B C s2 s3 -> stay P B C s1 s3.
Proof.
  intros [A1 A2 A3 A4 A5 A6] [B1 B2 B3 B4 B5 B6]. constructor; intros.
  - congruence.
  - rewrite B2, A2; auto.
  - rewrite B3, A3; auto.
  - auto.
  - destruct (B5 r H) as [H'|(H1 & H2 & H3)]; [apply A5; exact H'|]. right. split; [exact H1|]. split; [lia|exact H3].
  - lia.
Qed.
Lemma stay_mono (P B C P' B' C' : nat -> Prop) s s' : (forall x, P x -> P' x) -> (forall x, B x -> B' x) -> (forall x, C x -> C' x) -> stay P B C s s' -> stay P' B' C' s s'.
Proof.
  intros HP HB HC [A1 A2 A3 A4 A5 A6]. constructor; auto.
  intros r Hr. destruct (A5 r Hr) as [H|(H1 & H2 & H3)]; [auto|]. right. split; [auto|]. split; [exact H2|]. destruct (a_write r); auto.
Qed.

(** states after a primitive *)
Definition rd (s : sstate) x b := mk_sstate (upd (scont s) x (sdisk s b)) (sdisk s) (sout s ++ [mk_areq (snext s) false x b]) (sown s) (S (snext s)) (salloc s).
Definition wr (s : sstate) x b := mk_sstate (scont s) (upd (sdisk s) b (scont s x)) (sout s ++ [mk_areq (snext s) true x b]) (sown s) (S (snext s)) (salloc s).
Definition put (s : sstate) x i v := mk_sstate (upd2 (scont s) x i (Some v)) (sdisk s) (sout s) (sown s) (snext s) (salloc s).
Definition wt (s : sstate) q := mk_sstate (scont s) (sdisk s) (drop_id q (sout s)) (sown s) (snext s) (salloc s).
Definition ans (s : sstate) al := mk_sstate (scont s) (sdisk s) (sout s) (sown s) (snext s) al.

Lemma io_read R x b (k : nat -> prog R) s Q : In b (sown s) -> (forall r, In r (sout s) -> a_buf r <> x) -> (forall r, In r (sout s) -> a_write r = true -> a_bid r <> b) ->
  ok (k (snext s)) (rd s x b) Q -> ok (DoRead x b k) s Q.
Proof.
  intros H1 H2 H3 K. unfold ok in *. simpl. rewrite (proj2 (mem_in b (sown s)) H1).
  assert (E1 : existsb (on_buf x) (sout s) = false) by (apply existsb_false; intros r Hr; apply Nat.eqb_neq, H2, Hr).
  assert (E2 : existsb (writes (on_bid b)) (sout s) = false).
  { apply existsb_false. intros r Hr. unfold writes. destruct (a_write r) eqn:W; [|reflexivity]. apply Nat.eqb_neq, H3; assumption. }
  rewrite E1, E2. exact K.
Qed.
Lemma io_write R x b (k : nat -> prog R) s Q : In b (sown s) -> (forall r, In r (sout s) -> a_write r = false -> a_buf r <> x) -> (forall r, In r (sout s) -> a_bid r <> b) ->
  ok (k (snext s)) (wr s x b) Q -> ok (DoWrite x b k) s Q.
Proof.
  intros H1 H2 H3 K. unfold ok in *. simpl. rewrite (proj2 (mem_in b (sown s)) H1).
  assert (E1 : existsb (reads (on_buf x)) (sout s) = false).
  { apply existsb_false. intros r Hr. unfold reads. destruct (a_write r) eqn:W; [reflexivity|]. apply Nat.eqb_neq, H2; assumption. }
  assert (E2 : existsb (on_bid b) (sout s) = false) by (apply existsb_false; intros r Hr; apply Nat.eqb_neq, H3, Hr).
  rewrite E1, E2. exact K.
Qed.
Lemma io_put R x i v (k : prog R) s Q : (forall r, In r (sout s) -> a_buf r <> x) -> ok k (put s x i v) Q -> ok (DoPut x i v k) s Q.
Proof.
  intros H K. unfold ok in *. simpl. assert (E1 : existsb (on_buf x) (sout s) = false) by (apply existsb_false; intros r Hr; apply Nat.eqb_neq, H, Hr). rewrite E1. exact K.
Qed.
Lemma io_get R x i v (k : A -> prog R) s Q : (forall r, In r (sout s) -> a_write r = false -> a_buf r <> x) -> scont s x i = Some v -> ok (k v) s Q -> ok (DoGet x i k) s Q.
Proof.
  intros H E K. unfold ok in *. simpl.
  assert (E1 : existsb (reads (on_buf x)) (sout s) = false).
  { apply existsb_false. intros r Hr. unfold reads. destruct (a_write r) eqn:W; [reflexivity|]. apply Nat.eqb_neq, H; assumption. }
  rewrite E1, E. exact K.
Qed.
Lemma io_wait R q (k : prog R) s Q : ok k (wt s q) Q -> ok (DoWait q k) s Q.
Proof. auto. Qed.
Lemma io_poll R q (k : bool -> prog R) s Q : (forall al, ok (k true) (ans (wt s q) al) Q) -> (forall al, ok (k false) (ans s al) Q) -> ok (DoPoll q k) s Q.
Proof.
  intros H1 H2. unfold ok in *. simpl. destruct (salloc s) as [|l al]; [exact I|]. destruct l as [|y l]; simpl; [apply (H2 al)|apply (H1 al)].
Qed.
Lemma io_wait_any R qs (k : nat -> prog R) s Q : qs <> [] -> (forall i q al, nth_error qs i = Some q -> ok (k i) (ans (wt s q) al) Q) -> ok (DoWaitAny qs k) s Q.
Proof.
  intros H1 H2. unfold ok in *. simpl. destruct qs as [|q0 qs]; [congruence|]. destruct (salloc s) as [|l al]; [exact I|]. destruct (nth_error (q0 :: qs) (index l)) as [q|] eqn:E; [|exact I]. apply (H2 _ _ al E).
Qed.

Lemma rd_wf s x b : wf s -> wf (rd s x b).
Proof.
  intros (W1 & W2). split; simpl.
  - intros r H. apply in_app_iff in H. destruct H as [H|[<-|[]]]; [apply W1 in H; lia|simpl; lia].
  - intros r r' H H' E. apply in_app_iff in H. apply in_app_iff in H'. destruct H as [H|[<-|[]]], H' as [H'|[<-|[]]]; simpl in *; auto.
    + apply W1 in H. lia.
    + apply W1 in H'. lia.
Qed.
Lemma wr_wf s x b : wf s -> wf (wr s x b).
Proof.
  intros (W1 & W2). split; simpl.
  - intros r H. apply in_app_iff in H. destruct H as [H|[<-|[]]]; [apply W1 in H; lia|simpl; lia].
  - intros r r' H H' E. apply in_app_iff in H. apply in_app_iff in H'. destruct H as [H|[<-|[]]], H' as [H'|[<-|[]]]; simpl in *; auto.
    + apply W1 in H. lia.
    + apply W1 in H'. lia.
Qed.
Lemma put_wf s x i v : wf s -> wf (put s x i v).
Proof. intros (W1 & W2). split; auto. Qed.
Lemma ans_wf s al : wf s -> wf (ans s al).
Proof. intros (W1 & W2). split; auto. Qed.
Lemma wt_wf s q : wf s -> wf (wt s q).
Proof. intros (W1 & W2). split; simpl; [intros r H|intros r r' H H']; apply drop_id_in in H; [apply W1, H|apply drop_id_in in H'; apply W2; [apply H|apply H']]. Qed.

Lemma rd_stay (P B C : nat -> Prop) s x b : P x -> C b -> stay P B C s (rd s x b).
Proof.
  intros Px Cb. constructor; simpl; auto.
  - intros y Hy. apply upd_other. intros ->. contradiction.
  - intros r _ H. apply in_app_iff. auto.
  - intros r H. apply in_app_iff in H. destruct H as [H|[<-|[]]]; [auto|]. right. simpl. auto.
Qed.
Lemma wr_stay (P B C : nat -> Prop) s x b : P x -> B b -> stay P B C s (wr s x b).
Proof.
  intros Px Cb. constructor; simpl; auto.
  - intros y Hy. apply upd_other. intros ->. contradiction.
  - intros r _ H. apply in_app_iff. auto.
  - intros r H. apply in_app_iff in H. destruct H as [H|[<-|[]]]; [auto|]. right. simpl. auto.
Qed.
Lemma put_stay (P B C : nat -> Prop) s x i v : P x -> stay P B C s (put s x i v).
Proof. intros Px. constructor; simpl; auto. intros y Hy. unfold upd2. apply upd_other. intros ->. contradiction. Qed.
Lemma ans_stay (P B C : nat -> Prop) s al : stay P B C s (ans s al).
Proof. constructor; simpl; auto. Qed.
Lemma wt_stay (P B C : nat -> Prop) s q : (forall r, In r (sout s) -> a_id r = q -> P (a_buf r)) -> stay P B C s (wt s q).
Proof.
  intros H. constructor; simpl; auto.
  - intros r Hr Hi. apply drop_id_in. split; [exact Hi|]. intro E. apply Hr, H; assumption.
  - intros r Hr. apply drop_id_in in Hr. left. apply Hr.
Qed.
End Rules.
Arguments wf {A}. Arguments stay {A}. Arguments rd {A}. Arguments wr {A}. Arguments put {A}. Arguments wt {A}. Arguments ans {A}.

(** * Programs that own blocks from the beginning *)
Section Own.
Variable A : Type.
Definition ainit_own (own : list nat) (c d : nat -> nat -> A) (al : list (list nat)) : astate A := mk_astate c d [] own 0 al.
Definition sinit_own (own : list nat) (d : nat -> nat -> A) (al : list (list nat)) : sstate A :=
  mk_sstate (fun _ _ => None) (fun b i => if mem b own then Some (d b i) else None) [] own 0 al.
Lemma sim_own own c d al : sim A (sinit_own own d al) (ainit_own own c d al).
Proof.
  constructor; simpl; try reflexivity; try (intros; contradiction).
  - intros x _ i v H. discriminate.
  - intros b Hb _ i v H. rewrite (proj2 (mem_in _ _) Hb) in H. congruence.
Qed.
Lemma own_async R (p : prog A R) own d (Q : R -> sstate A -> Prop) : (forall al, ok p (sinit_own own d al) Q) ->
  forall c al o, match arun p (ainit_own own c d al) o with Done r (a, _) => exists s, Q r s /\ sim A s a | Error => False | Stuck => True end.
Proof.
  intros H c al o. specialize (H al). unfold ok in H.
  pose proof (arun_sim A R p _ _ o (sim_own own c d al)) as G.
  destruct (arun p (ainit_own own c d al) o) as [r (a & o')| |]; auto.
  - destruct G as (s' & E & M); [destruct (srun p (sinit_own own d al)); congruence|]. rewrite E in H. eauto.
  - apply G. destruct (srun p (sinit_own own d al)); congruence.
Qed.
Lemma own_progress R (p : prog A R) own d (Q : R -> sstate A -> Prop) : (forall al, ok p (sinit_own own d al) Q) ->
  forall c, exists al o r a, arun p (ainit_own own c d al) o = Done r (a, []).
Proof.
  intros H c. destruct (exists_alloc A R p (sinit_own own d [])) as (al & r & s' & E).
  { intros al C. specialize (H al). unfold ok in H. change (with_alloc A (sinit_own own d []) al) with (sinit_own own d al) in C. rewrite C in H. exact H. }
  change (with_alloc A (sinit_own own d []) al) with (sinit_own own d al) in E.
  destruct (arun_progress A R p _ _ r s' (sim_own own c d al) E) as (o & a & Ea). exists al, o, r, a. exact Ea.
Qed.
Lemma own_wf own d al : wf (sinit_own own d al).
Proof. split; simpl; [intros r []|intros r r' []]. Qed.
End Own.
