From Coq Require Import List Bool Arith Lia.
From Verif Require Import SumLib AsyncIoModel.
Import ListNotations.

Lemma mem_in b l : mem b l = true <-> In b l.
Proof. induction l as [|c l IH]; simpl; [split; [discriminate|tauto]|]. rewrite orb_true_iff, Nat.eqb_eq, IH. tauto. Qed.
Lemma mem_nin b l : mem b l = false <-> ~ In b l.
Proof. rewrite <- mem_in. destruct (mem b l); split; congruence. Qed.
Lemma nodup_spec l : nodup l = true <-> NoDup l.
Proof.
  induction l as [|c l IH]; simpl; [split; [constructor|reflexivity]|]. rewrite andb_true_iff, negb_true_iff, mem_nin, IH.
  split; [intros (H1 & H2); constructor; auto|]. intro H. inversion H; auto.
Qed.
Lemma disjointb_spec l m : disjointb l m = true <-> forall b, In b l -> ~ In b m.
Proof.
  unfold disjointb. rewrite forallb_forall. split; intros H b Hb.
  - apply mem_nin. specialize (H b Hb). apply negb_true_iff. exact H.
  - apply negb_true_iff, mem_nin. auto.
Qed.
Lemma good_alloc_spec n own l : good_alloc n own l = true <-> length l = n /\ NoDup l /\ forall b, In b l -> ~ In b own.
Proof. unfold good_alloc. rewrite !andb_true_iff, Nat.eqb_eq, nodup_spec, disjointb_spec. tauto. Qed.
Lemma without_in bs l b : In b (without bs l) <-> In b l /\ ~ In b bs.
Proof. unfold without. rewrite filter_In, negb_true_iff, mem_nin. tauto. Qed.
Lemma drop_id_in q l r : In r (drop_id q l) <-> In r l /\ a_id r <> q.
Proof. unfold drop_id. rewrite filter_In, negb_true_iff, Nat.eqb_neq. tauto. Qed.
Lemma existsb_false {B} (p : B -> bool) l : existsb p l = false <-> forall x, In x l -> p x = false.
Proof.
  split.
  - intros H x Hx. destruct (p x) eqn:E; [|reflexivity]. assert (existsb p l = true); [apply existsb_exists; eauto|congruence].
  - intro H. destruct (existsb p l) eqn:E; [|reflexivity]. apply existsb_exists in E. destruct E as (x & Hx & E). rewrite H in E; auto.
Qed.

Section Sim.
Variable A : Type.
Notation astate := (astate A).
Notation sstate := (sstate A).

Definition le (f : nat -> option A) (g : nat -> A) : Prop := forall i v, f i = Some v -> g i = v.

(** no two requests that were not waited for conflict *)
Definition compatible (r r' : areq) : Prop :=
  (a_buf r = a_buf r' -> a_write r = true /\ a_write r' = true) /\
  (a_bid r = a_bid r' -> a_write r = false /\ a_write r' = false).

Record sim (s : sstate) (a : astate) : Prop := mk_sim {
  m_own : aown a = sown s;
  m_next : anext a = snext s;
  m_alloc : aalloc a = salloc s;
  m_sub : forall r, In r (apend a) -> In r (sout s);
  m_ids : forall r, In r (sout s) -> a_id r < snext s;
  m_comp : forall r r', In r (sout s) -> In r' (sout s) -> a_id r <> a_id r' -> compatible r r';
  m_uniq : forall r r', In r (sout s) -> In r' (sout s) -> a_id r = a_id r' -> r = r';
  m_mine : forall r, In r (sout s) -> In (a_bid r) (sown s);
  m_b1 : forall r, In r (apend a) -> a_write r = false -> le (scont s (a_buf r)) (adisk a (a_bid r));
  m_b2 : forall x, (forall r, In r (apend a) -> a_write r = false -> a_buf r <> x) -> le (scont s x) (acont a x);
  m_d1 : forall r, In r (apend a) -> a_write r = true -> le (sdisk s (a_bid r)) (acont a (a_buf r));
  m_d2 : forall b, In b (sown s) -> (forall r, In r (apend a) -> a_write r = true -> a_bid r <> b) -> le (sdisk s b) (adisk a b) }.

Lemma sim_init c d al : sim (sinit al) (ainit c d al).
Proof. constructor; simpl; try reflexivity; try (intros; contradiction). intros x _ i v H. discriminate. Qed.

Lemma aserve_sim s a e a' : sim s a -> aserve a e = Some a' -> sim s a'.
Proof.
  intros M H. destruct e as [q|b i v]; simpl in H.
  - destruct (find _ (apend a)) as [r|] eqn:F; [|discriminate]. apply find_some in F. destruct F as (Hr & Hq). apply Nat.eqb_eq in Hq.
    assert (IN : forall r', In r' (drop_id q (apend a)) -> In r' (apend a) /\ a_id r' <> a_id r).
    { intros r' H'. apply drop_id_in in H'. rewrite Hq. exact H'. }
    pose proof (m_sub _ _ M) as Sub.
    destruct (a_write r) eqn:W; injection H as <-; constructor; simpl; try apply M.
    + intros r' H'. apply Sub, IN, H'.
    + intros r' H' W'. destruct (IN r' H') as (H1 & H2).
      rewrite upd_other; [apply (m_b1 _ _ M); assumption|]. intro E.
      destruct (m_comp _ _ M r' r (Sub _ H1) (Sub _ Hr) H2) as (_ & C). destruct (C E). congruence.
    + intros x Hx. apply (m_b2 _ _ M). intros r' H' W'. apply Hx; [|exact W']. apply drop_id_in. split; [exact H'|].
      intro E. assert (r' = r) by (apply (m_uniq _ _ M); auto; congruence). congruence.
    + intros r' H' W'. destruct (IN r' H') as (H1 & H2). apply (m_d1 _ _ M); assumption.
    + intros b Hb Hn. destruct (Nat.eq_dec b (a_bid r)) as [->|Nb].
      * rewrite upd_same. apply (m_d1 _ _ M r Hr W).
      * rewrite upd_other by exact Nb. apply (m_d2 _ _ M b Hb). intros r' H' W'.
        destruct (Nat.eq_dec (a_id r') q) as [E|E].
        -- assert (r' = r) as -> by (apply (m_uniq _ _ M); auto; congruence). congruence.
        -- apply Hn; [apply drop_id_in; auto|exact W'].
    + intros r' H'. apply Sub, IN, H'.
    + intros r' H' W'. destruct (IN r' H') as (H1 & H2). apply (m_b1 _ _ M); assumption.
    + intros x Hx. destruct (Nat.eq_dec x (a_buf r)) as [->|Nx].
      * rewrite upd_same. apply (m_b1 _ _ M r Hr W).
      * rewrite upd_other by exact Nx. apply (m_b2 _ _ M). intros r' H' W'.
        destruct (Nat.eq_dec (a_id r') q) as [E|E].
        -- assert (r' = r) as -> by (apply (m_uniq _ _ M); auto; congruence). congruence.
        -- apply Hx; [apply drop_id_in; auto|exact W'].
    + intros r' H' W'. destruct (IN r' H') as (H1 & H2). rewrite upd_other; [apply (m_d1 _ _ M); assumption|]. intro E.
      destruct (m_comp _ _ M r' r (Sub _ H1) (Sub _ Hr) H2) as (C & _). destruct (C E). congruence.
    + intros b Hb Hn. apply (m_d2 _ _ M b Hb). intros r' H' W'. apply Hn; [|exact W']. apply drop_id_in. split; [exact H'|].
      intro E. assert (r' = r) by (apply (m_uniq _ _ M); auto; congruence). congruence.
  - destruct (mem b (aown a)) eqn:E; [discriminate|]. apply mem_nin in E. rewrite (m_own _ _ M) in E. injection H as <-.
    constructor; simpl; try apply M.
    + intros r H W. unfold upd2. rewrite upd_other; [apply (m_b1 _ _ M); assumption|].
      intro C. apply E. rewrite <- C. apply (m_mine _ _ M). apply (m_sub _ _ M). exact H.
    + intros c Hc Hn. unfold upd2. rewrite upd_other; [apply (m_d2 _ _ M); assumption|]. intros ->. contradiction.
Qed.
Lemma aserves_sim o s a a' : sim s a -> aserves a o = Some a' -> sim s a'.
Proof.
  revert a. induction o as [|e o IH]; intros a M H; simpl in H; [injection H as <-; exact M|].
  destruct (aserve a e) as [a1|] eqn:E; [|discriminate]. apply (IH a1); [|exact H]. eapply aserve_sim; eauto.
Qed.

Lemma issue_write_sim s a x b : sim s a -> mem b (sown s) = true -> existsb (reads (on_buf x)) (sout s) = false ->
  existsb (on_bid b) (sout s) = false ->
  sim (mk_sstate (scont s) (upd (sdisk s) b (scont s x)) (sout s ++ [mk_areq (snext s) true x b]) (sown s) (S (snext s)) (salloc s)) (aissue a true x b).
Proof.
  intros M Hb Hx Hq. apply mem_in in Hb. rewrite existsb_false in Hx, Hq.
  assert (NB : forall r, In r (sout s) -> a_bid r <> b) by (intros r Hr; specialize (Hq r Hr); apply Nat.eqb_neq in Hq; exact Hq).
  assert (NX : forall r, In r (sout s) -> a_write r = false -> a_buf r <> x).
  { intros r Hr W. specialize (Hx r Hr). unfold reads in Hx. rewrite W in Hx. apply Nat.eqb_neq in Hx. exact Hx. }
  pose proof (m_next _ _ M) as En. pose proof (m_sub _ _ M) as Sub.
  constructor; simpl; try apply M.
  - rewrite En. reflexivity.
  - intros r H. apply in_app_iff in H. apply in_app_iff. destruct H as [H|[<-|[]]]; [left; auto|]. right. left. rewrite En. reflexivity.
  - intros r H. apply in_app_iff in H. destruct H as [H|[<-|[]]]; [|simpl; lia]. apply (m_ids _ _ M) in H. lia.
  - intros r r' H H' N. apply in_app_iff in H. apply in_app_iff in H'.
    destruct H as [H|[<-|[]]], H' as [H'|[<-|[]]]; simpl in N; try (exfalso; apply N; reflexivity).
    + apply (m_comp _ _ M); auto.
    + split; simpl; intro E.
      * destruct (a_write r) eqn:W; [auto|]. exfalso. apply (NX r H W E).
      * exfalso. apply (NB r H E).
    + split; simpl; intro E.
      * destruct (a_write r') eqn:W; [auto|]. exfalso. apply (NX r' H' W). auto.
      * exfalso. apply (NB r' H'). auto.
  - intros r r' H H' N. apply in_app_iff in H. apply in_app_iff in H'.
    destruct H as [H|[<-|[]]], H' as [H'|[<-|[]]]; simpl in N; auto.
    + apply (m_uniq _ _ M); auto.
    + apply (m_ids _ _ M) in H. lia.
    + apply (m_ids _ _ M) in H'. lia.
  - intros r H. apply in_app_iff in H. destruct H as [H|[<-|[]]]; [apply (m_mine _ _ M), H|exact Hb].
  - intros r H W. apply in_app_iff in H. destruct H as [H|[<-|[]]]; [|discriminate]. apply (m_b1 _ _ M); assumption.
  - intros y Hy. apply (m_b2 _ _ M). intros r Hr. apply Hy. apply in_app_iff. auto.
  - intros r H W. apply in_app_iff in H. destruct H as [H|[<-|[]]].
    + rewrite upd_other by (apply NB, Sub, H). apply (m_d1 _ _ M); assumption.
    + simpl. rewrite upd_same. apply (m_b2 _ _ M). intros r Hr W'. apply NX; auto.
  - intros c Hc Hn. destruct (Nat.eq_dec c b) as [->|Nc].
    + exfalso. apply (Hn (mk_areq (anext a) true x b)); [apply in_app_iff; right; left; reflexivity|reflexivity|reflexivity].
    + rewrite upd_other by exact Nc. apply (m_d2 _ _ M); [exact Hc|]. intros r Hr. apply Hn. apply in_app_iff. auto.
Qed.

Lemma issue_read_sim s a x b : sim s a -> mem b (sown s) = true -> existsb (on_buf x) (sout s) = false ->
  existsb (writes (on_bid b)) (sout s) = false ->
  sim (mk_sstate (upd (scont s) x (sdisk s b)) (sdisk s) (sout s ++ [mk_areq (snext s) false x b]) (sown s) (S (snext s)) (salloc s)) (aissue a false x b).
Proof.
  intros M Hb Hx Hq. apply mem_in in Hb. rewrite existsb_false in Hx, Hq.
  assert (NX : forall r, In r (sout s) -> a_buf r <> x) by (intros r Hr; specialize (Hx r Hr); apply Nat.eqb_neq in Hx; exact Hx).
  assert (NB : forall r, In r (sout s) -> a_write r = true -> a_bid r <> b).
  { intros r Hr W. specialize (Hq r Hr). unfold writes in Hq. rewrite W in Hq. apply Nat.eqb_neq in Hq. exact Hq. }
  pose proof (m_next _ _ M) as En. pose proof (m_sub _ _ M) as Sub.
  constructor; simpl; try apply M.
  - rewrite En. reflexivity.
  - intros r H. apply in_app_iff in H. apply in_app_iff. destruct H as [H|[<-|[]]]; [left; auto|]. right. left. rewrite En. reflexivity.
  - intros r H. apply in_app_iff in H. destruct H as [H|[<-|[]]]; [|simpl; lia]. apply (m_ids _ _ M) in H. lia.
  - intros r r' H H' N. apply in_app_iff in H. apply in_app_iff in H'.
    destruct H as [H|[<-|[]]], H' as [H'|[<-|[]]]; simpl in N; try (exfalso; apply N; reflexivity).
    + apply (m_comp _ _ M); auto.
    + split; simpl; intro E.
      * exfalso. apply (NX r H E).
      * destruct (a_write r) eqn:W; [|auto]. exfalso. apply (NB r H W E).
    + split; simpl; intro E.
      * exfalso. apply (NX r' H'). auto.
      * destruct (a_write r') eqn:W; [|auto]. exfalso. apply (NB r' H' W). auto.
  - intros r r' H H' N. apply in_app_iff in H. apply in_app_iff in H'.
    destruct H as [H|[<-|[]]], H' as [H'|[<-|[]]]; simpl in N; auto.
    + apply (m_uniq _ _ M); auto.
    + apply (m_ids _ _ M) in H. lia.
    + apply (m_ids _ _ M) in H'. lia.
  - intros r H. apply in_app_iff in H. destruct H as [H|[<-|[]]]; [apply (m_mine _ _ M), H|exact Hb].
  - intros r H W. apply in_app_iff in H. destruct H as [H|[<-|[]]].
    + rewrite upd_other by (apply NX, Sub, H). apply (m_b1 _ _ M); assumption.
    + simpl. rewrite upd_same. apply (m_d2 _ _ M); [exact Hb|]. intros r Hr W'. apply NB; auto.
  - intros y Hy. destruct (Nat.eq_dec y x) as [->|Ny].
    + exfalso. apply (Hy (mk_areq (anext a) false x b)); [apply in_app_iff; right; left; reflexivity|reflexivity|reflexivity].
    + rewrite upd_other by exact Ny. apply (m_b2 _ _ M). intros r Hr. apply Hy. apply in_app_iff. auto.
  - intros r H W. apply in_app_iff in H. destruct H as [H|[<-|[]]]; [|discriminate]. apply (m_d1 _ _ M); assumption.
  - intros c Hc Hn. apply (m_d2 _ _ M); [exact Hc|]. intros r Hr. apply Hn. apply in_app_iff. auto.
Qed.

Lemma wait_sim s a q : sim s a -> existsb (fun r => Nat.eqb (a_id r) q) (apend a) = false ->
  sim (mk_sstate (scont s) (sdisk s) (drop_id q (sout s)) (sown s) (snext s) (salloc s)) a.
Proof.
  intros M H. rewrite existsb_false in H.
  assert (IN : forall r, In r (drop_id q (sout s)) -> In r (sout s)) by (intros r Hr; apply drop_id_in in Hr; apply Hr).
  constructor; simpl; try apply M.
  - intros r Hr. apply drop_id_in. split; [apply (m_sub _ _ M), Hr|]. apply Nat.eqb_neq, H, Hr.
  - intros r Hr. apply (m_ids _ _ M), IN, Hr.
  - intros r r' Hr Hr'. apply (m_comp _ _ M); auto.
  - intros r r' Hr Hr'. apply (m_uniq _ _ M); auto.
  - intros r Hr. apply (m_mine _ _ M), IN, Hr.
Qed.

Lemma answer_sim s a al : sim s a ->
  sim (mk_sstate (scont s) (sdisk s) (sout s) (sown s) (snext s) al) (mk_astate (acont a) (adisk a) (apend a) (aown a) (anext a) al).
Proof. intro M. constructor; simpl; try apply M. reflexivity. Qed.
Lemma poll_sim s a l q al : sim s a -> says_yes l && existsb (fun r => Nat.eqb (a_id r) q) (apend a) = false ->
  sim (mk_sstate (scont s) (sdisk s) (if says_yes l then drop_id q (sout s) else sout s) (sown s) (snext s) al) (mk_astate (acont a) (adisk a) (apend a) (aown a) (anext a) al).
Proof.
  intros M H. destruct (says_yes l); [|apply answer_sim; exact M]. pose proof (wait_sim s a q M H) as M1. pose proof (answer_sim _ _ al M1) as M2. exact M2.
Qed.

Lemma get_sim s a x i v : sim s a -> existsb (reads (on_buf x)) (sout s) = false -> scont s x i = Some v -> acont a x i = v.
Proof.
  intros M H E. rewrite existsb_false in H. apply (m_b2 _ _ M x); [|exact E]. intros r Hr W C.
  specialize (H r (m_sub _ _ M r Hr)). unfold reads, on_buf in H. rewrite W, C, Nat.eqb_refl in H. discriminate.
Qed.

Lemma put_sim_gen s a x i w v : sim s a -> existsb (on_buf x) (sout s) = false -> (forall u, w = Some u -> v = u) ->
  sim (mk_sstate (upd2 (scont s) x i w) (sdisk s) (sout s) (sown s) (snext s) (salloc s))
      (mk_astate (upd2 (acont a) x i v) (adisk a) (apend a) (aown a) (anext a) (aalloc a)).
Proof.
  intros M H Hw. rewrite existsb_false in H.
  assert (NX : forall r, In r (apend a) -> a_buf r <> x).
  { intros r Hr. specialize (H r (m_sub _ _ M r Hr)). apply Nat.eqb_neq in H. exact H. }
  constructor; simpl; try apply M; unfold upd2.
  - intros r Hr W. rewrite upd_other by (apply NX, Hr). apply (m_b1 _ _ M); assumption.
  - intros y Hy. destruct (Nat.eq_dec y x) as [->|Ny].
    + rewrite !upd_same. intros j u Hj. destruct (Nat.eq_dec j i) as [->|Nj].
      * unfold upd in Hj |- *. rewrite Nat.eqb_refl in Hj |- *. apply Hw. exact Hj.
      * unfold upd in Hj |- *. rewrite (proj2 (Nat.eqb_neq j i) Nj) in Hj |- *. apply (m_b2 _ _ M x); [exact Hy|exact Hj].
    + rewrite !upd_other by exact Ny. apply (m_b2 _ _ M). exact Hy.
  - intros r Hr W. rewrite upd_other by (apply NX, Hr). apply (m_d1 _ _ M); assumption.
Qed.
Lemma put_sim s a x i v : sim s a -> existsb (on_buf x) (sout s) = false ->
  sim (mk_sstate (upd2 (scont s) x i (Some v)) (sdisk s) (sout s) (sown s) (snext s) (salloc s))
      (mk_astate (upd2 (acont a) x i v) (adisk a) (apend a) (aown a) (anext a) (aalloc a)).
Proof. intros M H. apply put_sim_gen; [exact M|exact H|]. congruence. Qed.
Lemma copy_sim s a x i y j : sim s a -> existsb (reads (on_buf x)) (sout s) || existsb (on_buf y) (sout s) = false ->
  sim (mk_sstate (upd2 (scont s) y j (scont s x i)) (sdisk s) (sout s) (sown s) (snext s) (salloc s))
      (mk_astate (upd2 (acont a) y j (acont a x i)) (adisk a) (apend a) (aown a) (anext a) (aalloc a)).
Proof.
  intros M H. apply orb_false_iff in H. destruct H as (H1 & H2). apply put_sim_gen; [exact M|exact H2|]. intros u E. exact (get_sim s a x i u M H1 E).
Qed.

Lemma alloc_sim s a n l al : sim s a -> good_alloc n (sown s) l = true ->
  sim (mk_sstate (scont s) (fun b => if mem b l then (fun _ => None) else sdisk s b) (sout s) (l ++ sown s) (snext s) al)
      (mk_astate (acont a) (adisk a) (apend a) (l ++ aown a) (anext a) al).
Proof.
  intros M H. apply good_alloc_spec in H. destruct H as (_ & _ & H).
  assert (NL : forall r, In r (apend a) -> mem (a_bid r) l = false).
  { intros r Hr. apply mem_nin. intro C. apply (H _ C). apply (m_mine _ _ M), (m_sub _ _ M), Hr. }
  constructor; simpl; try apply M.
  - rewrite (m_own _ _ M). reflexivity.
  - reflexivity.
  - intros r Hr. apply in_app_iff. right. apply (m_mine _ _ M), Hr.
  - intros r Hr W. rewrite (NL r Hr). apply (m_d1 _ _ M); assumption.
  - intros b Hb Hn. destruct (mem b l) eqn:E; [intros i v C; discriminate|]. apply (m_d2 _ _ M); [|exact Hn].
    apply in_app_iff in Hb. destruct Hb as [Hb|Hb]; [|exact Hb]. apply mem_nin in E. contradiction.
Qed.

Lemma free_sim s a bs : sim s a -> existsb (fun r => mem (a_bid r) bs) (sout s) = false ->
  sim (mk_sstate (scont s) (sdisk s) (sout s) (without bs (sown s)) (snext s) (salloc s))
      (mk_astate (acont a) (adisk a) (apend a) (without bs (aown a)) (anext a) (aalloc a)).
Proof.
  intros M H. rewrite existsb_false in H. constructor; simpl; try apply M.
  - rewrite (m_own _ _ M). reflexivity.
  - intros r Hr. apply without_in. split; [apply (m_mine _ _ M), Hr|]. apply mem_nin. apply (H r Hr).
  - intros b Hb Hn. apply without_in in Hb. apply (m_d2 _ _ M); [apply Hb|exact Hn].
Qed.

Lemma arun_sim R (p : prog A R) : forall s a o, sim s a -> srun p s <> Error ->
  match arun p a o with
  | Done r (a', _) => exists s', srun p s = Done r s' /\ sim s' a'
  | Error => False
  | Stuck => True
  end.
Proof.
  induction p as [r| |x b k IH|x b k IH|q k IH|x i k IH|x i v k IH|x i y j k IH|n k IH|bs k IH|q k IH|qs k IH]; intros s a o M H; simpl.
  1:{ exists s. auto. }
  1:{ apply H. reflexivity. }
  all: destruct o as [|e o]; [exact I|]; destruct (aserves a e) as [a1|] eqn:E; [|exact I];
    pose proof (aserves_sim e s a a1 M E) as M1; clear M E; simpl in H |- *.
  - destruct (negb (mem b (sown s)) || existsb (reads (on_buf x)) (sout s) || existsb (on_bid b) (sout s)) eqn:C; [congruence|].
    apply orb_false_iff in C. destruct C as (C & C3). apply orb_false_iff in C. destruct C as (C1 & C2). apply negb_false_iff in C1.
    rewrite (m_next _ _ M1). apply IH; [|exact H]. apply issue_write_sim; assumption.
  - destruct (negb (mem b (sown s)) || existsb (on_buf x) (sout s) || existsb (writes (on_bid b)) (sout s)) eqn:C; [congruence|].
    apply orb_false_iff in C. destruct C as (C & C3). apply orb_false_iff in C. destruct C as (C1 & C2). apply negb_false_iff in C1.
    rewrite (m_next _ _ M1). apply IH; [|exact H]. apply issue_read_sim; assumption.
  - destruct (existsb _ (apend a1)) eqn:C; [exact I|]. apply IH; [|exact H]. apply wait_sim; assumption.
  - destruct (existsb (reads (on_buf x)) (sout s)) eqn:C; [congruence|]. destruct (scont s x i) as [v|] eqn:V; [|congruence].
    rewrite (get_sim s a1 x i v M1 C V). apply IH; assumption.
  - destruct (existsb (on_buf x) (sout s)) eqn:C; [congruence|]. apply IH; [|exact H]. apply put_sim; assumption.
  - destruct (existsb (reads (on_buf x)) (sout s) || existsb (on_buf y) (sout s)) eqn:C; [congruence|]. apply IH; [|exact H]. apply copy_sim; assumption.
  - rewrite (m_alloc _ _ M1), (m_own _ _ M1). destruct (salloc s) as [|l al] eqn:L; [exact I|].
    destruct (good_alloc n (sown s) l) eqn:G; [|exact I]. apply IH; [|exact H].
    pose proof (alloc_sim s a1 n l al M1 G) as M2. rewrite (m_own _ _ M1) in M2. exact M2.
  - destruct (negb (nodup bs) || existsb (fun b => negb (mem b (sown s))) bs || existsb (fun r => mem (a_bid r) bs) (sout s)) eqn:C; [congruence|].
    apply orb_false_iff in C. destruct C as (_ & C3). apply IH; [|exact H]. apply free_sim; assumption.
  - rewrite (m_alloc _ _ M1). destruct (salloc s) as [|l al] eqn:L; [exact I|]. destruct (says_yes l && _) eqn:C; [exact I|]. apply IH; [|exact H].
    exact (poll_sim s a1 l q al M1 C).
  - destruct qs as [|q0 qs]; [congruence|]. rewrite (m_alloc _ _ M1). destruct (salloc s) as [|l al] eqn:L; [exact I|]. destruct (nth_error (q0 :: qs) (index l)) as [q|]; [|exact I].
    destruct (existsb _ (apend a1)) eqn:C; [exact I|]. apply IH; [|exact H]. exact (answer_sim _ _ al (wait_sim s a1 q M1 C)).
Qed.

Lemma serve_now (a : astate) q : existsb (fun r => Nat.eqb (a_id r) q) (apend a) = true ->
  exists a1, aserve a (AServe q) = Some a1 /\ existsb (fun r => Nat.eqb (a_id r) q) (apend a1) = false.
Proof.
  intro C. simpl. destruct (find _ (apend a)) as [r0|] eqn:F.
  - eexists. split; [reflexivity|]. apply existsb_false. intros r1 Hr1. apply Nat.eqb_neq.
    destruct (a_write r0); simpl in Hr1; apply drop_id_in in Hr1; apply Hr1.
  - apply existsb_exists in C. destruct C as (r1 & Hr1 & C). rewrite (find_none _ _ F _ Hr1) in C. discriminate.
Qed.
(** ready to wait for q *)
Lemma wait_now s a q : sim s a -> exists e a1, aserves a e = Some a1 /\ sim s a1 /\ existsb (fun r => Nat.eqb (a_id r) q) (apend a1) = false.
Proof.
  intro M. destruct (existsb (fun r => Nat.eqb (a_id r) q) (apend a)) eqn:C.
  - destruct (serve_now a q C) as (a1 & E1 & C1). exists [AServe q], a1. cbn [aserves]. rewrite E1. split; [reflexivity|]. split; [eapply aserve_sim; eauto|exact C1].
  - exists [], a. auto.
Qed.
(** some schedule lets the program finish: waiting never blocks for ever *)
Lemma arun_progress R (p : prog A R) : forall s a r s', sim s a -> srun p s = Done r s' -> exists o a', arun p a o = Done r (a', []).
Proof.
  induction p as [r0| |x b k IH|x b k IH|q k IH|x i k IH|x i v k IH|x i y j k IH|n k IH|bs k IH|q k IH|qs k IH]; intros s a r s' M H; simpl in H.
  - injection H as <- <-. exists [], a. reflexivity.
  - discriminate.
  - destruct (negb (mem b (sown s)) || existsb (reads (on_buf x)) (sout s) || existsb (on_bid b) (sout s)) eqn:C; [congruence|].
    apply orb_false_iff in C. destruct C as (C & C3). apply orb_false_iff in C. destruct C as (C1 & C2). apply negb_false_iff in C1.
    destruct (IH _ _ (aissue a true x b) r s' (issue_write_sim s a x b M C1 C2 C3) H) as (o & a' & E). exists ([] :: o), a'. simpl.
    rewrite (m_next _ _ M). exact E.
  - destruct (negb (mem b (sown s)) || existsb (on_buf x) (sout s) || existsb (writes (on_bid b)) (sout s)) eqn:C; [congruence|].
    apply orb_false_iff in C. destruct C as (C & C3). apply orb_false_iff in C. destruct C as (C1 & C2). apply negb_false_iff in C1.
    destruct (IH _ _ (aissue a false x b) r s' (issue_read_sim s a x b M C1 C2 C3) H) as (o & a' & E). exists ([] :: o), a'. simpl.
    rewrite (m_next _ _ M). exact E.
  - destruct (existsb (fun r => Nat.eqb (a_id r) q) (apend a)) eqn:C.
    + destruct (serve_now a q C) as (a1 & E1 & C1).
      pose proof (aserve_sim s a _ a1 M E1) as M1.
      destruct (IH _ a1 r s' (wait_sim s a1 q M1 C1) H) as (o & a' & E). exists ([AServe q] :: o), a'. cbn [arun aserves]. rewrite E1, C1. exact E.
    + destruct (IH _ a r s' (wait_sim s a q M C) H) as (o & a' & E). exists ([] :: o), a'. simpl. rewrite C. exact E.
  - destruct (existsb (reads (on_buf x)) (sout s)) eqn:C; [congruence|]. destruct (scont s x i) as [v|] eqn:V; [|congruence].
    destruct (IH v s a r s' M H) as (o & a' & E). exists ([] :: o), a'. simpl. rewrite (get_sim s a x i v M C V). exact E.
  - destruct (existsb (on_buf x) (sout s)) eqn:C; [congruence|].
    destruct (IH _ _ r s' (put_sim s a x i v M C) H) as (o & a' & E). exists ([] :: o), a'. exact E.
  - destruct (existsb (reads (on_buf x)) (sout s) || existsb (on_buf y) (sout s)) eqn:C; [congruence|].
    destruct (IH _ _ r s' (copy_sim s a x i y j M C) H) as (o & a' & E). exists ([] :: o), a'. exact E.
  - destruct (salloc s) as [|l al] eqn:L; [discriminate|]. destruct (good_alloc n (sown s) l) eqn:G; [|discriminate].
    destruct (IH l _ _ r s' (alloc_sim s a n l al M G) H) as (o & a' & E). exists ([] :: o), a'. simpl.
    rewrite (m_alloc _ _ M), L, (m_own _ _ M), G. rewrite (m_own _ _ M) in E. exact E.
  - destruct (negb (nodup bs) || existsb (fun b => negb (mem b (sown s))) bs || existsb (fun r => mem (a_bid r) bs) (sout s)) eqn:C; [congruence|].
    apply orb_false_iff in C. destruct C as (_ & C3).
    destruct (IH _ _ r s' (free_sim s a bs M C3) H) as (o & a' & E). exists ([] :: o), a'. exact E.
  - destruct (salloc s) as [|l al] eqn:L; [discriminate|]. destruct (wait_now s a q M) as (e & a1 & E1 & M1 & C1).
    assert (C2 : says_yes l && existsb (fun r => Nat.eqb (a_id r) q) (apend a1) = false) by (rewrite C1; apply andb_false_r).
    destruct (IH (says_yes l) _ _ r s' (poll_sim s a1 l q al M1 C2) H) as (o & a' & E). exists (e :: o), a'. simpl. rewrite E1, (m_alloc _ _ M1), L, C2. exact E.
  - destruct qs as [|q0 qs]; [discriminate|]. destruct (salloc s) as [|l al] eqn:L; [discriminate|]. destruct (nth_error (q0 :: qs) (index l)) as [q|] eqn:N; [|discriminate].
    destruct (wait_now s a q M) as (e & a1 & E1 & M1 & C1).
    destruct (IH (index l) _ _ r s' (answer_sim _ _ al (wait_sim s a1 q M1 C1)) H) as (o & a' & E). exists (e :: o), a'. cbn [arun]. rewrite E1, (m_alloc _ _ M1), L, N, C1. exact E.
Qed.

(** * Rules for the immediate machine *)
Lemma srun_bind R S (p : prog A R) (f : R -> prog A S) : forall s,
  srun (bind p f) s = match srun p s with Done r s' => srun (f r) s' | Error => Error | Stuck => Stuck end.
Proof.
  induction p as [r0| |x b k IH|x b k IH|q k IH|x i k IH|x i v k IH|x i y j k IH|n k IH|bs k IH|q k IH|qs k IH]; intro s; simpl; auto.
  - destruct (_ || _); auto.
  - destruct (_ || _); auto.
  - destruct (existsb _ _); auto. destruct (scont s x i); auto.
  - destruct (existsb _ _); auto.
  - destruct (_ || _); auto.
  - destruct (salloc s) as [|l al]; auto. destruct (good_alloc _ _ _); auto.
  - destruct (_ || _); auto.
  - destruct (salloc s) as [|l al]; auto.
  - destruct qs; auto. destruct (salloc s) as [|l al]; auto. destruct (nth_error _ _); auto.
Qed.

(** with a suitable supply of blocks the immediate machine does not get stuck *)
Definition with_alloc (s : sstate) (al : list (list nat)) : sstate := mk_sstate (scont s) (sdisk s) (sout s) (sown s) (snext s) al.
Fixpoint above (l : list nat) : nat := match l with [] => 0 | x :: t => Nat.max (x + 1) (above t) end.
Lemma above_lt l x : In x l -> x < above l.
Proof. induction l as [|y l IH]; intros []; simpl; [lia|]. apply IH in H. lia. Qed.
Lemma exists_alloc R (p : prog A R) : forall s, (forall al, srun p (with_alloc s al) <> Error) ->
  exists al r s', srun p (with_alloc s al) = Done r s'.
Proof.
  induction p as [r0| |x b k IH|x b k IH|q k IH|x i k IH|x i v k IH|x i y j k IH|n k IH|bs k IH|q k IH|qs k IH]; intros s H; simpl in *.
  - exists []. eauto.
  - destruct (H [] eq_refl).
  - destruct (_ || _); [destruct (H [] eq_refl)|]. apply (IH (snext s) (mk_sstate (scont s) _ _ (sown s) _ [])). exact H.
  - destruct (_ || _); [destruct (H [] eq_refl)|]. apply (IH (snext s) (mk_sstate _ (sdisk s) _ (sown s) _ [])). exact H.
  - apply (IH (mk_sstate (scont s) (sdisk s) _ (sown s) _ [])). exact H.
  - destruct (existsb _ _); [destruct (H [] eq_refl)|]. destruct (scont s x i) as [v|]; [|destruct (H [] eq_refl)]. apply (IH v s). exact H.
  - destruct (existsb _ _); [destruct (H [] eq_refl)|]. apply (IH (mk_sstate _ (sdisk s) _ (sown s) _ [])). exact H.
  - destruct (_ || _); [destruct (H [] eq_refl)|]. apply (IH (mk_sstate _ (sdisk s) _ (sown s) _ [])). exact H.
  - assert (G : good_alloc n (sown s) (seq (above (sown s)) n) = true).
    { apply good_alloc_spec. split; [apply seq_length|]. split; [apply seq_NoDup|]. intros b Hb C. apply in_seq in Hb. apply above_lt in C. lia. }
    destruct (IH (seq (above (sown s)) n) (mk_sstate (scont s) (fun b => if mem b (seq (above (sown s)) n) then fun _ => None else sdisk s b) (sout s) (seq (above (sown s)) n ++ sown s) (snext s) [])) as (al & r & s' & E).
    { intros al C. apply (H (seq (above (sown s)) n :: al)). rewrite G. exact C. }
    exists (seq (above (sown s)) n :: al), r, s'. rewrite G. exact E.
  - destruct (_ || _); [destruct (H [] eq_refl)|]. apply (IH (mk_sstate (scont s) (sdisk s) _ (without bs (sown s)) _ [])). exact H.
  - destruct (IH false (mk_sstate (scont s) (sdisk s) (sout s) (sown s) (snext s) [])) as (al & r & s' & E); [intros al C; apply (H ([] :: al)); exact C|]. exists ([] :: al), r, s'. exact E.
  - destruct qs as [|q0 qs]; [destruct (H [] eq_refl)|]. destruct (IH 0 (mk_sstate (scont s) (sdisk s) (drop_id q0 (sout s)) (sown s) (snext s) [])) as (al & r & s' & E); [intros al C; apply (H ([] :: al)); exact C|]. exists ([] :: al), r, s'. exact E.
Qed.
End Sim.
