From Coq Require Import List Bool Arith Permutation Lia.
From Verif Require Import SumLib AsyncIoModel AsyncIoProofs AsyncIoRules VectorProofs BufIoModel BufIoSpec BufIoRules PrefetchProofs IStreamProofs BufWriterProofs.
Import ListNotations.

Lemma nth_firstn_not (l : list nat) k : NoDup l -> k < length l -> ~ In (nth k l 0) (firstn k l).
Proof.
  revert k. induction l as [|x l IH]; intros k N H; [simpl in H; lia|]. inversion N; subst. destruct k as [|k]; [simpl; tauto|]. simpl in *. intros [E|C].
  - apply H2. rewrite E. apply nth_In. lia.
  - apply (IH k); auto. lia.
Qed.
Lemma firstn_S (l : list nat) k : k < length l -> firstn (k + 1) l = firstn k l ++ [nth k l 0].
Proof. intro H. apply firstn_snoc. apply nth_error_nth'. exact H. Qed.
Lemma nth_in_firstn (l : list nat) : forall j k, j < k -> j < length l -> In (nth j l 0) (firstn k l).
Proof.
  induction l as [|x l IH]; intros j k H1 H2; [simpl in H2; lia|]. destruct k as [|k]; [lia|]. destruct j as [|j]; [left; reflexivity|]. right. apply IH; simpl in *; lia.
Qed.


Section OStream.
Variable A : Type.
Variable order : list (nat * nat) -> list (nat * nat).
Hypothesis order_perm : forall l, Permutation (order l) l.
Variable offset : nat -> nat.
Variable SZ : nat.
Hypothesis SZ1 : 1 <= SZ.
Variables bids own : list nat.
Hypothesis ND : NoDup bids.
Hypothesis SUB : forall b, In b bids -> In b own.
Variable K0 : nat -> block A.   (* what is on the disk before *)
Variables base nbuf : nat.
Definition owb (x : nat) : Prop := base <= x < base + bw_bufs nbuf.
Notation ostay := (stay owb (fun b => In b own) nothing).

(** c blocks are written *)
Record ocore (t : ostr) (c : nat) (cont : block A) (s : sstate A) : Prop := mk_ocore {
  oc_bids : o_bids t = skipn c bids;
  oc_le : c <= length bids;
  oc_n : w_n (o_w t) = bw_bufs nbuf /\ w_b (o_w t) = Nat.max (nbuf / 2) 1 /\ w_base (o_w t) = base;
  oc_w : exists f R K, binv A own (o_w t) (w_batch (o_w t)) [(o_blk t, f)] R K s /\
    (forall b, In b R -> In b (firstn c bids)) /\
    (forall i v, i < SZ -> cont (c * SZ + i) = Some v -> f i = Some v) /\
    (forall j i v, j < c -> i < SZ -> cont (j * SZ + i) = Some v -> K (nth j bids 0) i = Some v) /\
    (forall b, ~ In b (firstn c bids) -> K b = K0 b);
  oc_bat : length (w_batch (o_w t)) <= w_b (o_w t) }.
Definition oinv (t : ostr) (pos : nat) (cont : block A) (s : sstate A) : Prop :=
  exists c, ocore t c cont s /\ o_elem t < SZ /\ pos = c * SZ + o_elem t /\ forall p, pos < p -> cont p = None.

Lemma owb_eq w : w_n w = bw_bufs nbuf -> w_base w = base -> WB w = owb.
Proof. intros E1 E2. unfold WB, owb. rewrite E1, E2. reflexivity. Qed.
(** others may have requests, but not on the block to be written *)
Definition quiet (b : nat) (s : sstate A) : Prop := forall r, In r (sout s) -> ~ owb (a_buf r) -> a_bid r <> b.
Lemma os_write_ok t c cont s : ocore t c cont s -> c < length bids -> quiet (nth c bids 0) s -> (forall p, (c + 1) * SZ <= p -> cont p = None) ->
  ok (os_write A order offset t) s (fun t' s' => ocore t' (c + 1) cont s' /\ o_elem t' = 0 /\ ostay s s').
Proof.
  intros H Hc Q HN. destruct H as [H1 H2 (N1 & N2 & N3) (f & R & K & I & HR & Hf & HK & HK0) HB]. unfold os_write. rewrite H1, (skip_cons bids c 0 Hc). apply ok_bind.
  assert (WBe : WB (o_w t) = owb) by (apply owb_eq; assumption).
  eapply ok_imp; [eapply (bw_write_ok A order order_perm offset own (o_w t) [(o_blk t, f)] R K s 0 (o_blk t) f (nth c bids 0) I eq_refl)|].
  - apply SUB, nth_In, Hc.
  - intro C. apply HR in C. apply (nth_firstn_not bids c ND Hc C).
  - rewrite WBe. exact Q.
  - rewrite N1. simpl. unfold wcnt, bw_bufs. rewrite N2. destruct (Nat.leb_spec (Nat.max (nbuf / 2) 1) (length (w_batch (o_w t)))) as [G|G]; [lia|]. pose proof (Nat.div_mod nbuf 2). lia.
  - intros (w1 & x) s1 (I1 & F1 & S1 & L1). cbn [fst snd] in *. apply ok_ret. rewrite WBe in F1. split; [|split; [reflexivity|exact F1]]. destruct S1 as (S1 & S2 & S3). constructor; cbn [o_bids o_w o_blk o_elem].
    + reflexivity.
    + lia.
    + split; [congruence|]. split; congruence.
    + exists (empty_block A), (nth c bids 0 :: R), (store K (nth c bids 0) f). split; [exact I1|]. rewrite (firstn_S bids c Hc). split; [|split; [|split]].
      * intros b [<-|Hb]; apply in_app_iff; [right; left; reflexivity|left; apply HR, Hb].
      * intros i v Hi E. rewrite HN in E by lia. discriminate.
      * intros j i v Hj Hi E. unfold store. destruct (Nat.eqb_spec (nth j bids 0) (nth c bids 0)) as [Ej|Nj].
        -- apply NoDup_nth in Ej; [|exact ND|lia|exact Hc]. subst j. apply Hf; assumption.
        -- apply HK; auto. destruct (Nat.eq_dec j c) as [->|]; [congruence|lia].
      * intros b Hb. unfold store. destruct (Nat.eqb_spec b (nth c bids 0)) as [Eb|Nb]; [exfalso; apply Hb, in_app_iff; right; left; auto|]. apply HK0. intro C. apply Hb, in_app_iff. auto.
    + rewrite L1. unfold wcnt. destruct (Nat.leb_spec (w_b (o_w t)) (length (w_batch (o_w t)))); lia.
Qed.
(** no requests of others on the blocks still to be written *)
Definition calm (s : sstate A) : Prop := forall r, In r (sout s) -> ~ owb (a_buf r) -> ~ In (a_bid r) bids.
Lemma calm_quiet c s : calm s -> c < length bids -> quiet (nth c bids 0) s.
Proof. intros H Hc r Hr Wr C. apply (H r Hr Wr). rewrite C. apply nth_In, Hc. Qed.
Lemma calm_stay s s' : calm s -> ostay s s' -> calm s'.
Proof. intros H F r Hr Wr. destruct (f_new _ _ _ _ _ _ F r Hr) as [Hr'|(C & _)]; [apply H; assumption|contradiction]. Qed.

Lemma os_incr_ok t pos cont s : oinv t pos cont s -> pos < length bids * SZ -> quiet (nth (pos / SZ) bids 0) s -> ok (os_incr A SZ order offset t) s (fun t' s' => oinv t' (pos + 1) cont s' /\ ostay s s').
Proof.
  intros (c & H & He & -> & HN) Hp Q. unfold os_incr. cbn [o_elem]. assert (Hc : c < length bids) by (destruct (Nat.lt_ge_cases c (length bids)); [assumption|nia]).
  rewrite Nat.add_comm, Nat.div_add in Q by lia. rewrite (Nat.div_small (o_elem t) SZ He), Nat.add_0_l in Q.
  assert (H' : ocore (mk_os (o_w t) (o_bids t) (o_elem t + 1) (o_blk t)) c cont s) by (destruct H; constructor; assumption). destruct (Nat.leb_spec SZ (o_elem t + 1)) as [G|G].
  - eapply ok_imp; [apply (os_write_ok _ c cont s H' Hc Q)|].
    + intros p Hl. apply HN. lia.
    + intros t' s' (Y1 & Y2 & Y3). split; [|exact Y3]. exists (c + 1). split; [exact Y1|]. rewrite Y2. split; [lia|]. split; [lia|]. intros p Hl. apply HN. lia.
  - apply ok_ret. split; [|apply stay_refl]. exists c. split; [exact H'|]. cbn [o_elem]. split; [lia|]. split; [lia|]. intros p Hl. apply HN. lia.
Qed.
Lemma os_store R t pos cont s v (k : prog A R) Q : oinv t pos cont s -> (forall s', oinv t pos (bput cont pos v) s' -> ostay s s' -> sout s' = sout s -> ok k s' Q) -> ok (DoPut (o_blk t) (o_elem t) v k) s Q.
Proof.
  intros (c & H & He & -> & HN) K1. destruct H as [H1 H2 H3 (f & Rc & K & I & HR & Hf & HK & HK0) HB]. pose proof H3 as (N1 & N2 & N3). assert (WBe : WB (o_w t) = owb) by (apply owb_eq; assumption).
  eapply (bw_put_ok A offset own R (o_w t) _ [(o_blk t, f)] _ _ s 0 (o_blk t) f); [exact I|reflexivity|]. intros I1 F1. rewrite WBe in F1. apply K1; [|exact F1|reflexivity].
  exists c. split; [|split; [exact He|split; [reflexivity|]]].
  - constructor; auto. exists (bput f (o_elem t) v), Rc, K. split; [exact I1|]. split; [exact HR|]. split; [|split; [|exact HK0]].
    + intros i u Hi. unfold bput. destruct (Nat.eqb_spec (c * SZ + i) (c * SZ + o_elem t)) as [E|N].
      * intro E'. assert (i = o_elem t) as -> by lia. rewrite Nat.eqb_refl. exact E'.
      * intro E'. destruct (Nat.eqb_spec i (o_elem t)) as [->|_]; [congruence|]. apply Hf; assumption.
    + intros j i u Hj Hi. unfold bput. destruct (Nat.eqb_spec (j * SZ + i) (c * SZ + o_elem t)) as [E|N]; [exfalso; nia|]. apply HK; assumption.
  - intros p Hp. unfold bput. destruct (Nat.eqb_spec p (c * SZ + o_elem t)) as [->|_]; [lia|]. apply HN. exact Hp.
Qed.
Lemma quiet_stay b s s' : quiet b s -> ostay s s' -> quiet b s'.
Proof. intros H F r Hr Wr. destruct (f_new _ _ _ _ _ _ F r Hr) as [Hr'|(C & _)]; [apply H; assumption|contradiction]. Qed.
Lemma os_put_ok t pos cont s v : oinv t pos cont s -> pos < length bids * SZ -> quiet (nth (pos / SZ) bids 0) s -> ok (os_put A SZ order offset v t) s (fun t' s' => oinv t' (pos + 1) (bput cont pos v) s' /\ ostay s s').
Proof.
  intros H Hp Q. unfold os_put. eapply os_store; [exact H|]. intros s1 H1 F1 O1. eapply ok_imp; [apply (os_incr_ok t pos _ s1 H1 Hp (quiet_stay _ _ _ Q F1))|]. intros t' s2 (Y1 & Y2). split; [exact Y1|]. eapply stay_trans; eassumption.
Qed.
Lemma oinv_ext t pos cont cont' s : (forall p, cont p = cont' p) -> oinv t pos cont s -> oinv t pos cont' s.
Proof.
  intros E (c & H & He & Hp & HN). exists c. split; [|split; [exact He|split; [exact Hp|intros p Hl; rewrite <- E; apply HN, Hl]]].
  destruct H as [H1 H2 H3 (f & R & K & I & HR & Hf & HK & HK0) HB]. constructor; auto. exists f, R, K. split; [exact I|]. split; [exact HR|]. split; [intros i v; rewrite <- E; apply Hf|]. split; [intros j i v; rewrite <- E; apply HK|exact HK0].
Qed.
Lemma os_fill_ok v : forall n t pos cont s e, oinv t pos cont s -> pos <= length bids * SZ -> calm s -> e = (pos + SZ - 1) / SZ * SZ -> (o_elem t = 0 \/ SZ <= n + o_elem t) ->
  ok (os_fill A SZ order offset n v t) s (fun t' s' => oinv t' e (fun q => if Nat.leb pos q && Nat.ltb q e then Some v else cont q) s' /\ ostay s s').
Proof.
  intros n t pos cont s e. revert n t pos cont s.
  assert (Z : forall t pos cont s, oinv t pos cont s -> o_elem t = 0 -> e = (pos + SZ - 1) / SZ * SZ -> ok (Ret t) s (fun t' s' => oinv t' e (fun q => if Nat.leb pos q && Nat.ltb q e then Some v else cont q) s' /\ ostay s s')).
  { intros t pos cont s H E Ee. apply ok_ret. split; [|apply stay_refl]. assert (e = pos) as ->.
    { destruct H as (c & _ & _ & -> & _). rewrite E in *. rewrite Ee. replace (c * SZ + 0 + SZ - 1) with (SZ - 1 + c * SZ) by lia. rewrite Nat.div_add, (Nat.div_small (SZ - 1) SZ) by lia. lia. }
    eapply oinv_ext; [|exact H]. intro p. destruct (Nat.leb_spec pos p), (Nat.ltb_spec p pos); simpl; auto; lia. }
  induction n as [|n IH]; intros t pos cont s H Hp Q Ee HE.
  - simpl. destruct (Nat.eqb_spec (o_elem t) 0) as [E|E]; [apply Z; assumption|]. destruct H as (c & H & He & _). lia.
  - cbn [os_fill]. destruct (Nat.eqb_spec (o_elem t) 0) as [E|E]; [apply Z; assumption|]. apply ok_bind. pose proof H as (c & Hc & He & Ep & HN). destruct HE as [HE|HE]; [lia|].
    assert (Hc' : c < length bids) by (destruct (Nat.lt_ge_cases c (length bids)); [assumption|nia]). assert (Ediv : pos / SZ = c) by (rewrite Ep, Nat.add_comm, Nat.div_add by lia; rewrite (Nat.div_small _ _ He); reflexivity).
    assert (Ee2 : e = (c + 1) * SZ).
    { rewrite Ee, Ep. replace (c * SZ + o_elem t + SZ - 1) with (o_elem t - 1 + (c + 1) * SZ) by lia. rewrite Nat.div_add, (Nat.div_small (o_elem t - 1) SZ) by lia. reflexivity. }
    eapply ok_imp; [apply (os_put_ok t pos cont s v H); [nia|rewrite Ediv; apply calm_quiet; assumption]|]. intros t1 s1 (H1 & F1).
    pose proof H1 as (c1 & Hc1 & He1 & Ep1 & HN1).
    eapply ok_imp; [apply (IH t1 (pos + 1) _ s1 H1)|].
    + nia.
    + eapply calm_stay; eassumption.
    + rewrite Ee2, Ep. replace (c * SZ + o_elem t + 1 + SZ - 1) with (o_elem t + (c + 1) * SZ) by lia. rewrite Nat.div_add, (Nat.div_small (o_elem t) SZ) by lia. reflexivity.
    + destruct (Nat.eq_dec (o_elem t1) 0) as [E1|E1]; [auto|]. right. assert (c1 = c) by nia. subst c1. lia.
    + intros t2 s2 (H2 & F2). split; [|eapply stay_trans; eassumption]. eapply oinv_ext; [|exact H2]. intro q. unfold bput.
      destruct (Nat.leb_spec (pos + 1) q), (Nat.leb_spec pos q), (Nat.ltb_spec q e), (Nat.eqb_spec q pos); simpl; auto; nia.
Qed.
Lemma os_ops_ok os : forall t pos cont s pos' cont', oinv t pos cont s -> calm s -> ospec_ops SZ (length bids) os (pos, cont) = Some (pos', cont') ->
  ok (os_ops A SZ order offset os t) s (fun t' s' => oinv t' pos' cont' s' /\ ostay s s').
Proof.
  induction os as [|o os IH]; intros t pos cont s pos' cont' H Q E.
  - injection E as <- <-. apply ok_ret. split; [exact H|apply stay_refl].
  - simpl in E. destruct (Nat.ltb_spec pos (length bids * SZ)) as [Hp|Hp]; [|discriminate]. simpl os_ops. apply ok_bind.
    assert (Qp : quiet (nth (pos / SZ) bids 0) s) by (apply calm_quiet; [exact Q|]; apply Nat.div_lt_upper_bound; lia).
    set (r := match o with OPut _ v => Some (pos + 1, bput cont pos v) | OSet _ v => Some (pos, bput cont pos v) | OIncr _ => _ | OFill _ v => _ | OFlush _ => _ end) in E.
    apply ok_imp with (Q := fun t' s' => exists st, r = Some st /\ oinv t' (fst st) (snd st) s' /\ ostay s s').
    + subst r. destruct o as [v|v| |v|]; cbn [os_op].
      * eapply ok_imp; [apply (os_put_ok t pos cont s v H Hp Qp)|]. intros t' s' Y. eexists. split; [reflexivity|exact Y].
      * unfold os_set. eapply os_store; [exact H|]. intros s1 H1 F1 _. apply ok_ret. eexists. split; [reflexivity|]. split; assumption.
      * eapply ok_imp; [apply (os_incr_ok t pos cont s H Hp Qp)|]. intros t' s' Y. eexists. split; [reflexivity|exact Y].
      * eapply ok_imp; [apply (os_fill_ok v SZ t pos cont s ((pos + SZ - 1) / SZ * SZ) H); [lia|exact Q|reflexivity|lia]|]. intros t' s' Y. eexists. split; [reflexivity|exact Y].
      * destruct H as (c & H & He & Ep & HN). unfold os_flush. assert (Ediv : pos / SZ = c) by (rewrite Ep, Nat.add_comm, Nat.div_add by lia; rewrite (Nat.div_small _ _ He); reflexivity).
        rewrite Ediv in *. assert (Hc : c < length bids) by (destruct (Nat.lt_ge_cases c (length bids)); [assumption|nia]).
        eapply ok_imp; [apply (os_write_ok t c cont s H Hc Qp)|].
        -- intros p Hl. apply HN. nia.
        -- intros t' s' (Y1 & Y2 & Y3). eexists. split; [reflexivity|]. cbn [fst snd]. split; [|exact Y3]. exists (c + 1). split; [exact Y1|]. rewrite Y2. split; [lia|]. split; [lia|]. intros p Hl. apply HN. nia.
    + intros t1 s1 ((p1 & f1) & Er & H1 & F1). rewrite Er in E. eapply ok_imp; [apply (IH t1 p1 f1 s1 pos' cont' H1 (calm_stay _ _ Q F1) E)|]. intros t2 s2 (Y1 & Y2). split; [exact Y1|]. eapply stay_trans; eassumption.
Qed.
Lemma os_new_ok s : wf s -> (forall b, In b own -> In b (sown s)) -> (forall b, In b own -> agrees (K0 b) (sdisk s b)) -> (forall r, In r (sout s) -> ~ owb (a_buf r)) ->
  ok (os_new A base bids nbuf) s (fun t s' => oinv t 0 (empty_block A) s' /\ ostay s s').
Proof.
  intros H1 H2 H3 H4. unfold os_new. destruct (bw_new_n base nbuf (nbuf / 2)) as (N1 & N2 & N3). apply ok_bind. assert (WBe : WB (bw_new base nbuf (nbuf / 2)) = owb) by (apply owb_eq; assumption).
  eapply ok_imp; [apply (get_free_ok A own (bw_new base nbuf (nbuf / 2)) [] [] K0 s)|].
  - apply bw_new_ok; auto. rewrite WBe. exact H4.
  - rewrite N1. simpl. unfold bw_bufs. lia.
  - intros (w & x) s1 (I1 & F1 & S1 & B1). cbn [fst snd] in *. apply ok_ret. rewrite WBe in F1. split; [|exact F1]. exists 0. cbn [o_elem]. split; [|split; [lia|split; [lia|reflexivity]]].
    destruct S1 as (S1 & S2 & S3). constructor; cbn [o_bids o_w o_blk].
    + reflexivity.
    + lia.
    + split; [congruence|]. split; congruence.
    + exists (empty_block A), [], K0. rewrite B1. split; [exact I1|]. split; [intros b []|]. split; [discriminate|]. split; [lia|reflexivity].
    + rewrite B1. simpl. lia.
Qed.
Lemma os_delete_ok t pos cont s : oinv t pos cont s -> pos mod SZ = 0 -> ok (os_delete A order t) s (fun _ s' => wf s' /\ ostay s s' /\ (forall r, In r (sout s') -> ~ owb (a_buf r)) /\
  (forall j i v, j < pos / SZ -> i < SZ -> cont (j * SZ + i) = Some v -> sdisk s' (nth j bids 0) i = Some v) /\ (forall b, In b own -> ~ In b (firstn (pos / SZ) bids) -> agrees (K0 b) (sdisk s' b))).
Proof.
  intros (c & H & He & -> & HN) HM. rewrite Nat.add_comm, Nat.mod_add in HM by lia. rewrite Nat.mod_small in HM by exact He. unfold os_delete. rewrite HM. cbn [Nat.eqb].
  rewrite Nat.add_0_r, Nat.div_mul by lia.
  destruct H as [H1 H2 H3 (f & Rc & K & I & HR & Hf & HK & HK0) HB]. pose proof H3 as (N1 & N2 & N3). assert (WBe : WB (o_w t) = owb) by (apply owb_eq; assumption).
  eapply ok_imp; [apply (bw_delete_ok A order order_perm offset own _ _ _ _ _ I)|]. intros _ s1 (Y1 & Y2 & Y3 & Y4). rewrite WBe in *. split; [exact Y1|]. split; [exact Y2|]. split; [exact Y3|]. split.
  - intros j i v Hj Hi E. apply (Y4 (nth j bids 0)); [apply SUB, nth_In; lia|]. apply HK; assumption.
  - intros b Hb Nb. rewrite <- (HK0 b Nb). apply Y4, Hb.
Qed.
End OStream.

Lemma os_run_ok A order offset SZ bids own K0 base nbuf os pos cont s : (forall l, Permutation (order l) l) -> 1 <= SZ -> NoDup bids -> (forall b, In b bids -> In b own) ->
  wf s -> (forall b, In b own -> In b (sown s)) -> (forall b, In b own -> agrees (K0 b) (sdisk s b)) -> (forall r, In r (sout s) -> ~ owb base nbuf (a_buf r)) -> (forall r, In r (sout s) -> ~ In (a_bid r) bids) ->
  ospec_ops SZ (length bids) os (0, empty_block A) = Some (pos, cont) -> pos mod SZ = 0 ->
  ok (os_run A SZ order offset base bids nbuf os) s (fun _ s' => wf s' /\ stay (owb base nbuf) (fun b => In b own) nothing s s' /\ (forall r, In r (sout s') -> ~ owb base nbuf (a_buf r)) /\
    (forall j i v, j < pos / SZ -> i < SZ -> cont (j * SZ + i) = Some v -> sdisk s' (nth j bids 0) i = Some v) /\ (forall b, In b own -> ~ In b (firstn (pos / SZ) bids) -> agrees (K0 b) (sdisk s' b))).
Proof.
  intros OP SZ1 ND SUB W HO HK HQ HC E HM. unfold os_run. apply ok_bind. eapply ok_imp; [apply (os_new_ok A SZ SZ1 bids own K0 base nbuf s W HO HK HQ)|]. intros t s1 (I1 & F1). apply ok_bind.
  eapply ok_imp; [apply (os_ops_ok A order OP offset SZ SZ1 bids own ND SUB K0 base nbuf os t 0 (empty_block A) s1 pos cont I1)|].
  - eapply calm_stay; [|exact F1]. intros r Hr _. apply HC, Hr.
  - exact E.
  - intros t2 s2 (I2 & F2). eapply ok_imp; [apply (os_delete_ok A order OP offset SZ SZ1 bids own SUB K0 base nbuf t2 pos cont s2 I2 HM)|].
    intros _ s3 (Y1 & Y2 & Y3). split; [exact Y1|]. split; [|exact Y3]. eapply stay_trans; [exact F1|]. eapply stay_trans; eassumption.
Qed.

(** * Reading back what was written *)
Lemma ospec_puts A SZ L (vs : list A) : forall p f, p + length vs <= L * SZ ->
  exists g, ospec_ops SZ L (map (OPut A) vs) (p, f) = Some (p + length vs, g) /\ forall q, g q = if Nat.leb p q && Nat.ltb q (p + length vs) then nth_error vs (q - p) else f q.
Proof.
  induction vs as [|v vs IH]; intros p f H.
  - exists f. simpl. rewrite Nat.add_0_r. split; [reflexivity|]. intro q. destruct (Nat.leb_spec p q), (Nat.ltb_spec q p); simpl; auto; lia.
  - simpl in H. cbn [map ospec_ops ospec_op]. destruct (Nat.ltb_spec p (L * SZ)) as [_|C]; [|lia]. destruct (IH (p + 1) (bput f p v)) as (g & E & G); [lia|]. exists g. split; [rewrite E; simpl; do 2 f_equal; lia|].
    intro q. rewrite G. unfold bput. simpl length. destruct (Nat.leb_spec (p + 1) q), (Nat.leb_spec p q), (Nat.ltb_spec q (p + 1 + length vs)), (Nat.ltb_spec q (p + S (length vs))), (Nat.eqb_spec q p); simpl; auto; try lia.
    + replace (q - p) with (S (q - (p + 1))) by lia. reflexivity.
    + subst q. rewrite Nat.sub_diag. reflexivity.
Qed.
Lemma elements_eq A SZ (d : nat -> nat -> A) x0 : forall bids vs, length vs = length bids * SZ -> (forall j i, j < length bids -> i < SZ -> d (nth j bids 0) i = nth (j * SZ + i) vs x0) -> elements SZ d bids = vs.
Proof.
  induction bids as [|b bids IH]; intros vs HL H; [destruct vs; [reflexivity|discriminate]|]. simpl in HL. simpl. rewrite <- (firstn_skipn SZ vs). f_equal.
  - apply (nth_ext _ _ x0 x0); [rewrite map_length, seq_length, firstn_length; lia|]. rewrite map_length, seq_length. intros i Hi. rewrite (nth_indep _ x0 (d b 0)) by (rewrite map_length, seq_length; exact Hi). rewrite map_nth, seq_nth by exact Hi. simpl.
    pose proof (H 0 i (Nat.lt_0_succ _) Hi) as E. simpl in E. rewrite E. rewrite <- (firstn_skipn SZ vs) at 1. rewrite app_nth1; [reflexivity|]. rewrite firstn_length. lia.
  - apply IH; [rewrite skipn_length; lia|]. intros j i Hj Hi. pose proof (H (S j) i) as E. simpl in E. rewrite E by (auto; lia). rewrite <- (firstn_skipn SZ vs) at 1. rewrite app_nth2; [|rewrite firstn_length; lia]. rewrite firstn_length. f_equal. lia.
Qed.
Lemma ispec_gets A (l : list A) : ispec_ops l (repeat IGet (length l)) = Some l.
Proof. induction l as [|v l IH]; [reflexivity|]. simpl. rewrite IH. reflexivity. Qed.
Lemma round_trip_ok A order offset SZ ndisks mdev dev ch base bids nbuf nbuf' (d : nat -> nat -> A) vs al : (forall l, Permutation (order l) l) -> 1 <= SZ -> NoDup bids -> 1 <= length bids ->
  1 <= is_nbuf ndisks (length bids) nbuf' -> (forall b, In b bids -> dev b <= mdev) -> length vs = length bids * SZ ->
  ok (bind (os_run A SZ order offset base bids nbuf (map (OPut A) vs)) (fun _ => is_run A SZ ndisks mdev dev ch base bids nbuf' (repeat IGet (length vs)))) (sinit_own A bids d al) (fun r _ => r = vs).
Proof.
  intros OP SZ1 ND HL Hm Hd HV. destruct (ospec_puts A SZ (length bids) vs 0 (empty_block A)) as (g & Eg & Hg); [lia|]. simpl in Eg. apply ok_bind.
  eapply ok_imp; [apply (os_run_ok A order offset SZ bids bids (fun b i => if mem b bids then Some (d b i) else None) base nbuf (map (OPut A) vs) (length vs) g (sinit_own A bids d al) OP SZ1 ND)|]; auto.
  - apply own_wf.
  - intros b Hb. simpl. apply agrees_refl.
  - rewrite HV. apply Nat.mod_mul. lia.
  - intros _ s1 (W1 & F1 & N1 & K1 & _). rewrite HV, Nat.div_mul in K1 by lia.
    assert (SO : sout s1 = []).
    { destruct (sout s1) as [|r0 l0] eqn:Eo; [reflexivity|]. exfalso. assert (H0 : In r0 (sout s1)) by (rewrite Eo; left; reflexivity). destruct (f_new _ _ _ _ _ _ F1 r0 H0) as [[]|(C & _)]. apply (N1 r0); [left; reflexivity|exact C]. }
    assert (x0 : A) by (destruct vs as [|v vs']; [simpl in HV; nia|exact v]).
    set (D := sdisk s1). set (dd := fun b i => match D b i with Some v => v | None => x0 end).
    assert (KK : forall j i, j < length bids -> i < SZ -> D (nth j bids 0) i = Some (nth (j * SZ + i) vs x0)).
    { intros j i Hj Hi. apply K1; auto. rewrite Hg. assert (j * SZ + i < length vs) by nia. destruct (Nat.ltb_spec (j * SZ + i) (0 + length vs)) as [_|C]; [|lia]. simpl. rewrite Nat.sub_0_r. apply nth_error_nth'. assumption. }
    assert (EL : elements SZ dd bids = vs). { apply (elements_eq A SZ dd x0); [exact HV|]. intros j i Hj Hi. unfold dd. rewrite KK by assumption. reflexivity. }
    assert (HD : forall b i, In b bids -> i < SZ -> D b i = Some (dd b i)).
    { intros b i Hb Hi. apply (In_nth _ _ 0) in Hb. destruct Hb as (j & Hj & <-). unfold dd. rewrite KK by assumption. reflexivity. }
    unfold is_run. apply ok_bind. eapply ok_imp; [apply (is_new_ok A SZ D dd ndisks mdev dev ch base bids nbuf' s1 SZ1 HL Hm Hd)|].
    + constructor; rewrite ?SO; auto; try (intros r []). rewrite (f_own _ _ _ _ _ _ F1). auto.
    + set (m := is_nbuf _ _ _) in *. intros t s2 (ord & T & H1 & F2). rewrite EL in H1. apply ok_bind. assert (NM : Nat.min m (length bids) = length bids \/ m <= Nat.min m (length bids)) by lia.
      eapply ok_imp; [apply (is_ops_ok A SZ SZ1 D dd bids ord (Nat.min m (length bids)) base m T NM HD (repeat IGet (length vs)) t _ s2 vs H1 (ispec_gets A vs))|]. intros r s3 (R1 & F3 & (l & H2)).
      apply ok_bind. eapply ok_imp; [apply (is_delete_ok A SZ D dd bids ord _ base (fst r) l s3 H2)|]. intros _ s4 _. apply ok_ret. exact R1.
Qed.
