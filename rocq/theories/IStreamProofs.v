From Coq Require Import List Bool Arith Permutation Lia.
From Verif Require Import SumLib AsyncIoModel AsyncIoProofs AsyncIoRules VectorProofs ScheduleModel ScheduleSpec ScheduleProofs BufIoModel BufIoSpec BufIoRules PrefetchProofs.
Import ListNotations.

Lemma skip_cons {B} (l : list B) k x0 : k < length l -> skipn k l = nth k l x0 :: skipn (k + 1) l.
Proof. revert k. induction l as [|y l IH]; intros k H; [simpl in H; lia|]. destruct k as [|k]; [reflexivity|]. simpl. apply IH. simpl in H. lia. Qed.

Section IStream.
Variable A : Type.
Variable SZ : nat.
Hypothesis SZ1 : 1 <= SZ.
Variable D : nat -> nat -> option A.
Variable d : nat -> nat -> A.
Variables (bids order : list nat) (n base m : nat).
Hypothesis TM : in_time m order.
Hypothesis NM : n = length bids \/ m <= n.
Hypothesis HD : forall b i, In b bids -> i < SZ -> D b i = Some (d b i).
Notation istay := (stay (fun x => base <= x < base + n) nothing (fun b => In b bids)).

(** l: the elements still to be read *)
Definition sinv (t : istr) (l : list A) (s : sstate A) : Prop :=
  good (i_pf t) bids order n base /\
  if i_open t then
    1 <= p_cons (i_pf t) <= length bids /\ i_elem t < SZ /\ hb (i_pf t) (p_cons (i_pf t) - 1) = Some (i_blk t) /\ pinv A D (i_pf t) [p_cons (i_pf t) - 1] s /\
    l = map (d (nth (p_cons (i_pf t) - 1) bids 0)) (seq (i_elem t) (SZ - i_elem t)) ++ elements SZ d (skipn (p_cons (i_pf t)) bids)
  else l = [] /\ exists ks, pinv A D (i_pf t) ks s.

Lemma sinv_head t v l s : sinv t (v :: l) s -> i_open t = true /\ v = d (nth (p_cons (i_pf t) - 1) bids 0) (i_elem t).
Proof.
  intros (G & H). destruct (i_open t); [|destruct H as (H & _); discriminate]. split; [reflexivity|]. destruct H as (H1 & H2 & H3 & H4 & H5).
  destruct (SZ - i_elem t) as [|k] eqn:E; [lia|]. simpl in H5. congruence.
Qed.
Lemma is_incr_ok t v l s : sinv t (v :: l) s -> ok (is_incr A SZ t) s (fun t' s' => sinv t' l s' /\ istay s s').
Proof.
  intros H. destruct (sinv_head t v l s H) as (O & _). pose proof H as (G & H'). rewrite O in H'. destruct H' as (H1 & H2 & H3 & H4 & H5). pose proof G as (G1 & G2 & G3 & G4).
  unfold is_incr. rewrite O. cbn [i_elem]. destruct (Nat.leb_spec SZ (i_elem t + 1)) as [E|E].
  - unfold is_next_block. cbn [i_blk i_pf]. apply ok_bind. unfold hb in H3. destruct (p_blk (i_pf t) (p_cons (i_pf t) - 1)) as [(x & q)|] eqn:Eb; [|discriminate]. simpl in H3. injection H3 as ->.
    eapply ok_imp; [apply (consumed_ok A D (i_pf t) [p_cons (i_pf t) - 1] s m (p_cons (i_pf t) - 1) 0 (i_blk t) q H4); [rewrite G2; exact TM|rewrite G1, G3; simpl; lia|reflexivity|exact Eb]|].
    intros (t1 & y) s1 (F1 & B1 & X1 & X2 & X3 & X4 & X5). cbn [fst snd] in *. apply ok_ret. unfold PB in F1. rewrite G1, G3, G4 in F1. split; [|exact F1].
    assert (G' : good t1 bids order n base) by (unfold good; rewrite X1, X2, X3, X4; exact G).
    replace (SZ - i_elem t) with 1 in H5 by lia. cbn [seq map app] in H5. injection H5 as _ ->. destruct y as [y|].
    + destruct X5 as (Y1 & Y2 & Y3 & Y4). rewrite G1 in Y1. unfold sinv. cbn [i_pf i_open i_elem i_blk]. split; [exact G'|]. rewrite Y2. replace (p_cons (i_pf t) + 1 - 1) with (p_cons (i_pf t)) by lia.
      split; [lia|]. split; [lia|]. split; [exact Y4|]. split; [exact Y3|]. rewrite (skip_cons bids _ 0 Y1). cbn [elements flat_map]. rewrite Nat.sub_0_r. reflexivity.
    + destruct X5 as (Y1 & Y2 & Y3). rewrite G1 in Y1. unfold sinv. cbn [i_pf i_open]. split; [exact G'|]. split; [|eauto]. rewrite Y1, skipn_all. reflexivity.
  - apply ok_ret. split; [|apply stay_refl]. unfold sinv. cbn [i_pf i_open i_elem i_blk]. split; [exact G|]. split; [exact H1|]. split; [lia|]. split; [exact H3|]. split; [exact H4|].
    replace (SZ - i_elem t) with (S (SZ - (i_elem t + 1))) in H5 by lia. cbn [seq map app] in H5. injection H5 as _ ->. rewrite Nat.add_1_r. reflexivity.
Qed.
Lemma is_read R t v l s (k : A -> prog A R) Q : sinv t (v :: l) s -> ok (k v) s Q -> ok (DoGet (i_blk t) (i_elem t) k) s Q.
Proof.
  intros H K. destruct (sinv_head t v l s H) as (O & Ev). pose proof H as (G & H'). rewrite O in H'. destruct H' as (H1 & H2 & H3 & H4 & H5). pose proof G as (G1 & G2 & G3 & G4).
  unfold hb in H3. destruct (p_blk (i_pf t) (p_cons (i_pf t) - 1)) as [(x & q)|] eqn:Eb; [|discriminate]. simpl in H3. injection H3 as ->.
  apply (pf_get_ok A D R (i_pf t) [p_cons (i_pf t) - 1] s 0 (p_cons (i_pf t) - 1) (i_blk t) q _ v); auto. rewrite G1, HD; [congruence|apply nth_In; lia|exact H2].
Qed.
Lemma is_current_ok t v l s : sinv t (v :: l) s -> ok (is_current A t) s (fun r s' => r = v /\ s' = s).
Proof. intro H. unfold is_current. apply (is_read _ t v l s); [exact H|]. apply ok_ret. auto. Qed.
Lemma is_get_incr t : i_open t = true -> is_get A SZ t = DoGet (i_blk t) (i_elem t) (fun v => bind (is_incr A SZ t) (fun t => Ret (t, v))).
Proof. intro O. unfold is_get, is_incr. rewrite O. cbn [i_elem]. destruct (Nat.leb SZ (i_elem t + 1)); reflexivity. Qed.
Lemma is_get_ok t v l s : sinv t (v :: l) s -> ok (is_get A SZ t) s (fun r s' => snd r = v /\ sinv (fst r) l s' /\ istay s s').
Proof.
  intro H. rewrite is_get_incr by apply (sinv_head t v l s H). apply (is_read _ t v l s); [exact H|]. apply ok_bind. eapply ok_imp; [apply (is_incr_ok t v l s H)|]. intros t' s' (H1 & H2). apply ok_ret. auto.
Qed.
Lemma is_ops_ok os : forall t l s out, sinv t l s -> ispec_ops l os = Some out -> ok (is_ops A SZ os t) s (fun r s' => snd r = out /\ istay s s' /\ exists l', sinv (fst r) l' s').
Proof.
  induction os as [|o os IH]; intros t l s out H E.
  - injection E as <-. apply ok_ret. split; [reflexivity|]. split; [apply stay_refl|eauto].
  - simpl in E. destruct l as [|v l]; [discriminate|]. simpl is_ops. apply ok_bind. destruct o; cbn [is_op]; apply ok_bind.
    + destruct (ispec_ops l os) as [out'|] eqn:E'; [|discriminate]. injection E as <-. eapply ok_imp; [apply (is_get_ok t v l s H)|]. intros (t' & w) s1 (-> & H1 & F1). cbn [fst snd] in *. apply ok_ret. cbn [fst snd].
      apply ok_bind. eapply ok_imp; [apply (IH t' l s1 out' H1 E')|]. intros r s2 (R1 & R2 & R3). apply ok_ret. simpl. split; [f_equal; exact R1|]. split; [eapply stay_trans; eassumption|exact R3].
    + destruct (ispec_ops (v :: l) os) as [out'|] eqn:E'; [|discriminate]. injection E as <-. eapply ok_imp; [apply (is_current_ok t v l s H)|]. intros w s1 (-> & ->). apply ok_ret. cbn [fst snd].
      apply ok_bind. eapply ok_imp; [apply (IH t (v :: l) s out' H E')|]. intros r s2 (R1 & R2 & R3). apply ok_ret. simpl. split; [f_equal; exact R1|]. split; [exact R2|exact R3].
    + eapply ok_imp; [apply (is_incr_ok t v l s H)|]. intros t' s1 (H1 & F1). apply ok_ret. cbn [fst snd].
      apply ok_bind. eapply ok_imp; [apply (IH t' l s1 out H1 E)|]. intros r s2 (R1 & R2 & R3). apply ok_ret. simpl. split; [exact R1|]. split; [eapply stay_trans; eassumption|exact R3].
Qed.
Lemma is_delete_ok t l s : sinv t l s -> ok (is_delete A t) s (fun _ s' => wf s' /\ istay s s' /\ forall r, In r (sout s') -> ~ (base <= a_buf r < base + n)).
Proof.
  intros ((G1 & G2 & G3 & G4) & H). assert (K : exists ks, pinv A D (i_pf t) ks s) by (destruct (i_open t); [destruct H as (_ & _ & _ & H & _); eauto|apply H]). destruct K as (ks & I).
  unfold is_delete. eapply ok_imp; [apply (delete_ok A D _ _ _ I)|]. unfold PB. rewrite G1, G3, G4. auto.
Qed.
(** what others do does not matter *)
Lemma sinv_stay (P' B' C' : nat -> Prop) t l s s' : sinv t l s -> wf s' -> stay P' B' C' s s' -> (forall x, base <= x < base + n -> ~ P' x) -> (forall k b, ~ issued (i_pf t) k -> nth_error bids k = Some b -> ~ B' b) -> sinv t l s'.
Proof.
  intros (G & H) W F HP HB. pose proof G as (G1 & G2 & G3 & G4). split; [exact G|].
  assert (K : forall ks, pinv A D (i_pf t) ks s -> pinv A D (i_pf t) ks s').
  { intros ks I. eapply pinv_stay; [exact I|exact W|exact F|unfold PB; rewrite G3, G4; exact HP|rewrite G1; exact HB]. }
  destruct (i_open t); [|destruct H as (H1 & ks & H2); eauto]. destruct H as (H1 & H2 & H3 & H4 & H5). auto 10.
Qed.
Lemma sinv_wf t l s : sinv t l s -> wf s.
Proof. intros (_ & H). destruct (i_open t); [destruct H as (_ & _ & _ & H & _)|destruct H as (_ & ks & H)]; apply H. Qed.
End IStream.

Lemma is_new_ok A SZ (D : nat -> nat -> option A) (d : nat -> nat -> A) ndisks mdev dev ch base bids nbuf s :
  1 <= SZ -> 1 <= length bids -> 1 <= is_nbuf ndisks (length bids) nbuf -> (forall b, In b bids -> dev b <= mdev) -> ready A D base (Nat.min (is_nbuf ndisks (length bids) nbuf) (length bids)) bids s ->
  ok (is_new A ndisks mdev dev ch base bids nbuf) s (fun t s' => exists order, in_time (is_nbuf ndisks (length bids) nbuf) order /\
    sinv A SZ D d bids order (Nat.min (is_nbuf ndisks (length bids) nbuf) (length bids)) base t (elements SZ d bids) s' /\
    stay (fun x => base <= x < base + Nat.min (is_nbuf ndisks (length bids) nbuf) (length bids)) nothing (fun b => In b bids) s s').
Proof.
  intros SZ1 HL Hm Hd R. unfold is_new. set (m := is_nbuf _ _ _) in *.
  destruct (schedule_ok (length bids) m mdev (fun k => dev (nth k bids 0))) with (ch := ch) as (order & E & C & T); [exact Hm|intros i Hi; apply Hd, nth_In, Hi|]. rewrite E.
  apply ok_bind. eapply ok_imp; [apply (pf_new_ok A D base bids order m s HL Hm C R)|]. intros t s1 (I1 & F1 & X1 & X2 & X3 & X4 & X5). apply ok_bind.
  eapply ok_imp; [apply (pull_ok A D t [] s1 I1)|].
  - rewrite X1, X5. lia.
  - apply (avail A D t [] s1 m I1); [rewrite X2; exact T|rewrite X1, X5; lia|rewrite X1, X3; simpl; lia].
  - intros (t2 & x) s2 (I2 & F2 & Y1 & Y2 & Y3 & Y4 & Y5 & Y6 & (q & Y7)). cbn [fst snd] in *. apply ok_ret. exists order. split; [exact T|].
    assert (G : good t2 bids order (Nat.min m (length bids)) base) by (unfold good; rewrite Y2, Y3, Y4, Y5; auto). split.
    + unfold sinv. cbn [i_pf i_open i_elem i_blk]. split; [exact G|]. rewrite Y6, X5 in *. simpl (0 + 1) in *. simpl (1 - 1). simpl (0 + 1 - 1). split; [lia|]. split; [lia|]. split; [unfold hb; rewrite Y1, Y7; reflexivity|]. split; [exact I2|].
      rewrite Nat.sub_0_r. destruct bids as [|b bids']; [simpl in HL; lia|]. reflexivity.
    + unfold PB in *. rewrite X1, X3, X4 in *. eapply stay_trans; eassumption.
Qed.

Lemma is_run_ok A SZ (d : nat -> nat -> A) ndisks mdev dev ch base bids nbuf os out al :
  1 <= SZ -> 1 <= length bids -> 1 <= is_nbuf ndisks (length bids) nbuf -> (forall b, In b bids -> dev b <= mdev) -> ispec_ops (elements SZ d bids) os = Some out ->
  ok (is_run A SZ ndisks mdev dev ch base bids nbuf os) (sinit_own A bids d al) (fun r s => r = out /\ sout s = []).
Proof.
  intros SZ1 HL Hm Hd E. unfold is_run. set (D := sdisk (sinit_own A bids d al)). set (s0 := sinit_own A bids d al).
  assert (HD : forall b i, In b bids -> i < SZ -> D b i = Some (d b i)) by (intros b i Hb _; unfold D; simpl; rewrite (proj2 (mem_in _ _) Hb); reflexivity).
  apply ok_bind. eapply ok_imp; [apply (is_new_ok A SZ D d ndisks mdev dev ch base bids nbuf s0 SZ1 HL Hm Hd)|].
  { constructor; unfold s0; simpl; auto. apply own_wf. }
  set (m := is_nbuf _ _ _) in *. intros t s1 (order & T & H1 & F1). apply ok_bind. assert (NM : Nat.min m (length bids) = length bids \/ m <= Nat.min m (length bids)) by lia.
  eapply ok_imp; [apply (is_ops_ok A SZ SZ1 D d bids order (Nat.min m (length bids)) base m T NM HD os t _ s1 out H1 E)|]. intros r s2 (R1 & F2 & (l & H2)).
  apply ok_bind. eapply ok_imp; [apply (is_delete_ok A SZ D d bids order _ base (fst r) l s2 H2)|]. intros _ s3 (W3 & F3 & N3). apply ok_ret. split; [exact R1|].
  pose proof (stay_trans _ _ _ _ _ _ _ (stay_trans _ _ _ _ _ _ _ F1 F2) F3) as F. destruct (sout s3) as [|r0 l0] eqn:Eo; [reflexivity|]. exfalso.
  assert (H0 : In r0 (sout s3)) by (rewrite Eo; left; reflexivity). destruct (f_new _ _ _ _ _ _ F r0 H0) as [[]|(C & _)]. apply (N3 r0); [left; reflexivity|exact C].
Qed.

(** when there is a buffer: nbuffers = 1 leaves none without disks *)
Lemma is_nbuf_pos ndisks n nbuf : 1 <= n -> 1 <= ndisks \/ nbuf <> 1 -> 1 <= is_nbuf ndisks n nbuf.
Proof. intros Hn H. unfold is_nbuf. destruct (Nat.eqb_spec nbuf 0); lia. Qed.
