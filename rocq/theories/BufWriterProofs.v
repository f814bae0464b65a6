From Coq Require Import List Bool Arith Permutation Lia.
From Verif Require Import SumLib AsyncIoModel AsyncIoProofs AsyncIoRules VectorProofs BufIoModel BufIoSpec BufIoRules PrefetchProofs ScheduleProofs.
Import ListNotations.

Definition agrees {A} (f c : nat -> option A) : Prop := forall i v, f i = Some v -> c i = Some v.
Lemma agrees_refl {A} (f : nat -> option A) : agrees f f.
Proof. intros i v H. exact H. Qed.
Lemma agrees_empty {A} (c : nat -> option A) : agrees (empty_block A) c.
Proof. intros i v H. discriminate. Qed.

Section Writer.
Variable A : Type.
Variable order : list (nat * nat) -> list (nat * nat).
Hypothesis order_perm : forall l, Permutation (order l) l.
Variable offset : nat -> nat.
Variable own : list nat.
Notation sstate := (sstate A).
Definition WB (w : bw) (x : nat) : Prop := w_base w <= x < w_base w + w_n w.
Notation wstay w := (stay (WB w) (fun b => In b own) nothing).

(** l: the batch; held: buffers of the user and what is in them; R: blocks handed over since the last flush; K: the blocks on disk *)
Record binv (w : bw) (l : list (nat * nat)) (held : list (nat * block A)) (R : list nat) (K : nat -> block A) (s : sstate) : Prop := mk_binv {
  b_wf : wf s;
  b_own : forall b, In b own -> In b (sown s);
  b_perm : Permutation (map fst held ++ w_free w ++ w_busy w ++ map snd l) (seq (w_base w) (w_n w));
  b_req : forall r, In r (sout s) -> WB w (a_buf r) -> a_write r = true /\ In (a_buf r) (w_busy w) /\ w_req w (a_buf r) = Some (a_id r) /\ In (a_bid r) R;
  b_busy : forall x, In x (w_busy w) -> w_req w x <> None;
  b_id : forall x q, w_req w x = Some q -> q < snext s /\ WB w x /\ forall r, In r (sout s) -> a_id r = q -> a_buf r = x;
  b_nd : NoDup (map (fun e => w_bid w (snd e)) l);
  b_batch : forall e, In e l -> In (w_bid w (snd e)) R /\ In (w_bid w (snd e)) own /\ agrees (K (w_bid w (snd e))) (scont s (snd e)) /\ forall r, In r (sout s) -> a_bid r <> w_bid w (snd e);
  b_disk : forall b, In b own -> (forall e, In e l -> w_bid w (snd e) <> b) -> agrees (K b) (sdisk s b);
  b_held : forall x f, In (x, f) held -> agrees f (scont s x) }.

Lemma b_all w l held R K s x : binv w l held R K s -> In x (map fst held ++ w_free w ++ w_busy w ++ map snd l) -> WB w x.
Proof. intros I H. apply (Permutation_in _ (b_perm _ _ _ _ _ _ I)) in H. apply in_seq in H. unfold WB. lia. Qed.
Lemma b_nodup w l held R K s : binv w l held R K s -> NoDup (map fst held ++ w_free w ++ w_busy w ++ map snd l).
Proof. intros I. apply (Permutation_NoDup (Permutation_sym (b_perm _ _ _ _ _ _ I))). apply seq_NoDup. Qed.
Lemma nodup_split {B} (a b : list B) x : NoDup (a ++ b) -> In x a -> In x b -> False.
Proof. revert x. induction a as [|y a IH]; intros x H Ha Hb; [destruct Ha|]. simpl in H. inversion H; subst. destruct Ha as [->|Ha]; [apply H2, in_app_iff; auto|apply (IH x); auto]. Qed.
(** buffers that are not busy have no request *)
Lemma b_idle w l held R K s x : binv w l held R K s -> In x (map fst held ++ w_free w ++ map snd l) -> forall r, In r (sout s) -> a_buf r <> x.
Proof.
  intros I Hx r Hr C. assert (Wx : WB w x). { apply (b_all _ _ _ _ _ _ _ I). rewrite !in_app_iff in *. tauto. }
  destruct (b_req _ _ _ _ _ _ I r Hr) as (_ & Hb & _); [rewrite C; exact Wx|]. rewrite C in Hb. pose proof (b_nodup _ _ _ _ _ _ I) as ND.
  rewrite !in_app_iff in Hx. destruct Hx as [Hx|[Hx|Hx]].
  - apply (nodup_split _ _ x ND Hx). rewrite !in_app_iff. auto.
  - apply nd_r in ND. apply (nodup_split _ _ x ND Hx). rewrite !in_app_iff. auto.
  - apply nd_r, nd_r in ND. apply (nodup_split _ _ x ND Hb). exact Hx.
Qed.
Lemma binv_wt w l held R K s x q : binv w l held R K s -> w_req w x = Some q -> binv w l held R K (wt s q) /\ wstay w s (wt s q) /\ (forall r, In r (sout (wt s q)) -> a_buf r <> x).
Proof.
  intros I E. destruct (b_id _ _ _ _ _ _ I x q E) as (Q1 & Q2 & Q3). split; [|split].
  - constructor; try apply I.
    + apply wt_wf, I.
    + intros r Hr. apply drop_id_in in Hr. apply (b_req _ _ _ _ _ _ I). apply Hr.
    + intros y q2 E2. destruct (b_id _ _ _ _ _ _ I y q2 E2) as (Z1 & Z2 & Z3). split; [exact Z1|]. split; [exact Z2|]. intros r Hr. apply drop_id_in in Hr. apply Z3, Hr.
    + intros e He. destruct (b_batch _ _ _ _ _ _ I e He) as (Z1 & Z2 & Z3 & Z4). split; [exact Z1|]. split; [exact Z2|]. split; [exact Z3|]. intros r Hr. apply drop_id_in in Hr. apply Z4, Hr.
  - apply wt_stay. intros r Hr Er. rewrite (Q3 r Hr Er). exact Q2.
  - intros r Hr C. apply drop_id_in in Hr. destruct Hr as (Hr & Nr). destruct (b_req _ _ _ _ _ _ I r Hr) as (_ & _ & Eq & _); [rewrite C; exact Q2|]. rewrite C in Eq. congruence.
Qed.
Lemma binv_ans w l held R K s al : binv w l held R K s -> binv w l held R K (ans s al).
Proof. intros I. destruct I. constructor; auto. Qed.
Lemma binv_stay (P' B' C' : nat -> Prop) w l held R K s s' : binv w l held R K s -> wf s' -> stay P' B' C' s s' -> (forall x, WB w x -> ~ P' x) -> (forall b, In b own -> ~ B' b) -> (forall e, In e l -> ~ C' (w_bid w (snd e))) -> binv w l held R K s'.
Proof.
  intros I W F HP HB HC. pose proof (f_new _ _ _ _ _ _ F) as FN. pose proof (f_next _ _ _ _ _ _ F) as FX. constructor; try apply I.
  - exact W.
  - rewrite (f_own _ _ _ _ _ _ F). apply I.
  - intros r Hr Pr. destruct (FN r Hr) as [H|(H1 & _)]; [apply (b_req _ _ _ _ _ _ I r H Pr)|]. exfalso. apply (HP _ Pr H1).
  - intros x q E. destruct (b_id _ _ _ _ _ _ I x q E) as (Z1 & Z2 & Z3). split; [lia|]. split; [exact Z2|]. intros r Hr Er. destruct (FN r Hr) as [H|(H1 & H2 & _)]; [apply Z3; assumption|lia].
  - intros e He. destruct (b_batch _ _ _ _ _ _ I e He) as (Z1 & Z2 & Z3 & Z4). split; [exact Z1|]. split; [exact Z2|]. split.
    + rewrite (f_cont _ _ _ _ _ _ F); [exact Z3|]. apply HP. apply (b_all _ _ _ _ _ _ _ I). rewrite !in_app_iff. right. right. right. apply in_map. exact He.
    + intros r Hr. destruct (FN r Hr) as [H|(H1 & H2 & H3)]; [apply Z4; assumption|]. intro C. rewrite C in H3. destruct (a_write r); [apply (HB _ Z2 H3)|apply (HC _ He H3)].
  - intros b Hb Hn. rewrite (f_disk _ _ _ _ _ _ F) by (apply HB; exact Hb). apply (b_disk _ _ _ _ _ _ I); assumption.
  - intros x f Hx. rewrite (f_cont _ _ _ _ _ _ F); [apply (b_held _ _ _ _ _ _ I); exact Hx|]. apply HP. apply (b_all _ _ _ _ _ _ _ I). rewrite !in_app_iff. left. apply (in_map fst) in Hx. exact Hx.
Qed.
Lemma binv_batch_perm w l l' held R K s : Permutation l l' -> binv w l held R K s -> binv w l' held R K s.
Proof.
  intros P I. constructor; try apply I.
  - rewrite <- P. apply I.
  - apply (Permutation_NoDup (Permutation_map _ P)). apply I.
  - intros e He. apply (b_batch _ _ _ _ _ _ I). apply (Permutation_in _ (Permutation_sym P) He).
  - intros b Hb Hn. apply (b_disk _ _ _ _ _ _ I b Hb). intros e He. apply Hn. apply (Permutation_in _ P He).
Qed.
Lemma binv_held_perm w l held held' R K s : Permutation held held' -> binv w l held R K s -> binv w l held' R K s.
Proof.
  intros P I. constructor; try apply I.
  - rewrite <- P. apply I.
  - intros x f Hx. apply (b_held _ _ _ _ _ _ I). apply (Permutation_in _ (Permutation_sym P) Hx).
Qed.
(** the lists of free and busy blocks may change *)
Lemma binv_lists w l held held' R K s f b : binv w l held R K s -> Permutation (map fst held' ++ f ++ b ++ map snd l) (map fst held ++ w_free w ++ w_busy w ++ map snd l) ->
  (forall x, In x b -> In x (w_busy w)) -> (forall x, In x (w_busy w) -> ~ In x b -> forall r, In r (sout s) -> a_buf r <> x) -> (forall x g, In (x, g) held' -> agrees g (scont s x)) ->
  binv (set_lists w f b) l held' R K s.
Proof.
  intros I P H1 H2 H3. constructor; try apply I.
  - simpl. rewrite P. apply I.
  - intros r Hr Wr. destruct (b_req _ _ _ _ _ _ I r Hr Wr) as (Z1 & Z2 & Z3 & Z4). split; [exact Z1|]. split; [|split; assumption]. simpl. destruct (in_dec Nat.eq_dec (a_buf r) b) as [G|G]; [exact G|]. exfalso. apply (H2 _ Z2 G r Hr). reflexivity.
  - intros x Hx. apply (b_busy _ _ _ _ _ _ I). apply H1. exact Hx.
  - exact H3.
Qed.
Definition same_w (w w' : bw) : Prop := w_n w' = w_n w /\ w_b w' = w_b w /\ w_base w' = w_base w.
Lemma same_refl w : same_w w w.
Proof. unfold same_w. auto. Qed.
Lemma same_trans w1 w2 w3 : same_w w1 w2 -> same_w w2 w3 -> same_w w1 w3.
Proof. unfold same_w. intros (?&?&?) (?&?&?). repeat split; congruence. Qed.
Lemma same_WB w w' : same_w w w' -> WB w' = WB w.
Proof. intros (E1 & E2 & E3). unfold WB. rewrite E1, E3. reflexivity. Qed.

Lemma poll_ok w0 bt held R K : forall l pre w s, w_busy w = pre ++ l -> w_batch w = bt -> same_w w0 w -> binv w bt held R K s ->
  ok (poll_busy A pre l w) s (fun w' s' => binv w' bt held R K s' /\ wstay w0 s s' /\ same_w w0 w' /\ w_batch w' = bt /\ (length (w_free w') + length (w_busy w') = length (w_free w) + length (w_busy w))).
Proof.
  induction l as [|x l IH]; intros pre w s Eb Et Sw I.
  - apply ok_ret. split; [exact I|]. split; [apply stay_refl|]. auto.
  - simpl. destruct (w_req w x) as [q|] eqn:Eq; [|exfalso; apply (b_busy _ _ _ _ _ _ I x); [rewrite Eb; apply in_app_iff; right; left; reflexivity|exact Eq]].
    apply io_poll; intro al.
    + destruct (binv_wt _ _ _ _ _ _ _ _ I Eq) as (I1 & F1 & N1). apply ok_ret. assert (P : Permutation (x :: pre ++ l) (w_busy w)) by (rewrite Eb; apply Permutation_middle). split; [|split; [|split; [|split]]].
      * apply binv_ans. apply (binv_lists w bt held held R K _ _ _ I1).
        -- apply Permutation_app_head. rewrite <- P, <- app_assoc. apply Permutation_app_head. simpl. reflexivity.
        -- intros y Hy. apply (Permutation_in _ P). right. exact Hy.
        -- intros y Hy Ny r Hr. apply (Permutation_in _ (Permutation_sym P)) in Hy. destruct Hy as [<-|Hy]; [apply N1, Hr|contradiction].
        -- apply I1.
      * rewrite <- (same_WB _ _ Sw). eapply stay_trans; [exact F1|apply ans_stay].
      * exact Sw.
      * exact Et.
      * simpl. rewrite app_length. simpl. rewrite <- (Permutation_length P). simpl. lia.
    + eapply ok_imp; [apply (IH (pre ++ [x]) w (ans s al))|].
      * rewrite <- app_assoc. exact Eb.
      * exact Et.
      * exact Sw.
      * apply binv_ans, I.
      * intros w' s' (Z1 & Z2 & Z3). split; [exact Z1|]. split; [eapply stay_trans; [apply ans_stay|exact Z2]|exact Z3].
Qed.
Lemma all_some_ok w (l : list nat) : (forall x, In x l -> w_req w x <> None) -> exists qs, all_some (map (w_req w) l) = Some qs /\ map (w_req w) l = map Some qs.
Proof.
  induction l as [|x l IH]; intros H; [exists []; auto|]. destruct IH as (qs & E1 & E2); [intros y Hy; apply H; right; exact Hy|]. simpl. destruct (w_req w x) as [q|] eqn:E; [|exfalso; apply (H x); [left; reflexivity|exact E]].
  exists (q :: qs). rewrite E1. simpl. rewrite E2. auto.
Qed.
Lemma get_free_ok w held R K s : binv w (w_batch w) held R K s -> length held + length (w_batch w) < w_n w ->
  ok (get_free_block A w) s (fun r s' => binv (fst r) (w_batch w) (held ++ [(snd r, empty_block A)]) R K s' /\ wstay w s s' /\ same_w w (fst r) /\ w_batch (fst r) = w_batch w).
Proof.
  intros I Hn. unfold get_free_block. apply ok_bind. eapply ok_imp; [apply (poll_ok w (w_batch w) held R K (w_busy w) [] w s); auto; apply same_refl|].
  intros w1 s1 (I1 & F1 & S1 & B1 & L1). assert (HN : 0 < length (w_free w1) + length (w_busy w1)).
  { pose proof (Permutation_length (b_perm _ _ _ _ _ _ I1)) as PL. rewrite !app_length, !map_length, seq_length in PL. destruct S1 as (S1 & _). lia. }
  destruct (w_free w1) as [|f0 fl] eqn:Ef.
  - destruct (all_some_ok w1 (w_busy w1) (b_busy _ _ _ _ _ _ I1)) as (qs & Q1 & Q2). rewrite Q1. assert (QL : length qs = length (w_busy w1)) by (apply (f_equal (@length _)) in Q2; rewrite !map_length in Q2; auto).
    apply io_wait_any; [intros ->; simpl in *; lia|]. intros i q al Ei. assert (Ex : exists x, nth_error (w_busy w1) i = Some x /\ w_req w1 x = Some q).
    { assert (E : nth_error (map (w_req w1) (w_busy w1)) i = nth_error (map Some qs) i) by (rewrite Q2; reflexivity). rewrite !nth_error_map, Ei in E. destruct (nth_error (w_busy w1) i) as [x|]; simpl in E; [|discriminate]. injection E as E. eauto. }
    destruct Ex as (x & Ex & Eq). rewrite Ex. apply ok_ret. cbn [fst snd]. destruct (binv_wt _ _ _ _ _ _ _ _ I1 Eq) as (I2 & F2 & N2). pose proof (nth_remove _ _ _ Ex) as P. split; [|split; [|split]].
    + apply binv_ans. apply (binv_lists w1 _ held _ R K _ _ _ I2).
      * rewrite Ef, map_app, <- app_assoc. apply Permutation_app_head. simpl. rewrite P at 2. simpl. reflexivity.
      * intros y Hy. apply (Permutation_in _ (Permutation_sym P)). right. exact Hy.
      * intros y Hy Ny r Hr. apply (Permutation_in _ P) in Hy. destruct Hy as [<-|Hy]; [apply N2, Hr|contradiction].
      * intros y g Hy. apply in_app_iff in Hy. destruct Hy as [Hy|[Hy|[]]]; [apply (b_held _ _ _ _ _ _ I2), Hy|]. injection Hy as <- <-. apply agrees_empty.
    + rewrite <- (same_WB _ _ S1) in *. eapply stay_trans; [exact F1|]. eapply stay_trans; [exact F2|apply ans_stay].
    + exact S1.
    + exact B1.
  - assert (NE : f0 :: fl <> []) by discriminate. rewrite <- Ef in *. clear Ef f0 fl. apply ok_ret. cbn [fst snd]. split; [|split; [exact F1|split; [exact S1|exact B1]]].
    apply (binv_lists w1 _ held _ R K _ _ _ I1).
    + rewrite map_app, <- app_assoc. apply Permutation_app_head. pose proof (app_removelast_last 0 NE) as EE. set (fa := removelast (w_free w1)) in *. set (fb := last (w_free w1) 0) in *. rewrite EE. clearbody fa fb. rewrite <- app_assoc. simpl. apply Permutation_middle.
    + auto.
    + intros; contradiction.
    + intros y g Hy. apply in_app_iff in Hy. destruct Hy as [Hy|[Hy|[]]]; [apply (b_held _ _ _ _ _ _ I1), Hy|]. injection Hy as <- <-. apply agrees_empty.
Qed.

Lemma wait_opt_ok Rt w l held R K s x (k : prog A Rt) Q : binv w l held R K s -> (forall s', binv w l held R K s' -> wstay w s s' -> ok k s' Q) -> ok (wait_opt A (w_req w x) k) s Q.
Proof.
  intros I H. destruct (w_req w x) as [q|] eqn:E; simpl; [|apply H; [exact I|apply stay_refl]]. apply io_wait. destruct (binv_wt _ _ _ _ _ _ _ _ I E) as (I1 & F1 & _). apply H; assumption.
Qed.
Lemma write_batch_ok held R K : forall l w s, binv w l held R K s -> ok (write_batch A l w) s (fun w' s' => binv w' [] held R K s' /\ wstay w s s' /\ same_w w w' /\ w_batch w' = []).
Proof.
  induction l as [|(o & x) l IH]; intros w s I.
  - apply ok_ret. split; [|split; [apply stay_refl|split; [unfold same_w; auto|reflexivity]]]. destruct I; constructor; assumption.
  - simpl. apply (wait_opt_ok _ w _ held R K s x _ _ I). rename s into s00. clear I. intros s I F0. assert (He : In (o, x) ((o, x) :: l)) by (left; reflexivity).
    destruct (b_batch _ _ _ _ _ _ I _ He) as (Z1 & Z2 & Z3 & Z4). cbn [snd] in *.
    assert (Wx : WB w x) by (apply (b_all _ _ _ _ _ _ _ I); rewrite !in_app_iff; simpl; auto 6).
    assert (Nx : forall r, In r (sout s) -> a_buf r <> x) by (apply (b_idle _ _ _ _ _ _ _ I); rewrite !in_app_iff; simpl; auto 6).
    apply io_write; [apply (b_own _ _ _ _ _ _ I _ Z2)|intros r Hr _; apply Nx, Hr|exact Z4|].
    set (w1 := mk_bw _ _ _ _ _ _ _ _). pose proof (b_nd _ _ _ _ _ _ I) as ND. simpl in ND. inversion ND as [|? ? ND1 ND2]; subst.
    assert (Fr : wstay w s (wr s x (w_bid w x))) by (apply wr_stay; assumption).
    assert (NO : ~ In x (map snd l)).
    { pose proof (b_nodup _ _ _ _ _ _ I) as NDA. apply nd_r, nd_r, nd_r in NDA. simpl in NDA. inversion NDA; assumption. }
    assert (I1 : binv w1 l held R K (wr s x (w_bid w x))).
    { constructor; unfold w1; cbn [w_n w_b w_base w_req w_bid w_free w_busy w_batch].
      - apply wr_wf, I.
      - apply I.
      - rewrite <- (b_perm _ _ _ _ _ _ I). do 2 apply Permutation_app_head. rewrite <- app_assoc. simpl. reflexivity.
      - unfold WB. cbn [w_base w_n]. intros r Hr Wr. simpl in Hr. apply in_app_iff in Hr. destruct Hr as [Hr|[<-|[]]].
        + destruct (b_req _ _ _ _ _ _ I r Hr Wr) as (Y1 & Y2 & Y3 & Y4). split; [exact Y1|]. split; [apply in_app_iff; auto|]. split; [|exact Y4]. rewrite upd_other; [exact Y3|]. apply Nx, Hr.
        + simpl. split; [reflexivity|]. split; [apply in_app_iff; simpl; auto|]. rewrite upd_same. auto.
      - intros y Hy. unfold upd. destruct (Nat.eqb_spec y x) as [Ey|Ny]; [discriminate|]. apply (b_busy _ _ _ _ _ _ I). apply in_app_iff in Hy. destruct Hy as [Hy|[Hy|[]]]; [exact Hy|congruence].
      - unfold WB. cbn [w_base w_n]. intros y q E. unfold upd in E. destruct (Nat.eqb_spec y x) as [Ey|Ny].
        + injection E as <-. split; [simpl; lia|]. rewrite Ey. split; [exact Wx|]. simpl. intros r Hr Er. apply in_app_iff in Hr. destruct Hr as [Hr|[<-|[]]]; [apply (proj1 (b_wf _ _ _ _ _ _ I)) in Hr; lia|reflexivity].
        + destruct (b_id _ _ _ _ _ _ I y q E) as (Y1 & Y2 & Y3). split; [simpl; lia|]. split; [exact Y2|]. simpl. intros r Hr Er. apply in_app_iff in Hr. destruct Hr as [Hr|[<-|[]]]; [apply Y3; assumption|simpl in Er; lia].
      - exact ND2.
      - intros e Hel. destruct (b_batch _ _ _ _ _ _ I e (or_intror Hel)) as (Y1 & Y2 & Y3 & Y4). split; [exact Y1|]. split; [exact Y2|]. split; [exact Y3|]. intros r Hr. simpl in Hr. apply in_app_iff in Hr. destruct Hr as [Hr|[<-|[]]]; [apply Y4; assumption|].
        simpl. intro C. apply ND1. rewrite C. apply (in_map (fun e => w_bid w (snd e))). exact Hel.
      - intros b Hb Hn. simpl. unfold upd. destruct (Nat.eqb_spec b (w_bid w x)) as [Eb|Nb]; [rewrite Eb; exact Z3|]. apply (b_disk _ _ _ _ _ _ I b Hb). intros e [<-|Hel]; [simpl; congruence|apply Hn, Hel].
      - apply I. }
    eapply ok_imp; [apply (IH w1 _ I1)|]. intros w' s' (Y1 & Y2 & Y3 & Y4). split; [exact Y1|]. split; [|split; [exact Y3|exact Y4]]. eapply stay_trans; [exact F0|]. eapply stay_trans; [exact Fr|exact Y2].
Qed.
Lemma flush_batch_ok w held R K s : binv w (w_batch w) held R K s -> ok (flush_batch A order w) s (fun w' s' => binv w' [] held R K s' /\ wstay w s s' /\ same_w w w' /\ w_batch w' = []).
Proof. intros I. unfold flush_batch. apply write_batch_ok. apply (binv_batch_perm _ _ _ _ _ _ _ (Permutation_sym (order_perm _)) I). Qed.

Lemma binv_hand w held R K s h x f b : binv w (w_batch w) held R K s -> nth_error held h = Some (x, f) -> In b own -> ~ In b R -> (forall r, In r (sout s) -> ~ WB w (a_buf r) -> a_bid r <> b) ->
  binv (mk_bw (w_n w) (w_b w) (w_base w) (w_req w) (upd (w_bid w) x b) (w_free w) (w_busy w) ((offset b, x) :: w_batch w)) ((offset b, x) :: w_batch w) (remove_at h held) (b :: R) (store K b f) s.
Proof.
  intros I Hh Hb Nb NF. pose proof (nth_remove _ _ _ Hh) as P. pose proof (b_nodup _ _ _ _ _ _ I) as ND. pose proof (nth_error_In _ _ Hh) as Hx.
  assert (Xh : In x (map fst held)) by (apply (in_map fst) in Hx; exact Hx).
  assert (NB : forall e, In e (w_batch w) -> snd e <> x).
  { intros e He C. apply (nodup_split _ _ x ND Xh). rewrite !in_app_iff. right. right. rewrite <- C. apply in_map, He. }
  assert (BI : forall e, In e (w_batch w) -> upd (w_bid w) x b (snd e) = w_bid w (snd e)) by (intros e He; apply upd_other, NB, He).
  assert (BN : forall e, In e (w_batch w) -> w_bid w (snd e) <> b) by (intros e He C; apply Nb; rewrite <- C; apply (b_batch _ _ _ _ _ _ I e He)).
  constructor; cbn [w_n w_b w_base w_req w_bid w_free w_busy w_batch]; try apply I.
  - rewrite <- (b_perm _ _ _ _ _ _ I). rewrite P at 2. simpl. change (x :: map snd (w_batch w)) with ([x] ++ map snd (w_batch w)).
    rewrite (Permutation_middle (map fst (remove_at h held))). apply Permutation_app_head. rewrite (Permutation_middle (w_free w)). apply Permutation_app_head. simpl. symmetry. apply Permutation_middle.
  - intros r Hr Wr. destruct (b_req _ _ _ _ _ _ I r Hr Wr) as (Y1 & Y2 & Y3 & Y4). simpl. auto.
  - simpl. rewrite upd_same. rewrite (map_ext_in _ (fun e => w_bid w (snd e))) by exact BI. constructor; [|apply I]. intro C. apply in_map_iff in C. destruct C as (e & C & He). apply (BN e He C).
  - intros e [<-|He].
    + simpl. rewrite upd_same. split; [auto|]. split; [exact Hb|]. split; [unfold store; rewrite Nat.eqb_refl; apply (b_held _ _ _ _ _ _ I), Hx|]. intros r Hr C. destruct (Nat.le_gt_cases (w_base w) (a_buf r)) as [G1|G1]; [destruct (Nat.lt_ge_cases (a_buf r) (w_base w + w_n w)) as [G2|G2]|]; [apply Nb; rewrite <- C; apply (b_req _ _ _ _ _ _ I r Hr (conj G1 G2))|apply (NF r Hr); [unfold WB; lia|exact C]|apply (NF r Hr); [unfold WB; lia|exact C]].
    + rewrite (BI e He). destruct (b_batch _ _ _ _ _ _ I e He) as (Y1 & Y2 & Y3 & Y4). split; [right; exact Y1|]. split; [exact Y2|]. split; [|exact Y4]. unfold store. destruct (Nat.eqb_spec (w_bid w (snd e)) b) as [C|_]; [destruct (BN e He C)|exact Y3].
  - intros b' Hb' Hn. unfold store. destruct (Nat.eqb_spec b' b) as [E|N].
    + exfalso. apply (Hn (offset b, x)); [left; reflexivity|]. simpl. rewrite upd_same. auto.
    + apply (b_disk _ _ _ _ _ _ I b' Hb'). intros e He. rewrite <- (BI e He). apply Hn. right. exact He.
  - intros y g Hy. apply (b_held _ _ _ _ _ _ I). apply (Permutation_in _ (Permutation_sym P)). right. exact Hy.
Qed.
Definition wcnt (w : bw) : nat := if Nat.leb (w_b w) (length (w_batch w)) then 1 else length (w_batch w) + 1.
Lemma bw_write_ok w held R K s h x f b : binv w (w_batch w) held R K s -> nth_error held h = Some (x, f) -> In b own -> ~ In b R -> (forall r, In r (sout s) -> ~ WB w (a_buf r) -> a_bid r <> b) -> length held + wcnt w <= w_n w ->
  ok (bw_write A order offset x b w) s (fun r s' => binv (fst r) (w_batch (fst r)) (replace_at h (snd r, empty_block A) held) (b :: R) (store K b f) s' /\ wstay w s s' /\ same_w w (fst r) /\ length (w_batch (fst r)) = wcnt w).
Proof.
  intros I Hh Hb Nb NF Hn. unfold bw_write. apply ok_bind. pose proof (nth_remove _ _ _ Hh) as P. pose proof (Permutation_length P) as PL. simpl in PL.
  apply ok_imp with (Q := fun w1 s1 => binv w1 (w_batch w1) held R K s1 /\ wstay w s s1 /\ same_w w w1 /\ length (w_batch w1) + 1 = wcnt w).
  - unfold wcnt. destruct (Nat.leb_spec (w_b w) (length (w_batch w))) as [G|G].
    + eapply ok_imp; [apply (flush_batch_ok w held R K s I)|]. intros w1 s1 (I1 & F1 & S1 & E1). rewrite E1. auto.
    + apply ok_ret. split; [exact I|]. split; [apply stay_refl|]. split; [apply same_refl|reflexivity].
  - intros w1 s1 (I1 & F1 & S1 & E1). assert (NF1 : forall r, In r (sout s1) -> ~ WB w1 (a_buf r) -> a_bid r <> b).
    { intros r Hr Wr. rewrite (same_WB _ _ S1) in Wr. destruct (f_new _ _ _ _ _ _ F1 r Hr) as [Hr'|(C & _)]; [apply (NF r Hr' Wr)|contradiction]. }
    pose proof (binv_hand w1 held R K s1 h x f b I1 Hh Hb Nb NF1) as I2. eapply ok_imp; [eapply get_free_ok; [exact I2|]|].
    + cbn [w_batch w_n length]. destruct S1 as (S1 & _). lia.
    + intros (w2 & y) s2 (I3 & F3 & S3 & E3). cbn [fst snd w_batch] in *. split; [|split; [|split]].
      * rewrite E3. eapply binv_held_perm; [|exact I3]. symmetry. apply (nth_replace _ _ _ _ Hh).
      * rewrite <- (same_WB _ _ S1) in *. eapply stay_trans; [exact F1|exact F3].
      * eapply same_trans; [exact S1|exact S3].
      * rewrite E3. simpl. lia.
Qed.
Lemma wait_busy_ok w held R K s : binv w [] held R K s -> ok (wait_busy A w) s (fun _ s' => binv w [] held R K s' /\ wstay w s s' /\ forall r, In r (sout s') -> ~ WB w (a_buf r)).
Proof.
  intros I. unfold wait_busy. destruct (all_some_ok w (w_busy w) (b_busy _ _ _ _ _ _ I)) as (qs & Q1 & Q2). rewrite Q1. clear Q1.
  assert (H0 : forall r, In r (sout s) -> WB w (a_buf r) -> In (a_buf r) (w_busy w)) by (intros r Hr Wr; apply (b_req _ _ _ _ _ _ I r Hr Wr)).
  revert H0 Q2. generalize (w_busy w) as l. intros l. revert qs s I. induction l as [|x l IH]; intros [|q qs] s I H0 Q2; try discriminate.
  - apply ok_ret. split; [exact I|]. split; [apply stay_refl|]. intros r Hr Wr. destruct (H0 r Hr Wr).
  - simpl in Q2. injection Q2 as Q2 Q3. simpl. apply io_wait. destruct (binv_wt _ _ _ _ _ _ _ _ I Q2) as (I1 & F1 & N1). eapply ok_imp; [apply (IH qs _ I1)|].
    + intros r Hr Wr. pose proof Hr as Hr'. apply drop_id_in in Hr'. destruct (H0 r (proj1 Hr') Wr) as [C|C]; [|exact C]. exfalso. apply (N1 r Hr). auto.
    + exact Q3.
    + intros _ s' (Y1 & Y2 & Y3). split; [exact Y1|]. split; [eapply stay_trans; eassumption|exact Y3].
Qed.
(** after all requests are served: a fresh writer *)
Lemma binv_fresh w K s f : wf s -> (forall b, In b own -> In b (sown s)) -> (forall b, In b own -> agrees (K b) (sdisk s b)) ->
  (forall r, In r (sout s) -> ~ WB w (a_buf r)) -> (forall x q, w_req w x = Some q -> q < snext s /\ WB w x /\ forall r, In r (sout s) -> a_id r = q -> a_buf r = x) ->
  f = seq (w_base w) (w_n w) -> w_free w = f -> w_busy w = [] -> binv w [] [] [] K s.
Proof.
  intros H1 H2 H4 H5 H6 -> H8 H9. constructor; auto.
  - rewrite H8, H9. simpl. rewrite app_nil_r. reflexivity.
  - intros r Hr Wr. destruct (H5 r Hr Wr).
  - rewrite H9. intros x [].
  - constructor.
  - intros e [].
  - intros x g [].
Qed.
Lemma bw_flush_ok w held R K s : binv w (w_batch w) held R K s -> ok (bw_flush A order w) s (fun w' s' => binv w' (w_batch w') [] [] K s' /\ wstay w s s' /\ same_w w w' /\ w_batch w' = [] /\ (forall r, In r (sout s') -> ~ WB w (a_buf r)) /\ (forall b, In b own -> agrees (K b) (sdisk s' b))).
Proof.
  intros I. unfold bw_flush. apply ok_bind. eapply ok_imp; [apply (flush_batch_ok w held R K s I)|]. intros w1 s1 (I1 & F1 & S1 & E1). apply ok_bind.
  eapply ok_imp; [apply (wait_busy_ok w1 held R K s1 I1)|]. intros _ s2 (I2 & F2 & N2). apply ok_ret. pose proof S1 as (S1a & S1b & S1c).
  assert (DK : forall b, In b own -> agrees (K b) (sdisk s2 b)) by (intros b Hb; apply (b_disk _ _ _ _ _ _ I2 b Hb); intros e []).
  split; [|split; [|split; [exact S1|split; [reflexivity|split]]]].
  - eapply binv_fresh; try reflexivity; try (apply I2); auto.
  - rewrite (same_WB _ _ S1) in F2. eapply stay_trans; eassumption.
  - rewrite <- (same_WB _ _ S1). exact N2.
  - exact DK.
Qed.
Lemma bw_delete_ok w held R K s : binv w (w_batch w) held R K s -> ok (bw_delete A order w) s (fun _ s' => wf s' /\ wstay w s s' /\ (forall r, In r (sout s') -> ~ WB w (a_buf r)) /\ (forall b, In b own -> agrees (K b) (sdisk s' b))).
Proof.
  intros I. unfold bw_delete. apply ok_bind. eapply ok_imp; [apply (flush_batch_ok w held R K s I)|]. intros w1 s1 (I1 & F1 & S1 & E1).
  eapply ok_imp; [apply (wait_busy_ok w1 held R K s1 I1)|]. intros _ s2 (I2 & F2 & N2). rewrite (same_WB _ _ S1) in *. split; [apply I2|]. split; [eapply stay_trans; eassumption|]. split; [exact N2|]. intros b Hb. apply (b_disk _ _ _ _ _ _ I2 b Hb). intros e [].
Qed.
Lemma bw_put_ok Rt w l held R K s h x f i v (k : prog A Rt) Q : binv w l held R K s -> nth_error held h = Some (x, f) ->
  (binv w l (replace_at h (x, bput f i v) held) R K (put s x i v) -> wstay w s (put s x i v) -> ok k (put s x i v) Q) -> ok (DoPut x i v k) s Q.
Proof.
  intros I Hh H. pose proof (nth_error_In _ _ Hh) as Hx. pose proof (nth_remove _ _ _ Hh) as P. assert (Xh : In x (map fst held)) by (apply (in_map fst) in Hx; exact Hx).
  assert (Wx : WB w x) by (apply (b_all _ _ _ _ _ _ _ I); rewrite in_app_iff; auto). pose proof (b_nodup _ _ _ _ _ _ I) as ND.
  apply io_put; [apply (b_idle _ _ _ _ _ _ _ I); rewrite in_app_iff; auto|]. apply H; [|apply put_stay; exact Wx].
  apply (binv_held_perm _ _ (remove_at h held ++ [(x, bput f i v)])); [symmetry; apply (nth_replace _ _ _ _ Hh)|]. constructor; try apply I.
  - rewrite <- (b_perm _ _ _ _ _ _ I). apply Permutation_app_tail. rewrite map_app. simpl. rewrite <- Permutation_cons_append. symmetry. apply (Permutation_map fst P).
  - intros e He. destruct (b_batch _ _ _ _ _ _ I e He) as (Y1 & Y2 & Y3 & Y4). split; [exact Y1|]. split; [exact Y2|]. split; [|exact Y4]. unfold put, upd2; simpl. rewrite upd_other; [exact Y3|].
    intro C. apply (nodup_split _ _ x ND Xh). rewrite !in_app_iff. right. right. rewrite <- C. apply in_map, He.
  - intros y g Hy. apply in_app_iff in Hy. unfold put, upd2; simpl. destruct Hy as [Hy|[Hy|[]]].
    + rewrite upd_other; [apply (b_held _ _ _ _ _ _ I), (Permutation_in _ (Permutation_sym P)); right; exact Hy|]. intro C. subst y. apply nd_l in ND. apply (Permutation_NoDup (Permutation_map fst P)) in ND. simpl in ND. inversion ND as [|? ? N1 N2]; subst.
      apply N1. apply (in_map fst) in Hy. exact Hy.
    + injection Hy as <- <-. rewrite upd_same. intros j u. unfold bput, upd. destruct (Nat.eqb j i); [auto|apply (b_held _ _ _ _ _ _ I x f Hx)].
Qed.

(** * A user *)
Lemma bw_ops_ok n bt base os : forall w held R K s st, existsb keeps os = false -> w_n w = n -> w_b w = bt -> w_base w = base -> (forall r, In r (sout s) -> ~ WB w (a_buf r) -> ~ In (a_bid r) own) -> binv w (w_batch w) held R K s ->
  wspec_ops A n bt own os (mk_ws (map snd held) K R (length (w_batch w))) = Some st ->
  ok (bw_ops A order offset os w (map fst held)) s (fun r s' => exists held', snd r = map fst held' /\ ws_held st = map snd held' /\ binv (fst r) (w_batch (fst r)) held' (ws_recent st) (ws_disk st) s' /\ ws_cnt st = length (w_batch (fst r)) /\ wstay w s s' /\ same_w w (fst r)).
Proof.
  induction os as [|o os IH]; intros w held R K s st HK Hn Hb Hbs HF I E.
  - injection E as <-. apply ok_ret. exists held. split; [reflexivity|]. split; [reflexivity|]. split; [exact I|]. split; [reflexivity|]. split; [apply stay_refl|apply same_refl].
  - simpl in HK. apply orb_false_iff in HK. destruct HK as (HK1 & HK2). simpl in E. destruct (wspec_op A n bt own o _) as [st1|] eqn:E1; [|discriminate]. simpl bw_ops. apply ok_bind.
    apply ok_imp with (Q := fun r s' => exists held' R' K', snd r = map fst held' /\ st1 = mk_ws (map snd held') K' R' (length (w_batch (fst r))) /\ binv (fst r) (w_batch (fst r)) held' R' K' s' /\ wstay w s s' /\ same_w w (fst r)).
    2:{ intros (w1 & xs) s1 (held1 & R1 & K1 & -> & -> & I1 & F1 & S1). cbn [fst snd] in *. pose proof S1 as (S1a & S1b & S1c). eapply ok_imp; [apply (IH w1 held1 R1 K1 s1 st HK2); try congruence; try assumption|].
        { intros r Hr Wr. rewrite (same_WB _ _ S1) in Wr. destruct (f_new _ _ _ _ _ _ F1 r Hr) as [Hr'|(C & _)]; [apply (HF r Hr' Wr)|contradiction]. }
        intros r s2 (held2 & Y1 & Y2 & Y3 & Y4 & Y5 & Y6). exists held2. split; [exact Y1|]. split; [exact Y2|]. split; [exact Y3|]. split; [exact Y4|]. split; [|eapply same_trans; eassumption]. rewrite (same_WB _ _ S1) in Y5. eapply stay_trans; eassumption. }
    clear IH E st. destruct o as [|h i v|h b| |]; cbn [wspec_op bw_op ws_held ws_disk ws_recent ws_cnt] in *; try discriminate.
    + rewrite map_length in E1. destruct (Nat.ltb_spec (length held + length (w_batch w)) n) as [G|G]; [|discriminate]. injection E1 as <-. apply ok_bind. eapply ok_imp; [apply (get_free_ok w held R K s I); lia|].
      intros (w1 & x) s1 (I1 & F1 & S1 & B1). cbn [fst snd] in *. apply ok_ret. exists (held ++ [(x, empty_block A)]), R, K. cbn [fst snd]. rewrite !map_app, B1. auto.
    + rewrite nth_error_map in E1. rewrite nth_error_map. destruct (nth_error held h) as [(x & f)|] eqn:Eh; simpl in E1; [|discriminate]. injection E1 as <-. simpl option_map. cbv beta iota. eapply bw_put_ok; [exact I|exact Eh|]. intros I1 F1. apply ok_ret.
      exists (replace_at h (x, bput f i v) held), R, K. cbn [fst snd]. rewrite !map_replace. split; [|split; [reflexivity|split; [exact I1|split; [exact F1|apply same_refl]]]].
      cbn [fst]. symmetry. unfold replace_at. clear -Eh. revert h Eh. induction held as [|p l IHl]; intros h Eh; [destruct h; discriminate|]. destruct h as [|h]; simpl in *; [injection Eh as ->; reflexivity|]. f_equal. apply IHl. exact Eh.
    + rewrite nth_error_map in E1. rewrite nth_error_map. destruct (nth_error held h) as [(x & f)|] eqn:Eh; simpl in E1; [|discriminate]. simpl option_map. cbv beta iota. rewrite map_length in E1.
      assert (WC : (if bt <=? length (w_batch w) then 1 else length (w_batch w) + 1) = wcnt w) by (unfold wcnt; rewrite Hb; reflexivity). rewrite WC in E1.
      destruct (Nat.leb_spec (length held + wcnt w) n) as [G1|G1]; [|discriminate]. destruct (existsb (Nat.eqb b) own) eqn:G2; [|discriminate]. destruct (existsb (Nat.eqb b) R) eqn:G3; [discriminate|]. simpl in E1. injection E1 as <-.
      apply existsb_exists in G2. destruct G2 as (b' & G2 & G2'). apply Nat.eqb_eq in G2'. subst b'. assert (NR : ~ In b R). { intro C. rewrite existsb_false in G3. specialize (G3 b C). rewrite Nat.eqb_refl in G3. discriminate. }
      apply ok_bind. eapply ok_imp; [apply (bw_write_ok w held R K s h x f b I Eh G2 NR); [intros r Hr Wr C; apply (HF r Hr Wr); congruence|lia]|]. intros (w1 & y) s1 (I1 & F1 & S1 & B1). cbn [fst snd] in *. apply ok_ret.
      exists (replace_at h (y, empty_block A) held), (b :: R), (store K b f). cbn [fst snd]. rewrite !map_replace, B1. auto.
    + injection E1 as <-. apply ok_bind. eapply ok_imp; [apply (bw_flush_ok w held R K s I)|]. intros w1 s1 (I1 & F1 & S1 & B1 & _). apply ok_ret. exists [], [], K. cbn [fst snd]. rewrite B1 in *. auto.
Qed.
Lemma bw_new_ok base nbuf batch K s : wf s -> (forall b, In b own -> In b (sown s)) -> (forall b, In b own -> agrees (K b) (sdisk s b)) ->
  (forall r, In r (sout s) -> ~ WB (bw_new base nbuf batch) (a_buf r)) -> binv (bw_new base nbuf batch) [] [] [] K s.
Proof. intros H1 H2 H4 H5. eapply binv_fresh; try reflexivity; auto. discriminate. Qed.
End Writer.

Definition bw_bufs (nbuf : nat) : nat := Nat.max nbuf 2.
Lemma bw_new_n base nbuf batch : w_n (bw_new base nbuf batch) = bw_bufs nbuf /\ w_b (bw_new base nbuf batch) = Nat.max batch 1 /\ w_base (bw_new base nbuf batch) = base.
Proof.
  unfold bw_new, bw_bufs. cbn [w_n w_b w_base]. split; [destruct (Nat.ltb_spec 2 nbuf); lia|]. split; [|reflexivity]. destruct (Nat.eqb_spec batch 0); lia.
Qed.
Lemma bw_run_ok A order offset own (d : nat -> nat -> A) base nbuf batch os st al : (forall l, Permutation (order l) l) -> existsb keeps os = false ->
  wspec_ops A (bw_bufs nbuf) (Nat.max batch 1) own os (wspec0 A d) = Some st ->
  ok (bw_run A order offset base nbuf batch os) (sinit_own A own d al) (fun _ s => sout s = [] /\ sown s = own /\ forall b, In b own -> agrees (ws_disk st b) (sdisk s b)).
Proof.
  intros OP HK E. unfold bw_run. set (s0 := sinit_own A own d al). destruct (bw_new_n base nbuf batch) as (N1 & N2 & N3).
  assert (I0 : binv A own (bw_new base nbuf batch) (w_batch (bw_new base nbuf batch)) [] [] (fun k i => Some (d k i)) s0).
  { apply bw_new_ok; unfold s0; simpl; auto; [apply own_wf|]. intros b Hb i v H. rewrite (proj2 (mem_in _ _) Hb). exact H. }
  apply ok_bind. eapply ok_imp; [apply (bw_ops_ok A order OP offset own (bw_bufs nbuf) (Nat.max batch 1) base os _ [] _ _ s0 st HK N1 N2 N3 (fun r (Hr : In r []) _ => match Hr with end) I0); exact E|].
  intros r s1 (held & Y1 & Y2 & Y3 & Y4 & Y5 & Y6). eapply ok_imp; [apply (bw_delete_ok A order OP offset own _ _ _ _ _ Y3)|]. intros _ s2 (Z1 & Z2 & Z3 & Z4). rewrite (same_WB _ _ Y6) in *. pose proof (stay_trans _ _ _ _ _ _ _ Y5 Z2) as F.
  split; [|split; [apply (f_own _ _ _ _ _ _ F)|exact Z4]]. destruct (sout s2) as [|r0 l0] eqn:Eo; [reflexivity|]. exfalso. assert (H0 : In r0 (sout s2)) by (rewrite Eo; left; reflexivity). destruct (f_new _ _ _ _ _ _ F r0 H0) as [[]|(C & _)]. apply (Z3 r0); [left; reflexivity|exact C].
Qed.
(** at a flush *)
Lemma wspec_app A n b own os os' : forall st, wspec_ops A n b own (os ++ os') st = match wspec_ops A n b own os st with Some st' => wspec_ops A n b own os' st' | None => None end.
Proof. induction os as [|o os IH]; intros st; [reflexivity|]. simpl. destruct (wspec_op A n b own o st); auto. Qed.
Lemma bw_flushed_ok A order offset own (d : nat -> nat -> A) base nbuf batch os st al : (forall l, Permutation (order l) l) -> existsb keeps os = false ->
  wspec_ops A (bw_bufs nbuf) (Nat.max batch 1) own os (wspec0 A d) = Some st ->
  ok (bw_ops A order offset (os ++ [BFlush A]) (bw_new base nbuf batch) []) (sinit_own A own d al) (fun _ s => sout s = [] /\ sown s = own /\ forall b, In b own -> agrees (ws_disk st b) (sdisk s b)).
Proof.
  intros OP HK E. set (s0 := sinit_own A own d al). destruct (bw_new_n base nbuf batch) as (N1 & N2 & N3).
  assert (I0 : binv A own (bw_new base nbuf batch) (w_batch (bw_new base nbuf batch)) [] [] (fun k i => Some (d k i)) s0).
  { apply bw_new_ok; unfold s0; simpl; auto; [apply own_wf|]. intros b Hb i v H. rewrite (proj2 (mem_in _ _) Hb). exact H. }
  assert (E' : wspec_ops A (bw_bufs nbuf) (Nat.max batch 1) own (os ++ [BFlush A]) (wspec0 A d) = Some (mk_ws [] (ws_disk st) [] 0)) by (rewrite wspec_app, E; reflexivity).
  assert (HK' : existsb keeps (os ++ [BFlush A]) = false) by (rewrite existsb_app, HK; reflexivity).
  eapply ok_imp; [apply (bw_ops_ok A order OP offset own (bw_bufs nbuf) (Nat.max batch 1) base _ _ [] _ _ s0 _ HK' N1 N2 N3 (fun r (Hr : In r []) _ => match Hr with end) I0 E')|].
  intros r s1 (held & Y1 & Y2 & Y3 & Y4 & Y5 & Y6). cbn [ws_held ws_disk ws_recent ws_cnt] in *. split; [|split; [apply (f_own _ _ _ _ _ _ Y5)|]].
  - destruct (sout s1) as [|r0 l0] eqn:Eo; [reflexivity|]. exfalso. assert (H0 : In r0 (sout s1)) by (rewrite Eo; left; reflexivity). destruct (f_new _ _ _ _ _ _ Y5 r0 H0) as [[]|(C & _)].
    rewrite <- (same_WB _ _ Y6) in C. destruct (b_req _ _ _ _ _ _ _ _ Y3 r0 H0 C) as (_ & _ & _ & []).
  - intros b Hb. apply (b_disk _ _ _ _ _ _ _ _ Y3 b Hb). intros e He. destruct (w_batch (fst r)); [destruct He|discriminate].
Qed.
