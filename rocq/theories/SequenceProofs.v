From Coq Require Import List Bool Arith Lia.
From Verif Require Import SumLib AsyncIoModel AsyncIoProofs AsyncIoRules SequenceModel SequenceSpec.
Import ListNotations.

Lemma nth_error_app_some {B} (l m : list B) i v : nth_error (l ++ m) i = Some v ->
  (i < length l /\ nth_error l i = Some v) \/ (length l <= i /\ nth_error m (i - length l) = Some v).
Proof.
  intro H. destruct (Nat.lt_ge_cases i (length l)) as [L|L]; [left; rewrite nth_error_app1 in H by exact L; auto|right; rewrite nth_error_app2 in H by exact L; auto].
Qed.
Lemma nth_error_lt {B} (l : list B) i v : nth_error l i = Some v -> i < length l.
Proof. intro H. apply nth_error_Some. congruence. Qed.

Section Sequence.
Variable A : Type.
Variable S : nat.
Hypothesis HS : 1 <= S.
Notation sstate := (sstate A).
Notation ref := (ref A).

(** the elements from (x,i) on are l *)
Definition seg (c : nat -> nat -> option A) (x i : nat) (l : list A) : Prop := forall m v, nth_error l m = Some v -> c x (i + m) = Some v.
Lemma seg_nil c x i : seg c x i [].
Proof. intros [|m] v H; discriminate. Qed.
Lemma seg_app c x i l m : seg c x i (l ++ m) <-> seg c x i l /\ seg c x (i + length l) m.
Proof.
  split.
  - intro H. split; intros k v E.
    + apply H. rewrite nth_error_app1; [exact E|apply nth_error_lt in E; exact E].
    + rewrite <- Nat.add_assoc. apply H. rewrite nth_error_app2 by lia. replace (length l + k - length l) with k by lia. exact E.
  - intros (H1 & H2) k v E. apply nth_error_app_some in E. destruct E as [(L & E)|(L & E)]; [apply H1; exact E|].
    specialize (H2 _ _ E). replace (i + length l + (k - length l)) with (i + k) in H2 by lia. exact H2.
Qed.
Lemma seg_cons c x i v l : seg c x i (v :: l) <-> c x i = Some v /\ seg c x (i + 1) l.
Proof.
  change (v :: l) with ([v] ++ l). rewrite seg_app. simpl. split; intros (H1 & H2); split; auto.
  - specialize (H1 0 v eq_refl). rewrite Nat.add_0_r in H1. exact H1.
  - intros [|m] w E; simpl in E; [injection E as <-; rewrite Nat.add_0_r; exact H1|destruct m; discriminate].
Qed.
Lemma seg_same c c' x i l : seg c x i l -> (forall m, m < length l -> c' x (i + m) = c x (i + m)) -> seg c' x i l.
Proof. intros H E m v F. rewrite E by (eapply nth_error_lt; eassumption). apply H. exact F. Qed.
Lemma seg_move c c' x i y j l : seg c x i l -> (forall m, m < length l -> c' y (j + m) = c x (i + m)) -> seg c' y j l.
Proof. intros H E m v F. rewrite E by (eapply nth_error_lt; eassumption). apply H. exact F. Qed.
Lemma seg_init c x i l m : seg c x i l -> m < length l -> c x (i + m) <> None.
Proof. intros H L. destruct (nth_error l m) as [v|] eqn:E; [rewrite (H m v E); discriminate|]. apply nth_error_None in E. lia. Qed.
Lemma upd2_at {B} (f : nat -> nat -> B) x i v : upd2 f x i v x i = v.
Proof. unfold upd2. rewrite !upd_same. reflexivity. Qed.
Lemma upd2_ne {B} (f : nat -> nat -> B) x i v y j : y <> x \/ j <> i -> upd2 f x i v y j = f y j.
Proof.
  intro H. unfold upd2. destruct (Nat.eq_dec y x) as [->|N]; [|rewrite upd_other by exact N; reflexivity].
  rewrite upd_same. rewrite upd_other; [reflexivity|]. destruct H; congruence.
Qed.
Lemma seg_put c x i v y j l : seg c y j l -> (y <> x \/ i < j \/ j + length l <= i) -> seg (upd2 c x i v) y j l.
Proof. intros H D. apply (seg_same c); [exact H|]. intros m Hm. apply upd2_ne. destruct (Nat.eq_dec y x); [right; lia|left; assumption]. Qed.

Definition with_cont (s : sstate) c := mk_sstate c (sdisk s) (sout s) (sown s) (snext s) (salloc s).

Lemma srun_copy R n : forall x i y j (k : prog A R) s, sout s = [] -> (forall m, m < n -> scont s x (i + m) <> None) -> (x <> y \/ j <= i) ->
  exists c, srun (copy A n x i y j k) s = srun k (with_cont s c) /\ (forall m, m < n -> c y (j + m) = scont s x (i + m)) /\
    (forall z m, z <> y \/ m < j \/ j + n <= m -> c z m = scont s z m).
Proof.
  induction n as [|n IH]; intros x i y j k s Ho Hs D.
  - exists (scont s). split; [destruct s; reflexivity|]. split; [lia|reflexivity].
  - cbn [copy srun]. rewrite Ho. cbn [existsb].
    destruct (scont s x i) as [v|] eqn:V; [|exfalso; apply (Hs 0); [lia|rewrite Nat.add_0_r; exact V]].
    cbn [srun]. rewrite ?Ho. cbn [existsb].
    destruct (IH x (i + 1) y (j + 1) k (with_cont s (upd2 (scont s) y j (Some v)))) as (c & E & H1 & H2); simpl; auto.
    + intros m Hm. rewrite upd2_ne by lia. replace (i + 1 + m) with (i + (m + 1)) by lia. apply Hs. lia.
    + destruct D; [left; assumption|right; lia].
    + exists c. unfold with_cont in E. simpl in E. rewrite ?Ho in E. split; [|split].
      * rewrite E. unfold with_cont. simpl. rewrite ?Ho. reflexivity.
      * intros [|m] Hm.
        -- rewrite !Nat.add_0_r. rewrite H2 by lia. simpl. rewrite upd2_at, V. reflexivity.
        -- replace (j + Datatypes.S m) with (j + 1 + m) by lia. rewrite H1 by lia. simpl. rewrite upd2_ne by lia. f_equal. lia.
      * intros z m Hz. rewrite H2 by lia. simpl. apply upd2_ne. lia.
Qed.
Lemma srun_copy_backward R n : forall x i y j (k : prog A R) s, sout s = [] -> (forall m, m < n -> scont s x (i + m) <> None) -> (x <> y \/ i <= j) ->
  exists c, srun (copy_backward A n x i y j k) s = srun k (with_cont s c) /\ (forall m, m < n -> c y (j + m) = scont s x (i + m)) /\
    (forall z m, z <> y \/ m < j \/ j + n <= m -> c z m = scont s z m).
Proof.
  induction n as [|n IH]; intros x i y j k s Ho Hs D.
  - exists (scont s). split; [destruct s; reflexivity|]. split; [lia|reflexivity].
  - cbn [copy_backward srun]. rewrite Ho. cbn [existsb].
    destruct (scont s x (i + n)) as [v|] eqn:V; [|exfalso; apply (Hs n); [lia|exact V]].
    cbn [srun]. rewrite ?Ho. cbn [existsb].
    destruct (IH x i y j k (with_cont s (upd2 (scont s) y (j + n) (Some v)))) as (c & E & H1 & H2); simpl; auto.
    + intros m Hm. rewrite upd2_ne by lia. apply Hs. lia.
    + exists c. unfold with_cont in E. simpl in E. rewrite ?Ho in E. split; [|split].
      * rewrite E. unfold with_cont. simpl. rewrite ?Ho. reflexivity.
      * intros m Hm. destruct (Nat.eq_dec m n) as [->|N].
        -- rewrite H2 by lia. simpl. rewrite upd2_at, V. reflexivity.
        -- rewrite H1 by lia. simpl. rewrite upd2_ne by lia. reflexivity.
      * intros z m Hz. rewrite H2 by lia. simpl. apply upd2_ne. lia.
Qed.

Definition holds_blk (s : sstate) (b : nat) (l : list A) : Prop := length l = S /\ seg (sdisk s) b 0 l.
Record shape (l : list A) (t : seqst) (s : sstate) : Prop := mk_shape {
  h_fi : q_fi t < S; h_be : q_be t <= S;
  h_one : q_fb t = q_bb t -> q_bids t = [] /\ q_fi t + length l = q_be t /\ seg (scont s) (q_fb t) (q_fi t) l;
  h_two : q_fb t <> q_bb t -> exists lf cs lb, l = lf ++ concat cs ++ lb /\ q_fi t + length lf = S /\ length lb = q_be t /\ 1 <= q_be t /\
     seg (scont s) (q_fb t) (q_fi t) lf /\ seg (scont s) (q_bb t) 0 lb /\ Forall2 (holds_blk s) (q_bids t) cs }.
Record qinv (l : list A) (t : seqst) (s : sstate) : Prop := mk_qinv {
  i_shape : shape l t s;
  i_size : q_size t = length l;
  i_out : sout s = [];
  i_nd : NoDup (q_bids t);
  i_own : incl (q_bids t) (sown s);
  i_new : q_fb t < q_new t /\ q_bb t < q_new t }.

Lemma q_init_inv al : qinv [] q_init (sinit al).
Proof.
  constructor; simpl; auto; try (constructor; fail); try (intros b []).
  constructor; simpl; try lia. intros _. split; [reflexivity|]. split; [reflexivity|apply seg_nil].
Qed.
Lemma blks_same s s' bs cs : Forall2 (holds_blk s) bs cs -> (forall b, In b bs -> sdisk s' b = sdisk s b) -> Forall2 (holds_blk s') bs cs.
Proof.
  induction 1 as [|b c bs cs (H1 & H2) H3 IH]; intro E; constructor.
  - split; [exact H1|]. intros m v F. rewrite E by (left; reflexivity). apply H2. exact F.
  - apply IH. intros x Hx. apply E. right. exact Hx.
Qed.
Lemma blks_len s bs cs : Forall2 (holds_blk s) bs cs -> length (concat cs) = S * length bs.
Proof. induction 1 as [|b c bs cs (H1 & _) H2 IH]; simpl; [lia|]. rewrite app_length, IH, H1. lia. Qed.

(** after a push or pop that only changes one buffer *)
Lemma srun_put R x i v (k : prog A R) s : sout s = [] -> srun (DoPut x i v k) s = srun k (with_cont s (upd2 (scont s) x i (Some v))).
Proof. intro H. simpl. rewrite H. simpl. unfold with_cont. rewrite H. reflexivity. Qed.
Lemma srun_alloc_write R x (k : nat -> prog A R) s : sout s = [] ->
  match srun (DoAlloc 1 (fun l => match l with [b] => DoWrite x b (fun q => DoWait q (k b)) | _ => Err end)) s with
  | Error => exists b d al, ~ In b (sown s) /\ d b = scont s x /\ (forall c, c <> b -> d c = sdisk s c) /\
      srun (k b) (mk_sstate (scont s) d [] (b :: sown s) (snext s + 1) al) = Error
  | Done r s' => exists b d al, ~ In b (sown s) /\ d b = scont s x /\ (forall c, c <> b -> d c = sdisk s c) /\
      srun (k b) (mk_sstate (scont s) d [] (b :: sown s) (snext s + 1) al) = Done r s'
  | Stuck => True
  end.
Proof.
  intro Ho. cbn [srun]. destruct (salloc s) as [|nb al]; [exact Logic.I|]. destruct (good_alloc 1 (sown s) nb) eqn:G; [|exact Logic.I].
  apply good_alloc_spec in G. destruct G as (G1 & G2 & G3). destruct nb as [|b [|]]; try discriminate. specialize (G3 b (or_introl eq_refl)).
  simpl. rewrite Ho, Nat.eqb_refl. simpl. rewrite Nat.eqb_refl. simpl.
  set (d := upd _ b (scont s x)). assert (D : d b = scont s x /\ forall c, c <> b -> d c = sdisk s c).
  { unfold d. split; [apply upd_same|]. intros c Hc. rewrite upd_other by exact Hc. destruct (Nat.eqb_spec b c); [congruence|reflexivity]. }
  replace (snext s + 1) with (Datatypes.S (snext s)) by lia.
  destruct (srun (k b) _) eqn:E; auto; exists b, d, al; intuition.
Qed.
(** the same as a rule *)
Lemma ok_alloc_write R x (k : nat -> prog A R) s (Q : R -> sstate -> Prop) : sout s = [] ->
  (forall b d al, ~ In b (sown s) -> d b = scont s x -> (forall c, c <> b -> d c = sdisk s c) ->
     ok (k b) (mk_sstate (scont s) d [] (b :: sown s) (snext s + 1) al) Q) ->
  ok (DoAlloc 1 (fun l => match l with [b] => DoWrite x b (fun q => DoWait q (k b)) | _ => Err end)) s Q.
Proof.
  intros Ho H. pose proof (srun_alloc_write R x k s Ho) as G. unfold ok. destruct (srun _ s) as [r s'| |]; auto.
  - destruct G as (b & d & al & G1 & G2 & G3 & G4). specialize (H b d al G1 G2 G3). unfold ok in H. rewrite G4 in H. exact H.
  - destruct G as (b & d & al & G1 & G2 & G3 & G4). specialize (H b d al G1 G2 G3). unfold ok in H. rewrite G4 in H. exact H.
Qed.
Lemma ok_put R x i v (k : prog A R) s (Q : R -> sstate -> Prop) : sout s = [] -> ok k (with_cont s (upd2 (scont s) x i (Some v))) Q -> ok (DoPut x i v k) s Q.
Proof. intros H K. unfold ok. rewrite srun_put by exact H. exact K. Qed.

Lemma push_back_ok l v t s : qinv l t s -> ok (q_push_back A S (RVal A v) t) s (fun t' s' => qinv (l ++ [v]) t' s').
Proof.
  intros I. destruct (i_shape _ _ _ I) as [Hfi Hbe H1 H2]. pose proof (i_out _ _ _ I) as Ho. pose proof (i_size _ _ _ I) as Hsz. destruct (i_new _ _ _ I) as (N1 & N2).
  assert (SZ : length (l ++ [v]) = q_size t + 1) by (rewrite app_length, Hsz; reflexivity).
  unfold q_push_back, store, deref. destruct (Nat.eqb_spec (q_be t) S) as [E|E].
  - destruct (Nat.eqb_spec (q_fb t) (q_bb t)) as [Eb|Eb].
    + destruct (H1 Eb) as (Hb & Hl & Hs). apply ok_put; [exact Ho|]. apply ok_ret. constructor; simpl; auto; try lia; try apply I.
      constructor; simpl; try lia. intros _. exists l, [], [v]. split; [reflexivity|]. split; [lia|]. split; [reflexivity|]. split; [lia|]. split; [|split].
      * apply seg_put; [exact Hs|lia].
      * apply seg_cons. split; [apply upd2_at|apply seg_nil].
      * rewrite Hb. constructor.
    + destruct (H2 Eb) as (lf & cs & lb & El & Hf & Hlb & Hb1 & Sf & Sb & F).
      pose proof (blks_len _ _ _ F) as Lc. assert (Ll : length l = length lf + S * length (q_bids t) + length lb) by (rewrite El, !app_length, Lc; lia).
      destruct (Nat.ltb_spec (q_size t) (2 * S)) as [Hlt|Hge].
      * assert (B0 : q_bids t = []) by (destruct (q_bids t); [reflexivity|simpl in Ll; nia]). rewrite B0 in *. simpl in Ll.
        assert (G0 : q_fi t <> 0) by lia. destruct (Nat.eqb_spec (q_fi t) 0); [lia|]. simpl negb. simpl orb. cbv iota.
        inversion F; subst cs. simpl in El. set (gap := q_fi t) in *.
        unfold ok. destruct (srun_copy seqst (S - gap) (q_fb t) gap (q_fb t) 0
           (copy A gap (q_bb t) 0 (q_fb t) (S - gap) (copy A (S - gap) (q_bb t) gap (q_bb t) 0
             (DoPut (q_bb t) (q_be t - gap) v (Ret (mk_q (q_size t + 1) (q_fb t) (gap - gap) (q_bb t) (q_be t - gap + 1) [] (q_new t)))))) s)
          as (c1 & -> & C1 & C1'); auto; [|right; lia|].
        { intros m Hm. apply (seg_init _ _ _ lf); [exact Sf|lia]. }
        destruct (srun_copy seqst gap (q_bb t) 0 (q_fb t) (S - gap) (copy A (S - gap) (q_bb t) gap (q_bb t) 0
             (DoPut (q_bb t) (q_be t - gap) v (Ret (mk_q (q_size t + 1) (q_fb t) (gap - gap) (q_bb t) (q_be t - gap + 1) [] (q_new t))))) (with_cont s c1))
          as (c2 & -> & C2 & C2'); auto.
        { intros m Hm. simpl. rewrite C1' by auto. apply (seg_init _ _ 0 lb); [exact Sb|lia]. }
        change (with_cont (with_cont s c1) c2) with (with_cont s c2).
        destruct (srun_copy seqst (S - gap) (q_bb t) gap (q_bb t) 0
             (DoPut (q_bb t) (q_be t - gap) v (Ret (mk_q (q_size t + 1) (q_fb t) (gap - gap) (q_bb t) (q_be t - gap + 1) [] (q_new t)))) (with_cont s c2))
          as (c3 & -> & C3 & C3'); auto; [|right; lia|].
        { intros m Hm. simpl. rewrite C2' by auto. simpl. rewrite C1' by auto. apply (seg_init _ _ 0 lb (gap + m)); [exact Sb|lia]. }
        simpl in C2, C2', C3, C3'.
        rewrite srun_put by exact Ho. cbn [srun].
        assert (SB : forall i, gap <= i -> i < S -> upd2 c3 (q_bb t) (q_be t - gap) (Some v) (q_bb t) (i - gap) = scont s (q_bb t) i).
        { intros i Hi1 Hi2. rewrite upd2_ne by lia. rewrite C3 by lia. replace (gap + (i - gap)) with i by lia.
          rewrite C2' by auto. apply C1'. auto. }
        constructor; simpl; try (rewrite SZ; lia); try lia; auto.
        -- constructor; simpl; try lia. intros _. exists (lf ++ firstn gap lb), [], (skipn gap lb ++ [v]).
           assert (Lg : length (firstn gap lb) = gap) by (rewrite firstn_length; lia).
           split; [rewrite El; simpl; rewrite <- !app_assoc; f_equal; rewrite app_assoc, firstn_skipn; reflexivity|].
           split; [rewrite app_length, Lg; lia|]. split; [rewrite app_length, skipn_length; simpl; lia|]. split; [lia|]. split; [|split; [|constructor]].
           ++ replace (gap - gap) with 0 by lia. apply seg_app. split.
              ** apply (seg_move (scont s) _ (q_fb t) gap); [exact Sf|]. intros m Hm. rewrite upd2_ne by auto. rewrite C3' by auto. rewrite C2' by lia. simpl in C1. rewrite C1 by lia. reflexivity.
              ** apply (seg_move (scont s) _ (q_bb t) 0); [rewrite <- (firstn_skipn gap lb) in Sb; apply seg_app in Sb; apply Sb|].
                 rewrite Lg. intros m Hm. rewrite upd2_ne by auto. rewrite C3' by auto. simpl. replace (length lf + m) with (S - gap + m) by lia. rewrite C2 by lia. apply C1'. auto.
           ++ apply seg_app. split.
              ** apply (seg_move (scont s) _ (q_bb t) gap).
                 { rewrite <- (firstn_skipn gap lb) in Sb. apply seg_app in Sb. rewrite Lg in Sb. apply Sb. }
                 rewrite skipn_length. intros m Hm. rewrite <- (SB (gap + m)) by lia. f_equal. lia.
              ** apply seg_cons. split; [|apply seg_nil]. rewrite skipn_length. simpl. replace (length lb - gap) with (q_be t - gap) by lia. apply upd2_at.
        -- constructor.
        -- intros b [].
      * assert (NB : forall b, ~ In b (sown s) -> ~ In b (q_bids t)) by (intros b Hb C; apply Hb, (i_own _ _ _ I), C).
        apply (ok_alloc_write seqst (q_bb t) (fun b => DoPut (q_new t) 0 v (Ret (mk_q (q_size t + 1) (q_fb t) (q_fi t) (q_new t) 1 (q_bids t ++ [b]) (q_new t + 1))))); [exact Ho|].
        intros b d al Nb Db Dc. apply ok_put; [reflexivity|]. apply ok_ret. simpl. constructor; simpl; try (rewrite SZ; lia); try lia; auto.
        -- constructor; simpl; try lia. intros _. exists lf, (cs ++ [lb]), [v]. split; [rewrite El, concat_app; simpl; rewrite app_nil_r, <- !app_assoc; reflexivity|].
           split; [exact Hf|]. split; [reflexivity|]. split; [lia|]. split; [|split].
           ++ apply seg_put; [exact Sf|lia].
           ++ apply seg_cons. split; [apply upd2_at|apply seg_nil].
           ++ apply Forall2_app.
              ** apply (blks_same s); [exact F|]. intros x Hx. simpl. apply Dc. intros ->. exact (NB b Nb Hx).
              ** constructor; [|constructor]. split; [lia|]. intros m w Em. simpl. rewrite Db. apply Sb. exact Em.
        -- rewrite <- (rev_involutive (q_bids t ++ [b])). apply NoDup_rev. rewrite rev_app_distr. simpl. constructor.
           ++ rewrite <- in_rev. apply NB. exact Nb.
           ++ apply NoDup_rev. apply I.
        -- intros x Hx. apply in_app_iff in Hx. destruct Hx as [Hx|[->|[]]]; [right; apply (i_own _ _ _ I), Hx|left; reflexivity].
  - apply ok_put; [exact Ho|]. apply ok_ret. constructor; simpl; try (rewrite SZ; lia); try apply I.
    constructor; simpl; try lia.
    + intro Eb. destruct (H1 Eb) as (Hb & Hl & Hs). split; [exact Hb|]. split; [rewrite app_length; simpl; lia|]. apply seg_app. split.
      * apply seg_put; [exact Hs|lia].
      * apply seg_cons. split; [|apply seg_nil]. rewrite Hl, Eb. apply upd2_at.
    + intro Eb. destruct (H2 Eb) as (lf & cs & lb & El & Hf & Hlb & Hb1 & Sf & Sb & F).
      exists lf, cs, (lb ++ [v]). split; [rewrite El, <- !app_assoc; reflexivity|]. split; [exact Hf|]. split; [rewrite app_length; simpl; lia|]. split; [lia|]. split; [|split].
      * apply seg_put; [exact Sf|auto].
      * apply seg_app. split; [apply seg_put; [exact Sb|lia]|]. apply seg_cons. split; [|apply seg_nil]. simpl. rewrite Hlb. apply upd2_at.
      * apply (blks_same s); [exact F|reflexivity].
Qed.

Lemma push_front_ok l v t s : qinv l t s -> ok (q_push_front A S (RVal A v) t) s (fun t' s' => qinv (v :: l) t' s').
Proof.
  intros I. destruct (i_shape _ _ _ I) as [Hfi Hbe H1 H2]. pose proof (i_out _ _ _ I) as Ho. pose proof (i_size _ _ _ I) as Hsz. destruct (i_new _ _ _ I) as (N1 & N2).
  assert (SZ : length (v :: l) = q_size t + 1) by (simpl; lia).
  unfold q_push_front, store, deref. destruct (Nat.eqb_spec (q_fi t) 0) as [E|E].
  - destruct (Nat.eqb_spec (q_size t) 0) as [E0|E0].
    + assert (l = []) as -> by (destruct l; [reflexivity|simpl in Hsz; lia]).
      assert (Eb : q_fb t = q_bb t).
      { destruct (Nat.eq_dec (q_fb t) (q_bb t)) as [D|D]; [exact D|]. destruct (H2 D) as (lf & cs & lb & El & Hf & Hlb & Hb1 & _). exfalso.
        apply (f_equal (@length A)) in El. rewrite !app_length in El. simpl in El. lia. }
      destruct (H1 Eb) as (Hb & Hl & Hs). rewrite Eb, Nat.eqb_refl. simpl negb. cbv iota. apply ok_put; [exact Ho|]. apply ok_ret.
      constructor; simpl; try lia; try apply I. constructor; simpl; try lia.
      intros _. split; [exact Hb|]. split; [lia|]. apply seg_cons. split; [apply upd2_at|apply seg_nil].
    + destruct (Nat.eqb_spec (q_fb t) (q_bb t)) as [Eb|Eb].
      * destruct (H1 Eb) as (Hb & Hl & Hs). apply ok_put; [exact Ho|]. apply ok_ret. constructor; simpl; try lia; try apply I.
        constructor; simpl; try lia. intros _. exists [v], [], l. split; [reflexivity|]. split; [simpl; lia|]. split; [lia|]. split; [lia|]. split; [|split].
        -- apply seg_cons. split; [apply upd2_at|apply seg_nil].
        -- apply seg_put; [|lia]. rewrite <- Eb, <- E. exact Hs.
        -- rewrite Hb. constructor.
      * destruct (H2 Eb) as (lf & cs & lb & El & Hf & Hlb & Hb1 & Sf & Sb & F).
        pose proof (blks_len _ _ _ F) as Lc. assert (Ll : length l = length lf + S * length (q_bids t) + length lb) by (rewrite El, !app_length, Lc; lia).
        rewrite E in Sf, Hf. simpl in Hf.
        destruct (Nat.ltb_spec (q_size t) (2 * S)) as [Hlt|Hge].
        -- assert (B0 : q_bids t = []) by (destruct (q_bids t); [reflexivity|simpl in Ll; nia]). rewrite B0 in *. simpl in Ll.
           destruct (Nat.eqb_spec (S - q_be t) 0); [lia|]. simpl negb. simpl orb. cbv iota.
           inversion F; subst cs. simpl in El. rewrite E. simpl Nat.add. remember (S - q_be t) as gap eqn:Eg.
           unfold ok.
           set (k3 := DoPut (q_fb t) (gap - 1) v (Ret (mk_q (q_size t + 1) (q_fb t) (gap - 1) (q_bb t) (q_be t + gap) [] (q_new t)))).
           set (k2 := copy_backward A (S - gap) (q_fb t) 0 (q_fb t) gap k3).
           destruct (srun_copy_backward seqst (q_be t) (q_bb t) 0 (q_bb t) gap (copy_backward A gap (q_fb t) (S - gap) (q_bb t) 0 k2) s)
             as (c1 & -> & C1 & C1'); auto; [|right; lia|].
           { intros m Hm. apply (seg_init _ _ 0 lb); [exact Sb|lia]. }
           destruct (srun_copy_backward seqst gap (q_fb t) (S - gap) (q_bb t) 0 k2 (with_cont s c1))
             as (c2 & -> & C2 & C2'); auto.
           { intros m Hm. simpl. rewrite C1' by auto. apply (seg_init _ _ 0 lf (S - gap + m)); [exact Sf|lia]. }
           change (with_cont (with_cont s c1) c2) with (with_cont s c2).
           unfold k2. destruct (srun_copy_backward seqst (S - gap) (q_fb t) 0 (q_fb t) gap k3 (with_cont s c2))
             as (c3 & -> & C3 & C3'); auto; [|right; lia|].
           { intros m Hm. simpl. rewrite C2' by auto. simpl. rewrite C1' by auto. apply (seg_init _ _ 0 lf m); [exact Sf|lia]. }
           simpl in C2, C2', C3, C3'. unfold k3. rewrite srun_put by exact Ho. cbn [srun].
           assert (Lf : length (firstn (S - gap) lf) = S - gap) by (rewrite firstn_length; lia).
           pose proof Sf as Sf'. rewrite <- (firstn_skipn (S - gap) lf) in Sf'. apply seg_app in Sf'. rewrite Lf in Sf'. destruct Sf' as (Sf1 & Sf2). simpl in Sf2.
           assert (Lk : length (skipn (S - gap) lf) = gap) by (rewrite skipn_length; lia).
           constructor; simpl; try lia; auto.
           ++ constructor; simpl; try lia. intros _. exists (v :: firstn (S - gap) lf), [], (skipn (S - gap) lf ++ lb).
              split; [rewrite El; simpl; rewrite app_assoc, firstn_skipn; reflexivity|]. split; [simpl; lia|].
              split; [rewrite app_length; lia|]. split; [lia|]. split; [|split; [|constructor]].
              ** apply seg_cons. split; [apply upd2_at|]. apply (seg_move (scont s) _ (q_fb t) 0); [exact Sf1|]. rewrite Lf. intros m Hm. rewrite upd2_ne by lia.
                 replace (gap - 1 + 1 + m) with (gap + m) by lia. rewrite C3 by lia. rewrite C2' by auto. simpl. apply C1'. auto.
              ** apply seg_app. rewrite Lk. split.
                 --- apply (seg_move (scont s) _ (q_fb t) (S - gap)); [exact Sf2|]. rewrite Lk. intros m Hm. rewrite upd2_ne by auto. rewrite C3' by auto. simpl. rewrite C2 by lia. apply C1'. auto.
                 --- apply (seg_move (scont s) _ (q_bb t) 0); [exact Sb|]. intros m Hm. rewrite upd2_ne by auto. rewrite C3' by auto. simpl. rewrite C2' by lia. rewrite C1 by lia. reflexivity.
           ++ constructor.
           ++ intros b [].
        -- assert (NB : forall b, ~ In b (sown s) -> ~ In b (q_bids t)) by (intros b Hb C; apply Hb, (i_own _ _ _ I), C).
           apply (ok_alloc_write seqst (q_fb t) (fun b => DoPut (q_new t) (S - 1) v (Ret (mk_q (q_size t + 1) (q_new t) (S - 1) (q_bb t) (q_be t) (b :: q_bids t) (q_new t + 1))))); [exact Ho|].
           intros b d al Nb Db Dc. apply ok_put; [reflexivity|]. apply ok_ret. simpl. constructor; simpl; try lia; auto.
           ++ constructor; simpl; try lia. intros _. exists [v], (lf :: cs), lb. split; [rewrite El; simpl; rewrite <- !app_assoc; reflexivity|].
              split; [simpl; lia|]. split; [exact Hlb|]. split; [lia|]. split; [|split].
              ** apply seg_cons. split; [apply upd2_at|apply seg_nil].
              ** apply seg_put; [exact Sb|lia].
              ** constructor.
                 --- split; [lia|]. intros m w Em. simpl. rewrite Db. apply Sf. exact Em.
                 --- apply (blks_same s); [exact F|]. intros x Hx. simpl. apply Dc. intros ->. exact (NB b Nb Hx).
           ++ constructor; [apply NB; exact Nb|apply I].
           ++ intros x [->|Hx]; [left; reflexivity|right; apply (i_own _ _ _ I), Hx].
  - apply ok_put; [exact Ho|]. apply ok_ret. constructor; simpl; try lia; try apply I.
    constructor; simpl; try lia.
    + intro Eb. destruct (H1 Eb) as (Hb & Hl & Hs). split; [exact Hb|]. split; [lia|]. apply seg_cons. split; [apply upd2_at|].
      replace (q_fi t - 1 + 1) with (q_fi t) by lia. apply seg_put; [exact Hs|lia].
    + intro Eb. destruct (H2 Eb) as (lf & cs & lb & El & Hf & Hlb & Hb1 & Sf & Sb & F).
      exists (v :: lf), cs, lb. split; [rewrite El; reflexivity|]. split; [simpl; lia|]. split; [exact Hlb|]. split; [exact Hb1|]. split; [|split].
      * apply seg_cons. split; [apply upd2_at|]. replace (q_fi t - 1 + 1) with (q_fi t) by lia. apply seg_put; [exact Sf|lia].
      * apply seg_put; [exact Sb|auto].
      * apply (blks_same s); [exact F|reflexivity].
Qed.

Lemma ok_read_free R x b (k : prog A R) s (Q : R -> sstate -> Prop) : sout s = [] -> In b (sown s) ->
  ok k (mk_sstate (upd (scont s) x (sdisk s b)) (sdisk s) [] (without [b] (sown s)) (snext s + 1) (salloc s)) Q ->
  ok (DoRead x b (fun q => DoWait q (DoFree [b] k))) s Q.
Proof.
  intros Ho Hb K. unfold ok in *. simpl. rewrite (proj2 (mem_in _ _) Hb), Ho. simpl. rewrite Nat.eqb_refl. simpl.
  replace (Datatypes.S (snext s)) with (snext s + 1) by lia. exact K.
Qed.
Lemma ok_read R x b (k : prog A R) s (Q : R -> sstate -> Prop) : sout s = [] -> In b (sown s) ->
  ok k (mk_sstate (upd (scont s) x (sdisk s b)) (sdisk s) [] (sown s) (snext s + 1) (salloc s)) Q ->
  ok (DoRead x b (fun q => DoWait q k)) s Q.
Proof.
  intros Ho Hb K. unfold ok in *. simpl. rewrite (proj2 (mem_in _ _) Hb), Ho. simpl. rewrite Nat.eqb_refl. simpl.
  replace (Datatypes.S (snext s)) with (snext s + 1) by lia. exact K.
Qed.
Lemma seg_upd c x d y i l : seg c y i l -> y <> x -> seg (upd c x d) y i l.
Proof. intros H N. apply (seg_same c); [exact H|]. intros m _. rewrite upd_other by exact N. reflexivity. Qed.
Lemma seg_load c d x b l : seg d b 0 l -> seg (upd c x (d b)) x 0 l.
Proof. intros H m v E. rewrite upd_same. apply H. exact E. Qed.

Lemma pop_front_ok l v t s : qinv (v :: l) t s -> ok (q_pop_front A S t) s (fun t' s' => qinv l t' s').
Proof.
  intros I. destruct (i_shape _ _ _ I) as [Hfi Hbe H1 H2]. pose proof (i_out _ _ _ I) as Ho. pose proof (i_size _ _ _ I) as Hsz. destruct (i_new _ _ _ I) as (N1 & N2).
  simpl in Hsz. unfold q_pop_front. destruct (Nat.eqb_spec (q_size t) 0); [lia|]. destruct (Nat.eqb_spec (q_fi t) (S - 1)) as [E|E].
  - destruct (Nat.eqb_spec (q_bb t) (q_fb t)) as [Eb|Eb].
    + symmetry in Eb. destruct (H1 Eb) as (Hb & Hl & Hs). simpl in Hl. assert (l = []) as -> by (destruct l; [reflexivity|simpl in Hl; lia]).
      simpl in Hsz, Hl. destruct (Nat.eqb_spec (q_size t) 1); [|lia]. destruct (Nat.eqb_spec (q_be t) (q_fi t + 1)); [|lia]. rewrite Hb. simpl.
      constructor; simpl; auto; try lia; [|constructor|intros b []]. constructor; simpl; try lia. intros _. split; [reflexivity|]. split; [reflexivity|apply seg_nil].
    + destruct (H2 ltac:(auto)) as (lf & cs & lb & El & Hf & Hlb & Hb1 & Sf & Sb & F).
      destruct lf as [|v' lf]; [simpl in Hf; lia|]. assert (lf = []) as -> by (destruct lf; [reflexivity|simpl in Hf; lia]). simpl in El. injection El as <- El.
      pose proof (blks_len _ _ _ F) as Lc. assert (Ll : length l = S * length (q_bids t) + length lb) by (rewrite El, !app_length, Lc; lia).
      destruct (Nat.leb_spec (q_size t - 1) S) as [Hle|Hgt].
      * assert (B0 : q_bids t = []) by (destruct (q_bids t); [reflexivity|simpl in Ll; nia]). rewrite B0 in *. simpl. inversion F; subst cs. simpl in El. subst lb.
        constructor; simpl; auto; try lia; [|constructor|intros b []]. constructor; simpl; try lia. intros _. split; [reflexivity|]. split; [lia|exact Sb].
      * destruct (q_bids t) as [|b bids] eqn:EB; [simpl in Ll; lia|]. inversion F as [|x c bs' cs' Fb F']; subst. simpl.
        pose proof (i_nd _ _ _ I) as ND. rewrite EB in ND. inversion ND as [|x bs' ND1 ND2]; subst. pose proof (i_own _ _ _ I) as OW. rewrite EB in OW.
        apply ok_read_free; [exact Ho|apply OW; left; reflexivity|]. apply ok_ret. destruct Fb as (Lb & Sblk).
        constructor; simpl; auto; try lia.
        -- constructor; simpl; try lia. intros _. exists c, cs', lb. split; [rewrite <- app_assoc; reflexivity|]. split; [lia|]. split; [exact Hlb|]. split; [exact Hb1|]. split; [|split].
           ++ apply seg_load. exact Sblk.
           ++ apply seg_upd; auto.
           ++ apply (blks_same s); [exact F'|reflexivity].
        -- rewrite Hsz. simpl. lia.
        -- intros x Hx. apply without_in. split; [apply OW; right; exact Hx|]. intros [->|[]]. contradiction.
  - apply ok_ret. constructor; simpl; try lia; try apply I. constructor; simpl; try lia.
    + intro Eb. destruct (H1 Eb) as (Hb & Hl & Hs). simpl in Hl. apply seg_cons in Hs. split; [exact Hb|]. split; [lia|]. apply Hs.
    + intro Eb. destruct (H2 Eb) as (lf & cs & lb & El & Hf & Hlb & Hb1 & Sf & Sb & F).
      destruct lf as [|v' lf]; [simpl in Hf; lia|]. simpl in El. injection El as <- El. apply seg_cons in Sf. simpl in Hf.
      exists lf, cs, lb. split; [exact El|]. split; [lia|]. split; [exact Hlb|]. split; [exact Hb1|]. split; [apply Sf|]. split; [exact Sb|exact F].
Qed.
Lemma forall2_snoc {B C} (R : B -> C -> Prop) l x m : Forall2 R (l ++ [x]) m -> exists m' y, m = m' ++ [y] /\ Forall2 R l m' /\ R x y.
Proof.
  intro H. apply Forall2_app_inv_l in H. destruct H as (m1 & m2 & H1 & H2 & ->). inversion H2; subst. inversion H5; subst. eauto.
Qed.
Lemma snoc_case {B} (l : list B) : l = [] \/ exists m x, l = m ++ [x].
Proof. destruct l as [|y l]; [auto|]. right. destruct (exists_last (l := y :: l)) as (m & x & E); [discriminate|]. rewrite E. eauto. Qed.

Lemma pop_back_ok l v t s : qinv (l ++ [v]) t s -> ok (q_pop_back A S t) s (fun t' s' => qinv l t' s').
Proof.
  intros I. destruct (i_shape _ _ _ I) as [Hfi Hbe H1 H2]. pose proof (i_out _ _ _ I) as Ho. pose proof (i_size _ _ _ I) as Hsz. destruct (i_new _ _ _ I) as (N1 & N2).
  rewrite app_length in Hsz. simpl in Hsz. unfold q_pop_back. destruct (Nat.eqb_spec (q_size t) 0); [lia|]. destruct (Nat.eqb_spec (q_be t) 1) as [E|E].
  - destruct (Nat.eqb_spec (q_bb t) (q_fb t)) as [Eb|Eb].
    + symmetry in Eb. destruct (H1 Eb) as (Hb & Hl & Hs). rewrite app_length in Hl. simpl in Hl. assert (l = []) as -> by (destruct l; [reflexivity|simpl in Hl; lia]).
      simpl in Hsz, Hl. destruct (Nat.eqb_spec (q_size t) 1); [|lia]. destruct (Nat.eqb_spec (q_be t) (q_fi t + 1)); [|lia]. rewrite Hb. simpl.
      constructor; simpl; auto; try lia; [|constructor|intros b []]. constructor; simpl; try lia. intros _. split; [reflexivity|]. split; [reflexivity|apply seg_nil].
    + destruct (H2 ltac:(auto)) as (lf & cs & lb & El & Hf & Hlb & Hb1 & Sf & Sb & F).
      destruct lb as [|v' lb]; [simpl in Hlb; lia|]. assert (lb = []) as -> by (destruct lb; [reflexivity|simpl in Hlb; lia]).
      rewrite app_assoc in El. apply app_inj_tail in El. destruct El as (El & <-).
      pose proof (blks_len _ _ _ F) as Lc. assert (Ll : length l = S * length (q_bids t) + length lf) by (rewrite El, !app_length, Lc; lia).
      destruct (Nat.leb_spec (q_size t - 1) S) as [Hle|Hgt].
      * assert (B0 : q_bids t = []) by (destruct (q_bids t); [reflexivity|simpl in Ll; nia]). rewrite B0 in *. simpl. inversion F; subst cs. simpl in El. rewrite app_nil_r in El. subst lf.
        constructor; simpl; auto; try lia; [|constructor|intros b []]. constructor; simpl; try lia. intros _. split; [reflexivity|]. split; [lia|exact Sf].
      * destruct (rev (q_bids t)) as [|b r] eqn:Er.
        { exfalso. assert (q_bids t = []) as B0 by (rewrite <- (rev_involutive (q_bids t)), Er; reflexivity). rewrite B0 in Ll. simpl in Ll. lia. }
        assert (EB : q_bids t = rev r ++ [b]) by (rewrite <- (rev_involutive (q_bids t)), Er; reflexivity).
        rewrite EB in F. apply forall2_snoc in F. destruct F as (cs' & c & -> & F' & Fb).
        pose proof (i_nd _ _ _ I) as ND. rewrite EB in ND. apply NoDup_remove in ND. rewrite app_nil_r in ND. destruct ND as (ND2 & ND1). pose proof (i_own _ _ _ I) as OW. rewrite EB in OW.
        apply ok_read_free; [exact Ho|apply OW, in_app_iff; right; left; reflexivity|]. apply ok_ret. destruct Fb as (Lb & Sblk).
        constructor; simpl; auto; try lia.
        -- constructor; simpl; try lia. intros _. exists lf, cs', c. split; [rewrite El, concat_app; simpl; rewrite app_nil_r; reflexivity|]. split; [lia|]. split; [exact Lb|]. split; [lia|]. split; [|split].
           ++ apply seg_upd; auto.
           ++ apply seg_load. exact Sblk.
           ++ apply (blks_same s); [exact F'|reflexivity].
        -- intros x Hx. apply without_in. split; [apply OW, in_app_iff; left; exact Hx|]. intros [->|[]]. contradiction.
  - apply ok_ret. assert (B : 1 <= q_be t).
    { destruct (Nat.eq_dec (q_fb t) (q_bb t)) as [Eb|Eb]; [destruct (H1 Eb) as (_ & Hl & _); rewrite app_length in Hl; simpl in Hl; lia|].
      destruct (H2 Eb) as (lf & cs & lb & El & Hf & Hlb & Hb1 & _). exact Hb1. }
    constructor; simpl; try lia; try apply I. constructor; simpl; try lia.
    + intro Eb. destruct (H1 Eb) as (Hb & Hl & Hs). rewrite app_length in Hl. simpl in Hl. apply seg_app in Hs. split; [exact Hb|]. split; [lia|]. apply Hs.
    + intro Eb. destruct (H2 Eb) as (lf & cs & lb & El & Hf & Hlb & Hb1 & Sf & Sb & F).
      destruct (snoc_case lb) as [->|(lb' & v' & ->)]; [simpl in Hlb; lia|]. rewrite !app_assoc in El. apply app_inj_tail in El. destruct El as (El & <-). apply seg_app in Sb. rewrite app_length in Hlb. simpl in Hlb.
      exists lf, cs, lb'. split; [rewrite El, app_assoc; reflexivity|]. split; [lia|]. split; [lia|]. split; [lia|]. split; [exact Sf|]. split; [apply Sb|exact F].
Qed.

Lemma front_cell v l t s : qinv (v :: l) t s -> scont s (q_fb t) (q_fi t) = Some v.
Proof.
  intros I. destruct (i_shape _ _ _ I) as [Hfi Hbe H1 H2]. destruct (Nat.eq_dec (q_fb t) (q_bb t)) as [Eb|Eb].
  - destruct (H1 Eb) as (_ & _ & Hs). apply seg_cons in Hs. apply Hs.
  - destruct (H2 Eb) as (lf & cs & lb & El & Hf & _ & _ & Sf & _). destruct lf as [|v' lf]; [simpl in Hf; lia|]. injection El as <- _. apply seg_cons in Sf. apply Sf.
Qed.
Lemma back_cell v l t s : qinv (l ++ [v]) t s -> 1 <= q_be t /\ scont s (q_bb t) (q_be t - 1) = Some v.
Proof.
  intros I. destruct (i_shape _ _ _ I) as [Hfi Hbe H1 H2]. destruct (Nat.eq_dec (q_fb t) (q_bb t)) as [Eb|Eb].
  - destruct (H1 Eb) as (_ & Hl & Hs). rewrite app_length in Hl. simpl in Hl. apply seg_app in Hs. destruct Hs as (_ & Hs). apply seg_cons in Hs. split; [lia|]. rewrite <- Eb.
    replace (q_be t - 1) with (q_fi t + length l) by lia. apply Hs.
  - destruct (H2 Eb) as (lf & cs & lb & El & Hf & Hlb & Hb1 & Sf & Sb & _). split; [exact Hb1|].
    destruct (snoc_case lb) as [->|(lb' & v' & ->)]; [simpl in Hlb; lia|]. rewrite !app_assoc in El. apply app_inj_tail in El. destruct El as (_ & <-).
    apply seg_app in Sb. destruct Sb as (_ & Sb). apply seg_cons in Sb. rewrite app_length in Hlb. simpl in Hlb. replace (q_be t - 1) with (0 + length lb') by lia. apply Sb.
Qed.
Lemma q_front_ok v l t s : qinv (v :: l) t s -> srun (q_front A t) s = Done v s.
Proof.
  intro I. unfold q_front. rewrite (i_size _ _ _ I). simpl. rewrite (i_out _ _ _ I). simpl. rewrite (front_cell _ _ _ _ I). reflexivity.
Qed.
Lemma q_back_ok v l t s : qinv (l ++ [v]) t s -> srun (q_back A t) s = Done v s.
Proof.
  intro I. unfold q_back. rewrite (i_size _ _ _ I), app_length. simpl. destruct (Nat.eqb_spec (length l + 1) 0); [lia|]. simpl. rewrite (i_out _ _ _ I). simpl.
  rewrite (proj2 (back_cell _ _ _ _ I)). reflexivity.
Qed.
Lemma set_front_ok v w l t s : qinv (v :: l) t s -> ok (q_set_front A w t) s (fun _ s' => qinv (w :: l) t s').
Proof.
  intro I. unfold q_set_front. rewrite (i_size _ _ _ I). simpl Nat.eqb. cbv iota. apply ok_put; [apply I|]. apply ok_ret.
  destruct (i_shape _ _ _ I) as [Hfi Hbe H1 H2]. constructor; try apply I. constructor; auto.
  - intro Eb. destruct (H1 Eb) as (Hb & Hl & Hs). apply seg_cons in Hs. split; [exact Hb|]. split; [exact Hl|]. simpl. apply seg_cons. split; [apply upd2_at|]. apply seg_put; [apply Hs|lia].
  - intro Eb. destruct (H2 Eb) as (lf & cs & lb & El & Hf & Hlb & Hb1 & Sf & Sb & F). destruct lf as [|v' lf]; [simpl in Hf; lia|]. injection El as <- El. apply seg_cons in Sf.
    exists (w :: lf), cs, lb. split; [rewrite El; reflexivity|]. split; [exact Hf|]. split; [exact Hlb|]. split; [exact Hb1|]. simpl. split; [|split].
    + apply seg_cons. split; [apply upd2_at|]. apply seg_put; [apply Sf|lia].
    + apply seg_put; [exact Sb|auto].
    + apply (blks_same s); [exact F|reflexivity].
Qed.
Lemma set_back_ok v w l t s : qinv (l ++ [v]) t s -> ok (q_set_back A w t) s (fun _ s' => qinv (l ++ [w]) t s').
Proof.
  intro I. unfold q_set_back. rewrite (i_size _ _ _ I), app_length. simpl length. destruct (Nat.eqb_spec (length l + 1) 0); [lia|]. apply ok_put; [apply I|]. apply ok_ret.
  destruct (i_shape _ _ _ I) as [Hfi Hbe H1 H2]. destruct (back_cell _ _ _ _ I) as (B & _). constructor; try apply I; [|rewrite (i_size _ _ _ I), !app_length; reflexivity]. constructor; auto.
  - intro Eb. destruct (H1 Eb) as (Hb & Hl & Hs). apply seg_app in Hs. rewrite app_length in Hl. simpl in Hl. split; [exact Hb|]. split; [rewrite app_length; exact Hl|]. simpl. apply seg_app. split.
    + apply seg_put; [apply Hs|lia].
    + apply seg_cons. split; [|apply seg_nil]. rewrite Eb. replace (q_fi t + length l) with (q_be t - 1) by lia. apply upd2_at.
  - intro Eb. destruct (H2 Eb) as (lf & cs & lb & El & Hf & Hlb & Hb1 & Sf & Sb & F).
    destruct (snoc_case lb) as [->|(lb' & v' & ->)]; [simpl in Hlb; lia|]. rewrite !app_assoc in El. apply app_inj_tail in El. destruct El as (El & <-). apply seg_app in Sb. rewrite app_length in Hlb. simpl in Hlb.
    exists lf, cs, (lb' ++ [w]). split; [rewrite El, <- !app_assoc; reflexivity|]. split; [exact Hf|]. split; [rewrite app_length; exact Hlb|]. split; [exact Hb1|]. simpl. split; [|split].
    + apply seg_put; [exact Sf|auto].
    + apply seg_app. split; [apply seg_put; [apply Sb|lia]|]. apply seg_cons. split; [|apply seg_nil]. replace (0 + length lb') with (q_be t - 1) by lia. apply upd2_at.
    + apply (blks_same s); [exact F|reflexivity].
Qed.
(** * streams *)
Lemma qinv_scratch l t s s' : qinv l t s -> sout s' = [] -> sdisk s' = sdisk s -> sown s' = sown s -> (forall x, x <> q_new t -> scont s' x = scont s x) -> qinv l t s'.
Proof.
  intros I Ho Ed Ew Ec. destruct (i_shape _ _ _ I) as [Hfi Hbe H1 H2]. destruct (i_new _ _ _ I) as (N1 & N2).
  assert (SG : forall x i m, x < q_new t -> seg (scont s) x i m -> seg (scont s') x i m).
  { intros x i m Hx H. apply (seg_same (scont s)); [exact H|]. intros j _. rewrite Ec by lia. reflexivity. }
  constructor; try apply I; auto; [|rewrite Ew; apply I]. constructor; auto.
  - intro Eb. destruct (H1 Eb) as (Hb & Hl & Hs). auto.
  - intro Eb. destruct (H2 Eb) as (lf & cs & lb & El & Hf & Hlb & Hb1 & Sf & Sb & F). exists lf, cs, lb. repeat (split; [solve [auto]|]).
    apply (blks_same s); [exact F|]. intros b _. rewrite Ed. reflexivity.
Qed.
Lemma qinv_used l t s : qinv l t s -> qinv l (q_used t) s.
Proof. intros [[] ? ? ? ? (? & ?)]. constructor; simpl; auto; [constructor; auto|lia]. Qed.
Definition pos (t : seqst) (s : sstate) (m : list A) (blk idx : nat) (next : list nat) : Prop :=
  (blk = q_bb t /\ next = [] /\ idx + length m = q_be t /\ seg (scont s) blk idx m) \/
  (blk <> q_bb t /\ (blk = q_fb t \/ blk = q_new t) /\ idx < S /\ exists lf cs lb, m = lf ++ concat cs ++ lb /\ idx + length lf = S /\ length lb = q_be t /\ 1 <= q_be t /\
     seg (scont s) blk idx lf /\ seg (scont s) (q_bb t) 0 lb /\ Forall2 (holds_blk s) next cs /\ incl next (sown s)).
Lemma ok_get R x i v (k : A -> prog A R) s (Q : R -> sstate -> Prop) : sout s = [] -> scont s x i = Some v -> ok (k v) s Q -> ok (DoGet x i k) s Q.
Proof. intros Ho E K. unfold ok in *. simpl. rewrite Ho. simpl. rewrite E. exact K. Qed.
Lemma stream_from_ok l t fuel : forall m s size blk idx next, qinv l t s -> length m = size -> size <= fuel -> pos t s m blk idx next ->
  ok (stream_from A S fuel t size blk idx next) s (fun r s' => r = m /\ qinv l t s').
Proof.
  induction fuel as [|fuel IH]; intros m s size blk idx next I Hm Hf P.
  - assert (size = 0) as -> by lia. destruct m; [|discriminate]. simpl. apply ok_ret. auto.
  - destruct m as [|v m]; [simpl in Hm; subst size; simpl; apply ok_ret; auto|]. simpl in Hm. subst size.
    pose proof (i_out _ _ _ I) as Ho. destruct (i_shape _ _ _ I) as [Hfi Hbe _ _]. destruct (i_new _ _ _ I) as (N1 & N2).
    assert (GO : forall s' blk' idx' next', qinv l t s' -> pos t s' m blk' idx' next' ->
      ok (bind (stream_from A S fuel t (length m) blk' idx' next') (fun r => Ret (v :: r))) s' (fun r s' => r = v :: m /\ qinv l t s')).
    { intros s' blk' idx' next' I' P'. apply ok_bind. apply (ok_imp _ _ _ _ _ _ (IH m s' (length m) blk' idx' next' I' eq_refl ltac:(lia) P')).
      intros r s2 (-> & J). apply ok_ret. auto. }
    cbn [stream_from Nat.eqb]. replace (Datatypes.S (length m) - 1) with (length m) by lia. destruct P as [(-> & -> & Hi & Sg)|(Nb & Wb & Hi & lf & cs & lb & El & Hl & Hlb & Hb1 & Sf & Sb & F & Ow)].
    + simpl in Hi. apply seg_cons in Sg. destruct Sg as (Sv & Sg). apply ok_get with v; [exact Ho|exact Sv|].
      destruct (Nat.eqb_spec idx (S - 1)) as [E|E].
      * destruct m as [|w m]; [|simpl in Hi; lia]. simpl. rewrite Nat.eqb_refl. apply ok_ret. auto.
      * apply GO; [exact I|]. left. split; [reflexivity|]. split; [reflexivity|]. split; [lia|exact Sg].
    + destruct lf as [|v' lf]; [simpl in Hl; lia|]. simpl in El. injection El as <- Em. apply seg_cons in Sf. destruct Sf as (Sv & Sf). apply ok_get with v; [exact Ho|exact Sv|].
      pose proof (blks_len _ _ _ F) as Lc. simpl in Hl. assert (Lm : length m = length lf + S * length next + length lb) by (rewrite Em, !app_length, Lc; lia).
      destruct (Nat.eqb_spec idx (S - 1)) as [E|E].
      * assert (lf = []) as -> by (destruct lf; [reflexivity|simpl in Hl; lia]). simpl in Lm, Em.
        destruct (Nat.eqb_spec (length m) 0); [lia|]. destruct (Nat.leb_spec (length m) S) as [Hle|Hgt].
        -- assert (next = []) as -> by (destruct next; [reflexivity|simpl in Lm; nia]). inversion F; subst cs. simpl in Em. subst m. simpl.
           apply GO; [exact I|]. left. auto.
        -- destruct next as [|b next]; [simpl in Lm; lia|]. inversion F as [|x c bs' cs' (Lb & Fb) F']; subst x bs' cs.
           replace (if Nat.eqb blk (q_fb t) then q_new t else blk) with (q_new t) by (destruct (Nat.eqb_spec blk (q_fb t)); [reflexivity|destruct Wb; congruence]).
           apply ok_read; [exact Ho|apply Ow; left; reflexivity|]. apply GO.
           ++ apply (qinv_scratch l t s); simpl; auto. intros x Hx. apply upd_other. exact Hx.
           ++ right. split; [lia|]. split; [auto|]. split; [lia|]. exists c, cs', lb. simpl. split; [rewrite Em; simpl; rewrite <- app_assoc; reflexivity|].
              split; [exact Lb|]. split; [exact Hlb|]. split; [exact Hb1|]. split; [apply seg_load; exact Fb|]. split; [apply seg_upd; [exact Sb|lia]|].
              split; [apply (blks_same s); [exact F'|reflexivity]|]. intros x Hx. apply Ow. right. exact Hx.
      * apply GO; [exact I|]. right. split; [exact Nb|]. split; [exact Wb|]. split; [lia|]. exists lf, cs, lb. repeat (split; [solve [auto|lia]|]). exact Ow.
Qed.
Lemma stream_ok l t s : qinv l t s -> ok (q_stream A S t) s (fun r s' => r = l /\ qinv l t s').
Proof.
  intro I. unfold q_stream. apply stream_from_ok; [exact I|symmetry; apply I|apply le_n|]. destruct (i_shape _ _ _ I) as [Hfi Hbe H1 H2].
  destruct (Nat.eq_dec (q_fb t) (q_bb t)) as [Eb|Eb].
  - destruct (H1 Eb) as (Hb & Hl & Hs). left. auto.
  - destruct (H2 Eb) as (lf & cs & lb & El & Hf & Hlb & Hb1 & Sf & Sb & F). right. split; [exact Eb|]. split; [auto|]. split; [exact Hfi|].
    exists lf, cs, lb. repeat (split; [solve [auto]|]). apply I.
Qed.
Definition rpos (t : seqst) (s : sstate) (m : list A) (blk be : nat) (next : list nat) : Prop :=
  be <= S /\
  ((blk = q_fb t /\ next = [] /\ q_fi t + length m = be /\ seg (scont s) blk (q_fi t) m) \/
   (blk <> q_fb t /\ (blk = q_bb t \/ blk = q_new t) /\ 1 <= be /\ exists lf cs lb, m = lf ++ concat (rev cs) ++ lb /\ q_fi t + length lf = S /\ length lb = be /\
     seg (scont s) (q_fb t) (q_fi t) lf /\ seg (scont s) blk 0 lb /\ Forall2 (holds_blk s) next cs /\ incl next (sown s))).
Lemma concat_rev_len {B} (cs : list (list B)) : length (concat (rev cs)) = length (concat cs).
Proof. induction cs as [|c cs IH]; simpl; [reflexivity|]. rewrite concat_app, !app_length, IH. simpl. rewrite app_nil_r. lia. Qed.
Lemma rev_stream_from_ok l t fuel : forall m s size blk be next, qinv l t s -> length m = size -> size <= fuel -> rpos t s m blk be next ->
  ok (rev_stream_from A S fuel t size blk be next) s (fun r s' => r = rev m /\ qinv l t s').
Proof.
  induction fuel as [|fuel IH]; intros m s size blk be next I Hm Hf (Hbe & P).
  - assert (size = 0) as -> by lia. destruct m; [|discriminate]. simpl. apply ok_ret. auto.
  - destruct (snoc_case m) as [->|(p & v & ->)]; [simpl in Hm; subst size; simpl; apply ok_ret; auto|]. rewrite app_length in Hm. simpl in Hm. subst size.
    pose proof (i_out _ _ _ I) as Ho. destruct (i_shape _ _ _ I) as [Hfi _ _ _]. destruct (i_new _ _ _ I) as (N1 & N2).
    assert (GO : forall s' blk' be' next', qinv l t s' -> rpos t s' p blk' be' next' ->
      ok (bind (rev_stream_from A S fuel t (length p) blk' be' next') (fun r => Ret (v :: r))) s' (fun r s' => r = rev (p ++ [v]) /\ qinv l t s')).
    { intros s' blk' be' next' I' P'. apply ok_bind. apply (ok_imp _ _ _ _ _ _ (IH p s' (length p) blk' be' next' I' eq_refl ltac:(lia) P')).
      intros r s2 (-> & J). apply ok_ret. rewrite rev_app_distr. auto. }
    rewrite Nat.add_1_r in *. cbn [rev_stream_from Nat.eqb]. replace (Datatypes.S (length p) - 1) with (length p) by lia.
    destruct P as [(-> & -> & Hi & Sg)|(Nb & Wb & Hb1 & lf & cs & lb & El & Hl & Hlb & Sf & Sb & F & Ow)].
    + rewrite app_length in Hi. simpl in Hi. apply seg_app in Sg. destruct Sg as (Sg & Sv). apply seg_cons in Sv. destruct Sv as (Sv & _).
      apply ok_get with v; [exact Ho|replace (be - 1) with (q_fi t + length p) by lia; exact Sv|].
      destruct (Nat.eqb_spec be 1) as [E|E].
      * destruct p as [|w p]; [|simpl in Hi; lia]. simpl. rewrite Nat.eqb_refl. apply ok_ret. auto.
      * apply GO; [exact I|]. split; [lia|]. left. split; [reflexivity|]. split; [reflexivity|]. split; [lia|exact Sg].
    + destruct (snoc_case lb) as [->|(lb' & v' & ->)]; [simpl in Hlb; lia|]. rewrite !app_assoc in El. apply app_inj_tail in El. destruct El as (Em & <-).
      rewrite app_length in Hlb. simpl in Hlb. apply seg_app in Sb. destruct Sb as (Sb & Sv). apply seg_cons in Sv. destruct Sv as (Sv & _).
      apply ok_get with v; [exact Ho|replace (be - 1) with (0 + length lb') by lia; exact Sv|].
      pose proof (blks_len _ _ _ F) as Lc. assert (Lm : length p = length lf + S * length next + length lb') by (rewrite Em, !app_length, concat_rev_len, Lc; lia).
      destruct (Nat.eqb_spec be 1) as [E|E].
      * assert (lb' = []) as -> by (destruct lb'; [reflexivity|simpl in Hlb; lia]). simpl in Lm. rewrite app_nil_r in Em.
        destruct (Nat.eqb_spec (length p) 0); [lia|]. destruct (Nat.leb_spec (length p) S) as [Hle|Hgt].
        -- assert (next = []) as -> by (destruct next; [reflexivity|simpl in Lm; nia]). inversion F; subst cs. simpl in Em. rewrite app_nil_r in Em. subst p. simpl.
           apply GO; [exact I|]. split; [lia|]. left. auto.
        -- destruct next as [|b next]; [simpl in Lm; lia|]. inversion F as [|x c bs' cs' (Lb & Fb) F']; subst x bs' cs.
           replace (if Nat.eqb blk (q_bb t) then q_new t else blk) with (q_new t) by (destruct (Nat.eqb_spec blk (q_bb t)); [reflexivity|destruct Wb; congruence]).
           apply ok_read; [exact Ho|apply Ow; left; reflexivity|]. apply GO.
           ++ apply (qinv_scratch l t s); simpl; auto. intros x Hx. apply upd_other. exact Hx.
           ++ split; [lia|]. right. split; [lia|]. split; [auto|]. split; [lia|]. exists lf, cs', c. simpl. split; [rewrite Em; simpl; rewrite concat_app; simpl; rewrite app_nil_r; reflexivity|].
              split; [exact Hl|]. split; [exact Lb|]. split; [apply seg_upd; [exact Sf|lia]|]. split; [apply seg_load; exact Fb|].
              split; [apply (blks_same s); [exact F'|reflexivity]|]. intros x Hx. apply Ow. right. exact Hx.
      * apply GO; [exact I|]. split; [lia|]. right. split; [exact Nb|]. split; [exact Wb|]. split; [lia|]. exists lf, cs, lb'. split; [rewrite Em, app_assoc; reflexivity|].
        repeat (split; [solve [auto|lia]|]). exact Ow.
Qed.
Lemma rev_stream_ok l t s : qinv l t s -> ok (q_rev_stream A S t) s (fun r s' => r = rev l /\ qinv l t s').
Proof.
  intro I. unfold q_rev_stream. apply rev_stream_from_ok; [exact I|symmetry; apply I|apply le_n|]. destruct (i_shape _ _ _ I) as [Hfi Hbe H1 H2]. split; [exact Hbe|].
  destruct (Nat.eq_dec (q_fb t) (q_bb t)) as [Eb|Eb].
  - destruct (H1 Eb) as (Hb & Hl & Hs). left. rewrite Hb, <- Eb. auto.
  - destruct (H2 Eb) as (lf & cs & lb & El & Hf & Hlb & Hb1 & Sf & Sb & F). right. split; [auto|]. split; [auto|]. split; [exact Hb1|].
    exists lf, (rev cs), lb. rewrite rev_involutive. repeat (split; [solve [auto]|]). split.
    + clear - F. induction F as [|x y l l' H F IH]; simpl; [constructor|]. apply Forall2_app; [exact IH|auto].
    + intros x Hx. apply (i_own _ _ _ I). rewrite in_rev. exact Hx.
Qed.

(** * histories *)
Lemma back_snoc (l : list A) v : back (l ++ [v]) = Some v.
Proof. unfold back. rewrite rev_app_distr. reflexivity. Qed.
Lemma op_ok o l l' x t s : qinv l t s -> by_value o = true -> spec_op o l = Some (l', x) ->
  ok (seq_op A S o t) s (fun r s' => snd r = x /\ qinv l' (fst r) s').
Proof.
  intros I B H. destruct o as [a|a| | | | |v|v| | |]; simpl in H, B; unfold seq_op.
  - destruct a as [v| |]; try discriminate. injection H as <- <-. apply ok_bind. apply (ok_imp _ _ _ _ _ _ (push_front_ok l v t s I)). intros t' s' J. apply ok_ret. auto.
  - destruct a as [v| |]; try discriminate. injection H as <- <-. apply ok_bind. apply (ok_imp _ _ _ _ _ _ (push_back_ok l v t s I)). intros t' s' J. apply ok_ret. auto.
  - destruct l as [|v l]; [discriminate|]. injection H as <- <-. apply ok_bind. apply (ok_imp _ _ _ _ _ _ (pop_front_ok l v t s I)). intros t' s' J. apply ok_ret. auto.
  - destruct (snoc_case l) as [->|(m & v & ->)]; [discriminate|]. assert (E : Some (removelast (m ++ [v]), OUnit) = Some (l', x)) by (destruct (m ++ [v]) eqn:F; [destruct m; discriminate|exact H]).
    rewrite removelast_last in E. injection E as <- <-. apply ok_bind. apply (ok_imp _ _ _ _ _ _ (pop_back_ok m v t s I)). intros t' s' J. apply ok_ret. auto.
  - destruct l as [|v l]; [discriminate|]. injection H as <- <-. apply ok_bind. unfold ok. rewrite (q_front_ok v l t s I). simpl. auto.
  - destruct (snoc_case l) as [->|(m & v & ->)]; [discriminate|]. rewrite back_snoc in H. injection H as <- <-. apply ok_bind. unfold ok. rewrite (q_back_ok v m t s I). simpl. auto.
  - destruct l as [|w l]; [discriminate|]. injection H as <- <-. apply ok_bind. apply (ok_imp _ _ _ _ _ _ (set_front_ok w v l t s I)). intros t' s' J. apply ok_ret. auto.
  - destruct (snoc_case l) as [->|(m & w & ->)]; [discriminate|]. assert (E : Some (removelast (m ++ [w]) ++ [v], OUnit) = Some (l', x)) by (destruct (m ++ [w]) eqn:F; [destruct m; discriminate|exact H]).
    rewrite removelast_last in E. injection E as <- <-. apply ok_bind. apply (ok_imp _ _ _ _ _ _ (set_back_ok w v m t s I)). intros t' s' J. apply ok_ret. auto.
  - injection H as <- <-. apply ok_ret. simpl. rewrite (i_size _ _ _ I). auto.
  - injection H as <- <-. apply ok_bind. apply (ok_imp _ _ _ _ _ _ (stream_ok l t s I)). intros r s' (-> & J). apply ok_ret. split; [reflexivity|apply qinv_used; exact J].
  - injection H as <- <-. apply ok_bind. apply (ok_imp _ _ _ _ _ _ (rev_stream_ok l t s I)). intros r s' (-> & J). apply ok_ret. split; [reflexivity|apply qinv_used; exact J].
Qed.
Lemma ops_ok os : forall l l' xs t s, qinv l t s -> forallb by_value os = true -> spec_ops os l = Some (l', xs) ->
  ok (seq_ops A S os t) s (fun r s' => snd r = xs /\ qinv l' (fst r) s').
Proof.
  induction os as [|o os IH]; intros l l' xs t s I B H; simpl in H, B.
  - injection H as <- <-. apply ok_ret. auto.
  - apply andb_true_iff in B. destruct B as (B1 & B2). destruct (spec_op o l) as [(l1 & x)|] eqn:E; [|discriminate]. destruct (spec_ops os l1) as [(l2 & xs')|] eqn:E2; [|discriminate]. injection H as <- <-.
    cbn [seq_ops]. apply ok_bind. apply (ok_imp _ _ _ _ _ _ (op_ok o l l1 x t s I B1 E)). intros r s' (Hx & J). apply ok_bind.
    apply (ok_imp _ _ _ _ _ _ (IH l1 l2 xs' (fst r) s' J B2 E2)). intros r' s2 (Hx' & J'). apply ok_ret. simpl. rewrite Hx, Hx'. auto.
Qed.
Lemma history_ok os l xs : forallb by_value os = true -> spec_ops os [] = Some (l, xs) -> forall al,
  ok (seq_ops A S os q_init) (sinit al) (fun r _ => snd r = xs).
Proof. intros B H al. apply (ok_imp _ _ _ _ _ _ (ops_ok os [] l xs q_init (sinit al) (q_init_inv al) B H)). intros r s (E & _). exact E. Qed.
End Sequence.
