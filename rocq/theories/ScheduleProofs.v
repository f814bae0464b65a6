From Coq Require Import List Bool Arith Permutation Sorting.Sorted Lia.
From Verif Require Import SumLib VectorProofs ScheduleModel ScheduleSpec.
Import ListNotations.

Lemma nd_r {B} (a b : list B) : NoDup (a ++ b) -> NoDup b.
Proof. induction a as [|x a IH]; simpl; intro H; [exact H|]. inversion H; auto. Qed.
Lemma nd_l {B} (a b : list B) : NoDup (a ++ b) -> NoDup a.
Proof. induction a as [|x a IH]; simpl; intro H; [constructor|]. inversion H; subst. constructor; [intro G; apply H2; apply in_app_iff; auto|auto]. Qed.

(** * the event queue *)
Lemma mintime_le ev : forall t, mintime t ev <= t /\ forall e, In e ev -> mintime t ev <= fst e.
Proof.
  induction ev as [|(t' & b) ev IH]; intro t; simpl; [split; [lia|intros e []]|]. destruct (IH (Nat.min t t')) as (H1 & H2). split; [lia|]. intros e [<-|He]; [simpl; lia|apply H2; exact He].
Qed.
Lemma mintime_in ev : forall t, mintime t ev = t \/ exists e, In e ev /\ fst e = mintime t ev.
Proof.
  induction ev as [|(t' & b) ev IH]; intro t; simpl; [auto|]. destruct (IH (Nat.min t t')) as [E|(e & He & E)].
  - rewrite E. destruct (Nat.min_dec t t') as [M|M]; rewrite M; [auto|right; exists (t', b); auto].
  - right. exists e. auto.
Qed.
Lemma take_some t ev : forall c, (exists e, In e ev /\ fst e = t) -> exists e r, take t c ev = Some (e, r) /\ Permutation ev (e :: r) /\ fst e = t.
Proof.
  induction ev as [|e ev IH]; intros c (e0 & H0 & E0); [destruct H0|]. simpl. destruct (Nat.eqb_spec (fst e) t) as [Q|Q].
  - destruct c as [|c]; [exists e, ev; auto|]. destruct (take t c ev) as [(e' & r)|] eqn:Et.
    + exists e', (e :: r). destruct (existsb (fun e => Nat.eqb (fst e) t) ev) eqn:Ex.
      * apply existsb_exists in Ex. destruct Ex as (e1 & H1 & E1). apply Nat.eqb_eq in E1. destruct (IH c) as (e2 & r2 & K1 & K2 & K3); [eauto|]. rewrite Et in K1. injection K1 as <- <-. split; [reflexivity|]. split; [|exact K3].
        rewrite K2. apply perm_swap.
      * exfalso. clear -Et Ex. revert c e' r Et. induction ev as [|f ev IH]; intros c e' r Et; simpl in *; [discriminate|]. apply orb_false_iff in Ex. destruct Ex as (Ef & Ex). rewrite Ef in Et. destruct (take t c ev) as [(u & w)|] eqn:Eu; [|discriminate]. apply (IH Ex _ _ _ Eu).
    + exists e, ev. auto.
  - destruct H0 as [->|H0]; [congruence|]. destruct (IH c) as (e2 & r2 & K1 & K2 & K3); [eauto|]. rewrite K1. exists e2, (e :: r2). split; [reflexivity|]. split; [|exact K3]. rewrite K2. apply perm_swap.
Qed.
Lemma pop_event_some c ev : ev <> [] -> exists t b r, pop_event c ev = Some ((t, b), r) /\ Permutation ev ((t, b) :: r) /\ forall e, In e ev -> t <= fst e.
Proof.
  intro N. destruct ev as [|(t0 & b0) ev]; [congruence|]. unfold pop_event. destruct (take_some (mintime t0 ((t0, b0) :: ev)) ((t0, b0) :: ev) c) as ((t & b) & r & E & P & T).
  - destruct (mintime_in ((t0, b0) :: ev) t0) as [M|M]; [rewrite M; exists (t0, b0); simpl; auto|exact M].
  - exists t, b, r. split; [exact E|]. split; [exact P|]. simpl fst in T. rewrite T. apply mintime_le.
Qed.

(** * disk queues *)
Definition queued (n : nat) (q : nat -> list nat) : list nat := flat_map q (seq 0 n).
Lemma flat_map_ext_in {B} (f g : nat -> list B) l : (forall x, In x l -> f x = g x) -> flat_map f l = flat_map g l.
Proof. induction l as [|x l IH]; intro H; simpl; [reflexivity|]. rewrite (H x) by (left; reflexivity). rewrite IH; [reflexivity|]. intros y Hy. apply H. right. exact Hy. Qed.
Lemma queued_upd n q d l : d < n -> Permutation (queued n (upd q d l)) (l ++ queued n (upd q d [])).
Proof.
  intro H. unfold queued. assert (E : seq 0 n = seq 0 d ++ d :: seq (d + 1) (n - d - 1)).
  { replace n with (d + (1 + (n - d - 1))) at 1 by lia. rewrite seq_app. simpl. f_equal. f_equal. f_equal. lia. }
  rewrite E, !flat_map_app. simpl. rewrite !upd_same. simpl.
  rewrite (flat_map_ext_in (upd q d l) q (seq 0 d)), (flat_map_ext_in (upd q d []) q (seq 0 d)) by (intros x Hx; apply upd_other; apply in_seq in Hx; lia).
  rewrite (flat_map_ext_in (upd q d l) q (seq (d + 1) _)), (flat_map_ext_in (upd q d []) q (seq (d + 1) _)) by (intros x Hx; apply upd_other; apply in_seq in Hx; lia).
  rewrite !app_assoc. apply Permutation_app_tail. apply Permutation_app_comm.
Qed.
Lemma queued_self n q d : d < n -> Permutation (queued n q) (q d ++ queued n (upd q d [])).
Proof.
  intro H. rewrite <- (queued_upd n q d (q d) H). unfold queued. erewrite flat_map_ext_in; [reflexivity|]. intros x _. unfold upd. destruct (Nat.eqb_spec x d) as [->|]; reflexivity.
Qed.
Lemma queued_push n q d x : d < n -> Permutation (queued n (upd q d (q d ++ [x]))) (x :: queued n q).
Proof. intro H. rewrite (queued_upd n q d _ H), (queued_self n q d H). rewrite <- app_assoc. simpl. symmetry. apply Permutation_middle. Qed.
Lemma queued_pop n q d x r : d < n -> q d = x :: r -> Permutation (queued n q) (x :: queued n (upd q d r)).
Proof. intros H E. rewrite (queued_upd n q d r H), (queued_self n q d H), E. reflexivity. Qed.
Lemma in_queued n q x : In x (queued n q) <-> exists d, d < n /\ In x (q d).
Proof.
  unfold queued. rewrite in_flat_map. split; intros (d & H1 & H2); exists d; (split; [|exact H2]); [apply in_seq in H1; lia|apply in_seq; lia].
Qed.

Section Schedule.
Variables L m D : nat.
Variable disks : nat -> nat.
Hypothesis Hm : 1 <= m.
Hypothesis Hd : forall i, i < L -> disks i <= D.
Notation sim := sim.
Notation Q st := (queued (D + 1) (s_q st)).

(** the blocks that entered and were not put out *)
Definition inside (st : sim) : list nat := Q st ++ map snd (s_ev st).
Record inv (st : sim) : Prop := mk_inv {
  v_perm : Permutation (seq 0 (s_i st) ++ inside st ++ map fst (s_out st)) (seq 0 L);
  v_m : length (inside st) <= m;
  v_disk : forall d j, In j (s_q st d) -> disks j = d;
  v_ev : forall t j, In (t, j) (s_ev st) -> s_old st <= t <= s_old st + 1;
  v_outt : forall k t, In (k, t) (s_out st) -> t <= s_old st;
  (* the blocks after k that are written later than k *)
  v_late : forall k t, In (k, t) (s_out st) -> exists W, length W < m /\ forall j, k < j -> j < L -> (~ In j (map fst (s_out st)) \/ exists t', In (j, t') (s_out st) /\ t < t') -> In j W }.
(** a disk with a queue has an event; a busy disk has an event in the next round *)
Definition covered (st : sim) (d : nat) : Prop := exists t j, In (t, j) (s_ev st) /\ disks j = d.
Record live (st : sim) : Prop := mk_live {
  l_q : forall d, s_q st d <> [] -> covered st d;
  l_busy : forall d, s_busy st d = true -> exists j, In (s_old st + 1, j) (s_ev st) /\ disks j = d }.

Lemma v_nodup st : inv st -> NoDup (seq 0 (s_i st) ++ inside st ++ map fst (s_out st)).
Proof. intro I. apply (Permutation_NoDup (Permutation_sym (v_perm _ I))). apply seq_NoDup. Qed.
Lemma v_lt st : inv st -> forall j, In j (inside st) \/ In j (map fst (s_out st)) -> s_i st <= j < L.
Proof.
  intros I j H. assert (H' : In j (inside st ++ map fst (s_out st))) by (apply in_app_iff; exact H). split.
  - destruct (Nat.le_gt_cases (s_i st) j) as [G|G]; [exact G|]. exfalso. pose proof (v_nodup _ I) as N. assert (G' : In j (seq 0 (s_i st))) by (apply in_seq; lia). clear -N G' H'.
    induction (seq 0 (s_i st)) as [|x l IH]; [destruct G'|]. simpl in N. inversion N; subst. destruct G' as [->|G']; [apply H1; apply in_app_iff; auto|auto].
  - assert (G : In j (seq 0 L)) by (apply (Permutation_in _ (v_perm _ I)); apply in_app_iff; auto). apply in_seq in G. lia.
Qed.
Lemma i_le st : inv st -> s_i st <= L.
Proof.
  intro I. destruct (s_i st) as [|i] eqn:E; [lia|]. assert (G : In i (seq 0 L)) by (apply (Permutation_in _ (v_perm _ I)); apply in_app_iff; left; rewrite E; apply in_seq; lia). apply in_seq in G. lia.
Qed.
Lemma seq_snoc n : Permutation (seq 0 (S n)) (n :: seq 0 n).
Proof. rewrite seq_S. simpl. symmetry. apply Permutation_cons_append. Qed.

(** moving the next block into a queue *)
Lemma enter_perm st i : s_i st = S i -> inv st -> Permutation (seq 0 i ++ (i :: inside st) ++ map fst (s_out st)) (seq 0 L).
Proof. intros E I. rewrite <- (v_perm _ I), E, seq_snoc. simpl. symmetry. apply Permutation_middle. Qed.
Lemma enter_queue st i : s_i st = S i -> inv st -> length (inside st) < m -> inv (mk_sim i (upd (s_q st) (disks i) (s_q st (disks i) ++ [i])) (s_ev st) (s_old st) (s_busy st) (s_out st)).
Proof.
  intros E I Lm. assert (Hi : disks i < D + 1) by (pose proof (i_le _ I); specialize (Hd i); lia).
  assert (P : Permutation (inside (mk_sim i (upd (s_q st) (disks i) (s_q st (disks i) ++ [i])) (s_ev st) (s_old st) (s_busy st) (s_out st))) (i :: inside st)).
  { unfold inside. simpl. rewrite (queued_push (D + 1) (s_q st) (disks i) i Hi). reflexivity. }
  constructor; simpl.
  - rewrite P. apply enter_perm; assumption.
  - rewrite (Permutation_length P). simpl. lia.
  - intros d j H. unfold upd in H. destruct (Nat.eqb_spec d (disks i)) as [->|]; [|apply (v_disk _ I); exact H]. apply in_app_iff in H. destruct H as [H|[<-|[]]]; [apply (v_disk _ I); exact H|reflexivity].
  - apply (v_ev _ I).
  - apply (v_outt _ I).
  - apply (v_late _ I).
Qed.
Lemma enter_event st i t b : s_i st = S i -> inv st -> length (inside st) < m -> t = s_old st -> inv (mk_sim i (s_q st) ((t + 1, i) :: s_ev st) (s_old st) b (s_out st)).
Proof.
  intros E I Lm ->. assert (P : Permutation (inside (mk_sim i (s_q st) ((s_old st + 1, i) :: s_ev st) (s_old st) b (s_out st))) (i :: inside st)).
  { unfold inside. simpl. symmetry. apply Permutation_middle. }
  constructor; simpl.
  - rewrite P. apply enter_perm; assumption.
  - rewrite (Permutation_length P). simpl. lia.
  - apply (v_disk _ I).
  - intros t j [H|H]; [injection H as <- <-; lia|apply (v_ev _ I) in H; exact H].
  - apply (v_outt _ I).
  - apply (v_late _ I).
Qed.
(** from a queue to the events *)
Lemma queue_event st d j r t b : s_q st d = j :: r -> inv st -> d < D + 1 -> s_old st <= t <= s_old st + 1 -> inv (mk_sim (s_i st) (upd (s_q st) d r) ((t, j) :: s_ev st) (s_old st) b (s_out st)).
Proof.
  intros E I Hdd Ht. assert (P : Permutation (inside (mk_sim (s_i st) (upd (s_q st) d r) ((t, j) :: s_ev st) (s_old st) b (s_out st))) (inside st)).
  { unfold inside. simpl. rewrite (queued_pop (D + 1) (s_q st) d j r Hdd E). simpl. symmetry. apply Permutation_middle. }
  constructor; simpl.
  - rewrite P. apply (v_perm _ I).
  - rewrite (Permutation_length P). apply (v_m _ I).
  - intros d' j' H. unfold upd in H. destruct (Nat.eqb_spec d' d) as [->|]; [|apply (v_disk _ I); exact H]. apply (v_disk _ I). rewrite E. right. exact H.
  - intros t' j' [H|H]; [injection H as <- <-; lia|apply (v_ev _ I) in H; exact H].
  - apply (v_outt _ I).
  - apply (v_late _ I).
Qed.
Lemma inv_busy st b : inv st -> inv (mk_sim (s_i st) (s_q st) (s_ev st) (s_old st) b (s_out st)).
Proof. intros []. constructor; simpl; auto. Qed.

Lemma fill_inv k : forall st, inv st -> length (inside st) + k <= m -> inv (fill disks k st) /\ s_ev (fill disks k st) = s_ev st /\ s_old (fill disks k st) = s_old st /\ s_busy (fill disks k st) = s_busy st /\
  (1 <= k -> 1 <= s_i st -> exists d, s_q (fill disks k st) d <> []) /\ (forall d, s_q st d <> [] -> s_q (fill disks k st) d <> []).
Proof.
  induction k as [|k IH]; intros st I H; simpl; [split; [exact I|]; do 3 (split; [reflexivity|]); split; [intros; lia|auto]|]. destruct (s_i st) as [|i] eqn:E; [split; [exact I|]; do 3 (split; [reflexivity|]); split; [intros; lia|auto]|].
  pose proof (enter_queue st i E I ltac:(lia)) as I'. assert (Hi : disks i < D + 1) by (pose proof (i_le _ I); specialize (Hd i); lia).
  destruct (IH _ I') as (J1 & J2 & J3 & J4 & _ & J5).
  { unfold inside. simpl. rewrite app_length. rewrite (Permutation_length (queued_push (D + 1) (s_q st) (disks i) i Hi)). unfold inside in H. rewrite app_length in H. simpl. lia. }
  split; [exact J1|]. split; [exact J2|]. split; [exact J3|]. split; [exact J4|]. split.
  - intros _ _. exists (disks i). apply J5. simpl. rewrite upd_same. destruct (s_q st (disks i)); discriminate.
  - intros d Hq. apply J5. simpl. unfold upd. destruct (Nat.eqb d (disks i)); [|exact Hq]. destruct (s_q st (disks i)); discriminate.
Qed.
Lemma start_inv ds : forall st, inv st -> s_old st = 0 -> s_busy st = (fun _ => false) -> (forall d, In d ds -> d < D + 1) -> (forall d, s_q st d <> [] -> In d ds \/ covered st d) ->
  inv (start ds st) /\ live (start ds st) /\ s_old (start ds st) = 0 /\ ((s_ev st <> [] \/ exists d, s_q st d <> []) -> s_ev (start ds st) <> []) .
Proof.
  induction ds as [|d ds IH]; intros st I O B Dd C; simpl.
  - split; [exact I|]. split; [constructor; [intros d H; destruct (C d H) as [[]|G]; exact G|rewrite B; discriminate]|]. split; [exact O|]. intros [H|(d & H)]; [exact H|]. destruct (C d H) as [[]|(t & j & Hin & _)]. intro Z. rewrite Z in Hin. exact Hin.
  - destruct (s_q st d) as [|j r] eqn:E.
    + apply IH; auto; [intros d' Hd'; apply Dd; right; exact Hd'|]. intros d' H'. destruct (C d' H') as [[Eq|G]|G]; [subst d'; congruence|auto|auto].
    + destruct (IH (mk_sim (s_i st) (upd (s_q st) d r) ((1, j) :: s_ev st) (s_old st) (s_busy st) (s_out st))) as (K1 & K2 & K3 & K4); auto.
      * apply queue_event; auto; [apply Dd; left; reflexivity|lia].
      * intros d' Hd'. apply Dd. right. exact Hd'.
      * intros d' H'. simpl in H'. unfold upd in H'. assert (DJ : disks j = d) by (apply (v_disk _ I); rewrite E; left; reflexivity). destruct (Nat.eqb_spec d' d) as [Ed|N].
        -- right. exists 1, j. simpl. subst d'. auto.
        -- destruct (C d' H') as [[Eq|G]|(t & j' & Hin & Hj)]; [subst d'; congruence|auto|]. right. exists t, j'. simpl. auto.
      * split; [exact K1|]. split; [exact K2|]. split; [exact K3|]. intros _. apply K4. left. discriminate.
Qed.

(** one event *)
Lemma step_inv st t b ev : inv st -> live st -> Permutation (s_ev st) ((t, b) :: ev) -> (forall e, In e (s_ev st) -> t <= fst e) ->
  let st' := next_write disks t b (look disks t (put_out t b (clear_busy t (mk_sim (s_i st) (s_q st) ev (s_old st) (s_busy st) (s_out st))))) in
  inv st' /\ live st' /\ length (s_out st') = length (s_out st) + 1 /\ (1 <= s_i st' -> s_ev st' <> []).
Proof.
  intros I Lv P T. assert (Hin : In (t, b) (s_ev st)) by (apply (Permutation_in _ (Permutation_sym P)); left; reflexivity).
  assert (Hinc : forall e, In e ev -> In e (s_ev st)) by (intros e He; apply (Permutation_in _ (Permutation_sym P)); right; exact He).
  pose proof (v_ev _ I t b Hin) as Ht.
  assert (NI : Permutation (inside st) (b :: Q st ++ map snd ev)).
  { unfold inside. rewrite (Permutation_map snd P). simpl. symmetry. apply Permutation_middle. }
  assert (Bi : In b (inside st)) by (apply (Permutation_in _ (Permutation_sym NI)); left; reflexivity).
  destruct (v_lt _ I b (or_introl Bi)) as (B1 & B2).
  (* after the event is removed, the clock set, and the block put out *)
  set (st1 := put_out t b (clear_busy t (mk_sim (s_i st) (s_q st) ev (s_old st) (s_busy st) (s_out st)))).
  assert (F : s_i st1 = s_i st /\ s_q st1 = s_q st /\ s_ev st1 = ev /\ s_old st1 = t /\ s_out st1 = (b, t) :: s_out st).
  { unfold st1, put_out, clear_busy. simpl. destruct (Nat.eqb_spec (s_old st) t); simpl; auto. }
  destruct F as (F1 & F2 & F3 & F4 & F5).
  assert (FB : forall d, s_busy st1 d = true -> exists j, In (t + 1, j) ev /\ disks j = d).
  { intros d H. unfold st1, put_out, clear_busy in H. simpl in H. destruct (Nat.eqb_spec (s_old st) t) as [E|E]; simpl in H; [|discriminate].
    destruct (l_busy _ Lv d H) as (j & Hj & Dj). exists j. split; [|exact Dj]. rewrite E in Hj. apply (Permutation_in _ P) in Hj. destruct Hj as [C|Hj]; [injection C; lia|exact Hj]. }
  clearbody st1.
  assert (I1 : inv st1).
  { assert (P1 : Permutation (inside st1) (Q st ++ map snd ev)) by (unfold inside; rewrite F2, F3; reflexivity). constructor; rewrite ?F1, ?F2, ?F3, ?F4, ?F5.
    - rewrite P1. simpl. rewrite <- (v_perm _ I). apply Permutation_app_head. rewrite NI. simpl. symmetry. apply Permutation_middle.
    - rewrite (Permutation_length P1). pose proof (v_m _ I) as V. rewrite (Permutation_length NI) in V. simpl in V. lia.
    - apply (v_disk _ I).
    - intros t' j H. pose proof (v_ev _ I t' j (Hinc _ H)). pose proof (T _ (Hinc _ H)). simpl in *. lia.
    - intros k t' [H|H]; [injection H as <- <-; lia|]. pose proof (v_outt _ I k t' H). lia.
    - intros k t' [H|H].
      + injection H as <- <-. exists (Q st ++ map snd ev). split; [pose proof (v_m _ I) as V; rewrite (Permutation_length NI) in V; simpl in V; lia|].
        intros j Hj HjL [Hn|(t' & [C|Hj'] & Lt)]; [|injection C; lia|pose proof (v_outt _ I j t' Hj'); lia].
        assert (Hs : In j (seq 0 (s_i st) ++ inside st ++ map fst (s_out st))) by (apply (Permutation_in _ (Permutation_sym (v_perm _ I))); apply in_seq; lia).
        apply in_app_iff in Hs. destruct Hs as [Hs|Hs]; [apply in_seq in Hs; lia|]. apply in_app_iff in Hs. destruct Hs as [Hs|Hs]; [|exfalso; apply Hn; right; exact Hs].
        apply (Permutation_in _ NI) in Hs. destruct Hs as [C|Hs]; [lia|exact Hs].
      + destruct (v_late _ I k t' H) as (W & W1 & W2). exists W. split; [exact W1|]. intros j Hj HjL C. apply W2; auto. destruct C as [C|(t2 & [C|C] & Lt)].
        * left. intro G. apply C. right. exact G.
        * injection C as <- <-. left. intro G. pose proof (v_nodup _ I) as N. apply in_split in Bi. clear -N Bi G. destruct Bi as (x & y & E). rewrite E in N. apply nd_r in N. rewrite <- app_assoc in N. apply nd_r in N. simpl in N. inversion N; subst. apply H1. apply in_app_iff. right. exact G.
        * right. eauto. }
  assert (L1 : forall d, s_q st1 d <> [] -> d <> disks b -> covered st1 d).
  { intros d H N. rewrite F2 in H. destruct (l_q _ Lv d H) as (t' & j & Hj & Dj). exists t', j. rewrite F3. split; [|exact Dj]. apply (Permutation_in _ P) in Hj. destruct Hj as [C|Hj]; [injection C as <- <-; congruence|exact Hj]. }
  assert (V1 : length (inside st1) < m).
  { unfold inside. rewrite F2, F3. pose proof (v_m _ I) as V. rewrite (Permutation_length NI) in V. simpl in V. lia. }
  (* look *)
  set (st2 := look disks t st1).
  assert (S2 : inv st2 /\ s_old st2 = t /\ s_out st2 = s_out st1 /\ (1 <= s_i st2 -> s_ev st2 <> []) /\ incl (s_ev st1) (s_ev st2) /\
    (forall d, s_busy st2 d = true -> exists j, In (t + 1, j) (s_ev st2) /\ disks j = d) /\ (forall d, s_q st2 d <> [] -> d <> disks b -> covered st2 d)).
  { unfold st2, look. destruct (s_i st1) as [|i] eqn:Ei.
    - split; [exact I1|]. split; [exact F4|]. split; [reflexivity|]. split; [rewrite Ei; lia|]. split; [apply incl_refl|]. split; [rewrite F3; exact FB|exact L1].
    - assert (Hi : disks i < D + 1) by (pose proof (i_le _ I1); specialize (Hd i); lia). destruct (s_busy st1 (disks i)) eqn:Eb.
      + destruct (FB _ Eb) as (j0 & Hj0 & Dj0). split; [apply enter_queue; assumption|]. simpl. split; [exact F4|]. split; [reflexivity|]. split; [intros _ C; rewrite F3 in C; rewrite C in Hj0; exact Hj0|]. split; [apply incl_refl|]. split; [rewrite F3; exact FB|].
        intros d H N. unfold upd in H. destruct (Nat.eqb_spec d (disks i)) as [Ed|Nd]; [rewrite Ed|].
        * exists (t + 1), j0. simpl. rewrite F3. auto.
        * destruct (L1 d H N) as (t' & j & Hj & Dj). exists t', j. auto.
      + destruct (s_q st1 (disks i)) as [|j r] eqn:Eq.
        * split; [apply enter_event; auto|]. simpl. split; [exact F4|]. split; [reflexivity|]. split; [discriminate|]. split; [intros e He; right; exact He|]. split.
          -- intros d H. unfold upd in H. destruct (Nat.eqb_spec d (disks i)) as [Ed|Nd]; [rewrite Ed; exists i; auto|]. destruct (FB d H) as (j & Hj & Dj). exists j. rewrite F3. auto.
          -- intros d H N. destruct (L1 d H N) as (t' & j & Hj & Dj). exists t', j. simpl. auto.
        * assert (Dj : disks j = disks i) by (apply (v_disk _ I1); rewrite Eq; left; reflexivity).
          split; [rewrite <- Ei; apply queue_event; auto; lia|]. simpl. split; [exact F4|]. split; [reflexivity|]. split; [discriminate|]. split; [intros e He; right; exact He|]. split.
          -- intros d H. unfold upd in H. destruct (Nat.eqb_spec d (disks i)) as [Ed|Nd]; [rewrite Ed; exists j; auto|]. destruct (FB d H) as (j' & Hj' & Dj'). exists j'. rewrite F3. auto.
          -- intros d H N. unfold upd in H. destruct (Nat.eqb_spec d (disks i)) as [Ed|Nd]; [rewrite Ed; exists (t + 1), j; simpl; auto|]. destruct (L1 d H N) as (t' & j' & Hj' & Dj'). exists t', j'. simpl. auto. }
  clearbody st2. destruct S2 as (I2 & O2 & U2 & E2 & _ & B2' & C2).
  assert (Hb : disks b < D + 1) by (specialize (Hd b); lia).
  unfold next_write. destruct (s_busy st2 (disks b)) eqn:Eb.
  - split; [exact I2|]. split; [|split; [rewrite U2, F5; simpl; lia|exact E2]]. constructor; [|rewrite O2; exact B2']. intros d H. destruct (Nat.eq_dec d (disks b)) as [->|N]; [|apply C2; assumption].
    destruct (B2' _ Eb) as (j & Hj & Dj). exists (t + 1), j. auto.
  - destruct (s_q st2 (disks b)) as [|j r] eqn:Eq.
    + split; [exact I2|]. split; [|split; [rewrite U2, F5; simpl; lia|exact E2]]. constructor; [|rewrite O2; exact B2']. intros d H. destruct (Nat.eq_dec d (disks b)) as [->|N]; [congruence|apply C2; assumption].
    + assert (Dj : disks j = disks b) by (apply (v_disk _ I2); rewrite Eq; left; reflexivity). split; [apply queue_event; auto; lia|]. split; [|split; [simpl; rewrite U2, F5; simpl; lia|intros _; discriminate]].
      constructor; simpl.
      * intros d H. unfold upd in H. destruct (Nat.eqb_spec d (disks b)) as [Ed|N]; [rewrite Ed; exists (t + 1), j; simpl; auto|]. destruct (C2 d H N) as (t' & j' & Hj' & Dj'). exists t', j'. simpl. auto.
      * intros d H. rewrite O2. unfold upd in H. destruct (Nat.eqb_spec d (disks b)) as [Ed|N]; [rewrite Ed; exists j; auto|]. destruct (B2' d H) as (j' & Hj' & Dj'). exists j'. auto.
Qed.
Lemma out_le st : inv st -> length (s_out st) + length (s_ev st) <= L.
Proof. intro I. pose proof (Permutation_length (v_perm _ I)) as E. unfold inside in E. rewrite !app_length, !map_length, !seq_length in E. lia. Qed.
Lemma loop_ok fuel : forall ch st, inv st -> live st -> (1 <= s_i st -> s_ev st <> []) -> L < fuel + length (s_out st) ->
  exists st', loop D disks fuel ch st = Some (s_out st') /\ inv st' /\ Permutation (map fst (s_out st')) (seq 0 L).
Proof.
  induction fuel as [|fuel IH]; intros ch st I Lv E F; pose proof (out_le _ I) as OL.
  - lia.
  - simpl. destruct (s_ev st) as [|e0 ev0] eqn:Ev.
    + assert (Z : s_i st = 0) by (destruct (s_i st) as [|i]; [reflexivity|exfalso; apply E; [lia|reflexivity]]). assert (QZ : forall d, s_q st d = []).
      { intro d. destruct (s_q st d) as [|x r] eqn:Eq; [reflexivity|]. exfalso. destruct (l_q _ Lv d) as (t & j & Hj & _); [congruence|]. rewrite Ev in Hj. exact Hj. }
      rewrite Z. simpl. assert (FA : forallb (fun d => match s_q st d with [] => true | _ :: _ => false end) (seq 0 (D + 1)) = true) by (apply forallb_forall; intros d _; rewrite QZ; reflexivity).
      rewrite FA. exists st. split; [reflexivity|]. split; [exact I|]. pose proof (v_perm _ I) as P. rewrite Z in P. simpl in P.
      assert (IN : inside st = []). { unfold inside. rewrite Ev, app_nil_r. unfold queued. rewrite (flat_map_ext_in (s_q st) (fun _ => [])) by (intros; apply QZ). clear. generalize (seq 0 (D + 1)). intro l. induction l; auto. }
      rewrite IN in P. exact P.
    + rewrite <- Ev in *. destruct (pop_event_some (ch 0) (s_ev st)) as (t & b & r & Pe & P & T); [congruence|]. rewrite Pe.
      destruct (step_inv st t b r I Lv P T) as (I' & Lv' & O' & E'). apply IH; auto. rewrite O'. lia.
Qed.
Lemma init_inv : inv (mk_sim L (fun _ => []) [] 0 (fun _ => false) []).
Proof.
  assert (IN : forall n, queued n (fun _ => []) = []) by (intro n; unfold queued; generalize (seq 0 n); intro l; induction l; auto).
  constructor; unfold inside; simpl; rewrite ?IN; simpl; rewrite ?app_nil_r; auto; try lia; try (intros ? ? []).
Qed.
Lemma simulate_ok ch : exists o, simulate L m D disks ch = Some o /\ Permutation (map fst o) (seq 0 L) /\
  forall k t, In (k, t) o -> exists W, length W < m /\ forall j t', k < j -> In (j, t') o -> t < t' -> In j W.
Proof.
  unfold simulate, sim_start. pose proof init_inv as I0. destruct (fill_inv m _ I0) as (I1 & F1 & F2 & F3 & F4 & _).
  { unfold inside. simpl. rewrite app_nil_r. unfold queued. replace (flat_map (fun _ : nat => []) (seq 0 (D + 1))) with (@nil nat); [simpl; lia|]. generalize (seq 0 (D + 1)). intro l. induction l; auto. }
  set (st1 := fill disks m _) in *. simpl in F1, F2, F3, F4.
  destruct (start_inv (seq 0 (D + 1)) st1 I1 F2 F3) as (I2 & L2 & O2 & E2).
  - intros d H. apply in_seq in H. lia.
  - intros d H. left. apply in_seq. destruct (s_q st1 d) as [|x r] eqn:Eq; [congruence|]. pose proof (v_disk _ I1 d x ltac:(rewrite Eq; left; reflexivity)) as Dx.
    destruct (Nat.le_gt_cases d D); [lia|]. exfalso.
    (* only disks up to D get blocks *)
    assert (K : forall k st, s_i st <= L -> (forall d, D < d -> s_q st d = []) -> forall d, D < d -> s_q (fill disks k st) d = []).
    { clear -Hd. induction k as [|k IH]; intros st Li Z d Hdd; simpl; [auto|]. destruct (s_i st) as [|i] eqn:E; [auto|]. apply IH; simpl; [lia| |exact Hdd]. intros d' Hd'. rewrite upd_other; [auto|]. specialize (Hd i). lia. }
    unfold st1 in Eq; rewrite K in Eq; [discriminate| | |exact H0]; simpl; auto.
  - destruct (loop_ok (L + 1) ch _ I2 L2) as (st' & E & I' & P).
    + intro H. apply E2. right. apply F4; [exact Hm|]. assert (K : forall ds st, s_i (start ds st) = s_i st) by (clear; induction ds as [|d ds IH]; intro st; simpl; [reflexivity|]; destruct (s_q st d); rewrite IH; reflexivity).
      rewrite K in H. assert (K2 : forall k st, s_i (fill disks k st) <= s_i st) by (clear; induction k as [|k IH]; intro st; simpl; [lia|]; destruct (s_i st) as [|i] eqn:E; [lia|]; etransitivity; [apply IH|simpl; lia]).
      pose proof (K2 m (mk_sim L (fun _ => []) [] 0 (fun _ => false) [])) as K3. simpl in K3. unfold st1 in H. lia.
    + lia.
    + exists (s_out st'). split; [exact E|]. split; [exact P|]. intros k t H. destruct (v_late _ I' k t H) as (W & W1 & W2). exists W. split; [exact W1|]. intros j t' Hj Hin Ht. apply W2; [exact Hj| |right; eauto].
      apply (in_map fst) in Hin. apply (Permutation_in _ P) in Hin. apply in_seq in Hin. simpl in Hin. lia.
Qed.

(** * sorting *)
Definition R (a b : nat * nat) : Prop := snd b < snd a \/ (snd a = snd b /\ fst a < fst b).
Lemma insert_perm x l : Permutation (insert x l) (x :: l).
Proof. induction l as [|y l IH]; simpl; [reflexivity|]. destruct (Nat.ltb (snd x) (snd y)); [|reflexivity]. rewrite IH. apply perm_swap. Qed.
Lemma sort_perm l : Permutation (stable_sort l) l.
Proof. induction l as [|x l IH]; simpl; [reflexivity|]. rewrite insert_perm, IH. reflexivity. Qed.
Lemma insert_sorted x l : (forall y, In y l -> fst x < fst y) -> StronglySorted R l -> StronglySorted R (insert x l).
Proof.
  intros H S. induction S as [|y l S IH F]; simpl; [constructor; constructor|]. destruct (Nat.ltb_spec (snd x) (snd y)) as [G|G].
  - constructor; [apply IH; intros z Hz; apply H; right; exact Hz|]. apply Forall_forall. intros z Hz. apply (Permutation_in _ (insert_perm x l)) in Hz. destruct Hz as [<-|Hz]; [left; exact G|]. rewrite Forall_forall in F. apply F. exact Hz.
  - constructor; [constructor; assumption|]. apply Forall_forall. intros z [<-|Hz].
    + destruct (Nat.eq_dec (snd x) (snd y)) as [E|E]; [right; split; [exact E|apply H; left; reflexivity]|left; lia].
    + rewrite Forall_forall in F. pose proof (F z Hz) as Q. pose proof (H z (or_intror Hz)). destruct Q as [Q|(Q & _)]; [left; lia|]. destruct (Nat.eq_dec (snd x) (snd y)); [right; split; [congruence|assumption]|left; lia].
Qed.
Lemma sort_sorted l : StronglySorted (fun a b => fst a < fst b) l -> StronglySorted R (stable_sort l).
Proof.
  induction 1 as [|x l S IH F]; simpl; [constructor|]. apply insert_sorted; [|exact IH]. intros y Hy. apply (Permutation_in _ (sort_perm l)) in Hy. rewrite Forall_forall in F. apply F. exact Hy.
Qed.
Lemma before_R l : StronglySorted R l -> forall p x, nth_error l p = Some x -> forall y, In y (firstn p l) -> R y x.
Proof.
  induction 1 as [|z l S IH F]; intros p x E y Hy; [destruct p; discriminate|]. destruct p as [|p]; [destruct Hy|]. simpl in E, Hy. destruct Hy as [<-|Hy]; [|apply (IH p x E y Hy)]. rewrite Forall_forall in F. apply F. eapply nth_error_In. exact E.
Qed.
Lemma lookup_in o k t : lookup k o = Some t -> In (k, t) o.
Proof. unfold lookup. intro H. destruct (find _ o) as [(k' & t')|] eqn:E; [|discriminate]. apply find_some in E. destruct E as (E1 & E2). simpl in *. apply Nat.eqb_eq in E2. injection H as <-. subst k'. exact E1. Qed.
Lemma lookup_some o k : In k (map fst o) -> exists t, lookup k o = Some t.
Proof.
  intro H. apply in_map_iff in H. destruct H as ((k' & t) & E & H). simpl in E. subst k'. unfold lookup. destruct (find _ o) as [p|] eqn:Ef; [exists (snd p); reflexivity|]. exfalso. apply (find_none _ _ Ef) in H. simpl in H. rewrite Nat.eqb_refl in H. discriminate.
Qed.
Lemma times_ok o : forall ks, incl ks (map fst o) -> exists w, times ks o = Some w /\ map fst w = ks /\ incl w o.
Proof.
  induction ks as [|k ks IH]; intro H; simpl; [exists []; repeat split; intros x []|]. destruct (lookup_some o k) as (t & E); [apply H; left; reflexivity|]. rewrite E.
  destruct IH as (w & W1 & W2 & W3); [intros x Hx; apply H; right; exact Hx|]. rewrite W1. exists ((k, t) :: w). split; [reflexivity|]. split; [simpl; rewrite W2; reflexivity|]. intros x [<-|Hx]; [apply lookup_in; exact E|apply W3; exact Hx].
Qed.
Lemma seq_sorted : forall n a w, map fst w = seq a n -> StronglySorted (fun a b : nat * nat => fst a < fst b) w.
Proof.
  induction n as [|n IH]; intros a w H; destruct w as [|x w]; try discriminate; [constructor|]. simpl in H. injection H as H1 H2. constructor; [apply (IH (S a)); exact H2|].
  apply Forall_forall. intros y Hy. apply (in_map fst) in Hy. rewrite H2 in Hy. apply in_seq in Hy. lia.
Qed.
Lemma schedule_ok ch : exists order, schedule L m D disks ch = Some order /\ complete L order /\ in_time m order.
Proof.
  unfold schedule. destruct (Nat.leb_spec L D) as [G|G].
  - exists (seq 0 L). split; [reflexivity|]. split; [unfold complete; reflexivity|]. intros p k H. rewrite nth_seq_ in H. destruct (Nat.ltb p L); [|discriminate]. injection H as <-. lia.
  - destruct (simulate_ok ch) as (o & E & P & K). rewrite E. destruct (times_ok o (seq 0 L)) as (w & W1 & W2 & W3); [intros x Hx; apply (Permutation_in _ (Permutation_sym P)); exact Hx|]. rewrite W1.
    exists (map fst (stable_sort w)). split; [reflexivity|]. pose proof (sort_perm w) as SP. split; [unfold complete; rewrite SP, W2; reflexivity|].
    intros p k H. pose proof (sort_sorted w (seq_sorted L 0 w W2)) as SS. rewrite nth_error_map in H. destruct (nth_error (stable_sort w) p) as [(k' & t)|] eqn:En; [|discriminate]. simpl in H. injection H as ->.
    assert (Hin : In (k, t) o) by (apply W3, (Permutation_in _ SP); eapply nth_error_In; exact En). destruct (K k t Hin) as (V & V1 & V2).
    assert (LP : length (map fst (firstn p (stable_sort w))) = p) by (rewrite map_length, firstn_length; apply nth_error_lt in En; lia).
    assert (ND : NoDup (map fst (firstn p (stable_sort w)))).
    { assert (N : NoDup (map fst (stable_sort w))) by (apply (Permutation_NoDup (l := seq 0 L)); [rewrite SP, W2; reflexivity|apply seq_NoDup]). rewrite <- (firstn_skipn p (stable_sort w)), map_app in N. apply nd_l in N. exact N. }
    assert (IN : incl (map fst (firstn p (stable_sort w))) (seq 0 k ++ V)).
    { intros j Hj. apply in_map_iff in Hj. destruct Hj as ((j' & t') & Ej & Hj). simpl in Ej. subst j'. pose proof (before_R _ SS p (k, t) En _ Hj) as Rj. apply in_app_iff.
      assert (Hjo : In (j, t') o) by (apply W3, (Permutation_in _ SP); rewrite <- (firstn_skipn p (stable_sort w)); apply in_app_iff; left; exact Hj).
      destruct (Nat.lt_ge_cases j k) as [Lt|Ge]; [left; apply in_seq; lia|]. right. destruct Rj as [Rj|(Rj & Rk)]; simpl in *; [|lia]. apply (V2 j t'); [|exact Hjo|exact Rj].
      destruct (Nat.eq_dec j k) as [->|]; [|lia]. exfalso. assert (N : NoDup (map fst o)) by (apply (Permutation_NoDup (Permutation_sym P)); apply seq_NoDup).
      assert (t = t'); [|lia]. clear -N Hin Hjo. induction o as [|(a & b) o IH]; [destruct Hin|]. simpl in N. inversion N; subst. destruct Hin as [C1|Hin], Hjo as [C2|Hjo].
      - congruence.
      - injection C1 as -> ->. exfalso. apply H1. apply (in_map fst) in Hjo. exact Hjo.
      - injection C2 as -> ->. exfalso. apply H1. apply (in_map fst) in Hin. exact Hin.
      - apply IH; assumption. }
    pose proof (NoDup_incl_length ND IN) as LE. rewrite LP, app_length, seq_length in LE. lia.
Qed.
End Schedule.
