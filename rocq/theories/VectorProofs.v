From Coq Require Import List Bool Arith Lia.
From Verif Require Import SumLib AsyncIoModel AsyncIoProofs AsyncIoRules StackProofs SequenceProofs VectorModel VectorSpec.
Import ListNotations.

(** * lists *)
Lemma lset_length {B} i (v : B) l : length (lset i v l) = length l.
Proof. revert i. induction l as [|x l IH]; intros [|i]; simpl; auto. Qed.
Lemma lset_eq {B} i (v : B) l : i < length l -> nth_error (lset i v l) i = Some v.
Proof. revert i. induction l as [|x l IH]; intros [|i] H; simpl in *; try lia; auto. apply IH. lia. Qed.
Lemma lset_ne {B} i j (v : B) l : j <> i -> nth_error (lset i v l) j = nth_error l j.
Proof. revert i j. induction l as [|x l IH]; intros [|i] [|j] H; simpl; auto; try lia. Qed.
Lemma lset_comm {B} i j (v w : B) l : i <> j -> lset i v (lset j w l) = lset j w (lset i v l).
Proof. revert i j. induction l as [|x l IH]; intros [|i] [|j] H; simpl; auto; try lia. rewrite IH by lia. reflexivity. Qed.
Lemma nth_error_lt {B} (l : list B) i v : nth_error l i = Some v -> i < length l.
Proof. intro H. apply nth_error_Some. congruence. Qed.
Lemma lt_nth_error {B} (l : list B) i : i < length l -> exists v, nth_error l i = Some v.
Proof. intro H. destruct (nth_error l i) as [v|] eqn:E; [eauto|]. apply nth_error_None in E. lia. Qed.
Lemma lset_some {B} i j (v w : B) l : nth_error (lset i v l) j = Some w -> (j = i /\ w = v) \/ (j <> i /\ nth_error l j = Some w).
Proof.
  intro H. destruct (Nat.eq_dec j i) as [->|N].
  - left. split; [reflexivity|]. pose proof (nth_error_lt _ _ _ H) as L. rewrite lset_length in L. rewrite lset_eq in H by exact L. congruence.
  - right. rewrite lset_ne in H by exact N. auto.
Qed.
Lemma nth_skipn {B} n (l : list B) i : nth_error (skipn n l) i = nth_error l (n + i).
Proof. revert l. induction n as [|n IH]; intros l; [reflexivity|]. destruct l as [|x l]; [destruct i; reflexivity|]. simpl. apply IH. Qed.
Lemma nth_firstn {B} n (l : list B) i : nth_error (firstn n l) i = if Nat.ltb i n then nth_error l i else None.
Proof.
  revert l i. induction n as [|n IH]; intros l i; [destruct i; reflexivity|]. destruct l as [|x l]; [simpl; destruct i; destruct (Nat.ltb _ _); reflexivity|].
  destruct i; simpl; [reflexivity|]. rewrite IH. reflexivity.
Qed.
Lemma nth_app {B} (l m : list B) i : nth_error (l ++ m) i = if Nat.ltb i (length l) then nth_error l i else nth_error m (i - length l).
Proof. destruct (Nat.ltb_spec i (length l)); [apply nth_error_app1|apply nth_error_app2]; lia. Qed.
Lemma nth_repeat {B} (v : B) n i : nth_error (repeat v n) i = if Nat.ltb i n then Some v else None.
Proof. revert i. induction n as [|n IH]; intros [|i]; simpl; auto. rewrite IH. reflexivity. Qed.
Lemma nth_seq_ a n i : nth_error (seq a n) i = if Nat.ltb i n then Some (a + i) else None.
Proof. revert a i. induction n as [|n IH]; intros a [|i]; simpl; auto. rewrite IH. destruct (Nat.ltb_spec i n), (Nat.ltb_spec (Datatypes.S i) (Datatypes.S n)); try lia; [f_equal; lia|reflexivity]. Qed.
Lemma lresize_length {B} n (v : B) l : length (lresize n v l) = n.
Proof. unfold lresize. rewrite app_length, firstn_length, repeat_length. lia. Qed.
Lemma lresize_nth {B} n (v : B) l i : nth_error (lresize n v l) i = if Nat.ltb i n then match nth_error l i with Some x => Some x | None => Some v end else None.
Proof.
  unfold lresize. rewrite nth_app, firstn_length, nth_firstn, nth_repeat. destruct (Nat.ltb_spec i (Nat.min n (length l))).
  - destruct (Nat.ltb_spec i n); [|lia]. destruct (lt_nth_error l i) as (x & ->); [lia|reflexivity].
  - destruct (Nat.ltb_spec i n).
    + destruct (Nat.ltb_spec (i - Nat.min n (length l)) (n - length l)); [|lia]. destruct (nth_error l i) eqn:E; [apply nth_error_lt in E; lia|reflexivity].
    + destruct (Nat.ltb_spec (i - Nat.min n (length l)) (n - length l)); [lia|reflexivity].
Qed.
Lemma replaced_lset {A} i (x : option A) l : i < length l -> replaced i x l = lset i x l.
Proof.
  unfold replaced. revert i. induction l as [|y l IH]; intros i H; simpl in H; [lia|]. destruct i as [|i]; simpl; [reflexivity|].
  rewrite IH by lia. reflexivity.
Qed.
Lemma resized_nth {A} n (l : list (option A)) i v : nth_error (resized n l) i = Some (Some v) -> i < n /\ nth_error l i = Some (Some v).
Proof.
  change (resized n l) with (lresize n None l). rewrite lresize_nth. destruct (Nat.ltb_spec i n); [|discriminate]. destruct (nth_error l i) as [[w|]|]; try discriminate.
  intro E. injection E as <-. auto.
Qed.
Lemma div_ceil_up n d : 1 <= d -> div_ceil n d = up n d.
Proof.
  intro H. unfold div_ceil, up. destruct d as [|d]; [lia|]. pose proof (Nat.div_mod n (S d) ltac:(lia)) as E. pose proof (Nat.mod_upper_bound n (S d) ltac:(lia)) as B.
  destruct (Nat.eqb_spec (n mod S d) 0) as [Z|Z].
  - apply (Nat.div_unique (n + (S d - 1)) (S d) _ d); lia.
  - apply (Nat.div_unique (n + (S d - 1)) (S d) _ (n mod S d - 1)); lia.
Qed.
Lemma up_le n d : 1 <= d -> n <= up n d * d.
Proof. intro H. rewrite <- div_ceil_up by exact H. unfold div_ceil. pose proof (Nat.div_mod n d ltac:(lia)). destruct (Nat.eqb_spec (n mod d) 0); pose proof (Nat.mod_upper_bound n d ltac:(lia)); nia. Qed.
Lemma up_lt n d m : 1 <= d -> m < up n d <-> m * d < n.
Proof.
  intro H. rewrite <- div_ceil_up by exact H. unfold div_ceil. pose proof (Nat.div_mod n d ltac:(lia)) as E. pose proof (Nat.mod_upper_bound n d ltac:(lia)) as B.
  destruct (Nat.eqb_spec (n mod d) 0); split; intro G; nia.
Qed.
Lemma up_mono n m d : 1 <= d -> n <= m -> up n d <= up m d.
Proof. intros H L. unfold up. apply Nat.div_le_mono; lia. Qed.
Lemma up_unique n d m : 1 <= d -> n <= m * d -> up n d <= m.
Proof. intros H G. destruct (Nat.le_gt_cases (up n d) m) as [L|L]; [exact L|]. apply up_lt in L; lia. Qed.

Section Vector.
Variable A : Type.
Variables S P N : nat.
Hypothesis HS : 1 <= S.
Hypothesis HP : 1 <= P.
Hypothesis HN : 1 <= N.
Variable PT : Type.
Variable pinit : PT.
Variable kick : PT -> nat * PT.
Variable hit : nat -> PT -> PT.
Variable PI : PT -> Prop.
Hypothesis PI_init : PI pinit.
Hypothesis PI_kick : forall p, PI p -> fst (kick p) < N /\ PI (snd (kick p)).
Hypothesis PI_hit : forall p i, PI p -> i < N -> PI (hit i p).
Notation sstate := (sstate A).
Notation vst := (vst PT).
Notation vspec := (vspec A).

Lemma page_of i : i / (S * P) = (i / S) / P.
Proof. symmetry. apply Nat.div_div; lia. Qed.
Lemma buf_inj k k' : k / P = k' / P -> k mod P = k' mod P -> k = k'.
Proof. intros H1 H2. rewrite (Nat.div_mod k P), (Nat.div_mod k' P) by lia. rewrite H1, H2. reflexivity. Qed.
Lemma mod_P k : k mod P < P.
Proof. apply Nat.mod_upper_bound. lia. Qed.

Record tinv (lk : bool) (x : vspec) (t : vst) (s : sstate) (F : nat -> bool) : Prop := mk_tinv {
  t_out : sout s = [];
  t_nd : NoDup (v_bids t);
  t_own : incl (v_bids t) (sown s);
  t_lk : lk = false -> incl (sown s) (v_bids t);
  t_size : v_size t = length (vs_l x);
  t_cap : length (vs_l x) <= length (v_bids t) * S;
  t_blocks : length (v_bids t) = vs_blocks x;
  t_pts : length (v_pts t) = vs_pages x;
  t_st : length (v_status t) = vs_pages x;
  t_pages : vs_blocks x <= vs_pages x * P;
  t_stp : length (v_stp t) = N;
  t_PI : PI (v_pager t);
  t_map : forall p sl, nth_error (v_pts t) p = Some (Some sl) -> sl < N /\ nth_error (v_stp t) sl = Some p /\ F sl = false;
  t_free : forall sl, sl < N -> F sl = false -> exists p, nth_error (v_pts t) p = Some (Some sl);
  t_dirty : forall p, nth_error (v_status t) p = Some Dirty -> (exists sl, nth_error (v_pts t) p = Some (Some sl)) /\ p * P < length (v_bids t);
  t_elem : forall i v, nth_error (vs_l x) i = Some (Some v) ->
    nth_error (v_status t) (i / S / P) <> Some Uninit /\
    (nth_error (v_status t) (i / S / P) = Some Valid -> forall b, nth_error (v_bids t) (i / S) = Some b -> sdisk s b (i mod S) = Some v) /\
    (forall sl, nth_error (v_pts t) (i / S / P) = Some (Some sl) -> scont s (v_base t + sl * P + (i / S) mod P) (i mod S) = Some v) }.
Definition vinv lk x t s := tinv lk x t s (fun i => mem i (v_free t)) /\ NoDup (v_free t) /\ (forall i, In i (v_free t) -> i < N).

(** * pages *)
Lemma page_bids_nth (t : vst) p j : nth_error (page_bids P PT t p) j = if Nat.ltb j P then nth_error (v_bids t) (p * P + j) else None.
Proof. unfold page_bids. rewrite nth_firstn, nth_skipn. reflexivity. Qed.
Lemma page_bids_in (t : vst) p b : In b (page_bids P PT t p) -> exists k, nth_error (v_bids t) k = Some b /\ k / P = p.
Proof.
  intro H. apply In_nth_error in H. destruct H as (j & H). rewrite page_bids_nth in H. destruct (Nat.ltb_spec j P); [|discriminate]. exists (p * P + j). split; [exact H|].
  symmetry. apply (Nat.div_unique _ _ p j); lia.
Qed.
Lemma page_bids_nd (t : vst) p : NoDup (v_bids t) -> NoDup (page_bids P PT t p).
Proof.
  intro H. rewrite NoDup_nth_error in *. intros i j Hi E. rewrite !page_bids_nth in E. destruct (lt_nth_error _ _ Hi) as (v & Ev). rewrite page_bids_nth in Ev.
  destruct (Nat.ltb i P); [|discriminate]. destruct (Nat.ltb j P); [|congruence]. assert (p * P + i = p * P + j); [|lia]. apply H; [eapply nth_error_lt; eassumption|congruence].
Qed.
Lemma page_bids_at (t : vst) p sl k b : nth_error (v_bids t) k = Some b -> k / P = p ->
  In (v_base t + sl * P + k mod P, b) (combine (slot_bufs P PT t sl (length (page_bids P PT t p))) (page_bids P PT t p)).
Proof.
  intros H E. pose proof (mod_P k) as M. assert (K : p * P + k mod P = k) by (rewrite <- E, Nat.mul_comm; symmetry; apply Nat.div_mod; lia).
  assert (B : nth_error (page_bids P PT t p) (k mod P) = Some b) by (rewrite page_bids_nth, K; destruct (Nat.ltb_spec (k mod P) P); [exact H|lia]).
  apply (combine_nth_in _ _ (k mod P)); [|exact B]. unfold slot_bufs. rewrite nth_seq_. apply nth_error_lt in B. destruct (Nat.ltb_spec (k mod P) (length (page_bids P PT t p))); [reflexivity|lia].
Qed.
Lemma page_bids_pos (t : vst) p : p * P < length (v_bids t) -> length (page_bids P PT t p) <> 0.
Proof. intro H. unfold page_bids. rewrite firstn_length, skipn_length. lia. Qed.
Lemma page_bids_le (t : vst) p : length (page_bids P PT t p) <= P.
Proof. unfold page_bids. rewrite firstn_length. lia. Qed.

Definition cleaned (st : status) (p : nat) (t : vst) : vst := match st with Dirty => with_status t (lset p Valid (v_status t)) | _ => t end.
Definition is_dirty (st : status) : bool := match st with Dirty => true | _ => false end.
Lemma write_page_ok p sl t s st : sout s = [] -> NoDup (v_bids t) -> incl (v_bids t) (sown s) -> nth_error (v_status t) p = Some st -> (st = Dirty -> p * P < length (v_bids t)) ->
  ok (write_page A P PT p sl t) s (fun t' s' => t' = cleaned st p t /\ scont s' = scont s /\ sout s' = [] /\ sown s' = sown s /\
    (forall k b, nth_error (v_bids t) k = Some b -> sdisk s' b = if is_dirty st && Nat.eqb (k / P) p then scont s (v_base t + sl * P + k mod P) else sdisk s b)).
Proof.
  intros Ho ND OW Es Hd. unfold write_page. rewrite Es. destruct st; try (apply ok_ret; simpl; auto; fail).
  destruct (Nat.eqb_spec (length (page_bids P PT t p)) 0) as [Z|_]; [exfalso; exact (page_bids_pos t p (Hd eq_refl) Z)|].
  unfold ok. rewrite srun_write_all.
  - rewrite srun_wait_all. rewrite Ho. simpl. rewrite drops_new_nil.
    split; [reflexivity|]. split; [reflexivity|]. split; [reflexivity|]. split; [reflexivity|]. intros k b Hk. destruct (Nat.eqb_spec (k / P) p) as [E|E].
    + apply wr_disk_at; [apply page_bids_nd; exact ND|]. apply page_bids_at; assumption.
    + apply wr_disk_other. intro C. apply page_bids_in in C. destruct C as (k' & Hk' & E'). apply E. rewrite <- E'. f_equal.
      rewrite NoDup_nth_error in ND. apply ND; [eapply nth_error_lt; eassumption|congruence].
  - unfold slot_bufs. apply seq_length.
  - apply page_bids_nd. exact ND.
  - intros b Hb. apply page_bids_in in Hb. destruct Hb as (k & Hk & _). apply OW. eapply nth_error_In. eassumption.
  - rewrite Ho. intros r [].
  - rewrite Ho. intros r [].
Qed.
Lemma read_page_ok p sl t s st : sout s = [] -> incl (v_bids t) (sown s) -> nth_error (v_status t) p = Some st -> p * P < length (v_bids t) ->
  ok (read_page A P PT p sl t) s (fun _ s' => sdisk s' = sdisk s /\ sout s' = [] /\ sown s' = sown s /\
    (forall y, y < v_base t + sl * P \/ v_base t + sl * P + P <= y -> scont s' y = scont s y) /\
    (st <> Uninit -> forall k b, nth_error (v_bids t) k = Some b -> k / P = p -> scont s' (v_base t + sl * P + k mod P) = sdisk s b)).
Proof.
  intros Ho OW Es Hd. unfold read_page. rewrite Es.
  assert (G : ok (if Nat.eqb (length (page_bids P PT t p)) 0 then Err else read_all (slot_bufs P PT t sl (length (page_bids P PT t p))) (page_bids P PT t p) (fun qs => wait_all qs (Ret tt))) s
    (fun _ s' => sdisk s' = sdisk s /\ sout s' = [] /\ sown s' = sown s /\
    (forall y, y < v_base t + sl * P \/ v_base t + sl * P + P <= y -> scont s' y = scont s y) /\
    (st <> Uninit -> forall k b, nth_error (v_bids t) k = Some b -> k / P = p -> scont s' (v_base t + sl * P + k mod P) = sdisk s b))).
  { destruct (Nat.eqb_spec (length (page_bids P PT t p)) 0) as [Z|_]; [exfalso; exact (page_bids_pos t p Hd Z)|].
    unfold ok. rewrite srun_read_all.
    - rewrite srun_wait_all. rewrite Ho. simpl. rewrite drops_new_nil.
      split; [reflexivity|]. split; [reflexivity|]. split; [reflexivity|]. split.
      + intros y Hy. apply rd_cont_other. unfold slot_bufs. rewrite in_seq. pose proof (page_bids_le t p). lia.
      + intros _ k b Hk E. apply rd_cont_at; [apply seq_NoDup|]. apply page_bids_at; assumption.
    - unfold slot_bufs. apply seq_length.
    - apply seq_NoDup.
    - intros b Hb. apply page_bids_in in Hb. destruct Hb as (k & Hk & _). apply OW. eapply nth_error_In. eassumption.
    - rewrite Ho. intros r [].
    - rewrite Ho. intros r []. }
  destruct st; try exact G. apply ok_ret. repeat split; auto. intros C. congruence.
Qed.

(** * the invariant under the elementary steps *)
Lemma tinv_ext lk x t s F F' : tinv lk x t s F -> (forall i, i < N -> F' i = F i) -> tinv lk x t s F'.
Proof.
  intros [] H. constructor; auto.
  - intros p sl E. destruct (t_map0 p sl E) as (H1 & H2 & H3). rewrite H by exact H1. auto.
  - intros sl H1 H2. rewrite H in H2 by exact H1. auto.
Qed.
Lemma tinv_pager lk x t s F pg : tinv lk x t s F -> PI pg -> tinv lk x (with_pager t pg) s F.
Proof. intros [] H. constructor; auto. Qed.
Lemma tinv_freelist lk x t s F fr : tinv lk x t s F -> tinv lk x (with_map t (v_pts t) (v_stp t) fr) s F.
Proof. intros []. constructor; auto. Qed.

Lemma evict_inv lk x t s F p sl st s' : tinv lk x t s F -> nth_error (v_pts t) p = Some (Some sl) -> nth_error (v_status t) p = Some st ->
  scont s' = scont s -> sout s' = [] -> sown s' = sown s ->
  (forall k b, nth_error (v_bids t) k = Some b -> sdisk s' b = if is_dirty st && Nat.eqb (k / P) p then scont s (v_base t + sl * P + k mod P) else sdisk s b) ->
  tinv lk x (with_map (cleaned st p t) (lset p None (v_pts t)) (v_stp t) (v_free t)) s' (fun i => Nat.eqb i sl || F i).
Proof.
  intros I Hp Hst E1 E2 E3 E4. destruct (t_map _ _ _ _ _ I p sl Hp) as (M1 & M2 & M3).
  assert (Lst : p < length (v_status t)) by (eapply nth_error_lt; eassumption). assert (Lpt : p < length (v_pts t)) by (eapply nth_error_lt; eassumption).
  assert (Q : forall p', nth_error (v_status (cleaned st p t)) p' = if Nat.eqb p' p then (match st with Dirty => Some Valid | _ => Some st end) else nth_error (v_status t) p').
  { intro p'. destruct (Nat.eqb_spec p' p) as [->|D]; destruct st; simpl; auto; [apply lset_eq; exact Lst|apply lset_ne; exact D]. }
  assert (B : v_bids (cleaned st p t) = v_bids t /\ v_size (cleaned st p t) = v_size t /\ v_pager (cleaned st p t) = v_pager t /\ v_base (cleaned st p t) = v_base t /\ length (v_status (cleaned st p t)) = length (v_status t)).
  { destruct st; simpl; auto. rewrite lset_length. auto. }
  destruct B as (B1 & B2 & B3 & B4 & B5). destruct I. constructor; simpl; rewrite ?B1, ?B2, ?B3, ?B4, ?B5, ?E1, ?E2, ?E3, ?lset_length; auto.
  - intros p' sl' H. apply lset_some in H. destruct H as [(-> & H)|(D & H)]; [discriminate|]. destruct (t_map0 p' sl' H) as (G1 & G2 & G3). split; [exact G1|]. split; [exact G2|].
    apply orb_false_iff. split; [|exact G3]. apply Nat.eqb_neq. intros ->. congruence.
  - intros sl' H1 H2. apply orb_false_iff in H2. destruct H2 as (H2 & H3). apply Nat.eqb_neq in H2. destruct (t_free0 sl' H1 H3) as (p' & H). exists p'.
    rewrite lset_ne; [exact H|]. intros ->. congruence.
  - intros p' H. rewrite Q in H. destruct (Nat.eqb_spec p' p) as [D|D]; [destruct st; discriminate|]. rewrite lset_ne by exact D. apply t_dirty0. exact H.
  - intros i v H. destruct (t_elem0 i v H) as (G1 & G2 & G3). rewrite Q. split; [|split].
    + destruct (Nat.eqb_spec (i / S / P) p) as [D|D]; [|exact G1]. rewrite D, Hst in G1. destruct st; congruence.
    + intros H1 b Hb. rewrite (E4 _ _ Hb). destruct (Nat.eqb_spec (i / S / P) p) as [D|D].
      * rewrite D in *. destruct st; simpl in *; try (apply G2; [congruence|exact Hb]). apply G3. exact Hp.
      * rewrite andb_false_r. apply G2; assumption.
    + intros sl' H1. apply lset_some in H1. destruct H1 as [(_ & H1)|(D & H1)]; [discriminate|]. apply G3. exact H1.
Qed.
Lemma slot_disj base a b k : a <> b -> k < P -> base + a * P + k < base + b * P \/ base + b * P + P <= base + a * P + k.
Proof. intros H K. destruct (Nat.lt_ge_cases a b); [left|right]; nia. Qed.
Lemma load_inv lk x t s F p sl st s' fr : tinv lk x t s F -> nth_error (v_pts t) p = Some None -> nth_error (v_status t) p = Some st -> sl < N -> F sl = true ->
  sdisk s' = sdisk s -> sout s' = [] -> sown s' = sown s ->
  (forall y, y < v_base t + sl * P \/ v_base t + sl * P + P <= y -> scont s' y = scont s y) ->
  (st <> Uninit -> forall k b, nth_error (v_bids t) k = Some b -> k / P = p -> scont s' (v_base t + sl * P + k mod P) = sdisk s b) ->
  tinv lk x (with_map t (lset p (Some sl) (v_pts t)) (lset sl p (v_stp t)) fr) s' (fun i => negb (Nat.eqb i sl) && F i).
Proof.
  intros I Hp Hst Hsl HF E1 E2 E3 E4 E5. assert (Lpt : p < length (v_pts t)) by (eapply nth_error_lt; eassumption).
  assert (Lb : forall i v, nth_error (vs_l x) i = Some (Some v) -> exists b, nth_error (v_bids t) (i / S) = Some b).
  { intros i v H. apply lt_nth_error. apply nth_error_lt in H. pose proof (t_cap _ _ _ _ _ I). apply Nat.div_lt_upper_bound; [lia|]. rewrite Nat.mul_comm. lia. }
  destruct I. constructor; simpl; rewrite ?E1, ?E2, ?E3, ?lset_length; auto.
  - intros p' sl' H. apply lset_some in H. destruct H as [(-> & H)|(D & H)].
    + injection H as ->. split; [exact Hsl|]. split; [apply lset_eq; lia|]. rewrite Nat.eqb_refl. reflexivity.
    + destruct (t_map0 p' sl' H) as (G1 & G2 & G3). split; [exact G1|]. assert (sl' <> sl) by congruence. split; [rewrite lset_ne by assumption; exact G2|]. rewrite G3. apply andb_false_r.
  - intros sl' H1 H2. apply andb_false_iff in H2. destruct (Nat.eq_dec sl' sl) as [->|D].
    + exists p. apply lset_eq. exact Lpt.
    + destruct H2 as [H2|H2]; [apply negb_false_iff, Nat.eqb_eq in H2; congruence|]. destruct (t_free0 sl' H1 H2) as (p' & H). exists p'. rewrite lset_ne; [exact H|]. intros ->. congruence.
  - intros p' H. destruct (t_dirty0 p' H) as ((sl' & G1) & G2). split; [|exact G2]. exists sl'. rewrite lset_ne; [exact G1|]. intros ->. congruence.
  - intros i v H. destruct (t_elem0 i v H) as (G1 & G2 & G3). split; [exact G1|]. split; [exact G2|].
    intros sl' H1. apply lset_some in H1. destruct H1 as [(D & H1)|(D & H1)].
    + injection H1 as ->. destruct (Lb i v H) as (b & Hb). rewrite D in *. rewrite (E5 ltac:(congruence) _ _ Hb D). apply G2; [|exact Hb].
      destruct st; [exact Hst|congruence|]. destruct (t_dirty0 p Hst) as ((sl' & C) & _). congruence.
    + rewrite E4; [apply G3; exact H1|]. apply slot_disj; [|apply mod_P]. intros ->. destruct (t_map0 _ _ H1) as (_ & _ & C). congruence.
Qed.
Lemma mark_inv lk x t s F p sl : tinv lk x t s F -> nth_error (v_pts t) p = Some (Some sl) -> p * P < length (v_bids t) ->
  tinv lk x (with_status t (lset p Dirty (v_status t))) s F.
Proof.
  intros I Hp Hd. assert (Lst : p < length (v_status t)) by (rewrite (t_st _ _ _ _ _ I), <- (t_pts _ _ _ _ _ I); eapply nth_error_lt; eassumption).
  destruct I. constructor; simpl; rewrite ?lset_length; auto.
  - intros p' H. apply lset_some in H. destruct H as [(-> & _)|(D & H)]; [eauto|apply t_dirty0; exact H].
  - intros i v H. destruct (t_elem0 i v H) as (G1 & G2 & G3). split; [|split; [|exact G3]].
    + intro C. apply lset_some in C. destruct C as [(_ & C)|(_ & C)]; [discriminate|exact (G1 C)].
    + intros C b Hb. apply lset_some in C. destruct C as [(_ & C)|(_ & C)]; [discriminate|]. apply G2; assumption.
Qed.

(** where element i is, and that its page is marked *)
Definition at_ (mark : bool) (i : nat) (t : vst) (r : nat * nat) (sl : nat) : Prop :=
  nth_error (v_pts t) (i / S / P) = Some (Some sl) /\ r = (v_base t + sl * P + (i / S) mod P, i mod S) /\
  (mark = true -> nth_error (v_status t) (i / S / P) = Some Dirty).
Lemma page_blk lk x t s F i : tinv lk x t s F -> i / S < length (v_bids t) -> i / S / P < length (v_pts t) /\ i / S / P * P < length (v_bids t) /\ i / S < length (v_bids t).
Proof.
  intros I B. assert (E : i / S / P * P <= i / S) by (rewrite Nat.mul_comm; apply Nat.mul_div_le; lia).
  pose proof (t_pages _ _ _ _ _ I) as G. rewrite <- (t_blocks _ _ _ _ _ I), <- (t_pts _ _ _ _ _ I) in G. split; [|lia]. apply Nat.div_lt_upper_bound; [lia|]. rewrite Nat.mul_comm. lia.
Qed.
Lemma page_in lk x t s F i : tinv lk x t s F -> i < length (vs_l x) -> i / S / P < length (v_pts t) /\ i / S / P * P < length (v_bids t) /\ i / S < length (v_bids t).
Proof.
  intros I Hi. apply (page_blk lk x t s F i I). pose proof (t_cap _ _ _ _ _ I) as C. apply Nat.div_lt_upper_bound; [lia|]; rewrite Nat.mul_comm; lia.
Qed.
Lemma locate_post lk x t s F mark i sl fr (Q : vst * (nat * nat) -> sstate -> Prop) : 
  tinv lk x (with_map t (v_pts t) (v_stp t) fr) s F -> i / S < length (v_bids t) -> nth_error (v_pts t) (i / S / P) = Some (Some sl) ->
  (forall t' r, tinv lk x t' s F -> at_ mark i t' r sl -> v_free t' = v_free t -> v_base t' = v_base t -> v_pager t' = v_pager t -> v_pts t' = v_pts t -> v_stp t' = v_stp t -> (forall p, nth_error (v_status t) p = Some Dirty -> nth_error (v_status t') p = Some Dirty) -> Q (t', r) s) ->
  ok (Ret (let t := if mark then with_status t (lset (i / S / P) Dirty (v_status t)) else t in (t, (v_base t + sl * P + (i / S) mod P, i mod S)))) s Q.
Proof.
  intros I Hi Hp K. apply ok_ret. assert (I' : tinv lk x t s F) by (destruct I; constructor; auto). clear I.
  destruct (page_blk _ _ _ _ _ i I' Hi) as (L1 & L2 & L3). destruct mark; apply K; auto.
  - apply (mark_inv lk x t s F _ sl); assumption.
  - split; [exact Hp|]. split; [reflexivity|]. intros _. apply lset_eq. rewrite (t_st _ _ _ _ _ I'), <- (t_pts _ _ _ _ _ I'). exact L1.
  - intros p H. simpl. destruct (Nat.eq_dec p (i / S / P)) as [->|D]; [apply lset_eq; eapply nth_error_lt; eassumption|rewrite lset_ne by exact D; exact H].
  - split; [exact Hp|]. split; [reflexivity|]. discriminate.
Qed.
(** the next page to be thrown out is not one that was just hit *)
Definition keeps (t t' : vst) : Prop := forall p sl, nth_error (v_pts t) p = Some (Some sl) -> fst (kick (v_pager t)) <> sl ->
  nth_error (v_pts t') p = Some (Some sl) /\ (nth_error (v_status t) p = Some Dirty -> nth_error (v_status t') p = Some Dirty).
Lemma locate_blk lk x t s mark i : vinv lk x t s -> i / S < length (v_bids t) ->
  ok (locate A S P PT kick hit mark i t) s (fun r s' => vinv lk x (fst r) s' /\ (exists sl pg, at_ mark i (fst r) (snd r) sl /\ sl < N /\ PI pg /\ v_pager (fst r) = hit sl pg) /\ v_base (fst r) = v_base t /\ keeps t (fst r)).
Proof.
  intros (I & NF & LF) Hi. destruct (page_blk _ _ _ _ _ i I Hi) as (L1 & L2 & L3). unfold locate. rewrite page_of. set (p := i / S / P) in *.
  destruct (lt_nth_error _ _ L1) as (m & Em). rewrite Em. destruct m as [sl|].
  - destruct (t_map _ _ _ _ _ I p sl Em) as (M1 & M2 & M3).
    apply (locate_post lk x (with_pager t (hit sl (v_pager t))) s (fun i => mem i (v_free t)) mark i sl (v_free t)); auto.
    + apply tinv_freelist. apply tinv_pager; [exact I|]. apply PI_hit; [apply I|exact M1].
    + intros t' r I' A' E1 E2 E3 E4 _ E5. simpl in *. split; [|split; [exists sl, (v_pager t); rewrite E3; auto using (t_PI _ _ _ _ _ I)|split; [exact E2|]]].
      * unfold vinv. rewrite E1. auto.
      * intros p0 sl0 H0 _. rewrite E4. auto.
  - destruct (v_free t) as [|sl fr] eqn:EF.
    + pose proof (PI_kick _ (t_PI _ _ _ _ _ I)) as (K1 & K2). destruct (kick (v_pager t)) as (sl & pg) eqn:EK. simpl in K1, K2.
      destruct (t_free _ _ _ _ _ I sl K1 eq_refl) as (old & Eo). destruct (t_map _ _ _ _ _ I old sl Eo) as (_ & M2 & _). rewrite M2.
      assert (Lo : old < length (v_pts t)) by (eapply nth_error_lt; eassumption). destruct (Nat.leb_spec (length (v_pts t)) old); [lia|].
      assert (Lst : old < length (v_status t)) by (rewrite (t_st _ _ _ _ _ I), <- (t_pts _ _ _ _ _ I); exact Lo). destruct (lt_nth_error _ _ Lst) as (sto & Esto).
      assert (Lsp : p < length (v_status t)) by (rewrite (t_st _ _ _ _ _ I), <- (t_pts _ _ _ _ _ I); exact L1). destruct (lt_nth_error _ _ Lsp) as (stp & Estp).
      assert (D : p <> old) by congruence. cbv zeta.
      set (t1 := with_map _ _ _ _). apply ok_bind. eapply ok_imp; [apply (write_page_ok old sl t1 s sto (t_out _ _ _ _ _ I) (t_nd _ _ _ _ _ I) (t_own _ _ _ _ _ I) Esto)|].
      { intros ->. apply (t_dirty _ _ _ _ _ I). exact Esto. }
      intros t2 s2 (-> & C1 & C2 & C3 & C4). simpl in C4.
      pose proof (tinv_pager _ _ _ _ _ (hit sl pg) (evict_inv lk x t s _ old sl sto s2 I Eo Esto C1 C2 C3 C4) (PI_hit _ _ K2 K1)) as I2. simpl in I2.
      set (t3 := with_pager _ _) in I2.
      assert (B : v_bids (cleaned sto old t1) = v_bids t /\ v_base (cleaned sto old t1) = v_base t /\ v_status (cleaned sto old t1) = v_status t3 /\ v_size (cleaned sto old t1) = v_size t /\ v_free (cleaned sto old t1) = [] /\ v_pager (cleaned sto old t1) = hit sl pg /\
         v_pts (cleaned sto old t1) = lset p (Some sl) (v_pts t3) /\ v_stp (cleaned sto old t1) = lset sl p (v_stp t3) /\ v_bids t3 = v_bids t /\ v_base t3 = v_base t /\ v_free t3 = [] /\ v_size t3 = v_size t /\ v_pager t3 = hit sl pg).
      { unfold t3, t1, cleaned. destruct sto; simpl; rewrite (lset_comm old p) by auto; auto 20. }
      destruct B as (B1 & B2 & B3 & B4 & B5 & B6 & B7 & B8 & B9 & B10 & B11 & B12 & B13).
      assert (Stp : nth_error (v_status t3) p = Some stp) by (unfold t3, cleaned; destruct sto; simpl; auto; rewrite lset_ne by exact D; exact Estp).
      apply ok_bind. eapply ok_imp; [apply (read_page_ok p sl _ s2 stp)|].
      { exact C2. } { rewrite B1, C3. apply I. } { rewrite B3. exact Stp. } { rewrite B1. exact L2. }
      intros [] s4 (R1 & R2 & R3 & R4 & R5). rewrite B1, B2 in *.
      pose proof (load_inv lk x t3 s2 _ p sl stp s4 [] I2) as I4. rewrite B9, B10 in I4. specialize (I4 ltac:(unfold t3; simpl; rewrite lset_ne by exact D; exact Em) Stp K1 ltac:(rewrite Nat.eqb_refl; reflexivity) R1 R2 R3 R4 R5).
      apply (locate_post lk x (cleaned sto old t1) s4 (fun _ => false) mark i sl []); auto.
      * apply (tinv_ext _ _ _ _ _ (fun _ => false)) in I4; [|intros j Hj; simpl; destruct (Nat.eqb j sl); reflexivity].
        destruct I4. constructor; simpl in *; rewrite ?B1, ?B2, ?B3, ?B4, ?B5, ?B6, ?B7, ?B8; rewrite ?B9, ?B10, ?B11, ?B12, ?B13 in *; auto.
      * rewrite B1. exact Hi.
      * fold p. rewrite B7. apply lset_eq. unfold t3. simpl. rewrite lset_length. exact L1.
      * intros t' r I' A' E1 E2 E3 E4 _ E5. simpl in *. split; [|split; [exists sl, pg; rewrite E3, B6; auto|split; [congruence|]]].
        { unfold vinv. rewrite E1, B5. simpl. split; [exact I'|]. split; [constructor|intros j []]. }
        intros p0 sl0 H0 D0. simpl. rewrite EK in D0. simpl in D0.
        assert (D1 : p0 <> old) by congruence. assert (D2 : p0 <> p) by congruence.
        rewrite E4, B7, lset_ne by exact D2. split; [unfold t3; simpl; rewrite lset_ne by exact D1; exact H0|]. intro Hd. apply E5. rewrite B3.
        unfold t3, cleaned. destruct sto; simpl; auto. rewrite lset_ne by exact D1. exact Hd.
    + inversion NF as [|a b NF1 NF2]; subst. assert (Hsl : sl < N) by (apply LF; left; reflexivity).
      cbv zeta. change (v_stp (with_pager t (hit sl (v_pager t)))) with (v_stp t). rewrite (t_stp _ _ _ _ _ I). destruct (Nat.leb_spec N sl); [lia|].
      assert (Lsp : p < length (v_status t)) by (rewrite (t_st _ _ _ _ _ I), <- (t_pts _ _ _ _ _ I); exact L1). destruct (lt_nth_error _ _ Lsp) as (stp & Estp).
      set (t1 := with_map _ _ _ _). apply ok_bind. eapply ok_imp; [apply (read_page_ok p sl t1 s stp (t_out _ _ _ _ _ I) (t_own _ _ _ _ _ I) Estp L2)|]. cbv beta.
      intros [] s2 (R1 & R2 & R3 & R4 & R5). simpl in R4, R5.
      pose proof (load_inv lk x t s _ p sl stp s2 fr I Em Estp Hsl ltac:(simpl; rewrite Nat.eqb_refl; reflexivity) R1 R2 R3 R4 R5) as I2.
      apply (locate_post lk x t1 s2 (fun i => mem i fr) mark i sl fr); auto.
      * apply (tinv_pager _ _ _ _ _ (hit sl (v_pager t))) in I2; [|apply PI_hit; [apply I|exact Hsl]].
        apply (tinv_ext _ _ _ _ _ (fun i => mem i fr)) in I2; [|intros j Hj; simpl; rewrite (Nat.eqb_sym sl j); destruct (Nat.eqb_spec j sl) as [->|E]; simpl; [apply mem_nin; exact NF1|reflexivity]].
        destruct I2. constructor; auto.
      * simpl. apply lset_eq. exact L1.
      * intros t' r I' A' E1 E2 E3 E4 _ E5. simpl in *. split; [|split; [exists sl, (v_pager t); rewrite E3; auto using (t_PI _ _ _ _ _ I)|split; [exact E2|]]].
        { unfold vinv. rewrite E1. simpl. split; [exact I'|]. split; [exact NF2|]. intros j Hj. apply LF. right. exact Hj. }
        intros p0 sl0 H0 _. simpl. rewrite E4. assert (p0 <> p) by congruence. rewrite lset_ne by assumption. auto.
Qed.
Lemma locate_ok lk x t s mark i : vinv lk x t s -> i < length (vs_l x) ->
  ok (locate A S P PT kick hit mark i t) s (fun r s' => vinv lk x (fst r) s' /\ (exists sl pg, at_ mark i (fst r) (snd r) sl /\ sl < N /\ PI pg /\ v_pager (fst r) = hit sl pg) /\ v_base (fst r) = v_base t /\ keeps t (fst r)).
Proof. intros I Hi. apply locate_blk; [exact I|]. apply (page_in _ _ _ _ _ i (proj1 I) Hi). Qed.

(** * elements *)
Lemma elem_addr_inj sl sl' i i' base : i / S / P = i' / S / P -> base + sl * P + (i / S) mod P = base + sl' * P + (i' / S) mod P -> i mod S = i' mod S -> sl = sl' -> i = i'.
Proof.
  intros H1 H2 H3 ->. assert (E : i / S = i' / S) by (apply buf_inj; [exact H1|lia]). rewrite (Nat.div_mod i S), (Nat.div_mod i' S) by lia. rewrite E, H3. reflexivity.
Qed.
Lemma put_inv lk x t s F i sl v c : tinv lk x t s F -> i < length (vs_l x) -> nth_error (v_pts t) (i / S / P) = Some (Some sl) -> nth_error (v_status t) (i / S / P) = Some Dirty ->
  (forall u, v = Some u -> c = Some u) ->
  tinv lk (mk_vs (lset i v (vs_l x)) (vs_blocks x) (vs_pages x)) t
    (with_cont A s (upd2 (scont s) (v_base t + sl * P + (i / S) mod P) (i mod S) c)) F.
Proof.
  intros I Hi Hp Hd Hc. destruct I. constructor; simpl; rewrite ?lset_length; auto.
  intros i' w H. apply lset_some in H. destruct H as [(-> & H)|(D & H)].
  - symmetry in H. split; [congruence|]. split; [congruence|]. intros sl' H'. assert (sl' = sl) as -> by congruence. rewrite <- (Hc w H). apply upd2_at.
  - destruct (t_elem0 i' w H) as (G1 & G2 & G3). split; [exact G1|]. split; [exact G2|]. intros sl' H'. rewrite upd2_ne; [apply G3; exact H'|].
    destruct (Nat.eq_dec (i' mod S) (i mod S)) as [E1|E1]; [left|auto]. intro E2. destruct (Nat.eq_dec sl' sl) as [->|E3].
    + destruct (t_map0 _ _ Hp) as (_ & M1 & _). destruct (t_map0 _ _ H') as (_ & M2 & _). apply D. symmetry. apply (elem_addr_inj sl sl i i' (v_base t)); auto; congruence.
    + pose proof (slot_disj (v_base t) sl' sl ((i' / S) mod P) E3 (mod_P _)). pose proof (mod_P (i / S)). lia.
Qed.
Lemma vinv_weaken lk x t s : vinv lk x t s -> vinv true x t s.
Proof. intros ([] & H1 & H2). split; [|split; assumption]. constructor; auto. discriminate. Qed.
Definition put_at (i : nat) (v : option A) (x : vspec) : vspec := mk_vs (lset i v (vs_l x)) (vs_blocks x) (vs_pages x).
Lemma set_ok lk x t s i v : vinv lk x t s -> i < length (vs_l x) -> ok (set A S P PT kick hit i v t) s (fun t' s' => vinv lk (put_at i (Some v) x) t' s').
Proof.
  intros I Hi. unfold set. apply ok_bind. eapply ok_imp; [apply (locate_ok lk x t s true i I Hi)|]. intros (t' & r) s' ((I' & N1 & N2) & (sl & pg & (A1 & A2 & A3) & _) & _). simpl in *.
  apply ok_put; [apply I'|]. apply ok_ret. split; [|split; assumption]. subst r. simpl. apply put_inv; auto.
Qed.
Lemma get_ok lk x t s mark i v : vinv lk x t s -> nth_error (vs_l x) i = Some (Some v) -> ok (get A S P PT kick hit mark i t) s (fun r s' => vinv lk x (fst r) s' /\ snd r = v).
Proof.
  intros I Hi. assert (Li : i < length (vs_l x)) by (eapply nth_error_lt; eassumption). unfold get. apply ok_bind. eapply ok_imp; [apply (locate_ok lk x t s mark i I Li)|].
  intros (t' & r) s' (I' & (sl & pg & (A1 & A2 & A3) & _) & _). simpl in *.
  apply (ok_get A _ _ _ v); [apply I'| |apply ok_ret; auto]. subst r. simpl. apply (t_elem _ _ _ _ _ (proj1 I') i v Hi). exact A1.
Qed.

(** * capacity *)
Lemma ok_alloc R n (k : list nat -> prog A R) s (Q : R -> sstate -> Prop) :
  (forall bs al, length bs = n -> NoDup bs -> (forall b, In b bs -> ~ In b (sown s)) ->
    ok (k bs) (mk_sstate (scont s) (fun b => if mem b bs then (fun _ => None) else sdisk s b) (sout s) (bs ++ sown s) (snext s) al) Q) -> ok (DoAlloc n k) s Q.
Proof.
  intro K. unfold ok in *. simpl. destruct (salloc s) as [|bs al]; [exact I|]. destruct (good_alloc n (sown s) bs) eqn:E; [|exact I].
  apply good_alloc_spec in E. destruct E as (E1 & E2 & E3). apply K; assumption.
Qed.
Lemma ok_free R bs (k : prog A R) s (Q : R -> sstate -> Prop) : sout s = [] -> NoDup bs -> incl bs (sown s) ->
  ok k (mk_sstate (scont s) (sdisk s) [] (without bs (sown s)) (snext s) (salloc s)) Q -> ok (DoFree bs k) s Q.
Proof.
  intros Ho Hn Hi K. unfold ok in *. simpl. rewrite Ho. simpl. rewrite (proj2 (nodup_spec _) Hn). simpl. rewrite orb_false_r.
  replace (existsb (fun b => negb (mem b (sown s))) bs) with false; [exact K|]. symmetry. apply existsb_false. intros b Hb. apply negb_false_iff, mem_in, Hi, Hb.
Qed.
(** the mapping stays, more pages may be added *)
Definition stays (t t' : vst) : Prop := v_pager t' = v_pager t /\ v_base t' = v_base t /\
  (forall p m, nth_error (v_pts t) p = Some m -> nth_error (v_pts t') p = Some m) /\ (forall p m, nth_error (v_status t) p = Some m -> nth_error (v_status t') p = Some m).
Lemma stays_refl t : stays t t. Proof. repeat split; auto. Qed.
Lemma blk_lt lk x t s F i v : tinv lk x t s F -> nth_error (vs_l x) i = Some v -> i / S < length (v_bids t).
Proof. intros I H. apply nth_error_lt in H. apply (page_in _ _ _ _ _ i I H). Qed.
Lemma reserve_ok lk x t s n y : vinv lk x t s -> grow S P n x = Some y -> ok (reserve A S P PT n t) s (fun t' s' => vinv lk y t' s' /\ stays t t' /\ v_size t' = v_size t /\ n <= vs_blocks y * S /\ vs_l y = vs_l x).
Proof.
  intros (I & N1 & N2) G. unfold grow in G. unfold reserve. rewrite (t_blocks _ _ _ _ _ I). destruct (Nat.leb_spec n (vs_blocks x * S)) as [L|L].
  { injection G as <-. apply ok_ret. split; [split; auto|]. split; [apply stays_refl|]. auto. }
  destruct (Nat.leb_spec (vs_pages x) (up (up n S) P)) as [L'|L']; [|discriminate]. injection G as <-. rewrite !div_ceil_up by assumption. set (nb := up n S) in *. set (np := up nb P) in *.
  assert (LB : vs_blocks x < nb) by (apply up_lt; assumption).
  apply ok_alloc. intros bs al B1 B2 B3. apply ok_ret. simpl.
  assert (X1 : forall p m, nth_error (v_pts t) p = Some m -> nth_error (lresize np None (v_pts t)) p = Some m).
  { intros p m H. rewrite lresize_nth, H. apply nth_error_lt in H. rewrite (t_pts _ _ _ _ _ I) in H. destruct (Nat.ltb_spec p np); [reflexivity|lia]. }
  assert (X2 : forall p m, nth_error (v_status t) p = Some m -> nth_error (lresize np Uninit (v_status t)) p = Some m).
  { intros p m H. rewrite lresize_nth, H. apply nth_error_lt in H. rewrite (t_st _ _ _ _ _ I) in H. destruct (Nat.ltb_spec p np); [reflexivity|lia]. }
  assert (X1' : forall p m, nth_error (lresize np None (v_pts t)) p = Some (Some m) -> nth_error (v_pts t) p = Some (Some m)).
  { intros p m H. rewrite lresize_nth in H. destruct (Nat.ltb p np); [|discriminate]. destruct (nth_error (v_pts t) p); [exact H|discriminate]. }
  assert (X2' : forall p m, m <> Uninit -> nth_error (lresize np Uninit (v_status t)) p = Some m -> nth_error (v_status t) p = Some m).
  { intros p m D H. rewrite lresize_nth in H. destruct (Nat.ltb p np); [|discriminate]. destruct (nth_error (v_status t) p); [exact H|congruence]. }
  assert (LL : length (v_bids t ++ bs) = nb) by (rewrite app_length, B1, (t_blocks _ _ _ _ _ I); lia).
  split; [|split; [split; [reflexivity|]; split; [reflexivity|]; split; assumption|]; split; [reflexivity|]; split; [apply up_le; exact HS|reflexivity]].
  assert (BI : forall i v, nth_error (vs_l x) i = Some v -> i / S < length (v_bids t)) by (intros i v; apply (blk_lt _ _ _ _ _ i v I)).
  assert (PG : forall i v, nth_error (vs_l x) i = Some (Some v) -> i / S / P < length (v_status t)).
  { intros i v H. apply nth_error_lt in H. rewrite (t_st _ _ _ _ _ I), <- (t_pts _ _ _ _ _ I). apply (page_in _ _ _ _ _ i I H). }
  split; [|simpl; split; assumption]. destruct I. constructor; simpl; rewrite ?LL, ?lresize_length; auto.
  - apply nodup_app_intro; auto. intros b Hb C. apply (B3 _ C). apply t_own0, Hb.
  - intros b Hb. apply in_app_iff in Hb. apply in_app_iff. destruct Hb as [Hb|Hb]; auto.
  - intros E b Hb. apply in_app_iff in Hb. apply in_app_iff. destruct Hb as [Hb|Hb]; auto. left. apply t_lk0; auto.
  - nia.
  - apply up_le. exact HP.
  - intros sl H1 H2. destruct (t_free0 sl H1 H2) as (p & Hp). eauto.
  - intros p H. apply X2' in H; [|discriminate]. destruct (t_dirty0 p H) as ((sl & H1) & H2). split; [eauto|lia].
  - intros i v H. destruct (t_elem0 i v H) as (G1 & G2 & G3). split; [|split].
    + intro C. apply G1. destruct (lt_nth_error _ _ (PG i v H)) as (m & Em). rewrite (X2 _ _ Em) in C. congruence.
    + intros C b Hb. apply X2' in C; [|discriminate]. rewrite nth_error_app1 in Hb by (eapply BI; exact H).
      replace (mem b bs) with false; [apply G2; assumption|]. symmetry. apply mem_nin. intro K. apply (B3 _ K). apply t_own0. eapply nth_error_In. exact Hb.
    + intros sl C. apply X1' in C. apply G3. exact C.
Qed.

Lemma evict_with_size is : forall (t : vst) n, evict PT is (with_size t n) = with_size (evict PT is t) n.
Proof. induction is as [|i is IH]; intros t n; simpl; [reflexivity|]. destruct (nth_error (v_pts t) i) as [[sl|]|]; rewrite <- IH; reflexivity. Qed.
Lemma evict1_inv lk x t s i : vinv lk x t s -> (forall j v, nth_error (vs_l x) j = Some (Some v) -> j / S / P <> i) ->
  vinv lk x (evict PT [i] t) s.
Proof.
  intros (I & N1 & N2) H. simpl. destruct (nth_error (v_pts t) i) as [m|] eqn:Em.
  - assert (Li : i < length (v_status t)) by (rewrite (t_st _ _ _ _ _ I), <- (t_pts _ _ _ _ _ I); eapply nth_error_lt; eassumption).
    assert (Q : forall p st, nth_error (lset i Uninit (v_status t)) p = Some st -> st <> Uninit -> p <> i /\ nth_error (v_status t) p = Some st).
    { intros p st C D. apply lset_some in C. destruct C as [(_ & C)|C]; [congruence|exact C]. }
    destruct m as [sl|].
    + destruct (t_map _ _ _ _ _ I i sl Em) as (M1 & M2 & M3). apply mem_nin in M3. split; [|split; simpl].
      * destruct I. constructor; simpl; rewrite ?lset_length; auto.
        { intros p sl' C. apply lset_some in C. destruct C as [(_ & C)|(D & C)]; [discriminate|]. destruct (t_map0 p sl' C) as (G1 & G2 & G3). split; [exact G1|]. split; [exact G2|].
          apply mem_nin. apply mem_nin in G3. intro K. apply in_app_iff in K. destruct K as [K|[K|[]]]; [exact (G3 K)|subst; congruence]. }
        { intros sl' H1 H2. apply mem_nin in H2. rewrite in_app_iff in H2. destruct (t_free0 sl' H1) as (p & Hp); [apply mem_nin; tauto|]. exists p. rewrite lset_ne; [exact Hp|].
          intros ->. apply H2. right. left. congruence. }
        { intros p C. apply Q in C; [|discriminate]. destruct C as (D & C). rewrite lset_ne by exact D. apply t_dirty0. exact C. }
        { intros j v C. specialize (H j v C). rewrite !lset_ne by exact H. apply t_elem0. exact C. }
      * apply nodup_app_intro; auto; [constructor; [intros []|constructor]|]. intros b Hb [<-|[]]. exact (M3 Hb).
      * intros j Hj. apply in_app_iff in Hj. destruct Hj as [Hj|[<-|[]]]; auto.
    + split; [|split; assumption]. destruct I. constructor; simpl; rewrite ?lset_length; auto.
      * intros p C. apply Q in C; [|discriminate]. apply t_dirty0. apply C.
      * intros j v C. specialize (H j v C). rewrite !lset_ne by exact H. apply t_elem0. exact C.
  - replace (with_status t (lset i Uninit (v_status t))) with t; [split; auto|]. destruct t. unfold with_status. simpl in *. f_equal.
    apply nth_error_None in Em. pose proof (t_st _ _ _ _ _ I) as E1. pose proof (t_pts _ _ _ _ _ I) as E2. simpl in *.
    assert (L : length v_status <= i) by lia. clear - L. revert i L. induction v_status as [|y l IH]; intros [|i] L; simpl in *; auto; [lia|]. f_equal. apply IH. lia.
Qed.
Lemma evict_ok is : forall lk x t s, vinv lk x t s -> (forall i j v, In i is -> nth_error (vs_l x) j = Some (Some v) -> j / S / P <> i) -> vinv lk x (evict PT is t) s.
Proof.
  induction is as [|i is IH]; intros lk x t s I H; [exact I|].
  change (evict PT (i :: is) t) with (evict PT is (evict PT [i] t)). apply IH; [apply evict1_inv; [exact I|]; intros j v; apply H; left; reflexivity|]. intros k j v Hk. apply H. right. exact Hk.
Qed.
Lemma with_size_inv lk x t s n : vinv lk x t s -> n <= vs_blocks x * S -> vinv lk (mk_vs (resized n (vs_l x)) (vs_blocks x) (vs_pages x)) (with_size t n) s.
Proof.
  intros (I & N1 & N2) H. split; [|split; assumption]. assert (E : length (resized n (vs_l x)) = n) by apply (lresize_length n None (vs_l x)).
  destruct I. constructor; simpl; rewrite ?E; auto; [lia|]. intros i v C. apply resized_nth in C. apply t_elem0. apply C.
Qed.
Lemma resize_ok lk x t s n y : vinv lk x t s -> grow S P n x = Some y ->
  ok (resize A S P PT n t) s (fun t' s' => vinv lk (mk_vs (resized n (vs_l x)) (vs_blocks y) (vs_pages y)) t' s' /\ (v_size t <= n -> stays t t') /\ v_size t' = n).
Proof.
  intros I G. unfold resize. apply ok_bind. eapply ok_imp; [apply (reserve_ok lk x t s n y I G)|]. cbv beta. intros t1 s1 (I1 & E1 & E2 & E3 & E4). apply ok_ret.
  pose proof (with_size_inv _ _ _ _ n I1 E3) as I2. rewrite E4 in I2. rewrite E2. destruct (Nat.ltb_spec n (v_size t)) as [L|L].
  - split; [|split; [lia|reflexivity]]. rewrite <- evict_with_size. apply evict_ok; [exact I2|]. intros i j v Hi Hj C. simpl in Hj. apply resized_nth in Hj. destruct Hj as (Hj & _).
    apply in_seq in Hi. rewrite div_ceil_up in Hi by nia. rewrite <- page_of in C. assert (K : j / (S * P) < up n (S * P)); [|lia].
    apply up_lt; [nia|]. rewrite Nat.mul_comm. pose proof (Nat.mul_div_le j (S * P) ltac:(nia)). lia.
  - split; [exact I2|]. split; [|reflexivity]. intros _. exact E1.
Qed.
Lemma shrink_ok lk x t s n y : vinv lk x t s -> spec_cap S P (@VShrink A n) x = Some (y, VUnit) -> ok (resize_shrink A S P PT n t) s (fun t' s' => vinv true y t' s').
Proof.
  intros I G. unfold resize_shrink. rewrite !div_ceil_up by assumption. simpl in G. pose proof (t_blocks _ _ _ _ _ (proj1 I)) as EB. rewrite EB.
  destruct (Nat.ltb_spec (up n S) (vs_blocks x)) as [L|L].
  - injection G as <-. destruct (Nat.ltb_spec (vs_blocks x) (up n S)); [lia|]. destruct I as (I & N1 & N2). set (nb := up n S) in *. set (np := up nb P) in *.
    rewrite <- EB, skipn_all. apply ok_bind. apply ok_free; [apply I|constructor|intros b []|]. apply ok_ret. apply ok_ret. simpl.
    assert (LP : np <= vs_pages x). { apply up_unique; [exact HP|]. pose proof (t_pages _ _ _ _ _ I). lia. }
    assert (Q : forall p, p < vs_pages x -> nth_error (firstn np (v_status t) ++ repeat Valid (length (v_status t) - np)) p = if Nat.ltb p np then nth_error (v_status t) p else Some Valid).
    { intros p Hp. rewrite nth_app, firstn_length, nth_firstn, nth_repeat, (t_st _ _ _ _ _ I). rewrite Nat.min_l by exact LP. destruct (Nat.ltb_spec p np); [reflexivity|].
      destruct (Nat.ltb_spec (p - np) (vs_pages x - np)); [reflexivity|lia]. }
    assert (LQ : length (firstn np (v_status t) ++ repeat Valid (length (v_status t) - np)) = vs_pages x).
    { rewrite app_length, firstn_length, repeat_length, (t_st _ _ _ _ _ I). lia. }
    assert (LL : length (resized n (vs_l x)) = n) by apply (lresize_length n None (vs_l x)). assert (LB : length (firstn nb (v_bids t)) = nb) by (rewrite firstn_length; lia).
    assert (W : without [] (sown s) = sown s). { unfold without. simpl. clear. induction (sown s) as [|b l IH]; simpl; [reflexivity|]. f_equal. exact IH. }
    split; [|split; assumption]. destruct I. constructor; simpl; rewrite ?LL, ?LB, ?LQ, ?W; auto; try discriminate.
    + apply (nodup_app_elim (firstn nb (v_bids t)) (skipn nb (v_bids t))). rewrite firstn_skipn. exact t_nd0.
    + intros b Hb. apply t_own0. rewrite <- (firstn_skipn nb). apply in_app_iff. auto.
    + apply up_le. exact HS.
    + lia.
    + intros p C. assert (Hp : p < vs_pages x) by (rewrite <- LQ; eapply nth_error_lt; exact C). rewrite Q in C by exact Hp. destruct (Nat.ltb_spec p np) as [D|D]; [|discriminate].
      split; [apply t_dirty0; exact C|]. apply (up_lt nb P p HP). exact D.
    + intros i v C. apply resized_nth in C. destruct C as (Ci & C). destruct (t_elem0 i v C) as (G1 & G2 & G3).
      assert (Bi : i / S < nb). { apply up_lt; [exact HS|]. rewrite Nat.mul_comm. pose proof (Nat.mul_div_le i S ltac:(lia)). lia. }
      assert (Pi : i / S / P < np). { apply up_lt; [exact HP|]. rewrite Nat.mul_comm. pose proof (Nat.mul_div_le (i / S) P ltac:(lia)). lia. }
      rewrite Q by lia. destruct (Nat.ltb_spec (i / S / P) np); [|lia]. split; [exact G1|]. split; [|exact G3]. intros D b Hb. apply G2; [exact D|]. rewrite nth_firstn in Hb. destruct (Nat.ltb_spec (i / S) nb); [exact Hb|lia].
  - destruct (grow S P n x) as [z|] eqn:EG; [|discriminate]. injection G as <-.
    assert (R : ok (if Nat.ltb (vs_blocks x) (up n S) then reserve A S P PT n t else Ret t) s (fun t' s' => vinv lk z t' s' /\ n <= vs_blocks z * S /\ vs_l z = vs_l x)).
    { destruct (Nat.ltb_spec (vs_blocks x) (up n S)) as [K|K].
      - eapply ok_imp; [apply (reserve_ok lk x t s n z I EG)|]. cbv beta. tauto.
      - apply ok_ret. assert (n <= vs_blocks x * S) by (pose proof (up_le n S HS); nia). unfold grow in EG. destruct (Nat.leb_spec n (vs_blocks x * S)); [|lia]. injection EG as <-. auto. }
    destruct (Nat.ltb_spec (up n S) (vs_blocks x)) as [K|_]; [lia|]. apply ok_bind. eapply ok_imp; [exact R|]. cbv beta. intros t1 s1 (I1 & E1 & E2). apply ok_ret. apply vinv_weaken with lk. rewrite <- E2. apply with_size_inv; assumption.
Qed.
Lemma clear_ok lk x t s : vinv lk x t s -> ok (clear A N PT t) s (fun t' s' => vinv lk (mk_vs [] 0 0) t' s').
Proof.
  intros (I & N1 & N2). unfold clear. apply ok_free; try apply I. apply ok_ret. split; [|split; simpl; [apply seq_NoDup|intros i Hi; apply in_seq in Hi; lia]].
  destruct I. constructor; simpl; auto; try lia.
  - constructor.
  - intros b [].
  - intros E b Hb. apply without_in in Hb. destruct Hb as (H1 & H2). apply H2. apply t_lk0; assumption.
  - intros p sl C. destruct p; discriminate.
  - intros sl H1 H2. apply mem_nin in H2. exfalso. apply H2. apply in_seq. lia.
  - intros p C. destruct p; discriminate.
  - intros i v C. destruct i; discriminate.
Qed.
(** * flushing *)
Lemma tinv_shape lk x (t t' : vst) s F : tinv lk x t s F -> v_size t' = v_size t -> v_bids t' = v_bids t -> v_status t' = v_status t -> v_pts t' = v_pts t -> v_stp t' = v_stp t ->
  v_pager t' = v_pager t -> v_base t' = v_base t -> tinv lk x t' s F.
Proof. intros [] E1 E2 E3 E4 E5 E6 E7. constructor; rewrite ?E1, ?E2, ?E3, ?E4, ?E5, ?E6, ?E7; auto. Qed.
Lemma cleaned_fields st p (t : vst) : v_size (cleaned st p t) = v_size t /\ v_bids (cleaned st p t) = v_bids t /\ v_pts (cleaned st p t) = v_pts t /\ v_stp (cleaned st p t) = v_stp t /\
  v_free (cleaned st p t) = v_free t /\ v_pager (cleaned st p t) = v_pager t /\ v_base (cleaned st p t) = v_base t.
Proof. destruct st; simpl; auto 10. Qed.
Lemma cleaned_status st p (t t' : vst) : v_status t' = v_status t -> v_status (cleaned st p t') = v_status (cleaned st p t).
Proof. destruct st; simpl; intros ->; reflexivity. Qed.
Lemma flush_slots_ok lk x used m : forall k t s, k + m = N -> tinv lk x t s (fun i => negb (used i) || Nat.ltb i k) -> v_free t = seq 0 k ->
  ok (flush_slots A P PT used (seq k m) t) s (fun t' s' => tinv lk x t' s' (fun i => true) /\ v_free t' = seq 0 N /\ v_base t' = v_base t /\ v_size t' = v_size t /\ v_bids t' = v_bids t).
Proof.
  induction m as [|m IH]; intros k t s E I EF.
  - apply ok_ret. replace k with N in * by lia. split; [|auto]. apply (tinv_ext _ _ _ _ _ _ I). intros i Hi. destruct (Nat.ltb_spec i N); [|lia]. rewrite orb_true_r. reflexivity.
  - simpl. assert (EF' : v_free t ++ [k] = seq 0 (Datatypes.S k)) by (rewrite EF; rewrite seq_S; reflexivity). destruct (used k) eqn:U.
    + destruct (t_free _ _ _ _ _ I k) as (p & Hp); [lia|rewrite U; destruct (Nat.ltb_spec k k); [lia|reflexivity]|]. destruct (t_map _ _ _ _ _ I p k Hp) as (M1 & M2 & M3). rewrite M2.
      assert (Lp : p < length (v_pts t)) by (eapply nth_error_lt; eassumption).
      assert (Ls : p < length (v_status t)) by (rewrite (t_st _ _ _ _ _ I), <- (t_pts _ _ _ _ _ I); exact Lp). destruct (lt_nth_error _ _ Ls) as (st & Est).
      set (t1 := with_map _ _ _ _). apply ok_bind. eapply ok_imp; [apply (write_page_ok p k t1 s st (t_out _ _ _ _ _ I) (t_nd _ _ _ _ _ I) (t_own _ _ _ _ _ I) Est)|].
      { intros ->. apply (t_dirty _ _ _ _ _ I). exact Est. }
      intros t2 s2 (-> & C1 & C2 & C3 & C4). destruct (cleaned_fields st p t1) as (B1 & B2 & B3 & B4 & B5 & B6 & B7). destruct (cleaned_fields st p t) as (D1 & D2 & D3 & D4 & D5 & D6 & D7).
      rewrite B3. destruct (Nat.leb_spec (length (v_pts t1)) p) as [L|_]; [simpl in L; lia|].
      pose proof (evict_inv lk x t s _ p k st s2 I Hp Est C1 C2 C3 C4) as I2.
      eapply ok_imp; [apply (IH (Datatypes.S k) _ s2)|].
      * lia.
      * apply (tinv_ext _ _ _ _ _ (fun i => negb (used i) || Nat.ltb i (Datatypes.S k))) in I2.
        -- eapply tinv_shape; [exact I2|..]; simpl; rewrite ?B1, ?B2, ?B3, ?B4, ?B6, ?B7, ?D1, ?D2, ?D6, ?D7; try reflexivity. apply cleaned_status. reflexivity.
        -- intros i Hi. destruct (Nat.eqb_spec i k) as [->|D]; [destruct (Nat.ltb_spec k (Datatypes.S k)); [rewrite orb_true_r; reflexivity|lia]|].
           simpl. destruct (Nat.ltb_spec i k), (Nat.ltb_spec i (Datatypes.S k)); try lia; reflexivity.
      * simpl. rewrite B5. exact EF'.
      * cbv beta. simpl. rewrite B1, B2, B7. simpl. auto.
    + eapply ok_imp; [apply (IH (Datatypes.S k) _ s)|].
      * lia.
      * apply (tinv_ext _ _ _ _ _ (fun i => negb (used i) || Nat.ltb i (Datatypes.S k))) in I; [apply tinv_freelist; exact I|].
        intros i Hi. destruct (Nat.eq_dec i k) as [->|D]; [rewrite U; reflexivity|]. destruct (Nat.ltb_spec i k), (Nat.ltb_spec i (Datatypes.S k)); try lia; reflexivity.
      * exact EF'.
      * cbv beta. simpl. auto.
Qed.
Lemma all_free_inv lk x t s : tinv lk x t s (fun _ => true) -> v_free t = seq 0 N -> vinv lk x t s.
Proof.
  intros I E. unfold vinv. rewrite E. split; [|split; [apply seq_NoDup|intros i Hi; apply in_seq in Hi; lia]]. apply (tinv_ext _ _ _ _ _ _ I). intros i Hi. apply mem_in, in_seq. lia.
Qed.
Definition flushed lk x t s := tinv lk x t s (fun _ => true) /\ v_free t = seq 0 N.
Lemma flush_ok lk x t s : vinv lk x t s -> ok (flush A P N PT t) s (fun t' s' => flushed lk x t' s' /\ v_base t' = v_base t /\ v_size t' = v_size t /\ v_bids t' = v_bids t).
Proof.
  intros (I & N1 & N2). unfold flush. eapply ok_imp; [apply (flush_slots_ok lk x _ N 0)|]; auto.
  - apply tinv_freelist. apply (tinv_ext _ _ _ _ _ _ I). intros i Hi. simpl. rewrite negb_involutive, orb_false_r. reflexivity.
  - cbv beta. unfold flushed. tauto.
Qed.
Lemma flushed_pts lk x t s p : flushed lk x t s -> p < vs_pages x -> nth_error (v_pts t) p = Some None.
Proof.
  intros (I & _) Hp. rewrite <- (t_pts _ _ _ _ _ I) in Hp. destruct (lt_nth_error _ _ Hp) as (m & Em). rewrite Em. destruct m as [sl|]; [|reflexivity].
  destruct (t_map _ _ _ _ _ I p sl Em) as (_ & _ & C). discriminate.
Qed.
Lemma flushed_clean lk x t s p : flushed lk x t s -> nth_error (v_status t) p <> Some Dirty.
Proof. intros (I & _) C. destruct (t_dirty _ _ _ _ _ I p C) as ((sl & D) & _). destruct (t_map _ _ _ _ _ I p sl D) as (_ & _ & E). discriminate. Qed.
Lemma flushed_elem lk x t s i v : flushed lk x t s -> nth_error (vs_l x) i = Some (Some v) ->
  nth_error (v_status t) (i / S / P) = Some Valid /\ exists b, nth_error (v_bids t) (i / S) = Some b /\ sdisk s b (i mod S) = Some v.
Proof.
  intros J H. pose proof J as (I & _). destruct (t_elem _ _ _ _ _ I i v H) as (G1 & G2 & _). pose proof (nth_error_lt _ _ _ H) as L. destruct (page_in _ _ _ _ _ i I L) as (L1 & _ & L3).
  rewrite (t_pts _ _ _ _ _ I), <- (t_st _ _ _ _ _ I) in L1. destruct (lt_nth_error _ _ L1) as (st & E). rewrite E in *. destruct (lt_nth_error _ _ L3) as (b & Eb).
  assert (st = Valid) as ->. { pose proof (flushed_clean _ _ _ _ (i / S / P) J) as C. rewrite E in C. destruct st; congruence. }
  split; [reflexivity|]. exists b. auto.
Qed.
Lemma flushed_base lk x t s base : flushed lk x t s -> flushed lk x (mk_v (v_size t) (v_bids t) (v_status t) (v_pts t) (v_stp t) (v_free t) (v_pager t) base) s.
Proof.
  intro J. pose proof J as (I & E). split; [|exact E]. assert (K : forall p sl, nth_error (v_pts t) p <> Some (Some sl)).
  { intros p sl C. destruct (t_map _ _ _ _ _ I p sl C) as (_ & _ & D). discriminate. }
  destruct I. constructor; simpl; auto. intros i v H. destruct (t_elem0 i v H) as (G1 & G2 & _). split; [exact G1|]. split; [exact G2|]. intros sl C. exfalso. exact (K _ _ C).
Qed.
Lemma drop_cache_ok lk x t s : vinv lk x t s -> ok (drop_cache A P N PT t) s (fun t' s' => vinv lk x t' s').
Proof.
  intro I. unfold drop_cache. apply ok_bind. eapply ok_imp; [apply flush_ok; exact I|]. cbv beta. intros t1 s1 (J & _). apply ok_ret.
  apply (flushed_base _ _ _ _ (v_base t1 + N * P)) in J. destruct J as (J1 & J2). apply all_free_inv; assumption.
Qed.
Lemma reopen_ok lk x t s : vinv lk x t s ->
  ok (reopen A S P N PT pinit t) s (fun t' s' => vinv true (mk_vs (vs_l x) (up (length (vs_l x)) S) (up (up (length (vs_l x)) S) P)) t' s').
Proof.
  intro I. unfold reopen. apply ok_bind. eapply ok_imp; [apply flush_ok; exact I|]. cbv beta. intros t1 s1 (J & _ & E1 & E2). pose proof J as (I1 & _).
  rewrite (t_size _ _ _ _ _ I1). unfold set_content. rewrite !div_ceil_up by assumption. set (nb := up (length (vs_l x)) S).
  assert (LB : nb <= length (v_bids t1)) by (apply up_unique; [exact HS|apply I1]).
  assert (LL : length (firstn nb (v_bids t1)) = nb) by (rewrite firstn_length; lia). rewrite LL, Nat.eqb_refl. simpl. rewrite ?div_ceil_up by assumption.
  apply ok_ret. apply all_free_inv; [|reflexivity]. pose proof (fun i v => flushed_elem _ _ _ _ i v J) as FE. destruct I1. constructor; simpl; rewrite ?LL, ?repeat_length; auto; try discriminate.
  + apply (nodup_app_elim (firstn nb (v_bids t1)) (skipn nb (v_bids t1))). rewrite firstn_skipn. exact t_nd0.
  + intros b Hb. apply t_own0. rewrite <- (firstn_skipn nb). apply in_app_iff. auto.
  + apply up_le. exact HS.
  + apply up_le. exact HP.
  + intros p sl C. rewrite nth_repeat in C. destruct (Nat.ltb _ _); discriminate.
  + intros p C. rewrite nth_repeat in C. destruct (Nat.ltb _ _); discriminate.
  + intros i v C. destruct (FE i v C) as (_ & b & B1 & B2). split; [|split].
    * rewrite nth_repeat. destruct (Nat.ltb _ _); discriminate.
    * intros _ b' Hb. rewrite nth_firstn in Hb. destruct (Nat.ltb _ _); [|discriminate]. assert (b' = b) as -> by congruence. exact B2.
    * intros sl D. rewrite nth_repeat in D. destruct (Nat.ltb _ _); discriminate.
Qed.
Lemma written_length vs : forall i (l : list (option A)), length (written i vs l) = length l.
Proof. induction vs as [|v vs IH]; intros i l; simpl; [reflexivity|]. rewrite IH. destruct (Nat.ltb_spec i (length l)); [rewrite replaced_lset by assumption; apply lset_length|reflexivity]. Qed.
Lemma written_nth vs : forall k (l : list (option A)) i v, nth_error (written k vs l) i = Some (Some v) ->
  (k <= i < k + length vs /\ nth_error vs (i - k) = Some v) \/ ((i < k \/ k + length vs <= i) /\ nth_error l i = Some (Some v)).
Proof.
  induction vs as [|w vs IH]; intros k l i v H; simpl in *; [right; split; [lia|exact H]|]. apply IH in H. destruct H as [(H1 & H2)|(H1 & H2)].
  - left. split; [lia|]. replace (i - k) with (Datatypes.S (i - (k + 1))) by lia. exact H2.
  - destruct (Nat.ltb_spec k (length l)) as [L|L].
    + rewrite replaced_lset in H2 by exact L. apply lset_some in H2. destruct H2 as [(-> & H2)|(D & H2)].
      * injection H2 as ->. left. split; [lia|]. rewrite Nat.sub_diag. reflexivity.
      * right. split; [lia|exact H2].
    + right. split; [|exact H2]. apply nth_error_lt in H2. lia.
Qed.
Lemma fill_ok R x vs : forall i (k : prog A R) s (Q : R -> sstate -> Prop), sout s = [] ->
  (forall c, (forall y, y <> x -> c y = scont s y) -> (forall j, j < i -> c x j = scont s x j) -> (forall j v, nth_error vs j = Some v -> c x (i + j) = Some v) -> ok k (with_cont A s c) Q) ->
  ok (fill A x i vs k) s Q.
Proof.
  induction vs as [|v vs IH]; intros i k s Q Ho K; simpl.
  - destruct s as [c d o w n a]. apply (K c); auto. intros [|j] v H; discriminate.
  - apply ok_put; [exact Ho|]. apply IH; [exact Ho|]. intros c H1 H2 H3. apply K; simpl in *.
    + intros y Hy. rewrite H1 by exact Hy. unfold upd2. apply upd_other. exact Hy.
    + intros j Hj. rewrite H2 by lia. apply upd2_ne. right. lia.
    + intros [|j] w H; simpl in H.
      * injection H as ->. rewrite Nat.add_0_r, H2 by lia. apply upd2_at.
      * rewrite <- (H3 _ _ H). f_equal. lia.
Qed.
Lemma write_block_ok lk x t s k vs : vinv lk x t s -> k * S < length (vs_l x) -> length vs = S ->
  ok (write_block A P N PT k vs t) s (fun t' s' => vinv lk (mk_vs (written (k * S) vs (vs_l x)) (vs_blocks x) (vs_pages x)) t' s').
Proof.
  intros I Hk Hv. unfold write_block. apply ok_bind. eapply ok_imp; [apply flush_ok; exact I|]. cbv beta. intros t1 s1 (J & _). pose proof J as (I1 & EF).
  assert (DS : k * S / S = k) by (apply Nat.div_mul; lia). destruct (page_in _ _ _ _ _ _ I1 Hk) as (L1 & _ & L3). rewrite DS in L1, L3. destruct (lt_nth_error _ _ L3) as (b & Eb). rewrite Eb.
  pose proof (t_out _ _ _ _ _ I1) as Ho. assert (Ob : In b (sown s1)) by (apply (t_own _ _ _ _ _ I1); eapply nth_error_In; exact Eb).
  apply fill_ok; [exact Ho|]. intros c C1 _ C3. unfold ok, with_cont. simpl. rewrite (proj2 (mem_in _ _) Ob), Ho. simpl. rewrite Nat.eqb_refl. simpl. fold (k / P).
  change (ok (page_updated A PT (k / P) t1) (mk_sstate c (upd (sdisk s1) b (c (v_base t1 + N * P))) [] (sown s1) (Datatypes.S (snext s1)) (salloc s1))
    (fun t' s' => vinv lk (mk_vs (written (k * S) vs (vs_l x)) (vs_blocks x) (vs_pages x)) t' s')).
  unfold page_updated. rewrite (flushed_pts _ _ _ _ (k / P) J) by (rewrite <- (t_pts _ _ _ _ _ I1); exact L1).
  assert (Ls : k / P < length (v_status t1)) by (rewrite (t_st _ _ _ _ _ I1), <- (t_pts _ _ _ _ _ I1); exact L1). destruct (lt_nth_error _ _ Ls) as (st & Est). rewrite Est.
  assert (G : vinv lk (mk_vs (written (k * S) vs (vs_l x)) (vs_blocks x) (vs_pages x)) (with_status t1 (lset (k / P) Valid (v_status t1)))
    (mk_sstate c (upd (sdisk s1) b (c (v_base t1 + N * P))) [] (sown s1) (Datatypes.S (snext s1)) (salloc s1))).
  { apply all_free_inv; [|exact EF]. pose proof (fun i v => flushed_elem _ _ _ _ i v J) as FE. pose proof (fun p => flushed_clean _ _ _ _ p J) as FC.
    assert (FP : forall p sl, nth_error (v_pts t1) p <> Some (Some sl)) by (intros p sl C; destruct (t_map _ _ _ _ _ I1 p sl C) as (_ & _ & D); discriminate).
    assert (BI : forall i, i < length (vs_l x) -> i / S < length (v_bids t1)) by (intros i Hi; apply (page_in _ _ _ _ _ i I1 Hi)).
    destruct I1. constructor; simpl; rewrite ?written_length, ?lset_length; auto.
    - intros p C. apply lset_some in C. destruct C as [(_ & C)|(_ & C)]; [discriminate|]. exfalso. exact (FC p C).
    - intros i v C. pose proof (nth_error_lt _ _ _ C) as Li. rewrite written_length in Li. apply written_nth in C. rewrite Hv in C.
      assert (D : (i / S = k /\ nth_error vs (i mod S) = Some v) \/ (i / S <> k /\ nth_error (vs_l x) i = Some (Some v))).
      { pose proof (Nat.div_mod i S ltac:(lia)) as E. pose proof (Nat.mod_upper_bound i S ltac:(lia)) as Bm. destruct C as [(Ci & C)|(Ci & C)].
        - assert (Ei : i / S = k) by (symmetry; apply (Nat.div_unique _ _ _ (i - k * S)); nia). left. split; [exact Ei|]. rewrite <- C. f_equal. rewrite Ei in E. nia.
        - right. split; [|exact C]. intro Ei. rewrite Ei in E. nia. }
      split; [|split].
      + intro U. apply lset_some in U. destruct U as [(_ & U)|(U1 & U)]; [discriminate|]. destruct D as [(D1 & _)|(_ & D)]; [subst k; congruence|]. destruct (FE i v D) as (E & _). congruence.
      + intros U b' Hb. destruct D as [(D1 & D2)|(D1 & D2)].
        * rewrite D1 in Hb. assert (b' = b) as -> by congruence. rewrite upd_same. apply (C3 _ _ D2).
        * destruct (FE i v D2) as (_ & b2 & E1 & E2). assert (b2 = b') as -> by congruence. rewrite upd_other; [exact E2|]. intros ->. apply D1.
          rewrite NoDup_nth_error in t_nd0. apply t_nd0; [apply BI; exact Li|congruence].
      + intros sl U. exfalso. exact (FP _ _ U). }
  destruct st; try (apply ok_ret; exact G). exfalso. exact (flushed_clean _ _ _ _ _ J Est).
Qed.
Lemma destroy_ok lk x t s : vinv lk x t s -> ok (destroy A P N PT t) s (fun _ s' => sout s' = [] /\ (lk = false -> sown s' = [])).
Proof.
  intro I. unfold destroy. apply ok_bind. eapply ok_imp; [apply flush_ok; exact I|]. cbv beta. intros t1 s1 ((I1 & _) & _).
  apply ok_free; try apply I1. apply ok_ret. simpl. split; [reflexivity|]. intro E. pose proof (t_lk _ _ _ _ _ I1 E) as L.
  destruct (without (v_bids t1) (sown s1)) as [|b l] eqn:W; [reflexivity|]. exfalso. assert (B : In b (without (v_bids t1) (sown s1))) by (rewrite W; left; reflexivity).
  apply without_in in B. apply (proj2 B), L, (proj1 B).
Qed.

(** * references to own elements *)
Definition two : Prop := forall i p, PI p -> i < N -> fst (kick (hit i p)) <> i.
Lemma ok_copy R x i y j (k : prog A R) s (Q : R -> sstate -> Prop) : sout s = [] -> ok k (with_cont A s (upd2 (scont s) y j (scont s x i))) Q -> ok (DoCopy x i y j k) s Q.
Proof. intros H K. unfold ok in *. simpl. rewrite H. simpl. unfold with_cont in K. rewrite H in K. exact K. Qed.
Lemma assign_ok lk x t s b i j v : two -> vinv lk x t s -> nth_error (vs_l x) j = Some v -> i < length (vs_l x) ->
  ok (assign A S P PT kick hit b i j t) s (fun t' s' => vinv lk (put_at i v x) t' s').
Proof.
  intros T I Hj Hi. assert (Lj : j < length (vs_l x)) by (eapply nth_error_lt; eassumption). unfold assign. destruct b.
  - apply ok_bind. eapply ok_imp; [apply (locate_ok lk x t s true j I Lj)|]. intros (t1 & r1) s1 (I1 & (sl1 & pg1 & (A1 & A2 & _) & A3 & A4 & A5) & _). simpl in *.
    apply ok_bind. eapply ok_imp; [apply (locate_ok lk x t1 s1 true i I1 Hi)|]. intros (t2 & r2) s2 ((I2 & N1 & N2) & (sl2 & pg2 & (B1 & B2 & B3) & _) & B4 & B5). simpl in *.
    destruct (B5 _ _ A1) as (K1 & _); [rewrite A5; apply T; assumption|].
    apply ok_copy; [apply I2|]. apply ok_ret. split; [|split; assumption]. subst r1 r2. simpl. apply put_inv; auto.
    intros u ->. rewrite <- B4. apply (t_elem _ _ _ _ _ I2 j u Hj). exact K1.
  - apply ok_bind. eapply ok_imp; [apply (locate_ok lk x t s true i I Hi)|]. intros (t1 & r1) s1 (I1 & (sl1 & pg1 & (A1 & A2 & A6) & A3 & A4 & A5) & _). simpl in *.
    apply ok_bind. eapply ok_imp; [apply (locate_ok lk x t1 s1 true j I1 Lj)|]. intros (t2 & r2) s2 ((I2 & N1 & N2) & (sl2 & pg2 & (B1 & B2 & B3) & _) & B4 & B5). simpl in *.
    destruct (B5 _ _ A1) as (K1 & K2); [rewrite A5; apply T; assumption|].
    apply ok_copy; [apply I2|]. apply ok_ret. split; [|split; assumption]. subst r1 r2. simpl. rewrite <- B4. apply put_inv; auto.
    intros u ->. apply (t_elem _ _ _ _ _ I2 j u Hj). exact B1.
Qed.
Lemma resized_snoc (l : list (option A)) v : lset (length l) v (resized (length l + 1) l) = l ++ [v].
Proof.
  unfold resized. rewrite firstn_all2 by lia. replace (length l + 1 - length l) with 1 by lia. simpl. induction l as [|y l IH]; simpl; [reflexivity|]. rewrite IH. reflexivity.
Qed.
Definition snoc_sp (v : option A) (l : list (option A)) (y : vspec) : vspec := mk_vs (l ++ [v]) (vs_blocks y) (vs_pages y).
Lemma push_back_ok lk x t s v y : vinv lk x t s -> grow S P (length (vs_l x) + 1) x = Some y ->
  ok (push_back A S P PT kick hit v t) s (fun t' s' => vinv lk (snoc_sp (Some v) (vs_l x) y) t' s').
Proof.
  intros I G. unfold push_back. rewrite (t_size _ _ _ _ _ (proj1 I)). apply ok_bind. eapply ok_imp; [apply (resize_ok lk x t s _ y I G)|]. cbv beta. intros t1 s1 (I1 & _).
  eapply ok_imp; [apply (set_ok _ _ _ _ (length (vs_l x)) v I1)|].
  - simpl. change (resized (length (vs_l x) + 1) (vs_l x)) with (lresize (length (vs_l x) + 1) None (vs_l x)). rewrite lresize_length. lia.
  - cbv beta. unfold put_at. simpl. rewrite resized_snoc. auto.
Qed.
Lemma push_own_ok lk x t s j v y : two -> vinv lk x t s -> nth_error (vs_l x) j = Some v -> grow S P (length (vs_l x) + 1) x = Some y ->
  ok (push_own A S P PT kick hit j t) s (fun t' s' => vinv lk (snoc_sp v (vs_l x) y) t' s').
Proof.
  intros T I Hj G. assert (Lj : j < length (vs_l x)) by (eapply nth_error_lt; eassumption). unfold push_own.
  apply ok_bind. eapply ok_imp; [apply (locate_ok lk x t s true j I Lj)|]. intros (t1 & r1) s1 (I1 & (sl1 & pg1 & (A1 & A2 & _) & A3 & A4 & A5) & _). simpl in *.
  rewrite (t_size _ _ _ _ _ (proj1 I1)). apply ok_bind. eapply ok_imp; [apply (resize_ok lk x t1 s1 _ y I1 G)|]. cbv beta. intros t3 s3 (I3 & St & _).
  destruct (St ltac:(rewrite (t_size _ _ _ _ _ (proj1 I1)); lia)) as (P1 & P2 & P3 & _). specialize (P3 _ _ A1).
  assert (L : length (vs_l x) < length (resized (length (vs_l x) + 1) (vs_l x))) by (change (resized (length (vs_l x) + 1) (vs_l x)) with (lresize (length (vs_l x) + 1) None (vs_l x)); rewrite lresize_length; lia).
  apply ok_bind. eapply ok_imp; [apply (locate_ok _ _ t3 s3 true (length (vs_l x)) I3); simpl; exact L|]. intros (t2 & r2) s2 ((I2 & N1 & N2) & (sl2 & pg2 & (B1 & B2 & B3) & _) & B4 & B5). simpl in *.
  destruct (B5 _ _ P3) as (K1 & _); [rewrite P1, A5; apply T; assumption|].
  assert (Hj' : nth_error (resized (length (vs_l x) + 1) (vs_l x)) j = Some v).
  { change (resized (length (vs_l x) + 1) (vs_l x)) with (lresize (length (vs_l x) + 1) None (vs_l x)). rewrite lresize_nth, Hj. destruct (Nat.ltb_spec j (length (vs_l x) + 1)); [reflexivity|lia]. }
  apply ok_copy; [apply I2|]. apply ok_ret. split; [|split; assumption]. subst r1 r2. simpl. unfold snoc_sp. rewrite <- resized_snoc.
  apply (put_inv lk (mk_vs (resized (length (vs_l x) + 1) (vs_l x)) (vs_blocks y) (vs_pages y)) t2 s2 _ (length (vs_l x)) sl2 v); auto.
  intros u ->. rewrite <- P2, <- B4. apply (t_elem _ _ _ _ _ I2 j u); [exact Hj'|exact K1].
Qed.

(** * histories *)
Definition leaky {B} (o : vop B) : bool := match o with VShrink _ | VReopen => true | _ => false end.
Lemma grow_same x n : n <= vs_blocks x * S -> grow (A := A) S P n x = Some x.
Proof. intro H. unfold grow. destruct (Nat.leb_spec n (vs_blocks x * S)); [reflexivity|lia]. Qed.
Lemma removelast_resized (l : list (option A)) : l <> [] -> removelast l = resized (length l - 1) l.
Proof. intro H. unfold resized. replace (length l - 1 - length l) with 0 by lia. simpl. rewrite app_nil_r. rewrite removelast_firstn_len. f_equal. lia. Qed.
Lemma op_ok lk x t s o y r : (is_alias o = true -> two) -> vinv lk x t s -> spec_cap S P o x = Some (y, r) ->
  ok (vec_op A S P N PT pinit kick hit o t) s (fun q s' => vinv (lk || leaky o) y (fst q) s' /\ snd q = r).
Proof.
  intros T I E. assert (GS : grow S P (length (vs_l x)) x = Some x) by (apply grow_same; rewrite <- (t_blocks _ _ _ _ _ (proj1 I)); apply I).
  assert (X : mk_vs (vs_l x) (vs_blocks x) (vs_pages x) = x) by (destruct x; reflexivity).
  destruct o as [v| |i|i|i v|b i j|j|n|n|n| | | | | | |k vs]; simpl in E; cbn [vec_op leaky]; rewrite ?orb_false_r, ?orb_true_r.
  - rewrite app_length in E. simpl in E. destruct (grow S P (length (vs_l x) + 1) x) as [z|] eqn:G; [|discriminate]. injection E as <- <-.
    apply ok_bind. eapply ok_imp; [apply (push_back_ok _ _ _ _ v _ I G)|]. cbv beta. intros t' s' I'. apply ok_ret. auto.
  - destruct (vs_l x) as [|w l] eqn:EL; [discriminate|]. rewrite <- EL in *. assert (NE : vs_l x <> []) by congruence. rewrite removelast_resized in E by exact NE.
    assert (LR : length (resized (length (vs_l x) - 1) (vs_l x)) = length (vs_l x) - 1) by apply (lresize_length _ None). rewrite LR in E.
    destruct (grow S P (length (vs_l x) - 1) x) as [z|] eqn:G; [|discriminate]. injection E as <- <-.
    unfold pop_back. rewrite (t_size _ _ _ _ _ (proj1 I)). destruct (Nat.eqb_spec (length (vs_l x)) 0) as [C|_]; [rewrite EL in C; discriminate|].
    apply ok_bind. eapply ok_imp; [apply (resize_ok _ _ _ _ _ _ I G)|]. cbv beta. intros t' s' (I' & _). apply ok_ret. auto.
  - destruct (nth_error (vs_l x) i) as [[v|]|] eqn:Ei; try discriminate. rewrite GS, X in E. injection E as <- <-.
    apply ok_bind. eapply ok_imp; [apply (get_ok _ _ _ _ false i v I Ei)|]. intros (t' & w) s' (I' & ->). apply ok_ret. auto.
  - destruct (nth_error (vs_l x) i) as [[v|]|] eqn:Ei; try discriminate. rewrite GS, X in E. injection E as <- <-.
    apply ok_bind. eapply ok_imp; [apply (get_ok _ _ _ _ true i v I Ei)|]. intros (t' & w) s' (I' & ->). apply ok_ret. auto.
  - destruct (Nat.ltb_spec i (length (vs_l x))) as [L|L]; [|discriminate]. rewrite replaced_lset, lset_length, GS in E by exact L. injection E as <- <-.
    apply ok_bind. eapply ok_imp; [apply (set_ok _ _ _ _ i v I L)|]. cbv beta. intros t' s' I'. apply ok_ret. auto.
  - destruct (nth_error (vs_l x) j) as [v|] eqn:Ej; [|discriminate]. destruct (Nat.ltb_spec i (length (vs_l x))) as [L|L]; [|discriminate]. rewrite replaced_lset, lset_length, GS in E by exact L. injection E as <- <-.
    apply ok_bind. eapply ok_imp; [apply (assign_ok _ _ _ _ b i j v (T eq_refl) I Ej L)|]. cbv beta. intros t' s' I'. apply ok_ret. auto.
  - destruct (nth_error (vs_l x) j) as [v|] eqn:Ej; [|discriminate]. rewrite app_length in E. simpl in E. destruct (grow S P (length (vs_l x) + 1) x) as [z|] eqn:G; [|discriminate]. injection E as <- <-.
    apply ok_bind. eapply ok_imp; [apply (push_own_ok _ _ _ _ j v _ (T eq_refl) I Ej G)|]. cbv beta. intros t' s' I'. apply ok_ret. auto.
  - assert (LR : length (resized n (vs_l x)) = n) by apply (lresize_length _ None). rewrite LR in E.
    destruct (grow S P n x) as [z|] eqn:G; [|discriminate]. injection E as <- <-. apply ok_bind. eapply ok_imp; [apply (resize_ok _ _ _ _ _ _ I G)|]. cbv beta. intros t' s' (I' & _). apply ok_ret. auto.
  - assert (r = VUnit) as ->. { destruct (Nat.ltb (up n S) (vs_blocks x)); [congruence|]. destruct (grow S P n x); [congruence|discriminate]. }
    apply ok_bind. eapply ok_imp; [apply (shrink_ok _ _ _ _ n y I E)|]. cbv beta. intros t' s' I'. apply ok_ret. auto.
  - destruct (grow S P n x) as [z|] eqn:G; [|discriminate]. injection E as <- <-. apply ok_bind. eapply ok_imp; [apply (reserve_ok _ _ _ _ n _ I G)|]. cbv beta. intros t' s' (I' & _). apply ok_ret. auto.
  - injection E as <- <-. apply ok_bind. eapply ok_imp; [apply (clear_ok _ _ _ _ I)|]. cbv beta. intros t' s' I'. apply ok_ret. auto.
  - rewrite GS, X in E. injection E as <- <-. apply ok_bind. eapply ok_imp; [apply (flush_ok _ _ _ _ I)|]. cbv beta. intros t' s' ((I1 & I2) & _). apply ok_ret. split; [apply all_free_inv; assumption|reflexivity].
  - rewrite GS, X in E. injection E as <- <-. apply ok_ret. simpl. rewrite (t_size _ _ _ _ _ (proj1 I)). auto.
  - injection E as <- <-. apply ok_ret. simpl. rewrite (t_blocks _ _ _ _ _ (proj1 I)). auto.
  - rewrite GS, X in E. injection E as <- <-. apply ok_bind. eapply ok_imp; [apply (drop_cache_ok _ _ _ _ I)|]. cbv beta. intros t' s' I'. apply ok_ret. auto.
  - injection E as <- <-. apply ok_bind. eapply ok_imp; [apply (reopen_ok _ _ _ _ I)|]. cbv beta. intros t' s' I'. apply ok_ret. auto.
  - destruct (Nat.ltb_spec (k * S) (length (vs_l x))) as [L|L]; [|discriminate]. destruct (Nat.eqb_spec (length vs) S) as [L2|L2]; [|discriminate]. simpl in E. rewrite written_length, GS in E. injection E as <- <-.
    apply ok_bind. eapply ok_imp; [apply (write_block_ok _ _ _ _ k vs I L L2)|]. cbv beta. intros t' s' I'. apply ok_ret. auto.
Qed.
Lemma ops_ok os : forall lk x t s y rs, ((exists o, In o os /\ is_alias o = true) -> two) -> vinv lk x t s -> spec_caps S P os x = Some (y, rs) ->
  ok (vec_ops A S P N PT pinit kick hit os t) s (fun q s' => vinv (lk || existsb leaky os) y (fst q) s' /\ snd q = rs).
Proof.
  induction os as [|o os IH]; intros lk x t s y rs T I E; simpl in E |- *.
  - injection E as <- <-. apply ok_ret. rewrite orb_false_r. auto.
  - destruct (spec_cap S P o x) as [(x1 & r)|] eqn:E1; [|discriminate]. destruct (spec_caps S P os x1) as [(x2 & rs')|] eqn:E2; [|discriminate]. injection E as <- <-.
    apply ok_bind. eapply ok_imp; [apply (op_ok lk x t s o x1 r); auto; intro Ha; apply T; exists o; simpl; auto|]. intros (t1 & r1) s1 (I1 & ->). simpl in *.
    apply ok_bind. eapply ok_imp; [apply (IH _ _ _ _ _ _ ltac:(intros (o' & Ho & Ha); apply T; exists o'; auto) I1 E2)|]. intros (t2 & r2) s2 (I2 & ->). apply ok_ret. simpl in *. rewrite orb_assoc. auto.
Qed.
Lemma init_inv base al : vinv false (mk_vs [] 0 0) (v_init N PT pinit base) (sinit al).
Proof.
  apply all_free_inv; [|reflexivity]. constructor; simpl; auto; try lia.
  - constructor.
  - intros b [].
  - intros _ b [].
  - apply repeat_length.
  - intros p sl C. destruct p; discriminate.
  - intros p C. destruct p; discriminate.
  - intros i v C. destruct i; discriminate.
Qed.
(** the plain specification, without shrinking *)
Lemma grow_fresh l n b : exists b', b <= b' /\ n <= b' * S /\ grow (A := A) S P n (mk_vs l b (up b P)) = Some (mk_vs l b' (up b' P)).
Proof.
  unfold grow. simpl. destruct (Nat.leb_spec n (b * S)) as [L|L]; [exists b; auto|]. assert (b < up n S) by (apply up_lt; assumption). exists (up n S). split; [lia|]. split; [apply up_le; exact HS|].
  assert (M : up b P <= up (up n S) P) by (apply up_mono; lia). destruct (Nat.leb_spec (up b P) (up (up n S) P)); [reflexivity|lia].
Qed.
Lemma simple_cap os : forall l b l' rs, (forall o, In o os -> is_shrink o = false) -> length l <= b * S -> spec_ops S os l = Some (l', rs) ->
  exists b', length l' <= b' * S /\ spec_caps (A := A) S P os (mk_vs l b (up b P)) = Some (mk_vs l' b' (up b' P), rs).
Proof.
  induction os as [|o os IH]; intros l b l' rs H L E; simpl in E.
  - injection E as <- <-. exists b. auto.
  - destruct (spec_op S o l) as [(l1 & r)|] eqn:E1; [|discriminate]. destruct (spec_ops S os l1) as [(l2 & rs')|] eqn:E2; [|discriminate]. injection E as <- <-.
    assert (K : exists b1, length l1 <= b1 * S /\ spec_cap S P o (mk_vs l b (up b P)) = Some (mk_vs l1 b1 (up b1 P), r)).
    { pose proof (H o (or_introl eq_refl)) as Ho. destruct o; try discriminate Ho; unfold spec_cap, vs_l; rewrite ?E1;
        try (destruct (grow_fresh l (length l1) b) as (b1 & K1 & K2 & ->); exists b1; split; [exact K2|reflexivity]).
      - simpl in E1. injection E1 as <- <-. destruct (grow_fresh l n b) as (b1 & K1 & K2 & ->). exists b1. split; [nia|reflexivity].
      - simpl in E1. injection E1 as <- <-. exists 0. split; [simpl; lia|]. f_equal. unfold up. rewrite Nat.div_small by lia. reflexivity.
      - simpl in E1. discriminate.
      - simpl in E1. injection E1 as <- <-. exists (up (length l) S). split; [apply up_le; exact HS|reflexivity]. }
    destruct K as (b1 & K1 & K2). destruct (IH l1 b1 l2 rs') as (b' & J1 & J2); auto; [intros o' Ho'; apply H; right; exact Ho'|].
    exists b'. split; [exact J1|]. cbn [spec_caps]. rewrite K2, J2. reflexivity.
Qed.
Lemma simple_init os l' rs : (forall o, In o os -> is_shrink o = false) -> spec_ops S os [] = Some (l', rs) ->
  exists b', spec_caps (A := A) S P os (mk_vs [] 0 0) = Some (mk_vs l' b' (up b' P), rs).
Proof.
  intros H E. destruct (simple_cap os [] 0 l' rs H (Nat.le_0_l _) E) as (b' & _ & K). exists b'. rewrite <- K. f_equal. f_equal. unfold up. rewrite Nat.div_small by lia. reflexivity.
Qed.
End Vector.

(** * the pagers *)
Definition lru_ok (N : nat) (h : list nat) : Prop := NoDup h /\ forall i, In i h <-> i < N.
Lemma last_in (h : list nat) d : h <> [] -> In (last h d) h.
Proof. induction h as [|a h IH]; intro H; [congruence|]. destruct h as [|b h]; [left; reflexivity|]. right. apply IH. discriminate. Qed.
Lemma lru_init_ok N : lru_ok N (lru_init N).
Proof. split; [apply seq_NoDup|]. intro i. unfold lru_init. rewrite in_seq. lia. Qed.
Lemma lru_kick_ok N h : 1 <= N -> lru_ok N h -> fst (lru_kick h) < N /\ lru_ok N (snd (lru_kick h)).
Proof.
  intros HN (H1 & H2). split; [|split; assumption]. unfold lru_kick. simpl. apply H2. apply last_in. intros ->. apply (proj2 (H2 0)). lia.
Qed.
Lemma lru_hit_ok N h i : lru_ok N h -> i < N -> lru_ok N (lru_hit i h).
Proof.
  intros (H1 & H2) Hi. unfold lru_hit. split.
  - constructor; [|apply NoDup_filter; exact H1]. rewrite filter_In. rewrite Nat.eqb_refl. intros (_ & C). discriminate.
  - intro j. simpl. rewrite filter_In, H2, negb_true_iff, Nat.eqb_neq. destruct (Nat.eq_dec i j); [subst; tauto|]. split; [intros [E|E]; [contradiction|tauto]|]. intro K. right. auto.
Qed.
Lemma lru_two N h i : 2 <= N -> lru_ok N h -> i < N -> fst (lru_kick (lru_hit i h)) <> i.
Proof.
  intros HN (H1 & H2) Hi. unfold lru_kick, lru_hit. cbn [fst]. set (f := filter _ h).
  assert (NE : f <> []). { intro C. destruct (Nat.eq_dec i 0) as [->|D].
    - assert (K : In 1 f) by (apply filter_In; split; [apply H2; lia|reflexivity]). rewrite C in K. exact K.
    - assert (K : In 0 f) by (apply filter_In; split; [apply H2; lia|apply negb_true_iff, Nat.eqb_neq; lia]). rewrite C in K. exact K. }
  assert (E : last (i :: f) 0 = last f 0) by (destruct f; [congruence|reflexivity]). rewrite E. pose proof (last_in f 0 NE) as K. apply filter_In in K. destruct K as (_ & K). apply negb_true_iff, Nat.eqb_neq in K. exact K.
Qed.
Definition rnd_ok (N : nat) (h : nat -> nat) : Prop := forall i, h i < N.
Lemma rnd_kick_ok N h : rnd_ok N h -> fst (rnd_kick h) < N /\ rnd_ok N (snd (rnd_kick h)).
Proof. intro H. split; [apply H|]. intro i. apply H. Qed.
Lemma rnd_hit_ok N h i : rnd_ok N h -> i < N -> rnd_ok N (rnd_hit i h).
Proof. auto. Qed.
