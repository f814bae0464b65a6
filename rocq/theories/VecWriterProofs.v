From Coq Require Import List Bool Arith Lia.
From Verif Require Import SumLib AsyncIoModel AsyncIoProofs AsyncIoRules StackProofs SequenceProofs VectorModel VectorSpec VectorProofs VecWriterModel VecWriterSpec.
Import ListNotations.

Lemma ok_conj A R (p : prog A R) s Q1 Q2 : ok p s Q1 -> ok p s Q2 -> ok p s (fun r s' => Q1 r s' /\ Q2 r s').
Proof. unfold ok. destruct (srun p s); auto. Qed.

Lemma skipn_S_tl {B} n (l : list B) : skipn (S n) l = tl (skipn n l).
Proof. revert l. induction n as [|n IH]; intros [|x l]; auto. apply IH. Qed.

Section Writer.
Variable A : Type.
Variables S P N : nat.
Hypothesis HS : 1 <= S.
Hypothesis HP : 1 <= P.
Hypothesis HN : 1 <= N.
Variable PT : Type.
Variable pinit : PT.
Variable kick : PT -> nat * PT.
Variable hit : nat -> PT -> PT.
Variable PI : PT -> Prop.
Hypothesis PI_init : PI pinit.
Hypothesis PI_kick : forall p, PI p -> fst (kick p) < N /\ PI (snd (kick p)).
Hypothesis PI_hit : forall p i, PI p -> i < N -> PI (hit i p).
Notation sstate := (sstate A).
Notation vst := (vst PT).
Notation vspec := (vspec A).
Notation vinv := (vinv A S P N PT PI).
Notation tinv := (tinv A S P N PT PI).
Notation flushed := (flushed A S P N PT PI).

(** * lists *)
(** l1 where f, l2 elsewhere *)
Definition sel (f : nat -> bool) (l1 l2 : list (option A)) : list (option A) :=
  map (fun i => if f i then nth i l1 None else nth i l2 None) (seq 0 (length l2)).
Lemma sel_length f l1 l2 : length (sel f l1 l2) = length l2.
Proof. unfold sel. rewrite map_length, seq_length. reflexivity. Qed.
Lemma nth_some (l : list (option A)) i v : nth i l None = Some v <-> nth_error l i = Some (Some v).
Proof.
  split; intro H.
  - destruct (nth_error l i) as [x|] eqn:E; [rewrite (nth_error_nth _ _ None E) in H; congruence|]. apply nth_error_None in E. rewrite nth_overflow in H by exact E. discriminate.
  - exact (nth_error_nth _ _ None H).
Qed.
Lemma sel_nth f l1 l2 i v : nth_error (sel f l1 l2) i = Some (Some v) <-> i < length l2 /\ nth_error (if f i then l1 else l2) i = Some (Some v).
Proof.
  unfold sel. rewrite nth_error_map, nth_seq_. destruct (Nat.ltb_spec i (length l2)) as [L|L]; simpl.
  - rewrite <- nth_some. destruct (f i); split; intro H; try (injection H as H); try (split; [exact L|]); try rewrite H; auto; destruct H as (_ & ->); reflexivity.
  - split; [discriminate|lia].
Qed.

(** * what the functions of the vector leave alone *)
Definition clean (t : vst) : Prop := forall p, nth_error (v_status t) p <> Some Dirty.
Definition uncached (t : vst) : Prop := forall p sl, nth_error (v_pts t) p <> Some (Some sl).
Definition same (t t' : vst) : Prop := v_size t' = v_size t /\ v_bids t' = v_bids t /\ v_base t' = v_base t.
Lemma flushed_uncached lk x t s : flushed lk x t s -> uncached t.
Proof. intros (I & _) p sl C. destruct (t_map _ _ _ _ _ _ _ _ _ _ _ I p sl C) as (_ & _ & D). discriminate. Qed.
Lemma flush_slots_none is : forall (t : vst) (s : sstate) used, (forall i, In i is -> used i = false) ->
  flush_slots A P PT used is t = Ret (with_map t (v_pts t) (v_stp t) (v_free t ++ is)).
Proof.
  induction is as [|i is IH]; intros t s used H; cbn [flush_slots].
  - rewrite app_nil_r. destruct t; reflexivity.
  - rewrite (H i (or_introl eq_refl)). rewrite (IH _ s); [|intros k Hk; apply H; right; exact Hk]. cbn [with_map v_free v_pts v_stp]. rewrite <- app_assoc. reflexivity.
Qed.
(** flush() when nothing is in the cache *)
Lemma flush_uncached lk x t s : vinv lk x t s -> uncached t ->
  flush A P N PT t = Ret (with_map t (v_pts t) (v_stp t) (seq 0 N)).
Proof.
  intros (I & _) U. unfold flush. rewrite (flush_slots_none _ _ s); [reflexivity|]. intros i Hi. apply in_seq in Hi. apply negb_false_iff.
  destruct (mem i (v_free t)) eqn:E; [reflexivity|]. exfalso. destruct (t_free _ _ _ _ _ _ _ _ _ _ _ I i) as (p & Hp); [lia|exact E|]. exact (U _ _ Hp).
Qed.
Lemma page_updated_ok lk x t s p y : vinv lk x t s -> clean t -> p < vs_pages x -> length (vs_l y) = length (vs_l x) -> vs_blocks y = vs_blocks x -> vs_pages y = vs_pages x ->
  (forall i v, nth_error (vs_l y) i = Some (Some v) -> nth_error (vs_l x) i = Some (Some v) \/
     (i / S / P = p /\ forall b, nth_error (v_bids t) (i / S) = Some b -> sdisk s b (i mod S) = Some v)) ->
  ok (page_updated A PT p t) s (fun t' s' => s' = s /\ vinv lk y t' s /\ clean t' /\ same t t' /\ (uncached t -> uncached t') /\ nth_error (v_status t') p = Some Valid /\
    (forall q, q <> p -> nth_error (v_status t') q = nth_error (v_status t) q)).
Proof.
  intros (I & N1 & N2) C Hp Y1 Y2 Y3 Y. unfold page_updated.
  assert (Ls : p < length (v_status t)) by (rewrite (t_st _ _ _ _ _ _ _ _ _ _ _ I); exact Hp). destruct (lt_nth_error _ _ Ls) as (st & Est). rewrite Est.
  assert (Lp : p < length (v_pts t)) by (rewrite (t_pts _ _ _ _ _ _ _ _ _ _ _ I); exact Hp). destruct (lt_nth_error _ _ Lp) as (m & Em). rewrite Em.
  set (t1 := match m with Some slot => with_map t (lset p None (v_pts t)) (v_stp t) (v_free t ++ [slot]) | None => t end).
  assert (EL : forall i v, nth_error (vs_l x) i = Some (Some v) -> forall b, nth_error (v_bids t) (i / S) = Some b -> sdisk s b (i mod S) = Some v).
  { intros i v H b Hb. destruct (t_elem _ _ _ _ _ _ _ _ _ _ _ I i v H) as (G1 & G2 & _). apply G2; [|exact Hb].
    pose proof (page_in A S P N HS HP HN PT PI _ _ _ _ _ i I (nth_error_lt _ _ _ H)) as (L1 & _). rewrite (t_pts _ _ _ _ _ _ _ _ _ _ _ I), <- (t_st _ _ _ _ _ _ _ _ _ _ _ I) in L1.
    destruct (lt_nth_error _ _ L1) as (z & Ez). pose proof (C (i / S / P)) as Cz. destruct z; congruence. }
  assert (G : vinv lk y (with_status t1 (lset p Valid (v_status t1))) s /\ clean (with_status t1 (lset p Valid (v_status t1))) /\ same t t1 /\ (uncached t -> uncached t1) /\ v_status t1 = v_status t).
  { assert (F : v_status t1 = v_status t) by (destruct m; reflexivity).
    split; [|split; [|split; [|split]]]; [| |destruct m; repeat split| |exact F].
    2:{ intros q D. cbn [with_status v_status] in D. rewrite F in D. apply lset_some in D. destruct D as [(_ & D)|(_ & D)]; [discriminate|]. exact (C q D). }
    2:{ intros U q sl D. destruct m as [sl0|]; cbn in D; [|exact (U _ _ D)]. apply lset_some in D. destruct D as [(_ & D)|(_ & D)]; [discriminate|]. exact (U _ _ D). }
    assert (ST : forall q z, nth_error (lset p Valid (v_status t)) q = Some z -> z <> Valid -> q <> p /\ nth_error (v_status t) q = Some z).
    { intros q z D Z. apply lset_some in D. destruct D as [(_ & D)|D]; [congruence|exact D]. }
    assert (K : forall i v, nth_error (vs_l y) i = Some (Some v) -> nth_error (lset p Valid (v_status t)) (i / S / P) <> Some Uninit /\
       (forall b, nth_error (v_bids t) (i / S) = Some b -> sdisk s b (i mod S) = Some v)).
    { intros i v H. destruct (Y i v H) as [H1|(H1 & H2)].
      - split; [|apply EL; exact H1]. intro D. apply ST in D; [|discriminate]. destruct (t_elem _ _ _ _ _ _ _ _ _ _ _ I i v H1) as (G1 & _). tauto.
      - split; [|exact H2]. intro D. apply ST in D; [|discriminate]. tauto. }
    assert (GC : forall i v sl, nth_error (vs_l y) i = Some (Some v) -> i / S / P <> p -> nth_error (v_pts t) (i / S / P) = Some (Some sl) -> scont s (v_base t + sl * P + (i / S) mod P) (i mod S) = Some v).
    { intros i v sl H D E. destruct (Y i v H) as [H1|(H1 & _)]; [|contradiction]. apply (t_elem _ _ _ _ _ _ _ _ _ _ _ I i v H1). exact E. }
    destruct m as [sl|].
    - destruct (t_map _ _ _ _ _ _ _ _ _ _ _ I p sl Em) as (M1 & M2 & M3). apply mem_nin in M3. unfold t1. split; [|split; simpl].
      + destruct I. constructor; cbn [with_status with_map v_size v_bids v_status v_pts v_stp v_free v_pager v_base]; rewrite ?lset_length; auto; try congruence; try lia.
        * intros q sl' D. apply lset_some in D. destruct D as [(_ & D)|(D0 & D)]; [discriminate|]. destruct (t_map q sl' D) as (G1 & G2 & G3). split; [exact G1|]. split; [exact G2|].
          apply mem_nin. apply mem_nin in G3. intro K0. apply in_app_iff in K0. destruct K0 as [K0|[K0|[]]]; [exact (G3 K0)|subst; congruence].
        * intros sl' H1 H2. apply mem_nin in H2. rewrite in_app_iff in H2. destruct (t_free sl' H1) as (q & Hq); [apply mem_nin; tauto|]. exists q. rewrite lset_ne; [exact Hq|].
          intros ->. apply H2. right. left. congruence.
        * intros q D. apply ST in D; [|discriminate]. destruct D as (D0 & D). exfalso. exact (C q D).
        * intros i v H. destruct (K i v H) as (K1 & K2). split; [exact K1|]. split; [intros _; exact K2|]. intros sl' D. apply lset_some in D. destruct D as [(_ & D)|(D0 & D)]; [discriminate|]. apply (GC i v sl' H D0 D).
      + apply nodup_app_intro; auto; [constructor; [intros []|constructor]|]. intros b Hb [<-|[]]. exact (M3 Hb).
      + intros j Hj. apply in_app_iff in Hj. destruct Hj as [Hj|[<-|[]]]; auto.
    - unfold t1. split; [|split; assumption]. destruct I. constructor; cbn [with_status with_map v_size v_bids v_status v_pts v_stp v_free v_pager v_base]; rewrite ?lset_length; auto; try congruence; try lia.
      * intros q D. apply ST in D; [|discriminate]. destruct D as (D0 & D). exfalso. exact (C q D).
      * intros i v H. destruct (K i v H) as (K1 & K2). split; [exact K1|]. split; [intros _; exact K2|]. intros sl' D.
        destruct (Nat.eq_dec (i / S / P) p) as [E|E]; [congruence|]. apply (GC i v sl' H E D). }
  destruct G as (G1 & G2 & G3 & G4 & G5).
  assert (R : ok (Ret (with_status t1 (lset p Valid (v_status t1)))) s (fun t' s' => s' = s /\ vinv lk y t' s /\ clean t' /\ same t t' /\ (uncached t -> uncached t') /\ nth_error (v_status t') p = Some Valid /\
    (forall q, q <> p -> nth_error (v_status t') q = nth_error (v_status t) q))).
  { apply ok_ret. split; [reflexivity|]. split; [exact G1|]. split; [exact G2|]. split; [exact G3|]. split; [exact G4|]. cbn [with_status v_status]. rewrite G5. split; [apply lset_eq; exact Ls|]. intros q D. apply lset_ne. exact D. }
  destruct st; try exact R. exfalso. exact (C p Est).
Qed.
(** reading an element when no page is dirty *)
Lemma locate_frame lk x t s i : vinv lk x t s -> i / S < length (v_bids t) -> clean t ->
  ok (locate A S P PT kick hit false i t) s (fun r s' => clean (fst r) /\ same t (fst r) /\ sdisk s' = sdisk s /\ sown s' = sown s /\ v_status (fst r) = v_status t /\
    forall y, v_base t + N * P <= y -> scont s' y = scont s y).
Proof.
  intros (I & NF & LF) Hi C. destruct (page_blk A S P N HS HP HN PT PI _ _ _ _ _ i I Hi) as (L1 & L2 & L3). unfold locate. rewrite (page_of S P N HS HP HN). set (p := i / S / P) in *.
  assert (Ls : forall q, q < length (v_pts t) -> exists z, nth_error (v_status t) q = Some z /\ z <> Dirty).
  { intros q Hq. rewrite (t_pts _ _ _ _ _ _ _ _ _ _ _ I), <- (t_st _ _ _ _ _ _ _ _ _ _ _ I) in Hq. destruct (lt_nth_error _ _ Hq) as (z & Ez). exists z. split; [exact Ez|]. intros ->. exact (C q Ez). }
  assert (SL : forall sl, sl < N -> forall y, v_base t + N * P <= y -> v_base t + sl * P + P <= y) by (intros sl Hsl y Hy; nia).
  destruct (lt_nth_error _ _ L1) as (m & Em). rewrite Em. destruct m as [sl|].
  - apply ok_ret. cbn. repeat split; auto.
  - destruct (v_free t) as [|sl fr] eqn:EF.
    + pose proof (PI_kick _ (t_PI _ _ _ _ _ _ _ _ _ _ _ I)) as (K1 & K2). destruct (kick (v_pager t)) as (sl & pg) eqn:EK. simpl in K1, K2.
      destruct (t_free _ _ _ _ _ _ _ _ _ _ _ I sl K1 eq_refl) as (old & Eo). destruct (t_map _ _ _ _ _ _ _ _ _ _ _ I old sl Eo) as (_ & M2 & _). rewrite M2.
      assert (Lo : old < length (v_pts t)) by (eapply nth_error_lt; eassumption). destruct (Nat.leb_spec (length (v_pts t)) old); [lia|].
      destruct (Ls old Lo) as (z & Ez & Dz). destruct (Ls p L1) as (y & Ey & Dy). cbv zeta. set (t1 := with_map _ _ _ _).
      apply ok_bind. assert (W : write_page A P PT old sl t1 = Ret t1) by (unfold write_page; cbn [t1 with_map with_pager v_status]; rewrite Ez; destruct z; congruence). rewrite W. apply ok_ret.
      apply ok_bind. eapply ok_imp; [apply (read_page_ok A S P N HS HP HN PT p sl t1 s y (t_out _ _ _ _ _ _ _ _ _ _ _ I) (t_own _ _ _ _ _ _ _ _ _ _ _ I) Ey L2)|]. cbv beta.
      intros [] s2 (R1 & R2 & R3 & R4 & _). apply ok_ret. cbn [fst]. cbn [t1 with_map with_pager v_base] in R4. repeat split; auto.
    + inversion NF as [|a b NF1 NF2]; subst. assert (Hsl : sl < N) by (apply LF; left; reflexivity).
      cbv zeta. change (v_stp (with_pager t (hit sl (v_pager t)))) with (v_stp t). rewrite (t_stp _ _ _ _ _ _ _ _ _ _ _ I). destruct (Nat.leb_spec N sl); [lia|].
      destruct (Ls p L1) as (y & Ey & Dy). set (t1 := with_map _ _ _ _).
      apply ok_bind. eapply ok_imp; [apply (read_page_ok A S P N HS HP HN PT p sl t1 s y (t_out _ _ _ _ _ _ _ _ _ _ _ I) (t_own _ _ _ _ _ _ _ _ _ _ _ I) Ey L2)|]. cbv beta.
      intros [] s2 (R1 & R2 & R3 & R4 & _). apply ok_ret. cbn [fst]. cbn [t1 with_map with_pager v_base] in R4. repeat split; auto.
Qed.
(** growing *)
Lemma resize_frame t s n : v_size t <= n ->
  ok (resize A S P PT n t) s (fun t' s' => v_base t' = v_base t /\ scont s' = scont s /\ (exists bs, v_bids t' = v_bids t ++ bs) /\ (forall b, In b (sown s) -> sdisk s' b = sdisk s b) /\
    (clean t -> clean t') /\ (uncached t -> uncached t')).
Proof.
  intro L. unfold resize, reserve. destruct (Nat.leb n (length (v_bids t) * S)).
  - cbn [bind]. destruct (Nat.ltb_spec n (v_size t)); [lia|]. apply ok_ret. repeat split; auto. exists []. rewrite app_nil_r. reflexivity.
  - cbn [bind]. apply ok_alloc. intros bs al B1 B2 B3. cbn [v_size]. destruct (Nat.ltb_spec n (v_size t)); [lia|]. apply ok_ret. cbn.
    split; [reflexivity|]. split; [reflexivity|]. split; [exists bs; reflexivity|]. split; [|split].
    + intros b Hb. destruct (mem b bs) eqn:E; [|reflexivity]. apply mem_in in E. destruct (B3 b E Hb).
    + intros C p D. unfold with_size in D. cbn in D. rewrite lresize_nth in D. destruct (Nat.ltb p _); [|discriminate]. destruct (nth_error (v_status t) p) as [z|] eqn:E; [|discriminate]. apply (C p). congruence.
    + intros U p sl D. cbn in D. rewrite lresize_nth in D. destruct (Nat.ltb p _); [|discriminate]. destruct (nth_error (v_pts t) p) as [z|] eqn:E; [|discriminate]. apply (U p sl). congruence.
Qed.
(** * the vector while a buf_ostream is alive *)
Notation obuf := (obuf P N PT).
(** [x] is what is to be in the vector, [xr] what the vector knows of it; blocks h0 .. j-1 (all of page [pg]) were written
    without telling the vector, and the first [e] elements of block j are in the buffer *)
Record core (lk : bool) (x : vspec) (t : vst) (s : sstate) (xr : vspec) (h0 j e pg : nat) : Prop := mk_core {
  c_inv : vinv lk xr t s;
  c_clean : clean t;
  c_len : length (vs_l xr) = length (vs_l x);
  c_bl : vs_blocks xr = vs_blocks x;
  c_pg : vs_pages xr = vs_pages x;
  c_e : e <= S;
  c_h : h0 <= j;
  c_hid : forall k, h0 <= k < j -> k / P = pg;
  c_k1h : forall i v, nth_error (vs_l x) i = Some (Some v) -> h0 <= i / S < j -> forall b, nth_error (v_bids t) (i / S) = Some b -> sdisk s b (i mod S) = Some v;
  c_k1c : forall i v, nth_error (vs_l x) i = Some (Some v) -> i / S = j -> i mod S < e -> scont s (obuf t) (i mod S) = Some v;
  c_k1r : forall i v, nth_error (vs_l x) i = Some (Some v) -> ~ h0 <= i / S < j -> ~ (i / S = j /\ i mod S < e) -> nth_error (vs_l xr) i = Some (Some v);
  c_k2 : forall i v, nth_error (vs_l xr) i = Some (Some v) -> ~ (i / S = j /\ i mod S < e) }.
Notation put_at := (put_at A).

Lemma split_at j e i : e < S -> i <> S * j + e -> ~ (i / S = j /\ i mod S = e).
Proof. intros He Hi (H1 & H2). apply Hi. rewrite (Nat.div_mod i S) by lia. rewrite H1, H2. reflexivity. Qed.
Lemma at_div j e : e < S -> (S * j + e) / S = j /\ (S * j + e) mod S = e.
Proof. intro H. split; symmetry; [apply (Nat.div_unique _ _ _ e)|apply (Nat.mod_unique _ _ j)]; lia. Qed.
Lemma vinv_sub lk x y t s : vinv lk x t s -> length (vs_l y) = length (vs_l x) -> vs_blocks y = vs_blocks x -> vs_pages y = vs_pages x ->
  (forall i v, nth_error (vs_l y) i = Some (Some v) -> nth_error (vs_l x) i = Some (Some v)) -> vinv lk y t s.
Proof. intros (I & N1 & N2) E1 E2 E3 H. split; [|split; assumption]. destruct I. constructor; rewrite ?E1, ?E2, ?E3; auto. Qed.
Lemma vinv_cont lk x t s c : vinv lk x t s -> (forall y, y < obuf t -> c y = scont s y) -> vinv lk x t (with_cont A s c).
Proof.
  intros (I & N1 & N2) H. split; [|split; assumption]. destruct I. constructor; auto. intros i v E. destruct (t_elem i v E) as (G1 & G2 & G3). split; [exact G1|]. split; [exact G2|].
  intros sl Hs. cbn [with_cont scont]. rewrite H; [apply G3; exact Hs|]. unfold VecWriterModel.obuf. destruct (t_map _ _ Hs) as (L & _). pose proof (Nat.mod_upper_bound (i / S) P ltac:(lia)). nia.
Qed.
Lemma core_start lk x t s j pg : vinv lk x t s -> clean t -> core lk x t s x j j 0 pg.
Proof. intros I C. constructor; auto; intros; lia. Qed.
Lemma core_end lk x t s xr j pg : core lk x t s xr j j 0 pg -> vinv lk x t s.
Proof. intros []. apply (vinv_sub lk xr); auto. intros i v H. apply c_k1r0; auto; lia. Qed.
Lemma core_elem lk x t s xr h0 j e pg y c : core lk x t s xr h0 j e pg -> e < S -> length (vs_l y) = length (vs_l x) -> vs_blocks y = vs_blocks x -> vs_pages y = vs_pages x ->
  (forall i v, nth_error (vs_l y) i = Some (Some v) -> i <> S * j + e -> nth_error (vs_l x) i = Some (Some v)) ->
  (forall v, nth_error (vs_l y) (S * j + e) = Some (Some v) -> c = Some v) ->
  core lk y t (with_cont A s (upd2 (scont s) (obuf t) e c)) (put_at (S * j + e) None xr) h0 j (e + 1) pg.
Proof.
  intros [] He Y1 Y2 Y3 Y4 Y5. destruct (at_div j e He) as (D1 & D2).
  assert (NE : forall i, ~ (i / S = j /\ i mod S < e + 1) -> i <> S * j + e) by (intros i H ->; rewrite D1, D2 in H; lia).
  assert (NJ : forall i, i / S < j -> i <> S * j + e) by (intros i H ->; rewrite D1 in H; lia).
  constructor; cbn [VectorProofs.put_at vs_l vs_blocks vs_pages with_cont scont sdisk]; rewrite ?lset_length; auto; try congruence; try lia.
  - apply vinv_cont.
    + apply (vinv_sub lk xr); cbn; rewrite ?lset_length; auto. intros i v H. apply lset_some in H. destruct H as [(_ & H)|(_ & H)]; [discriminate|exact H].
    + intros z Hz. unfold upd2. apply upd_other. lia.
  - intros i v H Hi. apply c_k1h0; auto. apply Y4; [exact H|]. apply NJ. lia.
  - intros i v H Hi Hm. destruct (Nat.eq_dec i (S * j + e)) as [->|D].
    + rewrite D2, upd2_at. apply Y5. exact H.
    + pose proof (split_at j e i He D). rewrite upd2_ne by (right; lia). apply c_k1c0; auto; lia.
  - intros i v H H1 H2. rewrite lset_ne by (apply NE; exact H2). apply c_k1r0; auto; lia.
  - intros i v H. apply lset_some in H. destruct H as [(_ & H)|(D & H)]; [discriminate|]. pose proof (split_at j e i He D). pose proof (c_k3 i v H). lia.
Qed.

Lemma core_full lk x t s xr h0 j e pg : core lk x t s xr h0 j e pg -> length (vs_l x) = S * j + e -> core lk x t s xr h0 j S pg.
Proof.
  intros [] L. assert (K : forall i, i < length (vs_l x) -> i / S = j -> i mod S < e).
  { intros i Hi E. pose proof (Nat.div_mod i S ltac:(lia)) as D. rewrite E in D. lia. }
  constructor; auto.
  - intros i v H Hi _. apply c_k1c0; auto. apply K; [eapply nth_error_lt; exact H|exact Hi].
  - intros i v H H1 H2. apply c_k1r0; auto. intros (H3 & H4). apply H2. split; [exact H3|]. apply Nat.mod_upper_bound. lia.
  - intros i v H (H1 & _). apply (c_k3 i v H). split; [exact H1|]. apply K; [|exact H1]. rewrite <- c_len0. eapply nth_error_lt. exact H.
Qed.
Lemma core_block lk x t s xr h0 j pg : core lk x t s xr h0 j S pg -> j < length (v_bids t) -> j / P = pg ->
  ok (out_block A P N PT j t) s (fun _ s' => core lk x t s' xr h0 (j + 1) 0 pg /\ scont s' = scont s).
Proof.
  intros C Hj Hp. pose proof C as []. unfold out_block. destruct (lt_nth_error _ _ Hj) as (b & Eb). rewrite Eb.
  pose proof (proj1 c_inv0) as I. pose proof (t_out _ _ _ _ _ _ _ _ _ _ _ I) as Ho. assert (Ob : In b (sown s)) by (apply (t_own _ _ _ _ _ _ _ _ _ _ _ I); eapply nth_error_In; exact Eb).
  unfold ok. cbn [srun]. rewrite (proj2 (mem_in _ _) Ob), Ho. cbn. rewrite Nat.eqb_refl. cbn. split; [|reflexivity].
  assert (BI : forall k, nth_error (v_bids t) k = Some b -> k = j).
  { intros k Hk. pose proof (t_nd _ _ _ _ _ _ _ _ _ _ _ I) as ND. rewrite NoDup_nth_error in ND. apply ND; [eapply nth_error_lt; exact Hk|congruence]. }
  assert (MS : forall i, i mod S < S) by (intro i; apply Nat.mod_upper_bound; lia).
  constructor; auto; try lia.
  - destruct c_inv0 as (I' & N1 & N2). split; [|split; assumption]. destruct I'. constructor; auto. intros i v H. destruct (t_elem i v H) as (G1 & G2 & G3). split; [exact G1|]. split; [|exact G3].
    intros Hv b' Hb. cbn. rewrite upd_other; [apply G2; assumption|]. intros ->. apply (c_k3 i v H). split; [apply BI; exact Hb|apply MS].
  - intros k Hk. destruct (Nat.eq_dec k j) as [->|D]; [exact Hp|]. apply c_hid0. lia.
  - intros i v H Hi b' Hb. cbn. destruct (Nat.eq_dec (i / S) j) as [D|D].
    + rewrite D in Hb. assert (b' = b) as -> by congruence. rewrite upd_same. apply c_k1c0; auto.
    + rewrite upd_other; [apply (c_k1h0 i v H); [lia|exact Hb]|]. intros ->. apply D, BI, Hb.
  - intros i v H H1 H2. apply c_k1r0; auto; lia.
Qed.
Lemma out_next_ok lk x t s xr h0 j e pg : core lk x t s xr h0 j (e + 1) pg -> j < length (v_bids t) -> j / P = pg ->
  ok (out_next A S P N PT j e t) s (fun o s' => core lk x t s' xr h0 (fst o) (snd o) pg /\ (if Nat.eqb (e + 1) S then o = (j + 1, 0) else o = (j, e + 1)) /\ scont s' = scont s).
Proof.
  intros C Hj Hp. pose proof (c_e _ _ _ _ _ _ _ _ _ C) as He. unfold out_next. destruct (Nat.leb_spec S (e + 1)) as [L|L].
  - assert (E : e + 1 = S) by lia. rewrite E in *. rewrite Nat.eqb_refl. apply ok_bind. eapply ok_imp; [apply (core_block lk x t s xr h0 j pg C Hj Hp)|]. cbv beta. intros _ s' (C' & E'). apply ok_ret. auto.
  - apply ok_ret. destruct (Nat.eqb_spec (e + 1) S); [lia|]. auto.
Qed.
Definition told (h0 j : nat) (x xr : vspec) : vspec := mk_vs (sel (fun i => Nat.leb h0 (i / S) && Nat.ltb (i / S) j) (vs_l x) (vs_l xr)) (vs_blocks xr) (vs_pages xr).
Lemma told_nth h0 j x xr i v : nth_error (vs_l (told h0 j x xr)) i = Some (Some v) -> (h0 <= i / S < j /\ nth_error (vs_l x) i = Some (Some v)) \/ (~ h0 <= i / S < j /\ nth_error (vs_l xr) i = Some (Some v)).
Proof.
  intro H. cbn [told vs_l] in H. apply sel_nth in H. destruct H as (L & H). destruct (Nat.leb_spec h0 (i / S)); destruct (Nat.ltb_spec (i / S) j); cbn [andb] in H; [left|right|right|right]; (split; [lia|exact H]).
Qed.
Lemma told_core lk x t s xr h0 j e pg pg' t' : core lk x t s xr h0 j e pg -> vinv lk (told h0 j x xr) t' s -> clean t' -> same t t' -> core lk x t' s (told h0 j x xr) j j e pg'.
Proof.
  intros [] I C (E1 & E2 & E3). constructor; auto; try (intros; lia).
  - cbn. rewrite sel_length. exact c_len0.
  - unfold VecWriterModel.obuf. rewrite E3. exact c_k1c0.
  - intros i v H H1 H2. cbn [told vs_l]. apply sel_nth. assert (Li : i < length (vs_l xr)) by (rewrite c_len0; eapply nth_error_lt; exact H). split; [exact Li|].
    destruct (Nat.leb_spec h0 (i / S)); destruct (Nat.ltb_spec (i / S) j); cbn [andb]; try exact H; apply c_k1r0; auto; lia.
  - intros i v H (H1 & H2). apply told_nth in H. destruct H as [(H & _)|(_ & H)]; [lia|]. apply (c_k3 i v H). auto.
Qed.
Lemma core_inform lk x t s xr h0 j e pg pg' : core lk x t s xr h0 j e pg -> pg < vs_pages x ->
  ok (page_updated A PT pg t) s (fun t' s' => s' = s /\ core lk x t' s (told h0 j x xr) j j e pg' /\ same t t' /\ (uncached t -> uncached t') /\ nth_error (v_status t') pg = Some Valid).
Proof.
  intros C Hp. pose proof C as []. eapply ok_imp; [apply (page_updated_ok lk xr t s pg (told h0 j x xr)); auto|].
  - lia.
  - cbn. apply sel_length.
  - intros i v H. apply told_nth in H. destruct H as [(H1 & H)|(_ & H)]; [right|left; exact H]. split; [apply c_hid0; exact H1|]. apply (c_k1h0 i v H H1).
  - cbv beta. intros t' s' (-> & I & C' & E & U & V & _). split; [reflexivity|]. split; [|auto]. apply (told_core lk x t s xr h0 j e pg); auto.
Qed.
Lemma core_promote lk x t s xr h0 j e pg pg' : core lk x t s xr h0 j e pg -> uncached t -> nth_error (v_status t) pg = Some Valid -> core lk x t s (told h0 j x xr) j j e pg'.
Proof.
  intros C U V. apply (told_core lk x t s xr h0 j e pg); auto; [|apply C|repeat split]. pose proof C as []. destruct c_inv0 as (I & N1 & N2). split; [|split; assumption].
  destruct I. constructor; cbn [told vs_l vs_blocks vs_pages]; rewrite ?sel_length; auto. intros i v H. apply told_nth in H. destruct H as [(H1 & H)|(H1 & H)]; [|apply t_elem; exact H].
  rewrite (c_hid0 _ H1), V. split; [discriminate|]. split; [intros _; apply (c_k1h0 i v H H1)|]. intros sl D. destruct (U _ _ D).
Qed.
Lemma core_pg lk x t s xr h0 j e pg pg' : core lk x t s xr h0 j e pg -> pg' = pg -> core lk x t s xr h0 j e pg'.
Proof. intros H ->. exact H. Qed.
Lemma core_resize lk x t s xr h0 j pg n z : core lk x t s xr h0 j 0 pg -> length (vs_l x) <= n -> grow S P n x = Some z -> uncached t ->
  ok (resize A S P PT n t) s (fun t' s' => core lk (mk_vs (resized n (vs_l x)) (vs_blocks z) (vs_pages z)) t' s' (mk_vs (resized n (vs_l xr)) (vs_blocks z) (vs_pages z)) h0 j 0 pg /\ uncached t' /\ v_size t' = n).
Proof.
  intros [] L G U. assert (SZ : v_size t = length (vs_l x)) by (rewrite <- c_len0; apply (proj1 c_inv0)).
  assert (G' : exists y, grow S P n xr = Some y /\ vs_blocks y = vs_blocks z /\ vs_pages y = vs_pages z).
  { revert G. unfold grow. rewrite c_bl0, c_pg0. destruct (Nat.leb n (vs_blocks x * S)); [intro E; injection E as <-; exists xr; auto|]. destruct (Nat.leb (vs_pages x) _); [|discriminate]. intro E. injection E as <-. eexists. split; [reflexivity|]. auto. }
  destruct G' as (y & Gy & Y1 & Y2).
  eapply ok_imp; [apply ok_conj; [apply (resize_ok A S P N HS HP HN PT kick hit PI PI_kick PI_hit lk xr t s n y c_inv0 Gy)|apply (resize_frame t s n); lia]|].
  cbv beta. intros t' s' ((I & _ & E) & F1 & F2 & (bs & F3) & F4 & F5 & F6). rewrite Y1, Y2 in I. split; [|auto]. constructor; auto; try (intros; lia); try reflexivity.
  - cbn. change (resized n (vs_l xr)) with (lresize n None (vs_l xr)). change (resized n (vs_l x)) with (lresize n None (vs_l x)). rewrite !lresize_length. reflexivity.
  - cbn [vs_l]. intros i v H Hi b Hb. apply resized_nth in H. destruct H as (_ & H).
    assert (Bi : i / S < length (v_bids t)) by (apply (page_in A S P N HS HP HN PT PI _ _ _ _ _ i (proj1 c_inv0)); rewrite c_len0; eapply nth_error_lt; exact H).
    rewrite F3, nth_error_app1 in Hb by exact Bi. rewrite F4; [apply (c_k1h0 i v H Hi b Hb)|]. apply (t_own _ _ _ _ _ _ _ _ _ _ _ (proj1 c_inv0)). eapply nth_error_In. exact Hb.
  - cbn [vs_l]. intros i v H H1 H2. apply resized_nth in H. destruct H as (H0 & H). change (resized n (vs_l xr)) with (lresize n None (vs_l xr)). rewrite lresize_nth.
    destruct (Nat.ltb_spec i n); [|lia]. rewrite (c_k1r0 i v H H1 H2). reflexivity.
Qed.
Lemma core_flush lk x t s xr h0 j pg : core lk x t s xr h0 j 0 pg -> uncached t ->
  ok (flush A P N PT t) s (fun t' s' => s' = s /\ core lk x t' s xr h0 j 0 pg /\ uncached t' /\ same t t' /\ v_status t' = v_status t).
Proof.
  intros C U. pose proof C as []. rewrite (flush_uncached lk xr t s c_inv0 U). apply ok_ret. split; [reflexivity|]. split; [|repeat split; auto]. constructor; auto.
  apply (all_free_inv A S P N HS HP HN PT PI); [|reflexivity]. apply tinv_freelist. apply (tinv_ext A S P N PT PI _ _ _ _ _ _ (proj1 c_inv0)). intros i Hi.
  destruct (mem i (v_free t)) eqn:E; [reflexivity|]. exfalso. destruct (t_free _ _ _ _ _ _ _ _ _ _ _ (proj1 c_inv0) i Hi E) as (p & Hp). exact (U _ _ Hp).
Qed.

(** * operator << *)
Definition notlast (it en : nat) : Prop := ~ (en = it + S /\ en mod (S * P) = 0).
Definition J (t : vst) (pk en : nat) : Prop := nth_error (v_status t) (pk / P) = Some Valid \/ pk mod P = 0 \/ notlast (S * pk) en.
(** without a buf_ostream *)
Definition nst (g : Prop) lk x t s it en : Prop :=
  (vinv lk x t s /\ (g -> notlast it en \/ (0 < it /\ exists v, nth_error (vs_l x) (it - 1) = Some (Some v)))) \/
  (it mod S = 0 /\ uncached t /\ (g -> notlast it en) /\ exists xr h0, core lk x t s xr h0 (it / S) 0 (it / S / P)).
Definition W (g : Prop) lk x t s (w : bw) : Prop :=
  w_end w = length (vs_l x) /\ w_iter w <= w_end w /\ vs_pages x = up (vs_blocks x) P /\ (g -> 2 <= P /\ ~ (w_end w = S /\ P = 2)) /\
  match w_out w with
  | None => vinv lk x t s /\ (g -> notlast (w_iter w) (w_end w) \/ (0 < w_iter w /\ exists v, nth_error (vs_l x) (w_iter w - 1) = Some (Some v)))
  | Some (j, e) => exists xr h0 pk, w_prev w = S * pk /\ core lk x t s xr h0 j e (pk / P) /\ uncached t /\ w_iter w = S * j + e /\
      ((pk = j /\ 0 < e < S) \/ (pk + 1 = j /\ e = 0)) /\ (g -> J t pk (w_end w))
  end.

Lemma core_size lk x t s xr h0 j e pg : core lk x t s xr h0 j e pg -> v_size t = length (vs_l x).
Proof. intros []. rewrite <- c_len0. apply (proj1 c_inv0). Qed.
Lemma core_blk lk x t s xr h0 j e pg i : core lk x t s xr h0 j e pg -> i < length (vs_l x) -> i / S < length (v_bids t) /\ i / S / P < vs_pages x.
Proof.
  intros [] H. rewrite <- c_len0 in H. destruct (page_in A S P N HS HP HN PT PI _ _ _ _ _ i (proj1 c_inv0) H) as (L1 & _ & L3). split; [exact L3|].
  rewrite <- c_pg0, <- (t_pts _ _ _ _ _ _ _ _ _ _ _ (proj1 c_inv0)). exact L1.
Qed.
Lemma put_ok (g : Prop) lk x t s xr h0 j e v en gr : core lk x t s xr h0 j e (j / P) -> uncached t -> e < S -> S * j + e < length (vs_l x) -> en = length (vs_l x) ->
  vs_pages x = up (vs_blocks x) P -> (g -> 2 <= P /\ ~ (en = S /\ P = 2)) -> (g -> J t j en) ->
  ok (DoPut (obuf t) e v (bind (out_next A S P N PT j e t) (fun o => Ret (t, mk_bw (S * j + e + 1) en gr (S * j) (Some o))))) s
     (fun r s' => W g lk (put_at (S * j + e) (Some v) x) (fst r) s' (snd r) /\ w_iter (snd r) = S * j + e + 1 /\ w_grown (snd r) = gr /\ w_end (snd r) = en).
Proof.
  intros C U He Hi -> Hpg Hg HJ. destruct (at_div j e He) as (D1 & D2). pose proof (core_blk _ _ _ _ _ _ _ _ _ _ C Hi) as (Hb & _). rewrite D1 in Hb.
  apply ok_put; [apply (proj1 (c_inv _ _ _ _ _ _ _ _ _ C))|].
  pose proof (core_elem lk x t s xr h0 j e (j / P) (put_at (S * j + e) (Some v) x) (Some v) C He) as C1.
  specialize (C1 ltac:(cbn; apply lset_length) eq_refl eq_refl). specialize (C1 ltac:(intros i u H D; cbn in H; rewrite lset_ne in H by exact D; exact H)).
  specialize (C1 ltac:(intros u H; cbn in H; rewrite lset_eq in H by exact Hi; congruence)).
  apply ok_bind. eapply ok_imp; [apply (out_next_ok _ _ _ _ _ _ _ _ _ C1 Hb eq_refl)|]. cbv beta. intros o s' (C2 & E & _). apply ok_ret. cbn [fst snd w_iter w_grown].
  split; [|auto]. unfold W. cbn [w_end w_iter w_out w_prev VectorProofs.put_at vs_l vs_pages vs_blocks]. rewrite lset_length. split; [reflexivity|]. split; [lia|]. split; [exact Hpg|]. split; [exact Hg|].
  destruct o as (j' & e'). cbn [fst snd] in *. exists (put_at (S * j + e) None xr), h0, j. split; [reflexivity|]. split; [exact C2|]. split; [exact U|].
  destruct (Nat.eqb_spec (e + 1) S); injection E as -> ->; (split; [nia|]); (split; [lia|exact HJ]).
Qed.
Lemma aligned_div it : it mod S = 0 -> it = S * (it / S).
Proof. intro H. pose proof (Nat.div_mod it S ltac:(lia)). lia. Qed.
Lemma put2_none (g : Prop) lk x t s w v : w_out w = None -> w_end w = length (vs_l x) -> w_iter w < w_end w -> vs_pages x = up (vs_blocks x) P -> (g -> 2 <= P /\ ~ (w_end w = S /\ P = 2)) ->
  nst g lk x t s (w_iter w) (w_end w) ->
  ok (bw_put2 A S P N PT kick hit v t w) s (fun r s' => W g lk (put_at (w_iter w) (Some v) x) (fst r) s' (snd r) /\ w_iter (snd r) = w_iter w + 1 /\ w_grown (snd r) = w_grown w /\ w_end (snd r) = w_end w).
Proof.
  intros E En Hi Hpg Hg H. unfold bw_put2. destruct (Nat.ltb_spec (w_iter w) (w_end w)); [|lia]. cbn [negb]. rewrite E. destruct (Nat.eqb_spec (w_iter w mod S) 0) as [Al|Al]; cbn [negb].
  - pose proof (aligned_div _ Al) as Ej. set (j := w_iter w / S) in *.
    assert (F : ok (flush A P N PT t) s (fun t' s' => exists xr h0, core lk x t' s' xr h0 j 0 (j / P) /\ uncached t' /\ (g -> J t' j (w_end w)))).
    { destruct H as [(I & H)|(_ & U & H & xr & h0 & C)].
      - eapply ok_imp; [apply (flush_ok A S P N HS HP HN PT PI lk x t s I)|]. cbv beta. intros t' s' (F & _). exists x, j. pose proof (flushed_uncached _ _ _ _ F) as U.
        split; [|split; [exact U|]].
        + apply core_start; [apply (all_free_inv A S P N HS HP HN PT PI); apply F|]. intro p. apply (flushed_clean A S P N PT PI _ _ _ _ _ F).
        + intro G. destruct (H G) as [H1|(H1 & u & H2)]; [right; right; rewrite <- Ej; exact H1|]. destruct (Nat.eq_dec (j mod P) 0) as [Z|Z]; [right; left; exact Z|left].
          destruct (flushed_elem A S P N HS HP HN PT PI _ _ _ _ _ _ F H2) as (V & _). assert (j <> 0) by (intros ->; apply Z; apply Nat.mod_0_l; lia).
          assert (E1 : (w_iter w - 1) / S = j - 1) by (symmetry; apply (Nat.div_unique _ _ _ (S - 1)); nia). rewrite E1 in V. replace (j / P) with ((j - 1) / P); [exact V|].
          pose proof (Nat.div_mod j P ltac:(lia)) as D. pose proof (Nat.mod_upper_bound j P ltac:(lia)). symmetry.
          apply (Nat.div_unique (j - 1) P (j / P) (j mod P - 1)); lia.
      - eapply ok_imp; [apply (core_flush lk x t s xr h0 j (j / P) C U)|]. cbv beta. intros t' s' (-> & C' & U' & _). exists xr, h0. split; [exact C'|]. split; [exact U'|].
        intro G. right. right. rewrite <- Ej. apply H. exact G. }
    apply ok_bind. eapply ok_imp; [exact F|]. cbv beta. intros t' s' (xr & h0 & C & U & HJ).
    pose proof (put_ok g lk x t' s' xr h0 j 0 v (w_end w) (w_grown w) C U ltac:(lia) ltac:(lia) En Hpg Hg HJ) as K. rewrite Nat.add_0_r, <- Ej in K. exact K.
  - destruct H as [(I & H)|(H & _)]; [|contradiction]. apply ok_bind. eapply ok_imp; [apply (set_ok A S P N HS HP HN PT kick hit PI PI_kick PI_hit lk x t s (w_iter w) v I); lia|].
    cbv beta. intros t' s' I'. apply ok_ret. cbn [fst snd w_iter w_grown w_end]. split; [|auto]. unfold W. cbn [w_end w_iter w_out w_prev VectorProofs.put_at vs_l vs_pages vs_blocks]. rewrite lset_length.
    split; [exact En|]. split; [lia|]. split; [exact Hpg|]. split; [exact Hg|]. split; [exact I'|]. intros _. right. split; [lia|]. exists v. replace (w_iter w + 1 - 1) with (w_iter w) by lia. apply lset_eq. lia.
Qed.
Lemma put2_some (g : Prop) lk x t s w v : W g lk x t s w -> w_out w <> None -> w_iter w < w_end w ->
  ok (bw_put2 A S P N PT kick hit v t w) s (fun r s' => W g lk (put_at (w_iter w) (Some v) x) (fst r) s' (snd r) /\ w_iter (snd r) = w_iter w + 1 /\ w_grown (snd r) = w_grown w /\ w_end (snd r) = w_end w).
Proof.
  intros (En & Hle & Hpg & Hg & H) E Hi. unfold bw_put2. destruct (Nat.ltb_spec (w_iter w) (w_end w)); [|lia]. cbn [negb]. destruct (w_out w) as [(j & e)|]; [|congruence].
  destruct H as (xr & h0 & pk & Hp & C & U & Hit & Hpk & HJ). destruct Hpk as [(-> & He)|(Hpk & ->)].
  - destruct (at_div j e ltac:(lia)) as (D1 & D2). rewrite Hit, D2. destruct (Nat.eqb_spec e 0); [lia|]. cbn [andb]. apply ok_bind, ok_ret. rewrite Hp.
    exact (put_ok g lk x t s xr h0 j e v (w_end w) (w_grown w) C U ltac:(lia) ltac:(lia) En Hpg Hg HJ).
  - rewrite Nat.add_0_r in Hit. assert (Al : w_iter w mod S = 0) by (rewrite Hit, Nat.mul_comm; apply Nat.mod_mul; lia). rewrite Al. cbn [Nat.eqb andb].
    destruct (Nat.eqb_spec (w_prev w) (w_iter w)) as [Z|_]; [rewrite Hp, Hit in Z; nia|]. cbn [negb]. apply ok_bind, ok_bind.
    assert (Ep : w_prev w / S = pk) by (rewrite Hp, Nat.mul_comm; apply Nat.div_mul; lia). rewrite Ep.
    assert (Lp : pk / P < vs_pages x). { rewrite <- Ep. apply (core_blk _ _ _ _ _ _ _ _ _ _ C). rewrite Hp. nia. }
    eapply ok_imp; [apply (core_inform lk x t s xr h0 j 0 (pk / P) (j / P) C Lp)|]. cbv beta. intros t' s' (-> & C' & _ & U' & V). apply ok_ret.
    assert (HJ' : g -> J t' j (w_end w)).
    { intros _. destruct (Nat.eq_dec (j mod P) 0) as [Z|Z]; [right; left; exact Z|left]. replace (j / P) with (pk / P); [exact V|].
      pose proof (Nat.div_mod j P ltac:(lia)) as D. pose proof (Nat.mod_upper_bound j P ltac:(lia)). apply (Nat.div_unique j P (pk / P) (pk mod P + 1)).
      - pose proof (Nat.mod_upper_bound pk P ltac:(lia)). destruct (Nat.eq_dec (pk mod P + 1) P) as [Q|Q]; [|lia]. exfalso. apply Z. subst j.
        rewrite (Nat.div_mod pk P) by lia. rewrite <- Nat.add_assoc, Q. replace (P * (pk / P) + P) with ((pk / P + 1) * P) by lia. apply Nat.mod_mul. lia.
      - pose proof (Nat.div_mod pk P ltac:(lia)). lia. }
    pose proof (put_ok g lk x t' s _ j j 0 v (w_end w) (w_grown w) C' (U' U) ltac:(lia) ltac:(lia) En Hpg Hg HJ') as K. rewrite Nat.add_0_r, <- Hit in K. exact K.
Qed.

Definition bigger (n : nat) : nat := if Nat.ltb n (2 * S) then 2 * S else 2 * n.
Lemma bigger_gt n : n < bigger n /\ 2 * S <= bigger n.
Proof. unfold bigger. destruct (Nat.ltb_spec n (2 * S)); lia. Qed.
Lemma bigger_notlast n : 2 <= P -> ~ (n = S /\ P = 2) -> notlast n (bigger n).
Proof.
  intros H1 H2 (E1 & E2). apply H2. assert (n = S) as -> by (unfold bigger in E1; destruct (Nat.ltb_spec n (2 * S)); lia). split; [reflexivity|].
  rewrite E1 in E2. apply Nat.mod_divides in E2; [|nia]. destruct E2 as (c & E2). assert (c * P = 2) by nia. destruct c as [|[|c]]; nia.
Qed.
Lemma grow_some (x : vspec) n : vs_pages x = up (vs_blocks x) P -> exists z, grow S P n x = Some z /\ vs_l z = vs_l x /\ vs_pages z = up (vs_blocks z) P.
Proof.
  intro E. destruct x as [l b p]. cbn in E. subst p. destruct (grow_fresh A S P N HS HP HN l n b) as (b' & _ & _ & G). rewrite G. eexists. split; [reflexivity|]. auto.
Qed.
Lemma grow_step (g : Prop) lk x t s w : W g lk x t s w -> g -> w_iter w = w_end w ->
  ok (bw_grow A S P N PT t w) s (fun r s' => exists z, vs_pages z = up (vs_blocks z) P /\ vs_l z = resized (bigger (length (vs_l x))) (vs_l x) /\
    snd r = mk_bw (w_iter w) (bigger (length (vs_l x))) true (w_prev w) None /\ nst g lk z (fst r) s' (w_iter w) (bigger (length (vs_l x)))).
Proof.
  intros (En & Hle & Hpg & Hg & H) G Hi. destruct (Hg G) as (G1 & G2). rewrite Hi, En in *. pose proof (bigger_gt (length (vs_l x))) as (B1 & B2). pose proof (bigger_notlast _ G1 G2) as NL.
  destruct (grow_some x (bigger (length (vs_l x))) Hpg) as (z & Gz & Z1 & Z2).
  assert (PLAIN : forall t s, vinv lk x t s -> ok (bind (resize A S P PT (if Nat.ltb (v_size t) (2 * S) then 2 * S else 2 * v_size t) t) (fun t => Ret (t, mk_bw (length (vs_l x)) (v_size t) true (w_prev w) None))) s
    (fun r s' => exists z, vs_pages z = up (vs_blocks z) P /\ vs_l z = resized (bigger (length (vs_l x))) (vs_l x) /\
    snd r = mk_bw (length (vs_l x)) (bigger (length (vs_l x))) true (w_prev w) None /\ nst g lk z (fst r) s' (length (vs_l x)) (bigger (length (vs_l x))))).
  { intros t0 s0 I. rewrite (t_size _ _ _ _ _ _ _ _ _ _ _ (proj1 I)). fold (bigger (length (vs_l x))). apply ok_bind.
    eapply ok_imp; [apply (resize_ok A S P N HS HP HN PT kick hit PI PI_kick PI_hit lk x t0 s0 _ z I Gz)|]. cbv beta. intros t' s' (I' & _ & E). apply ok_ret.
    eexists. split; [|split; [|split; [rewrite E; reflexivity|left; split; [exact I'|intros _; left; exact NL]]]]; [exact Z2|reflexivity]. }
  unfold bw_grow. rewrite ?Hi. destruct (w_out w) as [(j & e)|].
  2:{ apply ok_bind, ok_ret. apply PLAIN. apply H. }
  destruct H as (xr & h0 & pk & Hp & C & U & Hit & Hpk & HJ). apply ok_bind. destruct Hpk as [(-> & He)|(Hpk & ->)].
  - destruct (at_div j e ltac:(lia)) as (D1 & D2). rewrite Hit at 1. rewrite D2. destruct (Nat.eqb_spec e 0); [lia|]. apply ok_bind.
    assert (L1 : S * j < length (vs_l x)) by lia. pose proof (core_blk _ _ _ _ _ _ _ _ _ _ C L1) as (Hb & Hpp). replace (S * j / S) with j in * by (rewrite Nat.mul_comm, Nat.div_mul; lia).
    eapply ok_imp; [apply (core_block lk x t s xr h0 j (j / P) (core_full _ _ _ _ _ _ _ _ _ C Hit) Hb eq_refl)|]. cbv beta. intros _ s1 (C1 & _).
    replace (length (vs_l x) / S) with j by (rewrite Hit; symmetry; exact D1).
    eapply ok_imp; [apply (core_inform lk x t s1 xr h0 (j + 1) 0 (j / P) 0 C1 Hpp)|]. cbv beta. intros t2 s2 (-> & C2 & _). apply PLAIN. apply (core_end _ _ _ _ _ _ _ C2).
  - rewrite Nat.add_0_r in Hit. assert (Al : length (vs_l x) mod S = 0) by (rewrite Hit, Nat.mul_comm; apply Nat.mod_mul; lia). rewrite Al. cbn [Nat.eqb]. apply ok_ret.
    assert (Ej : length (vs_l x) / S = j) by (rewrite Hit, Nat.mul_comm; apply Nat.div_mul; lia).
    assert (K : exists xr' h', core lk x t s xr' h' j 0 (j / P)).
    { destruct (Nat.eq_dec (j mod P) 0) as [Z|Z].
      - assert (Q : pk mod P = P - 1). { pose proof (Nat.div_mod j P ltac:(lia)) as D. destruct (j / P) as [|q]; [lia|]. symmetry. apply (Nat.mod_unique pk P q (P - 1)); lia. }
        exists (told h0 j x xr), j. apply (core_promote lk x t s xr h0 j 0 (pk / P)); auto. destruct (HJ G) as [V|[V|V]]; [exact V|lia|]. exfalso. apply V. split; [lia|].
        rewrite Hit. apply Nat.mod_divides; [nia|]. exists (j / P). pose proof (Nat.div_mod j P ltac:(lia)). nia.
      - exists xr, h0. apply (core_pg _ _ _ _ _ _ _ _ _ _ C). pose proof (Nat.div_mod pk P ltac:(lia)). pose proof (Nat.mod_upper_bound pk P ltac:(lia)).
        symmetry. apply (Nat.div_unique j P (pk / P) (pk mod P + 1)); [|lia]. destruct (Nat.eq_dec (pk mod P + 1) P) as [Q|Q]; [|lia]. exfalso. apply Z. subst j.
        rewrite (Nat.div_mod pk P) by lia. rewrite <- Nat.add_assoc, Q. replace (P * (pk / P) + P) with ((pk / P + 1) * P) by lia. apply Nat.mod_mul. lia. }
    clear C. destruct K as (xr' & h' & C). rewrite (core_size _ _ _ _ _ _ _ _ _ C). fold (bigger (length (vs_l x))). apply ok_bind.
    eapply ok_imp; [apply (core_resize lk x t s xr' h' j (j / P) (bigger (length (vs_l x))) z C ltac:(lia) Gz U)|]. cbv beta. intros t' s' (C' & U' & E). apply ok_ret.
    exists (mk_vs (resized (bigger (length (vs_l x))) (vs_l x)) (vs_blocks z) (vs_pages z)). split; [|split; [|split; [rewrite E; reflexivity|right; split; [exact Al|split; [exact U'|split; [intros _; exact NL|]]]]]]; [exact Z2|reflexivity|].
    cbn [fst]. rewrite Ej. eexists. eexists. exact C'.
Qed.
Lemma put_step (g : Prop) lk x t s w v : W g lk x t s w -> w_iter w < w_end w \/ g ->
  ok (bw_put A S P N PT kick hit v t w) s (fun r s' => exists y, W g lk y (fst r) s' (snd r) /\ w_iter (snd r) = w_iter w + 1 /\
    ((w_iter w < w_end w /\ w_grown (snd r) = w_grown w /\ w_end (snd r) = w_end w /\ vs_l y = lset (w_iter w) (Some v) (vs_l x)) \/
     (w_iter w = w_end w /\ w_grown (snd r) = true /\ exists n, w_iter w < n /\ vs_l y = lset (w_iter w) (Some v) (resized n (vs_l x))))).
Proof.
  intros H HG. pose proof H as (En & Hle & Hpg & Hg & H'). unfold bw_put. destruct (Nat.eqb_spec (w_iter w) (w_end w)) as [E|E].
  - destruct HG as [HG|G]; [lia|]. apply ok_bind. eapply ok_imp; [apply (grow_step g lk x t s w H G E)|]. cbv beta. intros (t1 & w1) s1 (z & Z1 & Z2 & Z3 & Z4). cbn [fst snd] in *.
    pose proof (bigger_gt (length (vs_l x))) as (B1 & B2). assert (LZ : length (vs_l z) = bigger (length (vs_l x))) by (rewrite Z2; apply (lresize_length _ None)).
    subst w1. pose proof (put2_none g lk z t1 s1 (mk_bw (w_iter w) (bigger (length (vs_l x))) true (w_prev w) None) v) as K. cbn [w_out w_end w_iter w_grown] in K.
    eapply ok_imp; [apply K; auto; [lia|]; intro g0; destruct (Hg g0); split; lia|]. cbv beta. intros r s' (R1 & R2 & R3 & R4). exists (put_at (w_iter w) (Some v) z). split; [exact R1|]. split; [exact R2|]. right. split; [exact E|]. split; [exact R3|].
    exists (bigger (length (vs_l x))). split; [lia|]. cbn. rewrite Z2. reflexivity.
  - apply ok_bind, ok_ret. cbn [fst snd]. assert (L : w_iter w < w_end w) by lia. destruct (w_out w) as [o|] eqn:Eo.
    + eapply ok_imp; [apply (put2_some g lk x t s w v H); [congruence|exact L]|]. cbv beta. intros r s' (R1 & R2 & R3 & R4). eexists. split; [exact R1|]. split; [exact R2|]. left. auto.
    + eapply ok_imp; [apply (put2_none g lk x t s w v); auto; left; exact H'|]. cbv beta. intros r s' (R1 & R2 & R3 & R4). eexists. split; [exact R1|]. split; [exact R2|]. left. auto.
Qed.
(** * finish() *)
Lemma fill_step lk x pg : forall n t s xr h0 j e, core lk x t s xr h0 j e pg -> j / P = pg -> 0 < e < S -> S <= n + e -> j < length (v_bids t) ->
  ok (bw_fill A S P N PT kick hit n (S * j + e) j e t) s (fun t' s' => exists xr', core lk x t' s' xr' h0 (j + 1) 0 pg).
Proof.
  induction n as [|n IH]; intros t s xr h0 j e C Hp He Hn Hj; [lia|]. destruct (at_div j e ltac:(lia)) as (D1 & D2). cbn [bw_fill]. rewrite D2. destruct (Nat.eqb_spec e 0); [lia|].
  pose proof C as []. apply ok_bind. eapply ok_imp; [apply ok_conj; [apply (locate_blk A S P N HS HP HN PT kick hit PI PI_kick PI_hit lk xr t s false (S * j + e) c_inv0)|apply (locate_frame lk xr t s (S * j + e) c_inv0)]; try rewrite D1; auto|].
  cbv beta. intros (t1 & r) s1 ((I1 & (sl & pgr & (A1 & A2 & _) & _) & _) & F1 & (F2 & F3 & F4) & F5 & _ & _ & F7). cbn [fst snd] in *. rewrite D1, D2 in A2. subst r. cbn [fst snd].
  apply ok_copy; [apply (proj1 I1)|].
  assert (C1 : core lk x t1 s1 xr h0 j e pg).
  { constructor; auto.
    - intros i v H Hi b Hb. rewrite F3 in Hb. rewrite F5. apply (c_k1h0 i v H Hi b Hb).
    - intros i v H Hi Hm. assert (O : obuf t1 = obuf t) by (unfold VecWriterModel.obuf; rewrite F4; reflexivity). rewrite O, F7 by (unfold VecWriterModel.obuf; lia). apply c_k1c0; auto. }
  pose proof (core_elem lk x t1 s1 xr h0 j e pg x (scont s1 (v_base t1 + sl * P + j mod P) e) C1 ltac:(lia) eq_refl eq_refl eq_refl ltac:(auto)) as C2.
  assert (X : forall v, nth_error (vs_l x) (S * j + e) = Some (Some v) -> scont s1 (v_base t1 + sl * P + j mod P) e = Some v).
  { intros v H. assert (Hr : nth_error (vs_l xr) (S * j + e) = Some (Some v)) by (apply c_k1r0; auto; rewrite D1; lia).
    destruct (t_elem _ _ _ _ _ _ _ _ _ _ _ (proj1 I1) _ _ Hr) as (_ & _ & K). rewrite D1, D2 in K. apply K. rewrite D1 in A1. exact A1. }
  specialize (C2 X). apply ok_bind. eapply ok_imp; [apply (out_next_ok _ _ _ _ _ _ _ _ _ C2); [rewrite F3; exact Hj|exact Hp]|]. cbv beta. intros o s2 (C3 & E & _).
  destruct (Nat.eqb_spec (e + 1) S) as [Es|Es]; rewrite E in *; cbn [fst snd] in *.
  - replace (S * j + e + 1) with ((j + 1) * S) by lia. destruct n; cbn [bw_fill]; rewrite Nat.mod_mul by lia; cbn [Nat.eqb]; apply ok_ret; eauto.
  - replace (S * j + e + 1) with (S * j + (e + 1)) by lia. apply (IH _ _ _ _ _ _ C3); auto; try lia. rewrite F3. exact Hj.
Qed.
Lemma finish_step (g : Prop) lk x t s w : W g lk x t s w ->
  ok (bw_finish A S P N PT kick hit t w) s (fun t' s' => exists b, vinv lk (mk_vs (if w_grown w then firstn (w_iter w) (vs_l x) else vs_l x) b (up b P)) t' s').
Proof.
  intros (En & Hle & Hpg & Hg & H). unfold bw_finish.
  assert (K : ok (match w_out w with None => Ret t | Some (j, e) =>
      bind (bw_fill A S P N PT kick hit S (w_iter w) j e t) (fun t => if Nat.eqb (w_prev w) (w_iter w) then Ret t else page_updated A PT (w_prev w / S / P) t) end) s
    (fun t' s' => vinv lk x t' s')).
  { destruct (w_out w) as [(j & e)|]; [|apply ok_ret; apply H]. destruct H as (xr & h0 & pk & Hp & C & U & Hit & Hpk & HJ).
    assert (Ep : w_prev w / S = pk) by (rewrite Hp, Nat.mul_comm; apply Nat.div_mul; lia).
    assert (Lp : S * pk < length (vs_l x)) by nia. pose proof (core_blk _ _ _ _ _ _ _ _ _ _ C Lp) as (Lb & Lq). replace (S * pk / S) with pk in * by (rewrite Nat.mul_comm, Nat.div_mul; lia).
    assert (FIN : forall t s xr h0 j', core lk x t s xr h0 j' 0 (pk / P) -> ok (if Nat.eqb (w_prev w) (w_iter w) then Ret t else page_updated A PT (w_prev w / S / P) t) s (fun t' s' => vinv lk x t' s')).
    { intros t1 s1 xr1 h1 j' C1. destruct (Nat.eqb_spec (w_prev w) (w_iter w)) as [Z|_]; [rewrite Hp, Hit in Z; nia|]. rewrite Ep.
      eapply ok_imp; [apply (core_inform lk x t1 s1 xr1 h1 j' 0 (pk / P) 0 C1 Lq)|]. cbv beta. intros t' s' (-> & C' & _). apply (core_end _ _ _ _ _ _ _ C'). }
    apply ok_bind. destruct Hpk as [(-> & He)|(Hpk & ->)].
    - rewrite Hit. eapply ok_imp; [apply (fill_step lk x (j / P) S t s xr h0 j e C eq_refl He ltac:(lia) Lb)|]. cbv beta. intros t' s' (xr' & C'). rewrite Hit in FIN. apply (FIN _ _ _ _ _ C').
    - assert (Z : w_iter w mod S = 0) by (rewrite Hit, Nat.add_0_r, Nat.mul_comm; apply Nat.mod_mul; lia).
      assert (B : bw_fill A S P N PT kick hit S (w_iter w) j 0 t = Ret t) by (destruct S; cbn [bw_fill]; rewrite Z; reflexivity). rewrite B. apply ok_ret. apply (FIN _ _ _ _ _ C). }
  apply ok_bind. eapply ok_imp; [exact K|]. cbv beta. intros t1 s1 I. destruct (w_grown w).
  - assert (G : grow S P (w_iter w) x = Some x) by (apply (grow_same A S P N HS HP HN); rewrite <- (t_blocks _ _ _ _ _ _ _ _ _ _ _ (proj1 I)); pose proof (t_cap _ _ _ _ _ _ _ _ _ _ _ (proj1 I)); lia).
    eapply ok_imp; [apply (resize_ok A S P N HS HP HN PT kick hit PI PI_kick PI_hit lk x t1 s1 (w_iter w) x I G)|]. cbv beta. intros t' s' (I' & _). exists (vs_blocks x). rewrite <- Hpg.
    unfold resized in I'. replace (w_iter w - length (vs_l x)) with 0 in I' by lia. cbn in I'. rewrite app_nil_r in I'. exact I'.
  - apply ok_ret. exists (vs_blocks x). rewrite <- Hpg. destruct x. exact I.
Qed.
Lemma lset_split {B} i (v : B) l : i < length l -> lset i v l = firstn i l ++ v :: skipn (i + 1) l.
Proof. revert i. induction l as [|x l IH]; intros [|i] H; simpl in *; try lia; auto. rewrite IH by lia. reflexivity. Qed.
Lemma firstn_lset {B} i (v : B) l : i < length l -> firstn (i + 1) (lset i v l) = firstn i l ++ [v].
Proof. revert i. induction l as [|x l IH]; intros [|i] H; simpl in *; try lia; auto. rewrite IH by lia. reflexivity. Qed.
Lemma skipn_lset {B} i (v : B) l : skipn (i + 1) (lset i v l) = skipn (i + 1) l.
Proof. revert i. induction l as [|x l IH]; intros [|i]; simpl; auto. Qed.
Lemma puts_step (g : Prop) lk (l0 : list (option A)) a : forall vs t s w x done, W g lk x t s w -> w_iter w + length vs <= w_end w \/ g ->
  w_iter w = a + length done -> firstn (w_iter w) (vs_l x) = firstn a l0 ++ map Some done ->
  (if w_grown w then length l0 <= w_iter w else length (vs_l x) = length l0 /\ skipn (w_iter w) (vs_l x) = skipn (w_iter w) l0) -> length l0 <= length (vs_l x) ->
  ok (bw_puts A S P N PT kick hit vs t w) s (fun r s' => exists y, W g lk y (fst r) s' (snd r) /\ w_iter (snd r) = a + length (done ++ vs) /\
    firstn (w_iter (snd r)) (vs_l y) = firstn a l0 ++ map Some (done ++ vs) /\
    (if w_grown (snd r) then length l0 <= w_iter (snd r) else length (vs_l y) = length l0 /\ skipn (w_iter (snd r)) (vs_l y) = skipn (w_iter (snd r)) l0)).
Proof.
  induction vs as [|v vs IH]; intros t s w x done H HG Hi Hf Hs Hl; cbn [bw_puts].
  - apply ok_ret. cbn [fst snd]. rewrite app_nil_r. eauto.
  - cbn [length] in HG. apply ok_bind. eapply ok_imp; [apply (put_step g lk x t s w v H); destruct HG; [left; lia|auto]|]. cbv beta. intros (t1 & w1) s1 (y & Y1 & Y2 & Y3). cbn [fst snd] in *.
    pose proof H as (En & Hle & _). replace (done ++ v :: vs) with ((done ++ [v]) ++ vs) by (rewrite <- app_assoc; reflexivity).
    apply (IH t1 s1 w1 y (done ++ [v])); auto.
    + destruct HG as [HG|HG]; [left|auto]. destruct Y3 as [(_ & _ & Y3 & _)|(Y3 & _)]; [rewrite Y2, Y3; lia|lia].
    + rewrite app_length. cbn. lia.
    + rewrite Y2, map_app, app_assoc, <- Hf. cbn [map]. destruct Y3 as [(L & _ & _ & ->)|(L & _ & n & Ln & ->)]; [apply firstn_lset; lia|].
      rewrite firstn_lset by (change (resized n (vs_l x)) with (lresize n None (vs_l x)); rewrite lresize_length; exact Ln). f_equal. unfold resized. rewrite (firstn_all2 (vs_l x) (n := n)) by lia.
      rewrite firstn_app. replace (w_iter w - length (vs_l x)) with 0 by lia. cbn. apply app_nil_r.
    + destruct Y3 as [(L & -> & _ & ->)|(L & -> & _)]; [|lia]. destruct (w_grown w); [lia|]. destruct Hs as (Hs1 & Hs2). rewrite lset_length, Y2. split; [exact Hs1|]. rewrite skipn_lset.
      rewrite !(Nat.add_comm (w_iter w) 1). cbn [Nat.add]. rewrite !skipn_S_tl. rewrite Hs2. reflexivity.
    + destruct Y3 as [(L & _ & _ & ->)|(L & _ & n & Ln & ->)]; rewrite lset_length; [exact Hl|]. change (resized n (vs_l x)) with (lresize n None (vs_l x)). rewrite lresize_length. lia.
Qed.
Lemma write_ok lk l b t s a vs : vinv lk (mk_vs l b (up b P)) t s -> a <= length l -> writes_safely S P (length l) a (length vs) ->
  ok (bw_write A S P N PT kick hit a vs t) s (fun t' s' => exists b', vinv lk (mk_vs (streamed a vs l) b' (up b' P)) t' s').
Proof.
  intros I Ha Hw. unfold bw_write, bw_init. rewrite (t_size _ _ _ _ _ _ _ _ _ _ _ (proj1 I)). cbn [vs_l]. destruct (Nat.leb_spec a (length l)); [|lia]. apply ok_bind, ok_ret.
  assert (K : exists g : Prop, W g lk (mk_vs l b (up b P)) t s (mk_bw a (length l) false 0 None) /\ (a + length vs <= length l \/ g)).
  { destruct Hw as [Hw|Hw].
    - exists False. split; [|auto]. unfold W. cbn. split; [reflexivity|]. split; [exact Ha|]. split; [reflexivity|]. split; [tauto|]. split; [exact I|tauto].
    - exists True. split; [|auto]. destruct Hw as (H1 & H2 & H3). unfold W. cbn. split; [reflexivity|]. split; [exact Ha|]. split; [reflexivity|]. split; [auto|]. split; [exact I|]. intros _. left.
      intros (E1 & E2). apply H2. split; [lia|exact E2]. }
  destruct K as (g & K1 & K2). apply ok_bind. eapply ok_imp; [apply (puts_step g lk l a vs t s _ _ [] K1)|]; cbn [w_iter w_end w_grown vs_l length map]; auto; try lia.
  { symmetry. apply app_nil_r. }
  cbv beta. cbn [app]. intros (t1 & w1) s1 (y & Y1 & Y2 & Y3 & Y4). cbn [fst snd] in *. eapply ok_imp; [apply (finish_step g lk y t1 s1 w1 Y1)|]. cbv beta. intros t' s' (b' & I'). exists b'.
  replace (streamed a vs l) with (if w_grown w1 then firstn (w_iter w1) (vs_l y) else vs_l y); [exact I'|]. unfold streamed. destruct (w_grown w1).
  - rewrite Y3, skipn_all2 by lia. rewrite app_nil_r. reflexivity.
  - destruct Y4 as (Y4 & Y5). rewrite <- (firstn_skipn (w_iter w1) (vs_l y)), Y3, Y5, Y2, app_assoc. reflexivity.
Qed.
(** * histories *)
Lemma w_ops_ok os : forall lk l b t s l2 rs, ((exists o, In o os /\ w_alias o = true) -> two N PT kick hit PI) -> (forall o, In o os -> w_shrink o = false) ->
  length l <= b * S -> vinv lk (mk_vs l b (up b P)) t s -> w_spec S P os l l2 rs ->
  ok (w_ops A S P N PT pinit kick hit os t) s (fun q s' => (exists lk' b', vinv lk' (mk_vs l2 b' (up b' P)) (fst q) s') /\ snd q = rs).
Proof.
  induction os as [|o os IH]; intros lk l b t s l2 rs T Sh Lb I E; inversion E; subst; cbn [w_ops].
  - apply ok_ret. cbn. eauto.
  - destruct (simple_cap A S P N HS HP HN [o0] l b l1 [r]) as (b' & Lb' & E').
    + intros o [<-|[]]. apply (Sh (WVec o0)). left. reflexivity.
    + exact Lb.
    + cbn. match goal with H : spec_op S o0 l = _ |- _ => rewrite H end. reflexivity.
    + cbn [spec_caps] in E'. destruct (spec_cap S P o0 (mk_vs l b (up b P))) as [(x1 & r1)|] eqn:E1; [|discriminate]. injection E' as -> ->.
      apply ok_bind. eapply ok_imp; [apply (op_ok A S P N HS HP HN PT pinit kick hit PI PI_init PI_kick PI_hit lk _ t s o0 _ _ ltac:(intro Ha; apply T; exists (WVec o0); split; [left; reflexivity|exact Ha]) I E1)|].
      cbv beta. intros (t1 & q1) s1 (I1 & ->). cbn [fst snd] in *. apply ok_bind. eapply ok_imp; [eapply (IH _ l1 b' t1 s1 l2); eauto|].
      * intros (o' & Ho & Ha). apply T. exists o'. split; [right; exact Ho|exact Ha].
      * intros o' Ho. apply Sh. right. exact Ho.
      * cbv beta. intros (t2 & q2) s2 (K & ->). apply ok_ret. auto.
  - apply ok_bind. cbn [w_op]. apply ok_bind. eapply ok_imp; [apply (write_ok lk l b t s a vs I); assumption|]. cbv beta. intros t1 s1 (b' & I1). apply ok_ret. cbn [fst snd].
    apply ok_bind. eapply ok_imp; [eapply (IH _ (streamed a vs l) b' t1 s1 l2); eauto|].
    + intros (o' & Ho & Ha). apply T. exists o'. split; [right; exact Ho|exact Ha].
    + intros o' Ho. apply Sh. right. exact Ho.
    + pose proof (t_cap _ _ _ _ _ _ _ _ _ _ _ (proj1 I1)) as K. rewrite (t_blocks _ _ _ _ _ _ _ _ _ _ _ (proj1 I1)) in K. exact K.
    + cbv beta. intros (t2 & q2) s2 (K & ->). apply ok_ret. auto.
Qed.
End Writer.
