(** Element operations, partition and the classical product algorithms (MatrixModel.v). *)
From Coq Require Import List Arith Bool PeanoNat Lia Ring FinFun.
From Verif Require Import MatrixModel MatrixBase.
Import ListNotations.

Section Proofs.
  Variable R : Type.
  Variables (rO rI : R) (radd rmul rsub : R -> R -> R) (ropp : R -> R).
  Variable Rth : ring_theory rO rI radd rmul rsub ropp eq.
  Variable B : nat.

  Add Ring Rring2 : Rth.

  Notation store := (list (option (list R))).
  Notation blk := (blk R).
  Notation V := (V R rO B).
  Notation E := (E R rO B).
  Notation Sum := (Sum R rO radd).

  (** only new blocks differ *)
  Definition ext (s s' : store) : Prop := length s <= length s' /\ forall id, blk s' id = blk s id.
  Lemma ext_app s k : ext s (s ++ repeat None k).
  Proof. split; [rewrite app_length; lia|]. intros. apply blk_app_none. Qed.
  Lemma ext_trans a b c : ext a b -> ext b c -> ext a c.
  Proof. intros [L1 H1] [L2 H2]. split; [lia|]. intros. rewrite H2, H1. reflexivity. Qed.
  Lemma ext_E s s' M I J i k : ext s s' -> E s' M I J i k = E s M I J i k.
  Proof. intros [_ H]. apply E_frame. apply H. Qed.
  Lemma ext_le s s' : ext s s' -> length s <= length s'.
  Proof. intros [H _]. exact H. Qed.
  Lemma blk_over (s : store) id : length s <= id -> blk s id = None.
  Proof. intros. unfold MatrixModel.blk. apply nth_overflow. auto. Qed.

  (** ** Partition *)

  Definition part_of (s s' : store) (M q : bmat) (r0 c0 : nat) : Prop :=
    wf (length s') q /\ inj q /\ tr q = tr M /\
    forall r c, r < ht q -> c < wd q ->
      if (r0 + r <? ht M) && (c0 + c <? wd M) then idn q r c = idn M (r0 + r) (c0 + c)
      else length s <= idn q r c < length s'.

  Lemma part_own s s' M q r0 c0 id : part_of s s' M q r0 c0 -> own q id ->
    own M id \/ length s <= id < length s'.
  Proof.
    intros (W & J & T & P) (r & c & Hr & Hc & <-). specialize (P r c Hr Hc).
    destruct ((r0 + r <? ht M) && (c0 + c <? wd M)) eqn:Eb; [|tauto].
    left. rewrite P. apply andb_true_iff in Eb. rewrite !Nat.ltb_lt in Eb. apply own_idn; lia.
  Qed.
  Lemma part_E s s' M q r0 c0 I J i k : part_of s s' M q r0 c0 -> ext s s' -> I < ht q -> J < wd q ->
    E s' q I J i k = if (r0 + I <? ht M) && (c0 + J <? wd M) then E s M (r0 + I) (c0 + J) i k else rO.
  Proof.
    intros (W & Jn & T & P) X HI HJ. specialize (P I J HI HJ). unfold MatrixBase.E.
    destruct ((r0 + I <? ht M) && (c0 + J <? wd M)).
    - rewrite P, T. apply V_eq. apply X.
    - unfold MatrixBase.V. rewrite (proj2 X), blk_over by lia. reflexivity.
  Qed.
  Lemma part_in s s' M q r0 c0 r c : part_of s s' M q r0 c0 -> r0 <= r -> c0 <= c -> r < ht M -> c < wd M ->
    r < r0 + ht q -> c < c0 + wd q -> idn q (r - r0) (c - c0) = idn M r c.
  Proof.
    intros (W & J & T & P) ? ? ? ? ? ?. specialize (P (r - r0) (c - c0)).
    replace (r0 + (r - r0)) with r in P by lia. replace (c0 + (c - c0)) with c in P by lia.
    destruct (Nat.ltb_spec r (ht M)); [|lia]. destruct (Nat.ltb_spec c (wd M)); [|lia]. apply P; lia.
  Qed.

  Record quad_ok (s s' : store) (M : bmat) (h1 h2 w1 w2 : nat) (q : quad) : Prop := {
    q_ext : ext s s';
    q_ul : part_of s s' M (ul q) 0 0;
    q_ur : part_of s s' M (ur q) 0 w1;
    q_dl : part_of s s' M (dl q) h1 0;
    q_dr : part_of s s' M (dr q) h1 w1;
    q_dims : ht (ul q) = h1 /\ wd (ul q) = w1 /\ ht (ur q) = h1 /\ wd (ur q) = w2 /\
             ht (dl q) = h2 /\ wd (dl q) = w1 /\ ht (dr q) = h2 /\ wd (dr q) = w2;
    q_d1 : disj (ul q) (ur q); q_d2 : disj (ul q) (dl q); q_d3 : disj (ul q) (dr q);
    q_d4 : disj (ur q) (dl q); q_d5 : disj (ur q) (dr q); q_d6 : disj (dl q) (dr q)
  }.

  Lemma part_mono s s1 s2 s' M q r0 c0 : length s <= length s1 -> length s2 <= length s' ->
    part_of s1 s2 M q r0 c0 -> part_of s s' M q r0 c0.
  Proof.
    intros L1 L2 (W & J & T & P). split; [apply (wf_le (length s2)); auto|]. split; [auto|]. split; [auto|].
    intros r c Hr Hc. specialize (P r c Hr Hc). destruct ((r0 + r <? ht M) && (c0 + c <? wd M)); auto; lia.
  Qed.

  (** two parts made one after the other, of separate areas, have no block in common *)
  Lemma parts_disj s s1 s2 s' M q q' r0 c0 r1 c1 :
    wf (length s) M -> inj M -> part_of s s1 M q r0 c0 -> part_of s2 s' M q' r1 c1 -> length s <= length s1 ->
    length s1 <= length s2 ->
    (r0 + ht q <= r1 \/ c0 + wd q <= c1 \/ r1 + ht q' <= r0 \/ c1 + wd q' <= c0) -> disj q q'.
  Proof.
    intros WM JM (W & J & T & P) (W' & J' & T' & P') L0 L1 Sep id (r & c & Hr & Hc & Hid) (r' & c' & Hr' & Hc' & Hid').
    specialize (P r c Hr Hc). specialize (P' r' c' Hr' Hc'). rewrite Hid in P. rewrite Hid' in P'.
    destruct ((r0 + r <? ht M) && (c0 + c <? wd M)) eqn:Eb, ((r1 + r' <? ht M) && (c1 + c' <? wd M)) eqn:Eb';
      try (apply andb_true_iff in Eb; rewrite !Nat.ltb_lt in Eb);
      try (apply andb_true_iff in Eb'; rewrite !Nat.ltb_lt in Eb').
    - destruct (JM (r0 + r) (c0 + c) (r1 + r') (c1 + c')); try lia.
    - assert (idn M (r0 + r) (c0 + c) < length s) by (apply WM; lia). lia.
    - assert (idn M (r1 + r') (c1 + c') < length s) by (apply WM; lia). lia.
    - lia.
  Qed.

  Lemma sub_part M h w r0 c0 s : wf (length s) M -> inj M -> r0 <= ht M -> c0 <= wd M ->
    exists q s', sub R M h w r0 c0 s = Some (q, s') /\ part_of s s' M q r0 c0 /\ ext s s' /\ ht q = h /\ wd q = w.
  Proof.
    intros W J H1 H2. destruct (sub_spec R M h w r0 c0 s W J H1 H2) as (q & s' & E1 & A1 & A2 & A3 & (k & A4) & A5 & A6 & A7).
    exists q, s'. split; auto. split; [|split; [subst; apply ext_app|auto]].
    split; auto. split; auto. split; auto. rewrite A1, A2. exact A7.
  Qed.

  Lemma quad_gen M s h1 h2 w1 w2 : wf (length s) M -> inj M -> h1 <= ht M -> w1 <= wd M ->
    exists a s1 b s2 c s3 d s4,
      sub R M h1 w1 0 0 s = Some (a, s1) /\ sub R M h1 w2 0 w1 s1 = Some (b, s2) /\
      sub R M h2 w1 h1 0 s2 = Some (c, s3) /\ sub R M h2 w2 h1 w1 s3 = Some (d, s4) /\
      quad_ok s s4 M h1 h2 w1 w2 (mk_quad a b c d).
  Proof.
    intros W J H1 H2.
    destruct (sub_part M h1 w1 0 0 s) as (a & s1 & E1 & P1 & X1 & Ha & Wa); auto; try lia.
    destruct (sub_part M h1 w2 0 w1 s1) as (b & s2 & E2 & P2 & X2 & Hb & Wb); auto; try lia.
    { apply (wf_le (length s)); auto. apply X1. }
    destruct (sub_part M h2 w1 h1 0 s2) as (c & s3 & E3 & P3 & X3 & Hc & Wc); auto; try lia.
    { apply (wf_le (length s)); auto. destruct X1, X2; lia. }
    destruct (sub_part M h2 w2 h1 w1 s3) as (d & s4 & E4 & P4 & X4 & Hd & Wd); auto; try lia.
    { apply (wf_le (length s)); auto. destruct X1, X2, X3; lia. }
    pose proof (ext_le _ _ X1). pose proof (ext_le _ _ X2). pose proof (ext_le _ _ X3). pose proof (ext_le _ _ X4).
    assert (W1 : wf (length s1) M) by (apply (wf_le (length s)); auto).
    assert (W2 : wf (length s2) M) by (apply (wf_le (length s)); auto; lia).
    exists a, s1, b, s2, c, s3, d, s4. repeat (split; [assumption|]).
    constructor; cbn [ul ur dl dr].
    - eauto using ext_trans.
    - apply (part_mono s s s1); auto; lia.
    - apply (part_mono s s1 s2); auto; lia.
    - apply (part_mono s s2 s3); auto; lia.
    - apply (part_mono s s3 s4); auto; lia.
    - repeat split; auto.
    - apply (parts_disj s s1 s1 s2 M a b 0 0 0 w1); auto; lia.
    - apply (parts_disj s s1 s2 s3 M a c 0 0 h1 0); auto; lia.
    - apply (parts_disj s s1 s3 s4 M a d 0 0 h1 w1); auto; lia.
    - apply (parts_disj s1 s2 s2 s3 M b c 0 w1 h1 0); auto; lia.
    - apply (parts_disj s1 s2 s3 s4 M b d 0 w1 h1 w1); auto; lia.
    - apply (parts_disj s2 s3 s3 s4 M c d h1 0 h1 w1); auto; lia.
  Qed.

  Lemma div_ceil2_le n : div_ceil2 n <= n.
  Proof. unfold div_ceil2. pose proof (Nat.div_mod (n + 1) 2). lia. Qed.
  Lemma div_ceil2_ge n : n <= 2 * div_ceil2 n.
  Proof. unfold div_ceil2. pose proof (Nat.div_mod (n + 1) 2). pose proof (Nat.mod_upper_bound (n + 1) 2). lia. Qed.
  Lemma div_ceil2_lt n : 2 <= n -> div_ceil2 n < n.
  Proof. intros. unfold div_ceil2. apply Nat.div_lt_upper_bound; lia. Qed.

  Lemma padding_spec M s : wf (length s) M -> inj M -> exists q s', padding_quarterer R M s = Some (q, s') /\
    quad_ok s s' M (div_ceil2 (ht M)) (div_ceil2 (ht M)) (div_ceil2 (wd M)) (div_ceil2 (wd M)) q.
  Proof.
    intros W J. unfold padding_quarterer.
    destruct (quad_gen M s (div_ceil2 (ht M)) (div_ceil2 (ht M)) (div_ceil2 (wd M)) (div_ceil2 (wd M)) W J)
      as (a & s1 & b & s2 & c & s3 & d & s4 & E1 & E2 & E3 & E4 & Q); auto using div_ceil2_le.
    rewrite E1, E2, E3, E4. eauto.
  Qed.
  Lemma approximative_spec M s : wf (length s) M -> inj M -> exists q s', approximative_quarterer R M s = Some (q, s') /\
    quad_ok s s' M (ht M / 2) (ht M - ht M / 2) (wd M / 2) (wd M - wd M / 2) q.
  Proof.
    intros W J. unfold approximative_quarterer.
    destruct (quad_gen M s (ht M / 2) (ht M - ht M / 2) (wd M / 2) (wd M - wd M / 2) W J)
      as (a & s1 & b & s2 & c & s3 & d & s4 & E1 & E2 & E3 & E4 & Q); try (apply Nat.div_le_upper_bound; lia).
    rewrite E1, E2, E3, E4. eauto.
  Qed.

  (** ** Element operations *)

  (** block (r,c) of C is block (r',c') of A only if the positions are equal *)
  Definition aligned (C A : bmat) : Prop :=
    forall r c r' c', r < ht C -> c < wd C -> r' < ht C -> c' < wd C -> idn C r c = idn A r' c' -> r = r' /\ c = c'.
  Lemma disj_aligned C A : ht A = ht C -> wd A = wd C -> disj A C -> aligned C A.
  Proof.
    intros H W D r c r' c' ? ? ? ? K. exfalso. apply (D (idn C r c)).
    - rewrite K. apply own_idn; lia.
    - apply own_idn; lia.
  Qed.
  Lemma disj_sym M N : disj M N -> disj N M.
  Proof. intros D id H1 H2. apply (D id); auto. Qed.

  (** the result: only blocks of C change *)
  Definition only (s s' : store) (C : bmat) : Prop :=
    length s' = length s /\ forall id, ~ own C id -> blk s' id = blk s id.

  Lemma cells_own C id : (forall p, In p (cells (ht C) (wd C)) -> idn C (fst p) (snd p) <> id) <-> ~ own C id.
  Proof.
    split.
    - intros H (r & c & Hr & Hc & K). apply (H (r, c)); auto. apply cells_In. auto.
    - intros H p Hp K. apply cells_In in Hp. apply H. exists (fst p), (snd p). tauto.
  Qed.

  Lemma element_op3_spec o C A Bm s :
    wf (length s) C -> wf (length s) A -> wf (length s) Bm -> inj C ->
    ht A = ht C -> wd A = wd C -> ht Bm = ht C -> wd Bm = wd C -> aligned C A -> aligned C Bm ->
    op3 R o rO rO = rO ->
    exists s', element_op3 R rO B o C A Bm s = Some s' /\ only s s' C /\
      forall I J i k, I < ht C -> J < wd C -> i < B -> k < B ->
        E s' C I J i k = op3 R o (E s A I J i k) (E s Bm I J i k).
  Proof.
    intros WC WA WB JC HA WAA HB WBB AA AB H0.
    destruct (for_each_spec R (nat * nat)
      (fun p s => do c <- at_ C (fst p) (snd p); do a <- at_ A (fst p) (snd p); do b <- at_ Bm (fst p) (snd p);
                  Some (block_op3 R rO B o c (tr C) a (tr A) b (tr Bm) s))
      (fun p id => id = idn C (fst p) (snd p))
      (fun p id => id = idn A (fst p) (snd p) \/ id = idn Bm (fst p) (snd p))
      (fun p s s' => forall i k, i < B -> k < B ->
         E s' C (fst p) (snd p) i k = op3 R o (E s A (fst p) (snd p) i k) (E s Bm (fst p) (snd p) i k))
      (length s) (cells (ht C) (wd C))) with (s := s) as (s' & E1 & L1 & F1 & Q1); auto.
    - apply cells_NoDup.
    - intros [r c] s0 Hp L0. apply cells_In in Hp. cbn [fst snd] in *.
      rewrite (at_idn _ C r c WC), (at_idn _ A r c WA), (at_idn _ Bm r c WB) by lia.
      eexists. split; [reflexivity|]. split; [rewrite block_op3_length; auto|]. split.
      + intros id Hid. apply block_op3_other; auto.
      + intros i k Hi Hk. unfold MatrixBase.E. apply block_op3_val; auto.
        rewrite L0. apply WC; lia.
    - intros [r c] s1 s2 s1' s2' Hp HF HT HQ i k Hi Hk. cbn [fst snd] in *.
      rewrite <- (E_frame _ _ _ s2 s1 A), <- (E_frame _ _ _ s2 s1 Bm), <- (E_frame _ _ _ s2' s1' C); auto.
    - intros [r c] [r' c'] id Hp Hq Hpq Hid. apply cells_In in Hp, Hq. cbn [fst snd] in *. subst id. split.
      + intros [K|K]; [apply AA in K|apply AB in K]; try lia; destruct K; subst; auto.
      + intros K. apply JC in K; try lia. destruct K; subst; auto.
    - exists s'. split; [exact E1|]. split.
      + split; auto. intros id Hid. apply F1. intros p Hp K. apply (proj2 (cells_own C id) Hid p Hp). auto.
      + intros I J i k HI HJ Hi Hk. apply (Q1 (I, J)); auto. apply cells_In. auto.
  Qed.

  Lemma element_op2_spec o C A s :
    wf (length s) C -> wf (length s) A -> inj C -> ht A = ht C -> wd A = wd C -> aligned C A ->
    (forall x, op1 R o x = op2 R o rO x) ->
    (forall I J i k, I < ht C -> J < wd C -> i < B -> k < B -> op2 R o (E s C I J i k) rO = E s C I J i k) ->
    exists s', element_op2 R rO B o C A s = Some s' /\ only s s' C /\
      forall I J i k, I < ht C -> J < wd C -> i < B -> k < B ->
        E s' C I J i k = op2 R o (E s C I J i k) (E s A I J i k).
  Proof.
    intros WC WA JC HA WAA AA H1 H0.
    destruct (for_each_spec R (nat * nat)
      (fun p s => do c <- at_ C (fst p) (snd p); do a <- at_ A (fst p) (snd p);
                  Some (block_op2 R rO B o c (tr C) a (tr A) s))
      (fun p id => id = idn C (fst p) (snd p))
      (fun p id => id = idn A (fst p) (snd p) \/ id = idn C (fst p) (snd p))
      (fun p s s' => (forall i k, i < B -> k < B -> op2 R o (E s C (fst p) (snd p) i k) rO = E s C (fst p) (snd p) i k) ->
         forall i k, i < B -> k < B ->
         E s' C (fst p) (snd p) i k = op2 R o (E s C (fst p) (snd p) i k) (E s A (fst p) (snd p) i k))
      (length s) (cells (ht C) (wd C))) with (s := s) as (s' & E1 & L1 & F1 & Q1); auto.
    - apply cells_NoDup.
    - intros [r c] s0 Hp L0. apply cells_In in Hp. cbn [fst snd] in *.
      rewrite (at_idn _ C r c WC), (at_idn _ A r c WA) by lia.
      eexists. split; [reflexivity|]. split; [rewrite block_op2_length; auto|]. split.
      + intros id Hid. apply block_op2_other; auto.
      + intros Hz i k Hi Hk. unfold MatrixBase.E. apply block_op2_val; auto.
        * rewrite L0. apply WC; lia.
        * apply Hz; auto.
    - intros [r c] s1 s2 s1' s2' Hp HF HT HQ Hz i k Hi Hk. cbn [fst snd] in *.
      rewrite <- (E_frame _ _ _ s2 s1 A), <- (E_frame _ _ _ s2 s1 C), <- (E_frame _ _ _ s2' s1' C); auto.
      apply HQ; auto. intros. rewrite (E_frame _ _ _ s2 s1 C); auto.
    - intros [r c] [r' c'] id Hp Hq Hpq Hid. apply cells_In in Hp, Hq. cbn [fst snd] in *. subst id. split.
      + intros [K|K]; [apply AA in K|apply JC in K]; try lia; destruct K; subst; auto.
      + intros K. apply JC in K; try lia. destruct K; subst; auto.
    - exists s'. split; [exact E1|]. split.
      + split; auto. intros id Hid. apply F1. intros p Hp K. apply (proj2 (cells_own C id) Hid p Hp). auto.
      + intros I J i k HI HJ Hi Hk. apply (Q1 (I, J)); auto. apply cells_In. auto.
  Qed.

  Lemma element_op1_spec o C s :
    wf (length s) C -> inj C -> op1 R o rO = rO ->
    exists s', element_op1 R rO B o C s = Some s' /\ only s s' C /\
      forall I J i k, I < ht C -> J < wd C -> i < B -> k < B -> E s' C I J i k = op1 R o (E s C I J i k).
  Proof.
    intros WC JC H0.
    destruct (for_each_spec R (nat * nat)
      (fun p s => do c <- at_ C (fst p) (snd p); Some (block_op1 R rO B o c s))
      (fun p id => id = idn C (fst p) (snd p)) (fun p id => id = idn C (fst p) (snd p))
      (fun p s s' => forall i k, i < B -> k < B -> E s' C (fst p) (snd p) i k = op1 R o (E s C (fst p) (snd p) i k))
      (length s) (cells (ht C) (wd C))) with (s := s) as (s' & E1 & L1 & F1 & Q1); auto.
    - apply cells_NoDup.
    - intros [r c] s0 Hp L0. apply cells_In in Hp. cbn [fst snd] in *.
      rewrite (at_idn _ C r c WC) by lia.
      eexists. split; [reflexivity|]. split; [rewrite block_op1_length; auto|]. split.
      + intros id Hid. apply block_op1_other; auto.
      + intros i k Hi Hk. unfold MatrixBase.E. apply block_op1_val; auto. rewrite L0. apply WC; lia.
    - intros [r c] s1 s2 s1' s2' Hp HF HT HQ i k Hi Hk. cbn [fst snd] in *.
      rewrite <- (E_frame _ _ _ s2 s1 C), <- (E_frame _ _ _ s2' s1' C); auto.
    - intros [r c] [r' c'] id Hp Hq Hpq Hid. apply cells_In in Hp, Hq. cbn [fst snd] in *. subst id.
      split; intros K; apply JC in K; try lia; destruct K; subst; auto.
    - exists s'. split; [exact E1|]. split.
      + split; auto. intros id Hid. apply F1. intros p Hp K. apply (proj2 (cells_own C id) Hid p Hp). auto.
      + intros I J i k HI HJ Hi Hk. apply (Q1 (I, J)); auto. apply cells_In. auto.
  Qed.

  Lemma set_zero_spec C s : wf (length s) C -> only s (set_zero R C s) C /\
    forall id, own C id -> blk (set_zero R C s) id = None.
  Proof.
    intros W. assert (Hin : forall id, own C id <-> In id (ids C)) by (intros; apply (own_In (length s)); auto).
    assert (Hlt : forall id, In id (ids C) -> id < length s).
    { intros id H. apply Hin in H. eapply own_lt; eauto. }
    unfold set_zero, only.
    assert (G : forall l s, (forall id, In id l -> id < length s) ->
       length (fold_left (fun s i => put R s i None) l s) = length s /\
       (forall id, ~ In id l -> blk (fold_left (fun s i => put R s i None) l s) id = blk s id) /\
       (forall id, In id l \/ blk s id = None -> blk (fold_left (fun s i => put R s i None) l s) id = None)).
    { clear. induction l as [|x l IH]; intros s H; cbn [fold_left].
      - repeat split; auto. intros id [[]|K]; auto.
      - destruct (IH (put R s x None)) as (A & Bq & C).
        { intros. rewrite put_length. auto. cbn in H. apply H; auto. }
        rewrite put_length in A. repeat split; auto.
        + intros id Hid. rewrite Bq by (cbn in Hid; tauto). apply blk_put_other. cbn in Hid. intros ->. tauto.
        + intros id Hid. apply C. destruct (Nat.eq_dec id x) as [->|N].
          * right. apply blk_put_same. apply H. left; auto.
          * destruct Hid as [[Hid|Hid]|Hid]; auto; [congruence|]. right. rewrite blk_put_other; auto. }
    destruct (G (ids C) s Hlt) as (A & Bq & D). repeat split; auto.
    - intros id Hid. apply Bq. rewrite <- Hin. auto.
    - intros id Hid. apply D. left. apply Hin. auto.
  Qed.
  Lemma zero_E s M I J i k : blk s (idn M I J) = None -> E s M I J i k = rO.
  Proof. unfold MatrixBase.E, MatrixBase.V. intros ->. reflexivity. Qed.

  (** ** Products *)

  Definition prodE (s : store) (A Bm : bmat) (I J i k : nat) : R :=
    Sum (wd A) (fun K => Sum B (fun x => rmul (E s A I K i x) (E s Bm K J x k))).

  Definition fits (A Bm C : bmat) : Prop := ht A = ht C /\ wd Bm = wd C /\ wd A = ht Bm.
  Record pre (n : nat) (A Bm C : bmat) : Prop := {
    pr_A : wf n A; pr_B : wf n Bm; pr_C : wf n C; pr_iA : inj A; pr_iB : inj Bm; pr_iC : inj C;
    pr_AC : disj A C; pr_BC : disj Bm C; pr_fits : fits A Bm C }.

  (** old blocks outside of C are as before *)
  Definition changes (s s' : store) (C : bmat) : Prop :=
    length s <= length s' /\ forall id, id < length s -> ~ own C id -> blk s' id = blk s id.
  Lemma only_changes s s' C : only s s' C -> changes s s' C.
  Proof. intros [L H]. split; [lia|]. auto. Qed.

  Definition adds (s s' : store) (A Bm C : bmat) : Prop :=
    forall I J i k, I < ht C -> J < wd C -> i < B -> k < B ->
      E s' C I J i k = radd (E s C I J i k) (prodE s A Bm I J i k).

  Lemma naive_inner A Bm C s r c l :
    wf (length s) A -> wf (length s) Bm -> wf (length s) C -> disj A C -> disj Bm C -> fits A Bm C ->
    r < ht C -> c < wd C -> l <= wd A ->
    exists s', for_each R (seq 0 l) (fun k s =>
        do a <- at_ A r k; do b <- at_ Bm k c; do cc <- at_ C r c;
        Some (block_multiply_and_add R rO radd rmul B a (tr A) b (tr Bm) cc (tr C) s)) s = Some s' /\
      length s' = length s /\ (forall id, id <> idn C r c -> blk s' id = blk s id) /\
      forall i k, i < B -> k < B ->
        E s' C r c i k = radd (E s C r c i k) (Sum l (fun K => Sum B (fun x => rmul (E s A r K i x) (E s Bm K c x k)))).
  Proof.
    intros WA WB WC DA DB (F1 & F2 & F3) Hr Hc. induction l as [|l IH]; intros Hl.
    - exists s. cbn. repeat split; auto. intros. ring.
    - destruct IH as (s1 & E1 & L1 & O1 & V1); [lia|].
      rewrite seq_S.
      assert (App : forall (P : Type) (ps qs : list P) f (x : store),
        for_each R (ps ++ qs) f x = do y <- for_each R ps f x; for_each R qs f y).
      { clear. induction ps as [|p ps IH]; intros qs f x; cbn; auto. destruct (f p x); auto. }
      rewrite App, E1. cbn [for_each Nat.add].
      rewrite (at_idn _ A r l WA), (at_idn _ Bm l c WB), (at_idn _ C r c WC) by lia.
      eexists. split; [reflexivity|]. split; [rewrite block_mul_length; auto|]. split.
      + intros id Hid. rewrite block_mul_other by auto. apply O1. auto.
      + intros i k Hi Hk. unfold MatrixBase.E at 1. rewrite (block_mul_val R rO rI radd rmul rsub ropp Rth).
        2:{ rewrite L1. apply WC; lia. } 2:lia. 2:lia.
        cbn [MatrixBase.Sum].
        change (V s1 (idn C r c) (tr C) i k) with (E s1 C r c i k). rewrite V1 by auto.
        rewrite (Sum_ext _ _ _ B (fun x => rmul (V s1 (idn A r l) (tr A) i x) (V s1 (idn Bm l c) (tr Bm) x k))
          (fun x => rmul (E s A r l i x) (E s Bm l c x k))).
        * ring.
        * intros x Hx. f_equal; apply V_eq; apply O1; intros K.
          -- apply (DA (idn C r c)); [rewrite <- K|]; apply own_idn; lia.
          -- apply (DB (idn C r c)); [rewrite <- K|]; apply own_idn; lia.
  Qed.

  Lemma naive_spec A Bm C s : pre (length s) A Bm C ->
    exists s', naive_multiply_and_add R rO radd rmul B A Bm C s = Some s' /\ only s s' C /\ adds s s' A Bm C.
  Proof.
    intros [WA WB WC JA JB JC DA DB F]. pose proof F as (F1 & F2 & F3).
    destruct (for_each_spec R (nat * nat)
      (fun p s => for_each R (seq 0 (wd A)) (fun k s =>
        do a <- at_ A (fst p) k; do b <- at_ Bm k (snd p); do c <- at_ C (fst p) (snd p);
        Some (block_multiply_and_add R rO radd rmul B a (tr A) b (tr Bm) c (tr C) s)) s)
      (fun p id => id = idn C (fst p) (snd p))
      (fun p id => id = idn C (fst p) (snd p) \/ own A id \/ own Bm id)
      (fun p s s' => forall i k, i < B -> k < B ->
         E s' C (fst p) (snd p) i k = radd (E s C (fst p) (snd p) i k) (prodE s A Bm (fst p) (snd p) i k))
      (length s) (cells (ht C) (wd C))) with (s := s) as (s' & E1 & L1 & O1 & Q1); auto.
    - apply cells_NoDup.
    - intros [r c] s0 Hp L0. apply cells_In in Hp. cbn [fst snd] in *. rewrite <- L0 in WA, WB, WC.
      destruct (naive_inner A Bm C s0 r c (wd A)) as (s1 & X1 & X2 & X3 & X4); auto; try lia.
      exists s1. rewrite X2. auto.
    - intros [r c] s1 s2 s1' s2' Hp HF HT HQ i k Hi Hk. apply cells_In in Hp. cbn [fst snd] in *.
      rewrite <- (E_frame _ _ _ s2 s1 C), <- (E_frame _ _ _ s2' s1' C); auto.
      rewrite HQ by auto. f_equal. unfold prodE. apply Sum_ext. intros K HK. apply Sum_ext. intros x Hx.
      f_equal; apply E_frame; apply HF; right; [left|right]; apply own_idn; lia.
    - intros [r c] [r' c'] id Hp Hq Hpq Hid. apply cells_In in Hp, Hq. cbn [fst snd] in *. subst id.
      assert (N : idn C r c <> idn C r' c').
      { intros K; apply JC in K; try lia; destruct K; subst; auto. }
      split; auto. intros [K|[K|K]]; auto.
      + apply (DA (idn C r c)); auto. apply own_idn; lia.
      + apply (DB (idn C r c)); auto. apply own_idn; lia.
    - exists s'. split; [exact E1|]. split.
      + split; auto. intros id Hid. apply O1. intros p Hp K. apply (proj2 (cells_own C id) Hid p Hp). auto.
      + intros I J i k HI HJ Hi Hk. apply (Q1 (I, J)); auto. apply cells_In. auto.
  Qed.
End Proofs.
