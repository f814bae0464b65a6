(** A calculus for sequences of block-matrix operations, and the recursive product (MatrixModel.v). *)
From Coq Require Import List Arith Bool PeanoNat Lia Ring FinFun.
From Verif Require Import MatrixModel MatrixBase MatrixProofs.
Import ListNotations.

Section Rec.
  Variable R : Type.
  Variables (rO rI : R) (radd rmul rsub : R -> R -> R) (ropp : R -> R).
  Variable Rth : ring_theory rO rI radd rmul rsub ropp eq.
  Variable B : nat.

  Add Ring Rring3 : Rth.

  Notation store := (list (option (list R))).
  Notation blk := (blk R).
  Notation E := (E R rO B).
  Notation Sum := (Sum R rO radd).
  Notation prodE := (prodE R rO radd rmul B).
  Notation changes := (changes R).
  Notation adds := (adds R rO radd rmul B).

  (** ** Values of block matrices *)

  Notation val := (nat -> nat -> nat -> nat -> R).        (* block row, block column, row, column *)
  Definition padd (f g : val) : val := fun I J i k => radd (f I J i k) (g I J i k).
  Definition psub (f g : val) : val := fun I J i k => rsub (f I J i k) (g I J i k).
  Definition pzero : val := fun _ _ _ _ => rO.
  Definition pmul (l : nat) (f g : val) : val :=
    fun I J i k => Sum l (fun K => Sum B (fun x => rmul (f I K i x) (g K J x k))).

  Lemma pmul_padd_l l f g h I J i k : pmul l (padd f g) h I J i k = radd (pmul l f h I J i k) (pmul l g h I J i k).
  Proof.
    unfold pmul, padd. rewrite (Sum_add R rO rI radd rmul rsub ropp Rth). apply Sum_ext. intros.
    rewrite (Sum_add R rO rI radd rmul rsub ropp Rth). apply Sum_ext. intros. ring.
  Qed.
  Lemma pmul_padd_r l f g h I J i k : pmul l h (padd f g) I J i k = radd (pmul l h f I J i k) (pmul l h g I J i k).
  Proof.
    unfold pmul, padd. rewrite (Sum_add R rO rI radd rmul rsub ropp Rth). apply Sum_ext. intros.
    rewrite (Sum_add R rO rI radd rmul rsub ropp Rth). apply Sum_ext. intros. ring.
  Qed.
  Lemma pmul_psub_l l f g h I J i k : pmul l (psub f g) h I J i k = rsub (pmul l f h I J i k) (pmul l g h I J i k).
  Proof.
    unfold pmul, psub. rewrite (Sum_sub R rO rI radd rmul rsub ropp Rth). apply Sum_ext. intros.
    rewrite (Sum_sub R rO rI radd rmul rsub ropp Rth). apply Sum_ext. intros. ring.
  Qed.
  Lemma pmul_psub_r l f g h I J i k : pmul l h (psub f g) I J i k = rsub (pmul l h f I J i k) (pmul l h g I J i k).
  Proof.
    unfold pmul, psub. rewrite (Sum_sub R rO rI radd rmul rsub ropp Rth). apply Sum_ext. intros.
    rewrite (Sum_sub R rO rI radd rmul rsub ropp Rth). apply Sum_ext. intros. ring.
  Qed.

  Lemma pmul_ext l f f' g g' I J i k :
    (forall K x, K < l -> x < B -> f I K i x = f' I K i x) -> (forall K x, K < l -> x < B -> g K J x k = g' K J x k) ->
    pmul l f g I J i k = pmul l f' g' I J i k.
  Proof.
    intros H1 H2. unfold pmul. apply Sum_ext. intros K HK. apply Sum_ext. intros x Hx. rewrite H1, H2 by auto. reflexivity.
  Qed.

  (** ** The invariant *)

  Definition d0 : bmat := mk_bmat 0 0 [] false.
  Notation nthM := (fun Ms a => nth a Ms d0).
  Definition shape (M : bmat) : nat * nat * bool := (ht M, wd M, tr M).

  (** The matrices [Ms]; from number [t0] on they may be written and have no block in common with any other.
      [w] gives their values.  Blocks that existed in [s0] and belong to none of the writable matrices are as in [s0]. *)
  Record Inv (t0 : nat) (s0 : store) (Ms : list bmat) (s : store) (w : nat -> val) : Prop := {
    i_wf : forall a, a < length Ms -> wf (length s) (nth a Ms d0) /\ inj (nth a Ms d0);
    i_dj : forall a b, a < length Ms -> b < length Ms -> t0 <= b -> a <> b -> disj (nth a Ms d0) (nth b Ms d0);
    i_rep : forall a I J i k, a < length Ms -> I < ht (nth a Ms d0) -> J < wd (nth a Ms d0) -> i < B -> k < B ->
      E s (nth a Ms d0) I J i k = w a I J i k;
    i_len : length s0 <= length s;
    i_fr : forall id, id < length s0 -> (forall b, b < length Ms -> t0 <= b -> ~ own (nth b Ms d0) id) ->
      blk s id = blk s0 id }.

  Lemma Inv_change t0 s0 Ms s w s' c v : Inv t0 s0 Ms s w -> t0 <= c -> c < length Ms ->
    changes s s' (nth c Ms d0) ->
    (forall I J i k, I < ht (nth c Ms d0) -> J < wd (nth c Ms d0) -> i < B -> k < B ->
       E s' (nth c Ms d0) I J i k = v I J i k) ->
    Inv t0 s0 Ms s' (fun m => if m =? c then v else w m).
  Proof.
    intros H Hc Lc [L O] Hv. constructor.
    - intros a Ha. destruct (i_wf _ _ _ _ _ H a Ha) as [W J]. split; auto. apply (wf_le (length s)); auto.
    - apply (i_dj _ _ _ _ _ H).
    - intros a I J i k Ha HI HJ Hi Hk. destruct (Nat.eqb_spec a c) as [Eac|N].
      + subst a. apply Hv; auto.
      + destruct (i_wf _ _ _ _ _ H a Ha) as [W _].
        rewrite <- (i_rep _ _ _ _ _ H a) by auto. apply E_frame. apply O.
        * apply W; auto.
        * intros K. apply (i_dj _ _ _ _ _ H a c Ha Lc Hc N (idn (nth a Ms d0) I J)); auto. apply own_idn; auto.
    - pose proof (i_len _ _ _ _ _ H). lia.
    - intros id Hid Hn. rewrite O.
      + apply (i_fr _ _ _ _ _ H); auto.
      + pose proof (i_len _ _ _ _ _ H). lia.
      + apply Hn; auto.
  Qed.

  Lemma Inv_alloc t0 s0 Ms s w h wi t : Inv t0 s0 Ms s w -> t0 <= length Ms ->
    exists M s' w', alloc R h wi t s = Some (M, s') /\ Inv t0 s0 (Ms ++ [M]) s' w' /\ shape M = (h, wi, t) /\
      (forall m, w' m = if m =? length Ms then pzero else w m) /\
      length s <= length s' /\ (forall id, own M id -> length s <= id).
  Proof.
    intros H Ht. destruct (alloc_spec R h wi t s) as (M & s' & E1 & Hh & Hw & HT & (k & Hk) & W & J & O).
    assert (X : ext R s s') by (subst; apply ext_app).
    exists M, s', (fun m => if m =? length Ms then pzero else w m). split; auto. split; [|split; [|split; [reflexivity|split; [apply X|intros id Hid; apply O; auto]]]].
    2:{ unfold shape. rewrite Hh, Hw, HT. reflexivity. }
    assert (Nlen : length (Ms ++ [M]) = S (length Ms)) by (rewrite app_length; cbn; lia).
    assert (Nold : forall a, a < length Ms -> nth a (Ms ++ [M]) d0 = nth a Ms d0) by (intros; apply app_nth1; auto).
    assert (Nnew : nth (length Ms) (Ms ++ [M]) d0 = M) by (rewrite app_nth2, Nat.sub_diag by lia; reflexivity).
    assert (C : forall a, a < length (Ms ++ [M]) -> a < length Ms \/ a = length Ms) by (intros; lia).
    assert (Wo : forall a, a < length Ms -> wf (length s) (nth a Ms d0)) by (intros; apply (i_wf _ _ _ _ _ H); auto).
    constructor.
    - intros a Ha. destruct (C a Ha) as [Ha'| ->].
      + rewrite Nold by auto. destruct (i_wf _ _ _ _ _ H a Ha') as [Wa Ja]. split; auto.
        apply (wf_le (length s)); auto. apply X.
      + rewrite Nnew. auto.
    - intros a b Ha Hb Tb N. destruct (C a Ha) as [Ha'|Ea], (C b Hb) as [Hb'|Eb].
      + rewrite !Nold by auto. apply (i_dj _ _ _ _ _ H); auto.
      + rewrite Eb, Nnew, Nold by auto. intros id K1 K2. apply O in K2. pose proof (own_lt _ _ _ (Wo a Ha') K1). lia.
      + rewrite Ea, Nnew, Nold by auto. intros id K1 K2. apply O in K1. pose proof (own_lt _ _ _ (Wo b Hb') K2). lia.
      + lia.
    - intros a I Jx i kk Ha. destruct (C a Ha) as [Ha'|Ea].
      + rewrite Nold by auto. intros. destruct (Nat.eqb_spec a (length Ms)); [lia|].
        rewrite (ext_E R rO B s s') by auto. apply (i_rep _ _ _ _ _ H); auto.
      + subst a. rewrite Nnew. intros. rewrite Nat.eqb_refl. apply zero_E.
        rewrite (proj2 X). apply blk_over. apply O. apply own_idn; auto.
    - pose proof (i_len _ _ _ _ _ H). destruct X. lia.
    - intros id Hid Hn. rewrite (proj2 X). apply (i_fr _ _ _ _ _ H); auto.
      intros b Hb Tb. specialize (Hn b). rewrite Nold in Hn by auto. apply Hn; auto. lia.
  Qed.

  (** one product, computed by a routine that meets its specification *)
  Definition mul_add_ok (f : bmat -> bmat -> bmat -> store -> option store) (A Bm C : bmat) : Prop :=
    forall s, pre (length s) A Bm C -> exists s', f A Bm C s = Some s' /\ changes s s' C /\ adds s s' A Bm C.

  Lemma Inv_pre t0 s0 Ms s w a b c : Inv t0 s0 Ms s w -> t0 <= c ->
    a < length Ms -> b < length Ms -> c < length Ms -> a <> c -> b <> c ->
    fits (nth a Ms d0) (nth b Ms d0) (nth c Ms d0) -> pre (length s) (nth a Ms d0) (nth b Ms d0) (nth c Ms d0).
  Proof.
    intros H Tc La Lb Lc Nac Nbc F.
    destruct (i_wf _ _ _ _ _ H a La), (i_wf _ _ _ _ _ H b Lb), (i_wf _ _ _ _ _ H c Lc).
    constructor; auto; apply (i_dj _ _ _ _ _ H); auto.
  Qed.

  Lemma prodE_val t0 s0 Ms s w a b I J i k : Inv t0 s0 Ms s w -> a < length Ms -> b < length Ms ->
    wd (nth a Ms d0) = ht (nth b Ms d0) -> I < ht (nth a Ms d0) -> J < wd (nth b Ms d0) -> i < B -> k < B ->
    prodE s (nth a Ms d0) (nth b Ms d0) I J i k = pmul (wd (nth a Ms d0)) (w a) (w b) I J i k.
  Proof.
    intros H La Lb F HI HJ Hi Hk. unfold MatrixProofs.prodE, pmul. apply Sum_ext. intros K HK. apply Sum_ext. intros x Hx.
    rewrite <- (i_rep _ _ _ _ _ H a), <- (i_rep _ _ _ _ _ H b) by (auto; lia). reflexivity.
  Qed.

  Lemma Inv_mul f t0 s0 Ms s w a b c : Inv t0 s0 Ms s w ->
    mul_add_ok f (nth a Ms d0) (nth b Ms d0) (nth c Ms d0) -> t0 <= c ->
    a < length Ms -> b < length Ms -> c < length Ms -> a <> c -> b <> c ->
    fits (nth a Ms d0) (nth b Ms d0) (nth c Ms d0) ->
    exists s' w', f (nth a Ms d0) (nth b Ms d0) (nth c Ms d0) s = Some s' /\ Inv t0 s0 Ms s' w' /\
      (forall m, w' m = if m =? c then padd (w c) (pmul (wd (nth a Ms d0)) (w a) (w b)) else w m).
  Proof.
    intros H Hf Tc La Lb Lc Nac Nbc F. pose proof F as (F1 & F2 & F3).
    destruct (Hf s) as (s' & E1 & C1 & A1); [eapply Inv_pre; eauto|].
    eexists s', _. split; [exact E1|]. split.
    2:{ intros m. reflexivity. }
    apply (Inv_change t0 s0 Ms s w s' c); auto.
    intros I J i k HI HJ Hi Hk. rewrite A1 by auto. unfold padd.
    rewrite <- (i_rep _ _ _ _ _ H c) by auto. f_equal. eapply prodE_val; eauto; lia.
  Qed.

  Lemma Inv_op3 o t0 s0 Ms s w a b c : Inv t0 s0 Ms s w -> t0 <= c ->
    a < length Ms -> b < length Ms -> c < length Ms -> a <> c -> b <> c ->
    ht (nth a Ms d0) = ht (nth c Ms d0) -> wd (nth a Ms d0) = wd (nth c Ms d0) ->
    ht (nth b Ms d0) = ht (nth c Ms d0) -> wd (nth b Ms d0) = wd (nth c Ms d0) ->
    op3 R o rO rO = rO ->
    exists s' w', element_op3 R rO B o (nth c Ms d0) (nth a Ms d0) (nth b Ms d0) s = Some s' /\ Inv t0 s0 Ms s' w' /\
      (forall m, w' m = if m =? c then (fun I J i k => op3 R o (w a I J i k) (w b I J i k)) else w m) /\
      length s' = length s.
  Proof.
    intros H Tc La Lb Lc Nac Nbc F1 F2 F3 F4 H0.
    destruct (i_wf _ _ _ _ _ H a La), (i_wf _ _ _ _ _ H b Lb), (i_wf _ _ _ _ _ H c Lc).
    destruct (element_op3_spec R rO B o (nth c Ms d0) (nth a Ms d0) (nth b Ms d0) s) as (s' & E1 & O1 & A1); auto.
    { apply disj_aligned; auto. apply (i_dj _ _ _ _ _ H); auto. }
    { apply disj_aligned; auto. apply (i_dj _ _ _ _ _ H); auto. }
    eexists s', _. split; [exact E1|]. split; [|split; [intros m; reflexivity|apply O1]].
    apply (Inv_change t0 s0 Ms s w s' c); auto.
    - apply only_changes; auto.
    - intros I J i k HI HJ Hi Hk. rewrite A1 by auto. rewrite !(i_rep _ _ _ _ _ H) by (auto; lia). reflexivity.
  Qed.

  Lemma Inv_add t0 s0 Ms s w a c : Inv t0 s0 Ms s w -> t0 <= c ->
    a < length Ms -> c < length Ms -> a <> c ->
    ht (nth a Ms d0) = ht (nth c Ms d0) -> wd (nth a Ms d0) = wd (nth c Ms d0) ->
    exists s' w', element_op2 R rO B (addition R radd) (nth c Ms d0) (nth a Ms d0) s = Some s' /\ Inv t0 s0 Ms s' w' /\
      (forall m, w' m = if m =? c then padd (w c) (w a) else w m).
  Proof.
    intros H Tc La Lc Nac F1 F2.
    destruct (i_wf _ _ _ _ _ H a La), (i_wf _ _ _ _ _ H c Lc).
    destruct (element_op2_spec R rO B (addition R radd) (nth c Ms d0) (nth a Ms d0) s) as (s' & E1 & O1 & A1); auto.
    { apply disj_aligned; auto. apply (i_dj _ _ _ _ _ H); auto. }
    { intros x. cbn. ring. }
    { intros. cbn. ring. }
    eexists s', _. split; [exact E1|]. split; [|intros m; reflexivity].
    apply (Inv_change t0 s0 Ms s w s' c); auto.
    - apply only_changes; auto.
    - intros I J i k HI HJ Hi Hk. rewrite A1 by auto. rewrite !(i_rep _ _ _ _ _ H) by (auto; lia). reflexivity.
  Qed.

  Lemma Inv_zero t0 s0 Ms s w c : Inv t0 s0 Ms s w -> t0 <= c -> c < length Ms ->
    exists w', Inv t0 s0 Ms (set_zero R (nth c Ms d0) s) w' /\ (forall m, w' m = if m =? c then pzero else w m).
  Proof.
    intros H Tc Lc. destruct (i_wf _ _ _ _ _ H c Lc) as [W J].
    destruct (set_zero_spec R (nth c Ms d0) s W) as [O Z].
    eexists. split; [|intros m; reflexivity].
    apply (Inv_change t0 s0 Ms s w _ c); auto.
    - apply only_changes; auto.
    - intros I Jx i k HI HJ Hi Hk. apply zero_E. apply Z. apply own_idn; auto.
  Qed.

  (** ** Quarters *)

  (** the three partitions of a product *)
  Lemma Inv_quads A Bm C s s1 s2 s3 qa qb qc ha1 ha2 la1 la2 hb1 hb2 wb1 wb2 hc1 hc2 wc1 wc2 :
    pre (length s) A Bm C -> quad_ok R s s1 A ha1 ha2 la1 la2 qa -> quad_ok R s1 s2 Bm hb1 hb2 wb1 wb2 qb ->
    quad_ok R s2 s3 C hc1 hc2 wc1 wc2 qc ->
    Inv 8 s [ul qa; ur qa; dl qa; dr qa; ul qb; ur qb; dl qb; dr qb; ul qc; ur qc; dl qc; dr qc] s3
      (fun a => E s3 (nth a [ul qa; ur qa; dl qa; dr qa; ul qb; ur qb; dl qb; dr qb; ul qc; ur qc; dl qc; dr qc] d0)).
  Proof.
    intros [WA WB WC JA JB JC DA DB F] QA QB QC.
    pose proof (q_ext _ _ _ _ _ _ _ _ _ QA) as XA. pose proof (q_ext _ _ _ _ _ _ _ _ _ QB) as XB.
    pose proof (q_ext _ _ _ _ _ _ _ _ _ QC) as XC.
    pose proof (ext_le _ _ _ XA) as LA. pose proof (ext_le _ _ _ XB) as LB. pose proof (ext_le _ _ _ XC) as LC.
    assert (SA : forall q r0 c0, part_of R s s1 A q r0 c0 ->
              wf (length s3) q /\ inj q /\ forall id, own q id -> own A id \/ length s <= id < length s1).
    { intros q r0 c0 P. split; [apply (wf_le (length s1)); [lia|apply P]|]. split; [apply P|]. intros id. eapply part_own; eauto. }
    assert (SB : forall q r0 c0, part_of R s1 s2 Bm q r0 c0 ->
              wf (length s3) q /\ inj q /\ forall id, own q id -> own Bm id \/ length s1 <= id < length s2).
    { intros q r0 c0 P. split; [apply (wf_le (length s2)); [lia|apply P]|]. split; [apply P|]. intros id. eapply part_own; eauto. }
    assert (SC : forall q r0 c0, part_of R s2 s3 C q r0 c0 ->
              wf (length s3) q /\ inj q /\ forall id, own q id -> own C id \/ length s2 <= id < length s3).
    { intros q r0 c0 P. split; [apply P|]. split; [apply P|]. intros id. eapply part_own; eauto. }
    destruct QA as [_ A1 A2 A3 A4 _ _ _ _ _ _ _]. destruct QB as [_ B1 B2 B3 B4 _ _ _ _ _ _ _].
    destruct QC as [_ C1 C2 C3 C4 _ Q1 Q2 Q3 Q4 Q5 Q6].
    apply SA in A1, A2, A3, A4. apply SB in B1, B2, B3, B4. apply SC in C1, C2, C3, C4. clear SA SB SC.
    assert (OA : forall id, own A id -> id < length s) by (intros id; apply (own_lt _ A id WA)).
    assert (OB : forall id, own Bm id -> id < length s) by (intros id; apply (own_lt _ Bm id WB)).
    assert (OC : forall id, own C id -> id < length s) by (intros id; apply (own_lt _ C id WC)).
    constructor.
    - intros a Ha. cbn in Ha. do 12 (destruct a as [|a]; [cbn; tauto|]). lia.
    - assert (DAC : forall q q', (forall id, own q id -> own A id \/ length s <= id < length s1) ->
                                 (forall id, own q' id -> own C id \/ length s2 <= id < length s3) -> disj q q').
      { intros q q' K1 K2 id O1 O2. apply K1 in O1. apply K2 in O2.
        destruct O1 as [O1|O1], O2 as [O2|O2]; try (apply (DA id); auto; fail);
          try (apply OA in O1); try (apply OC in O2); lia. }
      assert (DBC : forall q q', (forall id, own q id -> own Bm id \/ length s1 <= id < length s2) ->
                                 (forall id, own q' id -> own C id \/ length s2 <= id < length s3) -> disj q q').
      { intros q q' K1 K2 id O1 O2. apply K1 in O1. apply K2 in O2.
        destruct O1 as [O1|O1], O2 as [O2|O2]; try (apply (DB id); auto; fail);
          try (apply OB in O1); try (apply OC in O2); lia. }
      destruct A1 as (_ & _ & A1), A2 as (_ & _ & A2), A3 as (_ & _ & A3), A4 as (_ & _ & A4).
      destruct B1 as (_ & _ & B1), B2 as (_ & _ & B2), B3 as (_ & _ & B3), B4 as (_ & _ & B4).
      destruct C1 as (_ & _ & C1), C2 as (_ & _ & C2), C3 as (_ & _ & C3), C4 as (_ & _ & C4).
      intros a b Ha Hb Tb N. cbn in Ha, Hb.
      do 8 (destruct b as [|b]; [lia|]).
      do 4 (destruct b as [|b]; [do 12 (destruct a as [|a]; [cbn;
        first [lia | apply DAC; assumption | apply DBC; assumption | assumption | apply disj_sym; assumption]|]); lia|]).
      lia.
    - reflexivity.
    - lia.
    - intros id Hid _. rewrite (proj2 XC), (proj2 XB), (proj2 XA). reflexivity.
  Qed.

  (** the product of two partitioned matrices, by quarters *)
  Lemma prod_parts (s sa sb s3 : store) A Bm q11 q12 p1 p2 r0 c0 l1 l2 I J i k :
    ext R s sa -> ext R sa sb -> ext R sb s3 -> wd A = ht Bm -> wd A <= l1 + l2 ->
    part_of R s sa A q11 r0 0 -> part_of R s sa A q12 r0 l1 ->
    part_of R sa sb Bm p1 0 c0 -> part_of R sa sb Bm p2 l1 c0 ->
    wd q11 = l1 -> wd q12 = l2 -> ht p1 = l1 -> ht p2 = l2 ->
    I < ht q11 -> I < ht q12 -> J < wd p1 -> J < wd p2 -> r0 + I < ht A -> c0 + J < wd Bm ->
    prodE s A Bm (r0 + I) (c0 + J) i k
    = radd (pmul l1 (E s3 q11) (E s3 p1) I J i k) (pmul l2 (E s3 q12) (E s3 p2) I J i k).
  Proof.
    intros Xa Xb X3 F L P11 P12 P1 P2 W11 W12 H1 H2 HI HI' HJ HJ' HA HB.
    set (g := fun K => Sum B (fun x => rmul (if K <? wd A then E s A (r0 + I) K i x else rO)
                                             (if K <? ht Bm then E s Bm K (c0 + J) x k else rO))).
    assert (G : prodE s A Bm (r0 + I) (c0 + J) i k = Sum (l1 + l2) g).
    { rewrite (Sum_more R rO rI radd rmul rsub ropp Rth (wd A) (l1 + l2)); [|exact L|].
      2:{ intros K K1 K2. unfold g. apply (Sum_zero R rO rI radd rmul rsub ropp Rth). intros x _.
          destruct (Nat.ltb_spec K (wd A)); [lia|]. ring. }
      unfold MatrixProofs.prodE. apply Sum_ext. intros K HK. unfold g.
      destruct (Nat.ltb_spec K (wd A)); [|lia]. destruct (Nat.ltb_spec K (ht Bm)); [|lia]. reflexivity. }
    rewrite G, (Sum_split R rO rI radd rmul rsub ropp Rth). unfold pmul.
    assert (EA : forall q c1 K x, part_of R s sa A q r0 c1 -> I < ht q -> K < wd q ->
               E s3 q I K i x = if c1 + K <? wd A then E s A (r0 + I) (c1 + K) i x else rO).
    { intros q c1 K x P HIq HK. rewrite (ext_E R rO B sa s3) by (eapply ext_trans; eauto).
      rewrite (part_E R rO B s sa A q r0 c1) by auto.
      destruct (Nat.ltb_spec (r0 + I) (ht A)); [reflexivity|lia]. }
    assert (EB : forall q r1 K x, part_of R sa sb Bm q r1 c0 -> K < ht q -> J < wd q ->
               E s3 q K J x k = if r1 + K <? ht Bm then E s Bm (r1 + K) (c0 + J) x k else rO).
    { intros q r1 K x P HK HJq. rewrite (ext_E R rO B sb s3) by auto.
      rewrite (part_E R rO B sa sb Bm q r1 c0) by auto.
      destruct (Nat.ltb_spec (c0 + J) (wd Bm)); [|lia]. rewrite andb_true_r.
      destruct (r1 + K <? ht Bm); auto. apply ext_E; auto. }
    f_equal.
    - apply Sum_ext. intros K HK. unfold g. apply Sum_ext. intros x Hx.
      rewrite (EA q11 0), (EB p1 0) by (auto; lia). reflexivity.
    - apply Sum_ext. intros K HK. unfold g. apply Sum_ext. intros x Hx.
      rewrite (EA q12 l1), (EB p2 l1) by (auto; lia). reflexivity.
  Qed.

  (** what a sequence of operations on the quarters has to achieve *)
  Lemma quads_result A Bm C s s1 s2 s3 qa qb qc h1 h2 l1 l2 w1 w2 Ms s' w' (acc : bool) :
    pre (length s) A Bm C -> quad_ok R s s1 A h1 h2 l1 l2 qa -> quad_ok R s1 s2 Bm l1 l2 w1 w2 qb ->
    quad_ok R s2 s3 C h1 h2 w1 w2 qc ->
    ht C <= h1 + h2 -> wd A <= l1 + l2 -> wd C <= w1 + w2 ->
    Inv 8 s Ms s' w' ->
    (exists T, Ms = [ul qa; ur qa; dl qa; dr qa; ul qb; ur qb; dl qb; dr qb; ul qc; ur qc; dl qc; dr qc] ++ T /\
       forall M, In M T -> forall id, own M id -> length s3 <= id) ->
    let o (M : bmat) (f : val) : val := if acc then padd (E s3 M) f else f in
    (forall I J i k, I < h1 -> J < w1 -> w' 8 I J i k
       = o (ul qc) (padd (pmul l1 (E s3 (ul qa)) (E s3 (ul qb))) (pmul l2 (E s3 (ur qa)) (E s3 (dl qb)))) I J i k) ->
    (forall I J i k, I < h1 -> J < w2 -> w' 9 I J i k
       = o (ur qc) (padd (pmul l1 (E s3 (ul qa)) (E s3 (ur qb))) (pmul l2 (E s3 (ur qa)) (E s3 (dr qb)))) I J i k) ->
    (forall I J i k, I < h2 -> J < w1 -> w' 10 I J i k
       = o (dl qc) (padd (pmul l1 (E s3 (dl qa)) (E s3 (ul qb))) (pmul l2 (E s3 (dr qa)) (E s3 (dl qb)))) I J i k) ->
    (forall I J i k, I < h2 -> J < w2 -> w' 11 I J i k
       = o (dr qc) (padd (pmul l1 (E s3 (dl qa)) (E s3 (ur qb))) (pmul l2 (E s3 (dr qa)) (E s3 (dr qb)))) I J i k) ->
    changes s s' C /\
    forall I J i k, I < ht C -> J < wd C -> i < B -> k < B ->
      E s' C I J i k = if acc then radd (E s C I J i k) (prodE s A Bm I J i k) else prodE s A Bm I J i k.
  Proof.
    intros P QA QB QC LH LL LW H (T & -> & HT) o R1 R2 R3 R4.
    destruct P as [WA WB WC JA JB JC DA DB F].
    pose proof (q_ext _ _ _ _ _ _ _ _ _ QA) as XA. pose proof (q_ext _ _ _ _ _ _ _ _ _ QB) as XB.
    pose proof (q_ext _ _ _ _ _ _ _ _ _ QC) as XC.
    pose proof (ext_le _ _ _ XA) as LeA. pose proof (ext_le _ _ _ XB) as LeB. pose proof (ext_le _ _ _ XC) as LeC.
    destruct F as (F1 & F2 & F3).
    pose proof (q_dims _ _ _ _ _ _ _ _ _ QA) as (A1 & A2 & A3 & A4 & A5 & A6 & A7 & A8).
    pose proof (q_dims _ _ _ _ _ _ _ _ _ QB) as (B1 & B2 & B3 & B4 & B5 & B6 & B7 & B8).
    pose proof (q_dims _ _ _ _ _ _ _ _ _ QC) as (C1 & C2 & C3 & C4 & C5 & C6 & C7 & C8).
    split.
    - split; [apply (i_len _ _ _ _ _ H)|]. intros id Hid Hn. apply (i_fr _ _ _ _ _ H); auto.
      intros b Hb Tb K.
      assert (Q : forall q r0 c0, part_of R s2 s3 C q r0 c0 -> own q id -> False).
      { intros q r0 c0 Pq Oq. eapply part_own in Oq; eauto. destruct Oq; [auto|]. lia. }
      do 8 (destruct b as [|b]; [lia|]).
      destruct b as [|b]; [apply (Q _ _ _ (q_ul _ _ _ _ _ _ _ _ _ QC)); auto|].
      destruct b as [|b]; [apply (Q _ _ _ (q_ur _ _ _ _ _ _ _ _ _ QC)); auto|].
      destruct b as [|b]; [apply (Q _ _ _ (q_dl _ _ _ _ _ _ _ _ _ QC)); auto|].
      destruct b as [|b]; [apply (Q _ _ _ (q_dr _ _ _ _ _ _ _ _ _ QC)); auto|].
      cbn in K, Hb. apply HT in K; [lia|]. apply nth_In. lia.
    - intros I J i k HI HJ Hi Hk.
      assert (G : forall m q r0 c0, part_of R s2 s3 C q r0 c0 -> r0 <= I -> c0 <= J -> I < r0 + ht q -> J < c0 + wd q ->
          m < 12 -> nth m [ul qa; ur qa; dl qa; dr qa; ul qb; ur qb; dl qb; dr qb; ul qc; ur qc; dl qc; dr qc] d0 = q ->
          E s' C I J i k = w' m (I - r0) (J - c0) i k /\ E s3 q (I - r0) (J - c0) i k = E s C I J i k).
      { intros m q r0 c0 Pq ? ? ? ? Hm Hq. split.
        - rewrite <- (i_rep _ _ _ _ _ H m).
          + rewrite app_nth1 by (cbn; lia). rewrite Hq. unfold MatrixBase.E.
            rewrite (part_in R s2 s3 C q r0 c0 I J) by auto. destruct Pq as (_ & _ & -> & _). reflexivity.
          + rewrite app_length. cbn. lia.
          + rewrite app_nth1 by (cbn; lia). rewrite Hq. lia.
          + rewrite app_nth1 by (cbn; lia). rewrite Hq. lia.
          + auto. + auto.
        - unfold MatrixBase.E. rewrite (part_in R s2 s3 C q r0 c0 I J) by auto. destruct Pq as (_ & _ & -> & _).
          apply V_eq. rewrite (proj2 XC), (proj2 XB), (proj2 XA). reflexivity. }
      destruct (Nat.lt_ge_cases I h1) as [Hh|Hh], (Nat.lt_ge_cases J w1) as [Hw|Hw].
      + destruct (G 8 (ul qc) 0 0 (q_ul _ _ _ _ _ _ _ _ _ QC)) as [G1 G2]; try lia; auto.
        rewrite !Nat.sub_0_r in *. rewrite G1, R1 by lia. unfold o.
        assert (P : prodE s A Bm I J i k = padd (pmul l1 (E s3 (ul qa)) (E s3 (ul qb))) (pmul l2 (E s3 (ur qa)) (E s3 (dl qb))) I J i k).
        { apply (prod_parts s s1 s2 s3 A Bm (ul qa) (ur qa) (ul qb) (dl qb) 0 0); auto; try lia; try apply QA; try apply QB. }
        rewrite P. destruct acc; [|reflexivity]. unfold padd at 1. rewrite G2. reflexivity.
      + destruct (G 9 (ur qc) 0 w1 (q_ur _ _ _ _ _ _ _ _ _ QC)) as [G1 G2]; try lia; auto.
        rewrite !Nat.sub_0_r in *. rewrite G1, R2 by lia. unfold o.
        assert (P : prodE s A Bm I J i k = padd (pmul l1 (E s3 (ul qa)) (E s3 (ur qb))) (pmul l2 (E s3 (ur qa)) (E s3 (dr qb))) I (J - w1) i k).
        { replace J with (w1 + (J - w1)) at 1 by lia.
          apply (prod_parts s s1 s2 s3 A Bm (ul qa) (ur qa) (ur qb) (dr qb) 0 w1); auto; try lia; try apply QA; try apply QB. }
        rewrite P. destruct acc; [|reflexivity]. unfold padd at 1. rewrite G2. reflexivity.
      + destruct (G 10 (dl qc) h1 0 (q_dl _ _ _ _ _ _ _ _ _ QC)) as [G1 G2]; try lia; auto.
        rewrite !Nat.sub_0_r in *. rewrite G1, R3 by lia. unfold o.
        assert (P : prodE s A Bm I J i k = padd (pmul l1 (E s3 (dl qa)) (E s3 (ul qb))) (pmul l2 (E s3 (dr qa)) (E s3 (dl qb))) (I - h1) J i k).
        { replace I with (h1 + (I - h1)) at 1 by lia.
          apply (prod_parts s s1 s2 s3 A Bm (dl qa) (dr qa) (ul qb) (dl qb) h1 0); auto; try lia; try apply QA; try apply QB. }
        rewrite P. destruct acc; [|reflexivity]. unfold padd at 1. rewrite G2. reflexivity.
      + destruct (G 11 (dr qc) h1 w1 (q_dr _ _ _ _ _ _ _ _ _ QC)) as [G1 G2]; try lia; auto.
        rewrite G1, R4 by lia. unfold o.
        assert (P : prodE s A Bm I J i k = padd (pmul l1 (E s3 (dl qa)) (E s3 (ur qb))) (pmul l2 (E s3 (dr qa)) (E s3 (dr qb))) (I - h1) (J - w1) i k).
        { replace I with (h1 + (I - h1)) at 1 by lia. replace J with (w1 + (J - w1)) at 1 by lia.
          apply (prod_parts s s1 s2 s3 A Bm (dl qa) (dr qa) (ur qb) (dr qb) h1 w1); auto; try lia; try apply QA; try apply QB. }
        rewrite P. destruct acc; [|reflexivity]. unfold padd at 1. rewrite G2. reflexivity.
  Qed.
End Rec.
