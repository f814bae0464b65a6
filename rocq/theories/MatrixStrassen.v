(** The recursive product and the three Strassen-Winograd products compute the product (MatrixModel.v). *)
From Coq Require Import List Arith Bool PeanoNat Lia Ring FinFun.
From Verif Require Import MatrixModel MatrixBase MatrixProofs MatrixRec.
Import ListNotations.

Section Strassen.
  Variable R : Type.
  Variables (rO rI : R) (radd rmul rsub : R -> R -> R) (ropp : R -> R).
  Variable Rth : ring_theory rO rI radd rmul rsub ropp eq.
  Variable B : nat.

  Add Ring Rring4 : Rth.

  Notation store := (list (option (list R))).
  Notation blk := (blk R).
  Notation E := (E R rO B).
  Notation Sum := (Sum R rO radd).
  Notation prodE := (prodE R rO radd rmul B).
  Notation changes := (changes R).
  Notation adds := (adds R rO radd rmul B).
  Notation Inv := (Inv R rO B).
  Notation mul_add_ok := (mul_add_ok R rO radd rmul B).
  Notation padd := (padd R radd).
  Notation psub := (psub R rsub).
  Notation pzero := (pzero R rO).
  Notation pmul := (pmul R rO radd rmul B).

  Lemma half_lt n : 2 <= n -> n / 2 < n /\ n - n / 2 < n /\ n / 2 <= n.
  Proof.
    intros H. pose proof (Nat.div_mod n 2). pose proof (Nat.mod_upper_bound n 2). lia.
  Qed.
  Lemma half_le n : n / 2 <= n.
  Proof. apply Nat.div_le_upper_bound; lia. Qed.

  Lemma rec_ok fuel : forall A Bm C, ht C + wd C + wd A < fuel ->
    mul_add_ok (recursive_multiply_and_add R rO radd rmul B fuel) A Bm C.
  Proof.
    induction fuel as [|f IH]; intros A Bm C Hf s P; [lia|].
    pose proof (pr_fits _ _ _ _ P) as (F1 & F2 & F3).
    cbn [recursive_multiply_and_add].
    destruct (Nat.eqb_spec (ht C * wd C * wd A) 0) as [Hz|Hz].
    { exists s. split; auto. split; [split; auto|]. intros I J i k HI HJ Hi Hk.
      assert (H : wd A = 0) by (apply Nat.eq_mul_0 in Hz; destruct Hz as [Hz|Hz]; auto; apply Nat.eq_mul_0 in Hz; lia). unfold MatrixProofs.prodE. rewrite H. cbn. ring. }
    destruct (Nat.leb_spec 2 (ones (ht C) (wd C) (wd A))) as [Ho|Ho].
    { destruct (naive_spec R rO rI radd rmul rsub ropp Rth B A Bm C s P) as (s' & E1 & O1 & A1).
      exists s'. split; auto. split; auto. apply only_changes; auto. }
    destruct (approximative_spec R A s) as (qa & s1 & Ea & QA); [apply P|apply P|].
    pose proof (q_ext _ _ _ _ _ _ _ _ _ QA) as XA. pose proof (ext_le _ _ _ XA) as LA.
    destruct (approximative_spec R Bm s1) as (qb & s2 & Eb & QB); [apply (wf_le (length s)); auto; apply P|apply P|].
    pose proof (q_ext _ _ _ _ _ _ _ _ _ QB) as XB. pose proof (ext_le _ _ _ XB) as LB.
    destruct (approximative_spec R C s2) as (qc & s3 & Ec & QC); [apply (wf_le (length s)); [lia|apply P]|apply P|].
    rewrite Ea, Eb, Ec.
    pose proof (Inv_quads R rO B A Bm C s s1 s2 s3 qa qb qc _ _ _ _ _ _ _ _ _ _ _ _ P QA QB QC) as H0.
    set (Ms := [ul qa; ur qa; dl qa; dr qa; ul qb; ur qb; dl qb; dr qb; ul qc; ur qc; dl qc; dr qc]) in *.
    remember (fun a => E s3 (nth a Ms d0)) as w0 eqn:Ew0.
    rewrite <- F1 in QC. rewrite <- F2 in QC. rewrite <- F3 in QB.
    pose proof (q_dims _ _ _ _ _ _ _ _ _ QA) as (A1 & A2 & A3 & A4 & A5 & A6 & A7 & A8).
    pose proof (q_dims _ _ _ _ _ _ _ _ _ QB) as (B1 & B2 & B3 & B4 & B5 & B6 & B7 & B8).
    pose proof (q_dims _ _ _ _ _ _ _ _ _ QC) as (C1 & C2 & C3 & C4 & C5 & C6 & C7 & C8).
    assert (Dec : forall h w l, h = ht A / 2 \/ h = ht A - ht A / 2 -> w = wd Bm / 2 \/ w = wd Bm - wd Bm / 2 ->
                    l = wd A / 2 \/ l = wd A - wd A / 2 -> h + w + l < f).
    { intros h w l Hh Hw Hl. unfold ones in Ho. rewrite <- F1, <- F2 in *.
      pose proof (half_le (ht A)). pose proof (half_le (wd Bm)). pose proof (half_le (wd A)).
      pose proof (half_lt (ht A)). pose proof (half_lt (wd Bm)). pose proof (half_lt (wd A)).
      assert (ht A <> 0 /\ wd Bm <> 0 /\ wd A <> 0) by (destruct (ht A), (wd Bm), (wd A); cbn in Hz; lia).
      destruct (Nat.eqb_spec (ht A) 1), (Nat.eqb_spec (wd Bm) 1), (Nat.eqb_spec (wd A) 1); lia. }
    assert (St : forall st w a b c, Inv 8 s Ms st w -> a < 8 -> b < 8 -> 8 <= c -> c < 12 ->
        fits (nth a Ms d0) (nth b Ms d0) (nth c Ms d0) -> ht (nth c Ms d0) + wd (nth c Ms d0) + wd (nth a Ms d0) < f ->
        exists st' w', recursive_multiply_and_add R rO radd rmul B f (nth a Ms d0) (nth b Ms d0) (nth c Ms d0) st = Some st' /\
          Inv 8 s Ms st' w' /\ (forall m, w' m = if m =? c then padd (w c) (pmul (wd (nth a Ms d0)) (w a) (w b)) else w m)).
    { intros st w a b c Hi La Lb Tc Lc Hfit Hdec.
      apply (Inv_mul R rO radd rmul B); auto; try (unfold Ms; cbn; lia); try lia. }
    destruct (St _ _ 0 4 8 H0) as (t1 & w1 & X1 & H1 & W1); try lia; [unfold fits, Ms; cbn; lia|unfold Ms; cbn; rewrite C1, C2, A2; apply Dec; auto|].
    destruct (St _ _ 1 6 8 H1) as (t2 & w2 & X2 & H2 & W2); try lia; [unfold fits, Ms; cbn; lia|unfold Ms; cbn; rewrite C1, C2, A4; apply Dec; auto|].
    destruct (St _ _ 1 7 9 H2) as (t3 & w3 & X3 & H3 & W3); try lia; [unfold fits, Ms; cbn; lia|unfold Ms; cbn; rewrite C3, C4, A4; apply Dec; auto|].
    destruct (St _ _ 0 5 9 H3) as (t4 & w4 & X4 & H4 & W4); try lia; [unfold fits, Ms; cbn; lia|unfold Ms; cbn; rewrite C3, C4, A2; apply Dec; auto|].
    destruct (St _ _ 2 5 11 H4) as (t5 & w5 & X5 & H5 & W5); try lia; [unfold fits, Ms; cbn; lia|unfold Ms; cbn; rewrite C7, C8, A6; apply Dec; auto|].
    destruct (St _ _ 3 7 11 H5) as (t6 & w6 & X6 & H6 & W6); try lia; [unfold fits, Ms; cbn; lia|unfold Ms; cbn; rewrite C7, C8, A8; apply Dec; auto|].
    destruct (St _ _ 3 6 10 H6) as (t7 & w7 & X7 & H7 & W7); try lia; [unfold fits, Ms; cbn; lia|unfold Ms; cbn; rewrite C5, C6, A8; apply Dec; auto|].
    destruct (St _ _ 2 4 10 H7) as (t8 & w8 & X8 & H8 & W8); try lia; [unfold fits, Ms; cbn; lia|unfold Ms; cbn; rewrite C5, C6, A6; apply Dec; auto|].
    unfold Ms in X1, X2, X3, X4, X5, X6, X7, X8, W1, W2, W3, W4, W5, W6, W7, W8.
    cbn [nth] in X1, X2, X3, X4, X5, X6, X7, X8, W1, W2, W3, W4, W5, W6, W7, W8.
    rewrite X1, X2, X3, X4, X5, X6, X7, X8.
    rewrite ?A2, ?A4, ?A6, ?A8 in *.
    exists t8. split; [reflexivity|].
    apply (quads_result R rO rI radd rmul rsub ropp Rth B A Bm C s s1 s2 s3 qa qb qc
             (ht A / 2) (ht A - ht A / 2) (wd A / 2) (wd A - wd A / 2) (wd Bm / 2) (wd Bm - wd Bm / 2) Ms t8 w8 true); auto.
    - pose proof (half_le (ht A)). lia.
    - pose proof (half_le (wd A)). lia.
    - pose proof (half_le (wd Bm)). lia.
    - exists []. split; [reflexivity|]. intros M [].
    - intros. rewrite W8, W7, W6, W5, W4, W3, W2, W1. cbn [Nat.eqb]. rewrite ?W8, ?W7, ?W6, ?W5, ?W4, ?W3, ?W2, ?W1. cbn [Nat.eqb].
      rewrite Ew0. unfold Ms. cbn [nth]. unfold MatrixRec.padd. ring.
    - intros. rewrite W8, W7, W6, W5, W4, W3, W2, W1. cbn [Nat.eqb]. rewrite ?W8, ?W7, ?W6, ?W5, ?W4, ?W3, ?W2, ?W1. cbn [Nat.eqb].
      rewrite Ew0. unfold Ms. cbn [nth]. unfold MatrixRec.padd. ring.
    - intros. rewrite W8, W7, W6, W5, W4, W3, W2, W1. cbn [Nat.eqb]. rewrite ?W8, ?W7, ?W6, ?W5, ?W4, ?W3, ?W2, ?W1. cbn [Nat.eqb].
      rewrite Ew0. unfold Ms. cbn [nth]. unfold MatrixRec.padd. ring.
    - intros. rewrite W8, W7, W6, W5, W4, W3, W2, W1. cbn [Nat.eqb]. rewrite ?W8, ?W7, ?W6, ?W5, ?W4, ?W3, ?W2, ?W1. cbn [Nat.eqb].
      rewrite Ew0. unfold Ms. cbn [nth]. unfold MatrixRec.padd. ring.
  Qed.

  (** ** Loops that do several operations on each block *)

  Inductive ins := I3 (o : elop R) (c a b : nat) | I2 (o : elop R) (c a : nat).
  Definition run_ins (Ms : list bmat) (x : ins) (p : nat * nat) (s : store) : option store :=
    match x with
    | I3 o c a b => nt3 R rO B o (nth c Ms d0) (nth a Ms d0) (nth b Ms d0) p s
    | I2 o c a => nt2 R rO B o (nth c Ms d0) (nth a Ms d0) p s
    end.
  Fixpoint run_all (Ms : list bmat) (xs : list ins) (p : nat * nat) (s : store) : option store :=
    match xs with
    | [] => Some s
    | x :: xs' => do s' <- run_ins Ms x p s; run_all Ms xs' p s'
    end.
  Notation vals := (nat -> nat -> nat -> nat -> nat -> R).
  Definition eff (w : vals) (x : ins) : vals :=
    match x with
    | I3 o c a b => fun m => if m =? c then (fun I J i k => op3 R o (w a I J i k) (w b I J i k)) else w m
    | I2 o c a => fun m => if m =? c then (fun I J i k => op2 R o (w c I J i k) (w a I J i k)) else w m
    end.
  Definition ins_ok (t0 : nat) (S : nat -> Prop) (x : ins) : Prop :=
    match x with
    | I3 o c a b => S c /\ S a /\ S b /\ t0 <= c /\ op3 R o rO rO = rO
    | I2 o c a => S c /\ S a /\ t0 <= c /\ (forall v, op1 R o v = op2 R o rO v) /\ (forall v, op2 R o v rO = v)
    end.

  Section Fused.
    Variables (t0 h wi : nat) (t : bool) (Ms : list bmat) (S : nat -> Prop) (n : nat).
    Hypothesis Swf : forall a, S a -> a < length Ms /\ shape (nth a Ms d0) = (h, wi, t) /\
                                      wf n (nth a Ms d0) /\ inj (nth a Ms d0).
    Hypothesis Sdj : forall a b, S a -> S b -> t0 <= b -> a <> b -> disj (nth a Ms d0) (nth b Ms d0).

    Lemma sh_ht a : S a -> ht (nth a Ms d0) = h /\ wd (nth a Ms d0) = wi /\ tr (nth a Ms d0) = t.
    Proof. intros H. destruct (Swf a H) as (_ & Sh & _). unfold shape in Sh. inversion Sh; auto. Qed.

    Definition holds (p : nat * nat) (s : store) (w : vals) : Prop :=
      forall a i k, S a -> i < B -> k < B -> E s (nth a Ms d0) (fst p) (snd p) i k = w a (fst p) (snd p) i k.
    Definition tgt (p : nat * nat) (id : nat) : Prop := exists c, S c /\ t0 <= c /\ id = idn (nth c Ms d0) (fst p) (snd p).

    Lemma run_ins_cell x p s w : ins_ok t0 S x -> fst p < h -> snd p < wi -> length s = n -> holds p s w ->
      exists s', run_ins Ms x p s = Some s' /\ length s' = n /\ (forall id, ~ tgt p id -> blk s' id = blk s id) /\
        holds p s' (eff w x).
    Proof.
      intros Hx Hr Hc Ls Hw.
      assert (At : forall a, S a -> at_ (nth a Ms d0) (fst p) (snd p) = Some (idn (nth a Ms d0) (fst p) (snd p))).
      { intros a Ha. destruct (Swf a Ha) as (_ & _ & W & _). destruct (sh_ht a Ha) as (Sh & Sw & _).
        apply (at_idn n); auto; lia. }
      assert (Lt : forall a, S a -> idn (nth a Ms d0) (fst p) (snd p) < length s).
      { intros a Ha. destruct (Swf a Ha) as (_ & _ & W & _). destruct (sh_ht a Ha) as (Sh & Sw & _).
        rewrite Ls. apply W; lia. }
      assert (Ne : forall a c, S a -> S c -> t0 <= c -> a <> c -> idn (nth a Ms d0) (fst p) (snd p) <> idn (nth c Ms d0) (fst p) (snd p)).
      { intros a c Ha Hcc Tc N K. destruct (sh_ht a Ha) as (Sh & Sw & _). destruct (sh_ht c Hcc) as (Sh' & Sw' & _).
        apply (Sdj a c Ha Hcc Tc N (idn (nth c Ms d0) (fst p) (snd p))); [rewrite <- K|]; apply own_idn; lia. }
      destruct x as [o c a b|o c a]; cbn [ins_ok run_ins eff] in *.
      - destruct Hx as (Sc & Sa & Sb & Tc & H0). unfold nt3. rewrite (At c), (At a), (At b) by auto.
        eexists. split; [reflexivity|]. split; [rewrite block_op3_length; auto|]. split.
        + intros id Hid. apply block_op3_other. intros K. apply Hid. exists c. auto.
        + intros m i k Sm Hi Hk. destruct (sh_ht c Sc) as (_ & _ & Tr).
          assert (Ra : forall a, S a -> V R rO B s (idn (nth a Ms d0) (fst p) (snd p)) t i k = w a (fst p) (snd p) i k).
          { intros a' Sa'. rewrite <- Hw by auto. unfold MatrixBase.E. destruct (sh_ht a' Sa') as (_ & _ & ->). reflexivity. }
          assert (Fl : forall tt, V R rO B (block_op3 R rO B o (idn (nth c Ms d0) (fst p) (snd p)) false
             (idn (nth a Ms d0) (fst p) (snd p)) false (idn (nth b Ms d0) (fst p) (snd p)) false s)
             (idn (nth c Ms d0) (fst p) (snd p)) tt i k
             = op3 R o (V R rO B s (idn (nth a Ms d0) (fst p) (snd p)) tt i k) (V R rO B s (idn (nth b Ms d0) (fst p) (snd p)) tt i k)).
          { intros [|].
            - pose proof (block_op3_val R rO B o (idn (nth c Ms d0) (fst p) (snd p)) false
               (idn (nth a Ms d0) (fst p) (snd p)) false (idn (nth b Ms d0) (fst p) (snd p)) false s k i (Lt c Sc) Hk Hi H0) as K.
              unfold MatrixBase.V in *. change true with (negb false). rewrite !idx_neg. exact K.
            - apply block_op3_val; auto. }
          destruct (Nat.eqb_spec m c) as [Em|N].
          * subst m. unfold MatrixBase.E. rewrite Tr, Fl, !Ra by auto. reflexivity.
          * rewrite <- Hw by auto. apply E_frame. apply block_op3_other. apply Ne; auto.
      - destruct Hx as (Sc & Sa & Tc & H1 & H0). unfold nt2. rewrite (At c), (At a) by auto.
        eexists. split; [reflexivity|]. split; [rewrite block_op2_length; auto|]. split.
        + intros id Hid. apply block_op2_other. intros K. apply Hid. exists c. auto.
        + intros m i k Sm Hi Hk. destruct (sh_ht c Sc) as (_ & _ & Tr).
          assert (Ra : forall a, S a -> V R rO B s (idn (nth a Ms d0) (fst p) (snd p)) t i k = w a (fst p) (snd p) i k).
          { intros a' Sa'. rewrite <- Hw by auto. unfold MatrixBase.E. destruct (sh_ht a' Sa') as (_ & _ & ->). reflexivity. }
          assert (Fl : forall tt, V R rO B (block_op2 R rO B o (idn (nth c Ms d0) (fst p) (snd p)) false
             (idn (nth a Ms d0) (fst p) (snd p)) false s)
             (idn (nth c Ms d0) (fst p) (snd p)) tt i k
             = op2 R o (V R rO B s (idn (nth c Ms d0) (fst p) (snd p)) tt i k) (V R rO B s (idn (nth a Ms d0) (fst p) (snd p)) tt i k)).
          { intros [|].
            - pose proof (block_op2_val R rO B o (idn (nth c Ms d0) (fst p) (snd p)) false
               (idn (nth a Ms d0) (fst p) (snd p)) false s k i (Lt c Sc) Hk Hi H1 (H0 _)) as K.
              unfold MatrixBase.V in *. change true with (negb false). rewrite !idx_neg. exact K.
            - apply block_op2_val; auto. }
          destruct (Nat.eqb_spec m c) as [Em|N].
          * subst m. unfold MatrixBase.E. rewrite Tr, Fl, !Ra by auto. reflexivity.
          * rewrite <- Hw by auto. apply E_frame. apply block_op2_other. apply Ne; auto.
    Qed.

    Lemma run_all_cell xs p : Forall (ins_ok t0 S) xs -> fst p < h -> snd p < wi -> forall s w, length s = n -> holds p s w ->
      exists s', run_all Ms xs p s = Some s' /\ length s' = n /\ (forall id, ~ tgt p id -> blk s' id = blk s id) /\
        holds p s' (fold_left eff xs w).
    Proof.
      intros Hx Hr Hc. induction Hx as [|x xs Hx Hxs IH]; intros s w Ls Hw; cbn [run_all fold_left].
      - exists s. auto.
      - destruct (run_ins_cell x p s w) as (s1 & E1 & L1 & F1 & H1); auto. rewrite E1.
        destruct (IH s1 (eff w x)) as (s2 & E2 & L2 & F2 & H2); auto.
        exists s2. repeat split; auto. intros id Hid. rewrite F2, F1; auto.
    Qed.
  End Fused.

  Lemma for_each_ext (P : Type) (f g : P -> store -> option store) ps s :
    (forall p s, f p s = g p s) -> for_each R ps f s = for_each R ps g s.
  Proof. intros H. revert s. induction ps as [|p ps IH]; intros s; cbn; auto. rewrite H. destruct (g p s); auto. Qed.

  Lemma Inv_fused t0 s0 Ms s w h wi t (Sl : list nat) xs :
    Inv t0 s0 Ms s w -> (forall a, In a Sl -> a < length Ms /\ shape (nth a Ms d0) = (h, wi, t)) ->
    Forall (ins_ok t0 (fun a => In a Sl)) xs ->
    exists s', for_each R (cells h wi) (run_all Ms xs) s = Some s' /\ Inv t0 s0 Ms s' (fold_left eff xs w) /\
      length s' = length s.
  Proof.
    intros H HS Hx.
    assert (Swf : forall a, In a Sl -> a < length Ms /\ shape (nth a Ms d0) = (h, wi, t) /\
                                      wf (length s) (nth a Ms d0) /\ inj (nth a Ms d0)).
    { intros a Ha. destruct (HS a Ha). split; auto. split; auto. apply (i_wf _ _ _ _ _ _ _ _ H); auto. }
    assert (Sdj : forall a b, In a Sl -> In b Sl -> t0 <= b -> a <> b -> disj (nth a Ms d0) (nth b Ms d0)).
    { intros a b Ha Hb. apply (i_dj _ _ _ _ _ _ _ _ H); apply HS; auto. }
    assert (Sh : forall a, In a Sl -> ht (nth a Ms d0) = h /\ wd (nth a Ms d0) = wi).
    { intros a Ha. destruct (HS a Ha) as [_ K]. unfold shape in K. inversion K; auto. }
    destruct (for_each_spec R (nat * nat) (run_all Ms xs) (tgt t0 Ms (fun a => In a Sl))
      (fun p id => exists a, In a Sl /\ id = idn (nth a Ms d0) (fst p) (snd p))
      (fun p s s' => holds Ms (fun a => In a Sl) p s w -> forall a i k, In a Sl -> t0 <= a -> i < B -> k < B ->
         E s' (nth a Ms d0) (fst p) (snd p) i k = fold_left eff xs w a (fst p) (snd p) i k)
      (length s) (cells h wi)) with (s := s) as (s' & E1 & L1 & F1 & Q1); auto.
    - apply cells_NoDup.
    - intros p st Hp Lst. apply cells_In in Hp.
      assert (TT : exists s1, run_all Ms xs p st = Some s1).
      { destruct (run_all_cell t0 h wi t Ms (fun a => In a Sl) (length s) Swf Sdj xs p Hx) with (s := st)
          (w := fun a I J i k => E st (nth a Ms d0) I J i k) as (s1 & K & _); try tauto.
        intros a i k _ _ _. reflexivity. eauto. }
      destruct TT as (s1 & E1). exists s1. split; auto.
      assert (Z : holds Ms (fun a => In a Sl) p st (fun a I J i k => E st (nth a Ms d0) I J i k)) by (intros a i k _ _ _; reflexivity).
      destruct (run_all_cell t0 h wi t Ms (fun a => In a Sl) (length s) Swf Sdj xs p Hx) with (s := st)
          (w := fun a I J i k => E st (nth a Ms d0) I J i k) as (s1' & K1 & K2 & K3 & _); try tauto.
      rewrite E1 in K1. inversion K1; subst s1'. split; auto. split; auto.
      intros Hw. destruct (run_all_cell t0 h wi t Ms (fun a => In a Sl) (length s) Swf Sdj xs p Hx) with (s := st)
          (w := w) as (s2 & J1 & _ & _ & J4); try tauto.
      rewrite E1 in J1. inversion J1; subst s2. intros a i k Sa _. apply J4. auto.
    - intros p s1 s2 s1' s2' Hp HF HT HQ Hw a i k Sa Ta Hi Hk. apply cells_In in Hp.
      assert (Hw1 : holds Ms (fun a => In a Sl) p s1 w).
      { intros b i' k' Sb Hi' Hk'. rewrite <- Hw by auto. apply E_frame. apply HF. exists b; auto. }
      rewrite <- (HQ Hw1 a i k Sa Ta Hi Hk). apply E_frame. symmetry. apply HT. exists a. auto.
    - intros p q id Hp Hq Hpq (c & Sc & Tc & ->). apply cells_In in Hp, Hq.
      assert (G : forall a, In a Sl -> idn (nth c Ms d0) (fst p) (snd p) <> idn (nth a Ms d0) (fst q) (snd q)).
      { intros a Sa K. destruct (Sh a Sa), (Sh c Sc). destruct (Nat.eq_dec a c) as [Eac|N].
        - subst a. destruct (Swf c Sc) as (_ & _ & _ & J). apply J in K; try lia.
          apply Hpq. destruct p, q; cbn in *. destruct K; subst; auto.
        - apply (Sdj a c Sa Sc Tc N (idn (nth c Ms d0) (fst p) (snd p))); [rewrite K|]; apply own_idn; lia. }
      split.
      + intros (a & Sa & K). apply (G a); auto.
      + intros (a & Sa & _ & K). apply (G a); auto.
    - exists s'. split; auto. split; [|exact L1].
      assert (Nt : forall xs w m, Forall (ins_ok t0 (fun a => In a Sl)) xs -> m < t0 \/ ~ In m Sl -> fold_left eff xs w m = w m).
      { clear. induction xs as [|x xs IH]; intros w m F Hm; cbn; auto. inversion F as [|? ? Hx Hxs]; subst.
        rewrite IH by auto. destruct x as [o c a b|o c a]; cbn in *; destruct (Nat.eqb_spec m c) as [Em|N]; auto;
          subst m; destruct Hm; [lia|tauto|lia|tauto]. }
      assert (Fr : forall a I J, a < length Ms -> I < ht (nth a Ms d0) -> J < wd (nth a Ms d0) -> a < t0 \/ ~ In a Sl ->
                  blk s' (idn (nth a Ms d0) I J) = blk s (idn (nth a Ms d0) I J)).
      { intros a I J La HI HJ Ha. apply F1. intros p Hp (c & Sc & Tc & K). apply cells_In in Hp.
        destruct (HS c Sc) as [Lc _]. destruct (Sh c Sc).
        assert (N : a <> c) by (intros ->; destruct Ha; [lia|tauto]).
        apply (i_dj _ _ _ _ _ _ _ _ H a c La Lc Tc N (idn (nth a Ms d0) I J)); [|rewrite K]; apply own_idn; lia. }
      constructor.
      + intros a Ha. rewrite L1. apply (i_wf _ _ _ _ _ _ _ _ H); auto.
      + apply (i_dj _ _ _ _ _ _ _ _ H).
      + intros a I J i k La HI HJ Hi Hk.
        destruct (Nat.lt_ge_cases a t0) as [Ta|Ta].
        * rewrite Nt by auto. rewrite <- (i_rep _ _ _ _ _ _ _ _ H a) by auto. apply E_frame. apply Fr; auto.
        * destruct (in_dec Nat.eq_dec a Sl) as [Sa|Sa].
          -- destruct (Sh a Sa). apply (Q1 (I, J)); auto.
             ++ apply cells_In. cbn. lia.
             ++ intros b i' k' Sb Hi' Hk'. destruct (Sh b Sb). apply (i_rep _ _ _ _ _ _ _ _ H); auto; cbn; try lia. apply HS; auto.
          -- rewrite Nt by auto. rewrite <- (i_rep _ _ _ _ _ _ _ _ H a) by auto. apply E_frame. apply Fr; auto.
      + rewrite L1. apply (i_len _ _ _ _ _ _ _ _ H).
      + intros id Hid Hn. rewrite F1.
        * apply (i_fr _ _ _ _ _ _ _ _ H); auto.
        * intros p Hp (c & Sc & Tc & K). apply cells_In in Hp. destruct (HS c Sc) as [Lc _]. destruct (Sh c Sc).
          apply (Hn c Lc Tc). rewrite K. apply own_idn; lia.
  Qed.
End Strassen.
