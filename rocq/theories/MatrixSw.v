(** The three Strassen-Winograd products compute the product (MatrixModel.v). *)
From Coq Require Import List Arith Bool PeanoNat Lia Ring FinFun.
From Verif Require Import MatrixModel MatrixBase MatrixProofs MatrixRec MatrixStrassen.
Import ListNotations.

Section Sw.
  Variable R : Type.
  Variables (rO rI : R) (radd rmul rsub : R -> R -> R) (ropp : R -> R).
  Variable Rth : ring_theory rO rI radd rmul rsub ropp eq.
  Variable B : nat.

  Add Ring Rring5 : Rth.

  Notation store := (list (option (list R))).
  Notation blk := (blk R).
  Notation E := (E R rO B).
  Notation Sum := (Sum R rO radd).
  Notation prodE := (prodE R rO radd rmul B).
  Notation changes := (changes R).
  Notation adds := (adds R rO radd rmul B).
  Notation Inv := (Inv R rO B).
  Notation mul_add_ok := (mul_add_ok R rO radd rmul B).
  Notation padd := (padd R radd).
  Notation psub := (psub R rsub).
  Notation pzero := (pzero R rO).
  Notation pmul := (pmul R rO radd rmul B).
  Notation addition := (addition R radd).
  Notation subtraction := (subtraction R rsub ropp).

  Lemma Inv_alloc' t0 s0 Ms s w h wi t : Inv t0 s0 Ms s w -> t0 <= length Ms ->
    exists M s' w', alloc R h wi t s = Some (M, s') /\ Inv t0 s0 (Ms ++ [M]) s' w' /\
      (ht M = h /\ wd M = wi /\ tr M = t) /\ (forall m, w' m = if m =? length Ms then pzero else w m) /\
      length s <= length s' /\ (forall id, own M id -> length s <= id).
  Proof.
    intros H L. destruct (Inv_alloc R rO B t0 s0 Ms s w h wi t H L) as (M & s' & w' & E1 & H' & Sh & Hw & Hl & Ho).
    exists M, s', w'. split; auto. split; auto. unfold shape in Sh. inversion Sh. auto 6.
  Qed.

  Lemma rec_fuel_ok A Bm C : mul_add_ok (rec_multiply_and_add R rO radd rmul B) A Bm C.
  Proof.
    intros s P. apply (rec_ok R rO rI radd rmul rsub ropp Rth B (fuel_of A C)); [unfold fuel_of; lia|exact P].
  Qed.


  (** ** The fused additions *)

  Lemma Inv_add3 t0 s0 Ms s w a b c : Inv t0 s0 Ms s w -> t0 <= c ->
    a < length Ms -> b < length Ms -> c < length Ms -> a <> c -> b <> c ->
    ht (nth a Ms d0) = ht (nth c Ms d0) -> wd (nth a Ms d0) = wd (nth c Ms d0) ->
    ht (nth b Ms d0) = ht (nth c Ms d0) -> wd (nth b Ms d0) = wd (nth c Ms d0) ->
    exists s' w', element_op3 R rO B addition (nth c Ms d0) (nth a Ms d0) (nth b Ms d0) s = Some s' /\ Inv t0 s0 Ms s' w' /\
      (forall m, w' m = if m =? c then padd (w a) (w b) else w m) /\ length s' = length s.
  Proof. intros. apply (Inv_op3 R rO B addition); auto. cbn. ring. Qed.
  Lemma Inv_sub3 t0 s0 Ms s w a b c : Inv t0 s0 Ms s w -> t0 <= c ->
    a < length Ms -> b < length Ms -> c < length Ms -> a <> c -> b <> c ->
    ht (nth a Ms d0) = ht (nth c Ms d0) -> wd (nth a Ms d0) = wd (nth c Ms d0) ->
    ht (nth b Ms d0) = ht (nth c Ms d0) -> wd (nth b Ms d0) = wd (nth c Ms d0) ->
    exists s' w', element_op3 R rO B subtraction (nth c Ms d0) (nth a Ms d0) (nth b Ms d0) s = Some s' /\ Inv t0 s0 Ms s' w' /\
      (forall m, w' m = if m =? c then psub (w a) (w b) else w m) /\ length s' = length s.
  Proof. intros. apply (Inv_op3 R rO B subtraction); auto. cbn. ring. Qed.

  Notation run_all := (run_all R rO B).
  Notation eff := (eff R).

  Lemma fused t0 s0 Ms s w h wi t Sl xs body :
    Inv t0 s0 Ms s w -> (forall a, In a Sl -> a < length Ms /\ shape (nth a Ms d0) = (h, wi, t)) ->
    Forall (ins_ok R rO t0 (fun a => In a Sl)) xs -> (forall p s, body p s = run_all Ms xs p s) ->
    exists s', for_each R (cells h wi) body s = Some s' /\ Inv t0 s0 Ms s' (fold_left eff xs w) /\
      length s' = length s.
  Proof.
    intros H HS Hx Hb. rewrite (for_each_ext R _ body (run_all Ms xs)) by exact Hb.
    apply (Inv_fused R rO B t0 s0 Ms s w h wi t Sl xs); auto.
  Qed.

  Ltac stp := match goal with |- context [match ?e with Some _ => _ | None => _ end] => destruct e; auto end.
  Ltac insok := repeat apply Forall_cons; try apply Forall_nil; cbn [In ins_ok]; repeat apply conj; try tauto; try lia; intros; try (cbn; ring).

  Lemma Inv_pre_a s0 Ms s w h l t :
    Inv 8 s0 Ms s w -> (forall a, In a [0;1;2;3;12;13;14;15] -> a < length Ms /\ shape (nth a Ms d0) = (h, l, t)) ->
    exists s' v1 v2 v3 v4,
      preaddition_a R rO radd rsub ropp B (nth 0 Ms d0) (nth 1 Ms d0) (nth 2 Ms d0) (nth 3 Ms d0)
        (nth 12 Ms d0) (nth 13 Ms d0) (nth 14 Ms d0) (nth 15 Ms d0) s = Some s' /\ Inv 8 s0 Ms s' v4 /\ length s' = length s /\
      (forall m, v1 m = if m =? 14 then psub (w 0) (w 2) else w m) /\
      (forall m, v2 m = if m =? 12 then padd (v1 2) (v1 3) else v1 m) /\
      (forall m, v3 m = if m =? 13 then psub (v2 12) (v2 0) else v2 m) /\
      (forall m, v4 m = if m =? 15 then psub (v3 1) (v3 13) else v3 m).
  Proof.
    intros H HS. unfold preaddition_a.
    destruct (HS 0 ltac:(cbn; auto)) as [_ Sh]. unfold shape in Sh. inversion Sh as [[K1 K2 K3]]. rewrite K1, K2.
    set (xs := [I3 R subtraction 14 0 2; I3 R addition 12 2 3; I3 R subtraction 13 12 0; I3 R subtraction 15 1 13]).
    destruct (fused 8 s0 Ms s w h l t [0;1;2;3;12;13;14;15] xs
      (fun p s => do s <- nt3 R rO B subtraction (nth 14 Ms d0) (nth 0 Ms d0) (nth 2 Ms d0) p s;
                  do s <- nt3 R rO B addition (nth 12 Ms d0) (nth 2 Ms d0) (nth 3 Ms d0) p s;
                  do s <- nt3 R rO B subtraction (nth 13 Ms d0) (nth 12 Ms d0) (nth 0 Ms d0) p s;
                  nt3 R rO B subtraction (nth 15 Ms d0) (nth 1 Ms d0) (nth 13 Ms d0) p s)) as (s' & E1 & H' & Ls).
    - exact H.
    - rewrite <- K1, <- K2. subst. exact HS.
    - unfold xs. insok.
    - intros p st. unfold xs. cbn [MatrixStrassen.run_all run_ins]. repeat stp.
    - exists s', (eff w (I3 R subtraction 14 0 2)), (eff (eff w (I3 R subtraction 14 0 2)) (I3 R addition 12 2 3)),
        (fold_left eff [I3 R subtraction 14 0 2; I3 R addition 12 2 3; I3 R subtraction 13 12 0] w), (fold_left eff xs w).
      split; [exact E1|]. split; [exact H'|]. repeat split; intros; auto; reflexivity.
  Qed.
  Lemma Inv_pre_b s0 Ms s w h l t :
    Inv 8 s0 Ms s w -> (forall a, In a [4;5;6;7;16;17;18;19] -> a < length Ms /\ shape (nth a Ms d0) = (h, l, t)) ->
    exists s' v1 v2 v3 v4,
      preaddition_b R rO rsub ropp B (nth 4 Ms d0) (nth 5 Ms d0) (nth 6 Ms d0) (nth 7 Ms d0)
        (nth 16 Ms d0) (nth 17 Ms d0) (nth 18 Ms d0) (nth 19 Ms d0) s = Some s' /\ Inv 8 s0 Ms s' v4 /\ length s' = length s /\
      (forall m, v1 m = if m =? 18 then psub (w 7) (w 5) else w m) /\
      (forall m, v2 m = if m =? 16 then psub (v1 5) (v1 4) else v1 m) /\
      (forall m, v3 m = if m =? 17 then psub (v2 7) (v2 16) else v2 m) /\
      (forall m, v4 m = if m =? 19 then psub (v3 6) (v3 17) else v3 m).
  Proof.
    intros H HS. unfold preaddition_b.
    destruct (HS 4 ltac:(cbn; auto)) as [_ Sh]. unfold shape in Sh. inversion Sh as [[K1 K2 K3]]. rewrite K1, K2.
    set (xs := [I3 R subtraction 18 7 5; I3 R subtraction 16 5 4; I3 R subtraction 17 7 16; I3 R subtraction 19 6 17]).
    destruct (fused 8 s0 Ms s w h l t [4;5;6;7;16;17;18;19] xs
      (fun p s => do s <- nt3 R rO B subtraction (nth 18 Ms d0) (nth 7 Ms d0) (nth 5 Ms d0) p s;
                  do s <- nt3 R rO B subtraction (nth 16 Ms d0) (nth 5 Ms d0) (nth 4 Ms d0) p s;
                  do s <- nt3 R rO B subtraction (nth 17 Ms d0) (nth 7 Ms d0) (nth 16 Ms d0) p s;
                  nt3 R rO B subtraction (nth 19 Ms d0) (nth 6 Ms d0) (nth 17 Ms d0) p s)) as (s' & E1 & H' & Ls).
    - exact H.
    - rewrite <- K1, <- K2. subst. exact HS.
    - unfold xs. insok.
    - intros p st. unfold xs. cbn [MatrixStrassen.run_all run_ins]. repeat stp.
    - exists s', (eff w (I3 R subtraction 18 7 5)), (eff (eff w (I3 R subtraction 18 7 5)) (I3 R subtraction 16 5 4)),
        (fold_left eff [I3 R subtraction 18 7 5; I3 R subtraction 16 5 4; I3 R subtraction 17 7 16] w), (fold_left eff xs w).
      split; [exact E1|]. split; [exact H'|]. repeat split; intros; auto; reflexivity.
  Qed.

  Lemma Inv_twice s0 Ms s w h l t a c d :
    Inv 8 s0 Ms s w -> (forall b, In b [a; c; d] -> b < length Ms /\ shape (nth b Ms d0) = (h, l, t)) ->
    8 <= c -> 8 <= d ->
    exists s' v1 v2,
      twice_nontransposed R rO B addition (nth c Ms d0) (nth d Ms d0) (nth a Ms d0) s = Some s' /\ Inv 8 s0 Ms s' v2 /\
      length s' = length s /\
      (forall m, v1 m = if m =? c then padd (w c) (w a) else w m) /\
      (forall m, v2 m = if m =? d then padd (v1 d) (v1 a) else v1 m).
  Proof.
    intros H HS Tc Td. unfold twice_nontransposed.
    destruct (HS a ltac:(cbn; auto)) as [_ Sh]. unfold shape in Sh. inversion Sh as [[K1 K2 K3]]. rewrite K1, K2.
    set (xs := [I2 R addition c a; I2 R addition d a]).
    destruct (fused 8 s0 Ms s w h l t [a; c; d] xs
      (fun p s => do s <- nt2 R rO B addition (nth c Ms d0) (nth a Ms d0) p s;
                  nt2 R rO B addition (nth d Ms d0) (nth a Ms d0) p s)) as (s' & E1 & H' & Ls).
    - exact H.
    - rewrite <- K1, <- K2. subst. exact HS.
    - unfold xs. insok.
    - intros p st. unfold xs. cbn [MatrixStrassen.run_all run_ins]. repeat stp.
    - exists s', (eff w (I2 R addition c a)), (fold_left eff xs w).
      split; [exact E1|]. split; [exact H'|]. repeat split; intros; auto; reflexivity.
  Qed.

  (** p1 = 20, p3 = 21, p5 = 22 *)
  Lemma Inv_post s0 Ms s w h l t :
    Inv 8 s0 Ms s w -> (forall b, In b [8;9;10;11;20;21;22] -> b < length Ms /\ shape (nth b Ms d0) = (h, l, t)) ->
    exists s' v1 v2 v3 v4 v5 v6 v7,
      postaddition R rO radd B (nth 8 Ms d0) (nth 9 Ms d0) (nth 10 Ms d0) (nth 11 Ms d0)
        (nth 20 Ms d0) (nth 21 Ms d0) (nth 22 Ms d0) s = Some s' /\ Inv 8 s0 Ms s' v7 /\ length s' = length s /\
      (forall m, v1 m = if m =? 8 then padd (w 8) (w 20) else w m) /\
      (forall m, v2 m = if m =? 20 then padd (v1 20) (v1 11) else v1 m) /\
      (forall m, v3 m = if m =? 22 then padd (v2 22) (v2 20) else v2 m) /\
      (forall m, v4 m = if m =? 10 then padd (v3 10) (v3 22) else v3 m) /\
      (forall m, v5 m = if m =? 11 then padd (v4 22) (v4 21) else v4 m) /\
      (forall m, v6 m = if m =? 20 then padd (v5 20) (v5 21) else v5 m) /\
      (forall m, v7 m = if m =? 9 then padd (v6 9) (v6 20) else v6 m).
  Proof.
    intros H HS. unfold postaddition.
    destruct (HS 8 ltac:(cbn; auto)) as [_ Sh]. unfold shape in Sh. inversion Sh as [[K1 K2 K3]]. rewrite K1, K2.
    set (xs := [I2 R addition 8 20; I2 R addition 20 11; I2 R addition 22 20; I2 R addition 10 22;
                I3 R addition 11 22 21; I2 R addition 20 21; I2 R addition 9 20]).
    destruct (fused 8 s0 Ms s w h l t [8;9;10;11;20;21;22] xs
      (fun p s => do s <- nt2 R rO B addition (nth 8 Ms d0) (nth 20 Ms d0) p s;
                  do s <- nt2 R rO B addition (nth 20 Ms d0) (nth 11 Ms d0) p s;
                  do s <- nt2 R rO B addition (nth 22 Ms d0) (nth 20 Ms d0) p s;
                  do s <- nt2 R rO B addition (nth 10 Ms d0) (nth 22 Ms d0) p s;
                  do s <- nt3 R rO B addition (nth 11 Ms d0) (nth 22 Ms d0) (nth 21 Ms d0) p s;
                  do s <- nt2 R rO B addition (nth 20 Ms d0) (nth 21 Ms d0) p s;
                  nt2 R rO B addition (nth 9 Ms d0) (nth 20 Ms d0) p s)) as (s' & E1 & H' & Ls).
    - exact H.
    - rewrite <- K1, <- K2. subst. exact HS.
    - unfold xs. insok.
    - intros p st. unfold xs. cbn [MatrixStrassen.run_all run_ins]. repeat stp.
    - exists s', (fold_left eff (firstn 1 xs) w), (fold_left eff (firstn 2 xs) w), (fold_left eff (firstn 3 xs) w),
        (fold_left eff (firstn 4 xs) w), (fold_left eff (firstn 5 xs) w), (fold_left eff (firstn 6 xs) w), (fold_left eff xs w).
      split; [exact E1|]. split; [exact H'|]. repeat split; intros; auto; reflexivity.
  Qed.

  Ltac side := cbn [nth length app]; unfold fits; cbn [nth]; lia.
  Ltac falloc H M s' w' D W L O :=
    let Es := fresh "Es" in let H' := fresh "H" in
    match goal with |- context [alloc R ?h ?wi ?t ?s] =>
      destruct (Inv_alloc' _ _ _ _ _ h wi t H) as (M & s' & w' & Es & H' & D & W & L & O); [cbn; lia|];
      rewrite Es; clear Es H; rename H' into H; cbn [app length] in H, W
    end.
  Ltac fmul OK H a b c s' w' W :=
    let Es := fresh "Es" in let H' := fresh "H" in let K := fresh "K" in
    match type of H with MatrixRec.Inv _ _ _ _ _ ?Ms _ _ =>
      pose proof (OK (nth a Ms d0) (nth b Ms d0) (nth c Ms d0)) as K end;
    destruct (Inv_mul R rO radd rmul B _ _ _ _ _ _ a b c H (K ltac:(cbn [nth]; lia))) as (s' & w' & Es & H' & W);
      [side ..|cbn [nth] in Es, W; rewrite Es; clear Es H K; rename H' into H].
  Ltac fadd H a c s' w' W :=
    let Es := fresh "Es" in let H' := fresh "H" in
    destruct (Inv_add R rO rI radd rmul rsub ropp Rth B _ _ _ _ _ a c H) as (s' & w' & Es & H' & W);
      [side ..|cbn [nth] in Es, W; rewrite Es; clear Es H; rename H' into H].
  Ltac fadd3 H a b c s' w' W L :=
    let Es := fresh "Es" in let H' := fresh "H" in
    destruct (Inv_add3 _ _ _ _ _ a b c H) as (s' & w' & Es & H' & W & L);
      [side ..|cbn [nth] in Es; rewrite Es; clear Es H; rename H' into H].
  Ltac fsub3 H a b c s' w' W L :=
    let Es := fresh "Es" in let H' := fresh "H" in
    destruct (Inv_sub3 _ _ _ _ _ a b c H) as (s' & w' & Es & H' & W & L);
      [side ..|cbn [nth] in Es; rewrite Es; clear Es H; rename H' into H].
  Ltac fzero H c w' W :=
    let H' := fresh "H" in
    destruct (Inv_zero R rO B _ _ _ _ _ c H) as (w' & H' & W);
      [side ..|cbn [nth] in H'; clear H; rename H' into H].

  Ltac ev W := rewrite ?W; cbn [Nat.eqb].
  Lemma padd_at f g I J i k : padd f g I J i k = radd (f I J i k) (g I J i k).
  Proof. reflexivity. Qed.
  Lemma psub_at f g I J i k : psub f g I J i k = rsub (f I J i k) (g I J i k).
  Proof. reflexivity. Qed.
  Lemma pzero_at I J i k : pzero I J i k = rO.
  Proof. reflexivity. Qed.
  Lemma quad_tr s s' M h1 h2 w1 w2 q : quad_ok R s s' M h1 h2 w1 w2 q ->
    tr (ul q) = tr M /\ tr (ur q) = tr M /\ tr (dl q) = tr M /\ tr (dr q) = tr M.
  Proof.
    intros Q. pose proof (q_ul _ _ _ _ _ _ _ _ _ Q) as (_ & _ & K1 & _). pose proof (q_ur _ _ _ _ _ _ _ _ _ Q) as (_ & _ & K2 & _).
    pose proof (q_dl _ _ _ _ _ _ _ _ _ Q) as (_ & _ & K3 & _). pose proof (q_dr _ _ _ _ _ _ _ _ _ Q) as (_ & _ & K4 & _). auto.
  Qed.
  Lemma dc_ge n : n <= div_ceil2 n + div_ceil2 n.
  Proof. pose proof (div_ceil2_ge n). lia. Qed.

  (** the quarters of the three matrices and what is known of them *)
  Ltac prep A Bm C s P f :=
    pose proof (pr_fits _ _ _ _ P) as (F1 & F2 & F3);
    destruct (padding_spec R A s) as (qa & s1 & Ea & QA); [apply P|apply P|];
    pose proof (q_ext _ _ _ _ _ _ _ _ _ QA) as XA; pose proof (ext_le _ _ _ XA) as LA;
    destruct (padding_spec R Bm s1) as (qb & s2 & Ebb & QB); [apply (wf_le (length s)); auto; apply P|apply P|];
    pose proof (q_ext _ _ _ _ _ _ _ _ _ QB) as XB; pose proof (ext_le _ _ _ XB) as LB;
    destruct (padding_spec R C s2) as (qc & s3 & Ec & QC); [apply (wf_le (length s)); [lia|apply P]|apply P|];
    rewrite Ea, Ebb, Ec; clear Ea Ebb Ec;
    pose proof (Inv_quads R rO B A Bm C s s1 s2 s3 qa qb qc _ _ _ _ _ _ _ _ _ _ _ _ P QA QB QC) as H;
    match type of H with MatrixRec.Inv _ _ _ _ _ _ _ ?w => remember w as w0 eqn:Ew0 end;
    rewrite <- F1, <- F2 in QC; rewrite <- F3 in QB;
    pose proof (q_dims _ _ _ _ _ _ _ _ _ QA) as (A1 & A2 & A3 & A4 & A5 & A6 & A7 & A8);
    pose proof (q_dims _ _ _ _ _ _ _ _ _ QB) as (B1 & B2 & B3 & B4 & B5 & B6 & B7 & B8);
    pose proof (q_dims _ _ _ _ _ _ _ _ _ QC) as (C1 & C2 & C3 & C4 & C5 & C6 & C7 & C8);
    pose proof (quad_tr _ _ _ _ _ _ _ _ QA) as (TA1 & TA2 & TA3 & TA4);
    pose proof (quad_tr _ _ _ _ _ _ _ _ QB) as (TB1 & TB2 & TB3 & TB4);
    pose proof (quad_tr _ _ _ _ _ _ _ _ QC) as (TC1 & TC2 & TC3 & TC4);
    assert (Dec : div_ceil2 (ht A) + div_ceil2 (wd Bm) + div_ceil2 (wd A) < f)
      by (pose proof (div_ceil2_lt (ht A)); pose proof (div_ceil2_lt (wd Bm)); pose proof (div_ceil2_lt (wd A)); lia);
    rewrite ?A1, ?A2, ?B1, ?B2, ?C1, ?C2, ?TA1, ?TB1, ?TC1;
    set (h := div_ceil2 (ht A)) in *; set (l := div_ceil2 (wd A)) in *; set (w := div_ceil2 (wd Bm)) in *.
  Ltac dims := repeat match goal with K : _ /\ _ /\ _ |- _ => destruct K as (? & ? & ?) end.
  Ltac shp := let a := fresh "a" in let Ha := fresh "Ha" in
    intros a Ha; cbn [In] in Ha;
    repeat (destruct Ha as [<-|Ha]; [split; [cbn; lia|unfold shape; cbn [nth]; f_equal; [f_equal; lia|intuition congruence]]|]); destruct Ha.
  Ltac ftwice H a c d s' v1 v2 W1 W2 h l t :=
    let Es := fresh "Es" in let H' := fresh "H" in let G := fresh "G" in
    destruct (Inv_twice _ _ _ _ h l t a c d H) as (s' & v1 & v2 & Es & H' & G & W1 & W2);
      [shp|lia|lia|cbn [nth] in Es; rewrite Es; clear Es H G; rename H' into H].
  Ltac fin Ew0 l := rewrite Ew0; cbn [nth];
    repeat match goal with K : wd ?x = l |- context [MatrixRec.pmul _ _ _ _ _ (wd ?x)] => rewrite K end;
    repeat (rewrite ?padd_at, ?psub_at, ?pzero_at, ?(pmul_padd_l R rO rI radd rmul rsub ropp Rth), ?(pmul_padd_r R rO rI radd rmul rsub ropp Rth),
      ?(pmul_psub_l R rO rI radd rmul rsub ropp Rth), ?(pmul_psub_r R rO rI radd rmul rsub ropp Rth)); ring.

  Section Alg2.
    Variable f : nat.
    Notation sw := (strassen_winograd_multiply_and_add R rO radd rmul rsub ropp B).
    Hypothesis IH : forall A Bm C, ht C + wd C + wd A < f -> mul_add_ok (sw f) A Bm C.

    Lemma sw_step A Bm C : ht C + wd C + wd A < S f -> mul_add_ok (sw (S f)) A Bm C.
    Proof.
      intros Hf s P. cbn [strassen_winograd_multiply_and_add].
      destruct (sw_base A C) eqn:Eb; [apply rec_fuel_ok; auto|].
      unfold sw_base in Eb. rewrite !orb_false_iff, !Nat.leb_gt in Eb.
      prep A Bm C s P f.
      assert (OK : forall A' B' C', ht C' = h /\ wd C' = w /\ wd A' = l -> mul_add_ok (sw f) A' B' C').
      { intros A' B' C' (K1 & K2 & K3). apply IH. lia. }
      falloc H m1 x1 w1 D1 W1 L1 O1. falloc H m2 x2 w2 D2 W2 L2 O2. falloc H m3 x3 w3 D3 W3 L3 O3. falloc H m4 x4 w4 D4 W4 L4 O4.
      falloc H m5 x5 w5 D5 W5 L5 O5. falloc H m6 x6 w6 D6 W6 L6 O6. falloc H m7 x7 w7 D7 W7 L7 O7. falloc H m8 x8 w8 D8 W8 L8 O8.
      (* 12 = s1, 13 = s2, 14 = s3, 15 = s4, 16 = t1, 17 = t2, 18 = t3, 19 = t4 *)
      fsub3 H 0 2 14 x9 w9 W9 G9. fadd3 H 2 3 12 x10 w10 W10 G10. fsub3 H 12 0 13 x11 w11 W11 G11. fsub3 H 1 13 15 x12 w12 W12 G12.
      fsub3 H 7 5 18 x13 w13 W13 G13. fsub3 H 5 4 16 x14 w14 W14 G14. fsub3 H 7 16 17 x15 w15 W15 G15. fsub3 H 6 17 19 x16 w16 W16 G16.
      falloc H m9 x17 w17 D9 W17 L9 O9.
      fmul OK H 1 6 8 x18 w18 W18. fmul OK H 0 4 20 x19 w19 W19. fadd H 20 8 x20 w20 W20.
      fmul OK H 13 17 20 x21 w21 W21. fadd H 20 9 x22 w22 W22. fmul OK H 14 18 20 x23 w23 W23.
      fadd H 20 10 x24 w24 W24. fadd H 20 11 x25 w25 W25. fzero H 20 w26 W26.
      fmul OK H 3 19 10 x27 w27 W27. fmul OK H 12 16 20 x28 w28 W28. fadd H 20 11 x29 w29 W29. fadd H 20 9 x30 w30 W30.
      fmul OK H 15 7 9 x31 w31 W31.
      exists x31. split; [reflexivity|].
      dims.
      apply (quads_result R rO rI radd rmul rsub ropp Rth B A Bm C s s1 s2 s3 qa qb qc h h l l w w
        [ul qa; ur qa; dl qa; dr qa; ul qb; ur qb; dl qb; dr qb; ul qc; ur qc; dl qc; dr qc; m1; m2; m3; m4; m5; m6; m7; m8; m9] x31 w31 true); auto.
      - rewrite <- F1. apply dc_ge.
      - apply dc_ge.
      - rewrite <- F2. apply dc_ge.
      - exists [m1; m2; m3; m4; m5; m6; m7; m8; m9]. split; [reflexivity|].
        intros M HM id Hid. cbn [In] in HM.
        repeat (destruct HM as [<-|HM]; [first [apply O1 in Hid|apply O2 in Hid|apply O3 in Hid|apply O4 in Hid|apply O5 in Hid|apply O6 in Hid|apply O7 in Hid|apply O8 in Hid|apply O9 in Hid]; clear - Hid L1 L2 L3 L4 L5 L6 L7 L8 L9 G9 G10 G11 G12 G13 G14 G15 G16; lia|]). destruct HM.
      - intros. ev W31. ev W30. ev W29. ev W28. ev W27. ev W26. ev W25. ev W24. ev W23. ev W22. ev W21. ev W20. ev W19. ev W18. ev W17. ev W16. ev W15. ev W14. ev W13. ev W12. ev W11. ev W10. ev W9. ev W8. ev W7. ev W6. ev W5. ev W4. ev W3. ev W2. ev W1. fin Ew0 l.
      - intros. ev W31. ev W30. ev W29. ev W28. ev W27. ev W26. ev W25. ev W24. ev W23. ev W22. ev W21. ev W20. ev W19. ev W18. ev W17. ev W16. ev W15. ev W14. ev W13. ev W12. ev W11. ev W10. ev W9. ev W8. ev W7. ev W6. ev W5. ev W4. ev W3. ev W2. ev W1. fin Ew0 l.
      - intros. ev W31. ev W30. ev W29. ev W28. ev W27. ev W26. ev W25. ev W24. ev W23. ev W22. ev W21. ev W20. ev W19. ev W18. ev W17. ev W16. ev W15. ev W14. ev W13. ev W12. ev W11. ev W10. ev W9. ev W8. ev W7. ev W6. ev W5. ev W4. ev W3. ev W2. ev W1. fin Ew0 l.
      - intros. ev W31. ev W30. ev W29. ev W28. ev W27. ev W26. ev W25. ev W24. ev W23. ev W22. ev W21. ev W20. ev W19. ev W18. ev W17. ev W16. ev W15. ev W14. ev W13. ev W12. ev W11. ev W10. ev W9. ev W8. ev W7. ev W6. ev W5. ev W4. ev W3. ev W2. ev W1. fin Ew0 l.
    Qed.
  End Alg2.

  Lemma sw_ok fuel : forall A Bm C, ht C + wd C + wd A < fuel ->
    mul_add_ok (strassen_winograd_multiply_and_add R rO radd rmul rsub ropp B fuel) A Bm C.
  Proof. induction fuel as [|f IH]; intros A Bm C Hf; [lia|]. apply sw_step; auto. Qed.

  Section Alg5.
    Variable f : nat.
    Notation sw := (strassen_winograd_multiply_and_add_interleaved R rO radd rmul rsub ropp B).
    Hypothesis IH : forall A Bm C, ht C + wd C + wd A < f -> mul_add_ok (sw f) A Bm C.

    Lemma swi_step A Bm C : ht C + wd C + wd A < S f -> mul_add_ok (sw (S f)) A Bm C.
    Proof.
      intros Hf s P. cbn [strassen_winograd_multiply_and_add_interleaved].
      destruct (sw_base A C) eqn:Eb; [apply rec_fuel_ok; auto|].
      unfold sw_base in Eb. rewrite !orb_false_iff, !Nat.leb_gt in Eb.
      prep A Bm C s P f.
      assert (OK : forall A' B' C', ht C' = h /\ wd C' = w /\ wd A' = l -> mul_add_ok (sw f) A' B' C').
      { intros A' B' C' (K1 & K2 & K3). apply IH. lia. }
      falloc H m1 x1 w1 D1 W1 L1 O1. falloc H m2 x2 w2 D2 W2 L2 O2. falloc H m3 x3 w3 D3 W3 L3 O3. falloc H m4 x4 w4 D4 W4 L4 O4.
      falloc H m5 x5 w5 D5 W5 L5 O5. falloc H m6 x6 w6 D6 W6 L6 O6. falloc H m7 x7 w7 D7 W7 L7 O7. falloc H m8 x8 w8 D8 W8 L8 O8.
      destruct (Inv_pre_a _ _ _ _ h l (tr A) H) as (x9 & w9 & w10 & w11 & w12 & Es & H' & G9 & W9 & W10 & W11 & W12); [shp|].
      cbn [nth] in Es. rewrite Es. clear Es H. rename H' into H.
      destruct (Inv_pre_b _ _ _ _ l w (tr Bm) H) as (x10 & w13 & w14 & w15 & w16 & Es & H' & G10 & W13 & W14 & W15 & W16); [shp|].
      cbn [nth] in Es. rewrite Es. clear Es H. rename H' into H.
      falloc H m9 x17 w17 D9 W17 L9 O9.
      fmul OK H 1 6 8 x18 w18 W18. fmul OK H 0 4 20 x19 w19 W19. fadd H 20 8 x20 w20 W20.
      fmul OK H 13 17 20 x21 w21 W21. cbv zeta. fzero H 13 w22 W22. fzero H 17 w23 W23.
      fadd H 20 9 x24 w24 W24. fmul OK H 14 18 20 x25 w25 W25. fzero H 14 w26 W26. fzero H 18 w27 W27.
      ftwice H 20 10 11 x28 w28 w29 W28 W29 h w (tr C). fzero H 20 w30 W30.
      fmul OK H 3 19 10 x31 w31 W31. fzero H 19 w32 W32. fmul OK H 12 16 20 x33 w33 W33. fzero H 12 w34 W34. fzero H 16 w35 W35.
      ftwice H 20 11 9 x36 w36 w37 W36 W37 h w (tr C). fzero H 20 w38 W38.
      fmul OK H 15 7 9 xz w39 W39.
      exists xz. split; [reflexivity|].
      dims.
      apply (quads_result R rO rI radd rmul rsub ropp Rth B A Bm C s s1 s2 s3 qa qb qc h h l l w w
        [ul qa; ur qa; dl qa; dr qa; ul qb; ur qb; dl qb; dr qb; ul qc; ur qc; dl qc; dr qc; m1; m2; m3; m4; m5; m6; m7; m8; m9] xz w39 true); auto.
      - rewrite <- F1. apply dc_ge.
      - apply dc_ge.
      - rewrite <- F2. apply dc_ge.
      - exists [m1; m2; m3; m4; m5; m6; m7; m8; m9]. split; [reflexivity|].
        intros M HM id Hid. cbn [In] in HM.
        repeat (destruct HM as [<-|HM]; [first [apply O1 in Hid|apply O2 in Hid|apply O3 in Hid|apply O4 in Hid|apply O5 in Hid|apply O6 in Hid|apply O7 in Hid|apply O8 in Hid|apply O9 in Hid]; clear - Hid L1 L2 L3 L4 L5 L6 L7 L8 L9 G9 G10; lia|]). destruct HM.
      - intros. ev W39. ev W38. ev W37. ev W36. ev W35. ev W34. ev W33. ev W32. ev W31. ev W30. ev W29. ev W28. ev W27. ev W26. ev W25. ev W24. ev W23. ev W22. ev W21. ev W20. ev W19. ev W18. ev W17. ev W16. ev W15. ev W14. ev W13. ev W12. ev W11. ev W10. ev W9. ev W8. ev W7. ev W6. ev W5. ev W4. ev W3. ev W2. ev W1. fin Ew0 l.
      - intros. ev W39. ev W38. ev W37. ev W36. ev W35. ev W34. ev W33. ev W32. ev W31. ev W30. ev W29. ev W28. ev W27. ev W26. ev W25. ev W24. ev W23. ev W22. ev W21. ev W20. ev W19. ev W18. ev W17. ev W16. ev W15. ev W14. ev W13. ev W12. ev W11. ev W10. ev W9. ev W8. ev W7. ev W6. ev W5. ev W4. ev W3. ev W2. ev W1. fin Ew0 l.
      - intros. ev W39. ev W38. ev W37. ev W36. ev W35. ev W34. ev W33. ev W32. ev W31. ev W30. ev W29. ev W28. ev W27. ev W26. ev W25. ev W24. ev W23. ev W22. ev W21. ev W20. ev W19. ev W18. ev W17. ev W16. ev W15. ev W14. ev W13. ev W12. ev W11. ev W10. ev W9. ev W8. ev W7. ev W6. ev W5. ev W4. ev W3. ev W2. ev W1. fin Ew0 l.
      - intros. ev W39. ev W38. ev W37. ev W36. ev W35. ev W34. ev W33. ev W32. ev W31. ev W30. ev W29. ev W28. ev W27. ev W26. ev W25. ev W24. ev W23. ev W22. ev W21. ev W20. ev W19. ev W18. ev W17. ev W16. ev W15. ev W14. ev W13. ev W12. ev W11. ev W10. ev W9. ev W8. ev W7. ev W6. ev W5. ev W4. ev W3. ev W2. ev W1. fin Ew0 l.
    Qed.
  End Alg5.

  Lemma swi_ok fuel : forall A Bm C, ht C + wd C + wd A < fuel ->
    mul_add_ok (strassen_winograd_multiply_and_add_interleaved R rO radd rmul rsub ropp B fuel) A Bm C.
  Proof. induction fuel as [|f IH]; intros A Bm C Hf; [lia|]. apply swi_step; auto. Qed.

  (** ** The algorithm that overwrites its result *)

  Definition mul_ok (f : bmat -> bmat -> bmat -> store -> option store) (A Bm C : bmat) : Prop :=
    forall s, pre (length s) A Bm C -> exists s', f A Bm C s = Some s' /\ changes s s' C /\
      forall I J i k, I < ht C -> J < wd C -> i < B -> k < B -> E s' C I J i k = prodE s A Bm I J i k.

  Lemma Inv_mulz f t0 s0 Ms s w a b c : Inv t0 s0 Ms s w ->
    mul_ok f (nth a Ms d0) (nth b Ms d0) (nth c Ms d0) -> t0 <= c ->
    a < length Ms -> b < length Ms -> c < length Ms -> a <> c -> b <> c ->
    fits (nth a Ms d0) (nth b Ms d0) (nth c Ms d0) ->
    exists s' w', f (nth a Ms d0) (nth b Ms d0) (nth c Ms d0) s = Some s' /\ Inv t0 s0 Ms s' w' /\
      (forall m, w' m = if m =? c then pmul (wd (nth a Ms d0)) (w a) (w b) else w m).
  Proof.
    intros H Hf Tc La Lb Lc Nac Nbc F. pose proof F as (F1 & F2 & F3).
    destruct (Hf s) as (s' & E1 & C1 & A1); [eapply Inv_pre; eauto|].
    eexists s', _. split; [exact E1|]. split.
    2:{ intros m. reflexivity. }
    apply (Inv_change R rO B t0 s0 Ms s w s' c); auto.
    intros I J i k HI HJ Hi Hk. rewrite A1 by auto. eapply prodE_val; eauto; lia.
  Qed.
  Ltac fmulz OK H a b c s' w' W :=
    let Es := fresh "Es" in let H' := fresh "H" in let K := fresh "K" in
    match type of H with MatrixRec.Inv _ _ _ _ _ ?Ms _ _ =>
      pose proof (OK (nth a Ms d0) (nth b Ms d0) (nth c Ms d0)) as K end;
    destruct (Inv_mulz _ _ _ _ _ _ a b c H (K ltac:(cbn [nth]; lia))) as (s' & w' & Es & H' & W);
      [side ..|cbn [nth] in Es, W; rewrite Es; clear Es H K; rename H' into H].

  Lemma rec_zero_ok A Bm C : mul_ok (fun A Bm C s => rec_multiply_and_add R rO radd rmul B A Bm C (set_zero R C s)) A Bm C.
  Proof.
    intros s P. destruct (set_zero_spec R C s) as [O Z]; [apply P|].
    destruct (rec_fuel_ok A Bm C (set_zero R C s)) as (s' & E1 & C1 & A1); [rewrite (proj1 O); exact P|].
    exists s'. split; [exact E1|]. destruct O as [Lo Fo]. destruct C1 as [L1 F1]. split.
    - split; [lia|]. intros id Hid Hn. rewrite F1 by (auto; lia). auto.
    - intros I J i k HI HJ Hi Hk. rewrite A1 by auto.
      rewrite (zero_E R rO B) by (apply Z; apply own_idn; auto).
      assert (Pe : prodE (set_zero R C s) A Bm I J i k = prodE s A Bm I J i k).
      { destruct (pr_fits _ _ _ _ P) as (K1 & K2 & K3). unfold MatrixProofs.prodE. apply Sum_ext. intros K HK. apply Sum_ext. intros x Hx.
        f_equal; apply E_frame; apply Fo; intros Ho.
        - apply (pr_AC _ _ _ _ P _ (own_idn A I K ltac:(lia) HK) Ho).
        - apply (pr_BC _ _ _ _ P _ (own_idn Bm K J ltac:(lia) ltac:(lia)) Ho). }
      rewrite Pe. ring.
  Qed.

  Section Alg4.
    Variable f : nat.
    Notation sw := (strassen_winograd_multiply R rO radd rmul rsub ropp B).
    Hypothesis IH : forall A Bm C, ht C + wd C + wd A < f -> mul_ok (sw f) A Bm C.

    Lemma swm_step A Bm C : ht C + wd C + wd A < S f -> mul_ok (sw (S f)) A Bm C.
    Proof.
      intros Hf s P. cbn [strassen_winograd_multiply].
      destruct (sw_base A C) eqn:Eb; [apply (rec_zero_ok A Bm C s P)|].
      unfold sw_base in Eb. rewrite !orb_false_iff, !Nat.leb_gt in Eb.
      prep A Bm C s P f.
      assert (OK : forall A' B' C', ht C' = h /\ wd C' = w /\ wd A' = l -> mul_ok (sw f) A' B' C').
      { intros A' B' C' (K1 & K2 & K3). apply IH. lia. }
      falloc H m1 x1 w1 D1 W1 L1 O1. falloc H m2 x2 w2 D2 W2 L2 O2. falloc H m3 x3 w3 D3 W3 L3 O3. falloc H m4 x4 w4 D4 W4 L4 O4.
      falloc H m5 x5 w5 D5 W5 L5 O5. falloc H m6 x6 w6 D6 W6 L6 O6. falloc H m7 x7 w7 D7 W7 L7 O7. falloc H m8 x8 w8 D8 W8 L8 O8.
      destruct (Inv_pre_a _ _ _ _ h l (tr A) H) as (x9 & w9 & w10 & w11 & w12 & Es & H' & G9 & W9 & W10 & W11 & W12); [shp|].
      cbn [nth] in Es. rewrite Es. clear Es H. rename H' into H.
      destruct (Inv_pre_b _ _ _ _ l w (tr Bm) H) as (x10 & w13 & w14 & w15 & w16 & Es & H' & G10 & W13 & W14 & W15 & W16); [shp|].
      cbn [nth] in Es. rewrite Es. clear Es H. rename H' into H.
      falloc H m9 x17 w17 D9 W17 L9 O9. falloc H m10 x18 w18 D10 W18 L10 O10. falloc H m11 x19 w19 D11 W19 L11 O11.
      fmulz OK H 0 4 20 x20 w20 W20. fmulz OK H 1 6 8 x21 w21 W21. fmulz OK H 12 16 21 x22 w22 W22. fmulz OK H 13 17 11 x23 w23 W23.
      fmulz OK H 14 18 22 x24 w24 W24. fmulz OK H 15 7 9 x25 w25 W25. fmulz OK H 3 19 10 x26 w26 W26.
      destruct (Inv_post _ _ _ _ h w (tr C) H) as (xz & w27 & w28 & w29 & w30 & w31 & w32 & w33 & Es & H' & G11 & W27 & W28 & W29 & W30 & W31 & W32 & W33); [shp|].
      cbn [nth] in Es. rewrite Es. clear Es H. rename H' into H.
      exists xz. split; [reflexivity|].
      dims.
      apply (quads_result R rO rI radd rmul rsub ropp Rth B A Bm C s s1 s2 s3 qa qb qc h h l l w w
        [ul qa; ur qa; dl qa; dr qa; ul qb; ur qb; dl qb; dr qb; ul qc; ur qc; dl qc; dr qc; m1; m2; m3; m4; m5; m6; m7; m8; m9; m10; m11] xz w33 false); auto.
      - rewrite <- F1. apply dc_ge.
      - apply dc_ge.
      - rewrite <- F2. apply dc_ge.
      - exists [m1; m2; m3; m4; m5; m6; m7; m8; m9; m10; m11]. split; [reflexivity|].
        intros M HM id Hid. cbn [In] in HM.
        repeat (destruct HM as [<-|HM]; [first [apply O1 in Hid|apply O2 in Hid|apply O3 in Hid|apply O4 in Hid|apply O5 in Hid|apply O6 in Hid|apply O7 in Hid|apply O8 in Hid|apply O9 in Hid|apply O10 in Hid|apply O11 in Hid]; clear - Hid L1 L2 L3 L4 L5 L6 L7 L8 L9 L10 L11 G9 G10; lia|]). destruct HM.
      - intros. ev W33. ev W32. ev W31. ev W30. ev W29. ev W28. ev W27. ev W26. ev W25. ev W24. ev W23. ev W22. ev W21. ev W20. ev W19. ev W18. ev W17. ev W16. ev W15. ev W14. ev W13. ev W12. ev W11. ev W10. ev W9. ev W8. ev W7. ev W6. ev W5. ev W4. ev W3. ev W2. ev W1. fin Ew0 l.
      - intros. ev W33. ev W32. ev W31. ev W30. ev W29. ev W28. ev W27. ev W26. ev W25. ev W24. ev W23. ev W22. ev W21. ev W20. ev W19. ev W18. ev W17. ev W16. ev W15. ev W14. ev W13. ev W12. ev W11. ev W10. ev W9. ev W8. ev W7. ev W6. ev W5. ev W4. ev W3. ev W2. ev W1. fin Ew0 l.
      - intros. ev W33. ev W32. ev W31. ev W30. ev W29. ev W28. ev W27. ev W26. ev W25. ev W24. ev W23. ev W22. ev W21. ev W20. ev W19. ev W18. ev W17. ev W16. ev W15. ev W14. ev W13. ev W12. ev W11. ev W10. ev W9. ev W8. ev W7. ev W6. ev W5. ev W4. ev W3. ev W2. ev W1. fin Ew0 l.
      - intros. ev W33. ev W32. ev W31. ev W30. ev W29. ev W28. ev W27. ev W26. ev W25. ev W24. ev W23. ev W22. ev W21. ev W20. ev W19. ev W18. ev W17. ev W16. ev W15. ev W14. ev W13. ev W12. ev W11. ev W10. ev W9. ev W8. ev W7. ev W6. ev W5. ev W4. ev W3. ev W2. ev W1. fin Ew0 l.
    Qed.
  End Alg4.

  Lemma swm_ok fuel : forall A Bm C, ht C + wd C + wd A < fuel ->
    mul_ok (strassen_winograd_multiply R rO radd rmul rsub ropp B fuel) A Bm C.
  Proof. induction fuel as [|f IH]; intros A Bm C Hf; [lia|]. apply swm_step; auto. Qed.
End Sw.
