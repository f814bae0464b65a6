(** Products of matrices with vectors, and matrices built from vectors (MatrixModel.v). *)
From Coq Require Import List Arith Bool PeanoNat Lia Ring FinFun.
From Verif Require Import MatrixModel MatrixBase MatrixProofs MatrixRec MatrixStrassen.
Import ListNotations.

Section Vec.
  Variable R : Type.
  Variables (rO rI : R) (radd rmul rsub : R -> R -> R) (ropp : R -> R).
  Variable Rth : ring_theory rO rI radd rmul rsub ropp eq.
  Variable B : nat.

  Add Ring Rring6 : Rth.

  Notation store := (list (option (list R))).
  Notation blk := (blk R).
  Notation V := (V R rO B).
  Notation E := (E R rO B).
  Notation Sum := (Sum R rO radd).
  Notation get := (get R rO).
  Notation set_vec := (set_vec R).

  Lemma set_vec_length z i f : length (set_vec z i f) = length z.
  Proof.
    unfold MatrixModel.set_vec. transitivity (length (firstn i z ++ skipn i z)); [|rewrite firstn_skipn; reflexivity].
    rewrite !app_length. destruct (skipn i z); reflexivity.
  Qed.
  Lemma get_set_vec z i f t : t < length z -> get (set_vec z i f) t = if t =? i then f (get z t) else get z t.
  Proof.
    unfold MatrixModel.set_vec, MatrixModel.get. revert i t. induction z as [|x z IH]; intros i t Ht; [cbn in Ht; lia|].
    destruct i as [|i], t as [|t]; cbn; auto. apply IH. cbn in Ht. lia.
  Qed.

  (** ** Sums over lists of positions *)

  Fixpoint Lsum (f : nat * nat -> R) (ps : list (nat * nat)) : R :=
    match ps with [] => rO | p :: ps' => radd (f p) (Lsum f ps') end.
  Lemma Lsum_app f ps qs : Lsum f (ps ++ qs) = radd (Lsum f ps) (Lsum f qs).
  Proof. induction ps as [|p ps IH]; cbn; [ring|rewrite IH; ring]. Qed.
  Lemma Lsum_ext f g ps : (forall p, In p ps -> f p = g p) -> Lsum f ps = Lsum g ps.
  Proof. induction ps as [|p ps IH]; cbn; intros H; auto. rewrite H, IH; auto. Qed.
  Lemma Lsum_seq (f : nat * nat -> R) x w : Lsum f (map (fun y => (x, y)) (seq 0 w)) = Sum w (fun J => f (x, J)).
  Proof. induction w; cbn -[seq]; auto. rewrite seq_S, map_app, Lsum_app, IHw. cbn. ring. Qed.
  Lemma Lsum_cells f h w : Lsum f (cells h w) = Sum h (fun I => Sum w (fun J => f (I, J))).
  Proof.
    unfold cells. induction h; cbn -[seq]; auto.
    rewrite seq_S. rewrite <- IHh. clear IHh.
    assert (G : forall l l' : list nat, list_prod (l ++ l') (seq 0 w) = list_prod l (seq 0 w) ++ list_prod l' (seq 0 w)).
    { induction l as [|a l IH]; intros; cbn -[seq]; auto. rewrite IH, app_assoc. reflexivity. }
    rewrite G, Lsum_app. cbn -[seq]. rewrite app_nil_r, Lsum_seq. reflexivity.
  Qed.
  Lemma Sum_swap n m (f : nat -> nat -> R) : Sum n (fun a => Sum m (fun b => f a b)) = Sum m (fun b => Sum n (fun a => f a b)).
  Proof.
    induction n; cbn.
    - symmetry. apply (Sum_zero R rO rI radd rmul rsub ropp Rth). auto.
    - rewrite IHn, (Sum_add R rO rI radd rmul rsub ropp Rth). apply Sum_ext. intros. reflexivity.
  Qed.
  Lemma Lsum_map g f ps : Lsum f (map g ps) = Lsum (fun p => f (g p)) ps.
  Proof. induction ps as [|p ps IH]; cbn; auto. rewrite IH. reflexivity. Qed.
  Lemma Lsum_block_cells t f rl cl : Lsum f (block_cells t rl cl) = Sum rl (fun r => Sum cl (fun c => f (r, c))).
  Proof.
    unfold block_cells. destruct t; [|apply Lsum_cells]. rewrite Lsum_map, Lsum_cells. cbn. apply Sum_swap.
  Qed.
  Lemma block_cells_In t rl cl p : In p (block_cells t rl cl) <-> fst p < rl /\ snd p < cl.
  Proof.
    unfold block_cells. destruct t; [|apply cells_In]. rewrite in_map_iff. split.
    - intros (q & <- & Hq). apply cells_In in Hq. cbn. tauto.
    - intros H. exists (snd p, fst p). destruct p; cbn in *. split; auto. apply cells_In. cbn. tauto.
  Qed.

  (** a loop that adds to elements of a vector *)
  Lemma acc_fold (pos : nat * nat -> nat) (g : nat * nat -> R) ps : forall z,
    let z' := fold_left (fun z p => set_vec z (pos p) (fun v => radd v (g p))) ps z in
    length z' = length z /\
    forall t, t < length z -> get z' t = radd (get z t) (Lsum (fun p => if t =? pos p then g p else rO) ps).
  Proof.
    induction ps as [|p ps IH]; intros z; cbn [fold_left Lsum].
    - cbv zeta. split; auto. intros. ring.
    - destruct (IH (set_vec z (pos p) (fun v => radd v (g p)))) as [L H]. rewrite set_vec_length in L, H. split; auto.
      intros t Ht. rewrite H by auto. rewrite get_set_vec by auto. destruct (t =? pos p); ring.
  Qed.
  Lemma Sum_pick n (f : nat -> R) x : Sum n (fun k => if x =? k then f k else rO) = if x <? n then f x else rO.
  Proof.
    induction n; cbn [MatrixBase.Sum]; auto. rewrite IHn. destruct (Nat.ltb_spec x n), (Nat.ltb_spec x (S n)), (Nat.eqb_spec x n); try lia; try subst; ring.
  Qed.
  Lemma get_over l i : length l <= i -> get l i = rO.
  Proof. intros. apply nth_overflow. auto. Qed.

  (** ** Matrix times column vector *)

  (** what block I, J of A adds to element t *)
  Definition ccol (s : store) (A : bmat) (x : list R) (ox oz t I J : nat) : R :=
    if ((oz + I) * B <=? t) && (t <? (oz + I) * B + B)
    then Sum B (fun c => rmul (get x ((ox + J) * B + c)) (E s A I J (t - (oz + I) * B) c)) else rO.

  Lemma block_col_val s a tt x z ox oz :
    length (block_col_vector R rO radd rmul B s a tt x z ox oz) = length z /\
    forall t, t < length z ->
    get (block_col_vector R rO radd rmul B s a tt x z ox oz) t
    = radd (get z t) (if (oz <=? t) && (t <? oz + B) then Sum B (fun c => rmul (get x (ox + c)) (V s a tt (t - oz) c)) else rO).
  Proof.
    unfold block_col_vector, MatrixBase.V. destruct (blk s a) as [ia|].
    - destruct (acc_fold (fun p => oz + fst p) (fun p => rmul (get x (ox + snd p)) (get ia (idx B tt (fst p) (snd p))))
                  (block_cells tt (Nat.min B (length z - oz)) (Nat.min B (length x - ox))) z) as [L H].
      split; auto. intros t Ht. rewrite H by auto. clear H L. f_equal. rewrite Lsum_block_cells. cbn [fst snd oget].
      destruct ((oz <=? t) && (t <? oz + B)) eqn:Eb.
      + rewrite andb_true_iff, Nat.leb_le, Nat.ltb_lt in Eb.
        rewrite (Sum_ext R rO radd _ _ (fun r => if (t - oz) =? r then Sum (Nat.min B (length x - ox)) (fun c => rmul (get x (ox + c)) (get ia (idx B tt r c))) else rO)).
        * rewrite Sum_pick. destruct (Nat.ltb_spec (t - oz) (Nat.min B (length z - oz))); [|lia].
          symmetry. apply (Sum_more R rO rI radd rmul rsub ropp Rth); [lia|]. intros c H1 H2.
          rewrite get_over by lia. ring.
        * intros r Hr. destruct (Nat.eqb_spec t (oz + r)), (Nat.eqb_spec (t - oz) r); try lia; auto.
          apply (Sum_zero R rO rI radd rmul rsub ropp Rth). auto.
      + apply (Sum_zero R rO rI radd rmul rsub ropp Rth). intros r Hr. apply (Sum_zero R rO rI radd rmul rsub ropp Rth). intros c Hc.
        destruct (Nat.eqb_spec t (oz + r)); auto. rewrite andb_false_iff, Nat.leb_gt, Nat.ltb_ge in Eb. lia.
    - split; auto. intros t Ht. destruct ((oz <=? t) && (t <? oz + B)); [|ring].
      rewrite (Sum_zero R rO rI radd rmul rsub ropp Rth); [ring|]. intros. cbn. ring.
  Qed.

  Definition adds_vec (z z' : list R) (h w : nat) (c : nat -> nat -> nat -> R) : Prop :=
    length z' = length z /\
    forall t, t < length z -> get z' t = radd (get z t) (Sum h (fun I => Sum w (fun J => c t I J))).

  (** a loop over the blocks *)
  Lemma blocks_fold (s : store) (A : bmat) (blkf : nat -> nat -> nat -> list R -> list R) (c : nat -> nat -> nat -> R) z :
    wf (length s) A ->
    (forall I J z, I < ht A -> J < wd A ->
       length (blkf (idn A I J) I J z) = length z /\
       forall t, t < length z -> get (blkf (idn A I J) I J z) t = radd (get z t) (c t I J)) ->
    exists z', fold_left (fun oz p => do z <- oz; do a <- at_ A (fst p) (snd p); Some (blkf a (fst p) (snd p) z))
                 (cells (ht A) (wd A)) (Some z) = Some z' /\ adds_vec z z' (ht A) (wd A) c.
  Proof.
    intros W Hb.
    assert (G : forall ps z, (forall p, In p ps -> fst p < ht A /\ snd p < wd A) ->
      exists z', fold_left (fun oz p => do z <- oz; do a <- at_ A (fst p) (snd p); Some (blkf a (fst p) (snd p) z))
                   ps (Some z) = Some z' /\ length z' = length z /\
                 forall t, t < length z -> get z' t = radd (get z t) (Lsum (fun p => c t (fst p) (snd p)) ps)).
    { induction ps as [|p ps IH]; intros y Hp; cbn [fold_left Lsum].
      - exists y. split; auto. split; auto. intros. ring.
      - destruct (Hp p) as [H1 H2]; [cbn; auto|]. rewrite (at_idn (length s) A) by auto.
        destruct (Hb (fst p) (snd p) y H1 H2) as [L1 V1].
        destruct (IH (blkf (idn A (fst p) (snd p)) (fst p) (snd p) y)) as (z' & E1 & L2 & V2); [intros; apply Hp; cbn; auto|].
        exists z'. split; auto. split; [lia|]. intros t Ht. rewrite V2 by lia. rewrite V1 by lia. ring. }
    destruct (G (cells (ht A) (wd A)) z) as (z' & E1 & L & H); [intros p; apply cells_In|].
    exists z'. split; auto. split; auto. intros t Ht. rewrite H by auto. rewrite Lsum_cells. reflexivity.
  Qed.

  Lemma naive_col (s : store) A x z ox oz : wf (length s) A ->
    exists z', naive_col_vector R rO radd rmul B s A x z ox oz = Some z' /\
      adds_vec z z' (ht A) (wd A) (ccol s A x ox oz).
  Proof.
    intros W. unfold naive_col_vector.
    apply (blocks_fold s A (fun a I J z => block_col_vector R rO radd rmul B s a (tr A) x z ((ox + J) * B) ((oz + I) * B))); auto.
    intros I J y HI HJ. apply block_col_val.
  Qed.

  Lemma quad_sum H W h1 h2 w1 w2 (c : nat -> nat -> R) : h1 + h2 = H -> w1 + w2 = W ->
    Sum H (fun I => Sum W (fun J => c I J))
    = radd (radd (Sum h1 (fun I => Sum w1 (fun J => c I J))) (Sum h1 (fun I => Sum w2 (fun J => c I (w1 + J)))))
           (radd (Sum h2 (fun I => Sum w1 (fun J => c (h1 + I) J))) (Sum h2 (fun I => Sum w2 (fun J => c (h1 + I) (w1 + J))))).
  Proof.
    intros <- <-. rewrite (Sum_split R rO rI radd rmul rsub ropp Rth).
    rewrite !(Sum_add R rO rI radd rmul rsub ropp Rth). f_equal; apply Sum_ext; intros;
      rewrite (Sum_split R rO rI radd rmul rsub ropp Rth); reflexivity.
  Qed.

  Lemma rec_col fuel : forall s A x z ox oz, ht A + wd A < fuel -> wf (length s) A -> inj A ->
    exists z' s', recursive_col_vector R rO radd rmul B fuel A x z ox oz s = Some (z', s') /\ ext R s s' /\
      adds_vec z z' (ht A) (wd A) (ccol s A x ox oz).
  Proof.
    induction fuel as [|f IH]; intros s A x z ox oz Hf W J; [lia|]. cbn [recursive_col_vector].
    destruct (Nat.eqb_spec (ht A * wd A) 0) as [Hz|Hz].
    { exists z, s. split; auto. split; [split; auto|]. split; auto. intros t Ht.
      apply Nat.eq_mul_0 in Hz.
      rewrite (Sum_zero R rO rI radd rmul rsub ropp Rth (ht A)); [ring|]. intros I HI. destruct Hz as [Hz|Hz]; [lia|]. rewrite Hz. reflexivity. }
    destruct ((ht A =? 1) || (wd A =? 1)) eqn:E1.
    { destruct (naive_col s A x z ox oz W) as (z' & En & H). rewrite En. exists z', s. split; auto. split; [split; auto|auto]. }
    rewrite orb_false_iff, !Nat.eqb_neq in E1.
    assert (ht A <> 0 /\ wd A <> 0) by (split; intros K; rewrite K in Hz; lia).
    destruct (approximative_spec R A s W J) as (qa & s1 & Ea & Q). rewrite Ea.
    pose proof (q_ext _ _ _ _ _ _ _ _ _ Q) as X.
    pose proof (q_dims _ _ _ _ _ _ _ _ _ Q) as (A1 & A2 & A3 & A4 & A5 & A6 & A7 & A8).
    pose proof (half_lt (ht A)). pose proof (half_lt (wd A)).
    assert (PE : forall st q r0 c0 I K i k, ext R s1 st -> part_of R s s1 A q r0 c0 -> I < ht q -> K < wd q -> r0 + ht q <= ht A -> c0 + wd q <= wd A ->
              E st q I K i k = E s A (r0 + I) (c0 + K) i k).
    { intros st q r0 c0 I K i k Xs P HI HK L1 L2. rewrite (ext_E R rO B s1 st) by auto. rewrite (part_E R rO B s s1 A q r0 c0) by auto.
      destruct (Nat.ltb_spec (r0 + I) (ht A)); [|lia]. destruct (Nat.ltb_spec (c0 + K) (wd A)); [|lia]. reflexivity. }
    assert (Cc : forall st q r0 c0 t I K, ext R s1 st -> part_of R s s1 A q r0 c0 -> I < ht q -> K < wd q -> r0 + ht q <= ht A -> c0 + wd q <= wd A ->
              ccol st q x (ox + c0) (oz + r0) t I K = ccol s A x ox oz t (r0 + I) (c0 + K)).
    { intros st q r0 c0 t I K Xs P HI HK L1 L2. unfold ccol. rewrite !Nat.add_assoc.
      destruct (((oz + r0 + I) * B <=? t) && (t <? (oz + r0 + I) * B + B)); auto. apply Sum_ext. intros c Hc. rewrite (PE st q r0 c0) by auto. reflexivity. }
    assert (WW : forall st q r0 c0, ext R s1 st -> part_of R s s1 A q r0 c0 -> wf (length st) q /\ inj q).
    { intros st q r0 c0 Xs P. split; [apply (wf_le (length s1)); [apply Xs|apply P]|apply P]. }
    pose proof (q_ul _ _ _ _ _ _ _ _ _ Q) as P1. pose proof (q_ur _ _ _ _ _ _ _ _ _ Q) as P2.
    pose proof (q_dl _ _ _ _ _ _ _ _ _ Q) as P3. pose proof (q_dr _ _ _ _ _ _ _ _ _ Q) as P4.
    assert (X1 : ext R s1 s1) by (split; auto).
    destruct (WW s1 _ _ _ X1 P1) as [W1 J1]. destruct (IH s1 (ul qa) x z ox oz) as (z1 & s2 & E2 & X2 & L1 & V1); auto; [lia|]. rewrite E2.
    destruct (WW s2 _ _ _ X2 P2) as [W2 J2]. destruct (IH s2 (ur qa) x z1 (ox + wd (ul qa)) oz) as (z2 & s3 & E3 & X3 & L2 & V2); auto; [lia|]. rewrite E3.
    pose proof (ext_trans _ _ _ _ X2 X3) as X13.
    destruct (WW s3 _ _ _ X13 P4) as [W4 J4]. destruct (IH s3 (dr qa) x z2 (ox + wd (ul qa)) (oz + ht (ul qa))) as (z3 & s4 & E4 & X4 & L3 & V3); auto; [lia|]. rewrite E4.
    pose proof (ext_trans _ _ _ _ X13 X4) as X14.
    destruct (WW s4 _ _ _ X14 P3) as [W3 J3]. destruct (IH s4 (dl qa) x z3 ox (oz + ht (ul qa))) as (z4 & s5 & E5 & X5 & L4 & V4); auto; [lia|].
    exists z4, s5. split; auto. split; [apply (ext_trans _ _ s1); auto; apply (ext_trans _ _ s4); auto|].
    split; [lia|]. intros t Ht. rewrite V4, V3, V2, V1 by lia.
    rewrite (quad_sum (ht A) (wd A) (ht A / 2) (ht A - ht A / 2) (wd A / 2) (wd A - wd A / 2)) by lia. rewrite A1, A2, A3, A4, A5, A6, A7, A8.
    assert (S1 : Sum (ht A / 2) (fun I => Sum (wd A / 2) (fun K => ccol s1 (ul qa) x ox oz t I K))
                 = Sum (ht A / 2) (fun I => Sum (wd A / 2) (fun K => ccol s A x ox oz t I K))).
    { apply Sum_ext; intros I HI; apply Sum_ext; intros K HK. pose proof (Cc s1 (ul qa) 0 0 t I K) as Ke. rewrite ?Nat.add_0_r, ?Nat.add_0_l in Ke. apply Ke; auto; lia. }
    assert (S2 : Sum (ht A / 2) (fun I => Sum (wd A - wd A / 2) (fun K => ccol s2 (ur qa) x (ox + wd A / 2) oz t I K))
                 = Sum (ht A / 2) (fun I => Sum (wd A - wd A / 2) (fun K => ccol s A x ox oz t I (wd A / 2 + K)))).
    { apply Sum_ext; intros I HI; apply Sum_ext; intros K HK. pose proof (Cc s2 (ur qa) 0 (wd A / 2) t I K) as Ke. rewrite ?Nat.add_0_r, ?Nat.add_0_l in Ke. apply Ke; auto; lia. }
    assert (S3 : Sum (ht A - ht A / 2) (fun I => Sum (wd A / 2) (fun K => ccol s4 (dl qa) x ox (oz + ht A / 2) t I K))
                 = Sum (ht A - ht A / 2) (fun I => Sum (wd A / 2) (fun K => ccol s A x ox oz t (ht A / 2 + I) K))).
    { apply Sum_ext; intros I HI; apply Sum_ext; intros K HK. pose proof (Cc s4 (dl qa) (ht A / 2) 0 t I K) as Ke. rewrite ?Nat.add_0_r, ?Nat.add_0_l in Ke. apply Ke; auto; lia. }
    assert (S4 : Sum (ht A - ht A / 2) (fun I => Sum (wd A - wd A / 2) (fun K => ccol s3 (dr qa) x (ox + wd A / 2) (oz + ht A / 2) t I K))
                 = Sum (ht A - ht A / 2) (fun I => Sum (wd A - wd A / 2) (fun K => ccol s A x ox oz t (ht A / 2 + I) (wd A / 2 + K)))).
    { apply Sum_ext; intros I HI; apply Sum_ext; intros K HK. pose proof (Cc s3 (dr qa) (ht A / 2) (wd A / 2) t I K) as Ke. rewrite ?Nat.add_0_r, ?Nat.add_0_l in Ke. apply Ke; auto; lia. }
    rewrite S1, S2, S3, S4. ring.
  Qed.

  (** ** Row vector times matrix *)

  Definition crow (s : store) (A : bmat) (y : list R) (oy oz t I J : nat) : R :=
    if ((oz + J) * B <=? t) && (t <? (oz + J) * B + B)
    then Sum B (fun r => rmul (E s A I J r (t - (oz + J) * B)) (get y ((oy + I) * B + r))) else rO.

  Lemma block_row_val s a tt y z oy oz :
    length (block_row_vector R rO radd rmul B s a tt y z oy oz) = length z /\
    forall t, t < length z ->
    get (block_row_vector R rO radd rmul B s a tt y z oy oz) t
    = radd (get z t) (if (oz <=? t) && (t <? oz + B) then Sum B (fun r => rmul (V s a tt r (t - oz)) (get y (oy + r))) else rO).
  Proof.
    unfold block_row_vector, MatrixBase.V. destruct (blk s a) as [ia|].
    - destruct (acc_fold (fun p => oz + snd p) (fun p => rmul (get ia (idx B tt (fst p) (snd p))) (get y (oy + fst p)))
                  (block_cells tt (Nat.min B (length y - oy)) (Nat.min B (length z - oz))) z) as [L H].
      split; auto. intros t Ht. rewrite H by auto. clear H L. f_equal. rewrite Lsum_block_cells. cbn [fst snd oget].
      rewrite Sum_swap.
      destruct ((oz <=? t) && (t <? oz + B)) eqn:Eb.
      + rewrite andb_true_iff, Nat.leb_le, Nat.ltb_lt in Eb.
        rewrite (Sum_ext R rO radd _ _ (fun c => if (t - oz) =? c then Sum (Nat.min B (length y - oy)) (fun r => rmul (get ia (idx B tt r c)) (get y (oy + r))) else rO)).
        * rewrite Sum_pick. destruct (Nat.ltb_spec (t - oz) (Nat.min B (length z - oz))); [|lia].
          symmetry. apply (Sum_more R rO rI radd rmul rsub ropp Rth); [lia|]. intros c H1 H2.
          rewrite (get_over y) by lia. ring.
        * intros r Hr. destruct (Nat.eqb_spec t (oz + r)), (Nat.eqb_spec (t - oz) r); try lia; auto.
          apply (Sum_zero R rO rI radd rmul rsub ropp Rth). auto.
      + apply (Sum_zero R rO rI radd rmul rsub ropp Rth). intros r Hr. apply (Sum_zero R rO rI radd rmul rsub ropp Rth). intros c Hc.
        destruct (Nat.eqb_spec t (oz + r)); auto. rewrite andb_false_iff, Nat.leb_gt, Nat.ltb_ge in Eb. lia.
    - split; auto. intros t Ht. destruct ((oz <=? t) && (t <? oz + B)); [|ring].
      rewrite (Sum_zero R rO rI radd rmul rsub ropp Rth); [ring|]. intros. cbn. ring.
  Qed.

  Lemma naive_row (s : store) A y z oy oz : wf (length s) A ->
    exists z', naive_row_vector R rO radd rmul B s A y z oy oz = Some z' /\
      adds_vec z z' (ht A) (wd A) (crow s A y oy oz).
  Proof.
    intros W. unfold naive_row_vector.
    apply (blocks_fold s A (fun a I J z => block_row_vector R rO radd rmul B s a (tr A) y z ((oy + I) * B) ((oz + J) * B))); auto.
    intros I J z0 HI HJ. apply block_row_val.
  Qed.

  Lemma rec_row fuel : forall s A y z oy oz, ht A + wd A < fuel -> wf (length s) A -> inj A ->
    exists z' s', recursive_row_vector R rO radd rmul B fuel A y z oy oz s = Some (z', s') /\ ext R s s' /\
      adds_vec z z' (ht A) (wd A) (crow s A y oy oz).
  Proof.
    induction fuel as [|f IH]; intros s A y z oy oz Hf W J; [lia|]. cbn [recursive_row_vector].
    destruct (Nat.eqb_spec (ht A * wd A) 0) as [Hz|Hz].
    { exists z, s. split; auto. split; [split; auto|]. split; auto. intros t Ht.
      apply Nat.eq_mul_0 in Hz.
      rewrite (Sum_zero R rO rI radd rmul rsub ropp Rth (ht A)); [ring|]. intros I HI. destruct Hz as [Hz|Hz]; [lia|]. rewrite Hz. reflexivity. }
    destruct ((ht A =? 1) || (wd A =? 1)) eqn:E1.
    { destruct (naive_row s A y z oy oz W) as (z' & En & H). rewrite En. exists z', s. split; auto. split; [split; auto|auto]. }
    rewrite orb_false_iff, !Nat.eqb_neq in E1.
    assert (ht A <> 0 /\ wd A <> 0) by (split; intros K; rewrite K in Hz; lia).
    destruct (approximative_spec R A s W J) as (qa & s1 & Ea & Q). rewrite Ea.
    pose proof (q_ext _ _ _ _ _ _ _ _ _ Q) as X.
    pose proof (q_dims _ _ _ _ _ _ _ _ _ Q) as (A1 & A2 & A3 & A4 & A5 & A6 & A7 & A8).
    pose proof (half_lt (ht A)). pose proof (half_lt (wd A)).
    assert (PE : forall st q r0 c0 I K i k, ext R s1 st -> part_of R s s1 A q r0 c0 -> I < ht q -> K < wd q -> r0 + ht q <= ht A -> c0 + wd q <= wd A ->
              E st q I K i k = E s A (r0 + I) (c0 + K) i k).
    { intros st q r0 c0 I K i k Xs P HI HK L1 L2. rewrite (ext_E R rO B s1 st) by auto. rewrite (part_E R rO B s s1 A q r0 c0) by auto.
      destruct (Nat.ltb_spec (r0 + I) (ht A)); [|lia]. destruct (Nat.ltb_spec (c0 + K) (wd A)); [|lia]. reflexivity. }
    assert (Cc : forall st q r0 c0 t I K, ext R s1 st -> part_of R s s1 A q r0 c0 -> I < ht q -> K < wd q -> r0 + ht q <= ht A -> c0 + wd q <= wd A ->
              crow st q y (oy + r0) (oz + c0) t I K = crow s A y oy oz t (r0 + I) (c0 + K)).
    { intros st q r0 c0 t I K Xs P HI HK L1 L2. unfold crow. rewrite !Nat.add_assoc.
      destruct (((oz + c0 + K) * B <=? t) && (t <? (oz + c0 + K) * B + B)); auto. apply Sum_ext. intros c Hc. rewrite (PE st q r0 c0) by auto. reflexivity. }
    assert (WW : forall st q r0 c0, ext R s1 st -> part_of R s s1 A q r0 c0 -> wf (length st) q /\ inj q).
    { intros st q r0 c0 Xs P. split; [apply (wf_le (length s1)); [apply Xs|apply P]|apply P]. }
    pose proof (q_ul _ _ _ _ _ _ _ _ _ Q) as P1. pose proof (q_ur _ _ _ _ _ _ _ _ _ Q) as P2.
    pose proof (q_dl _ _ _ _ _ _ _ _ _ Q) as P3. pose proof (q_dr _ _ _ _ _ _ _ _ _ Q) as P4.
    assert (X1 : ext R s1 s1) by (split; auto).
    destruct (WW s1 _ _ _ X1 P1) as [W1 J1]. destruct (IH s1 (ul qa) y z oy oz) as (z1 & s2 & E2 & X2 & L1 & V1); auto; [lia|]. rewrite E2.
    destruct (WW s2 _ _ _ X2 P3) as [W3 J3]. destruct (IH s2 (dl qa) y z1 (oy + ht (ul qa)) oz) as (z2 & s3 & E3 & X3 & L2 & V2); auto; [lia|]. rewrite E3.
    pose proof (ext_trans _ _ _ _ X2 X3) as X13.
    destruct (WW s3 _ _ _ X13 P4) as [W4 J4]. destruct (IH s3 (dr qa) y z2 (oy + ht (ul qa)) (oz + wd (ul qa))) as (z3 & s4 & E4 & X4 & L3 & V3); auto; [lia|]. rewrite E4.
    pose proof (ext_trans _ _ _ _ X13 X4) as X14.
    destruct (WW s4 _ _ _ X14 P2) as [W2 J2]. destruct (IH s4 (ur qa) y z3 oy (oz + wd (ul qa))) as (z4 & s5 & E5 & X5 & L4 & V4); auto; [lia|].
    exists z4, s5. split; auto. split; [apply (ext_trans _ _ s1); auto; apply (ext_trans _ _ s4); auto|].
    split; [lia|]. intros t Ht. rewrite V4, V3, V2, V1 by lia.
    rewrite (quad_sum (ht A) (wd A) (ht A / 2) (ht A - ht A / 2) (wd A / 2) (wd A - wd A / 2)) by lia. rewrite A1, A2, A3, A4, A5, A6, A7, A8.
    assert (S1 : Sum (ht A / 2) (fun I => Sum (wd A / 2) (fun K => crow s1 (ul qa) y oy oz t I K))
                 = Sum (ht A / 2) (fun I => Sum (wd A / 2) (fun K => crow s A y oy oz t I K))).
    { apply Sum_ext; intros I HI; apply Sum_ext; intros K HK. pose proof (Cc s1 (ul qa) 0 0 t I K) as Ke. rewrite ?Nat.add_0_r, ?Nat.add_0_l in Ke. apply Ke; auto; lia. }
    assert (S2 : Sum (ht A / 2) (fun I => Sum (wd A - wd A / 2) (fun K => crow s4 (ur qa) y oy (oz + wd A / 2) t I K))
                 = Sum (ht A / 2) (fun I => Sum (wd A - wd A / 2) (fun K => crow s A y oy oz t I (wd A / 2 + K)))).
    { apply Sum_ext; intros I HI; apply Sum_ext; intros K HK. pose proof (Cc s4 (ur qa) 0 (wd A / 2) t I K) as Ke. rewrite ?Nat.add_0_r, ?Nat.add_0_l in Ke. apply Ke; auto; lia. }
    assert (S3 : Sum (ht A - ht A / 2) (fun I => Sum (wd A / 2) (fun K => crow s2 (dl qa) y (oy + ht A / 2) oz t I K))
                 = Sum (ht A - ht A / 2) (fun I => Sum (wd A / 2) (fun K => crow s A y oy oz t (ht A / 2 + I) K))).
    { apply Sum_ext; intros I HI; apply Sum_ext; intros K HK. pose proof (Cc s2 (dl qa) (ht A / 2) 0 t I K) as Ke. rewrite ?Nat.add_0_r, ?Nat.add_0_l in Ke. apply Ke; auto; lia. }
    assert (S4 : Sum (ht A - ht A / 2) (fun I => Sum (wd A - wd A / 2) (fun K => crow s3 (dr qa) y (oy + ht A / 2) (oz + wd A / 2) t I K))
                 = Sum (ht A - ht A / 2) (fun I => Sum (wd A - wd A / 2) (fun K => crow s A y oy oz t (ht A / 2 + I) (wd A / 2 + K)))).
    { apply Sum_ext; intros I HI; apply Sum_ext; intros K HK. pose proof (Cc s3 (dr qa) (ht A / 2) (wd A / 2) t I K) as Ke. rewrite ?Nat.add_0_r, ?Nat.add_0_l in Ke. apply Ke; auto; lia. }
    rewrite S1, S2, S3, S4. ring.
  Qed.

  (** ** Copies; matrices from vectors *)

  Lemma copy_spec M s : wf (length s) M ->
    exists M' s', copy R rO radd B M s = Some (M', s') /\ ht M' = ht M /\ wd M' = wd M /\ tr M' = false /\
      length s <= length s' /\ wf (length s') M' /\ inj M' /\ (forall id, own M' id -> length s <= id < length s') /\
      (forall id, id < length s -> blk s' id = blk s id) /\
      (forall I J i k, I < ht M -> J < wd M -> i < B -> k < B -> E s' M' I J i k = E s M I J i k).
  Proof.
    intros W. unfold copy. destruct (alloc_spec R (ht M) (wd M) false s) as (M' & s1 & E1 & A1 & A2 & A3 & (n & A4) & A5 & A6 & A7).
    rewrite E1. assert (X : ext R s s1) by (subst; apply ext_app).
    assert (Z : forall I J i k, I < ht M' -> J < wd M' -> E s1 M' I J i k = rO).
    { intros I J i k HI HJ. apply zero_E. rewrite (proj2 X). apply blk_over. apply A7. apply own_idn; auto. }
    assert (D : disj M M').
    { intros id K1 K2. apply A7 in K2. pose proof (own_lt _ _ _ W K1). lia. }
    destruct (element_op2_spec R rO B (addition R radd) M' M s1) as (s2 & E2 & O2 & V2); auto.
    - apply (wf_le (length s)); auto. apply X.
    - apply disj_aligned; auto.
    - intros x. cbn. ring.
    - intros. cbn. ring.
    - rewrite E2. exists M', s2. destruct O2 as [L2 F2]. pose proof (ext_le _ _ _ X). split; auto. split; auto. split; auto. split; auto.
      split; [lia|]. split; [rewrite L2; auto|]. split; auto. split; [rewrite L2; auto|]. split.
      + intros id Hid. rewrite F2; [apply X|]. intros K. apply A7 in K. lia.
      + intros I J i k HI HJ Hi Hk. rewrite V2 by (auto; lia). rewrite Z by lia. rewrite (ext_E R rO B s s1) by auto. cbn. ring.
  Qed.

  Lemma for_each_total (P : Type) (f : P -> store -> option store) (keep : nat -> Prop) ps : forall s n,
    length s = n ->
    (forall p s, In p ps -> length s = n -> exists s', f p s = Some s' /\ length s' = n /\ forall id, keep id -> blk s' id = blk s id) ->
    exists s', for_each R ps f s = Some s' /\ length s' = n /\ forall id, keep id -> blk s' id = blk s id.
  Proof.
    induction ps as [|p ps IH]; intros s n Ls H; cbn.
    - exists s. auto.
    - destruct (H p s) as (s1 & E1 & L1 & K1); cbn; auto. rewrite E1.
      destruct (IH s1 n L1) as (s2 & E2 & L2 & K2); [intros; apply H; cbn; auto|].
      exists s2. split; auto. split; auto. intros. rewrite K2, K1; auto.
  Qed.

  Variable junk : list R.
  Lemma naive_from A l r ol or_ s : wf (length s) A ->
    exists s', naive_from_vectors R rO radd rmul B junk A l r ol or_ s = Some s' /\ length s <= length s' /\
      forall id, id < length s -> blk s' id = blk s id.
  Proof.
    intros W. unfold naive_from_vectors. destruct (copy_spec A s W) as (M & s1 & E1 & A1 & A2 & A3 & L1 & W1 & J1 & O1 & K1 & _).
    rewrite E1.
    destruct (for_each_total (nat * nat) (fun p s => do a <- at_ M (fst p) (snd p);
      Some (block_from_vectors R rO rmul B junk a (tr M) l r ((ol + fst p) * B) ((or_ + snd p) * B) s))
      (fun id => id < length s) (cells (ht M) (wd M)) s1 (length s1) eq_refl) as (s2 & E2 & L2 & K2).
    - intros p st Hp Ls. apply cells_In in Hp. destruct Hp as [Hr Hc]. rewrite (at_idn (length s1)) by auto.
      eexists. split; [reflexivity|]. unfold block_from_vectors. split; [rewrite put_length; auto|].
      intros id Hid. apply blk_put_other. intros ->. pose proof (O1 _ (own_idn M _ _ Hr Hc)). lia.
    - exists s2. split; auto. split; [lia|]. intros id Hid. rewrite K2, K1; auto.
  Qed.

  (** the parameter is copied, so nothing that existed before changes *)
  Lemma rec_from fuel : forall A l r ol or_ s, ht A + wd A < fuel -> wf (length s) A ->
    exists s', recursive_from_vectors R rO radd rmul B junk fuel A l r ol or_ s = Some s' /\ length s <= length s' /\
      forall id, id < length s -> blk s' id = blk s id.
  Proof.
    induction fuel as [|f IH]; intros A0 l r ol or_ s Hf W0; [lia|]. cbn [recursive_from_vectors].
    destruct (copy_spec A0 s W0) as (A & s0 & E0 & D1 & D2 & D3 & L0 & W & J & O0 & K0 & _). rewrite E0.
    destruct (Nat.eqb_spec (ht A * wd A) 0) as [Hz|Hz]; [exists s0; auto|].
    destruct ((ht A =? 1) || (wd A =? 1)) eqn:E1.
    { destruct (naive_from A l r ol or_ s0 W) as (s1 & En & L1 & K1). exists s1. split; auto. split; [lia|].
      intros. rewrite K1, K0 by lia. reflexivity. }
    rewrite orb_false_iff, !Nat.eqb_neq in E1.
    assert (ht A <> 0 /\ wd A <> 0) by (split; intros K; rewrite K in Hz; lia).
    destruct (approximative_spec R A s0 W J) as (qa & s1 & Ea & Q). rewrite Ea.
    pose proof (q_ext _ _ _ _ _ _ _ _ _ Q) as X. pose proof (ext_le _ _ _ X) as LX.
    pose proof (q_dims _ _ _ _ _ _ _ _ _ Q) as (A1 & A2 & A3 & A4 & A5 & A6 & A7 & A8).
    pose proof (half_lt (ht A)). pose proof (half_lt (wd A)).
    assert (WW : forall (st : store) q r0 c0, length s1 <= length st -> part_of R s0 s1 A q r0 c0 -> wf (length st) q).
    { intros st q r0 c0 Xs P. apply (wf_le (length s1)); auto. apply P. }
    pose proof (q_ul _ _ _ _ _ _ _ _ _ Q) as P1. pose proof (q_ur _ _ _ _ _ _ _ _ _ Q) as P2.
    pose proof (q_dl _ _ _ _ _ _ _ _ _ Q) as P3. pose proof (q_dr _ _ _ _ _ _ _ _ _ Q) as P4.
    destruct (IH (ul qa) l r ol or_ s1) as (s2 & E2 & L2 & K2); [lia|eapply WW; eauto|]. rewrite E2.
    destruct (IH (ur qa) l r ol (or_ + wd (ul qa)) s2) as (s3 & E3 & L3 & K3); [lia|eapply WW; eauto|]. rewrite E3.
    destruct (IH (dr qa) l r (ol + ht (ul qa)) (or_ + wd (ul qa)) s3) as (s4 & E4 & L4 & K4); [lia|eapply WW; [|eauto]; lia|]. rewrite E4.
    destruct (IH (dl qa) l r (ol + ht (ul qa)) or_ s4) as (s5 & E5 & L5 & K5); [lia|eapply WW; [|eauto]; lia|]. rewrite E5.
    exists s5. split; auto. split; [lia|]. intros id Hid. rewrite K5, K4, K3, K2 by lia. rewrite (proj2 X), K0 by lia. reflexivity.
  Qed.
End Vec.
