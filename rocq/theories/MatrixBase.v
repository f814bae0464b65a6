(** Block contents, loops over blocks, allocation and partition of block matrices (MatrixModel.v). *)
From Coq Require Import List Arith Bool PeanoNat Lia Ring FinFun.
From Verif Require Import MatrixModel.
Import ListNotations.

Section Base.
  Variable R : Type.
  Variables (rO rI : R) (radd rmul rsub : R -> R -> R) (ropp : R -> R).
  Variable Rth : ring_theory rO rI radd rmul rsub ropp eq.
  Variable B : nat.

  Add Ring Rring : Rth.

  Notation store := (list (option (list R))).
  Notation blk := (blk R).
  Notation put := (put R).
  Notation get := (get R rO).
  Notation idx := (idx B).
  Notation tab := (tab R B).
  Notation oget := (oget R rO).

  (** ** Indices *)

  Lemma idx_lt t r c : r < B -> c < B -> idx t r c < B * B.
  Proof. intros. destruct t; cbn; nia. Qed.
  Lemma idx_false_div r c : c < B -> (r * B + c) / B = r.
  Proof. intros. rewrite Nat.add_comm, Nat.div_add by lia. rewrite Nat.div_small by lia. lia. Qed.
  Lemma idx_false_mod r c : c < B -> (r * B + c) mod B = c.
  Proof. intros. rewrite Nat.add_comm, Nat.mod_add by lia. apply Nat.mod_small; lia. Qed.
  Lemma idx_neg t r c : idx (negb t) r c = idx t c r.
  Proof. destruct t; cbn; lia. Qed.
  Lemma idx_surj t i : i < B * B -> exists r c, r < B /\ c < B /\ idx t r c = i.
  Proof.
    intros H. assert (0 < B) by nia.
    assert (E : i = B * (i / B) + i mod B) by (apply Nat.div_mod; lia).
    assert (i mod B < B) by (apply Nat.mod_upper_bound; lia).
    assert (i / B < B) by (apply Nat.div_lt_upper_bound; lia).
    destruct t; [exists (i mod B), (i / B)|exists (i / B), (i mod B)]; cbn; lia.
  Qed.

  Lemma get_tab f i : i < B * B -> get (tab f) i = f (i / B) (i mod B).
  Proof.
    intros H. unfold MatrixModel.get, MatrixModel.tab.
    rewrite (nth_indep _ rO (f (0 / B) (0 mod B))) by (rewrite map_length, seq_length; lia).
    rewrite (map_nth (fun x => f (x / B) (x mod B))), seq_nth by lia. reflexivity.
  Qed.
  Lemma get_tab_idx f t r c : r < B -> c < B ->
    get (tab f) (idx t r c) = if t then f c r else f r c.
  Proof.
    intros. rewrite get_tab by (apply idx_lt; lia). destruct t; cbn.
    - replace (r + c * B) with (c * B + r) by lia. rewrite idx_false_div, idx_false_mod by lia. reflexivity.
    - rewrite idx_false_div, idx_false_mod by lia. reflexivity.
  Qed.

  (** ** The store *)

  Lemma put_length s i v : length (put s i v) = length s.
  Proof. revert i. induction s as [|x s IH]; intros [|i]; cbn; auto. Qed.
  Lemma blk_put_same s i v : i < length s -> blk (put s i v) i = v.
  Proof. unfold MatrixModel.blk. revert i. induction s as [|x s IH]; intros [|i] H; cbn in *; try lia; auto. apply IH. lia. Qed.
  Lemma blk_put_other s i j v : j <> i -> blk (put s i v) j = blk s j.
  Proof.
    unfold MatrixModel.blk. revert i j. induction s as [|x s IH]; intros [|i] [|j] H; cbn in *; auto; try lia.
    all: try (apply IH; lia).
  Qed.
  Lemma blk_app_none s k i : blk (s ++ repeat None k) i = blk s i.
  Proof.
    unfold MatrixModel.blk. destruct (Nat.lt_ge_cases i (length s)) as [H|H].
    - apply app_nth1; lia.
    - rewrite app_nth2, (nth_overflow s) by lia. revert i H.
      generalize (length s). intros n i H. generalize (i - n). clear.
      induction k; intros [|m]; cbn; auto.
  Qed.

  (** the element of block [id] at (r, c), stored with transposition [t] *)
  Definition V (s : store) (id : nat) (t : bool) (r c : nat) : R := oget (blk s id) (idx t r c).

  Lemma V_eq s s' id t r c : blk s' id = blk s id -> V s' id t r c = V s id t r c.
  Proof. unfold V. intros ->. reflexivity. Qed.

  (** ** Block operations *)

  Notation block_op3 := (block_op3 R rO B).
  Notation block_op2 := (block_op2 R rO B).
  Notation block_op1 := (block_op1 R rO B).
  Notation block_mul := (block_multiply_and_add R rO radd rmul B).

  Lemma block_op3_length o c tc a ta b tb s : length (block_op3 o c tc a ta b tb s) = length s.
  Proof. unfold MatrixModel.block_op3. destruct (blk s a), (blk s b); apply put_length. Qed.
  Lemma block_op3_other o c tc a ta b tb s id : id <> c -> blk (block_op3 o c tc a ta b tb s) id = blk s id.
  Proof. intros. unfold MatrixModel.block_op3. destruct (blk s a), (blk s b); apply blk_put_other; auto. Qed.
  Lemma block_op3_val o c tc a ta b tb s r k :
    c < length s -> r < B -> k < B -> op3 R o rO rO = rO ->
    V (block_op3 o c tc a ta b tb s) c tc r k = op3 R o (V s a ta r k) (V s b tb r k).
  Proof.
    intros Hc Hr Hk H0. unfold V, MatrixModel.block_op3.
    assert (E : forall x y, oget (Some (ll_binary_ass R rO B o (xorb ta tc) (xorb tb tc) x y)) (idx tc r k)
                = op3 R o (oget x (idx ta r k)) (oget y (idx tb r k))).
    { intros x y. cbn [MatrixModel.oget]. unfold ll_binary_ass. rewrite get_tab_idx by lia.
      destruct tc; rewrite ?xorb_true_r, ?xorb_false_r, ?idx_neg; reflexivity. }
    destruct (blk s a) eqn:Ea, (blk s b) eqn:Eb; rewrite blk_put_same by lia; rewrite ?E; auto; cbn; rewrite ?H0; auto.
  Qed.

  Lemma block_op2_length o c tc a ta s : length (block_op2 o c tc a ta s) = length s.
  Proof. unfold MatrixModel.block_op2. destruct (blk s a), (blk s c); auto; apply put_length. Qed.
  Lemma block_op2_other o c tc a ta s id : id <> c -> blk (block_op2 o c tc a ta s) id = blk s id.
  Proof. intros. unfold MatrixModel.block_op2. destruct (blk s a), (blk s c); auto; apply blk_put_other; auto. Qed.
  Lemma block_op2_val o c tc a ta s r k :
    c < length s -> r < B -> k < B -> (forall x, op1 R o x = op2 R o rO x) ->
    op2 R o (V s c tc r k) rO = V s c tc r k ->
    V (block_op2 o c tc a ta s) c tc r k = op2 R o (V s c tc r k) (V s a ta r k).
  Proof.
    intros Hc Hr Hk H1 H0. unfold V in *. unfold MatrixModel.block_op2.
    destruct (blk s a) as [la|] eqn:Ea.
    - destruct (blk s c) as [lc|] eqn:Ec; rewrite blk_put_same by lia; cbn [MatrixModel.oget].
      + unfold ll_unary_ass. rewrite get_tab_idx by lia. destruct tc.
        * rewrite xorb_true_r, idx_neg. f_equal. f_equal. change false with (negb true). apply idx_neg.
        * rewrite xorb_false_r. reflexivity.
      + unfold ll_unary. rewrite get_tab_idx by lia.
        destruct tc; rewrite ?xorb_true_r, ?xorb_false_r, ?idx_neg; apply H1.
    - cbn. symmetry. exact H0.
  Qed.

  Lemma block_op1_length o c s : length (block_op1 o c s) = length s.
  Proof. unfold MatrixModel.block_op1. destruct (blk s c); auto; apply put_length. Qed.
  Lemma block_op1_other o c s id : id <> c -> blk (block_op1 o c s) id = blk s id.
  Proof. intros. unfold MatrixModel.block_op1. destruct (blk s c); auto; apply blk_put_other; auto. Qed.
  Lemma block_op1_val o c s t r k : c < length s -> r < B -> k < B -> op1 R o rO = rO ->
    V (block_op1 o c s) c t r k = op1 R o (V s c t r k).
  Proof.
    intros Hc Hr Hk H0. unfold V, MatrixModel.block_op1. destruct (blk s c) as [lc|] eqn:Ec.
    - rewrite blk_put_same by lia. cbn [MatrixModel.oget]. unfold ll_unary. rewrite get_tab_idx by lia.
      destruct t; cbn; f_equal; f_equal; lia.
    - rewrite Ec. cbn. auto.
  Qed.

  (** ** Sums *)

  Fixpoint Sum (n : nat) (f : nat -> R) : R := match n with 0 => rO | S m => radd (Sum m f) (f m) end.
  Lemma Sum_ext n f g : (forall k, k < n -> f k = g k) -> Sum n f = Sum n g.
  Proof. induction n; intros H; cbn; auto. rewrite IHn, (H n) by auto. reflexivity. Qed.
  Lemma Sum_add n f g : radd (Sum n f) (Sum n g) = Sum n (fun k => radd (f k) (g k)).
  Proof. induction n; cbn. - ring. - rewrite <- IHn. ring. Qed.
  Lemma Sum_sub n f g : rsub (Sum n f) (Sum n g) = Sum n (fun k => rsub (f k) (g k)).
  Proof. induction n; cbn. - ring. - rewrite <- IHn. ring. Qed.
  Lemma Sum_mul_r n f x : rmul (Sum n f) x = Sum n (fun k => rmul (f k) x).
  Proof. induction n; cbn. - ring. - rewrite <- IHn. ring. Qed.
  Lemma Sum_zero n f : (forall k, k < n -> f k = rO) -> Sum n f = rO.
  Proof. induction n; intros H; cbn; auto. rewrite IHn, (H n) by auto. ring. Qed.
  Lemma Sum_split n m f : Sum (n + m) f = radd (Sum n f) (Sum m (fun k => f (n + k))).
  Proof.
    induction m; cbn. - rewrite Nat.add_0_r. ring.
    - rewrite Nat.add_succ_r. cbn. rewrite IHm. ring.
  Qed.
  Lemma Sum_more n m f : n <= m -> (forall k, n <= k -> k < m -> f k = rO) -> Sum m f = Sum n f.
  Proof.
    intros H H0. replace m with (n + (m - n)) by lia. rewrite Sum_split.
    rewrite (Sum_zero (m - n)) by (intros; apply H0; lia). ring.
  Qed.
  Lemma fold_Sum n f x : fold_left (fun acc k => radd acc (f k)) (seq 0 n) x = radd x (Sum n f).
  Proof.
    revert x. induction n; intros x.
    - cbn. ring.
    - rewrite seq_S, fold_left_app, IHn. cbn. ring.
  Qed.
  (** n blocks of m elements *)
  Lemma Sum_blocks n m f : Sum (n * m) f = Sum n (fun K => Sum m (fun k => f (K * m + k))).
  Proof.
    induction n; cbn; auto. rewrite <- IHn. rewrite (Nat.add_comm m (n * m)), Sum_split. reflexivity.
  Qed.

  Lemma block_mul_length a ta b tb c tc s : length (block_mul a ta b tb c tc s) = length s.
  Proof. unfold block_multiply_and_add. destruct (blk s a), (blk s b); auto. apply put_length. Qed.
  Lemma block_mul_other a ta b tb c tc s id : id <> c -> blk (block_mul a ta b tb c tc s) id = blk s id.
  Proof. intros. unfold block_multiply_and_add. destruct (blk s a), (blk s b); auto. apply blk_put_other; auto. Qed.
  Lemma nth_repeat_any (x : R) n i : nth i (repeat x n) x = x.
  Proof. revert i. induction n; intros [|i]; cbn; auto. Qed.
  Lemma acquired_get s c i : get (acquired R rO B s c) i = oget (blk s c) i.
  Proof.
    unfold acquired, MatrixModel.oget. destruct (blk s c); auto. unfold MatrixModel.get, zeros. apply nth_repeat_any.
  Qed.
  Lemma block_mul_val a ta b tb c tc s r k : c < length s -> r < B -> k < B ->
    V (block_mul a ta b tb c tc s) c tc r k
    = radd (V s c tc r k) (Sum B (fun x => rmul (V s a ta r x) (V s b tb x k))).
  Proof.
    intros Hc Hr Hk. unfold V, block_multiply_and_add.
    destruct (blk s a) as [la|] eqn:Ea.
    2:{ rewrite (Sum_zero B) by (intros; cbn; ring). ring. }
    destruct (blk s b) as [lb|] eqn:Eb.
    2:{ rewrite (Sum_zero B) by (intros; cbn; ring). ring. }
    rewrite blk_put_same by lia. cbn [MatrixModel.oget]. unfold ll_multiply_and_add.
    destruct tc; rewrite get_tab_idx by lia; rewrite (fold_Sum B), acquired_get.
    - f_equal.
      + f_equal. cbn. lia.
      + apply Sum_ext. intros x Hx. rewrite !idx_neg. ring.
    - reflexivity.
  Qed.

  (** ** Loops *)

  Lemma cells_In h w p : In p (cells h w) <-> fst p < h /\ snd p < w.
  Proof.
    unfold cells. destruct p as [a b]. cbn. rewrite in_prod_iff, !in_seq. lia.
  Qed.
  Lemma NoDup_app_disj (X : Type) (l l' : list X) :
    NoDup l -> NoDup l' -> (forall x, In x l -> ~ In x l') -> NoDup (l ++ l').
  Proof.
    induction l as [|x l IH]; intros H H' D; cbn; auto.
    inversion H; subst. constructor.
    - rewrite in_app_iff. intros [K|K]; [tauto|]. apply (D x); cbn; auto.
    - apply IH; auto. intros y Hy. apply D. right; auto.
  Qed.
  Lemma cells_NoDup h w : NoDup (cells h w).
  Proof.
    unfold cells. generalize (seq_NoDup h 0). generalize (seq 0 h). intros l H.
    induction H as [|x l Hx Hl IH]; cbn; [constructor|].
    apply NoDup_app_disj; auto.
    - apply FinFun.Injective_map_NoDup; [intros a b K; congruence|apply seq_NoDup].
    - intros [a b] K1 K2. apply in_map_iff in K1. destruct K1 as (y & K1 & _). inversion K1; subst.
      apply in_prod_iff in K2. tauto.
  Qed.

  Lemma for_each_spec (P : Type) (step : P -> store -> option store) (T F : P -> nat -> Prop)
        (Q : P -> store -> store -> Prop) (n : nat) (ps : list P) :
    NoDup ps ->
    (forall p s, In p ps -> length s = n ->
       exists s', step p s = Some s' /\ length s' = n /\ (forall id, ~ T p id -> blk s' id = blk s id) /\ Q p s s') ->
    (forall p s1 s2 s1' s2', In p ps -> (forall id, F p id -> blk s1 id = blk s2 id) ->
       (forall id, T p id -> blk s1' id = blk s2' id) -> Q p s1 s1' -> Q p s2 s2') ->
    (forall p q id, In p ps -> In q ps -> p <> q -> T p id -> ~ F q id /\ ~ T q id) ->
    forall s, length s = n ->
    exists s', for_each R ps step s = Some s' /\ length s' = n /\
      (forall id, (forall p, In p ps -> ~ T p id) -> blk s' id = blk s id) /\
      (forall p, In p ps -> Q p s s').
  Proof.
    induction ps as [|p ps IH]; intros ND Hs Hl Hd s Ls.
    - exists s. cbn. repeat split; auto. intros p [].
    - inversion ND as [|? ? Np Nps]; subst.
      destruct (Hs p s (or_introl eq_refl) eq_refl) as (s1 & E1 & L1 & F1 & Q1).
      destruct (IH Nps) with (s := s1) as (s2 & E2 & L2 & F2 & Q2); auto.
      + intros q s0 Hq. apply Hs. right; auto.
      + intros q a b c d Hq. apply Hl. right; auto.
      + intros q q' id Hq Hq'. apply Hd; right; auto.
      + exists s2. cbn. rewrite E1. repeat split; auto.
        * intros id Hid. rewrite F2, F1; [reflexivity| |].
          -- apply Hid. left; auto.
          -- intros q Hq. apply Hid. right; auto.
        * intros q [Hq|Hq].
          -- subst q. apply (Hl p s s s1 s2); auto. left; auto.
             intros id Tid. symmetry. apply F2. intros q Hq.
             apply (Hd p q id); auto. left; auto. right; auto. intros Hpq. subst. auto.
          -- apply (Hl q s1 s s2 s2); auto. right; auto.
             intros id Fid. apply F1. intros Tid.
             destruct (Hd p q id) as [K _]; auto. left; auto. right; auto. intros Hpq. subst. auto.
  Qed.

  (** ** Block matrices *)

  Definition idn (M : bmat) (r c : nat) : nat := nth (r * wd M + c) (ids M) 0.
  Definition wf (n : nat) (M : bmat) : Prop :=
    length (ids M) = ht M * wd M /\ forall r c, r < ht M -> c < wd M -> idn M r c < n.
  Definition inj (M : bmat) : Prop :=
    forall r c r' c', r < ht M -> c < wd M -> r' < ht M -> c' < wd M -> idn M r c = idn M r' c' -> r = r' /\ c = c'.
  Definition own (M : bmat) (id : nat) : Prop := exists r c, r < ht M /\ c < wd M /\ idn M r c = id.
  Definition disj (M N : bmat) : Prop := forall id, own M id -> own N id -> False.
  Definition E (s : store) (M : bmat) (I J i k : nat) : R := V s (idn M I J) (tr M) i k.

  Lemma cell_lt M r c : r < ht M -> c < wd M -> r * wd M + c < ht M * wd M.
  Proof. intros. nia. Qed.
  Lemma at_idn n M r c : wf n M -> r < ht M -> c < wd M -> at_ M r c = Some (idn M r c).
  Proof.
    intros [L _] Hr Hc. unfold at_, idn. apply nth_error_nth'. rewrite L. apply cell_lt; auto.
  Qed.
  Lemma own_lt n M id : wf n M -> own M id -> id < n.
  Proof. intros [_ W] (r & c & Hr & Hc & <-). auto. Qed.
  Lemma own_idn M r c : r < ht M -> c < wd M -> own M (idn M r c).
  Proof. intros. exists r, c. auto. Qed.
  Lemma wf_le n n' M : n <= n' -> wf n M -> wf n' M.
  Proof. intros H [L W]. split; auto. intros. specialize (W r c). lia. Qed.
  Lemma own_In n M id : wf n M -> (own M id <-> In id (ids M)).
  Proof.
    intros [L W]. split.
    - intros (r & c & Hr & Hc & <-). unfold idn. apply nth_In. rewrite L. apply cell_lt; auto.
    - intros H. apply (In_nth _ _ 0) in H. destruct H as (x & Hx & <-). rewrite L in Hx.
      assert (0 < wd M) by nia.
      exists (x / wd M), (x mod wd M).
      assert (E1 : x = wd M * (x / wd M) + x mod wd M) by (apply Nat.div_mod; lia).
      split; [apply Nat.div_lt_upper_bound; lia|]. split; [apply Nat.mod_upper_bound; lia|].
      unfold idn. f_equal. lia.
  Qed.

  Lemma E_frame s s' M I J i k : blk s' (idn M I J) = blk s (idn M I J) -> E s' M I J i k = E s M I J i k.
  Proof. apply V_eq. Qed.

  (** ** Allocation *)

  Lemma fill_spec pick ps s l s' : fill R pick ps s = Some (l, s') ->
    exists k, s' = s ++ repeat None k /\ length l = length ps /\
      (forall x p, nth_error ps x = Some p ->
         exists i, nth_error l x = Some i /\
           match pick p with Some (Some j) => i = j | _ => length s <= i < length s' end) /\
      (forall x y p q, nth_error ps x = Some p -> nth_error ps y = Some q -> pick p = Some None -> pick q = Some None ->
         nth_error l x = nth_error l y -> x = y).
  Proof.
    revert s l s'. induction ps as [|p ps IH]; intros s l s' H; cbn in H.
    - inversion H; subst. exists 0. rewrite app_nil_r. repeat split; auto.
      + intros [|x] p; cbn; discriminate.
      + intros [|x] y p q; cbn; discriminate.
    - destruct (pick p) as [c|] eqn:Ep; [|discriminate].
      destruct c as [i|]; cbn [fresh] in H.
      + destruct (fill R pick ps s) as [[l2 s2]|] eqn:E2; [|discriminate]. inversion H; subst. clear H.
        destruct (IH _ _ _ E2) as (k & K1 & K2 & K3 & K4). exists k. repeat split; auto.
        * cbn. lia.
        * intros [|x] q Hq; cbn in *.
          -- inversion Hq; subst. exists i. rewrite Ep. auto.
          -- apply K3; auto.
        * intros [|x] [|y] a b Ha Hb Pa Pb Hxy; cbn in *; auto; try (inversion Ha; subst; congruence);
            try (inversion Hb; subst; congruence).
          f_equal. eapply K4; eauto.
      + destruct (fill R pick ps (s ++ [None])) as [[l2 s2]|] eqn:E2; [|discriminate]. inversion H; subst. clear H.
        destruct (IH _ _ _ E2) as (k & K1 & K2 & K3 & K4). exists (S k).
        assert (Es : s' = s ++ repeat None (S k)) by (rewrite K1, <- app_assoc; reflexivity).
        rewrite app_length in K3. cbn in K3.
        assert (Ln : length s < length s') by (rewrite Es, app_length; cbn; lia).
        repeat split; auto.
        * cbn. lia.
        * intros [|x] q Hq; cbn in *.
          -- inversion Hq; subst q. exists (length s). rewrite Ep. split; auto.
          -- destruct (K3 _ _ Hq) as (j & Hj & Kj). exists j. split; auto.
             destruct (pick q) as [[?|]|]; auto; lia.
        * intros [|x] [|y] a b Ha Hb Pa Pb Hxy; cbn in *; auto.
          -- exfalso. destruct (K3 _ _ Hb) as (j & Hj & Kj). rewrite Pb in Kj. rewrite Hj in Hxy. inversion Hxy. lia.
          -- exfalso. destruct (K3 _ _ Ha) as (j & Hj & Kj). rewrite Pa in Kj. rewrite Hj in Hxy. inversion Hxy. lia.
          -- f_equal. eapply K4; eauto.
  Qed.
  Lemma fill_total pick ps s : (forall p, In p ps -> pick p <> None) -> exists l s', fill R pick ps s = Some (l, s').
  Proof.
    revert s. induction ps as [|p ps IH]; intros s H; cbn; eauto.
    destruct (pick p) as [c|] eqn:Ep; [|exfalso; apply (H p); cbn; auto].
    destruct c as [i|]; cbn.
    - destruct (IH s) as (l & s' & ->); [intros; apply H; cbn; auto|]. eauto.
    - destruct (IH (s ++ [None])) as (l & s' & ->); [intros; apply H; cbn; auto|]. eauto.
  Qed.

  Lemma cells_length h w : length (cells h w) = h * w.
  Proof. unfold cells. rewrite prod_length, !seq_length. reflexivity. Qed.
  Lemma cells_nth h w r c : r < h -> c < w -> nth_error (cells h w) (r * w + c) = Some (r, c).
  Proof.
    unfold cells. intros Hr Hc.
    assert (G : forall a l, r < length l -> nth r l 0 = a ->
                nth_error (list_prod l (seq 0 w)) (r * w + c) = Some (a, c)).
    { clear Hr. revert r. intros r a l. revert r. induction l as [|x l IH]; intros r Hr Ha; cbn in *; [lia|].
      destruct r as [|r].
      - rewrite nth_error_app1 by (rewrite map_length, seq_length; cbn; lia). cbn.
        subst. apply map_nth_error. rewrite nth_error_nth' with (d := 0) by (rewrite seq_length; lia).
        rewrite seq_nth by lia. reflexivity.
      - rewrite nth_error_app2 by (rewrite map_length, seq_length; cbn; lia).
        rewrite map_length, seq_length. cbn.
        replace (w + r * w + c - w) with (r * w + c) by lia. apply IH; auto. lia. }
    apply G; [rewrite seq_length; lia|rewrite seq_nth by lia; lia].
  Qed.

  (** what a constructor guarantees *)
  Lemma cell_inj w r c r' c' : c < w -> c' < w -> r * w + c = r' * w + c' -> r = r' /\ c = c'.
  Proof. intros. assert (r = r') by nia. subst. split; auto; lia. Qed.

  Lemma alloc_spec h w t s : exists M s', alloc R h w t s = Some (M, s') /\
    ht M = h /\ wd M = w /\ tr M = t /\ (exists k, s' = s ++ repeat None k) /\ wf (length s') M /\ inj M /\
    (forall id, own M id -> length s <= id < length s').
  Proof.
    unfold alloc. destruct (fill_total (fun _ => Some None) (cells h w) s) as (l & s' & E1); [discriminate|].
    rewrite E1. destruct (fill_spec _ _ _ _ _ E1) as (k & K1 & K2 & K3 & K4).
    exists (mk_bmat h w l t), s'. cbn. repeat split; auto.
    - exists k; auto.
    - cbn. rewrite K2. apply cells_length.
    - cbn. unfold idn. cbn. intros r c Hr Hc.
      destruct (K3 _ _ (cells_nth h w r c Hr Hc)) as (i & Hi & Ki). rewrite (nth_error_nth _ _ _ Hi). lia.
    - cbn in *. destruct (cell_inj w r c r' c'); auto.
      unfold idn in *. cbn in *.
      eapply K4; try (apply cells_nth; eauto); auto.
      destruct (K3 _ _ (cells_nth h w r c H H0)) as (i & Hi & Ki).
      destruct (K3 _ _ (cells_nth h w r' c' H1 H2)) as (i' & Hi' & Ki').
      rewrite (nth_error_nth _ _ _ Hi), (nth_error_nth _ _ _ Hi') in H3. congruence.
    - cbn in *. destruct (cell_inj w r c r' c'); auto.
      unfold idn in *. cbn in *.
      eapply K4; try (apply cells_nth; eauto); auto.
      destruct (K3 _ _ (cells_nth h w r c H H0)) as (i & Hi & Ki).
      destruct (K3 _ _ (cells_nth h w r' c' H1 H2)) as (i' & Hi' & Ki').
      rewrite (nth_error_nth _ _ _ Hi), (nth_error_nth _ _ _ Hi') in H3. congruence.
    - destruct H as (r & c & Hr & Hc & <-). unfold idn. cbn in *.
      destruct (K3 _ _ (cells_nth h w r c Hr Hc)) as (i & Hi & Ki). rewrite (nth_error_nth _ _ _ Hi). lia.
    - destruct H as (r & c & Hr & Hc & <-). unfold idn. cbn in *.
      destruct (K3 _ _ (cells_nth h w r c Hr Hc)) as (i & Hi & Ki). rewrite (nth_error_nth _ _ _ Hi). lia.
  Qed.

  Lemma sub_spec M h w r0 c0 s : wf (length s) M -> inj M -> r0 <= ht M -> c0 <= wd M ->
    exists M' s', sub R M h w r0 c0 s = Some (M', s') /\
      ht M' = h /\ wd M' = w /\ tr M' = tr M /\ (exists k, s' = s ++ repeat None k) /\ wf (length s') M' /\ inj M' /\
      (forall r c, r < h -> c < w ->
         if (r0 + r <? ht M) && (c0 + c <? wd M) then idn M' r c = idn M (r0 + r) (c0 + c)
         else length s <= idn M' r c < length s').
  Proof.
    intros W J Hr0 Hc0. unfold sub.
    destruct (Nat.leb_spec r0 (ht M)); [|lia]. destruct (Nat.leb_spec c0 (wd M)); [|lia]. cbn [andb].
    set (pick := fun p : nat * nat => _).
    destruct (fill_total pick (cells h w) s) as (l & s' & E1).
    { intros [r c] Hp. apply cells_In in Hp. cbn in Hp. unfold pick. cbn [fst snd].
      destruct (Nat.ltb_spec r (Nat.min (ht M - r0) h)), (Nat.ltb_spec c (Nat.min (wd M - c0) w)); cbn [andb];
        try (intros K; discriminate K).
      rewrite (at_idn _ M _ _ W) by lia. discriminate. }
    rewrite E1. destruct (fill_spec _ _ _ _ _ E1) as (k & K1 & K2 & K3 & K4).
    assert (Ls : length s <= length s') by (rewrite K1, app_length; lia).
    assert (PK : forall r c, r < h -> c < w ->
       pick (r, c) = if (r0 + r <? ht M) && (c0 + c <? wd M) then Some (Some (idn M (r0 + r) (c0 + c))) else Some None).
    { intros r c Hr Hc. unfold pick. cbn [fst snd].
      destruct (Nat.ltb_spec r (Nat.min (ht M - r0) h)), (Nat.ltb_spec c (Nat.min (wd M - c0) w)),
        (Nat.ltb_spec (r0 + r) (ht M)), (Nat.ltb_spec (c0 + c) (wd M)); cbn [andb]; try reflexivity; try lia.
      rewrite (at_idn _ M _ _ W) by lia. rewrite (Nat.add_comm r0 r), (Nat.add_comm c0 c). reflexivity. }
    assert (ID : forall r c, r < h -> c < w ->
         if (r0 + r <? ht M) && (c0 + c <? wd M) then nth (r * w + c) l 0 = idn M (r0 + r) (c0 + c)
         else length s <= nth (r * w + c) l 0 < length s').
    { intros r c Hr Hc. destruct (K3 _ _ (cells_nth h w r c Hr Hc)) as (i & Hi & Ki).
      rewrite (nth_error_nth _ _ _ Hi). rewrite PK in Ki by auto.
      destruct ((r0 + r <? ht M) && (c0 + c <? wd M)); auto. }
    exists (mk_bmat h w l (tr M)), s'. cbn. repeat match goal with |- _ /\ _ => split end; auto.
    - exists k; auto.
    - split. + cbn. rewrite K2. apply cells_length.
      + intros r c Hr Hc. change (r < h) in Hr. change (c < w) in Hc. change (nth (r * w + c) l 0 < length s'). specialize (ID r c Hr Hc).
        destruct ((r0 + r <? ht M) && (c0 + c <? wd M)) eqn:Eb; [|lia].
        rewrite ID. apply andb_true_iff in Eb. rewrite !Nat.ltb_lt in Eb.
        assert (idn M (r0 + r) (c0 + c) < length s) by (apply W; lia). lia.
    - intros r c r' c' Hr Hc Hr' Hc' Hid. change (nth (r * w + c) l 0 = nth (r' * w + c') l 0) in Hid.
      change (r < h) in Hr. change (c < w) in Hc. change (r' < h) in Hr'. change (c' < w) in Hc'.
      pose proof (ID r c Hr Hc) as I1. pose proof (ID r' c' Hr' Hc') as I2.
      destruct ((r0 + r <? ht M) && (c0 + c <? wd M)) eqn:Eb, ((r0 + r' <? ht M) && (c0 + c' <? wd M)) eqn:Eb'.
      + apply andb_true_iff in Eb, Eb'. rewrite !Nat.ltb_lt in Eb, Eb'. rewrite I1, I2 in Hid.
        destruct (J (r0 + r) (c0 + c) (r0 + r') (c0 + c')); try lia.
      + exfalso. apply andb_true_iff in Eb. rewrite !Nat.ltb_lt in Eb.
        assert (idn M (r0 + r) (c0 + c) < length s) by (apply W; lia). lia.
      + exfalso. apply andb_true_iff in Eb'. rewrite !Nat.ltb_lt in Eb'.
        assert (idn M (r0 + r') (c0 + c') < length s) by (apply W; lia). lia.
      + apply (cell_inj w); auto.
        eapply K4; try (apply cells_nth; eauto); rewrite ?PK by auto; rewrite ?Eb, ?Eb'; auto.
        destruct (K3 _ _ (cells_nth h w r c Hr Hc)) as (i & Hi & _).
        destruct (K3 _ _ (cells_nth h w r' c' Hr' Hc')) as (i' & Hi' & _).
        rewrite (nth_error_nth _ _ _ Hi), (nth_error_nth _ _ _ Hi') in Hid. congruence.
  Qed.
End Base.
