(** Every statement of a program over matrix objects does what MatrixSpec.v says. *)
From Coq Require Import List Arith Bool PeanoNat Lia Ring FinFun.
From Verif Require Import MatrixModel MatrixBase MatrixProofs MatrixRec MatrixStrassen MatrixSw MatrixVec MatrixFeedModel MatrixSpec MatrixObjModel MatrixObj.
Import ListNotations.

Section StepP.
  Variable R : Type.
  Variables (rO rI : R) (radd rmul rsub : R -> R -> R) (ropp : R -> R).
  Variable Rth : ring_theory rO rI radd rmul rsub ropp eq.
  Variable B : nat.
  Hypothesis Bpos : 0 < B.

  Add Ring Rring8 : Rth.

  Notation store := (list (option (list R))).
  Notation blk := (blk R).
  Notation V := (V R rO B).
  Notation E := (E R rO B).
  Notation Sum := (Sum R rO radd).
  Notation get := (get R rO).
  Notation mval := (mval R).
  Notation vh := (vh R). Notation vw := (vw R). Notation ve := (ve R).
  Notation pad := (pad R rO).
  Notation val_ok := (val_ok R rO B).
  Notation dims_ok := (dims_ok B).
  Notation rel := (rel R rO B).
  Notation ok_obj := (ok_obj R rO B).
  Notation operand := (operand R rO B).
  Notation alone := (alone R).

  Lemma div_pos n : B * (n / B) + n mod B = n.
  Proof. symmetry. apply Nat.div_mod. lia. Qed.
  Lemma mod_lt n : n mod B < B.
  Proof. apply Nat.mod_upper_bound. lia. Qed.
  Lemma pad_in v i j : i < vh v -> j < vw v -> pad v i j = ve v i j.
  Proof. intros. unfold MatrixObj.pad. destruct (Nat.ltb_spec i (vh v)), (Nat.ltb_spec j (vw v)); try lia. reflexivity. Qed.
  Lemma split_eq I a i : a < B -> (I * B + a = i <-> I = i / B /\ a = i mod B).
  Proof.
    intros Ha. split.
    - intros <-. rewrite idx_false_div, idx_false_mod by auto. auto.
    - intros [-> ->]. pose proof (div_pos i). lia.
  Qed.
  Lemma idx_inj t r c r' c' : r < B -> c < B -> r' < B -> c' < B -> idx B t r c = idx B t r' c' -> r = r' /\ c = c'.
  Proof.
    intros Hr Hc Hr' Hc' H. destruct t; cbn in H.
    - assert (K : c * B + r = c' * B + r') by lia. apply split_eq in K; auto. rewrite idx_false_div, idx_false_mod in K by auto. tauto.
    - apply split_eq in H; auto. rewrite idx_false_div, idx_false_mod in H by auto. tauto.
  Qed.

  Lemma alone_refl st o ob : the R st o = Some ob -> alone st o -> forall o' ob', the R st o' = Some ob' -> o' <> o -> op ob' <> op ob.
  Proof. intros H Al o' ob' H' N K. apply N. eapply Al; eauto. Qed.

  (** ** Transposition *)

  Lemma transpose_spec n M : wf n M -> exists M', transpose M = Some M' /\ ht M' = wd M /\ wd M' = ht M /\ tr M' = negb (tr M) /\
    (forall r c, r < wd M -> c < ht M -> idn M' r c = idn M c r) /\ length (ids M') = wd M * ht M.
  Proof.
    intros W. assert (G : transpose_ids M = Some (map (fun p => idn M (snd p) (fst p)) (cells (wd M) (ht M)))).
    { unfold transpose_ids.
      assert (Hin : forall p, In p (cells (wd M) (ht M)) -> at_ M (snd p) (fst p) = Some (idn M (snd p) (fst p))).
      { intros p Hp. apply cells_In in Hp. apply (at_idn n); tauto. }
      induction (cells (wd M) (ht M)) as [|p ps IH]; cbn [fold_right map]; auto.
      rewrite IH by (intros; apply Hin; right; auto). rewrite Hin by (left; auto). reflexivity. }
    unfold transpose. rewrite G. eexists. split; [reflexivity|]. cbn [ht wd tr ids]. split; auto. split; auto. split; auto. split.
    - intros r c Hr Hc. unfold idn at 1. cbn [ids wd]. apply nth_error_nth. rewrite nth_error_map, cells_nth by auto. reflexivity.
    - rewrite map_length. apply cells_length.
  Qed.

  Lemma pad_trans v i j : pad (v_trans R v) i j = pad v j i.
  Proof. unfold MatrixObj.pad. cbn [MatrixSpec.vh MatrixSpec.vw MatrixSpec.ve v_trans]. rewrite andb_comm. reflexivity. Qed.

  Lemma rel_trans st vs o v ob : rel st vs -> alone st o -> the R st o = Some ob -> ok_obj st ob v -> o < length (objs _ st) ->
    exists M' st', transpose (nth (op ob) (heap _ st) d0) = Some M' /\
      assign R (mk_st R (sto _ st) (upd (heap _ st) (op ob) M') (objs _ st)) o (Some (mk_obj (vw v) (vh v) (op ob))) = Some st' /\
      rel st' (upd vs o (Some (v_trans R v))).
  Proof.
    intros H Al Hob (K1 & K2 & K3 & K4 & K5) Lo. pose proof H as [[GW GD] HL HO].
    destruct (GW _ K1) as [W J].
    destruct (transpose_spec _ _ W) as (M' & E1 & D1 & D2 & D3 & D4 & D5).
    set (M := nth (op ob) (heap R st) d0) in *.
    assert (Own : forall id, own M' id <-> own M id).
    { intros id. split; intros (r & c & Hr & Hc & <-).
      - rewrite D1 in Hr. rewrite D2 in Hc. rewrite D4 by auto. apply own_idn; auto.
      - rewrite <- D4 by auto. apply own_idn; lia. }
    exists M'. unfold assign. cbn [objs sto heap]. destruct (Nat.ltb_spec o (length (objs R st))); [|lia].
    eexists. split; [exact E1|]. split; [reflexivity|].
    assert (Nth : forall p, nth p (upd (heap R st) (op ob) M') d0 = if p =? op ob then M' else nth p (heap R st) d0) by (intros; apply nth_upd; auto).
    assert (Op : forall p id, own (nth p (upd (heap R st) (op ob) M') d0) id <-> own (nth p (heap R st) d0) id).
    { intros p id. rewrite Nth. destruct (Nat.eqb_spec p (op ob)) as [Ep|]; [rewrite Ep|]; [apply Own|reflexivity]. }
    constructor; cbn [objs sto heap].
    - constructor; cbn [objs sto heap].
      + intros p Hp. rewrite upd_length in Hp. rewrite Nth. destruct (Nat.eqb_spec p (op ob)) as [Ep|]; [|auto]. split.
        * split; [rewrite D1, D2; auto|]. intros r c Hr Hc. rewrite D1 in Hr. rewrite D2 in Hc. rewrite D4 by auto. apply W; auto.
        * intros r c r' c' Hr Hc Hr' Hc' K. rewrite D1 in Hr, Hr'. rewrite D2 in Hc, Hc'. rewrite !D4 in K by auto.
          destruct (J c r c' r'); auto.
      + intros p q Hp Hq N id A1 A2. rewrite upd_length in Hp, Hq. apply Op in A1. apply Op in A2. apply (GD p q Hp Hq N id A1 A2).
    - rewrite !upd_length. auto.
    - intros o'. rewrite !nth_upd by lia. destruct (Nat.eqb_spec o' o) as [Eo|N].
      + unfold ok_opt, MatrixObj.ok_obj. cbn [op oh ow objs sto heap]. rewrite upd_length, Nth, Nat.eqb_refl.
        cbn [MatrixSpec.vh MatrixSpec.vw v_trans]. split; auto. split; auto. split; auto. split.
        * destruct K4. split; congruence.
        * intros I Jx a b HI HJ Ha Hb. rewrite pad_trans. rewrite <- K5 by (auto; lia). unfold MatrixBase.E, MatrixBase.V.
          rewrite D4, D3, idx_neg by lia. reflexivity.
      + specialize (HO o'). unfold ok_opt in *. destruct (nth o' (objs R st) None) as [ob'|] eqn:E'; auto. destruct (nth o' vs None) as [v'|]; auto.
        pose proof (alone_refl _ _ _ Hob Al o' ob' E' N) as Nop.
        destruct HO as (Q1 & Q2 & Q3 & Q4 & Q5). unfold MatrixObj.ok_obj. cbn [op oh ow objs sto heap]. rewrite upd_length, Nth.
        destruct (Nat.eqb_spec (op ob') (op ob)); [lia|]. repeat apply conj; auto; apply Q4.
  Qed.

  (** ** Elements *)

  Lemma acquired_val s id i : get (acquired R rO B s id) i = oget R rO (blk s id) i.
  Proof.
    unfold acquired. destruct (blk s id); cbn; auto. unfold zeros, MatrixModel.get. apply nth_repeat.
  Qed.
  Lemma get_set_elem l i x k : k < B * B -> get (set_elem R rO B l i x) k = if k =? i then x else get l k.
  Proof.
    intros Hk. unfold set_elem. unfold MatrixModel.get at 1.
    rewrite (nth_indep _ rO ((fun k => if k =? i then x else get l k) 0)) by (rewrite map_length, seq_length; lia).
    rewrite (map_nth (fun k => if k =? i then x else get l k)), seq_nth by lia. reflexivity.
  Qed.

  Lemma put_elem_ok (s : store) M v i j x : operand s M v -> i < vh v -> j < vw v ->
    exists s', put_elem R rO B M i j x s = Some s' /\ changes R s s' M /\ val_ok s' M (v_set R v i j x).
  Proof.
    intros (W & J & (D1 & D2) & Vv) Hi Hj.
    assert (HI : i / B < ht M) by (rewrite D1; apply blocks_for_lt; auto).
    assert (HJ : j / B < wd M) by (rewrite D2; apply blocks_for_lt; auto).
    unfold put_elem, elem_block. rewrite (at_idn (length s)) by auto. eexists. split; [reflexivity|].
    assert (Hid : idn M (i / B) (j / B) < length s) by (apply W; auto).
    split.
    - split; [rewrite put_length; auto|]. intros id Hl No. apply blk_put_other. intros ->. apply No. apply own_idn; auto.
    - intros I Jx a b HI' HJ' Ha Hb. unfold MatrixObj.pad. cbn [MatrixSpec.vh MatrixSpec.vw MatrixSpec.ve v_set].
      pose proof (Vv I Jx a b HI' HJ' Ha Hb) as Ev. unfold MatrixObj.pad in Ev. unfold MatrixBase.E, MatrixBase.V in *.
      destruct (Nat.eq_dec (idn M I Jx) (idn M (i / B) (j / B))) as [Ed|Nd].
      + destruct (J _ _ _ _ HI' HJ' HI HJ Ed) as [EI EJ]. subst I Jx.
        rewrite blk_put_same by auto. cbn [oget]. rewrite get_set_elem by (apply idx_lt; auto). unfold elem_index.
        rewrite acquired_val.
        destruct (Nat.eqb_spec (idx B (tr M) a b) (idx B (tr M) (i mod B) (j mod B))) as [Ei|Ni].
        * apply idx_inj in Ei; auto using mod_lt. destruct Ei; subst a b.
          assert (P1 : i / B * B + i mod B = i) by (apply split_eq; auto using mod_lt).
          assert (P2 : j / B * B + j mod B = j) by (apply split_eq; auto using mod_lt).
          rewrite P1, P2. destruct (Nat.ltb_spec i (vh v)), (Nat.ltb_spec j (vw v)); try lia. rewrite !Nat.eqb_refl. reflexivity.
        * rewrite Ev. destruct (Nat.eqb_spec (i / B * B + a) i) as [Q1|]; cbn [andb]; auto.
          destruct (Nat.eqb_spec (j / B * B + b) j) as [Q2|]; auto.
          apply split_eq in Q1; auto. apply split_eq in Q2; auto. destruct Q1 as [_ Q1], Q2 as [_ Q2]. exfalso. apply Ni. congruence.
      + rewrite blk_put_other by auto. rewrite Ev.
        destruct (Nat.eqb_spec (I * B + a) i) as [Q1|]; cbn [andb]; auto. destruct (Nat.eqb_spec (Jx * B + b) j) as [Q2|]; auto.
        apply split_eq in Q1; auto. apply split_eq in Q2; auto. exfalso. apply Nd. destruct Q1 as [-> _], Q2 as [-> _]. reflexivity.
  Qed.

  Lemma get_elem_ok st vs o v ob i j : rel st vs -> the R st o = Some ob -> ok_obj st ob v -> i < vh v -> j < vw v ->
    exists s', get_elem R rO B (nth (op ob) (heap _ st) d0) i j (sto _ st) = Some (ve v i j, s') /\ rel (with_sto R st s') vs.
  Proof.
    intros H Hob Ok Hi Hj. destruct (ok_operand R rO B _ _ _ (r_good _ _ _ _ _ H) Ok) as (W & J & (D1 & D2) & Vv).
    set (M := nth (op ob) (heap R st) d0) in *. set (s := sto R st) in *.
    assert (HI : i / B < ht M) by (rewrite D1; apply blocks_for_lt; auto).
    assert (HJ : j / B < wd M) by (rewrite D2; apply blocks_for_lt; auto).
    unfold get_elem, elem_block. rewrite (at_idn (length s)) by auto.
    eexists. split.
    - f_equal. f_equal. rewrite acquired_val. unfold elem_index.
      pose proof (Vv _ _ _ _ HI HJ (mod_lt i) (mod_lt j)) as Ev. unfold MatrixBase.E, MatrixBase.V in Ev. rewrite Ev.
      assert (P1 : i / B * B + i mod B = i) by (apply split_eq; auto using mod_lt).
      assert (P2 : j / B * B + j mod B = j) by (apply split_eq; auto using mod_lt).
      rewrite P1, P2. apply pad_in; auto.
    - apply rel_same; auto.
      + rewrite put_length. auto.
      + intros id t a b Hid Ha Hb. fold s. unfold MatrixBase.V. destruct (Nat.eq_dec id (idn M (i / B) (j / B))) as [->|N].
        * rewrite blk_put_same by (apply W; auto). cbn [oget]. apply acquired_val.
        * rewrite blk_put_other by auto. reflexivity.
  Qed.

  (** ** Products with vectors *)

  Lemma get_map_seq (f : nat -> R) n t : t < n -> get (map f (seq 0 n)) t = f t.
  Proof.
    intros H. unfold MatrixModel.get. rewrite (nth_indep _ rO (f 0)) by (rewrite map_length, seq_length; lia).
    rewrite map_nth, seq_nth by lia. reflexivity.
  Qed.
  Lemma list_eq_get (l l' : list R) : length l = length l' -> (forall t, t < length l -> get l t = get l' t) -> l = l'.
  Proof. intros L H. apply (nth_ext _ _ rO rO); auto. Qed.
  Lemma in_block t I : ((0 + I) * B <=? t) && (t <? (0 + I) * B + B) = (t / B =? I).
  Proof.
    pose proof (div_pos t). pose proof (mod_lt t). cbn [Nat.add].
    destruct (Nat.eqb_spec (t / B) I) as [Et|N].
    - subst I. rewrite andb_true_iff, Nat.leb_le, Nat.ltb_lt. lia.
    - rewrite andb_false_iff, Nat.leb_gt, Nat.ltb_ge. destruct (Nat.lt_ge_cases (t / B) I).
      + left. assert (S (t / B) * B <= I * B) by (apply Nat.mul_le_mono_r; lia). lia.
      + right. assert (S I * B <= t / B * B) by (apply Nat.mul_le_mono_r; lia). lia.
  Qed.
  Lemma ext_rel st vs s' : rel st vs -> ext R (sto _ st) s' -> rel (with_sto R st s') vs.
  Proof.
    intros H [L X]. apply rel_same; auto. intros id t i k _ _ _. apply V_eq. apply X.
  Qed.

  Lemma col_ok st vs v ob x : rel st vs -> ok_obj st ob v -> length x = vw v ->
    exists s', m_col_vector R rO radd rmul B (mk_matrix (vh v) (vw v) (nth (op ob) (heap _ st) d0)) x (sto _ st)
      = Some (v_col R rO radd rmul v x, s') /\ rel (with_sto R st s') vs.
  Proof.
    intros H Ok Lx. destruct (ok_operand R rO B _ _ _ (r_good _ _ _ _ _ H) Ok) as (W & J & (D1 & D2) & Vv).
    set (M := nth (op ob) (heap R st) d0) in *. set (s := sto R st) in *.
    unfold m_col_vector. cbn [md mh].
    destruct (rec_col R rO rI radd rmul rsub ropp Rth B (S (ht M + wd M)) s M x (repeat rO (vh v)) 0 0) as (z & s' & E1 & X & Lz & Gz); auto.
    exists s'. rewrite E1. split; [|apply ext_rel; auto]. f_equal. f_equal. rewrite repeat_length in Lz, Gz.
    apply list_eq_get; [rewrite Lz; unfold v_col; rewrite map_length, seq_length; auto|].
    rewrite Lz. intros t Ht. rewrite Gz by auto. unfold v_col. rewrite get_map_seq by auto.
    transitivity (Sum (ht M) (fun I => if t / B =? I then Sum (wd M) (fun Jx => Sum B (fun c => rmul (get x (Jx * B + c)) (E s M I Jx (t mod B) c))) else rO)).
    { replace (get (repeat rO (vh v)) t) with rO by (symmetry; apply nth_repeat).
      match goal with |- radd rO ?a = _ => replace (radd rO a) with a by ring end.
      apply Sum_ext. intros I HI. unfold ccol. rewrite in_block. destruct (Nat.eqb_spec (t / B) I) as [Et|N].
      - subst I. apply Sum_ext. intros Jx HJ. apply Sum_ext. intros c Hc. cbn [Nat.add]. assert (Q : t - t / B * B = t mod B) by (pose proof (div_pos t); lia). rewrite Q. reflexivity.
      - apply (Sum_zero R rO rI radd rmul rsub ropp Rth). auto. }
    rewrite (Sum_pick R rO rI radd rmul rsub ropp Rth).
    assert (HI : t / B < ht M) by (rewrite D1; apply blocks_for_lt; auto).
    destruct (Nat.ltb_spec (t / B) (ht M)); [|lia].
    transitivity (Sum (wd M * B) (fun n => rmul (get x n) (pad v t n))).
    { rewrite (Sum_blocks R rO rI radd rmul rsub ropp Rth). apply Sum_ext. intros Jx HJ. apply Sum_ext. intros c Hc.
      rewrite Vv by (auto; apply mod_lt). assert (Q : t / B * B + t mod B = t) by (apply split_eq; auto using mod_lt). rewrite Q. reflexivity. }
    rewrite (Sum_more R rO rI radd rmul rsub ropp Rth (vw v)).
    - etransitivity; [|symmetry; apply sum_Sum]. apply Sum_ext. intros n Hn. rewrite pad_in by auto. reflexivity.
    - rewrite D2. apply blocks_for_ge. auto.
    - intros n H1 H2. rewrite get_over by lia. ring.
  Qed.

  Lemma row_ok st vs v ob y : rel st vs -> ok_obj st ob v -> length y = vh v ->
    exists s', m_row_vector R rO radd rmul B y (mk_matrix (vh v) (vw v) (nth (op ob) (heap _ st) d0)) (sto _ st)
      = Some (v_row R rO radd rmul v y, s') /\ rel (with_sto R st s') vs.
  Proof.
    intros H Ok Ly. destruct (ok_operand R rO B _ _ _ (r_good _ _ _ _ _ H) Ok) as (W & J & (D1 & D2) & Vv).
    set (M := nth (op ob) (heap R st) d0) in *. set (s := sto R st) in *.
    unfold m_row_vector. cbn [md mw].
    destruct (rec_row R rO rI radd rmul rsub ropp Rth B (S (ht M + wd M)) s M y (repeat rO (vw v)) 0 0) as (z & s' & E1 & X & Lz & Gz); auto.
    exists s'. rewrite E1. split; [|apply ext_rel; auto]. f_equal. f_equal. rewrite repeat_length in Lz, Gz.
    apply list_eq_get; [rewrite Lz; unfold v_row; rewrite map_length, seq_length; auto|].
    rewrite Lz. intros t Ht. rewrite Gz by auto. unfold v_row. rewrite get_map_seq by auto.
    rewrite (Sum_swap R rO rI radd rmul rsub ropp Rth).
    transitivity (Sum (wd M) (fun Jx => if t / B =? Jx then Sum (ht M) (fun I => Sum B (fun r => rmul (E s M I Jx r (t mod B)) (get y (I * B + r)))) else rO)).
    { replace (get (repeat rO (vw v)) t) with rO by (symmetry; apply nth_repeat).
      match goal with |- radd rO ?a = _ => replace (radd rO a) with a by ring end.
      apply Sum_ext. intros Jx HJ. unfold crow. rewrite in_block. destruct (Nat.eqb_spec (t / B) Jx) as [Et|N].
      - subst Jx. apply Sum_ext. intros I HI. apply Sum_ext. intros c Hc. cbn [Nat.add]. assert (Q : t - t / B * B = t mod B) by (pose proof (div_pos t); lia). rewrite Q. reflexivity.
      - apply (Sum_zero R rO rI radd rmul rsub ropp Rth). auto. }
    rewrite (Sum_pick R rO rI radd rmul rsub ropp Rth).
    assert (HI : t / B < wd M) by (rewrite D2; apply blocks_for_lt; auto).
    destruct (Nat.ltb_spec (t / B) (wd M)); [|lia].
    transitivity (Sum (ht M * B) (fun n => rmul (pad v n t) (get y n))).
    { rewrite (Sum_blocks R rO rI radd rmul rsub ropp Rth). apply Sum_ext. intros I HI'. apply Sum_ext. intros c Hc.
      rewrite Vv by (auto; apply mod_lt). assert (Q : t / B * B + t mod B = t) by (apply split_eq; auto using mod_lt). rewrite Q. reflexivity. }
    rewrite (Sum_more R rO rI radd rmul rsub ropp Rth (vh v)).
    - etransitivity; [|symmetry; apply sum_Sum]. apply Sum_ext. intros n Hn. rewrite pad_in by auto. reflexivity.
    - rewrite D1. apply blocks_for_ge. auto.
    - intros n H1 H2. rewrite get_over by lia. ring.
  Qed.

  (** ** Assignment operators *)

  Lemma op2_ok st vs o b v w (f : elop R) : rel st vs -> alone st o -> obj R vs o = Some v -> obj R vs b = Some w -> same R v w = true ->
    (forall x, op1 R f x = op2 R f rO x) -> (forall x, op2 R f x rO = x) ->
    exists m n s', as_matrix R st o = Some m /\ as_matrix R st b = Some n /\ element_op2 R rO B f (md m) (md n) (sto _ st) = Some s' /\
      rel (with_sto R st s') (upd vs o (Some (v_op R (op2 R f) v w))).
  Proof.
    intros H Al Ho Hb Sm H1 H2.
    destruct (rel_obj R rO B _ _ _ _ H Ho) as (ob & Hob & Ok & A1 & Lo). destruct (rel_obj R rO B _ _ _ _ H Hb) as (bb & Hbb & Okb & A2 & _).
    destruct (ok_operand R rO B _ _ _ (r_good _ _ _ _ _ H) Ok) as (W & J & D & Vv).
    destruct (ok_operand R rO B _ _ _ (r_good _ _ _ _ _ H) Okb) as (W2 & J2 & D2 & Vv2).
    destruct (same_iff R v w Sm) as [S1 S2].
    set (M := nth (op ob) (heap R st) d0) in *. set (N := nth (op bb) (heap R st) d0) in *.
    rewrite S1, S2 in D2. pose proof D as [Da Db]. destruct D2 as [Dc Dd].
    assert (Alg : aligned M N).
    { destruct (Nat.eq_dec (op bb) (op ob)) as [Ep|Np].
      - unfold N. rewrite Ep. exact J.
      - apply disj_aligned; try congruence. apply (g_dj R _ (r_good _ _ _ _ _ H)); [apply Okb|apply Ok|auto]. }
    destruct (element_op2_spec R rO B f M N (sto R st)) as (s' & E1 & O1 & V1); auto; try congruence.
    exists (mk_matrix (vh v) (vw v) M), (mk_matrix (vh w) (vw w) N), s'. split; auto. split; auto. split; auto.
    apply (rel_write R rO B Bpos) with (ob := ob); auto.
    - congruence.
    - apply only_changes; auto.
    - cbn [MatrixSpec.vh v_op]. symmetry. apply Ok.
    - cbn [MatrixSpec.vw v_op]. symmetry. apply Ok.
    - intros I Jx a c HI HJ Ha Hc. rewrite V1 by auto. rewrite Vv, Vv2 by (auto; rewrite ?Dc, ?Dd, <- ?Da, <- ?Db; auto).
      symmetry. apply (pad_op R rO (op2 R f)); auto.
  Qed.

  (** ** Steps and programs *)

  Lemma store_eq vs o y vs' out : s_store R vs o y = Some (vs', out) -> o < length vs /\ vs' = upd vs o y /\ out = ([], []).
  Proof. unfold s_store. destruct (Nat.ltb_spec o (length vs)); [|discriminate]. intros K. injection K as <- <-. auto. Qed.
  Lemma quiet_ok (r : option (mstate R)) vs' : (exists st', r = Some st' /\ rel st' vs') ->
    exists st', quiet R r = Some (st', ([], [])) /\ rel st' vs'.
  Proof. intros (st' & -> & H). exists st'. auto. Qed.

  Notation m_step := (m_step R rO radd rmul rsub ropp B).
  (** products are asked for only where the algorithm is right *)
  Variable allowed : nat -> nat -> nat -> nat -> bool.
  Hypothesis allowed_ok : forall alg h l w, allowed alg h l w = true -> few_blocks B alg h l w = true.
  Notation s_step := (s_step R rO radd rmul rsub allowed).

  Theorem step_ok c st vs vs' out : rel st vs -> s_step c vs = Some (vs', out) ->
    exists st', m_step c st = Some (st', out) /\ rel st' vs'.
  Proof.
    intros H S.
    assert (OP : forall o ob v, the R st o = Some ob -> ok_obj st ob v -> operand (sto _ st) (nth (op ob) (heap _ st) d0) v).
    { intros o ob v _ Ok. apply (ok_operand R rO B); auto. apply (r_good _ _ _ _ _ H). }
    destruct c as [o h w|o a|o|o i j x|o|o|o a b|o a b|o a x|alg o a b|o b|o b|o x|o b|o i j|o|o x|o y]; cbn [MatrixSpec.s_step] in S;
      unfold MatrixObjModel.m_step.
    - (* new *)
      apply store_eq in S. destruct S as (L & -> & ->). apply quiet_ok. apply (rel_give R rO B Bpos); auto.
      apply (new_ok R rO B Bpos) || apply new_ok.
    - (* copy *)
      destruct (obj R vs a) as [v|] eqn:Ea; [|discriminate]. apply store_eq in S. destruct S as (L & -> & ->).
      destruct (rel_obj R rO B _ _ _ _ H Ea) as (ob & Hob & Ok & A1 & La). apply quiet_ok. rewrite Hob. apply (rel_assign R rO B Bpos); auto.
    - (* delete *)
      apply store_eq in S. destruct S as (L & -> & ->). apply quiet_ok. apply (rel_assign R rO B Bpos); auto. exact I.
    - (* element *)
      destruct (obj R vs o) as [v|] eqn:Eo; [|discriminate].
      destruct (Nat.ltb_spec i (vh v)) as [Li|]; cbn [andb] in S; [|discriminate].
      destruct (Nat.ltb_spec j (vw v)) as [Lj|]; [|discriminate]. apply store_eq in S. destruct S as (L & -> & ->).
      destruct (rel_unify R rO rI radd rmul rsub ropp Rth B Bpos _ _ _ _ H Eo) as (st1 & U1 & H1 & Al). apply quiet_ok. rewrite U1.
      destruct (rel_obj R rO B _ _ _ _ H1 Eo) as (ob & Hob & Ok & A1 & La). rewrite A1. cbn [md].
      destruct (put_elem_ok (sto R st1) (nth (op ob) (heap R st1) d0) v i j x) as (s' & E1 & C1 & V1); auto.
      { apply (ok_operand R rO B); auto. apply (r_good _ _ _ _ _ H1). }
      rewrite E1. eexists. split; [reflexivity|]. destruct Ok as (K1 & K2 & K3 & K4 & K5).
      apply (rel_write R rO B Bpos) with (ob := ob); auto. congruence.
    - (* set_zero *)
      destruct (obj R vs o) as [v|] eqn:Eo; [|discriminate]. apply store_eq in S. destruct S as (L & -> & ->).
      destruct (rel_obj R rO B _ _ _ _ H Eo) as (ob & Hob & Ok & A1 & La). apply quiet_ok. rewrite Hob.
      destruct Ok as (K1 & K2 & K3 & K4 & K5).
      unfold unique. destruct (Nat.eqb_spec (refs R st (op ob)) 1) as [Er|Nr].
      + rewrite A1. eexists. split; [reflexivity|]. cbn [md].
        destruct (g_wf _ _ (r_good _ _ _ _ _ H) _ K1) as [W J].
        destruct (set_zero_spec R _ _ W) as [O1 Z1].
        apply (rel_write R rO B Bpos) with (ob := ob); auto.
        * eapply refs_alone; eauto.
        * congruence.
        * apply only_changes; auto.
        * intros I Jx a b HI HJ Ha Hb. rewrite pad_zero. apply zero_E. apply Z1. apply own_idn; auto.
      + rewrite K2, K3. apply (rel_give R rO B Bpos); auto. apply (new_ok R rO B Bpos) || apply new_ok.
    - (* transpose *)
      destruct (obj R vs o) as [v|] eqn:Eo; [|discriminate]. apply store_eq in S. destruct S as (L & -> & ->).
      destruct (rel_unify R rO rI radd rmul rsub ropp Rth B Bpos _ _ _ _ H Eo) as (st1 & U1 & H1 & Al). apply quiet_ok. rewrite U1.
      destruct (rel_obj R rO B _ _ _ _ H1 Eo) as (ob & Hob & Ok & A1 & La). rewrite Hob, A1. unfold m_transpose. cbn [md mh mw].
      destruct (rel_trans st1 vs o v ob) as (M' & st2 & E1 & E2 & R2); auto. rewrite E1. cbn [md mh mw]. eauto.
    - (* + *)
      destruct (obj R vs a) as [v|] eqn:Ea; [|discriminate]. destruct (obj R vs b) as [w|] eqn:Eb; [|discriminate].
      destruct (same R v w) eqn:Sm; [|discriminate]. apply store_eq in S. destruct S as (L & -> & ->).
      destruct (rel_obj R rO B _ _ _ _ H Ea) as (oa & Hoa & Oka & A1 & _). destruct (rel_obj R rO B _ _ _ _ H Eb) as (ob & Hob & Okb & A2 & _).
      apply quiet_ok. rewrite A1, A2. apply (rel_give R rO B Bpos); auto. unfold m_add. cbn [mh mw md].
      apply (op3_ok R rO B Bpos (addition R radd)); eauto. cbn. ring.
    - (* - *)
      destruct (obj R vs a) as [v|] eqn:Ea; [|discriminate]. destruct (obj R vs b) as [w|] eqn:Eb; [|discriminate].
      destruct (same R v w) eqn:Sm; [|discriminate]. apply store_eq in S. destruct S as (L & -> & ->).
      destruct (rel_obj R rO B _ _ _ _ H Ea) as (oa & Hoa & Oka & A1 & _). destruct (rel_obj R rO B _ _ _ _ H Eb) as (ob & Hob & Okb & A2 & _).
      apply quiet_ok. rewrite A1, A2. apply (rel_give R rO B Bpos); auto. unfold m_sub. cbn [mh mw md].
      apply (op3_ok R rO B Bpos (subtraction R rsub ropp)); eauto. cbn. ring.
    - (* scalar *)
      destruct (obj R vs a) as [v|] eqn:Ea; [|discriminate]. apply store_eq in S. destruct S as (L & -> & ->).
      destruct (rel_obj R rO B _ _ _ _ H Ea) as (oa & Hoa & Oka & A1 & _).
      apply quiet_ok. rewrite A1. apply (rel_give R rO B Bpos); auto. apply (scale_ok R rO rI radd rmul rsub ropp Rth B Bpos); eauto.
    - (* product *)
      destruct (obj R vs a) as [v|] eqn:Ea; [|discriminate]. destruct (obj R vs b) as [w|] eqn:Eb; [|discriminate].
      destruct (allowed alg (vh v) (vw v) (vw w)) eqn:Ek; cbn [andb] in S; [|discriminate]. destruct (Nat.eqb_spec (vw v) (vh w)) as [Ed|]; [|discriminate].
      apply store_eq in S. destruct S as (L & -> & ->).
      destruct (rel_obj R rO B _ _ _ _ H Ea) as (oa & Hoa & Oka & A1 & _). destruct (rel_obj R rO B _ _ _ _ H Eb) as (ob & Hob & Okb & A2 & _).
      apply quiet_ok. rewrite A1, A2. apply (rel_give R rO B Bpos); auto. apply (mul_ok_class R rO rI radd rmul rsub ropp Rth B Bpos); eauto.
    - (* += *)
      destruct (obj R vs o) as [v|] eqn:Eo; [|discriminate]. destruct (obj R vs b) as [w|] eqn:Eb; [|discriminate].
      destruct (same R v w) eqn:Sm; [|discriminate]. apply store_eq in S. destruct S as (L & -> & ->).
      destruct (rel_unify R rO rI radd rmul rsub ropp Rth B Bpos _ _ _ _ H Eo) as (st1 & U1 & H1 & Al). apply quiet_ok. rewrite U1.
      destruct (op2_ok st1 vs o b v w (addition R radd)) as (m & n & s' & A1 & A2 & E1 & R1); auto.
      { intros x. cbn. ring. } { intros x. cbn. ring. }
      rewrite A1, A2. unfold m_add_assign. rewrite E1. eauto.
    - (* -= *)
      destruct (obj R vs o) as [v|] eqn:Eo; [|discriminate]. destruct (obj R vs b) as [w|] eqn:Eb; [|discriminate].
      destruct (same R v w) eqn:Sm; [|discriminate]. apply store_eq in S. destruct S as (L & -> & ->).
      destruct (rel_unify R rO rI radd rmul rsub ropp Rth B Bpos _ _ _ _ H Eo) as (st1 & U1 & H1 & Al). apply quiet_ok. rewrite U1.
      destruct (op2_ok st1 vs o b v w (subtraction R rsub ropp)) as (m & n & s' & A1 & A2 & E1 & R1); auto.
      { intros x. cbn. ring. } { intros x. cbn. ring. }
      rewrite A1, A2. unfold m_sub_assign. rewrite E1. eauto.
    - (* scalar *= *)
      destruct (obj R vs o) as [v|] eqn:Eo; [|discriminate]. apply store_eq in S. destruct S as (L & -> & ->).
      destruct (rel_unify R rO rI radd rmul rsub ropp Rth B Bpos _ _ _ _ H Eo) as (st1 & U1 & H1 & Al). apply quiet_ok. rewrite U1.
      destruct (rel_obj R rO B _ _ _ _ H1 Eo) as (ob & Hob & Ok & A1 & La). rewrite A1. unfold m_scale_assign. cbn [md].
      destruct (ok_operand R rO B _ _ _ (r_good _ _ _ _ _ H1) Ok) as (W & J & D & Vv).
      destruct (element_op1_spec R rO B (scalar_multiplication R rmul x) (nth (op ob) (heap R st1) d0) (sto R st1) W J) as (s' & E1 & O1 & V1).
      { cbn. ring. }
      rewrite E1. eexists. split; [reflexivity|]. destruct Ok as (K1 & K2 & K3 & K4 & K5).
      apply (rel_write R rO B Bpos) with (ob := ob); auto.
      + congruence.
      + apply only_changes; auto.
      + intros I Jx a c HI HJ Ha Hc. rewrite V1 by auto. rewrite Vv by auto. cbn [op1 scalar_multiplication].
        symmetry. apply (pad_scale R rO rI radd rmul rsub ropp Rth).
    - (* matrix *= *)
      destruct (obj R vs o) as [v|] eqn:Ea; [|discriminate]. destruct (obj R vs b) as [w|] eqn:Eb; [|discriminate].
      destruct (Nat.eqb_spec (vw v) (vh w)) as [Ed|]; [|discriminate].
      apply store_eq in S. destruct S as (L & -> & ->).
      destruct (rel_obj R rO B _ _ _ _ H Ea) as (oa & Hoa & Oka & A1 & _). destruct (rel_obj R rO B _ _ _ _ H Eb) as (ob & Hob & Okb & A2 & _).
      apply quiet_ok. rewrite A1, A2. apply (rel_give R rO B Bpos); auto. apply (mul_ok_class R rO rI radd rmul rsub ropp Rth B Bpos); eauto.
    - (* read *)
      destruct (obj R vs o) as [v|] eqn:Eo; [|discriminate].
      destruct (Nat.ltb_spec i (vh v)) as [Li|]; cbn [andb] in S; [|discriminate].
      destruct (Nat.ltb_spec j (vw v)) as [Lj|]; [|discriminate]. injection S as <- <-.
      destruct (rel_obj R rO B _ _ _ _ H Eo) as (ob & Hob & Ok & A1 & La). rewrite A1. cbn [md].
      destruct (get_elem_ok st vs o v ob i j) as (s' & E1 & R1); auto. rewrite E1. eauto.
    - (* sizes *)
      destruct (obj R vs o) as [v|] eqn:Eo; [|discriminate]. injection S as <- <-.
      destruct (rel_obj R rO B _ _ _ _ H Eo) as (ob & Hob & Ok & A1 & La). rewrite A1. eauto.
    - (* A x *)
      destruct (obj R vs o) as [v|] eqn:Eo; [|discriminate]. destruct (Nat.eqb_spec (length x) (vw v)) as [Lx|]; [|discriminate].
      injection S as <- <-. destruct (rel_obj R rO B _ _ _ _ H Eo) as (ob & Hob & Ok & A1 & La). rewrite A1.
      destruct (col_ok st vs v ob x) as (s' & E1 & R1); auto. rewrite E1. eauto.
    - (* y A *)
      destruct (obj R vs o) as [v|] eqn:Eo; [|discriminate]. destruct (Nat.eqb_spec (length y) (vh v)) as [Lx|]; [|discriminate].
      injection S as <- <-. destruct (rel_obj R rO B _ _ _ _ H Eo) as (ob & Hob & Ok & A1 & La). rewrite A1.
      destruct (row_ok st vs v ob y) as (s' & E1 & R1); auto. rewrite E1. eauto.
  Qed.

  Lemma run_ok cs : forall st vs outs, rel st vs -> s_run R rO radd rmul rsub allowed cs vs = Some outs ->
    m_run R rO radd rmul rsub ropp B cs st = Some outs.
  Proof.
    induction cs as [|c cs IH]; intros st vs outs H S; cbn [s_run m_run] in *; [auto|].
    destruct (s_step c vs) as [[vs' out]|] eqn:Es; [|discriminate].
    destruct (step_ok c st vs vs' out H Es) as (st' & E1 & R1). rewrite E1.
    destruct (s_run R rO radd rmul rsub allowed cs vs') as [outs'|] eqn:Er; [|discriminate].
    rewrite (IH st' vs' outs' R1 Er). exact S.
  Qed.

  Lemma rel_init n : rel (mk_st R [] [] (repeat None n)) (repeat None n).
  Proof.
    constructor; cbn [objs sto heap].
    - constructor; cbn [objs sto heap length]; intros; lia.
    - rewrite !repeat_length. reflexivity.
    - intros o. assert (N : forall (X : Type) (m k : nat), nth k (repeat (@None X) m) None = None) by (intros; apply nth_repeat).
      rewrite !N. exact I.
  Qed.

  Theorem program_ok n cs outs : spec_outputs R rO radd rmul rsub allowed n cs = Some outs ->
    outputs R rO radd rmul rsub ropp B n cs = Some outs.
  Proof. apply run_ok. apply rel_init. Qed.
End StepP.
