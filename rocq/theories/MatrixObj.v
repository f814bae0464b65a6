(** Matrix objects behave as values (MatrixObjModel.v, MatrixSpec.v). *)
From Coq Require Import List Arith Bool PeanoNat Lia Ring FinFun.
From Verif Require Import MatrixModel MatrixBase MatrixProofs MatrixRec MatrixStrassen MatrixSw MatrixVec MatrixFeedModel MatrixFeed MatrixSpec MatrixObjModel.
Import ListNotations.

Lemma upd_length (X : Type) (l : list X) i x : length (upd l i x) = length l.
Proof. revert i. induction l as [|y l IH]; intros [|i]; cbn; auto. Qed.
Lemma nth_upd (X : Type) (l : list X) i j x d : i < length l -> nth j (upd l i x) d = if j =? i then x else nth j l d.
Proof.
  revert i j. induction l as [|y l IH]; intros [|i] [|j] H; cbn in *; try lia; auto. apply IH. lia.
Qed.
Lemma upd_same (X : Type) (l : list X) i d : upd l i (nth i l d) = l.
Proof. revert i. induction l as [|y l IH]; intros [|i]; cbn; auto. f_equal. apply IH. Qed.

Section ObjP.
  Variable R : Type.
  Variables (rO rI : R) (radd rmul rsub : R -> R -> R) (ropp : R -> R).
  Variable Rth : ring_theory rO rI radd rmul rsub ropp eq.
  Variable B : nat.
  Hypothesis Bpos : 0 < B.

  Add Ring Rring7 : Rth.

  Notation store := (list (option (list R))).
  Notation blk := (blk R).
  Notation V := (V R rO B).
  Notation E := (E R rO B).
  Notation Sum := (Sum R rO radd).
  Notation get := (get R rO).
  Notation mval := (mval R).
  Notation vh := (vh R). Notation vw := (vw R). Notation ve := (ve R).
  Notation blocks_for := (blocks_for B).
  Notation prodE := (prodE R rO radd rmul B).

  (** ** Values *)

  (** the element, zero outside of the matrix *)
  Definition pad (v : mval) (i j : nat) : R := if (i <? vh v) && (j <? vw v) then ve v i j else rO.
  Definition val_ok (s : store) (M : bmat) (v : mval) : Prop :=
    forall I J a b, I < ht M -> J < wd M -> a < B -> b < B -> E s M I J a b = pad v (I * B + a) (J * B + b).
  Definition dims_ok (M : bmat) (h w : nat) : Prop := ht M = blocks_for h /\ wd M = blocks_for w.

  Lemma blocks_for_ge n : n <= blocks_for n * B.
  Proof.
    unfold MatrixModel.blocks_for. pose proof (Nat.div_mod (n + (B - 1)) B ltac:(lia)) as H.
    pose proof (Nat.mod_upper_bound (n + (B - 1)) B ltac:(lia)). nia.
  Qed.
  Lemma blocks_for_lt n i : i < n -> i / B < blocks_for n.
  Proof.
    intros H. apply Nat.div_lt_upper_bound; [lia|]. pose proof (blocks_for_ge n). nia.
  Qed.

  Record good (st : mstate R) : Prop := {
    g_wf : forall p, p < length (heap _ st) -> wf (length (sto _ st)) (nth p (heap _ st) d0) /\ inj (nth p (heap _ st) d0);
    g_dj : forall p q, p < length (heap _ st) -> q < length (heap _ st) -> p <> q -> disj (nth p (heap _ st) d0) (nth q (heap _ st) d0) }.
  Definition ok_obj (st : mstate R) (ob : mobj) (v : mval) : Prop :=
    op ob < length (heap _ st) /\ oh ob = vh v /\ ow ob = vw v /\
    dims_ok (nth (op ob) (heap _ st) d0) (vh v) (vw v) /\ val_ok (sto _ st) (nth (op ob) (heap _ st) d0) v.
  Definition ok_opt (st : mstate R) (x : option mobj) (y : option mval) : Prop :=
    match x, y with Some ob, Some v => ok_obj st ob v | None, None => True | _, _ => False end.
  Record rel (st : mstate R) (vs : list (option mval)) : Prop := {
    r_good : good st;
    r_len : length (objs _ st) = length vs;
    r_obj : forall o, ok_opt st (nth o (objs _ st) None) (nth o vs None) }.

  Lemma rel_obj st vs o v : rel st vs -> obj R vs o = Some v -> exists ob, the R st o = Some ob /\ ok_obj st ob v /\
    as_matrix R st o = Some (mk_matrix (vh v) (vw v) (nth (op ob) (heap _ st) d0)) /\ o < length (objs _ st).
  Proof.
    intros H Ho. pose proof (r_obj _ _ H o) as K. unfold obj in Ho. rewrite Ho in K. unfold ok_opt in K.
    unfold as_matrix, the. destruct (nth o (objs R st) None) as [ob|] eqn:En; [|tauto].
    exists ob. split; auto. split; auto. destruct K as (K1 & K2 & K3 & K4). split.
    - rewrite (nth_error_nth' _ d0) by auto. rewrite K2, K3. reflexivity.
    - destruct (Nat.lt_ge_cases o (length (objs R st))) as [L|L]; auto. rewrite nth_overflow in En by auto. discriminate.
  Qed.

  (** the value of an object whose blocks are not changed *)
  Lemma ok_keep st st' ob v : good st -> ok_obj st ob v ->
    (forall p, p < length (heap _ st) -> p = op ob -> p < length (heap _ st') /\ nth p (heap _ st') d0 = nth p (heap _ st) d0) ->
    (forall id, own (nth (op ob) (heap _ st) d0) id -> blk (sto _ st') id = blk (sto _ st) id) ->
    ok_obj st' ob v.
  Proof.
    intros G (K1 & K2 & K3 & K4 & K5) Hh Hb. destruct (Hh _ K1 eq_refl) as [L1 N1].
    split; auto. split; auto. split; auto. rewrite N1. split; auto.
    intros I J a b HI HJ Ha Hbb. rewrite <- K5 by auto. apply E_frame. apply Hb. apply own_idn; auto.
  Qed.

  (** a new swappable_block_matrix, assigned to o *)
  Lemma rel_push st vs M s o v p st' :
    rel st vs -> o < length (objs _ st) ->
    length (sto _ st) <= length s -> (forall id, id < length (sto _ st) -> blk s id = blk (sto _ st) id) ->
    wf (length s) M -> inj M -> (forall id, own M id -> length (sto _ st) <= id) ->
    dims_ok M (vh v) (vw v) -> val_ok s M v -> push R st M s = (p, st') ->
    exists st'', assign R st' o (Some (mk_obj (vh v) (vw v) p)) = Some st'' /\ rel st'' (upd vs o (Some v)) /\
      the R st'' o = Some (mk_obj (vh v) (vw v) p) /\ p = length (heap _ st) /\ nth p (heap _ st'') d0 = M /\ length (heap _ st'') = S p /\
      objs _ st'' = upd (objs _ st) o (Some (mk_obj (vh v) (vw v) p)).
  Proof.
    intros H Ho Ls Kb WM JM OM DM VM Ep. injection Ep as <- <-. unfold assign. cbn [objs sto heap].
    destruct (Nat.ltb_spec o (length (objs R st))); [|lia]. eexists. split; [reflexivity|].
    destruct H as [[GW GD] HL HO]. set (hp := heap R st) in *.
    assert (Nold : forall q, q < length hp -> nth q (hp ++ [M]) d0 = nth q hp d0) by (intros; apply app_nth1; auto).
    assert (Nnew : nth (length hp) (hp ++ [M]) d0 = M) by (rewrite app_nth2, Nat.sub_diag by lia; reflexivity).
    split; [|split; [unfold the; cbn [objs]; rewrite nth_upd, Nat.eqb_refl by auto; reflexivity|]].
    - constructor; cbn [objs sto heap].
      + constructor; cbn [objs sto heap].
        * intros q Hq. rewrite app_length in Hq. cbn in Hq. destruct (Nat.eq_dec q (length hp)) as [->|N].
          -- rewrite Nnew. auto.
          -- rewrite Nold by lia. destruct (GW q) as [Wq Jq]; [lia|]. split; auto. apply (wf_le (length (sto R st))); auto.
        * intros q r Hq Hr N. rewrite app_length in Hq, Hr. cbn in Hq, Hr.
          destruct (Nat.eq_dec q (length hp)) as [Eq|Nq], (Nat.eq_dec r (length hp)) as [Er|Nr].
          -- lia.
          -- subst q. rewrite Nnew, Nold by lia. destruct (GW r) as [Wr _]; [lia|]. intros id K1 K2. apply OM in K1. pose proof (own_lt _ _ _ Wr K2). lia.
          -- subst r. rewrite Nnew, Nold by lia. destruct (GW q) as [Wq _]; [lia|]. intros id K1 K2. apply OM in K2. pose proof (own_lt _ _ _ Wq K1). lia.
          -- rewrite !Nold by lia. apply GD; lia.
      + rewrite !upd_length. auto.
      + intros o'. rewrite !nth_upd by lia. destruct (Nat.eqb_spec o' o) as [->|N].
        * unfold ok_opt, ok_obj. cbn [op oh ow objs sto heap]. rewrite app_length, Nnew. cbn. split; [lia|]. auto.
        * specialize (HO o'). unfold ok_opt in *. destruct (nth o' (objs R st) None) as [ob|]; auto. destruct (nth o' vs None) as [v'|]; auto.
          apply (ok_keep st); auto.
          -- constructor; auto.
          -- cbn [heap]. intros q Hq _. fold hp in Hq. split; [rewrite app_length; cbn [length]; lia|]. apply Nold; auto.
          -- cbn [sto]. intros id Hid. apply Kb. destruct HO as (K1 & _). eapply own_lt; [|exact Hid]. apply GW; auto.
    - cbn [heap objs]. split; [reflexivity|]. split; [exact Nnew|]. split; [rewrite app_length; cbn [length]; lia|reflexivity].
  Qed.

  (** an object that does not share its blocks: reference count 1 *)
  Definition alone (st : mstate R) (o : nat) : Prop :=
    forall o' ob ob', the R st o = Some ob -> the R st o' = Some ob' -> op ob' = op ob -> o' = o.
  Lemma refs_alone st o ob : the R st o = Some ob -> refs R st (op ob) = 1 -> alone st o.
  Proof.
    unfold alone, the, refs. intros Ho Hr o' ob1 ob' Ho1 Ho' Ep. rewrite Ho in Ho1. injection Ho1 as <-.
    set (f := fun x : option mobj => match x with Some b => op b =? op ob | None => false end) in *.
    assert (G : forall l : list (option mobj), length (filter f l) = 1 -> forall a b, a < length l -> b < length l ->
               f (nth a l None) = true -> f (nth b l None) = true -> a = b).
    { clear. induction l as [|x l IH]; cbn; intros H a b La Lb Fa Fb; [discriminate|].
      assert (Z : forall l : list (option mobj), length (filter f l) = 0 -> forall a, a < length l -> f (nth a l None) = true -> False).
      { clear. induction l as [|x l IH]; cbn; intros H a La Fa; [lia|].
        destruct (f x) eqn:Fx; [discriminate|]. destruct a as [|a]; [congruence|]. apply (IH H a); auto; lia. }
      destruct (f x) eqn:Fx; cbn in H.
      - injection H as H. destruct a as [|a], b as [|b]; auto; exfalso; [apply (Z l H b)|apply (Z l H a)|apply (Z l H a)]; auto; lia.
      - destruct a as [|a]; [congruence|]. destruct b as [|b]; [congruence|]. f_equal. apply IH; auto; lia. }
    apply (G _ Hr); auto.
    - destruct (Nat.lt_ge_cases o' (length (objs R st))); auto. rewrite nth_overflow in Ho' by auto. discriminate.
    - destruct (Nat.lt_ge_cases o (length (objs R st))); auto. rewrite nth_overflow in Ho by auto. discriminate.
    - rewrite Ho'. cbn. rewrite Ep. apply Nat.eqb_refl.
    - rewrite Ho. cbn. apply Nat.eqb_refl.
  Qed.

  Lemma rel_unify st vs o v : rel st vs -> obj R vs o = Some v ->
    exists st', unify R rO radd B st o = Some st' /\ rel st' vs /\ alone st' o.
  Proof.
    intros H Ho. destruct (rel_obj _ _ _ _ H Ho) as (ob & Hob & (K1 & K2 & K3 & K4 & K5) & _ & Lo).
    unfold unify. rewrite Hob. unfold unique. destruct (Nat.eqb_spec (refs R st (op ob)) 1) as [Hr|Hr].
    - exists st. split; auto. split; auto. eapply refs_alone; eauto.
    - rewrite (nth_error_nth' _ d0) by auto.
      destruct (g_wf _ (r_good _ _ H) _ K1) as [W J].
      destruct (copy_spec R rO rI radd rmul rsub ropp Rth B _ _ W) as (M & s & E1 & D1 & D2 & D3 & L & WM & JM & OM & FM & VM).
      rewrite E1. destruct (push R st M s) as [p st1] eqn:Ep. rewrite K2, K3.
      destruct (rel_push st vs M s o v p st1) as (st2 & E2 & R2 & T2 & P2 & _ & _ & Ob2); auto.
      + intros id Hid. apply OM; auto.
      + unfold dims_ok. rewrite D1, D2. exact K4.
      + intros I Jx a b HI HJ Ha Hb. rewrite VM by (auto; lia). apply K5; auto; lia.
      + exists st2. split; auto. split.
        * assert (Eu : upd vs o (Some v) = vs) by (rewrite <- Ho; apply upd_same). rewrite Eu in R2. exact R2.
        * intros o' ob1 ob' H1 H2 H3. rewrite T2 in H1. injection H1 as <-. cbn [op] in H3.
          destruct (Nat.eq_dec o' o) as [|N]; auto. exfalso.
          unfold the in H2. rewrite Ob2, nth_upd in H2 by auto. destruct (Nat.eqb_spec o' o); [lia|].
          pose proof (r_obj _ _ H o') as Q. unfold ok_opt in Q. rewrite H2 in Q. destruct (nth o' vs None); [|tauto].
          destruct Q as [Q _]. lia.
  Qed.

  (** the blocks of o are changed in place *)
  Lemma rel_write st vs o v ob s :
    rel st vs -> alone st o -> the R st o = Some ob -> obj R vs o <> None ->
    changes R (sto _ st) s (nth (op ob) (heap _ st) d0) ->
    vh v = oh ob -> vw v = ow ob -> dims_ok (nth (op ob) (heap _ st) d0) (vh v) (vw v) ->
    val_ok s (nth (op ob) (heap _ st) d0) v -> rel (with_sto R st s) (upd vs o (Some v)).
  Proof.
    intros H Al Hob Hv [Ls Fs] Eh Ew Dv Vv. pose proof H as [[GW GD] HL HO].
    assert (Lo : o < length (objs R st)).
    { destruct (Nat.lt_ge_cases o (length (objs R st))); auto. unfold the in Hob. rewrite nth_overflow in Hob by auto. discriminate. }
    assert (Kp : op ob < length (heap R st)).
    { specialize (HO o). unfold the in Hob. rewrite Hob in HO. unfold ok_opt in HO. destruct (nth o vs None); [apply HO|tauto]. }
    constructor; cbn [with_sto objs sto heap].
    - constructor; cbn [with_sto objs sto heap]; auto. intros p Hp. destruct (GW p Hp) as [W J]. split; auto. apply (wf_le (length (sto R st))); auto.
    - rewrite upd_length. auto.
    - intros o'. rewrite nth_upd by lia. destruct (Nat.eqb_spec o' o) as [->|N].
      + unfold the in Hob. rewrite Hob. unfold ok_opt, ok_obj. cbn [with_sto heap sto]. auto.
      + specialize (HO o'). unfold ok_opt in *. destruct (nth o' (objs R st) None) as [ob'|] eqn:E'; auto. destruct (nth o' vs None) as [v'|]; auto.
        apply (ok_keep st); auto.
        * constructor; auto.
        * cbn [with_sto sto]. intros id Hid. destruct HO as (K1 & _). apply Fs.
          -- eapply own_lt; [|exact Hid]. apply GW; auto.
          -- intros K. apply (GD (op ob') (op ob) K1 Kp) with (id := id); auto.
             intros Q. apply N. apply (Al o' ob ob'); auto.
  Qed.


  (** a variable receives what another one has, or nothing *)
  Lemma rel_assign st vs o x y : rel st vs -> o < length vs -> ok_opt st x y ->
    exists st', assign R st o x = Some st' /\ rel st' (upd vs o y).
  Proof.
    intros [G L O] Ho Hx. unfold assign. rewrite L. destruct (Nat.ltb_spec o (length vs)); [|lia].
    eexists. split; [reflexivity|]. constructor; cbn [objs sto heap].
    - destruct G as [GW GD]. constructor; auto.
    - rewrite !upd_length. auto.
    - intros o'. rewrite !nth_upd by lia. destruct (o' =? o); [exact Hx|exact (O o')].
  Qed.

  (** the representation changes, the values do not *)
  Lemma rel_same st vs s : rel st vs -> length (sto _ st) <= length s ->
    (forall id t i k, id < length (sto _ st) -> i < B -> k < B -> V s id t i k = V (sto _ st) id t i k) -> rel (with_sto R st s) vs.
  Proof.
    intros [[GW GD] L O] Ls Hv. constructor; cbn [with_sto objs sto heap]; auto.
    - constructor; cbn [with_sto objs sto heap]; auto. intros p Hp. destruct (GW p Hp). split; auto. apply (wf_le (length (sto R st))); auto.
    - intros o. specialize (O o). unfold ok_opt in *. destruct (nth o (objs R st) None) as [ob|]; auto. destruct (nth o vs None) as [v|]; auto.
      destruct O as (K1 & K2 & K3 & K4 & K5). split; auto. split; auto. split; auto. split; auto. cbn [with_sto objs sto heap].
      intros I J a b HI HJ Ha Hb. rewrite <- K5 by auto. unfold MatrixBase.E. apply Hv; auto. apply GW; auto.
  Qed.

  (** ** The results of the operators *)

  Lemma new_spec h w s : exists M s', m_new R B h w s = Some (mk_matrix h w M, s') /\ ext R s s' /\ dims_ok M h w /\
    wf (length s') M /\ inj M /\ (forall id, own M id -> length s <= id < length s') /\
    (forall I J i k, I < ht M -> J < wd M -> E s' M I J i k = rO).
  Proof.
    unfold m_new. destruct (alloc_spec R (blocks_for h) (blocks_for w) false s) as (M & s1 & E1 & A1 & A2 & A3 & (n & A4) & A5 & A6 & A7).
    rewrite E1. assert (X : ext R s s1) by (subst; apply ext_app). exists M, s1. split; auto. split; auto. split; [split; auto|].
    split; auto. split; auto. split; auto.
    intros I J i k HI HJ. apply zero_E. rewrite (proj2 X). apply blk_over. apply A7. apply own_idn; auto.
  Qed.

  (** what is known of a result *)
  Definition result_ok (s : store) (r : option (matrix * store)) (v : mval) : Prop :=
    exists M s', r = Some (mk_matrix (vh v) (vw v) M, s') /\ length s <= length s' /\
      (forall id, id < length s -> blk s' id = blk s id) /\ wf (length s') M /\ inj M /\
      (forall id, own M id -> length s <= id) /\ dims_ok M (vh v) (vw v) /\ val_ok s' M v.
  Lemma rel_give st vs o r v : rel st vs -> o < length vs -> result_ok (sto _ st) r v ->
    exists st', give R st o r = Some st' /\ rel st' (upd vs o (Some v)).
  Proof.
    intros H Ho (M & s' & -> & L & F & W & J & O & D & Vv). unfold give. cbn [md mh mw].
    destruct (push R st M s') as [p st1] eqn:Ep.
    destruct (rel_push st vs M s' o v p st1) as (st2 & E2 & R2 & _); auto.
    - rewrite (r_len _ _ H). auto.
    - exists st2. auto.
  Qed.

  Lemma pad_zero h w i j : pad (v_zero R rO h w) i j = rO.
  Proof. unfold pad. cbn [MatrixSpec.vh MatrixSpec.vw MatrixSpec.ve v_zero]. destruct ((i <? h) && (j <? w)); reflexivity. Qed.
  Lemma new_ok h w s : result_ok s (m_new R B h w s) (v_zero R rO h w).
  Proof.
    destruct (new_spec h w s) as (M & s1 & E1 & X & D & W & J & O & Z). exists M, s1. cbn [MatrixSpec.vh MatrixSpec.vw v_zero].
    split; auto. split; [apply X|]. split; [intros; apply X|]. split; auto. split; auto. split; [intros; apply O; auto|]. split; auto.
    intros I Jx a b HI HJ Ha Hb. rewrite Z, pad_zero by auto. reflexivity.
  Qed.

  Lemma same_iff (a b : mval) : same R a b = true -> vh b = vh a /\ vw b = vw a.
  Proof. unfold same. rewrite andb_true_iff, !Nat.eqb_eq. intuition. Qed.
  Lemma pad_op f a b i j : same R a b = true -> f rO rO = rO -> pad (v_op R f a b) i j = f (pad a i j) (pad b i j).
  Proof.
    intros Sm H0. apply same_iff in Sm. destruct Sm as [S1 S2]. unfold pad. cbn [MatrixSpec.vh MatrixSpec.vw MatrixSpec.ve v_op]. rewrite S1, S2.
    destruct ((i <? vh a) && (j <? vw a)); auto.
  Qed.
  Lemma pad_scale a x i j : pad (v_scale R rmul a x) i j = rmul (pad a i j) x.
  Proof. unfold pad. cbn [MatrixSpec.vh MatrixSpec.vw MatrixSpec.ve v_scale]. destruct ((i <? vh a) && (j <? vw a)); auto. ring. Qed.

  (** an operand *)
  Definition operand (s : store) (M : bmat) (v : mval) : Prop :=
    wf (length s) M /\ inj M /\ dims_ok M (vh v) (vw v) /\ val_ok s M v.
  Lemma ok_operand st ob v : good st -> ok_obj st ob v -> operand (sto _ st) (nth (op ob) (heap _ st) d0) v.
  Proof. intros G (K1 & K2 & K3 & K4 & K5). destruct (g_wf _ G _ K1). unfold operand. auto. Qed.
  Lemma operand_ext s s' M v : ext R s s' -> operand s M v -> operand s' M v.
  Proof.
    intros X (W & J & D & Vv). split; [apply (wf_le (length s)); auto; apply X|]. split; auto. split; auto.
    intros I Jx a b HI HJ Ha Hb. rewrite (ext_E R rO B s s') by auto. auto.
  Qed.

  Lemma op3_ok o a b (s : store) A Bm : operand s A a -> operand s Bm b -> same R a b = true -> op3 R o rO rO = rO ->
    result_ok s (do (m, s) <- m_new R B (vh a) (vw a) s; do s <- element_op3 R rO B o (md m) A Bm s; Some (m, s))
      (v_op R (op3 R o) a b).
  Proof.
    intros OA OB Sm H0. pose proof (same_iff _ _ Sm) as [S1 S2].
    destruct (new_spec (vh a) (vw a) s) as (M & s1 & E1 & X & D & W & J & O & Z). rewrite E1. cbn [md].
    pose proof (operand_ext _ _ _ _ X OA) as (WA & JA & DA & VA). pose proof (operand_ext _ _ _ _ X OB) as (WB & JB & DB & VB).
    rewrite S1, S2 in DB. destruct D as [D1 D2], DA as [DA1 DA2], DB as [DB1 DB2].
    assert (DiA : disj A M). { intros id K1 K2. apply O in K2. destruct OA as (WA0 & _). pose proof (own_lt _ _ _ WA0 K1). lia. }
    assert (DiB : disj Bm M). { intros id K1 K2. apply O in K2. destruct OB as (WB0 & _). pose proof (own_lt _ _ _ WB0 K1). lia. }
    destruct (element_op3_spec R rO B o M A Bm s1) as (s2 & E2 & [L2 F2] & V2); auto; try lia.
    { apply disj_aligned; auto; lia. } { apply disj_aligned; auto; lia. }
    rewrite E2. exists M, s2. cbn [MatrixSpec.vh MatrixSpec.vw v_op]. split; auto. pose proof (ext_le _ _ _ X).
    split; [lia|]. split.
    { intros id Hid. rewrite F2; [apply X|]. intros K. apply O in K. lia. }
    rewrite L2. split; auto. split; auto. split; [intros; apply O; auto|]. split; [split; auto|].
    intros I Jx x y HI HJ Hx Hy. rewrite V2 by auto. rewrite VA, VB by (auto; lia). rewrite pad_op by auto. reflexivity.
  Qed.

  Lemma scale_ok a (s : store) A x : operand s A a ->
    result_ok s (m_scale R rO rmul B (mk_matrix (vh a) (vw a) A) x s) (v_scale R rmul a x).
  Proof.
    intros OA. unfold m_scale. cbn [mh mw md].
    destruct (new_spec (vh a) (vw a) s) as (M & s1 & E1 & X & D & W & J & O & Z). rewrite E1. cbn [md].
    pose proof (operand_ext _ _ _ _ X OA) as (WA & JA & DA & VA). destruct D as [D1 D2], DA as [DA1 DA2].
    assert (DiA : disj A M). { intros id K1 K2. apply O in K2. destruct OA as (WA0 & _). pose proof (own_lt _ _ _ WA0 K1). lia. }
    destruct (element_op2_spec R rO B (scalar_multiplication R rmul x) M A s1) as (s2 & E2 & [L2 F2] & V2); auto; try lia.
    { apply disj_aligned; auto; lia. }
    { intros. cbn. rewrite Z by auto. ring. }
    rewrite E2. exists M, s2. cbn [MatrixSpec.vh MatrixSpec.vw v_scale]. split; auto. pose proof (ext_le _ _ _ X).
    split; [lia|]. split.
    { intros id Hid. rewrite F2; [apply X|]. intros K. apply O in K. lia. }
    rewrite L2. split; auto. split; auto. split; [intros; apply O; auto|]. split; [split; auto|].
    intros I Jx y z HI HJ Hx Hy. rewrite V2 by auto. rewrite VA by (auto; lia). rewrite pad_scale by auto. reflexivity.
  Qed.

  (** ** Products *)

  Lemma sum_Sum n f : sum R rO radd n f = Sum n f.
  Proof. induction n; cbn; congruence. Qed.

  Lemma prod_pad s A Bm a b I J i k : operand s A a -> operand s Bm b -> vw a = vh b ->
    I < ht A -> J < wd Bm -> i < B -> k < B ->
    prodE s A Bm I J i k = pad (v_mul R rO radd rmul a b) (I * B + i) (J * B + k).
  Proof.
    intros (WA & JA & (DA1 & DA2) & VA) (WB & JB & (DB1 & DB2) & VB) Hd HI HJ Hi Hk. unfold MatrixProofs.prodE.
    transitivity (Sum (wd A * B) (fun n => rmul (pad a (I * B + i) n) (pad b n (J * B + k)))).
    - rewrite (Sum_blocks R rO rI radd rmul rsub ropp Rth). apply Sum_ext. intros K HK. apply Sum_ext. intros x Hx.
      rewrite VA, VB by (auto; rewrite ?DB1, <- ?Hd, <- ?DA2; auto). reflexivity.
    - rewrite (Sum_more R rO rI radd rmul rsub ropp Rth (vw a)).
      + unfold pad. cbn [MatrixSpec.vh MatrixSpec.vw MatrixSpec.ve v_mul].
        destruct (Nat.ltb_spec (I * B + i) (vh a)), (Nat.ltb_spec (J * B + k) (vw b)); cbn [andb].
        * etransitivity; [|symmetry; apply sum_Sum]. apply Sum_ext. intros n Hn. rewrite <- Hd. destruct (Nat.ltb_spec n (vw a)); [|lia]. reflexivity.
        * apply (Sum_zero R rO rI radd rmul rsub ropp Rth). intros n Hn. rewrite andb_false_r. ring.
        * apply (Sum_zero R rO rI radd rmul rsub ropp Rth). intros n Hn. ring.
        * apply (Sum_zero R rO rI radd rmul rsub ropp Rth). intros n Hn. ring.
      + rewrite DA2. apply blocks_for_ge.
      + intros n H1 H2. unfold pad at 1. destruct (Nat.ltb_spec n (vw a)); [lia|]. rewrite andb_false_r. ring.
  Qed.

  Lemma mul_ok_class alg a b (s : store) A Bm : operand s A a -> operand s Bm b -> few_blocks B alg (vh a) (vw a) (vw b) = true -> vw a = vh b ->
    result_ok s (m_multiply R rO radd rmul rsub ropp B alg (mk_matrix (vh a) (vw a) A) (mk_matrix (vh b) (vw b) Bm) s)
      (v_mul R rO radd rmul a b).
  Proof.
    intros OA OB Hk Hd. unfold m_multiply. cbn [mh mw md].
    destruct (new_spec (vh a) (vw b) s) as (M & s1 & E1 & X & D & W & J & O & Z). rewrite E1. cbn [md].
    pose proof (operand_ext _ _ _ _ X OA) as OA'. pose proof (operand_ext _ _ _ _ X OB) as OB'.
    pose proof OA' as (WA & JA & DA & VA). pose proof OB' as (WB & JB & DB & VB).
    destruct D as [D1 D2], DA as [DA1 DA2], DB as [DB1 DB2].
    assert (DiA : disj A M). { intros id K1 K2. apply O in K2. destruct OA as (WA0 & _). pose proof (own_lt _ _ _ WA0 K1). lia. }
    assert (DiB : disj Bm M). { intros id K1 K2. apply O in K2. destruct OB as (WB0 & _). pose proof (own_lt _ _ _ WB0 K1). lia. }
    assert (P : pre (length s1) A Bm M).
    { constructor; auto. unfold fits. rewrite DA1, DA2, DB1, DB2, D1, D2, Hd. auto. }
    set (r := match alg with 0 => _ | _ => _ end).
    assert (G : exists s2, r = Some s2 /\ changes R s1 s2 M /\
      forall I Jx i k, I < ht M -> Jx < wd M -> i < B -> k < B -> E s2 M I Jx i k = prodE s1 A Bm I Jx i k).
    { assert (Ad : forall s2, adds R rO radd rmul B s1 s2 A Bm M ->
        forall I Jx i k, I < ht M -> Jx < wd M -> i < B -> k < B -> E s2 M I Jx i k = prodE s1 A Bm I Jx i k).
      { intros s2 K I Jx i k HI HJ Hi Hkk. rewrite K by auto. rewrite Z by auto. ring. }
      unfold few_blocks, known in Hk. unfold r. destruct alg as [|[|[|[|[|[|[|alg]]]]]]]; cbn [Nat.eqb orb andb] in Hk; try discriminate.
      - destruct (naive_spec R rO rI radd rmul rsub ropp Rth B A Bm M s1 P) as (s2 & E2 & K1 & K2). exists s2. split; auto. split; auto. apply only_changes; auto.
      - destruct (rec_fuel_ok R rO rI radd rmul rsub ropp Rth B A Bm M s1 P) as (s2 & E2 & K1 & K2). exists s2. auto.
      - destruct (sw_ok R rO rI radd rmul rsub ropp Rth B (fuel_of A M) A Bm M) with (s := s1) as (s2 & E2 & K1 & K2); [unfold fuel_of; lia|exact P|].
        exists s2. auto.
      - destruct (multi_level_small R rO rI radd rmul rsub ropp Rth B A Bm M) with (s := s1) as (s2 & E2 & K1 & K2); [|exact P|exists s2; auto].
        apply ilog2_ceil_spec. cbn [Nat.pow]. rewrite orb_false_r in Hk. rewrite !orb_true_iff, !Nat.leb_le in Hk.
        change (ceil_div (vh a) B) with (blocks_for (vh a)) in Hk. change (ceil_div (vw a) B) with (blocks_for (vw a)) in Hk.
        change (ceil_div (vw b) B) with (blocks_for (vw b)) in Hk. lia.
      - destruct (swm_ok R rO rI radd rmul rsub ropp Rth B (fuel_of A M) A Bm M) with (s := s1) as (s2 & E2 & K1 & K2); [unfold fuel_of; lia|exact P|].
        exists s2. auto.
      - destruct (swi_ok R rO rI radd rmul rsub ropp Rth B (fuel_of A M) A Bm M) with (s := s1) as (s2 & E2 & K1 & K2); [unfold fuel_of; lia|exact P|].
        exists s2. auto.
      - destruct (multi_level_bg_small R rO rI radd rmul rsub ropp Rth B (levels A M) A Bm M) with (s := s1) as (s2 & E2 & K1 & K2); [|exact P|exists s2; auto].
        apply ilog2_ceil_spec. cbn [Nat.pow]. rewrite !orb_true_iff, !Nat.leb_le in Hk.
        change (ceil_div (vh a) B) with (blocks_for (vh a)) in Hk. change (ceil_div (vw a) B) with (blocks_for (vw a)) in Hk.
        change (ceil_div (vw b) B) with (blocks_for (vw b)) in Hk. lia. }
    destruct G as (s2 & E2 & [L2 F2] & V2). rewrite E2. exists M, s2. cbn [MatrixSpec.vh MatrixSpec.vw v_mul]. split; auto. pose proof (ext_le _ _ _ X).
    split; [lia|]. split.
    { intros id Hid. rewrite F2; [apply X|lia|]. intros K. apply O in K. lia. }
    split; [apply (wf_le (length s1)); auto|]. split; auto. split; [intros; apply O; auto|]. split; [split; auto|].
    intros I Jx y z HI HJ Hx Hy. rewrite V2 by auto. apply prod_pad; auto; lia.
  Qed.
End ObjP.
