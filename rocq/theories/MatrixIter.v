(** Iterators over matrices denote positions, and every block that is acquired is released. *)
From Coq Require Import List Arith Bool PeanoNat ZArith Lia Ring.
From Verif Require Import MatrixModel MatrixBase MatrixProofs MatrixRec MatrixVec MatrixFeedModel MatrixSpec MatrixObjModel MatrixObj MatrixObjStep MatrixIterSpec MatrixIterModel.
Import ListNotations.

Lemma quot_nat (n B : nat) : 0 < B -> Z.quot (Z.of_nat n) (Z.of_nat B) = Z.of_nat (n / B).
Proof. intros H. rewrite Z.quot_div_nonneg by lia. rewrite Nat2Z.inj_div. reflexivity. Qed.

Definition ids_of (x : option it) : list nat := match x with Some y => match ib y with Some b => [b] | None => [] end | None => [] end.
Definition held (l : list (option it)) : list nat := flat_map ids_of l.
Notation cnt := (count_occ Nat.eq_dec).
Lemma held_upd l k x b : k < length l -> cnt (held (upd l k x)) b + cnt (ids_of (nth k l None)) b = cnt (held l) b + cnt (ids_of x) b.
Proof.
  revert k. induction l as [|y l IH]; intros k Hk; cbn [length] in Hk; [lia|].
  destruct k as [|k]; cbn [upd held flat_map nth]; rewrite !count_occ_app.
  - unfold held. lia.
  - specialize (IH k ltac:(lia)). unfold held in IH. lia.
Qed.
Lemma remove_one_spec b l : 0 < cnt l b -> exists l', remove_one b l = Some l' /\ forall a, cnt l a = cnt l' a + (if Nat.eq_dec b a then 1 else 0).
Proof.
  induction l as [|x l IH]; cbn [count_occ remove_one]; intros H; [lia|].
  destruct (Nat.eqb_spec x b) as [E|N].
  - exists l. split; auto. intros a. subst x. destruct (Nat.eq_dec b a); lia.
  - destruct (Nat.eq_dec x b); [lia|]. destruct (IH H) as (l' & -> & K). eexists. split; [reflexivity|].
    intros a. cbn [count_occ]. rewrite K. destruct (Nat.eq_dec x a); lia.
Qed.
Lemma cnt_one b a : cnt [b] a = if Nat.eq_dec b a then 1 else 0.
Proof. cbn. destruct (Nat.eq_dec b a); reflexivity. Qed.
Lemma held_in l k b : In b (ids_of (nth k l None)) -> 0 < cnt (held l) b.
Proof.
  intros H. apply count_occ_In. apply in_flat_map. exists (nth k l None). split; auto. apply nth_In.
  destruct (Nat.lt_ge_cases k (length l)); auto. rewrite nth_overflow in H by auto. destruct H.
Qed.

Lemma upd_same {A} (l : list (option A)) k : upd l k (nth k l None) = l.
Proof. revert k. induction l as [|x l IH]; intros [|k]; cbn [upd nth]; auto. f_equal. apply IH. Qed.
Lemma obj_lt {R} (vs : list (option (mval R))) o v : obj R vs o = Some v -> o < length vs.
Proof. unfold obj. intros E. destruct (Nat.lt_ge_cases o (length vs)); auto. rewrite nth_overflow in E by auto. discriminate. Qed.

Lemma nth_error_upd_other {A} (l : list A) k k' x : k' <> k -> nth_error (upd l k x) k' = nth_error l k'.
Proof. revert k k'. induction l as [|y l IH]; intros [|k] [|k'] N; cbn [upd nth_error]; auto; try congruence. Qed.

Section IterP.
  Variable R : Type.
  Variables (rO rI : R) (radd rmul rsub : R -> R -> R) (ropp : R -> R).
  Variable Rth : ring_theory rO rI radd rmul rsub ropp eq.
  Variable B : nat.
  Hypothesis Bpos : 0 < B.

  Notation mstate := (mstate R).
  Notation rel := (rel R rO B).
  Notation alone := (alone R).
  Notation vh := (vh R). Notation vw := (vw R).
  Notation vals := (list (option (mval R))).
  Notation data := (data R).

  (** ** unify *)
  Lemma alone_refs st o ob : the R st o = Some ob -> alone st o -> refs R st (op ob) = 1.
  Proof.
    unfold the, refs, MatrixObj.alone. intros Ho Al.
    assert (G : forall l : list (option mobj), nth o l None = Some ob ->
       (forall o' ob', nth o' l None = Some ob' -> op ob' = op ob -> o' = o) ->
       length (filter (fun x => match x with Some b => op b =? op ob | None => false end) l) = 1).
    { clear. intros l. revert o. induction l as [|x l IH]; intros o Hn Hu; [destruct o; discriminate|].
      destruct o as [|o].
      - cbn in Hn. subst x. cbn [filter]. rewrite Nat.eqb_refl. cbn [length]. f_equal.
        assert (Z : forall o' ob', nth o' l None = Some ob' -> op ob' <> op ob).
        { intros o' ob' H1 H2. specialize (Hu (S o') ob' H1 H2). discriminate. }
        clear -Z. induction l as [|x l IH]; auto. cbn [filter].
        assert (Hx : match x with Some b => op b =? op ob | None => false end = false).
        { destruct x as [b|]; auto. apply Nat.eqb_neq. apply (Z 0 b eq_refl). }
        rewrite Hx. apply IH. intros o' ob' H. apply (Z (S o')). exact H.
      - cbn [filter]. assert (Hx : match x with Some b => op b =? op ob | None => false end = false).
        { destruct x as [b|]; auto. apply Nat.eqb_neq. intros E. specialize (Hu 0 b eq_refl E). discriminate. }
        rewrite Hx. apply (IH o); auto. intros o' ob' H1 H2. specialize (Hu (S o') ob' H1 H2). congruence. }
    apply G; auto. intros o' ob' H1 H2. apply (Al o' ob ob'); auto.
  Qed.
  Lemma unify_frame st o st' a M : unify R rO radd B st o = Some st' -> alone st a -> data st a = Some M -> alone st' a /\ data st' a = Some M.
  Proof.
    intros U Aa Da.
    unfold MatrixIterModel.data, as_matrix in Da. destruct (the R st a) as [oa|] eqn:Ta; [|discriminate].
    destruct (nth_error (heap R st) (op oa)) as [M'|] eqn:Na; [|discriminate]. injection Da as Da. cbn [md] in Da. subst M'.
    unfold unify in U. destruct (the R st o) as [ob|] eqn:To; [|discriminate]. unfold unique in U.
    destruct (Nat.eqb_spec (refs R st (op ob)) 1) as [Hr|Hr].
    - injection U as <-. split; auto. unfold MatrixIterModel.data, as_matrix. rewrite Ta, Na. reflexivity.
    - assert (Nao : a <> o).
      { intros ->. rewrite Ta in To. injection To as <-. apply Hr. apply (alone_refs st o); auto. }
      destruct (nth_error (heap R st) (op ob)) as [Mo|]; [|discriminate]. destruct (copy R rO radd B Mo (sto R st)) as [[M' s]|]; [|discriminate].
      unfold push, assign in U. cbn [objs heap sto] in U. destruct (Nat.ltb_spec o (length (objs R st))) as [Lo|]; [|discriminate].
      injection U as U. assert (The : forall o', o' <> o -> the R st' o' = the R st o').
      { intros o' N. rewrite <- U. unfold the. cbn [objs]. rewrite nth_upd by auto. destruct (Nat.eqb_spec o' o); [lia|reflexivity]. }
      assert (Lh : op oa < length (heap R st)) by (apply nth_error_Some; congruence).
      split.
      + intros o' oa' ob' T1 T2 Eo. rewrite The in T1 by auto. rewrite Ta in T1. injection T1 as <-.
        destruct (Nat.eq_dec o' o) as [E|N].
        * exfalso. rewrite E in T2. rewrite <- U in T2. unfold the in T2. cbn [objs] in T2. rewrite nth_upd, Nat.eqb_refl in T2 by auto.
          injection T2 as <-. cbn [op] in Eo. lia.
        * rewrite The in T2 by auto. apply (Aa o' oa ob'); auto.
      + unfold MatrixIterModel.data, as_matrix. rewrite The, Ta by auto. rewrite <- U. cbn [heap].
        rewrite nth_error_app1 by auto. rewrite Na. reflexivity.
  Qed.
  Lemma unify_keeps st vs o v : rel st vs -> obj R vs o = Some v ->
    exists st', unify R rO radd B st o = Some st' /\ rel st' vs /\ alone st' o /\
      forall a M, alone st a -> data st a = Some M -> alone st' a /\ data st' a = Some M.
  Proof.
    intros H Ho. destruct (rel_unify R rO rI radd rmul rsub ropp Rth B Bpos _ _ _ _ H Ho) as (st' & U & R' & Al).
    exists st'. split; auto. split; auto. split; auto. intros a M. apply (unify_frame _ _ _ _ _ U).
  Qed.

  (** ** The relation *)
  Definition pin_ok (st : mstate) (x : it) : Prop :=
    match ib x with
    | None => True
    | Some b => exists M br bc, data st (im x) = Some M /\ ibr x = Z.of_nat br /\ ibc x = Z.of_nat bc /\
                  br < ht M /\ bc < wd M /\ b = idn M br bc
    end.
  Definition at_ok (vs : vals) (x : it) (o : nat) (p : option (nat * nat)) : Prop :=
    im x = o /\ exists v, obj R vs o = Some v /\
    match p with
    | Some (r, c) => ir x = Z.of_nat r /\ ic x = Z.of_nat c /\ r < vh v /\ c < vw v /\
                     ibr x = Z.of_nat (r / B) /\ ibc x = Z.of_nat (c / B)
    | None => ir x = (-1)%Z /\ ic x = (-1)%Z /\ (ib x = None \/ 1 < B /\ ibr x = 0%Z /\ ibc x = 0%Z)
    end.
  Definition it_ok (st : mstate) (vs : vals) (x : option it) (y : option (nat * option (nat * nat))) : Prop :=
    match x, y with
    | Some x, Some (o, p) => alone st o /\ at_ok vs x o p /\ pin_ok st x
    | None, None => True
    | _, _ => False
    end.
  Record irel (st : istate R) (vs : vals) (ys : list (option (nat * option (nat * nat)))) : Prop := {
    ir_rel : rel (ms R st) vs;
    ir_len : length (its R st) = length ys;
    ir_it : forall k, it_ok (ms R st) vs (nth k (its R st) None) (nth k ys None);
    ir_pins : forall b, cnt (pins R st) b = cnt (held (its R st)) b }.

  (** the data of an object *)
  Lemma data_obj st vs o v : rel st vs -> obj R vs o = Some v -> exists M ob, data st o = Some M /\ the R st o = Some ob /\
    M = nth (op ob) (heap R st) d0 /\ ht M = blocks_for B (vh v) /\ wd M = blocks_for B (vw v) /\ wf (length (sto R st)) M /\
    oh ob = vh v /\ ow ob = vw v /\ ok_obj R rO B st ob v.
  Proof.
    intros H Ho. destruct (rel_obj R rO B _ _ _ _ H Ho) as (ob & Hob & Ok & As & Lo).
    exists (nth (op ob) (heap R st) d0), ob. unfold MatrixIterModel.data. rewrite As. split; auto. split; auto. split; auto.
    pose proof Ok as (K1 & K2 & K3 & (D1 & D2) & K5). split; auto. split; auto. split; [|auto].
    apply (g_wf _ _ (r_good _ _ _ _ _ H)); auto.
  Qed.
  Lemma block_at_idn n M br bc : wf n M -> br < ht M -> bc < wd M -> block_at M (Z.of_nat br) (Z.of_nat bc) = Some (idn M br bc).
  Proof.
    intros W H1 H2. unfold block_at. destruct (Z.leb_spec 0 (Z.of_nat br)); [|lia]. destruct (Z.leb_spec 0 (Z.of_nat bc)); [|lia].
    cbn [andb]. rewrite !Nat2Z.id. apply (at_idn n); auto.
  Qed.

  (** the pin of an iterator is given back *)
  Lemma release_ok st vs p x (l : list (option it)) k :
    rel st vs -> pin_ok st x -> nth k l None = Some x -> (forall b, cnt p b = cnt (held l) b) -> (exists v, obj R vs (im x) = Some v) ->
    exists p' x', release R st p x = Some (p', x') /\ x' = mk_it (im x) (ir x) (ic x) (ibr x) (ibc x) None /\
      forall b, cnt p b = cnt p' b + cnt (ids_of (Some x)) b.
  Proof.
    intros H Pk Nk Cn (v & Hv). unfold release, pin_ok in *. unfold ids_of. destruct (ib x) as [b|] eqn:Eb.
    - destruct Pk as (M & br & bc & Dm & E1 & E2 & L1 & L2 & E3). rewrite Dm, E1, E2.
      destruct (data_obj _ _ _ _ H Hv) as (M' & ob & Dm' & _ & _ & _ & _ & W & _). assert (M' = M) by congruence. subst M'.
      rewrite (block_at_idn (length (sto R st))) by auto. rewrite <- E3.
      destruct (remove_one_spec b p) as (p' & E & K).
      { rewrite Cn. apply (held_in l k). rewrite Nk. unfold ids_of. rewrite Eb. left; reflexivity. }
      rewrite E. exists p'. eexists. split; [reflexivity|]. split; [reflexivity|]. intros a. rewrite cnt_one. apply K.
    - exists p, x. split; auto. split; [destruct x; cbn in *; congruence|]. intros a. cbn. lia.
  Qed.
  (** a block is acquired *)
  Lemma acquire_ok st vs p x v br bc : rel st vs -> pin_ok st x -> obj R vs (im x) = Some v ->
    ibr x = Z.of_nat br -> ibc x = Z.of_nat bc -> br < blocks_for B (vh v) -> bc < blocks_for B (vw v) ->
    exists st' p' x' M, acquire R rO B st p x = Some (st', p', x') /\ rel st' vs /\ data st (im x) = Some M /\
      (forall a, the R st' a = the R st a) /\ heap R st' = heap R st /\
      x' = mk_it (im x) (ir x) (ic x) (ibr x) (ibc x) (Some (idn M br bc)) /\ br < ht M /\ bc < wd M /\
      forall b, cnt p' b + cnt (ids_of (Some x)) b = cnt p b + cnt (ids_of (Some x')) b.
  Proof.
    intros H Pk Hv E1 E2 L1 L2. destruct (data_obj _ _ _ _ H Hv) as (M & ob & Dm & _ & _ & H1 & H2 & W & _).
    unfold acquire, pin_ok in *. destruct (ib x) as [b|] eqn:Eb.
    - destruct Pk as (M' & br' & bc' & Dm' & E1' & E2' & _ & _ & E3). assert (M' = M) by congruence. subst M'.
      assert (br' = br) by lia. assert (bc' = bc) by lia. subst br' bc'.
      exists st, p, x, M. split; auto. split; auto. split; auto. split; auto. split; auto.
      split; [destruct x; cbn in *; congruence|]. split; [lia|]. split; [lia|]. intros a. cbn [ids_of ib]. rewrite Eb. rewrite E3. reflexivity.
    - rewrite Dm, E1, E2. rewrite (block_at_idn (length (sto R st))) by (auto; lia).
      eexists _, _, _, M. split; [reflexivity|]. split.
      + apply rel_same; auto.
        * rewrite put_length. auto.
        * intros id t i k Hid Hi Hk. unfold V. destruct (Nat.eq_dec id (idn M br bc)) as [->|N].
          -- rewrite blk_put_same by (apply W; lia). cbn [oget]. apply acquired_val. 
          -- rewrite blk_put_other by auto. reflexivity.
      + split; auto. split; [reflexivity|]. split; [reflexivity|]. split; [cbn; congruence|]. split; [lia|]. split; [lia|].
        intros a. cbn [ids_of ib]. rewrite Eb. cbn [ids_of]. rewrite cnt_one. cbn [count_occ]. destruct (Nat.eq_dec (idn M br bc) a); lia.
  Qed.

  (** ** Moves *)
  Definition gives (p p' : list nat) (x x' : option it) : Prop := forall b, cnt p' b + cnt (ids_of x) b = cnt p b + cnt (ids_of x') b.
  Definition can_move (st : mstate) (vs : vals) (p : list nat) (l : list (option it)) (k : nat) (x : it) : Prop :=
    rel st vs /\ pin_ok st x /\ nth k l None = Some x /\ (forall b, cnt p b = cnt (held l) b) /\ (exists v, obj R vs (im x) = Some v).
  Definition moved (st : mstate) (p : list nat) (x : it) (r c br bc : Z) (res : option (list nat * it)) : Prop :=
    exists p' x', res = Some (p', x') /\ im x' = im x /\ ir x' = r /\ ic x' = c /\ ibr x' = br /\ ibc x' = bc /\ pin_ok st x' /\
      gives p p' (Some x) (Some x').

  Lemma set_row_ok st vs p l k x r : can_move st vs p l k x -> moved st p x r (ic x) (block_index B r) (ibc x) (set_row R B st p x r).
  Proof.
    intros (H & Pk & Nk & Cn & Hv). unfold set_row, moved. destruct (Z.eqb_spec (block_index B r) (ibr x)) as [E|N].
    - eexists _, _. split; [reflexivity|]. cbn [im ir ic ibr ibc ib]. repeat apply conj; auto. intros b. reflexivity.
    - destruct (release_ok st vs p x l k) as (p' & x' & E & Ex & K); auto. rewrite E, Ex. cbn [im ir ic ibr ibc ib].
      eexists _, _. split; [reflexivity|]. cbn [im ir ic ibr ibc ib]. repeat apply conj; auto.
      + exact I.
      + intros b. rewrite (K b). cbn. lia.
  Qed.
  Lemma set_col_ok st vs p l k x c : can_move st vs p l k x -> moved st p x (ir x) c (ibr x) (block_index B c) (set_col R B st p x c).
  Proof.
    intros (H & Pk & Nk & Cn & Hv). unfold set_col, moved. destruct (Z.eqb_spec (block_index B c) (ibc x)) as [E|N].
    - eexists _, _. split; [reflexivity|]. cbn [im ir ic ibr ibc ib]. repeat apply conj; auto. intros b. reflexivity.
    - destruct (release_ok st vs p x l k) as (p' & x' & E & Ex & K); auto. rewrite E, Ex. cbn [im ir ic ibr ibc ib].
      eexists _, _. split; [reflexivity|]. cbn [im ir ic ibr ibc ib]. repeat apply conj; auto.
      + exact I.
      + intros b. rewrite (K b). cbn. lia.
  Qed.
  Lemma set_pos_ok st vs p l k x r c : can_move st vs p l k x ->
    moved st p x r c (block_index B r) (block_index B c) (set_pos R B st p x r c).
  Proof.
    intros (H & Pk & Nk & Cn & Hv). unfold set_pos, moved.
    destruct (Z.eqb_spec (block_index B c) (ibc x)) as [E1|N1], (Z.eqb_spec (block_index B r) (ibr x)) as [E2|N2]; cbn [andb].
    { eexists _, _. split; [reflexivity|]. cbn [im ir ic ibr ibc ib]. repeat apply conj; auto. intros b. reflexivity. }
    all: destruct (release_ok st vs p x l k) as (p' & x' & E & Ex & K); auto; rewrite E, Ex; cbn [im ir ic ibr ibc ib];
      eexists _, _; (split; [reflexivity|]); cbn [im ir ic ibr ibc ib]; repeat apply conj; auto;
      [exact I|intros b; rewrite (K b); cbn; lia].
  Qed.
  Lemma set_empty_ok st vs p l k x : can_move st vs p l k x -> moved st p x (-1) (-1) (-1) (-1) (set_empty R st p x).
  Proof.
    intros (H & Pk & Nk & Cn & Hv). unfold set_empty, moved.
    destruct (release_ok st vs p x l k) as (p' & x' & E & Ex & K); auto. rewrite E, Ex. cbn [im ir ic ibr ibc ib].
    eexists _, _. split; [reflexivity|]. cbn [im ir ic ibr ibc ib]. repeat apply conj; auto.
    - exact I.
    - intros b. rewrite (K b). cbn. lia.
  Qed.

  (** ** Changes of one iterator *)
  Lemma it_ok_same m m' vs x y : (forall a, the R m' a = the R m a) -> heap R m' = heap R m -> it_ok m vs x y -> it_ok m' vs x y.
  Proof.
    intros T Hh. assert (D : forall a, data m' a = data m a).
    { intros a. unfold MatrixIterModel.data, as_matrix. rewrite T, Hh. reflexivity. }
    unfold it_ok. destruct x as [x|], y as [[o p]|]; auto. intros (Al & At & Pk). split; [|split]; auto.
    - intros o' ob ob'. rewrite !T. apply Al.
    - unfold pin_ok in *. destruct (ib x); auto. rewrite D. exact Pk.
  Qed.
  Lemma irel_upd st vs ys k m' p' x' y' vs' :
    irel st vs ys -> k < length (its R st) -> rel m' vs' ->
    (forall k', it_ok m' vs' (nth k' (its R st) None) (nth k' ys None)) -> it_ok m' vs' x' y' ->
    gives (pins R st) p' (nth k (its R st) None) x' ->
    irel (mk_ist R m' (upd (its R st) k x') p') vs' (upd ys k y').
  Proof.
    intros [H L I P] Hk Rm Io Ix G. constructor; cbn [ms its pins]; auto.
    - rewrite !upd_length. auto.
    - intros k'. rewrite !nth_upd by lia. destruct (k' =? k); auto.
    - intros b. specialize (G b). pose proof (held_upd (its R st) k x' b Hk). rewrite P in G. lia.
  Qed.
  (** only the iterator changes *)
  Lemma irel_move st vs ys k x p' x' y' :
    irel st vs ys -> nth k (its R st) None = Some x -> it_ok (ms R st) vs x' y' -> gives (pins R st) p' (Some x) x' ->
    exists st', store_it R st (ms R st) p' k x' = Some st' /\ irel st' vs (upd ys k y').
  Proof.
    intros H Nk Ix G. assert (Hk : k < length (its R st)).
    { destruct (Nat.lt_ge_cases k (length (its R st))); auto. rewrite nth_overflow in Nk by auto. discriminate. }
    unfold store_it. destruct (Nat.ltb_spec k (length (its R st))); [|lia]. eexists. split; [reflexivity|].
    apply irel_upd with (vs := vs); auto; [apply (ir_rel _ _ _ H)|apply (ir_it _ _ _ H)|]. rewrite Nk. exact G.
  Qed.
  Lemma live_it st vs ys k o p : irel st vs ys -> live ys k = Some (o, p) ->
    exists x, itn R st k = Some x /\ alone (ms R st) o /\ at_ok vs x o p /\ pin_ok (ms R st) x /\ k < length (its R st) /\ k < length ys.
  Proof.
    intros H Hl. pose proof (ir_it _ _ _ H k) as K. unfold live in Hl. rewrite Hl in K. unfold itn.
    destruct (nth k (its R st) None) as [x|] eqn:E; cbn [it_ok] in K; [|tauto]. exists x. split; auto. destruct K as (K1 & K2 & K3).
    split; auto. split; auto. split; auto. assert (k < length (its R st)).
    { destruct (Nat.lt_ge_cases k (length (its R st))); auto. rewrite nth_overflow in E by auto. discriminate. }
    rewrite <- (ir_len _ _ _ H). auto.
  Qed.
  Lemma dead_it st vs ys k : irel st vs ys -> live ys k = None -> itn R st k = None.
  Proof.
    intros H Hl. pose proof (ir_it _ _ _ H k) as K. unfold live in Hl. rewrite Hl in K. unfold itn.
    destruct (nth k (its R st) None) as [x|] eqn:E; cbn [it_ok] in K; tauto.
  Qed.
  Lemma can_move_it st vs ys k o p x : irel st vs ys -> itn R st k = Some x -> at_ok vs x o p -> pin_ok (ms R st) x ->
    can_move (ms R st) vs (pins R st) (its R st) k x.
  Proof.
    intros H Nk (A1 & v & A2 & _) Pk. split; [apply (ir_rel _ _ _ H)|]. split; auto. split; auto. split; [apply (ir_pins _ _ _ H)|].
    exists v. rewrite A1. auto.
  Qed.
  Lemma declare_eq (ys : list (option (nat * option (nat * nat)))) k y ys' : declare ys k y = Some ys' -> k < length ys /\ ys' = upd ys k y.
  Proof. unfold declare. destruct (Nat.ltb_spec k (length ys)); [|discriminate]. intros E. injection E as <-. auto. Qed.

  (** ** Statements over objects *)
  Lemma data_same st st' a M : (forall a, the R st' a = the R st a) -> heap R st' = heap R st -> alone st a -> data st a = Some M ->
    alone st' a /\ data st' a = Some M.
  Proof.
    intros T Hh Al Da. split.
    - intros o' ob ob'. rewrite !T. apply Al.
    - unfold MatrixIterModel.data, as_matrix in *. rewrite T, Hh. exact Da.
  Qed.
  Lemma assign_frame st o x st' a M : assign R st o x = Some st' -> a <> o -> alone st a -> data st a = Some M ->
    (forall oa ob, the R st a = Some oa -> x = Some ob -> op ob <> op oa) -> alone st' a /\ data st' a = Some M.
  Proof.
    unfold assign. destruct (Nat.ltb_spec o (length (objs R st))) as [L|]; [|discriminate]. intros E N Al Da Hx. injection E as <-.
    assert (T : forall o', the R (mk_st R (sto R st) (heap R st) (upd (objs R st) o x)) o' = if o' =? o then x else the R st o').
    { intros o'. unfold the. cbn [objs]. rewrite nth_upd by auto. reflexivity. }
    split.
    - intros o' oa ob. rewrite !T. destruct (Nat.eqb_spec a o); [congruence|]. intros H1 H2 Eo. destruct (Nat.eqb_spec o' o) as [E|N'].
      + exfalso. exact (Hx _ _ H1 H2 Eo).
      + apply (Al o' oa ob); auto.
    - unfold MatrixIterModel.data, as_matrix in *. rewrite T. destruct (Nat.eqb_spec a o); [congruence|]. exact Da.
  Qed.
  Lemma push_frame st M0 s a M : alone st a -> data st a = Some M -> alone (snd (push R st M0 s)) a /\ data (snd (push R st M0 s)) a = Some M.
  Proof.
    intros Al Da. split; [exact Al|]. unfold MatrixIterModel.data, as_matrix, the in *. cbn [push snd objs heap].
    destruct (nth a (objs R st) None) as [oa|]; [|discriminate]. destruct (nth_error (heap R st) (op oa)) as [M'|] eqn:E; [|discriminate].
    rewrite nth_error_app1 by (apply nth_error_Some; congruence). rewrite E. exact Da.
  Qed.
  Lemma data_lt st a M oa : data st a = Some M -> the R st a = Some oa -> op oa < length (heap R st).
  Proof.
    unfold MatrixIterModel.data, as_matrix. intros D T. rewrite T in D. apply nth_error_Some. destruct (nth_error (heap R st) (op oa)); congruence.
  Qed.
  Lemma give_frame st o r st' a M : give R st o r = Some st' -> a <> o -> alone st a -> data st a = Some M -> alone st' a /\ data st' a = Some M.
  Proof.
    unfold give. destruct r as [[m s]|]; [|discriminate]. cbn [push]. intros E N Al Da.
    destruct (push_frame st (md m) s a M Al Da) as [P1 P2]. eapply assign_frame; eauto.
    intros oa ob T Ex. injection Ex as <-. cbn [op]. change (the R (snd (push R st (md m) s)) a) with (the R st a) in T.
    pose proof (data_lt _ _ _ _ Da T). lia.
  Qed.
  Lemma step_frame c st st' out a M : m_step R rO radd rmul rsub ropp B c st = Some (st', out) -> ~ In a (touches R c) ->
    alone st a -> data st a = Some M -> alone st' a /\ data st' a = Some M.
  Proof.
    intros S Nt Al Da.
    assert (Q : forall r, quiet R r = Some (st', out) -> r = Some st').
    { intros [x|] K; cbn in K; [injection K as <- _; reflexivity|discriminate]. }
    destruct c as [o h w|o b|o|o i j x|o|o|o b b'|o b b'|o b x|alg o b b'|o b|o b|o x|o b|o i j|o|o x|o y]; cbn [MatrixObjModel.m_step touches] in *;
      try (assert (No : a <> o) by (intros ->; apply Nt; left; reflexivity)); try apply Q in S.
    - eapply give_frame; eauto.
    - destruct (the R st b) as [ob|] eqn:Tb; [|discriminate]. eapply assign_frame; eauto.
      intros oa ob' Ta Eb Eo. injection Eb as <-. apply Nt. right. left. apply (Al b oa ob); auto.
    - eapply assign_frame; eauto. discriminate.
    - destruct (unify R rO radd B st o) as [st1|] eqn:U; [|discriminate]. destruct (unify_frame _ _ _ _ _ U Al Da) as [A1 D1].
      destruct (as_matrix R st1 o) as [m|]; [|discriminate]. destruct (put_elem R rO B (md m) i j x (sto R st1)) as [s|]; [|discriminate].
      injection S as <-. apply (data_same st1); auto.
    - destruct (the R st o) as [ob|] eqn:To; [|discriminate]. destruct (unique R st ob).
      + destruct (as_matrix R st o) as [m|]; [|discriminate]. injection S as <-. apply (data_same st); auto.
      + eapply give_frame; eauto.
    - destruct (unify R rO radd B st o) as [st1|] eqn:U; [|discriminate]. destruct (unify_frame _ _ _ _ _ U Al Da) as [A1 D1].
      destruct (the R st1 o) as [ob|] eqn:To; [|discriminate]. destruct (as_matrix R st1 o) as [m|]; [|discriminate]. destruct (m_transpose m) as [m'|]; [|discriminate].
      assert (Ne : forall oa, the R st1 a = Some oa -> op ob <> op oa).
      { intros oa Ta Eo. apply No. symmetry. apply (A1 o oa ob); auto. }
      eapply assign_frame; eauto.
      + unfold MatrixIterModel.data, as_matrix, the in *. cbn [objs heap]. destruct (nth a (objs R st1) None) as [oa|] eqn:Ta; [|discriminate].
        rewrite nth_error_upd_other by (intros E; apply (Ne oa eq_refl); congruence). exact D1.
      + intros oa ob' Ta Eb. injection Eb as <-. cbn [op]. apply Ne. exact Ta.
    - destruct (as_matrix R st b) as [m|]; [|discriminate]. destruct (as_matrix R st b') as [n|]; [|discriminate]. eapply give_frame; eauto.
    - destruct (as_matrix R st b) as [m|]; [|discriminate]. destruct (as_matrix R st b') as [n|]; [|discriminate]. eapply give_frame; eauto.
    - destruct (as_matrix R st b) as [m|]; [|discriminate]. eapply give_frame; eauto.
    - destruct (as_matrix R st b) as [m|]; [|discriminate]. destruct (as_matrix R st b') as [n|]; [|discriminate]. eapply give_frame; eauto.
    - destruct (unify R rO radd B st o) as [st1|] eqn:U; [|discriminate]. destruct (unify_frame _ _ _ _ _ U Al Da) as [A1 D1].
      destruct (as_matrix R st1 o) as [m|]; [|discriminate]. destruct (as_matrix R st1 b) as [n|]; [|discriminate].
      destruct (m_add_assign R rO radd B m n (sto R st1)) as [s|]; [|discriminate]. injection S as <-. apply (data_same st1); auto.
    - destruct (unify R rO radd B st o) as [st1|] eqn:U; [|discriminate]. destruct (unify_frame _ _ _ _ _ U Al Da) as [A1 D1].
      destruct (as_matrix R st1 o) as [m|]; [|discriminate]. destruct (as_matrix R st1 b) as [n|]; [|discriminate].
      destruct (m_sub_assign R rO rsub ropp B m n (sto R st1)) as [s|]; [|discriminate]. injection S as <-. apply (data_same st1); auto.
    - destruct (unify R rO radd B st o) as [st1|] eqn:U; [|discriminate]. destruct (unify_frame _ _ _ _ _ U Al Da) as [A1 D1].
      destruct (as_matrix R st1 o) as [m|]; [|discriminate].
      destruct (m_scale_assign R rO rmul B m x (sto R st1)) as [s|]; [|discriminate]. injection S as <-. apply (data_same st1); auto.
    - destruct (as_matrix R st o) as [m|]; [|discriminate]. destruct (as_matrix R st b) as [n|]; [|discriminate]. eapply give_frame; eauto.
    - destruct (as_matrix R st o) as [m|]; [|discriminate]. destruct (get_elem R rO B (md m) i j (sto R st)) as [[x s]|]; [|discriminate].
      injection S as <- _. apply (data_same st); auto.
    - destruct (as_matrix R st o) as [m|]; [|discriminate]. injection S as <- _. auto.
    - destruct (as_matrix R st o) as [m|]; [|discriminate]. destruct (m_col_vector R rO radd rmul B m x (sto R st)) as [[z s]|]; [|discriminate].
      injection S as <- _. apply (data_same st); auto.
    - destruct (as_matrix R st o) as [m|]; [|discriminate]. destruct (m_row_vector R rO radd rmul B y m (sto R st)) as [[z s]|]; [|discriminate].
      injection S as <- _. apply (data_same st); auto.
  Qed.
  (** the sizes of the other objects do not change *)
  Lemma size_frame c vs vs' out a v : s_step R rO radd rmul rsub any_size c vs = Some (vs', out) -> ~ In a (touches R c) -> obj R vs a = Some v ->
    exists v', obj R vs' a = Some v' /\ vh v' = vh v /\ vw v' = vw v.
  Proof.
    intros S Nt Ha.
    assert (Q : forall o y, s_store R vs o y = Some (vs', out) -> (a = o -> exists u, y = Some u /\ vh u = vh v /\ vw u = vw v) ->
       exists v', obj R vs' a = Some v' /\ vh v' = vh v /\ vw v' = vw v).
    { intros o y E Hy. unfold s_store in E. destruct (Nat.ltb_spec o (length vs)) as [L|]; [|discriminate]. injection E as <- _.
      unfold obj in *. rewrite nth_upd by auto. destruct (Nat.eqb_spec a o) as [Eo|]; [|eauto].
      destruct (Hy Eo) as (u & -> & H1 & H2). eauto. }
    destruct c as [o h w|o b|o|o i j x|o|o|o b b'|o b b'|o b x|alg o b b'|o b|o b|o x|o b|o i j|o|o x|o y]; cbn [MatrixSpec.s_step touches] in *;
      try (assert (No : a <> o) by (intros ->; apply Nt; left; reflexivity)).
    1,3: eapply Q; [exact S|intros; congruence].
    - destruct (obj R vs b); [|discriminate]. eapply Q; [exact S|intros; congruence].
    - destruct (obj R vs o) as [u|] eqn:Eo; [|discriminate]. destruct ((i <? vh u) && (j <? vw u)); [|discriminate].
      eapply Q; [exact S|]. intros ->. assert (u = v) by congruence. subst u. eexists. split; [reflexivity|]. auto.
    - destruct (obj R vs o); [|discriminate]. eapply Q; [exact S|intros; congruence].
    - destruct (obj R vs o); [|discriminate]. eapply Q; [exact S|intros; congruence].
    - destruct (obj R vs b); [|discriminate]. destruct (obj R vs b'); [|discriminate]. destruct (same R m m0); [|discriminate]. eapply Q; [exact S|intros; congruence].
    - destruct (obj R vs b); [|discriminate]. destruct (obj R vs b'); [|discriminate]. destruct (same R m m0); [|discriminate]. eapply Q; [exact S|intros; congruence].
    - destruct (obj R vs b); [|discriminate]. eapply Q; [exact S|intros; congruence].
    - destruct (obj R vs b); [|discriminate]. destruct (obj R vs b'); [|discriminate].
      match type of S with (if ?t then _ else _) = _ => destruct t; [|discriminate] end. eapply Q; [exact S|intros; congruence].
    - destruct (obj R vs o) as [u|] eqn:Eo; [|discriminate]. destruct (obj R vs b); [|discriminate]. destruct (same R u m); [|discriminate].
      eapply Q; [exact S|]. intros ->. assert (u = v) by congruence. subst u. eexists. split; [reflexivity|]. auto.
    - destruct (obj R vs o) as [u|] eqn:Eo; [|discriminate]. destruct (obj R vs b); [|discriminate]. destruct (same R u m); [|discriminate].
      eapply Q; [exact S|]. intros ->. assert (u = v) by congruence. subst u. eexists. split; [reflexivity|]. auto.
    - destruct (obj R vs o) as [u|] eqn:Eo; [|discriminate].
      eapply Q; [exact S|]. intros ->. assert (u = v) by congruence. subst u. eexists. split; [reflexivity|]. auto.
    - destruct (obj R vs o); [|discriminate]. destruct (obj R vs b); [|discriminate].
      match type of S with (if ?t then _ else _) = _ => destruct t; [|discriminate] end. eapply Q; [exact S|intros; congruence].
    - destruct (obj R vs o) as [u|] eqn:Eo; [|discriminate]. destruct ((i <? vh u) && (j <? vw u)); [|discriminate]. injection S as <- _. eauto.
    - destruct (obj R vs o) as [u|] eqn:Eo; [|discriminate]. injection S as <- _. eauto.
    - destruct (obj R vs o) as [u|] eqn:Eo; [|discriminate]. destruct (length x =? vw u); [|discriminate]. injection S as <- _. eauto.
    - destruct (obj R vs o) as [u|] eqn:Eo; [|discriminate]. destruct (length y =? vh u); [|discriminate]. injection S as <- _. eauto.
  Qed.
  Lemma idle_spec (ys : list (option (nat * option (nat * nat)))) c k o p : idle R ys c = true -> nth k ys None = Some (o, p) -> ~ In o (touches R c).
  Proof.
    intros Hi Hk. assert (Hin : In (Some (o, p)) ys).
    { rewrite <- Hk. apply nth_In. destruct (Nat.lt_ge_cases k (length ys)); auto. rewrite nth_overflow in Hk by auto. discriminate. }
    assert (G : forallb (fun x => match x with Some (o, _) => negb (existsb (Nat.eqb o) (touches R c)) | None => true end) ys = true -> ~ In o (touches R c)).
    { intros F Ht. rewrite forallb_forall in F. specialize (F _ Hin). cbn in F. rewrite negb_true_iff in F.
      rewrite <- not_true_iff_false in F. apply F. apply existsb_exists. exists o. split; auto. apply Nat.eqb_refl. }
    assert (D : dead ys = true -> ~ In o (touches R c)).
    { intros D. unfold dead in D. rewrite forallb_forall in D. specialize (D _ Hin). discriminate. }
    destruct c; cbn [idle] in Hi; auto.
  Qed.

  Notation it_step := (it_step R rO radd rmul rsub ropp B).
  Notation i_step := (i_step R rO radd rmul rsub true).
  Lemma move_ok st vs ys k o p x f p' ys' r c br bc :
    irel st vs ys -> itn R st k = Some x -> alone (ms R st) o -> at_ok vs x o p ->
    declare ys k (Some (o, p')) = Some ys' ->
    moved (ms R st) (pins R st) x r c br bc (f (ms R st) (pins R st) x) ->
    (forall x', im x' = o -> ir x' = r -> ic x' = c -> ibr x' = br -> ibc x' = bc -> pin_ok (ms R st) x' -> at_ok vs x' o p') ->
    exists st', move R st k f = Some (st', ([], [])) /\ irel st' vs ys'.
  Proof.
    intros H Nk Al At De (pp & x' & E1 & M1 & M2 & M3 & M4 & M5 & M6 & M7) Hx. apply declare_eq in De. destruct De as [Hk ->].
    unfold move. rewrite Nk, E1.
    destruct (irel_move st vs ys k x pp (Some x') (Some (o, p')) H Nk) as (st' & E2 & R2); auto.
    { cbn [it_ok]. split; auto. split; auto. apply Hx; auto. rewrite M1. apply At. }
    rewrite E2. exists st'. split; auto.
  Qed.
  Lemma inside_spec (vs : vals) o r c : (match obj R vs o with Some v => (r <? vh v) && (c <? vw v) | None => false end) = true ->
    exists v, obj R vs o = Some v /\ r < vh v /\ c < vw v.
  Proof. destruct (obj R vs o) as [v|]; [|discriminate]. rewrite andb_true_iff, !Nat.ltb_lt. intros [? ?]. exists v. auto. Qed.
  Lemma block_index_nat n : block_index B (Z.of_nat n) = Z.of_nat (n / B).
  Proof. apply quot_nat. auto. Qed.
  Lemma at_ok_ib vs y o p i : at_ok vs y o p -> (ib y = None -> i = None) -> at_ok vs (mk_it (im y) (ir y) (ic y) (ibr y) (ibc y) i) o p.
  Proof.
    intros (A1 & v & A2 & A3) Hi. split; auto. exists v. split; auto. cbn [im ir ic ibr ibc ib]. destruct p as [[r c]|]; auto.
    destruct A3 as (A3 & A4 & A5). split; auto. split; auto. destruct A5; auto.
  Qed.
  Lemma block_index_m1 : 1 < B -> block_index B (-1) = 0%Z.
  Proof. intros Q. unfold block_index. apply Z.quot_small_iff; lia. Qed.
  Lemma pin_m1 st x : pin_ok st x -> ibr x = (-1)%Z -> ib x = None.
  Proof. unfold pin_ok. destruct (ib x); auto. intros (M & br & bc & _ & E & _) E'. lia. Qed.

  (** the element an iterator points to *)
  Lemma deref_ok st vs ys k o r c : irel st vs ys -> live ys k = Some (o, Some (r, c)) ->
    exists x v M ob m p x', itn R st k = Some x /\ obj R vs o = Some v /\ alone (ms R st) o /\ r < vh v /\ c < vw v /\ k < length (its R st) /\
      acquire R rO B (ms R st) (pins R st) x = Some (m, p, x') /\ rel m vs /\ (forall a, the R m a = the R (ms R st) a) /\ heap R m = heap R (ms R st) /\
      it_ok m vs (Some x') (Some (o, Some (r, c))) /\ gives (pins R st) p (Some x) (Some x') /\
      the R m o = Some ob /\ ok_obj R rO B m ob v /\ M = nth (op ob) (heap R m) d0 /\
      r / B < ht M /\ c / B < wd M /\ wf (length (sto R m)) M /\ elem R B m x' = Some (idn M (r / B) (c / B), elem_index B M r c).
  Proof.
    intros H Hl. destruct (live_it _ _ _ _ _ _ H Hl) as (x & Nk & Al & At & Pk & Lk & _). pose proof At as (A1 & v & A2 & A3 & A4 & A5 & A6 & A7 & A8).
    pose proof (ir_rel _ _ _ H) as Hr.
    destruct (acquire_ok (ms R st) vs (pins R st) x v (r / B) (c / B)) as (m & p & x' & M & E1 & R1 & D1 & T1 & H1 & X1 & L1 & L2 & G1);
      rewrite ?A1; auto; try (apply blocks_for_lt; auto).
    rewrite A1 in D1. destruct (data_obj m vs o v R1 A2) as (M' & ob & Dm & Tm & Em & D3 & D4 & W & D5 & D6 & Ok).
    assert (EM : M' = M). { unfold MatrixIterModel.data, as_matrix in *. rewrite T1, H1 in Dm. congruence. } rewrite EM in Dm, Em, D3, D4, W. clear EM M'.
    assert (Ix : it_ok m vs (Some x') (Some (o, Some (r, c)))).
    { cbn [it_ok]. split; [|split].
      + intros o' ob1 ob'. rewrite !T1. apply Al.
      + rewrite X1. unfold at_ok. cbn [im ir ic ibr ibc ib]. split; auto. exists v. auto 10.
      + rewrite X1. unfold pin_ok. cbn [im ir ic ibr ibc ib]. exists M, (r / B), (c / B). rewrite A1. repeat apply conj; auto. }
    exists x, v, M, ob, m, p, x'. do 18 (split; [solve [auto]|]).
    unfold elem. rewrite X1. cbn [im ir ic ibr ibc ib]. rewrite A1, Dm, A3, A4, !Nat2Z.id. reflexivity.
  Qed.

  Theorem it_step_ok c st vs ys vs' ys' out : irel st vs ys -> i_step c (vs, ys) = Some ((vs', ys'), out) ->
    exists st', it_step c st = Some (st', out) /\ irel st' vs' ys'.
  Proof.
    intros H S. pose proof (ir_rel _ _ _ H) as Hr.
    destruct c as [c|k o r c|k o|k a|k a|k|k r|k c|k r c|col k|col k|k|k x|k|k a]; cbn [MatrixIterSpec.i_step MatrixIterModel.it_step negb orb] in *.
    - (* a statement over the objects *)
      destruct (idle R ys c) eqn:Ed; [|discriminate]. destruct (s_step R rO radd rmul rsub any_size c vs) as [[vs1 out1]|] eqn:Es; [|discriminate].
      injection S as <- <- <-.
      assert (Ao : forall alg h l w, any_size alg h l w = true -> few_blocks B alg h l w = true).
      { intros alg h l w K. unfold few_blocks. unfold any_size in K. rewrite K. reflexivity. }
      destruct (step_ok R rO rI radd rmul rsub ropp Rth B Bpos any_size Ao c (ms R st) vs vs1 out1 Hr Es) as (m & E1 & R1).
      rewrite E1. eexists. split; [reflexivity|]. destruct H as [H0 L0 I0 P0]. constructor; cbn [ms its pins]; auto.
      intros k. specialize (I0 k). unfold it_ok in *. destruct (nth k (its R st) None) as [x|], (nth k ys None) as [[o p]|] eqn:Ey; auto.
      destruct I0 as (K1 & (K2 & v & K3 & K4) & K5). pose proof (idle_spec _ _ _ _ _ Ed Ey) as Nt.
      destruct (data_obj _ _ _ _ H0 K3) as (M & _ & Dm & _). destruct (step_frame _ _ _ _ _ _ E1 Nt K1 Dm) as [K6 K7].
      destruct (size_frame _ _ _ _ _ _ Es Nt K3) as (v' & K8 & K9 & K10). split; [exact K6|]. split.
      + split; auto. exists v'. split; auto. rewrite K9, K10. exact K4.
      + unfold pin_ok in *. destruct (ib x); auto. rewrite K2 in *. rewrite K7. rewrite Dm in K5. exact K5.
    - (* new *)
      destruct (live ys k) as [?|] eqn:El; [discriminate|]. match type of S with (if ?b then _ else _) = _ => destruct b eqn:Ei; [|discriminate] end.
      apply inside_spec in Ei. destruct Ei as (v & Ho & Hrr & Hcc).
      destruct (declare ys k (Some (o, Some (r, c)))) as [ys1|] eqn:De; [|discriminate]. injection S as <- <- <-. apply declare_eq in De. destruct De as [Hk ->].
      unfold fresh. pose proof (dead_it _ _ _ _ H El) as Nd. rewrite Nd.
      destruct (unify_keeps _ _ _ _ Hr Ho) as (m & U & Rm & Al & Keep). rewrite U. unfold store_it. rewrite (ir_len _ _ _ H).
      destruct (Nat.ltb_spec k (length ys)); [|lia]. eexists. split; [reflexivity|].
      apply irel_upd with (vs := vs); auto.
      + rewrite (ir_len _ _ _ H). auto.
      + intros k'. pose proof (ir_it _ _ _ H k') as K. unfold it_ok in *. destruct (nth k' (its R st) None) as [x|], (nth k' ys None) as [[o' p']|]; auto.
        destruct K as (K1 & K2 & K3). pose proof K2 as (Kx & v' & K4 & _). destruct (data_obj _ _ _ _ Hr K4) as (M & _ & Dm & _).
        destruct (Keep o' M K1 Dm) as [K5 K6]. split; auto. split; auto. unfold pin_ok in *. destruct (ib x); auto.
        rewrite Kx in *. rewrite K6. destruct K3 as (M' & br & bc & K3 & K3'). rewrite Dm in K3. injection K3 as <-. exists M, br, bc. auto.
      + cbn [it_ok]. split; auto. split; [|exact I]. split; auto. exists v. cbn [ir ic ibr ibc at_pos]. rewrite !block_index_nat. auto 10.
      + unfold itn in Nd. rewrite Nd. intros b. reflexivity.
    - (* end *)
      destruct (live ys k) as [?|] eqn:El; [discriminate|]. destruct (obj R vs o) as [v|] eqn:Ho; [|discriminate].
      destruct (declare ys k (Some (o, None))) as [ys1|] eqn:De; [|discriminate]. injection S as <- <- <-. apply declare_eq in De. destruct De as [Hk ->].
      unfold fresh. pose proof (dead_it _ _ _ _ H El) as Nd. rewrite Nd.
      destruct (unify_keeps _ _ _ _ Hr Ho) as (m & U & Rm & Al & Keep). rewrite U. unfold store_it. rewrite (ir_len _ _ _ H).
      destruct (Nat.ltb_spec k (length ys)); [|lia]. eexists. split; [reflexivity|].
      apply irel_upd with (vs := vs); auto.
      + rewrite (ir_len _ _ _ H). auto.
      + intros k'. pose proof (ir_it _ _ _ H k') as K. unfold it_ok in *. destruct (nth k' (its R st) None) as [x|], (nth k' ys None) as [[o' p']|]; auto.
        destruct K as (K1 & K2 & K3). pose proof K2 as (Kx & v' & K4 & _). destruct (data_obj _ _ _ _ Hr K4) as (M & _ & Dm & _).
        destruct (Keep o' M K1 Dm) as [K5 K6]. split; auto. split; auto. unfold pin_ok in *. destruct (ib x); auto.
        rewrite Kx in *. rewrite K6. destruct K3 as (M' & br & bc & K3 & K3'). rewrite Dm in K3. injection K3 as <-. exists M, br, bc. auto.
      + cbn [it_ok]. split; auto. split; [|exact I]. split; auto. exists v. auto.
      + unfold itn in Nd. rewrite Nd. intros b. reflexivity.
    - (* copy *)
      destruct (live ys k) as [?|] eqn:El; [discriminate|]. destruct (live ys a) as [[o p]|] eqn:Ea; [|discriminate].
      destruct (declare ys k (Some (o, p))) as [ys1|] eqn:De; [|discriminate]. injection S as <- <- <-. apply declare_eq in De. destruct De as [Hk ->].
      unfold fresh. pose proof (dead_it _ _ _ _ H El) as Nd. rewrite Nd.
      destruct (live_it _ _ _ _ _ _ H Ea) as (y & Na & Al & At & Pk & La & _). rewrite Na. unfold copy_it.
      set (x0 := mk_it (im y) (ir y) (ic y) (ibr y) (ibc y) None).
      assert (At0 : at_ok vs x0 o p) by (apply at_ok_ib; auto).
      destruct (ib y) as [b|] eqn:Eb.
      + unfold pin_ok in Pk. rewrite Eb in Pk. destruct Pk as (M & br & bc & P1 & P2 & P3 & P4 & P5 & P6).
        pose proof At as (A1 & v & A2 & _). destruct (data_obj _ _ _ _ Hr A2) as (M' & ob & Dm & _ & _ & D1 & D2 & _). rewrite A1 in P1. assert (M' = M) by congruence. subst M'.
        destruct (acquire_ok (ms R st) vs (pins R st) x0 v br bc) as (m & p' & x' & M' & E1 & R1 & Dm' & T1 & H1 & X1 & L1 & L2 & G1);
          try exact I; cbn [x0 im ibr ibc]; rewrite ?A1; auto; try lia.
        rewrite E1. unfold store_it. rewrite (ir_len _ _ _ H). destruct (Nat.ltb_spec k (length ys)); [|lia]. eexists. split; [reflexivity|].
        cbn [im x0] in Dm'. rewrite A1 in Dm'. assert (M' = M) by congruence. subst M'.
        apply irel_upd with (vs := vs); auto.
        * rewrite (ir_len _ _ _ H). auto.
        * intros k'. apply (it_ok_same (ms R st)); auto. apply (ir_it _ _ _ H).
        * apply (it_ok_same (ms R st)); auto. cbn [it_ok]. split; auto. rewrite X1. split; [apply (at_ok_ib vs y); auto; congruence|]. unfold pin_ok. cbn [im ir ic ibr ibc ib x0].
          exists M, br, bc. rewrite A1. repeat apply conj; auto.
        * unfold itn in Nd. rewrite Nd. intros b'. specialize (G1 b'). cbn [ids_of ib x0] in G1. cbn in *. lia.
      + unfold store_it. rewrite (ir_len _ _ _ H). destruct (Nat.ltb_spec k (length ys)); [|lia]. eexists. split; [reflexivity|].
        apply irel_upd with (vs := vs); auto.
        * rewrite (ir_len _ _ _ H). auto.
        * apply (ir_it _ _ _ H).
        * cbn [it_ok]. split; auto. split; auto. exact I.
        * unfold itn in Nd. rewrite Nd. intros b'. reflexivity.
    - (* assign *)
      destruct (live ys k) as [[o p0]|] eqn:El; [|discriminate]. destruct (live ys a) as [[o' p]|] eqn:Ea; [|discriminate].
      destruct (Nat.eqb_spec o o') as [Eo|]; [|discriminate]. subst o'.
      destruct (declare ys k (Some (o, p))) as [ys1|] eqn:De; [|discriminate]. injection S as <- <- <-. apply declare_eq in De. destruct De as [Hk ->].
      destruct (live_it _ _ _ _ _ _ H El) as (x & Nk & Al & At & Pk & Lk & _). rewrite Nk.
      destruct (live_it _ _ _ _ _ _ H Ea) as (y & Na & _ & Aty & Pky & La & _). rewrite Na. unfold assign_it.
      destruct (set_pos_ok (ms R st) vs (pins R st) (its R st) k x (ir y) (ic y)) as (p1 & x1 & E1 & M1 & M2 & M3 & M4 & M5 & M6 & M7).
      { eapply can_move_it; eauto. }
      rewrite E1. set (x2 := mk_it (im y) (ir x1) (ic x1) (ibr x1) (ibc x1) (ib x1)).
      pose proof At as (A1 & v & A2 & _). pose proof Aty as (B1 & v' & B2 & B3). rewrite A2 in B2. injection B2 as <-.
      assert (At2 : at_ok vs x2 o p).
      { split; [exact B1|]. exists v. split; auto. cbn [x2 ir ic ibr ibc]. rewrite M2, M3, M4, M5. destruct p as [[r c]|].
        { destruct B3 as (C1 & C2 & C3 & C4 & C5 & C6). rewrite C1, C2, !block_index_nat. auto 10. }
        destruct B3 as (B3 & B4 & B5). split; auto. split; auto. cbn [ib]. assert (Qm : B = 1 \/ 1 < B) by lia. destruct Qm as [Q|Q].
        - left. change (ib x1 = None). apply (pin_m1 (ms R st)); auto. rewrite M4, B3. unfold block_index. rewrite Q. reflexivity.
        - right. rewrite B3, B4, block_index_m1 by auto. auto. }
      assert (Pk2 : pin_ok (ms R st) x2).
      { unfold pin_ok in *. cbn [x2 im ib ibr ibc]. rewrite M1, A1 in M6. rewrite B1. exact M6. }
      assert (G2 : gives (pins R st) p1 (Some x) (Some x2)) by exact M7.
      destruct (ib y) as [b|] eqn:Eb.
      + assert (Hb : exists br bc, ibr x2 = Z.of_nat br /\ ibc x2 = Z.of_nat bc /\ br < blocks_for B (vh v) /\ bc < blocks_for B (vw v)).
        { destruct p as [[r c]|].
          - destruct At2 as (_ & w & Hw & _ & _ & C3 & C4 & C5 & C6). assert (w = v) by congruence. subst w. exists (r / B), (c / B).
            repeat apply conj; auto; apply blocks_for_lt; auto.
          - destruct B3 as (B3 & B4 & B5). destruct B5 as [B5|(B5 & B6 & B7)]; [congruence|]. cbn [x2 ibr ibc]. rewrite M4, M5, B3, B4, block_index_m1 by auto.
            unfold pin_ok in Pky. rewrite Eb in Pky. destruct Pky as (M & br & bc & Q1 & Q2 & Q3 & Q4 & Q5 & Q6).
            destruct (data_obj _ _ _ _ Hr A2) as (M' & ob & Dm & _ & _ & D1 & D2 & _). rewrite B1 in Q1. assert (M' = M) by congruence. subst M'.
            exists 0, 0. split; auto. split; auto. lia. }
        destruct Hb as (br & bc & Hb1 & Hb2 & Hb3 & Hb4).
        destruct (acquire_ok (ms R st) vs p1 x2 v br bc) as (m & p' & x' & M & F1 & R1 & Dm' & T1 & H1 & X1 & L1 & L2 & G1); auto.
        { cbn [x2 im]. rewrite B1. auto. }
        rewrite F1. unfold store_it. rewrite (ir_len _ _ _ H). destruct (Nat.ltb_spec k (length ys)); [|lia]. eexists. split; [reflexivity|].
        apply irel_upd with (vs := vs); auto.
        * intros k'. apply (it_ok_same (ms R st)); auto. apply (ir_it _ _ _ H).
        * apply (it_ok_same (ms R st)); auto. cbn [it_ok]. split; auto. rewrite X1. split.
          -- destruct At2 as (C1 & w & C2 & C3). split; auto. exists w. split; auto. cbn [im ir ic ibr ibc ib]. destruct p as [[r c]|]; auto.
             destruct C3 as (C3 & C4 & C5). split; auto. split; auto. right.
             destruct B3 as (B3 & B4 & B5). destruct B5 as [B5|(B5 & B6 & B7)]; [congruence|]. cbn [x2 ibr ibc]. rewrite M4, M5, B3, B4, block_index_m1 by auto. auto.
          -- unfold pin_ok. cbn [im ir ic ibr ibc ib]. exists M, br, bc. repeat apply conj; auto.
        * unfold itn in Nk. rewrite Nk. intros b'. specialize (G1 b'). specialize (G2 b'). lia.
      + unfold store_it. rewrite (ir_len _ _ _ H). destruct (Nat.ltb_spec k (length ys)); [|lia]. eexists. split; [reflexivity|].
        apply irel_upd with (vs := vs); auto.
        * apply (ir_it _ _ _ H).
        * cbn [it_ok]. auto.
        * unfold itn in Nk. rewrite Nk. exact G2.
    - (* del *)
      destruct (live ys k) as [[o p]|] eqn:El; [|discriminate].
      destruct (declare ys k None) as [ys1|] eqn:De; [|discriminate]. injection S as <- <- <-. apply declare_eq in De. destruct De as [Hk ->].
      destruct (live_it _ _ _ _ _ _ H El) as (x & Nk & Al & At & Pk & Lk & _). rewrite Nk.
      destruct (can_move_it _ _ _ _ _ _ _ H Nk At Pk) as (C1 & C2 & C3 & C4 & C5).
      destruct (release_ok (ms R st) vs (pins R st) x (its R st) k C1 C2 C3 C4 C5) as (p' & x' & E & Ex & K). rewrite E.
      destruct (irel_move st vs ys k x p' None None H C3 I) as (st' & E' & R').
      { intros b. rewrite (K b). cbn. lia. }
      rewrite E'. exists st'. split; auto.
    - (* set_row *)
      destruct (live ys k) as [[o [[r0 c0]|]]|] eqn:El; try discriminate. match type of S with (if ?b then _ else _) = _ => destruct b eqn:Ei; [|discriminate] end.
      apply inside_spec in Ei. destruct Ei as (v & Ho & Hrr & Hcc). destruct (declare ys k _) as [ys1|] eqn:De; [|discriminate]. injection S as <- <- <-.
      destruct (live_it _ _ _ _ _ _ H El) as (x & Nk & Al & At & Pk & Lk & _). pose proof At as (A1 & w & A2 & A3 & A4 & A5 & A6 & A7 & A8).
      eapply move_ok; eauto. { eapply set_row_ok, can_move_it; eauto. }
      intros x' Q1 Q2 Q3 Q4 Q5 Q6. split; auto. exists v. split; auto. rewrite Q2, Q3, Q4, Q5, block_index_nat. auto 10.
    - (* set_col *)
      destruct (live ys k) as [[o [[r0 c0]|]]|] eqn:El; try discriminate. match type of S with (if ?b then _ else _) = _ => destruct b eqn:Ei; [|discriminate] end.
      apply inside_spec in Ei. destruct Ei as (v & Ho & Hrr & Hcc). destruct (declare ys k _) as [ys1|] eqn:De; [|discriminate]. injection S as <- <- <-.
      destruct (live_it _ _ _ _ _ _ H El) as (x & Nk & Al & At & Pk & Lk & _). pose proof At as (A1 & w & A2 & A3 & A4 & A5 & A6 & A7 & A8).
      eapply move_ok; eauto. { eapply set_col_ok, can_move_it; eauto. }
      intros x' Q1 Q2 Q3 Q4 Q5 Q6. split; auto. exists v. split; auto. rewrite Q2, Q3, Q4, Q5, block_index_nat. auto 10.
    - (* set_pos *)
      destruct (live ys k) as [[o p0]|] eqn:El; try discriminate. match type of S with (if ?b then _ else _) = _ => destruct b eqn:Ei; [|discriminate] end.
      apply inside_spec in Ei. destruct Ei as (v & Ho & Hrr & Hcc). destruct (declare ys k _) as [ys1|] eqn:De; [|discriminate]. injection S as <- <- <-.
      destruct (live_it _ _ _ _ _ _ H El) as (x & Nk & Al & At & Pk & Lk & _).
      eapply move_ok; eauto. { eapply set_pos_ok, can_move_it; eauto. }
      intros x' Q1 Q2 Q3 Q4 Q5 Q6. split; auto. exists v. split; auto. rewrite Q2, Q3, Q4, Q5, !block_index_nat. auto 10.
    - (* next *)
      destruct (live ys k) as [[o [[r c]|]]|] eqn:El; try discriminate. destruct (obj R vs o) as [v|] eqn:Ho; [|discriminate].
      destruct (declare ys k _) as [ys1|] eqn:De; [|discriminate]. injection S as <- <- <-.
      destruct (live_it _ _ _ _ _ _ H El) as (x & Nk & Al & At & Pk & Lk & _). pose proof At as (A1 & w & A2 & A3 & A4 & A5 & A6 & A7 & A8).
      assert (w = v) by congruence. subst w. destruct (data_obj _ _ _ _ Hr A2) as (M & ob & _ & Tm & _ & _ & _ & _ & O1 & O2 & _).
      pose proof (can_move_it _ _ _ _ _ _ _ H Nk At Pk) as Cm.
      assert (Mv : forall f p' r' c' br' bc', declare ys k (Some (o, p')) = Some ys1 -> next_it R B col (ms R st) (pins R st) x = f (ms R st) (pins R st) x ->
         moved (ms R st) (pins R st) x r' c' br' bc' (f (ms R st) (pins R st) x) ->
         (forall x', im x' = o -> ir x' = r' -> ic x' = c' -> ibr x' = br' -> ibc x' = bc' -> pin_ok (ms R st) x' -> at_ok vs x' o p') ->
         exists st', move R st k (next_it R B col) = Some (st', ([], [])) /\ irel st' vs ys1).
      { intros f p' r' c' br' bc' D Ef Mf Hx. eapply move_ok; eauto. rewrite Ef. exact Mf. }
      assert (Er : (Z.of_nat r + 1)%Z = Z.of_nat (S r)) by lia. assert (Ec : (Z.of_nat c + 1)%Z = Z.of_nat (S c)) by lia.
      unfold next_it in Mv. rewrite A1, Tm, O1, O2, A3, A4, Er, Ec in Mv.
      assert (T : forall a b : nat, (Z.of_nat a <? Z.of_nat b)%Z = (a <? b)).
      { intros a b. destruct (Z.ltb_spec (Z.of_nat a) (Z.of_nat b)), (Nat.ltb_spec a b); auto; lia. }
      rewrite !T in Mv. unfold next in De.
      destruct col; [destruct (Nat.ltb_spec (S r) (vh v)) as [L|L]; [|destruct (Nat.ltb_spec (S c) (vw v)) as [L'|L']]
                    |destruct (Nat.ltb_spec (S c) (vw v)) as [L|L]; [|destruct (Nat.ltb_spec (S r) (vh v)) as [L'|L']]].
      + apply (Mv (fun m p x => set_row R B m p x (Z.of_nat (S r))) _ _ _ _ _ De eq_refl (set_row_ok _ _ _ _ _ _ _ Cm)).
        intros x' Q1 Q2 Q3 Q4 Q5 Q6. split; auto. exists v. split; auto. rewrite Q2, Q3, Q4, Q5, block_index_nat. auto 10.
      + apply (Mv (fun m p x => set_pos R B m p x 0 (Z.of_nat (S c))) _ _ _ _ _ De eq_refl (set_pos_ok _ _ _ _ _ _ _ _ Cm)).
        intros x' Q1 Q2 Q3 Q4 Q5 Q6. split; auto. exists v. split; auto. rewrite Q2, Q3, Q4, Q5, block_index_nat. change 0%Z with (Z.of_nat 0). rewrite block_index_nat. repeat apply conj; auto; lia.
      + apply (Mv (fun m p x => set_empty R m p x) _ _ _ _ _ De eq_refl (set_empty_ok _ _ _ _ _ _ Cm)).
        intros x' Q1 Q2 Q3 Q4 Q5 Q6. split; auto. exists v. split; auto. split; auto. split; auto. left. eapply pin_m1; eauto.
      + apply (Mv (fun m p x => set_col R B m p x (Z.of_nat (S c))) _ _ _ _ _ De eq_refl (set_col_ok _ _ _ _ _ _ _ Cm)).
        intros x' Q1 Q2 Q3 Q4 Q5 Q6. split; auto. exists v. split; auto. rewrite Q2, Q3, Q4, Q5, block_index_nat. auto 10.
      + apply (Mv (fun m p x => set_pos R B m p x (Z.of_nat (S r)) 0) _ _ _ _ _ De eq_refl (set_pos_ok _ _ _ _ _ _ _ _ Cm)).
        intros x' Q1 Q2 Q3 Q4 Q5 Q6. split; auto. exists v. split; auto. rewrite Q2, Q3, Q4, Q5, block_index_nat. change 0%Z with (Z.of_nat 0). rewrite block_index_nat. repeat apply conj; auto; lia.
      + apply (Mv (fun m p x => set_empty R m p x) _ _ _ _ _ De eq_refl (set_empty_ok _ _ _ _ _ _ Cm)).
        intros x' Q1 Q2 Q3 Q4 Q5 Q6. split; auto. exists v. split; auto. split; auto. split; auto. left. eapply pin_m1; eauto.
    - (* prev *)
      destruct (live ys k) as [[o [[r c]|]]|] eqn:El; try discriminate. destruct (obj R vs o) as [v|] eqn:Ho; [|discriminate].
      destruct (declare ys k _) as [ys1|] eqn:De; [|discriminate]. injection S as <- <- <-.
      destruct (live_it _ _ _ _ _ _ H El) as (x & Nk & Al & At & Pk & Lk & _). pose proof At as (A1 & w & A2 & A3 & A4 & A5 & A6 & A7 & A8).
      assert (w = v) by congruence. subst w. destruct (data_obj _ _ _ _ Hr A2) as (M & ob & _ & Tm & _ & _ & _ & _ & O1 & O2 & _).
      pose proof (can_move_it _ _ _ _ _ _ _ H Nk At Pk) as Cm.
      assert (Mv : forall f p' r' c' br' bc', declare ys k (Some (o, p')) = Some ys1 -> prev_it R B col (ms R st) (pins R st) x = f (ms R st) (pins R st) x ->
         moved (ms R st) (pins R st) x r' c' br' bc' (f (ms R st) (pins R st) x) ->
         (forall x', im x' = o -> ir x' = r' -> ic x' = c' -> ibr x' = br' -> ibc x' = bc' -> pin_ok (ms R st) x' -> at_ok vs x' o p') ->
         exists st', move R st k (prev_it R B col) = Some (st', ([], [])) /\ irel st' vs ys1).
      { intros f p' r' c' br' bc' D Ef Mf Hx. eapply move_ok; eauto. rewrite Ef. exact Mf. }
      assert (Eh : (Z.of_nat (vh v) - 1)%Z = Z.of_nat (vh v - 1)) by lia. assert (Ew : (Z.of_nat (vw v) - 1)%Z = Z.of_nat (vw v - 1)) by lia.
      unfold prev_it in Mv. rewrite A1, Tm, O1, O2, A3, A4, Eh, Ew in Mv.
      assert (T0 : (Z.of_nat 0 - 1 >=? 0)%Z = false) by reflexivity.
      assert (T1 : forall n, (Z.of_nat (S n) - 1 >=? 0)%Z = true). { intros n. rewrite Z.geb_leb. apply Z.leb_le. lia. }
      assert (T2 : forall n, (Z.of_nat (S n) - 1)%Z = Z.of_nat n) by lia.
      unfold prev in De.
      destruct col; [destruct r as [|r]; [destruct c as [|c]|] | destruct c as [|c]; [destruct r as [|r]|]];
        rewrite ?T0, ?T1, ?T2 in Mv.
      + apply (Mv (fun m p x => set_empty R m p x) _ _ _ _ _ De eq_refl (set_empty_ok _ _ _ _ _ _ Cm)).
        intros x' Q1 Q2 Q3 Q4 Q5 Q6. split; auto. exists v. split; auto. split; auto. split; auto. left. eapply pin_m1; eauto.
      + apply (Mv (fun m p x => set_pos R B m p x (Z.of_nat (vh v - 1)) (Z.of_nat c)) _ _ _ _ _ De eq_refl (set_pos_ok _ _ _ _ _ _ _ _ Cm)).
        intros x' Q1 Q2 Q3 Q4 Q5 Q6. split; auto. exists v. split; auto. rewrite Q2, Q3, Q4, Q5, !block_index_nat. repeat apply conj; auto; lia.
      + apply (Mv (fun m p x => set_row R B m p x (Z.of_nat r)) _ _ _ _ _ De eq_refl (set_row_ok _ _ _ _ _ _ _ Cm)).
        intros x' Q1 Q2 Q3 Q4 Q5 Q6. split; auto. exists v. split; auto. rewrite Q2, Q3, Q4, Q5, block_index_nat. repeat apply conj; auto; lia.
      + apply (Mv (fun m p x => set_empty R m p x) _ _ _ _ _ De eq_refl (set_empty_ok _ _ _ _ _ _ Cm)).
        intros x' Q1 Q2 Q3 Q4 Q5 Q6. split; auto. exists v. split; auto. split; auto. split; auto. left. eapply pin_m1; eauto.
      + apply (Mv (fun m p x => set_pos R B m p x (Z.of_nat r) (Z.of_nat (vw v - 1))) _ _ _ _ _ De eq_refl (set_pos_ok _ _ _ _ _ _ _ _ Cm)).
        intros x' Q1 Q2 Q3 Q4 Q5 Q6. split; auto. exists v. split; auto. rewrite Q2, Q3, Q4, Q5, !block_index_nat. repeat apply conj; auto; lia.
      + apply (Mv (fun m p x => set_col R B m p x (Z.of_nat c)) _ _ _ _ _ De eq_refl (set_col_ok _ _ _ _ _ _ _ Cm)).
        intros x' Q1 Q2 Q3 Q4 Q5 Q6. split; auto. exists v. split; auto. rewrite Q2, Q3, Q4, Q5, block_index_nat. repeat apply conj; auto; lia.
    - (* get *)
      destruct (live ys k) as [[o [[r c]|]]|] eqn:El; try discriminate.
      destruct (deref_ok _ _ _ _ _ _ _ H El) as (x & v & M & ob & m & p & x' & Nk & Ho & Al & Lr & Lc & Lk & Ac & Rm & T1 & H1 & Ix & G & Tm & Ok & Em & L1 & L2 & W & Ee).
      rewrite Ho in S. injection S as <- <- <-. rewrite Nk, Ac, Ee. unfold store_it. destruct (Nat.ltb_spec k (length (its R st))); [|lia].
      eexists. split.
      + do 6 f_equal. destruct (get_elem_ok R rO B Bpos m vs o v ob r c) as (s' & E & _); auto. unfold get_elem, elem_block in E.
        rewrite <- Em, (at_idn (length (sto R m))) in E by auto. injection E as E _. exact E.
      + assert (Hy : ys = upd ys k (Some (o, Some (r, c)))). { unfold live in El. rewrite <- El. symmetry. apply upd_same. }
        rewrite Hy. apply irel_upd with (vs := vs); auto.
        * intros k'. apply (it_ok_same (ms R st)); auto. apply (ir_it _ _ _ H).
        * unfold itn in Nk. rewrite Nk. exact G.
    - (* put *)
      destruct (live ys k) as [[o [[r c]|]]|] eqn:El; try discriminate.
      destruct (deref_ok _ _ _ _ _ _ _ H El) as (y & v & M & ob & m & p & x' & Nk & Ho & Al & Lr & Lc & Lk & Ac & Rm & T1 & H1 & Ix & G & Tm & Ok & Em & L1 & L2 & W & Ee).
      rewrite Ho in S. injection S as <- <- <-. rewrite Nk, Ac, Ee. unfold store_it. destruct (Nat.ltb_spec k (length (its R st))); [|lia].
      eexists. split; [reflexivity|].
      destruct (put_elem_ok R rO B Bpos (sto R m) M v r c x) as (s' & E & C1 & V1); auto.
      { rewrite Em. apply (ok_operand R rO B); auto. apply (r_good _ _ _ _ _ Rm). }
      unfold put_elem, elem_block in E. rewrite (at_idn (length (sto R m))) in E by auto. injection E as E. rewrite E. clear E.
      assert (Alm : alone m o). { intros o' ob1 ob'. rewrite !T1. apply Al. }
      destruct Ok as (K1 & K2 & K3 & K4 & K5).
      assert (Rw : rel (with_sto R m s') (upd vs o (Some (v_set R v r c x)))).
      { rewrite Em in C1, V1. apply (rel_write R rO B Bpos) with (ob := ob); auto. congruence. }
      assert (Ks : forall z w, it_ok m vs z w -> it_ok (with_sto R m s') (upd vs o (Some (v_set R v r c x))) z w).
      { intros z w K. unfold it_ok in *. destruct z as [z|], w as [[o' p']|]; auto. destruct K as (Q1 & (Q2 & u & Q3 & Q4) & Q5).
        split; auto. split; auto. split; auto. unfold obj. rewrite nth_upd by (apply obj_lt in Ho; auto).
        destruct (Nat.eqb_spec o' o) as [->|N]; [|exists u; auto]. assert (u = v) by congruence. subst u. eexists. split; [reflexivity|]. exact Q4. }
      assert (Hy : ys = upd ys k (Some (o, Some (r, c)))). { unfold live in El. rewrite <- El. symmetry. apply upd_same. }
      rewrite Hy. apply irel_upd with (vs := vs); auto.
      * intros k'. apply Ks. apply (it_ok_same (ms R st)); auto. apply (ir_it _ _ _ H).
      * unfold itn in Nk. rewrite Nk. exact G.
    - (* pos *)
      destruct (live ys k) as [[o p]|] eqn:El; [|discriminate]. destruct (live_it _ _ _ _ _ _ H El) as (x & Nk & _ & At & _). rewrite Nk.
      destruct At as (A1 & v & A2 & A3). destruct p as [[r c]|]; injection S as <- <- <-.
      + destruct A3 as (A3 & A4 & _). rewrite A3, A4. destruct (Z.eqb_spec (Z.of_nat r) (-1)); [lia|]. cbn [andb]. rewrite !Nat2Z.id.
        exists st. split; auto.
      + destruct A3 as (A3 & A4 & _). rewrite A3, A4. exists st. split; auto.
    - (* equal *)
      destruct (live ys k) as [[o p]|] eqn:El; [|discriminate]. destruct (live ys a) as [[o' p']|] eqn:Ea; [|discriminate]. injection S as <- <- <-.
      destruct (live_it _ _ _ _ _ _ H El) as (x & Nk & _ & At & _). destruct (live_it _ _ _ _ _ _ H Ea) as (y & Na & _ & Aty & _). rewrite Nk, Na.
      exists st. split; auto. do 5 f_equal. destruct At as (A1 & v & A2 & A3), Aty as (B1 & w & B2 & B3). rewrite A1, B1.
      assert (Eq : (ir x =? ir y)%Z && (ic x =? ic y)%Z = same_pos p p').
      { destruct p as [[r c]|], p' as [[r' c']|]; unfold same_pos; destruct A3 as (A3 & A4 & _), B3 as (B3 & B4 & _); rewrite A3, A4, B3, B4; auto.
        - destruct (Z.eqb_spec (Z.of_nat r) (Z.of_nat r')), (Nat.eqb_spec r r'), (Z.eqb_spec (Z.of_nat c) (Z.of_nat c')), (Nat.eqb_spec c c'); auto; lia.
        - destruct (Z.eqb_spec (Z.of_nat r) (-1)); auto; lia.
        - destruct (Z.eqb_spec (-1) (Z.of_nat r')); auto; lia. }
      rewrite Eq. rewrite andb_comm. reflexivity.
  Qed.

  Theorem it_run_ok cs : forall st vs ys vs' ys' outs, irel st vs ys -> i_run R rO radd rmul rsub true cs (vs, ys) = Some ((vs', ys'), outs) ->
    exists st', it_run R rO radd rmul rsub ropp B cs st = Some (st', outs) /\ irel st' vs' ys'.
  Proof.
    induction cs as [|c cs IH]; cbn [i_run it_run]; intros st vs ys vs' ys' outs H S.
    - injection S as <- <- <-. eauto.
    - destruct (i_step c (vs, ys)) as [[[v1 y1] o]|] eqn:E; [|discriminate]. destruct (it_step_ok _ _ _ _ _ _ _ H E) as (st1 & -> & H1).
      destruct (i_run R rO radd rmul rsub true cs (v1, y1)) as [[[v2 y2] os]|] eqn:E2; [|discriminate]. injection S as <- <- <-.
      destruct (IH _ _ _ _ _ _ H1 E2) as (st2 & -> & H2). eauto.
  Qed.
  Lemma it_init_ok n k : irel (it_init R n k) (repeat None n) (repeat None k).
  Proof.
    constructor; cbn [it_init ms its pins].
    - apply (rel_init R rO B Bpos) || apply rel_init; auto.
    - rewrite !repeat_length. reflexivity.
    - intros i. rewrite !nth_repeat. exact I.
    - intros b. induction k; cbn in *; auto.
  Qed.
  Lemma dead_pins st vs ys : irel st vs ys -> dead ys = true -> pins R st = [].
  Proof.
    intros [H L I P] D. assert (Z : held (its R st) = []).
    { unfold held. assert (K : forall x, In x (its R st) -> x = None).
      { intros x Hx. apply (In_nth _ _ None) in Hx. destruct Hx as (k & Hk & E). specialize (I k). rewrite E in I.
        assert (N : nth k ys None = None).
        { unfold dead in D. rewrite forallb_forall in D. assert (Hy : In (nth k ys None) ys) by (apply nth_In; lia).
          specialize (D _ Hy). destruct (nth k ys None); auto. discriminate D. }
        rewrite N in I. destruct x; auto. destruct I. }
      clear -K. induction (its R st) as [|x l IH]; auto. cbn [flat_map]. rewrite (K x) by (left; auto). apply IH. intros y Hy. apply K. right; auto. }
    rewrite Z in P. destruct (pins R st) as [|b p]; auto. specialize (P b). cbn in P. destruct (Nat.eq_dec b b); [lia|congruence].
  Qed.
End IterP.
