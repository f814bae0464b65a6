(** The register of the live iterators: it lists exactly the live objects of the map, and
    the calls of an operation change every object by itself. *)
From Coq Require Import List Bool Arith NArith Lia.
From Verif Require Import OrderLib HashMapModel HashMapSpec HashMapBase HashMapStream HashMapProofs HashMapIterModel HashMapIter
  HashMapRegModel HashMapRegSpec HashMapTrack.
Import ListNotations.

Section RegBase.
  Context {K V L : Type}.
  Notation E := (K * V)%type.
  Variable hash : K -> N.
  Variable cmp : K -> K -> bool.
  Variable kdef : K.
  Variable ss spb : nat.
  Notation keq := (keq cmp).
  Notation core := (@core K V L).
  Notation ev := (@ev K).
  Notation obj := (@obj K).
  Notation mst := (@mst K V L).
  Notation oev := (@oev K V cmp ss spb).
  Notation oevs := (@oevs K V cmp ss spb).
  Notation sev := (@sev K V L cmp kdef ss spb).
  Notation sevs := (@sevs K V L cmp kdef ss spb).

  Definition live (a : bool) (b : nat) (o : obj) : Prop := o_end o = false /\ o_map o = a /\ is_b (o_sp o) = b.
  Definition regok (a : bool) (l : list (nat * nat)) (ob : nat -> option obj) : Prop :=
    NoDup (map snd l) /\ forall b id, In (b, id) l <-> exists o, ob id = Some o /\ live a b o.
  Definition RG (st : mst) : Prop := forall a, regok a (regs st a) (objs st).

  Lemma rem_ok b id : forall l, In (b, id) l -> NoDup (map snd l) ->
    exists l', rem b id l = Some l' /\ NoDup (map snd l') /\ forall p, In p l' <-> In p l /\ snd p <> id.
  Proof.
    induction l as [|(x & y) l IH]; intros H ND; [destruct H|]. cbn [rem fst snd]. cbn [map] in ND. inversion ND as [|? ? N1 N2]; subst.
    destruct ((x =? b) && (y =? id)) eqn:Q.
    - apply andb_true_iff in Q. destruct Q as (Q1 & Q2). apply Nat.eqb_eq in Q1, Q2. subst. exists l. split; [reflexivity|]. split; [exact N2|].
      intro p. split; [intro Hp; split; [right; exact Hp|]|intros ([Hp|Hp] & Hn); [subst p; cbn in Hn; congruence|exact Hp]].
      intro Z. apply N1. rewrite <- Z. cbn [snd]. apply in_map, Hp.
    - destruct H as [H|H]; [injection H as -> ->; rewrite !Nat.eqb_refl in Q; discriminate|].
      destruct (IH H N2) as (l' & L1 & L2 & L3). rewrite L1. exists ((x, y) :: l'). split; [reflexivity|]. split.
      + cbn [map snd]. constructor; [|exact L2]. intro Z. apply in_map_iff in Z. destruct Z as (p & P1 & P2). apply N1. cbn [snd] in *. rewrite <- P1. apply in_map, L3, P2.
      + intro p. cbn [In]. rewrite L3. split; [intros [Hp|Hp]; [|tauto]|tauto]. subst p. split; [tauto|]. cbn. intros ->. apply N1. apply (in_map snd) in H. exact H.
  Qed.

  Lemma reg_rem a b id l ob o : regok a l ob -> ob id = Some o -> live a b o ->
    exists l', rem b id l = Some l' /\ forall ob', (forall j, j <> id -> ob' j = ob j) -> (forall o' b', ob' id = Some o' -> ~ live a b' o') -> regok a l' ob'.
  Proof.
    intros (ND & R) H HL. destruct (rem_ok b id l) as (l' & L1 & L2 & L3); [apply R; exists o; tauto|exact ND|]. exists l'. split; [exact L1|].
    intros ob' H1 H2. split; [exact L2|]. intros b' j. rewrite L3. cbn [snd]. rewrite R. split.
    - intros (H3 & H4). rewrite H1 by exact H4. exact H3.
    - intros (o' & H3 & H4). assert (J : j <> id) by (intros ->; exact (H2 _ _ H3 H4)). split; [|exact J]. rewrite <- H1 by exact J. exists o'. tauto.
  Qed.
  Lemma reg_add a b id l ob ob' o : regok a l ob -> (forall o' b', ob id = Some o' -> ~ live a b' o') -> (forall j, j <> id -> ob' j = ob j) ->
    ob' id = Some o -> live a b o -> regok a ((b, id) :: l) ob'.
  Proof.
    intros (ND & R) H1 H2 H3 HL. split.
    - cbn [map snd]. constructor; [|exact ND]. intro Z. apply in_map_iff in Z. destruct Z as ((x & y) & P1 & P2). cbn in P1. subst y.
      apply R in P2. destruct P2 as (o' & P2 & P3). exact (H1 _ _ P2 P3).
    - intros b' j. cbn [In]. rewrite R. destruct (Nat.eq_dec j id) as [->|J].
      + split.
        * intros [Z|(o' & Z1 & Z2)]; [injection Z as <-; exists o; tauto|exfalso; exact (H1 _ _ Z1 Z2)].
        * intros (o' & Z1 & Z2). left. rewrite H3 in Z1. injection Z1 as <-. destruct HL as (_ & _ & <-). destruct Z2 as (_ & _ & <-). reflexivity.
      + rewrite H2 by exact J. split; [intros [Z|Z]; [injection Z as _ Z; congruence|exact Z]|auto].
  Qed.
  Lemma reg_same a l ob ob' id : regok a l ob -> (forall j, j <> id -> ob' j = ob j) ->
    (forall b, (exists o, ob id = Some o /\ live a b o) <-> (exists o, ob' id = Some o /\ live a b o)) -> regok a l ob'.
  Proof.
    intros (ND & R) H1 H2. split; [exact ND|]. intros b j. rewrite R. destruct (Nat.eq_dec j id) as [->|J]; [apply H2|]. rewrite H1 by exact J. reflexivity.
  Qed.
  Lemma reg_ext a l ob ob' : regok a l ob -> (forall j, ob' j = ob j) -> regok a l ob'.
  Proof. intros (ND & R) H. split; [exact ND|]. intros b j. rewrite R, H. reflexivity. Qed.
  (** Moving an object to another bucket. *)
  Lemma reg_move a b b' id l ob ob' o o' : regok a l ob -> ob id = Some o -> live a b o -> (forall j, j <> id -> ob' j = ob j) ->
    ob' id = Some o' -> live a b' o' -> exists l', rem b id l = Some l' /\ regok a ((b', id) :: l') ob'.
  Proof.
    intros R H1 H2 H3 H4 H5. destruct (reg_rem a b id l ob o R H1 H2) as (l' & L1 & L2). exists l'. split; [exact L1|].
    apply (reg_add a b' id l' (updn ob id None) ob' o'); [|unfold updn; rewrite Nat.eqb_refl; discriminate| |exact H4|exact H5].
    - apply L2; unfold updn; [|rewrite Nat.eqb_refl; discriminate]. intros j J. apply Nat.eqb_neq in J. rewrite J. reflexivity.
    - intros j J. rewrite H3 by exact J. unfold updn. apply Nat.eqb_neq in J. rewrite J. reflexivity.
  Qed.
  Lemma live_uniq a b a' b' o : live a b o -> live a' b' o -> a' = a /\ b' = b.
  Proof. intros (_ & <- & <-) (_ & <- & <-). auto. Qed.
  Lemma updn_same {A} (f : nat -> A) i x : updn f i x i = x.
  Proof. unfold updn. rewrite Nat.eqb_refl. reflexivity. Qed.
  Lemma updn_other {A} (f : nat -> A) i x j : j <> i -> updn f i x j = f j.
  Proof. intro H. unfold updn. apply Nat.eqb_neq in H. rewrite H. reflexivity. Qed.
  Lemma updb_same {A} (f : bool -> A) i x : updb f i x i = x.
  Proof. unfold updb. rewrite eqb_reflx. reflexivity. Qed.
  Lemma updb_other {A} (f : bool -> A) i x j : j <> i -> updb f i x j = f j.
  Proof. intro H. unfold updb. destruct (eqb j i) eqn:Q; [apply eqb_prop in Q; congruence|reflexivity]. Qed.

  (** ** Calls that visit objects one by one *)

  Definition same (a : bool) (st st' : mst) : Prop := cores st' = cores st /\ rmap st' = rmap st /\ forall x, x <> a -> regs st' x = regs st x.
  Lemma same_refl a st : same a st st.
  Proof. split; [reflexivity|]. split; reflexivity. Qed.
  Lemma same_obj a st id x : same a st (set_obj st id x).
  Proof. split; [reflexivity|]. split; reflexivity. Qed.
  Lemma same_trans a s1 s2 s3 : same a s1 s2 -> same a s2 s3 -> same a s1 s3.
  Proof.
    intros (A1 & A2 & A3) (B1 & B2 & B3). split; [congruence|]. split; [congruence|]. intros x X. rewrite B3, A3; auto.
  Qed.

  Lemma fold_pt a (f : mst -> nat -> option mst) (g : obj -> option obj) (A : obj -> Prop) (Q : mst -> Prop) :
    (forall st id o o', Q st -> objs st id = Some o -> A o -> g o = Some o' ->
       exists st', f st id = Some st' /\ Q st' /\ (forall j, objs st' j = updn (objs st) id (Some o') j) /\ same a st st') ->
    forall ids st, NoDup ids -> Q st -> (forall id, In id ids -> exists o, objs st id = Some o /\ A o /\ g o <> None) ->
    exists st', foldo f ids st = Some st' /\ Q st' /\ same a st st'
      /\ forall j, objs st' j = if in_dec Nat.eq_dec j ids then match objs st j with Some o => g o | None => None end else objs st j.
  Proof.
    intro F. induction ids as [|id ids IH]; intros st ND HQ H.
    - exists st. split; [reflexivity|]. split; [exact HQ|]. split; [apply same_refl|]. reflexivity.
    - inversion ND as [|? ? N1 N2]; subst. destruct (H id (or_introl eq_refl)) as (o & O1 & O2 & O3). destruct (g o) as [o'|] eqn:G; [|congruence].
      destruct (F st id o o' HQ O1 O2 G) as (s1 & S1 & S2 & S3 & S4). cbn [foldo]. rewrite S1.
      destruct (IH s1 N2 S2) as (s2 & T1 & T2 & T3 & T4).
      + intros j Hj. rewrite S3, updn_other by (intros ->; contradiction). apply H. right. exact Hj.
      + exists s2. split; [exact T1|]. split; [exact T2|]. split; [eapply same_trans; eassumption|]. intro j. rewrite T4.
        destruct (Nat.eq_dec j id) as [->|J].
        * destruct (in_dec Nat.eq_dec id ids) as [Z|_]; [contradiction|]. destruct (in_dec Nat.eq_dec id (id :: ids)) as [_|Z]; [|exfalso; apply Z; left; reflexivity].
          rewrite S3, updn_same, O1. symmetry. exact G.
        * rewrite S3, updn_other by exact J. destruct (in_dec Nat.eq_dec j ids) as [Z|Z], (in_dec Nat.eq_dec j (id :: ids)) as [Y|Y]; try reflexivity.
          -- exfalso. apply Y. right. exact Z.
          -- exfalso. destruct Y as [Y|Y]; [congruence|contradiction].
  Qed.

  Definition oth (a : bool) (mm : list (list E)) (e : ev) (x : option obj) : option obj :=
    match x with Some o => if eqb (o_map o) a then oev mm o e else Some o | None => None end.

  Lemma oev_map mm o e o' : oev mm o e = Some o' -> o_map o' = o_map o.
  Proof.
    unfold HashMapTrack.oev. destruct (o_end o); [intro H; injection H as <-; reflexivity|]. destruct e; try (intro H; injection H as <-; try destruct (_ && _); reflexivity).
    destruct (_ && _); [destruct (is_src (o_sp o)); [discriminate| |discriminate]|]; intro H; injection H as <-; reflexivity.
  Qed.
  (** The other map does not see the changes. *)
  Lemma other_ok a x mm e (st : mst) (ob : nat -> option obj) : x <> a -> regok x (regs st x) (objs st) ->
    (forall id o, objs st id = Some o -> o_map o = a -> oev mm o e <> None) ->
    (forall id, ob id = oth a mm e (objs st id)) -> regok x (regs st x) ob.
  Proof.
    intros X (ND & R) HD H. split; [exact ND|]. intros b id. rewrite R, H. split.
    - intros (o & O1 & O2). exists o. rewrite O1. cbn [oth]. destruct O2 as (O2 & O3 & O4). split; [|repeat split; assumption].
      destruct (eqb (o_map o) a) eqn:Q; [apply eqb_prop in Q; congruence|reflexivity].
    - intros (o & O1 & O2). destruct (objs st id) as [o0|] eqn:Q0; [|discriminate]. cbn [oth] in O1. destruct (eqb (o_map o0) a) eqn:Q.
      + apply eqb_prop in Q. exfalso. apply oev_map in O1. destruct O2 as (_ & O2 & _). congruence.
      + injection O1 as <-. exists o0. tauto.
  Qed.

  Lemma reg_ids_in (st : mst) a b id : In id (reg_ids st a b) <-> In (b, id) (regs st a).
  Proof.
    unfold reg_ids. rewrite in_map_iff. split.
    - intros ((x & y) & P1 & P2). apply filter_In in P2. cbn in *. destruct P2 as (P2 & P3). apply Nat.eqb_eq in P3. subst. exact P2.
    - intro H. exists (b, id). split; [reflexivity|]. apply filter_In. split; [exact H|]. cbn. apply Nat.eqb_refl.
  Qed.
  Lemma reg_ids_nd (st : mst) a b : NoDup (map snd (regs st a)) -> NoDup (reg_ids st a b).
  Proof.
    unfold reg_ids. induction (regs st a) as [|p l IH]; intro ND; [constructor|]. cbn [map] in ND. inversion ND as [|? ? N1 N2]; subst. cbn [filter].
    destruct (fst p =? b); [|apply IH, N2]. cbn [map]. constructor; [|apply IH, N2]. intro Z. apply N1. apply in_map_iff in Z. destruct Z as (q & Q1 & Q2).
    apply filter_In in Q2. rewrite <- Q1. apply in_map, Q2.
  Qed.

  Lemma sev_ok mm a st e : RG st -> notmk e -> (forall id o, objs st id = Some o -> o_map o = a -> oev mm o e <> None) ->
    exists st', sev mm a st e = Some st' /\ RG st' /\ cores st' = cores st /\ rmap st' = rmap st
      /\ forall id, objs st' id = oth a mm e (objs st id).
  Proof.
    intros R NM D. pose proof (R a) as (ND & Ra).
    (* calls that visit a bucket *)
    assert (VIS : forall f bo, (forall s id o o', regok a (regs s a) (objs s) -> objs s id = Some o -> live a bo o -> oev mm o e = Some o' ->
                     exists s', f s id = Some s' /\ regok a (regs s' a) (objs s') /\ (forall j, objs s' j = updn (objs s) id (Some o') j) /\ same a s s') ->
                   (forall o, o_end o = false -> is_b (o_sp o) <> bo -> oev mm o e = Some o) ->
                   exists st', foldo f (reg_ids st a bo) st = Some st' /\ RG st' /\ cores st' = cores st /\ rmap st' = rmap st
                     /\ forall id, objs st' id = oth a mm e (objs st id)).
    { intros f bo F1 F2. destruct (fold_pt a f (fun o => oev mm o e) (live a bo) (fun s => regok a (regs s a) (objs s)) F1 (reg_ids st a bo) st) as (s' & S1 & S2 & S3 & S4).
      - apply reg_ids_nd, ND.
      - exact (R a).
      - intros id H. apply reg_ids_in, Ra in H. destruct H as (o & O1 & O2). exists o. split; [exact O1|]. split; [exact O2|]. apply (D id o O1), O2.
      - assert (OB : forall id, objs s' id = oth a mm e (objs st id)).
        { intro id. rewrite S4. destruct (in_dec Nat.eq_dec id (reg_ids st a bo)) as [Z|Z].
          - apply reg_ids_in, Ra in Z. destruct Z as (o & O1 & O2 & O3 & O4). rewrite O1. cbn [oth]. rewrite O3, eqb_reflx. reflexivity.
          - destruct (objs st id) as [o|] eqn:Q; [|reflexivity]. cbn [oth]. destruct (eqb (o_map o) a) eqn:M; [|reflexivity]. apply eqb_prop in M.
            destruct (o_end o) eqn:EN; [unfold HashMapTrack.oev; rewrite EN; reflexivity|]. symmetry. apply F2; [exact EN|]. intro ZB. apply Z.
            apply reg_ids_in, Ra. exists o. split; [exact Q|]. split; [exact EN|]. split; assumption. }
        exists s'. destruct S3 as (T1 & T2 & T3). split; [exact S1|]. split; [|split; [exact T1|split; [exact T2|exact OB]]].
        intro x. destruct (bool_dec x a) as [->|X]; [exact S2|]. rewrite T3 by exact X. eapply other_ok; [exact X|apply R|exact D|exact OB]. }
    destruct e; cbn [HashMapRegModel.sev]; [destruct NM|..].
    - (* 2int *)
      apply VIS.
      + intros s id o o' RR O1 O2 O3. unfold HashMapTrack.oev in O3. destruct O2 as (P1 & P2 & P3). rewrite P1, P3, Nat.eqb_refl in O3. cbn [andb] in O3. unfold fix_2int. rewrite O1.
        destruct (keq (is_key (o_sp o)) k) eqn:KQ.
        * destruct (is_src (o_sp o)); [discriminate| |discriminate]. injection O3 as <-. eexists. split; [reflexivity|]. cbn [set_obj regs objs]. split; [|split; [reflexivity|apply same_obj]].
          eapply reg_same with (id := id); [exact RR|intros j J; apply updn_other, J|]. intro x. rewrite updn_same, O1.
          split; intros (y & X1 & X2); injection X1 as <-; (eexists; split; [reflexivity|exact X2]).
        * injection O3 as <-. exists s. split; [reflexivity|]. split; [exact RR|]. split; [|apply same_refl]. intro j. unfold updn. destruct (Nat.eqb_spec j id) as [->|_]; [exact O1|reflexivity].
      + intros o EN ZB. unfold HashMapTrack.oev. rewrite EN. apply Nat.eqb_neq in ZB. rewrite ZB. reflexivity.
    - (* 2end *)
      apply VIS.
      + intros s id o o' RR O1 O2 O3. unfold HashMapTrack.oev in O3. pose proof O2 as (P1 & P2 & P3). rewrite P1, P3, Nat.eqb_refl in O3. cbn [andb] in O3. unfold fix_2end. rewrite O1.
        destruct (keq k (is_key (o_sp o))) eqn:KQ; injection O3 as <-.
        * rewrite P3. destruct (reg_rem _ _ _ _ _ _ RR O1 O2) as (l' & L1 & L2). unfold unregister. cbn [set_obj regs]. rewrite L1. eexists. split; [reflexivity|].
          cbn [set_reg regs objs]. rewrite updb_same. split; [|split; [reflexivity|split; [reflexivity|split; [reflexivity|]]]].
          -- apply L2; [intros j J; apply updn_other, J|]. intros x b' X. cbn [set_obj objs] in X; rewrite updn_same in X. injection X as <-. intros (Z & _). discriminate.
          -- intros x X. cbn [register set_reg set_obj regs]. rewrite updb_other by exact X. reflexivity.
        * exists s. split; [reflexivity|]. split; [exact RR|]. split; [|apply same_refl]. intro j. unfold updn. destruct (Nat.eqb_spec j id) as [->|_]; [exact O1|reflexivity].
      + intros o EN ZB. unfold HashMapTrack.oev. rewrite EN. apply Nat.eqb_neq in ZB. rewrite ZB. reflexivity.
    - (* 2ext *)
      apply VIS.
      + intros s id o o' RR O1 O2 O3. unfold HashMapTrack.oev in O3. destruct O2 as (P1 & P2 & P3). rewrite P1, P3, Nat.eqb_refl in O3. cbn [andb] in O3. unfold fix_2ext. rewrite O1.
        destruct (keq k (is_key (o_sp o))) eqn:KQ; injection O3 as <-.
        * destruct (Nat.eqb_spec bo bnew) as [->|NQ].
          -- eexists. split; [reflexivity|]. cbn [set_obj regs objs]. split; [|split; [reflexivity|apply same_obj]].
             eapply reg_same with (id := id); [exact RR|intros j J; apply updn_other, J|]. intro b. rewrite updn_same, O1. split; intros (x & X1 & X2); injection X1 as <-.
             ++ eexists. split; [reflexivity|]. destruct X2 as (X2 & X3 & X4). split; [exact X2|]. split; [exact X3|]. cbn. congruence.
             ++ eexists. split; [reflexivity|]. destruct X2 as (X2 & X3 & X4). cbn in X2, X3, X4. split; [exact X2|]. split; [exact X3|]. congruence.
          -- destruct (reg_move a (is_b (o_sp o)) bnew id (regs s a) (objs s) (updn (objs s) id (Some (to_ext o bnew ie))) o (to_ext o bnew ie)) as (l' & L1 & L2);
               [exact RR|exact O1|repeat split; assumption|intros j J; apply updn_other, J|apply updn_same|repeat split; assumption|].
             unfold unregister. rewrite L1. eexists. split; [reflexivity|]. cbn [register set_reg set_obj regs objs].
             rewrite !updb_same. split; [exact L2|]. split; [reflexivity|]. split; [reflexivity|]. split; [reflexivity|]. intros x X. cbn [register set_reg set_obj regs]. rewrite !updb_other by exact X. reflexivity.
        * exists s. split; [reflexivity|]. split; [exact RR|]. split; [|apply same_refl]. intro j. unfold updn. destruct (Nat.eqb_spec j id) as [->|_]; [exact O1|reflexivity].
      + intros o EN ZB. unfold HashMapTrack.oev. rewrite EN. apply Nat.eqb_neq in ZB. rewrite ZB. reflexivity.
    - (* all *)
      destruct (fold_pt a fix_all (fun o => Some (to_end o)) (fun _ => True) (fun _ => True)) with (ids := map snd (regs st a)) (st := st) as (s' & S1 & _ & (T1 & T2 & T3) & S4).
      + intros s id o o' _ O1 _ G. injection G as <-. unfold fix_all. rewrite O1. eexists. split; [reflexivity|]. split; [exact I|]. split; [reflexivity|apply same_obj].
      + exact ND.
      + exact I.
      + intros id H. apply in_map_iff in H. destruct H as ((b & y) & H1 & H2). cbn in H1. subst y. apply Ra in H2. destruct H2 as (o & O1 & _). exists o. split; [exact O1|]. split; [exact I|discriminate].
      + rewrite S1. eexists. split; [reflexivity|].
        assert (OB : forall id, objs s' id = oth a mm EAllEnd (objs st id)).
        { intro id. rewrite S4. destruct (in_dec Nat.eq_dec id (map snd (regs st a))) as [Z|Z].
          - apply in_map_iff in Z. destruct Z as ((b & y) & H1 & H2). cbn in H1. subst y. apply Ra in H2. destruct H2 as (o & O1 & O2 & O3 & O4).
            rewrite O1. cbn [oth]. rewrite O3, eqb_reflx. unfold HashMapTrack.oev. rewrite O2. reflexivity.
          - destruct (objs st id) as [o|] eqn:Q; [|reflexivity]. cbn [oth]. destruct (eqb (o_map o) a) eqn:M; [|reflexivity]. apply eqb_prop in M.
            unfold HashMapTrack.oev. destruct (o_end o) eqn:EN; [reflexivity|]. exfalso. apply Z. apply in_map_iff. exists (is_b (o_sp o), id). split; [reflexivity|].
            apply Ra. exists o. split; [exact Q|]. repeat split; assumption. }
        split; [|split; [exact T1|split; [exact T2|exact OB]]].
        intro x. cbn [set_reg regs objs]. destruct (bool_dec x a) as [->|X].
        * rewrite updb_same. split; [constructor|]. intros b id. split; [intros []|]. intros (o & O1 & O2 & O3 & O4). rewrite OB in O1.
          destruct (objs st id) as [o0|]; [|discriminate]. cbn [oth] in O1. destruct (eqb (o_map o0) a) eqn:M.
          -- unfold HashMapTrack.oev in O1. destruct (o_end o0) eqn:EN; injection O1 as <-; [congruence|discriminate].
          -- injection O1 as <-. rewrite O3, eqb_reflx in M. discriminate.
        * rewrite updb_other by exact X. rewrite T3 by exact X. eapply other_ok; [exact X|apply R|exact D|exact OB].
  Qed.

  Lemma oevs_map mm evs : forall o o', oevs mm o evs = Some o' -> o_map o' = o_map o.
  Proof.
    induction evs as [|e evs IH]; intros o o' H; [injection H as <-; reflexivity|]. unfold HashMapTrack.oevs in H. cbn [foldo] in H.
    destruct (oev mm o e) as [o1|] eqn:Q; [|discriminate]. rewrite (IH _ _ H). apply (oev_map _ _ _ _ Q).
  Qed.
  Lemma sevs_ok mm a evs : forall st, RG st -> Forall notmk evs -> (forall id o, objs st id = Some o -> o_map o = a -> oevs mm o evs <> None) ->
    exists st', sevs mm a evs st = Some st' /\ RG st' /\ cores st' = cores st /\ rmap st' = rmap st
      /\ forall id, objs st' id = match objs st id with Some o => if eqb (o_map o) a then oevs mm o evs else Some o | None => None end.
  Proof.
    induction evs as [|e evs IH]; intros st R NM D.
    - exists st. split; [reflexivity|]. split; [exact R|]. split; [reflexivity|]. split; [reflexivity|]. intro id. destruct (objs st id) as [o|]; [|reflexivity]. destruct (eqb _ _); reflexivity.
    - inversion NM as [|? ? N1 N2]; subst. destruct (sev_ok mm a st e R N1) as (s1 & S1 & S2 & S3 & S4 & S5).
      { intros id o H1 H2 Q. apply (D id o H1 H2). unfold HashMapTrack.oevs. cbn [foldo]. rewrite Q. reflexivity. }
      destruct (IH s1 S2 N2) as (s2 & T1 & T2 & T3 & T4 & T5).
      { intros id o H1 H2. rewrite S5 in H1. destruct (objs st id) as [o0|] eqn:Q; [|discriminate]. cbn [oth] in H1. destruct (eqb (o_map o0) a) eqn:M.
        - pose proof (D id o0 Q (eqb_prop _ _ M)) as Z. unfold HashMapTrack.oevs in Z. cbn [foldo] in Z. rewrite H1 in Z. exact Z.
        - injection H1 as <-. rewrite H2, eqb_reflx in M. discriminate. }
      exists s2. unfold HashMapRegModel.sevs. cbn [foldo]. rewrite S1. split; [exact T1|]. split; [exact T2|]. split; [congruence|]. split; [congruence|].
      intro id. rewrite T5, S5. destruct (objs st id) as [o|] eqn:Q; [|reflexivity]. cbn [oth]. destruct (eqb (o_map o) a) eqn:M; [|rewrite M; reflexivity].
      unfold HashMapTrack.oevs. cbn [foldo]. destruct (oev mm o e) as [o1|] eqn:Q1; [|reflexivity]. rewrite (oev_map _ _ _ _ Q1), M. reflexivity.
  Qed.

  (** ** Making, copying, destroying *)

  Definition mk_obj (a : bool) (r : option (@itspec K)) : obj := match r with Some sp => new_obj a sp | None => end_obj kdef a end.
  Lemma mk_ok mm a st r : RG st -> objs st 0 = None -> exists st', sev mm a st (EMk r) = Some st' /\ RG st' /\ cores st' = cores st /\ rmap st' = rmap st
    /\ forall id, objs st' id = updn (objs st) 0 (Some (mk_obj a r)) id.
  Proof.
    intros R H. destruct r as [sp|]; cbn [HashMapRegModel.sev mk_obj].
    - eexists. split; [reflexivity|]. split; [|split; [reflexivity|split; reflexivity]]. intro x. cbn [register set_reg set_obj regs objs].
      destruct (bool_dec x a) as [->|X].
      + rewrite updb_same. apply (reg_add a (is_b sp) 0 _ (objs st) _ (new_obj a sp)); [apply R|rewrite H; discriminate|intros j J; apply updn_other, J|apply updn_same|repeat split].
      + rewrite updb_other by exact X. apply (reg_same _ _ (objs st) _ 0); [apply R|intros j J; apply updn_other, J|]. intro b. rewrite H, updn_same.
        split; [intros (o & Z & _); discriminate|]. intros (o & Z & _ & Z2 & _). injection Z as <-. cbn in Z2. congruence.
    - eexists. split; [reflexivity|]. split; [|split; [reflexivity|split; reflexivity]]. intro x. cbn [set_obj regs objs].
      apply (reg_same _ _ (objs st) _ 0); [apply R|intros j J; apply updn_other, J|]. intro b. rewrite H, updn_same.
      split; [intros (o & Z & _); discriminate|]. intros (o & Z & Z1 & Z2 & _). injection Z as <-. cbn in Z1. congruence.
  Qed.

  (** Removing the registration of object [id]. *)
  Lemma drop_ok (st : mst) id o : RG st -> objs st id = Some o ->
    exists s, (if o_end o then Some st else unregister st (o_map o) (is_b (o_sp o)) id) = Some s /\ RG (set_obj s id None)
      /\ cores s = cores st /\ rmap s = rmap st /\ objs s = objs st.
  Proof.
    intros R H. destruct (o_end o) eqn:EN.
    - exists st. split; [reflexivity|]. split; [|split; [reflexivity|split; reflexivity]]. intro x. cbn [set_obj regs objs].
      apply (reg_same _ _ (objs st) _ id); [apply R|intros j J; apply updn_other, J|]. intro b. rewrite H, updn_same.
      split; [intros (o' & Z & Z1 & _); injection Z as <-; congruence|]. intros (o' & Z & _). discriminate.
    - destruct (reg_rem (o_map o) (is_b (o_sp o)) id _ _ o (R (o_map o)) H) as (l' & L1 & L2); [repeat split; assumption|].
      unfold unregister. rewrite L1. eexists. split; [reflexivity|]. split; [|split; [reflexivity|split; reflexivity]]. intro x. cbn [set_obj set_reg regs objs].
      destruct (bool_dec x (o_map o)) as [->|X].
      + rewrite updb_same. apply L2; [intros j J; apply updn_other, J|]. intros o' b'. rewrite updn_same. discriminate.
      + rewrite updb_other by exact X. apply (reg_same _ _ (objs st) _ id); [apply R|intros j J; apply updn_other, J|]. intro b. rewrite H, updn_same.
        split; [intros (o' & Z & _ & Z1 & _); injection Z as <-; congruence|]. intros (o' & Z & _). discriminate.
  Qed.
  Lemma destroy_ok (st : mst) id o : RG st -> objs st id = Some o -> exists st', destroy st id = Some st' /\ RG st' /\ cores st' = cores st /\ rmap st' = rmap st
    /\ forall j, objs st' j = updn (objs st) id None j.
  Proof.
    intros R H. destruct (drop_ok st id o R H) as (s & S1 & S2 & S3 & S4 & S5). unfold destroy. rewrite H, S1. eexists. split; [reflexivity|]. split; [exact S2|].
    split; [exact S3|]. split; [exact S4|]. intro j. cbn [set_obj objs]. rewrite S5. reflexivity.
  Qed.
  (** Adding the object [o] at the address [id]. *)
  Lemma new_ok (st : mst) id o : RG (set_obj st id None) ->
    exists s, (let s1 := set_obj st id (Some o) in if o_end o then s1 else register s1 (o_map o) (is_b (o_sp o)) id) = s /\ RG s
      /\ cores s = cores st /\ rmap s = rmap st /\ forall j, objs s j = updn (objs st) id (Some o) j.
  Proof.
    intro R. eexists. split; [reflexivity|]. cbv zeta. destruct (o_end o) eqn:EN.
    - split; [|split; [reflexivity|split; reflexivity]]. intro x. cbn [set_obj regs objs].
      apply (reg_same x (regs st x) (updn (objs st) id None) _ id); [apply R|intros j J; rewrite !updn_other by exact J; reflexivity|]. intro b. rewrite !updn_same.
      split; [intros (o' & Z & _); discriminate|]. intros (o' & Z & Z1 & _). injection Z as <-. congruence.
    - split; [|split; [reflexivity|split; reflexivity]]. intro x. cbn [register set_obj set_reg regs objs]. destruct (bool_dec x (o_map o)) as [->|X].
      + rewrite updb_same. apply (reg_add (o_map o) (is_b (o_sp o)) id _ (updn (objs st) id None) _ o).
        * apply (R (o_map o)).
        * intros o' b'. rewrite updn_same. discriminate.
        * intros j J. rewrite !updn_other by exact J. reflexivity.
        * apply updn_same.
        * repeat split. exact EN.
      + rewrite updb_other by exact X. apply (reg_same x (regs st x) (updn (objs st) id None) _ id); [apply R|intros j J; rewrite !updn_other by exact J; reflexivity|]. intro b. rewrite !updn_same.
        split; [intros (o' & Z & _); discriminate|]. intros (o' & Z & _ & Z1 & _). injection Z as <-. congruence.
  Qed.
  Lemma copy_ok (st : mst) dst src o : RG st -> objs st src = Some o -> dst <> src ->
    exists st', it_copy st dst src = Some st' /\ RG st' /\ cores st' = cores st /\ rmap st' = rmap st
      /\ forall j, objs st' j = updn (objs st) dst (Some (copy_obj o)) j.
  Proof.
    intros R H NQ. unfold it_copy. rewrite H. apply Nat.eqb_neq in NQ. rewrite NQ.
    assert (X : exists s, match objs st dst with Some d => if o_end d then Some st else unregister st (o_map d) (is_b (o_sp d)) dst | None => Some st end = Some s
                  /\ RG (set_obj s dst None) /\ cores s = cores st /\ rmap s = rmap st /\ objs s = objs st).
    { destruct (objs st dst) as [d|] eqn:Q; [apply drop_ok; assumption|]. exists st. split; [reflexivity|]. split; [|split; [reflexivity|split; reflexivity]].
      intro x. cbn [set_obj regs objs]. apply (reg_ext _ _ (objs st)); [apply R|]. intro j. unfold updn. destruct (Nat.eqb_spec j dst) as [->|_]; [symmetry; exact Q|reflexivity]. }
    destruct X as (s & S1 & S2 & S3 & S4 & S5). rewrite S1. destruct (new_ok s dst (copy_obj o) S2) as (s' & T1 & T2 & T3 & T4 & T5).
    exists s'. split; [f_equal; exact T1|].
    split; [exact T2|]. split; [congruence|]. split; [congruence|]. intro j. rewrite T5, S5. reflexivity.
  Qed.
  Lemma give_ok (st : mst) x o : RG st -> objs st 0 = Some o ->
    exists st', give st x = Some st' /\ RG st' /\ cores st' = cores st /\ rmap st' = rmap st /\ objs st' 0 = None
      /\ forall y, objs st' (S y) = if y =? x then Some (copy_obj o) else objs st (S y).
  Proof.
    intros R H. destruct (copy_ok st (S x) 0 o R H) as (s1 & S1 & S2 & S3 & S4 & S5); [discriminate|]. unfold give. rewrite S1.
    assert (H1 : objs s1 0 = Some o) by (rewrite S5, updn_other by discriminate; exact H).
    destruct (destroy_ok s1 0 o S2 H1) as (s2 & T1 & T2 & T3 & T4 & T5). exists s2. split; [exact T1|]. split; [exact T2|]. split; [congruence|]. split; [congruence|].
    split; [rewrite T5; apply updn_same|]. intro y. rewrite T5, updn_other, S5 by discriminate. unfold updn. cbn [Nat.eqb]. reflexivity.
  Qed.

  (** Changing an object without changing its bucket. *)
  Lemma set_ok (st : mst) id o o' : RG st -> objs st id = Some o -> o_end o' = o_end o -> o_map o' = o_map o -> is_b (o_sp o') = is_b (o_sp o) ->
    RG (set_obj st id (Some o')).
  Proof.
    intros R H E1 E2 E3 x. cbn [set_obj regs objs]. apply (reg_same _ _ (objs st) _ id); [apply R|intros j J; apply updn_other, J|]. intro b. rewrite H, updn_same. unfold live.
    split; intros (y & Y1 & Y2); injection Y1 as <-; eexists; (split; [reflexivity|]); rewrite ?E1, ?E2, ?E3 in *; exact Y2.
  Qed.
End RegBase.
