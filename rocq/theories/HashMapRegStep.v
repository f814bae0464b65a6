(** Programs with iterators: the objects, the registers and the maps against the
    specification. *)
From Coq Require Import List Bool Arith NArith Lia.
From Verif Require Import OrderLib HashMapModel HashMapSpec HashMapBase HashMapStream HashMapProofs HashMapIterModel HashMapIter
  HashMapRegModel HashMapRegSpec HashMapTrack HashMapTrackOps HashMapRegBase.
Import ListNotations.

Section Step.
  Context {K V L : Type}.
  Notation E := (K * V)%type.
  Variable hash : K -> N.
  Variable cmp : K -> K -> bool.
  Variable keqb : K -> K -> bool.
  Variable kdef : K.
  Variable edef : E.
  Variable vdef : V.
  Variable ss spb inc : nat.
  Variable bkt : N -> nat -> nat.
  Variable nbuck : L -> N -> N.
  Variable lgt : L -> N -> nat -> bool.
  Variable maxb : N.
  Variable fits : N -> bool.
  Variable junk : nat -> nat -> E.
  Variable srt : list E -> list E.

  Notation klt := (klt hash cmp).
  Notation keq := (keq cmp).
  Notation core := (@core K V L).
  Notation ev := (@ev K).
  Notation obj := (@obj K).
  Notation mst := (@mst K V L).
  Notation rop := (@rop K V L).
  Notation op := (@op K V L).
  Notation smap := (@smap K V).
  Notation sst := (@sst K V).
  Notation cur := (@cur K).
  Notation wf := (@wf K V hash cmp ss spb bkt fits).
  Notation look := (@look K V hash cmp ss spb bkt).
  Notation Inv := (@Inv K V L hash cmp ss spb bkt fits).
  Notation lk c := (look (mem c) (bks c)).
  Notation cat := (@cat K V L hash cmp ss spb bkt).
  Notation liat := (@liat K V L hash cmp ss spb bkt).
  Notation track := (@track K V L hash cmp ss spb bkt).
  Notation mk_track := (@mk_track K V L hash cmp ss spb bkt).
  Notation oevs := (@oevs K V cmp ss spb).
  Notation sevs := (@sevs K V L cmp kdef ss spb).
  Notation exec := (exec hash cmp keqb edef vdef ss spb inc bkt nbuck lgt maxb fits junk srt).
  Notation mevs := (mevs hash cmp keqb edef vdef ss spb inc bkt nbuck lgt maxb fits junk srt).
  Notation rexec := (rexec hash cmp keqb kdef edef vdef ss spb inc bkt nbuck lgt maxb fits junk srt).
  Notation rrun := (rrun hash cmp keqb kdef edef vdef ss spb inc bkt nbuck lgt maxb fits junk srt).
  Notation bef := (fun a b => klt a b = true).
  Notation tame := (tame fits).
  Notation rstep := (@rstep K V L keq bef vdef).
  Notation rruns := (@rruns K V L keq bef vdef).
  Notation legal := (@legal K V L keq tame false).
  Notation legals := (@legals K V L keq bef vdef tame false).
  Notation it_next := (@it_next K V L hash cmp ss spb).
  Notation safe := (safe cmp nbuck lgt maxb fits).
  Notation TT := (fun _ : K => True).

  Hypothesis PO : params_ok hash cmp keqb ss spb bkt maxb fits srt.
  Let SW := po_sw _ _ _ _ _ _ _ _ _ PO.
  Notation liat_look := (@liat_look K V L hash cmp keqb edef ss spb bkt maxb fits junk srt PO).

  Variable cap : N.
  Hypothesis SO : sizes_ok nbuck fits cap.

  (** ** The relation *)

  (** A variable and its object. *)
  Definition vok (f : bool -> core) (x : option cur) (y : option obj) : Prop :=
    match x, y with
    | None, None => True
    | Some CEnd, Some o => o_end o = true /\ is_src (o_sp o) = Unknown
    | Some CPast, Some o => o_end o = true
    | Some (CAt a k q), Some o => o_end o = false /\ o_map o = a /\ cat (f a) (it_of o) k q
    | _, _ => False
    end.
  Definition Sim (u : N) (s : sst) (st : mst) : Prop :=
    (forall a, Inv (s_s s a) true u (cores st a) (s_m s a)) /\ RG st /\ objs st 0 = None
    /\ forall x, vok (cores st) (s_v s x) (objs st (S x)).

  Lemma vok_some f x o : vok f x (Some o) -> exists c, x = Some c.
  Proof. destruct x as [c|]; [exists c; reflexivity|intros []]. Qed.
  Lemma vok_ext f f' x y : (forall a, f' a = f a) -> vok f x y -> vok f' x y.
  Proof.
    intro H. destruct x as [[| |a k q]|], y as [o|]; auto. cbn. rewrite H. auto.
  Qed.
  Lemma cat_copy c (o : obj) k q : cat c (it_of o) k q -> cat c (it_of (copy_obj o)) k q.
  Proof.
    intros ((b & H1 & H2 & H3 & H4) & H5). split; [|destruct q; exact H5]. exists b. cbn [it_of copy_obj i_sp i_rd o_sp o_rd] in *.
    split; [exact H1|]. split; [exact H2|]. split; [exact H3|]. destruct (is_src (o_sp o)); [| |exact H4]; tauto.
  Qed.
  Lemma vok_copy f x o : vok f x (Some o) -> vok f x (Some (copy_obj o)).
  Proof.
    destruct x as [[| |a k q]|]; cbn [vok]; auto. intros (H1 & H2 & H3). split; [exact H1|]. split; [exact H2|]. apply cat_copy, H3.
  Qed.

  (** ** A change of one map *)

  Lemma vok_settle mm (P : K -> Prop) ins a f c' (m' : smap) evs x y : track mm P ins (f a) evs c' -> (forall k, lk c' k = m' k) ->
    (forall k q, x = Some (CAt a k q) -> P k) -> vok f x y ->
    (forall o, y = Some o -> o_map o = a -> oevs mm o evs <> None)
    /\ vok (updb f a c') (option_map (settle ins a m') x)
           (match y with Some o => if eqb (o_map o) a then oevs mm o evs else Some o | None => None end).
  Proof.
    intros (_ & T) HL HP H. destruct x as [c|], y as [o|]; cbn [vok option_map] in *; try contradiction; try (destruct c; contradiction); [|split; [discriminate|exact I]].
    destruct c as [| |a' k q]; cbn [settle].
    - destruct H as (H1 & H2). split.
      + intros o' Q _. injection Q as <-. rewrite oevs_end by exact H1. discriminate.
      + destruct (eqb (o_map o) a); [rewrite oevs_end by exact H1|]; split; assumption.
    - split.
      + intros o' Q _. injection Q as <-. rewrite oevs_end by exact H. discriminate.
      + destruct (eqb (o_map o) a); [rewrite oevs_end by exact H|]; assumption.
    - destruct H as (H1 & H2 & H3). rewrite H2. destruct (eqb a' a) eqn:M.
      + apply eqb_prop in M. subst a'. rewrite M in *. destruct (T o k q (HP k q eq_refl) H1 H3) as (o' & O1 & O2 & O3). rewrite HL in O3. split.
        * intros o2 Q _. injection Q as <-. rewrite O1. discriminate.
        * rewrite O1. destruct (m' k); cbn [vok].
          -- rewrite updb_same. destruct O3 as (O3 & O4). split; [exact O3|]. split; [congruence|exact O4].
          -- exact O3.
      + split.
        * intros o2 Q Q2. injection Q as <-. rewrite <- H2, Q2, eqb_reflx in M. discriminate.
        * cbn [vok]. rewrite updb_other by (intros ->; rewrite eqb_reflx in M; discriminate). split; [exact H1|]. split; assumption.
  Qed.

  Lemma settle_step mm P ins a st (s : sst) c' (m' : smap) evs : RG st -> objs st 0 = None -> (forall x, vok (cores st) (s_v s x) (objs st (S x))) ->
    track mm P ins (cores st a) evs c' -> (forall k, lk c' k = m' k) -> (forall x k q, s_v s x = Some (CAt a k q) -> P k) ->
    exists st', sevs mm a evs st = Some st' /\ RG st' /\ cores st' = cores st /\ objs st' 0 = None
      /\ forall x, vok (updb (cores st) a c') (option_map (settle ins a m') (s_v s x)) (objs st' (S x)).
  Proof.
    intros R Z HV T HL HP.
    destruct (sevs_ok hash cmp kdef ss spb mm a evs st R (proj1 T)) as (st' & S1 & S2 & S3 & S4 & S5).
    - intros id o H1 H2. destruct id as [|x]; [congruence|]. eapply (vok_settle mm P ins a (cores st) c' m' evs); [exact T|exact HL|apply (HP x)|apply HV|exact H1|exact H2].
    - exists st'. split; [exact S1|]. split; [exact S2|]. split; [exact S3|]. split; [rewrite S5, Z; reflexivity|]. intro x. rewrite S5.
      apply (vok_settle mm P ins a (cores st) c' m' evs); [exact T|exact HL|apply (HP x)|apply HV].
  Qed.

  Lemma settle_twice a (m1 m' : smap) x : (forall k, m1 k = m' k) ->
    option_map (settle true a m') (option_map (settle true a m1) x) = option_map (settle true a m') x.
  Proof.
    intro H. destruct x as [[| |a' k q]|]; try reflexivity. cbn [option_map settle]. f_equal. destruct (eqb a' a) eqn:M; [|cbn [settle]; rewrite M; reflexivity].
    rewrite H. destruct (m' k) eqn:Q; cbn [settle]; [|reflexivity]. rewrite M, Q. destruct q; reflexivity.
  Qed.

  (** ** An operation that returns an iterator *)

  Lemma updb_updb {A} (f : bool -> A) a x y b : updb (updb f a x) a y b = updb f a y b.
  Proof. unfold updb. destruct (eqb b a); reflexivity. Qed.

  Lemma mk_step mm a st (s : sst) c' (m' : smap) evs k : RG st -> objs st 0 = None -> (forall x, vok (cores st) (s_v s x) (objs st (S x))) ->
    mk_track mm (cores st a) evs c' k -> (forall k, lk c' k = m' k) ->
    exists st' o, sevs mm a evs st = Some st' /\ RG st' /\ cores st' = cores st /\ objs st' 0 = Some o
      /\ vok (updb (cores st) a c') (Some (at_key m' a k)) (Some o)
      /\ forall x, vok (updb (cores st) a c') (option_map (settle true a m') (s_v s x)) (objs st' (S x)).
  Proof.
    intros R Z HV (e0 & r & e1 & c1 & EV & T1 & T2 & HL1 & AN) HL.
    destruct (settle_step mm TT true a st s c1 (lk c1) e0 R Z HV T1 (fun _ => eq_refl)) as (s1 & A1 & A2 & A3 & A4 & A5); [auto|].
    destruct (mk_ok hash cmp kdef ss spb mm a s1 r A2 A4) as (s2 & B1 & B2 & B3 & _ & B5).
    assert (OB : forall x, objs s2 (S x) = objs s1 (S x)) by (intro x; rewrite B5; reflexivity).
    assert (V0 : vok (updb (cores st) a c1) (Some (at_key m' a k)) (objs s2 0)).
    { rewrite B5, updn_same. unfold at_key. rewrite <- HL, <- HL1. unfold mk_obj. destruct r as [sp|]; cbn [at_new] in AN.
      - destruct AN as (AN1 & AN2). destruct (lk c1 k); [|congruence]. cbn [vok]. rewrite updb_same. split; [reflexivity|]. split; [reflexivity|exact AN1].
      - rewrite AN. cbn. auto. }
    pose (f1 := updb (cores st) a c1).
    assert (F1 : f1 a = c1) by apply updb_same.
    assert (T2' : track mm TT true (f1 a) e1 c') by (rewrite F1; exact T2).
    assert (X0 : option_map (settle true a m') (Some (at_key m' a k)) = Some (at_key m' a k)).
    { unfold at_key. destruct (m' k) eqn:Q; cbn [option_map settle]; [rewrite eqb_reflx, Q; reflexivity|reflexivity]. }
    assert (VX : forall id, exists x, vok f1 x (objs s2 id)).
    { intros [|x]; [exists (Some (at_key m' a k)); exact V0|]. eexists. rewrite OB. apply A5. }
    destruct (sevs_ok hash cmp kdef ss spb mm a e1 s2 B2 (proj1 T2)) as (s3 & C1 & C2 & C3 & _ & C5).
    { intros id o H1 H2. destruct (VX id) as (x & Vx). rewrite H1 in Vx.
      eapply (vok_settle mm TT true a f1 c' m' e1); [exact T2'|exact HL|auto|exact Vx|reflexivity|exact H2]. }
    pose proof (proj2 (vok_settle mm TT true a f1 c' m' e1 _ _ T2' HL (fun _ _ _ => I) V0)) as W0. rewrite <- C5, X0 in W0.
    assert (EX : forall b, updb (cores st) a c' b = updb f1 a c' b) by (intro b; symmetry; apply updb_updb).
    destruct (objs s3 0) as [o|] eqn:O3; [|unfold at_key in W0; destruct (m' k); contradiction].
    exists s3, o. split.
    { rewrite EV. unfold HashMapRegModel.sevs in *. rewrite foldo_app, A1. cbn [foldo]. rewrite B1. exact C1. }
    split; [exact C2|]. split; [congruence|]. split; [exact O3|]. split; [eapply vok_ext; [exact EX|exact W0]|].
    intro x. eapply vok_ext; [exact EX|]. rewrite <- (settle_twice a (lk c1)) by (intro y; rewrite HL1; apply HL).
    rewrite C5, OB. apply (vok_settle mm TT true a f1 c' m' e1); [exact T2'|exact HL|auto|apply A5].
  Qed.

  Lemma give_step (st : mst) (f : bool -> core) x (v : nat -> option cur) c o : RG st -> objs st 0 = Some o -> vok f (Some c) (Some o) -> (forall y, vok f (v y) (objs st (S y))) ->
    exists st', give st x = Some st' /\ RG st' /\ cores st' = cores st /\ objs st' 0 = None
      /\ forall y, vok f (updn v x (Some c) y) (objs st' (S y)).
  Proof.
    intros R H V0 HV. destruct (give_ok hash cmp kdef st x o R H) as (s & S1 & S2 & S3 & _ & S5 & S6).
    exists s. split; [exact S1|]. split; [exact S2|]. split; [exact S3|]. split; [exact S5|]. intro y. rewrite S6. unfold updn. destruct (y =? x); [apply vok_copy, V0|apply HV].
  Qed.

  (** ** [++] *)

  Definition nxt_obj (c : core) (o : obj) (z : option (@iter K)) : obj :=
    match z with
    | None => {| o_map := o_map o; o_end := true; o_sp := end_sp hash cmp c (o_sp o); o_rd := None |}
    | Some it => {| o_map := o_map o; o_end := false; o_sp := i_sp it; o_rd := i_rd it |}
    end.
  Lemma next_reg (st : mst) id o z : RG st -> objs st id = Some o -> o_end o = false -> find_next hash cmp ss spb (cores st (o_map o)) (it_of o) = Some z ->
    exists st', it_next st id = Some st' /\ RG st' /\ cores st' = cores st
      /\ forall j, objs st' j = updn (objs st) id (Some (nxt_obj (cores st (o_map o)) o z)) j.
  Proof.
    intros R H EN FN. unfold HashMapRegModel.it_next. rewrite H, EN. cbv zeta. rewrite FN.
    assert (LV : live (o_map o) (is_b (o_sp o)) o) by (repeat split; exact EN).
    destruct z as [it|]; cbn [nxt_obj].
    - destruct (Nat.eqb_spec (is_b (o_sp o)) (is_b (i_sp it))) as [Q|Q].
      + eexists. split; [reflexivity|]. split; [|split; reflexivity]. apply (set_ok st id o); [exact R|exact H|cbn; congruence|reflexivity|cbn; congruence].
      + set (o' := {| o_map := _ |}).
        destruct (reg_move hash cmp kdef (o_map o) (is_b (o_sp o)) (is_b (i_sp it)) id (regs st (o_map o)) (objs st) (updn (objs st) id (Some o')) o o') as (l' & L1 & L2);
          [apply R|exact H|exact LV|intros j J; apply updn_other, J|apply updn_same|repeat split|].
        unfold unregister. cbn [set_obj regs]. rewrite L1. eexists. split; [reflexivity|]. split; [|split; reflexivity].
        intro x. cbn [register set_reg set_obj regs objs]. destruct (bool_dec x (o_map o)) as [->|X].
        * rewrite !updb_same. exact L2.
        * rewrite !updb_other by exact X. apply (reg_same x (regs st x) (objs st) _ id); [apply R|intros j J; apply updn_other, J|]. intro b. rewrite H, updn_same.
          split; intros (y & Y1 & _ & Y2 & _); injection Y1 as <-; [congruence|cbn in Y2; congruence].
    - set (o' := {| o_map := _ |}). destruct (reg_rem hash cmp kdef _ _ _ _ _ _ (R (o_map o)) H LV) as (l' & L1 & L2).
      unfold unregister. cbn [set_obj regs]. rewrite L1. eexists. split; [reflexivity|]. split; [|split; reflexivity].
      intro x. cbn [register set_reg set_obj regs objs]. destruct (bool_dec x (o_map o)) as [->|X].
      + rewrite !updb_same. apply L2; [intros j J; apply updn_other, J|]. intros y b'. rewrite updn_same. intro Y. injection Y as <-. intros (Z & _). discriminate.
      + rewrite !updb_other by exact X. apply (reg_same x (regs st x) (objs st) _ id); [apply R|intros j J; apply updn_other, J|]. intro b. rewrite H, updn_same.
        split; intros (y & Y1 & _ & Y2 & _); injection Y1 as <-; [congruence|cbn in Y2; congruence].
  Qed.

  (** ** One operation *)

  Definition rweight (o : rop) : N :=
    match o with
    | RMap _ o => weight o
    | RInsert _ _ _ _ | RInsertObl _ _ _ _ => 1
    | _ => 0
    end%N.
  Definition rweights (os : list rop) : N := fold_right (fun o t => (rweight o + t)%N) 0%N os.

  Lemma Inv_up s g u u' c m : Inv s g u c m -> (u <= u')%N -> Inv s g u' c m.
  Proof. apply (Inv_u _ _ _ _ _ _ _ _ _ PO). Qed.

  Lemma exec_ok u (s : bool) c m o : Inv s true u c m -> (u + weight o <= cap)%N -> tame m o ->
    safe c m o /\ exists c' r s' m', exec c o = Some (c', r) /\ sstep keq vdef s m o r s' m' /\ Inv s' true (u + weight o) c' m'.
  Proof.
    intros I HU T. pose proof (so_cap _ _ _ SO) as SC.
    assert (SF : safe c m o) by (eapply (tame_safe _ _ _ _ _ _ _ _ _ _ _ PO); eassumption). split; [exact SF|].
    destruct (step_ok _ _ _ edef vdef _ _ inc _ nbuck lgt _ _ junk _ PO s true u c m o I) as (c' & r & s' & m' & R1 & R2 & R3).
    - intros n Hn. destruct I as (_ & _ & _ & _ & H5). destruct (H5 eq_refl) as (n' & N1 & N2). rewrite (card_uniq _ _ _ _ _ _ _ _ _ PO m _ _ Hn N1). lia.
    - intros _. lia.
    - exact SF.
    - rewrite (tame_counts _ m o T) in R3. exists c', r, s', m'. split; [exact R1|]. split; [exact R2|exact R3].
  Qed.

  Lemma Inv_sm u s (f : bool -> core) (m : bool -> smap) (sg : bool -> bool) a c' m' u' : (forall x, Inv (sg x) true u (f x) (m x)) -> (u <= u')%N ->
    Inv s true u' c' m' -> forall x, Inv (updb sg a s x) true u' (updb f a c' x) (updb m a m' x).
  Proof.
    intros H LE I x. unfold updb. destruct (eqb x a); [exact I|]. eapply Inv_up; [apply H|exact LE].
  Qed.

  Lemma step_sim u s st o : Sim u s st -> legal s o -> (u + rweight o <= cap)%N ->
    exists st' r s', rexec st o = Some (st', r) /\ rstep s o r s' /\ Sim (u + rweight o) s' st'.
  Proof.
    intros (HI & R & Z & HV) LG HU. destruct o; cbn [rweight HashMapRegSpec.legal HashMapRegModel.rexec] in *; try rewrite N.add_0_r in *.
    - (* an operation that returns no iterator *)
      destruct LG as (PL & TM & LG). destruct LG as [LG|LG]; [discriminate|].
      destruct (exec_ok u _ _ _ o (HI a) HU TM) as (SF & c' & r & s' & m' & R1 & R2 & R3).
      assert (ME : exists evs, mevs (cores st a) o = Some evs).
      { revert R1. destruct o; cbn [plain] in PL; try contradiction; cbn [HashMapRegModel.mevs HashMapModel.exec]; unfold ret; intro R1;
          try (match type of R1 with match ?t with Some _ => _ | None => _ end = _ => destruct t as [x|]; [|discriminate] end); eexists; reflexivity. }
      destruct ME as (evs & ME).
      pose proof (exec_track _ _ _ edef vdef _ _ inc _ nbuck lgt _ _ junk _ PO _ _ _ _ _ _ _ _ _ (HI a) SF PL ME R1) as T.
      destruct (settle_step _ _ _ a st s c' m' evs R Z HV T) as (s1 & S1 & S2 & S3 & S4 & S5).
      + apply R3.
      + intros x k q Q k' KO. apply (LG k' KO x k q Q).
      + rewrite ME, R1. cbn [fst snd]. rewrite S1. eexists _, _, _. split; [reflexivity|]. split; [eapply R_map, R2|].
        split; [|split; [exact S2|split; [exact S4|]]].
        * cbn [set_core cores settles s_s s_m]. rewrite S3. apply (Inv_sm u); [exact HI|lia|exact R3].
        * cbn [set_core cores objs settles s_v]. rewrite S3. exact S5.
    - (* insert *)
      destruct (exec_ok u _ _ _ (OInsert k v) (HI a) HU LG) as (SF & c' & r & s' & m' & R1 & R2 & R3).
      cbn [HashMapModel.exec] in R1. destruct (HashMapModel.insert _ _ _ _ _ _ _ _ _ _ _ (cores st a) k v) as [((c2 & evs) & b)|] eqn:IE; [|discriminate].
      cbn [fst snd] in *. injection R1 as -> <-.
      pose proof (insert_track _ _ _ edef _ _ inc _ nbuck _ _ junk _ PO (mem (cores st a)) _ _ _ _ _ _ _ _ _ _ (HI a) SF IE) as T.
      destruct (mk_step _ a st s c' m' evs k R Z HV T) as (s1 & o & S1 & S2 & S3 & S4 & S5 & S6); [apply R3|]. rewrite S1.
      destruct (give_step (set_core s1 a c') (updb (cores st) a c') x _ _ o S2 S4 S5 S6) as (s2 & G1 & G2 & G3 & G4 & G5). rewrite G1.
      eexists _, _, _. split; [reflexivity|]. split; [eapply R_insert, R2|]. cbn [weight] in *.
      split; [|split; [exact G2|split; [exact G4|]]].
      * rewrite G3. cbn [set_core cores settles bind s_s s_m]. rewrite S3. apply (Inv_sm u); [exact HI|lia|exact R3].
      * rewrite G3. cbn [set_core cores settles bind s_v]. rewrite S3. exact G5.
    - (* insert_oblivious *)
      destruct (exec_ok u _ _ _ (OInsertObl k v) (HI a) HU LG) as (SF & c' & r & s' & m' & R1 & R2 & R3).
      cbn [HashMapModel.exec] in R1. destruct (HashMapModel.insert_oblivious _ _ _ _ _ _ _ _ _ _ _ (cores st a) k v) as [(c2 & evs)|] eqn:IE; [|discriminate].
      unfold ret in R1. cbn [fst snd] in *. injection R1 as -> <-. destruct SF as (SF1 & SF2).
      pose proof (insert_obl_track _ _ _ edef _ _ inc _ nbuck _ _ junk _ PO _ _ _ _ _ (proj1 (HI a)) SF1 SF2 IE) as T.
      destruct (mk_step _ a st s c' m' evs k R Z HV T) as (s1 & o & S1 & S2 & S3 & S4 & S5 & S6); [apply R3|]. rewrite S1.
      destruct (give_step (set_core s1 a c') (updb (cores st) a c') x _ _ o S2 S4 S5 S6) as (s2 & G1 & G2 & G3 & G4 & G5). rewrite G1.
      eexists _, _, _. split; [reflexivity|]. split; [eapply R_insert_obl, R2|]. cbn [weight] in *.
      split; [|split; [exact G2|split; [exact G4|]]].
      * rewrite G3. cbn [set_core cores settles bind s_s s_m]. rewrite S3. apply (Inv_sm u); [exact HI|lia|exact R3].
      * rewrite G3. cbn [set_core cores settles bind s_v]. rewrite S3. exact G5.
    - (* find *)
      assert (HU0 : (u + weight (@OFind K V L k) <= cap)%N) by (cbn [weight]; rewrite N.add_0_r; exact HU).
      destruct (exec_ok u _ _ _ (OFind k) (HI a) HU0 LG) as (SF & c' & r & s' & m' & R1 & R2 & R3). cbn [weight] in R3. rewrite N.add_0_r in R3.
      cbn [HashMapModel.exec] in R1. destruct (HashMapModel.find _ _ _ _ _ _ _ _ _ _ _ (cores st a) k) as [((c2 & evs) & it)|] eqn:IE; [|discriminate].
      cbn [fst snd] in *.
      assert (c2 = c') by (destruct it; [destruct (deref _ _ _ _ _ _); [|discriminate]|]; congruence). subst c2.
      inversion R2; subst. destruct SF as (SF1 & SF2).
      pose proof (find_track _ _ _ edef _ _ inc _ nbuck _ _ junk _ PO _ _ _ _ _ _ _ _ _ (HI a) SF1 SF2 IE) as T.
      destruct (mk_step _ a st s c' (s_m s a) evs k R Z HV T) as (s1 & o & S1 & S2 & S3 & S4 & S5 & S6); [apply R3|]. rewrite S1.
      destruct (give_step (set_core s1 a c') (updb (cores st) a c') x _ _ o S2 S4 S5 S6) as (s2 & G1 & G2 & G3 & G4 & G5). rewrite G1.
      eexists _, _, _. split; [reflexivity|]. split; [apply R_find|].
      split; [|split; [exact G2|split; [exact G4|]]].
      * rewrite G3. cbn [set_core cores settles bind s_s s_m]. rewrite S3. apply (Inv_sm u); [exact HI|lia|exact R3].
      * rewrite G3. cbn [set_core cores settles bind s_v]. rewrite S3. exact G5.
    - (* find of a constant map *)
      assert (HU0 : (u + weight (@OCFind K V L k) <= cap)%N) by (cbn [weight]; rewrite N.add_0_r; exact HU).
      destruct (exec_ok u _ _ _ (OCFind k) (HI a) HU0 LG) as (SF & _). cbn [HashMapProofs.safe] in SF.
      destruct (cfind_ok _ _ _ edef _ _ _ _ _ junk _ PO (cores st a) (s_m s a) k (proj1 (HI a))) as (r & R1 & _); [apply HI|exact SF|].
      pose proof (cfind_new _ _ _ edef _ _ _ _ _ junk _ PO _ _ _ (proj1 (HI a)) SF R1) as AN. rewrite R1.
      destruct (mk_ok hash cmp kdef ss spb (mem (cores st a)) a st r R Z) as (s2 & B1 & B2 & B3 & _ & B5). rewrite B1.
      destruct (give_step s2 (cores st) x (s_v s) (at_key (s_m s a) a k) (mk_obj kdef a r) B2) as (s3 & G1 & G2 & G3 & G4 & G5).
      + rewrite B5. apply updn_same.
      + unfold at_key, mk_obj. pose proof (proj1 (proj2 (HI a)) k) as HLk. rewrite <- HLk. destruct r as [sp|]; cbn [at_new] in AN.
        * destruct AN as (AN1 & AN2). destruct (lk (cores st a) k); [|congruence]. cbn [vok]. split; [reflexivity|]. split; [reflexivity|exact AN1].
        * rewrite AN. cbn. auto.
      + intro y. rewrite B5. apply HV.
      + rewrite G1. eexists _, _, _. split; [reflexivity|]. split; [apply R_cfind|]. cbn [bind]. split; [|split; [exact G2|split; [exact G4|]]].
        * rewrite G3, B3. exact HI.
        * rewrite G3, B3. exact G5.
    - (* begin *)
      destruct (begin_ok _ _ _ kdef edef _ _ _ _ _ junk _ PO (cores st a) (proj1 (HI a))) as (z & Z1 & Z2). unfold begin in Z1. unfold it_begin.
      destruct (bks (cores st a)) as [|b bs] eqn:BK.
      + injection Z1 as <-. cbn [next_is] in Z2.
        destruct (mk_ok hash cmp kdef ss spb [] a st None R Z) as (s2 & B1 & B2 & B3 & _ & B5). rewrite B1.
        destruct (give_step s2 (cores st) x (s_v s) CPast (mk_obj kdef a None) B2) as (s3 & G1 & G2 & G3 & G4 & G5).
        * rewrite B5. apply updn_same.
        * reflexivity.
        * intro y. rewrite B5. apply HV.
        * rewrite G1. eexists _, _, _. split; [reflexivity|]. split; [apply R_begin_empty; intro k; rewrite <- (proj1 (proj2 (HI a))); apply Z2; exact I|].
          cbn [bind]. split; [|split; [exact G2|split; [exact G4|]]].
          -- rewrite G3, B3. exact HI.
          -- rewrite G3, B3. exact G5.
      + set (sp := {| is_b := 0 |}) in *.
        destruct (mk_ok hash cmp kdef ss spb [] a st (Some sp) R Z) as (s2 & B1 & B2 & B3 & _ & B5). rewrite B1.
        assert (O2 : objs s2 0 = Some (new_obj a sp)) by (rewrite B5; apply updn_same).
        destruct (next_reg s2 0 (new_obj a sp) z B2 O2 eq_refl) as (s3 & N1 & N2 & N3 & N4); [cbn [o_map new_obj]; rewrite B3; exact Z1|]. rewrite N1.
        assert (VZ : exists cu, vok (cores st) (Some cu) (Some (nxt_obj (cores s2 (o_map (new_obj a sp))) (new_obj a sp) z))
                       /\ rstep s (RBegin a x) QU (bind s x (Some cu))).
        { destruct z as [it|]; cbn [next_is nxt_obj] in *.
          - destruct Z2 as (k1 & _ & X2 & X3). exists (CAt a k1 Begun). cbn [vok o_end o_map]. split.
            + split; [reflexivity|]. split; [reflexivity|]. unfold it_of. cbn [o_sp o_rd].
              replace {| i_sp := i_sp it; i_rd := i_rd it |} with it by (destruct it; reflexivity).
              apply (iat_cat _ _ _ edef _ _ _ _ _ junk _ PO _ _ _ Begun (proj1 (HI a)) X2). discriminate.
            + apply R_begin.
              * rewrite <- (proj1 (proj2 (HI a))). apply (liat_look _ it _ (proj1 (HI a))). apply (iat_liat _ _ _ edef _ _ _ _ _ junk _ PO _ _ _ (proj1 (HI a)) X2).
              * intros k' B. rewrite <- (proj1 (proj2 (HI a))). apply X3; [exact I|exact B].
          - exists CPast. split; [reflexivity|]. apply R_begin_empty. intro k. rewrite <- (proj1 (proj2 (HI a))). apply Z2. exact I. }
        destruct VZ as (cu & VZ1 & VZ2).
        destruct (give_step s3 (cores st) x (s_v s) cu (nxt_obj (cores s2 (o_map (new_obj a sp))) (new_obj a sp) z) N2) as (s4 & G1 & G2 & G3 & G4 & G5).
        * rewrite N4. apply updn_same.
        * exact VZ1.
        * intro y. rewrite N4, updn_other, B5 by discriminate. apply HV.
        * rewrite G1. eexists _, _, _. split; [reflexivity|]. split; [exact VZ2|]. cbn [bind]. split; [|split; [exact G2|split; [exact G4|]]].
          -- rewrite G3, N3, B3. exact HI.
          -- rewrite G3, N3, B3. exact G5.
    - (* end *)
      destruct (mk_ok hash cmp kdef ss spb [] a st None R Z) as (s2 & B1 & B2 & B3 & _ & B5). rewrite B1.
      destruct (give_step s2 (cores st) x (s_v s) CEnd (mk_obj kdef a None) B2) as (s3 & G1 & G2 & G3 & G4 & G5).
      + rewrite B5. apply updn_same.
      + cbn. auto.
      + intro y. rewrite B5. apply HV.
      + rewrite G1. eexists _, _, _. split; [reflexivity|]. split; [apply R_end|]. cbn [bind]. split; [|split; [exact G2|split; [exact G4|]]].
        * rewrite G3, B3. exact HI.
        * rewrite G3, B3. exact G5.
    - (* copy *)
      pose proof (HV y) as Vy. unfold alive in LG. destruct (s_v s y) as [cu|] eqn:SY; [|congruence].
      destruct (objs st (S y)) as [o|] eqn:OY; [|destruct cu; contradiction]. destruct (Nat.eq_dec x y) as [->|XY].
      + unfold it_copy. rewrite OY, Nat.eqb_refl. eexists _, _, _. split; [reflexivity|]. split; [eapply R_copy, SY|]. split; [exact HI|]. split; [exact R|]. split; [exact Z|].
        intro j. cbn [bind s_v]. unfold updn. destruct (Nat.eqb_spec j y) as [->|_]; [rewrite OY; exact Vy|apply HV].
      + destruct (copy_ok hash cmp kdef st (S x) (S y) o R OY) as (s1 & C1 & C2 & C3 & _ & C5); [congruence|]. rewrite C1.
        eexists _, _, _. split; [reflexivity|]. split; [eapply R_copy, SY|]. split; [rewrite C3; exact HI|]. split; [exact C2|]. split; [rewrite C5, updn_other by discriminate; exact Z|].
        intro j. cbn [bind s_v]. rewrite C3, C5. unfold updn. cbn [Nat.eqb]. destruct (j =? x); [apply vok_copy, Vy|apply HV].
    - (* destructor *)
      pose proof (HV x) as Vx. unfold alive in LG. destruct (s_v s x) as [cu|] eqn:SX; [|congruence].
      destruct (objs st (S x)) as [o|] eqn:OX; [|destruct cu; contradiction].
      destruct (destroy_ok hash cmp kdef st (S x) o R OX) as (s1 & C1 & C2 & C3 & _ & C5). rewrite C1.
      eexists _, _, _. split; [reflexivity|]. split; [apply R_drop|]. split; [rewrite C3; exact HI|]. split; [exact C2|]. split; [rewrite C5, updn_other by discriminate; exact Z|].
      intro j. cbn [bind s_v]. rewrite C3, C5. unfold updn. cbn [Nat.eqb]. destruct (j =? x); [exact I|apply HV].
    - (* ++ *)
      destruct LG as ((a & k & q & SX) & LG). destruct LG as [LG|LG]; [discriminate|]. pose proof (HV x) as Vx. rewrite SX in Vx.
      destruct (objs st (S x)) as [o|] eqn:OX; [|contradiction]. destruct Vx as (V1 & V2 & V3). subst a. set (a := o_map o) in *.
      assert (QL : q <> Lost) by (intros ->; exact (LG _ _ SX)).
      pose proof (cat_iat _ _ _ _ _ _ _ _ _ PO _ _ _ _ (proj1 (HI a)) QL V3) as IA.
      destruct (find_next_sl _ _ _ edef _ _ _ _ _ junk _ PO _ _ _ (proj1 (HI a)) IA) as (z & Z1 & Z2).
      destruct (next_reg st (S x) o z R OX V1 Z1) as (s1 & N1 & N2 & N3 & N4). rewrite N1.
      assert (VZ : exists cu, vok (cores st) (Some cu) (Some (nxt_obj (cores st a) o z)) /\ rstep s (RNext x) QU (bind s x (Some cu))).
      { destruct z as [it|]; cbn [next_sl nxt_obj] in *.
        - destruct Z2 as ((k1 & X1 & X2 & X3) & X4). exists (CAt a k1 q). cbn [vok o_end o_map]. split.
          + split; [reflexivity|]. split; [reflexivity|]. unfold it_of. cbn [o_sp o_rd].
            replace {| i_sp := i_sp it; i_rd := i_rd it |} with it by (destruct it; reflexivity).
            apply (iat_cat _ _ _ edef _ _ _ _ _ junk _ PO _ _ _ q (proj1 (HI a)) X2). intros ->. apply X4. exact (proj2 V3).
          + eapply R_next; [exact SX|exact X1| |].
            * rewrite <- (proj1 (proj2 (HI a))). apply (liat_look _ it _ (proj1 (HI a))). apply (iat_liat _ _ _ edef _ _ _ _ _ junk _ PO _ _ _ (proj1 (HI a)) X2).
            * intros k2 B1 B2. rewrite <- (proj1 (proj2 (HI a))). apply X3; assumption.
        - exists CPast. split; [reflexivity|]. eapply R_next_end; [exact SX|]. intros k' B. rewrite <- (proj1 (proj2 (HI a))). apply Z2. exact B. }
      destruct VZ as (cu & VZ1 & VZ2). eexists _, _, _. split; [reflexivity|]. split; [exact VZ2|]. cbn [bind].
      split; [rewrite N3; exact HI|]. split; [exact N2|]. split; [rewrite N4, updn_other by discriminate; exact Z|].
      intro j. cbn [bind s_v]. rewrite N3, N4. unfold updn. cbn [Nat.eqb]. destruct (j =? x); [exact VZ1|apply HV].
    - (* the value *)
      destruct LG as (a & k & q & SX). pose proof (HV x) as Vx. rewrite SX in Vx.
      destruct (objs st (S x)) as [o|] eqn:OX; [|contradiction]. destruct Vx as (V1 & V2 & V3). subst a. set (a := o_map o) in *.
      destruct (liat_value _ _ _ edef _ _ _ _ _ junk _ PO _ _ _ (proj1 (HI a)) (proj1 V3)) as (e & E1 & E2 & E3).
      destruct (touch_ok _ _ _ edef _ _ _ _ _ junk _ PO _ _ _ (proj1 (HI a)) (proj1 V3)) as (o' & T1 & T2 & T3 & T4 & T5 & _).
      unfold it_get. rewrite OX, V1. fold a. rewrite E1, T1. cbn [fst snd].
      eexists _, _, _. split; [reflexivity|]. split; [eapply R_get; [exact SX|exact E2|rewrite <- (proj1 (proj2 (HI a))); exact E3]|].
      split; [exact HI|]. split; [apply (set_ok st (S x) o o' R OX); congruence|]. split; [exact Z|].
      intro j. cbn [set_obj cores objs]. unfold updn. cbn [Nat.eqb]. destruct (Nat.eqb_spec j x) as [->|_]; [|apply HV].
      rewrite SX. cbn [vok]. split; [congruence|]. split; [exact T2|]. apply T5, V3.
    - (* an assignment *)
      destruct LG as (a & k & q & SX). pose proof (HV x) as Vx. rewrite SX in Vx.
      destruct (objs st (S x)) as [o|] eqn:OX; [|contradiction]. destruct Vx as (V1 & V2 & V3). subst a. set (a := o_map o) in *.
      destruct (liat_value _ _ _ edef _ _ _ _ _ junk _ PO _ _ _ (proj1 (HI a)) (proj1 V3)) as (e & E1 & E2 & E3).
      destruct (touch_ok _ _ _ edef _ _ _ _ _ junk _ PO _ _ _ (proj1 (HI a)) (proj1 V3)) as (o' & T1 & T2 & T3 & T4 & T5 & T6).
      pose proof (T5 q V3) as V3'. destruct V3' as (LI & _). unfold it_of in LI.
      destruct (liat_points _ _ _ edef _ _ _ _ _ junk _ PO _ _ _ _ (proj1 (HI a)) LI) as (PT & NE).
      assert (MK : s_m s a k <> None) by (rewrite <- (proj1 (proj2 (HI a))), E3; discriminate).
      destruct (assign_inv _ _ _ edef _ _ _ _ _ junk _ PO _ _ _ _ _ _ _ v (HI a) PT MK) as (c' & A1 & A2).
      pose proof (assign_track _ _ _ edef _ _ _ _ _ junk _ PO [] TT _ _ _ _ _ _ (proj1 (HI a)) LI A1) as T.
      unfold it_set, it_get. rewrite OX, V1. fold a. rewrite E1, T1. cbn [fst snd set_obj objs]. rewrite updn_same, T2. fold a. rewrite T6, A1.
      set (st1 := set_obj st (S x) (Some o')).
      assert (R1 : RG st1) by (apply (set_ok st (S x) o o' R OX); congruence).
      assert (HV1 : forall y, vok (cores st1) (s_v s y) (objs st1 (S y))).
      { intro j. cbn [st1 set_obj cores objs]. unfold updn. cbn [Nat.eqb]. destruct (Nat.eqb_spec j x) as [->|_]; [|apply HV].
        rewrite SX. cbn [vok]. split; [congruence|]. split; [exact T2|]. apply T5, V3. }
      destruct (settle_step [] TT false a st1 s c' (sput keq (s_m s a) k v) [] R1 Z HV1 T) as (s2 & S1 & S2 & S3 & S4 & S5); [apply A2|auto|].
      injection S1 as <-. eexists _, _, _. split; [reflexivity|]. split; [eapply R_set, SX|]. split; [|split; [exact S2|split; [exact S4|]]].
      + cbn [set_core st1 set_obj cores settles s_s s_m]. apply (Inv_sm u); [exact HI|lia|exact A2].
      + cbn [set_core cores objs settles s_v]. exact S5.
    - (* erase at an iterator *)
      destruct LG as (k & q & SX). pose proof (HV x) as Vx. rewrite SX in Vx.
      destruct (objs st (S x)) as [o|] eqn:OX; [|contradiction]. destruct Vx as (V1 & V2 & V3). rewrite V1.
      pose proof (liat_look _ _ _ (proj1 (HI a)) (proj1 V3)) as MK. rewrite (proj1 (proj2 (HI a))) in MK.
      assert (HU0 : (u + weight (@OErase K V L k) <= cap)%N) by (cbn [weight]; rewrite N.add_0_r; exact HU).
      assert (TM : tame (s_m s a) (@OErase K V L k)) by (exists k; exact MK).
      destruct (exec_ok u _ _ _ (OErase k) (HI a) HU0 TM) as ((SF1 & SF2) & _). pose proof (so_cap _ _ _ SO) as SC.
      destruct (erase_it_track _ _ _ edef vdef _ _ inc _ nbuck _ _ junk _ PO (mem (cores st a)) TT _ _ _ _ _ (o_sp o) (o_rd o) k (HI a)) as (c' & evs & A1 & A2 & T).
      + intros n Hn. destruct (HI a) as (_ & _ & _ & _ & H5). destruct (H5 eq_refl) as (n' & N1 & N2). rewrite (card_uniq _ _ _ _ _ _ _ _ _ PO (s_m s a) _ _ Hn N1). lia.
      + intros _. lia.
      + exact MK.
      + exact (proj1 V3).
      + intro Y. apply SF2; [exact Y|exact MK].
      + rewrite A1. cbn [fst snd].
        destruct (settle_step _ TT true a st s c' (sdel keq (s_m s a) k) evs R Z HV T) as (s2 & S1 & S2 & S3 & S4 & S5); [apply A2|auto|]. rewrite S1.
        eexists _, _, _. split; [reflexivity|]. split; [eapply R_erase, SX|]. split; [|split; [exact S2|split; [exact S4|]]].
        * cbn [set_core cores settles s_s s_m]. rewrite S3. apply (Inv_sm u); [exact HI|lia|exact A2].
        * cbn [set_core cores objs settles s_v]. rewrite S3. exact S5.
    - (* == *)
      destruct LG as (L1 & L2 & LG). destruct LG as [LG|(LG1 & LG2)]; [discriminate|]. unfold alive in L1, L2. pose proof (HV x) as Vx. pose proof (HV y) as Vy.
      destruct (s_v s x) as [cx|] eqn:SX; [|congruence]. destruct (s_v s y) as [cy|] eqn:SY; [|congruence].
      destruct (objs st (S x)) as [ox|] eqn:OX; [|destruct cx; contradiction]. destruct (objs st (S y)) as [oy|] eqn:OY; [|destruct cy; contradiction].
      assert (EQ : obj_eqb cmp ox oy = HashMapRegSpec.same keq cx cy).
      { destruct cx as [| |a k q], cy as [| |a' k' q']; cbn [vok HashMapRegSpec.same] in *; unfold obj_eqb.
        - destruct Vx as (-> & _), Vy as (-> & _). reflexivity.
        - destruct Vx as (-> & _). rewrite Vy. reflexivity.
        - destruct Vx as (-> & SU), Vy as (-> & _ & ((b & _ & _ & _ & C) & _)). cbn [it_of i_sp] in C. rewrite SU. cbn [andb].
          destruct (is_src (o_sp oy)); [| |contradiction]; rewrite !andb_false_r; reflexivity.
        - destruct Vy as (-> & _). rewrite Vx. reflexivity.
        - rewrite Vx, Vy. reflexivity.
        - exfalso. apply LG1. split; [reflexivity|]. exists a', k', q'. exact SY.
        - destruct Vy as (-> & SU), Vx as (-> & _ & ((b & _ & _ & _ & C) & _)). cbn [it_of i_sp] in C. rewrite SU. cbn [andb].
          destruct (is_src (o_sp ox)); [| |contradiction]; cbn [src_eqb]; rewrite !andb_false_r; reflexivity.
        - exfalso. apply LG2. split; [reflexivity|]. exists a, k, q. exact SX.
        - destruct Vx as (X1 & X2 & X3), Vy as (Y1 & Y2 & Y3). destruct (eqb a a') eqn:M.
          + apply eqb_prop in M. subst a'. cbn [andb]. rewrite <- (eq_ok _ _ _ _ _ _ _ _ _ PO (cores st a) ox oy k k' (proj1 (HI a)) (proj1 X3)); [reflexivity| |congruence|exact X1|exact Y1].
            rewrite M. exact (proj1 Y3).
          + rewrite X1, X2, Y2, M. reflexivity. }
      rewrite EQ. eexists _, _, _. split; [reflexivity|]. split; [eapply R_eq; eassumption|]. split; [exact HI|]. split; [exact R|]. split; [exact Z|exact HV].
    - (* swap *)
      destruct LG as [LG|LG]; [discriminate|].
      assert (RE : forall a, regs st a = []).
      { intro a. destruct (regs st a) as [|(b & id) l] eqn:Q; [reflexivity|]. exfalso. destruct (R a) as (_ & Ra).
        destruct (proj1 (Ra b id)) as (o & O1 & O2 & O3 & _); [rewrite Q; left; reflexivity|]. destruct id as [|x]; [congruence|].
        pose proof (HV x) as Vx. rewrite O1 in Vx. destruct (s_v s x) as [[| |a' k q]|] eqn:SX; cbn [vok] in Vx; try contradiction.
        - destruct Vx as (Vx & _). congruence.
        - congruence.
        - apply (LG x). exists a', k, q. exact SX. }
      unfold swap. cbn [regs rmap]. rewrite (RE (negb false)), (RE (negb true)). cbn [map foldo].
      eexists _, _, _. split; [reflexivity|]. split; [apply R_swap|]. split; [intro a; apply HI|]. split; [|split; [exact Z|]].
      + intro a. cbn [regs objs]. rewrite RE. split; [constructor|]. intros b id. split; [intros []|]. intros (o & O1 & O2 & O3 & O4).
        destruct (R (o_map o)) as (_ & Ra). pose proof (proj2 (Ra (is_b (o_sp o)) id) (ex_intro _ o (conj O1 (conj O2 (conj eq_refl eq_refl))))) as H. rewrite RE in H. destruct H.
      + intro x. cbn [cores objs s_v]. pose proof (HV x) as Vx. destruct (s_v s x) as [[| |a k q]|] eqn:SX, (objs st (S x)) as [o|]; cbn [option_map turn vok] in *; auto.
        exfalso. apply (LG x). exists a, k, q. exact SX.
  Qed.

  Theorem run_sim os : forall u s st, Sim u s st -> legals s os -> (u + rweights os <= cap)%N ->
    exists st' rs s', rrun st os = Some (st', rs) /\ rruns s os rs s' /\ Sim (u + rweights os) s' st'.
  Proof.
    induction os as [|o os IH]; intros u s st H LG HU.
    - eexists _, _, _. split; [reflexivity|]. split; [constructor|]. cbn. rewrite N.add_0_r. exact H.
    - destruct LG as (L1 & L2). cbn [rweights fold_right] in HU. fold (rweights os) in HU.
      destruct (step_sim u s st o H L1) as (s1 & r & t1 & A1 & A2 & A3); [lia|].
      destruct (IH _ t1 s1 A3 (L2 _ _ A2)) as (s2 & rs & t2 & B1 & B2 & B3); [lia|].
      cbn [HashMapRegModel.rrun]. rewrite A1. cbn [fst snd]. rewrite B1. eexists _, _, _. split; [reflexivity|]. split; [econstructor; eassumption|].
      cbn [rweights fold_right]. fold (rweights os). rewrite N.add_assoc. exact B3.
  Qed.

  Lemma init_sim n0 n1 mx0 mx1 l0 l1 : fits (N.of_nat n0) = true -> fits (N.of_nat n1) = true ->
    Sim 0 sinit (rinit (fun a : bool => if a then init n1 mx1 l1 else init n0 mx0 l0)).
  Proof.
    intros F0 F1. split; [|split; [|split; [reflexivity|intro x; exact I]]].
    - intros [|]; apply (init_Inv _ _ _ _ _ _ _ _ _ PO); assumption.
    - intro a. split; [constructor|]. intros b id. split; [intros []|]. intros (o & O & _). discriminate.
  Qed.
  Theorem reg_refines n0 n1 mx0 mx1 l0 l1 os : fits (N.of_nat n0) = true -> fits (N.of_nat n1) = true -> (rweights os <= cap)%N -> legals sinit os ->
    exists st' rs s', rrun (rinit (fun a : bool => if a then init n1 mx1 l1 else init n0 mx0 l0)) os = Some (st', rs) /\ rruns sinit os rs s'.
  Proof.
    intros F0 F1 HU LG. destruct (run_sim os 0 sinit _ (init_sim n0 n1 mx0 mx1 l0 l1 F0 F1) LG) as (st' & rs & s' & A & B & _); [lia|].
    exists st', rs, s'. split; assumption.
  Qed.
End Step.
