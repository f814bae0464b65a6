(** The value stream of [HashMapModel] gives every live value once, in
    ascending order; the writer puts chunks of values where the buckets say. *)
From Coq Require Import List Bool Arith NArith Lia Sorting.Sorted.
From Verif Require Import OrderLib HashMapModel HashMapSpec HashMapBase.
Import ListNotations.

Section Stream.
  Context {K V L : Type}.
  Notation E := (K * V)%type.
  Variable hash : K -> N.
  Variable cmp : K -> K -> bool.
  Variable edef : E.
  Variable ss spb inc : nat.
  Variable junk : nat -> nat -> E.
  Hypothesis SW : strict_weak cmp.
  Hypothesis HH : forall a b, keq cmp a b = true -> hash a = hash b.
  Hypothesis SS : 0 < ss.
  Hypothesis SP : 0 < spb.

  Notation klt := (klt hash cmp).
  Notation kleq := (kleq hash cmp).
  Notation keq := (keq cmp).
  Notation node := (@node K V).
  Notation bucket := (@bucket K V).
  Notation hv := (@hv K V).
  Notation BS := (spb * ss).
  Notation asc := (asc hash cmp).
  Notation alook := (@alook K V cmp).
  Notation blook := (@blook K V cmp).
  Notation wfmem := (@wfmem K V ss spb).
  Notation ext := (@ext K V ss spb).
  Notation start := (@start K V ss spb).
  Notation lay := (@lay K V ss spb).
  Notation layout := (@layout K V ss spb).
  Notation pos := (pos ss spb).

  Definition mkhv (i : nat) (e : E) : hv := {| hval := e; hb := i |}.

  Lemma sb_ok (m : list (list E)) i : wfmem m -> forall fuel (ns : list node) ie ne r (es : list E),
    length ns + length es < fuel -> ne = ie + length es ->
    asc (map nkey ns) -> asc (map fst es) -> snd r < BS ->
    (es = [] \/ pos r + length es < length (concat m)) ->
    (forall j, j < length es -> nth_error (concat m) (pos r + j) = nth_error es j) ->
    exists X r', stream_bucket hash cmp ss spb fuel m i ns ie ne r = Some (map (mkhv i) X, r')
      /\ pos r' = pos r + length es /\ snd r' < BS /\ (es = [] -> r' = r)
      /\ asc (map fst X) /\ (forall k, alook X k = blook ns es k)
      /\ (forall e, In e X -> (exists n, In n ns /\ nkey n = fst e) \/ In e es).
  Proof.
    intros W. induction fuel as [|f IH]; intros ns ie ne r es Hf Hne An Ae Hr Ht Hm; [lia|].
    cbn [stream_bucket].
    assert (RV : forall e es', es = e :: es' -> rvalue m r = Some e /\ ie <? ne = true
                 /\ pos (rnext ss spb m r) = S (pos r) /\ snd (rnext ss spb m r) < BS
                 /\ (es' = [] \/ S (pos r) + length es' < length (concat m))
                 /\ (forall j, j < length es' -> nth_error (concat m) (S (pos r) + j) = nth_error es' j)).
    { intros e es' ->. cbn [length] in *. destruct Ht as [Ht|Ht]; [discriminate|].
      split; [rewrite (rvalue_ok ss spb SS SP m r W Hr); specialize (Hm 0); rewrite Nat.add_0_r in Hm; apply Hm; lia|].
      split; [apply Nat.ltb_lt; lia|].
      destruct (rnext_ok ss spb SS SP m r W Hr) as (P1 & P2); [lia|]. split; [exact P1|]. split; [exact P2|].
      split; [right; lia|]. intros j Hj. specialize (Hm (S j)). cbn [nth_error] in Hm. rewrite <- Hm by lia. f_equal. lia. }
    destruct es as [|e es].
    - assert (Q : ie <? ne = false) by (apply Nat.ltb_ge; cbn [length] in Hne; lia). clear RV.
      destruct ns as [|n ns]; rewrite Q.
      + exists [], r. split; [reflexivity|]. split; [cbn [length]; lia|]. split; [exact Hr|]. split; [reflexivity|].
        split; [constructor|]. split; [reflexivity|contradiction].
      + cbn [map] in An. apply asc_cons in An. destruct An as (A1 & A2).
        destruct (IH ns ie ne r []) as (X & r' & E1 & E2 & E3 & E4 & E5 & E6 & E7);
          [cbn [length] in *; lia|exact Hne|exact A2|constructor|exact Hr|left; reflexivity|intros j Hj; cbn in Hj; lia|].
        rewrite E1. cbn [fst snd].
        assert (NK : forall k, keq (nkey n) k = true -> nfind cmp ns k = None).
        { intros k Hk. apply nfind_none. intros x Hx. rewrite <- (keq_r cmp SW _ _ (nkey x) Hk), keq_sym.
          apply (klt_neq hash cmp HH), A1, in_map, Hx. }
        destruct (ndel n) eqn:D.
        * exists X, r'. split; [reflexivity|]. split; [exact E2|]. split; [exact E3|]. split; [exact E4|].
          split; [exact E5|]. split.
          { intro k. rewrite E6. unfold HashMapBase.blook. rewrite nfind_cons. destruct (keq (nkey n) k) eqn:Kk; [|reflexivity].
            rewrite (NK _ Kk), D. reflexivity. }
          { intros x Hx. destruct (E7 x Hx) as [(y & Y1 & Y2)|[]]. left. exists y. split; [right; exact Y1|exact Y2]. }
        * exists (nval n :: X), r'. split; [reflexivity|]. split; [exact E2|]. split; [exact E3|]. split; [exact E4|].
          split; [|split].
          { cbn [map]. apply asc_cons. split; [|exact E5]. intros b Hb. apply in_map_iff in Hb. destruct Hb as (x & <- & Hx).
            destruct (E7 x Hx) as [(y & Y1 & Y2)|[]]. rewrite <- Y2. apply A1, in_map, Y1. }
          { intro k. rewrite alook_cons, E6. unfold HashMapBase.blook. rewrite nfind_cons.
            change (fst (nval n)) with (nkey n). destruct (keq (nkey n) k) eqn:Kk; [|reflexivity]. rewrite D. reflexivity. }
          { intros x [<-|Hx]; [left; exists n; split; [left; reflexivity|reflexivity]|].
            destruct (E7 x Hx) as [(y & Y1 & Y2)|[]]. left. exists y. split; [right; exact Y1|exact Y2]. }
    - destruct (RV e es eq_refl) as (R1 & R2 & R3 & R4 & R5 & R6). clear RV.
      cbn [map] in Ae. apply asc_cons in Ae. destruct Ae as (B1 & B2).
      destruct ns as [|n ns]; rewrite R2, R1.
      + destruct (IH [] (S ie) ne (rnext ss spb m r) es) as (X & r' & E1 & E2 & E3 & E4 & E5 & E6 & E7);
          [cbn [length] in *; lia|cbn [length] in *; lia|constructor|exact B2|exact R4|rewrite R3; exact R5|rewrite R3; exact R6|].
        rewrite E1. cbn [fst snd]. exists (e :: X), r'. split; [reflexivity|].
        split; [rewrite E2, R3; cbn [length]; lia|]. split; [exact E3|]. split; [discriminate|].
        split; [|split].
        * cbn [map]. apply asc_cons. split; [|exact E5]. intros b Hb. apply in_map_iff in Hb. destruct Hb as (x & <- & Hx).
          destruct (E7 x Hx) as [(y & [] & _)|Y]. apply B1, in_map, Y.
        * intro k. rewrite alook_cons, E6. unfold HashMapBase.blook, nfind. cbn [List.find]. rewrite alook_cons. reflexivity.
        * intros x [<-|Hx]; [right; left; reflexivity|]. destruct (E7 x Hx) as [(y & [] & _)|Y]. right; right; exact Y.
      + cbn [map] in An. apply asc_cons in An. destruct An as (A1 & A2).
        assert (NK : forall k, keq (nkey n) k = true -> nfind cmp ns k = None).
        { intros k Hk. apply nfind_none. intros x Hx. rewrite <- (keq_r cmp SW _ _ (nkey x) Hk), keq_sym.
          apply (klt_neq hash cmp HH), A1, in_map, Hx. }
        destruct (kleq (nkey n) (fst e)) eqn:C.
        * destruct (keq (nkey n) (fst e)) eqn:S.
          -- destruct (IH ns (Datatypes.S ie) ne (rnext ss spb m r) es) as (X & r' & E1 & E2 & E3 & E4 & E5 & E6 & E7);
               [cbn [length] in *; lia|cbn [length] in *; lia|exact A2|exact B2|exact R4|rewrite R3; exact R5|rewrite R3; exact R6|].
             rewrite E1. cbn [fst snd].
             assert (AK : forall k, keq (nkey n) k = true -> alook es k = None).
             { intros k Hk. apply alook_none. intros x Hx. rewrite <- (keq_r cmp SW _ _ (fst x) Hk), (keq_r cmp SW _ _ (fst x) S), keq_sym.
               apply (klt_neq hash cmp HH), B1, in_map, Hx. }
             assert (NE : forall k, keq (nkey n) k = false -> alook (e :: es) k = alook es k).
             { intros k Hk. rewrite alook_cons, <- (keq_l cmp SW _ _ k S), Hk. reflexivity. }
             destruct (ndel n) eqn:D.
             ++ exists X, r'. split; [reflexivity|]. split; [rewrite E2, R3; cbn [length]; lia|].
                split; [exact E3|]. split; [discriminate|]. split; [exact E5|]. split.
                { intro k. rewrite E6. unfold HashMapBase.blook. rewrite nfind_cons. destruct (keq (nkey n) k) eqn:Kk.
                  - rewrite (NK _ Kk), (AK _ Kk), D. reflexivity.
                  - rewrite (NE _ Kk). reflexivity. }
                { intros x Hx. destruct (E7 x Hx) as [(y & Y1 & Y2)|Y]; [left; exists y; split; [right; exact Y1|exact Y2]|right; right; exact Y]. }
             ++ exists (nval n :: X), r'. split; [reflexivity|]. split; [rewrite E2, R3; cbn [length]; lia|].
                split; [exact E3|]. split; [discriminate|]. split; [|split].
                { cbn [map]. apply asc_cons. split; [|exact E5]. intros b Hb. apply in_map_iff in Hb. destruct Hb as (x & <- & Hx).
                  change (fst (nval n)) with (nkey n).
                  destruct (E7 x Hx) as [(y & Y1 & Y2)|Y]; [rewrite <- Y2; apply A1, in_map, Y1|].
                  rewrite (klt_keq_l hash cmp SW HH _ _ _ S). apply B1, in_map, Y. }
                { intro k. rewrite alook_cons, E6. unfold HashMapBase.blook. rewrite nfind_cons.
                  change (fst (nval n)) with (nkey n). destruct (keq (nkey n) k) eqn:Kk; [rewrite D; reflexivity|].
                  rewrite (NE _ Kk). reflexivity. }
                { intros x [<-|Hx]; [left; exists n; split; [left; reflexivity|reflexivity]|].
                  destruct (E7 x Hx) as [(y & Y1 & Y2)|Y]; [left; exists y; split; [right; exact Y1|exact Y2]|right; right; exact Y]. }
          -- assert (Lt : klt (nkey n) (fst e) = true) by (destruct (kleq_cases hash cmp HH _ _ C); congruence).
             destruct (IH ns ie ne r (e :: es)) as (X & r' & E1 & E2 & E3 & E4 & E5 & E6 & E7);
               [cbn [length] in *; lia|exact Hne|exact A2|cbn [map]; apply asc_cons; split; assumption|exact Hr|exact Ht|exact Hm|].
             rewrite E1. cbn [fst snd].
             assert (AK : forall k, keq (nkey n) k = true -> alook (e :: es) k = None).
             { intros k Hk. apply alook_none. intros x Hx. rewrite <- (keq_r cmp SW _ _ (fst x) Hk), keq_sym.
               apply (klt_neq hash cmp HH). destruct Hx as [<-|Hx]; [exact Lt|].
               eapply (klt_trans hash cmp SW); [exact Lt|apply B1, in_map, Hx]. }
             destruct (ndel n) eqn:D.
             ++ exists X, r'. split; [reflexivity|]. split; [exact E2|].
                split; [exact E3|]. split; [exact E4|]. split; [exact E5|]. split.
                { intro k. rewrite E6. unfold HashMapBase.blook. rewrite nfind_cons. destruct (keq (nkey n) k) eqn:Kk; [|reflexivity].
                  rewrite (NK _ Kk), (AK _ Kk), D. reflexivity. }
                { intros x Hx. destruct (E7 x Hx) as [(y & Y1 & Y2)|Y]; [left; exists y; split; [right; exact Y1|exact Y2]|right; exact Y]. }
             ++ exists (nval n :: X), r'. split; [reflexivity|]. split; [exact E2|].
                split; [exact E3|]. split; [exact E4|]. split; [|split].
                { cbn [map]. apply asc_cons. split; [|exact E5]. intros b Hb. apply in_map_iff in Hb. destruct Hb as (x & <- & Hx).
                  change (fst (nval n)) with (nkey n).
                  destruct (E7 x Hx) as [(y & Y1 & Y2)|Y]; [rewrite <- Y2; apply A1, in_map, Y1|].
                  destruct Y as [<-|Y]; [exact Lt|]. eapply (klt_trans hash cmp SW); [exact Lt|apply B1, in_map, Y]. }
                { intro k. rewrite alook_cons, E6. unfold HashMapBase.blook. rewrite nfind_cons.
                  change (fst (nval n)) with (nkey n). destruct (keq (nkey n) k) eqn:Kk; [rewrite D; reflexivity|reflexivity]. }
                { intros x [<-|Hx]; [left; exists n; split; [left; reflexivity|reflexivity]|].
                  destruct (E7 x Hx) as [(y & Y1 & Y2)|Y]; [left; exists y; split; [right; exact Y1|exact Y2]|right; exact Y]. }
        * apply kleq_false in C.
          destruct (IH (n :: ns) (Datatypes.S ie) ne (rnext ss spb m r) es) as (X & r' & E1 & E2 & E3 & E4 & E5 & E6 & E7);
            [cbn [length] in *; lia|cbn [length] in *; lia|cbn [map]; apply asc_cons; split; assumption|exact B2|exact R4|rewrite R3; exact R5|rewrite R3; exact R6|].
          rewrite E1. cbn [fst snd]. exists (e :: X), r'. split; [reflexivity|].
          split; [rewrite E2, R3; cbn [length]; lia|]. split; [exact E3|]. split; [discriminate|].
          assert (G : forall x, In x (n :: ns) -> klt (fst e) (nkey x) = true).
          { intros x [<-|Hx]; [exact C|]. eapply (klt_trans hash cmp SW); [exact C|apply A1, in_map, Hx]. }
          split; [|split].
          { cbn [map]. apply asc_cons. split; [|exact E5]. intros b Hb. apply in_map_iff in Hb. destruct Hb as (x & <- & Hx).
            destruct (E7 x Hx) as [(y & Y1 & Y2)|Y]; [rewrite <- Y2; apply G, Y1|apply B1, in_map, Y]. }
          { intro k. rewrite alook_cons, E6. unfold HashMapBase.blook. destruct (keq (fst e) k) eqn:Kk.
            - rewrite (nfind_none cmp (n :: ns)); [rewrite alook_cons, Kk; reflexivity|].
              intros x Hx. rewrite <- (keq_r cmp SW _ _ (nkey x) Kk), keq_sym. apply (klt_neq hash cmp HH), G, Hx.
            - destruct (nfind cmp (n :: ns) k); [reflexivity|]. rewrite alook_cons, Kk. reflexivity. }
          { intros x [<-|Hx]; [right; left; reflexivity|]. destruct (E7 x Hx) as [Y|Y]; [left; exact Y|right; right; exact Y]. }
  Qed.

  (** ** All buckets *)

  Fixpoint tagl (i : nat) (Xs : list (list E)) : list hv :=
    match Xs with [] => [] | X :: Xs' => map (mkhv i) X ++ tagl (S i) Xs' end.
  Lemma tagl_hval i Xs : map hval (tagl i Xs) = concat Xs.
  Proof.
    revert i. induction Xs as [|X Xs IH]; intro i; [reflexivity|]. cbn [tagl concat]. rewrite map_app, IH, map_map.
    f_equal. apply map_id.
  Qed.
  Lemma tagl_in i Xs h : In h (tagl i Xs) -> exists j X, nth_error Xs j = Some X /\ In (hval h) X /\ hb h = i + j.
  Proof.
    revert i. induction Xs as [|X Xs IH]; intros i H; [contradiction|]. cbn [tagl] in H. apply in_app_or in H. destruct H as [H|H].
    - apply in_map_iff in H. destruct H as (e & <- & He). exists 0, X. cbn. repeat split; [exact He|lia].
    - apply IH in H. destruct H as (j & Y & H1 & H2 & H3). exists (S j), Y. cbn. repeat split; [exact H1|exact H2|lia].
  Qed.

  Definition bgood (m : list (list E)) (b : bucket) : Prop := asc (map nkey (blist b)) /\ asc (map fst (ext m b)).
  Definition sgood (m : list (list E)) (b : bucket) (X : list E) : Prop :=
    asc (map fst X) /\ (forall k, alook X k = blook (blist b) (ext m b) k)
    /\ (forall e, In e X -> (exists n, In n (blist b) /\ nkey n = fst e) \/ In e (ext m b)).

  Lemma bsub_lt (b : bucket) : bsub b < spb -> bsub b * ss < BS.
  Proof. intro H. apply Nat.mul_lt_mono_pos_r; assumption. Qed.

  Lemma sbs_ok m : wfmem m -> forall bs i r, Forall (bgood m) bs ->
    (m = [] /\ Forall (fun b => bn b = 0) bs /\ r = (0, 0)
     \/ lay (length (concat m)) (pos r) bs /\ snd r < BS /\ match bs with b :: _ => start b = pos r | [] => True end) ->
    exists Xs, stream_buckets hash cmp ss spb m i bs r = Some (tagl i Xs) /\ Forall2 (sgood m) bs Xs.
  Proof.
    intros W. induction bs as [|b bs IH]; intros i r G C; cbn [stream_buckets]; [exists []; split; [reflexivity|constructor]|].
    inversion G as [|? ? (G1 & G2) G3]; subst.
    assert (EL : length (ext m b) = bn b).
    { destruct C as [(C1 & C2 & C3)|((_ & _ & C2 & _) & _)].
      - inversion C2; subst. unfold HashMapBase.ext. rewrite H1. reflexivity.
      - apply (ext_len ss spb SS SP); lia. }
    assert (RB : snd r < BS) by (destruct C as [(_ & _ & ->)|(_ & H & _)]; [apply (BS_pos ss spb SS SP)|exact H]).
    destruct (sb_ok m i W (S (length (blist b) + bn b)) (blist b) 0 (bn b) r (ext m b)) as (X & r' & E1 & E2 & E3 & E4 & E5 & E6 & E7).
    - lia.
    - lia.
    - exact G1.
    - exact G2.
    - exact RB.
    - destruct C as [(C1 & C2 & C3)|((_ & _ & C2 & _) & _ & C3)]; [left|right; lia].
      inversion C2; subst. unfold HashMapBase.ext. rewrite H1. reflexivity.
    - intros j Hj. rewrite EL in Hj. destruct C as [(C1 & C2 & C3)|((_ & _ & C2 & _) & _ & C3)].
      + inversion C2; subst. lia.
      + rewrite ext_nth by exact Hj. rewrite C3. reflexivity.
    - rewrite E1. cbn [fst snd]. destruct bs as [|b' bs].
      + exists [X]. split; [cbn [tagl]; rewrite app_nil_r; reflexivity|]. constructor; [|constructor]. repeat split; assumption.
      + assert (Sk : exists r2, rskip ss m r' (bblk b') (bsub b') = Some r2
                  /\ (m = [] /\ Forall (fun b => bn b = 0) (b' :: bs) /\ r2 = (0, 0)
                      \/ lay (length (concat m)) (pos r2) (b' :: bs) /\ snd r2 < BS /\ start b' = pos r2)).
        { destruct C as [(C1 & C2 & C3)|(C1 & C2 & C3)].
          - inversion C2; subst. assert (r' = (0, 0)).
            { apply E4. unfold HashMapBase.ext. rewrite H1. reflexivity. }
            subst r'. exists (0, 0). split; [reflexivity|]. left. split; [reflexivity|]. split; [assumption|reflexivity].
          - cbn [HashMapBase.lay] in C1. destruct C1 as (D1 & D2 & D3 & D4 & D5 & D6 & D7).
            rewrite EL in E2. assert (PE : pos r' = start b + bn b) by lia.
            assert (FR : fst r' < length m) by (apply (pos_lt ss spb SS SP m r' W E3); lia).
            pose proof (bsub_lt b' D5) as BB.
            assert (FB : bblk b' < length m).
            { apply (pos_lt ss spb SS SP m (bblk b', bsub b' * ss) W BB). unfold HashMapBase.pos. cbn [fst snd]. unfold HashMapBase.start in *. lia. }
            assert (GE : fst r' <= bblk b').
            { destruct (Nat.le_gt_cases (fst r') (bblk b')) as [|Z]; [assumption|]. exfalso.
              assert (Z2 : S (bblk b') <= fst r') by lia. pose proof (Nat.mul_le_mono_r _ _ BS Z2) as Z3. cbn [Nat.mul] in Z3.
              unfold HashMapBase.pos, HashMapBase.start in *. lia. }
            unfold rskip. assert (Q1 : fst r' =? length m = false) by (apply Nat.eqb_neq; lia).
            assert (Q2 : bblk b' =? length m = false) by (apply Nat.eqb_neq; lia).
            assert (Q3 : bblk b' <? fst r' = false) by (apply Nat.ltb_ge; lia). rewrite Q1, Q2, Q3.
            eexists. split; [reflexivity|]. right. unfold HashMapBase.pos. cbn [fst snd HashMapBase.lay].
            unfold HashMapBase.start in *. repeat split; try assumption; lia. }
        destruct Sk as (r2 & S1 & S2). rewrite S1.
        destruct (IH (S i) r2 G3) as (Xs & Y1 & Y2).
        { destruct S2 as [S2|S2]; [left; exact S2|right; exact S2]. }
        rewrite Y1. exists (X :: Xs). split; [reflexivity|]. constructor; [repeat split; assumption|exact Y2].
  Qed.

  Lemma values_ok (m : list (list E)) bs : wfmem m -> layout m bs -> Forall (bgood m) bs ->
    exists Xs, stream_buckets hash cmp ss spb m 0 bs rinit = Some (tagl 0 Xs) /\ Forall2 (sgood m) bs Xs.
  Proof.
    intros W LY G. apply (sbs_ok m W bs 0 rinit G). unfold HashMapBase.layout in LY. destruct m as [|x m].
    - left. repeat split. eapply Forall_impl; [|exact LY]. intros b (H & _). exact H.
    - right. destruct LY as (H1 & H2). split; [exact H1|]. split; [apply (BS_pos ss spb SS SP)|]. exact H2.
  Qed.

  (** ** The writer *)

  Notation writer := (@writer K V).
  Notation wappend := (wappend ss spb inc junk).
  Notation wfinish := (wfinish edef ss spb inc junk).
  Notation wwrite := (wwrite ss spb inc junk).
  Notation wmem := (wmem ss spb inc junk).
  Notation winit := (winit ss spb junk).
  Notation mk_bucket := (@mk_bucket K V ss).

  Definition wfl (w : writer) : list E := concat (wdone w) ++ firstn (wi w) (wcur w).
  Definition wok (w : writer) : Prop := wfmem (wdone w) /\ length (wcur w) = BS /\ wi w < BS.

  Lemma fresh_len j : length (fresh ss spb junk j) = BS.
  Proof. unfold fresh. rewrite map_length, seq_length. reflexivity. Qed.
  Lemma wfl_len w : wok w -> length (wfl w) = length (wdone w) * BS + wi w.
  Proof.
    intros (H1 & H2 & H3). unfold wfl. rewrite app_length, (concat_len ss spb SS SP _ H1), firstn_length. lia.
  Qed.
  Lemma wwrite_ok w cur : wok w -> length cur = BS -> wok (wwrite w cur) /\ wfl (wwrite w cur) = concat (wdone w) ++ cur.
  Proof.
    intros (H1 & H2 & H3) Hc. unfold HashMapModel.wwrite, wok, wfl. cbn [wdone wcur wi]. split.
    - split; [|split; [apply fresh_len|apply (BS_pos ss spb SS SP)]].
      apply Forall_app. split; [exact H1|]. repeat constructor. exact Hc.
    - rewrite concat_app. cbn [concat firstn]. rewrite !app_nil_r. reflexivity.
  Qed.
  Lemma wappend_ok w e : wok w -> wok (wappend w e) /\ wfl (wappend w e) = wfl w ++ [e].
  Proof.
    intro H. destruct H as (H1 & H2 & H3). unfold HashMapModel.wappend. cbv zeta.
    assert (LC : length (lset (wcur w) (wi w) e) = BS) by (rewrite lset_length; lia).
    assert (F : firstn (wi w) (lset (wcur w) (wi w) e) = firstn (wi w) (wcur w)).
    { unfold lset. rewrite firstn_app. rewrite firstn_length, H2. replace (wi w - Nat.min (wi w) BS) with 0 by lia.
      rewrite firstn_firstn. replace (Nat.min (wi w) (wi w)) with (wi w) by lia. cbn [firstn]. apply app_nil_r. }
    assert (F2 : firstn (S (wi w)) (lset (wcur w) (wi w) e) = firstn (wi w) (wcur w) ++ [e]).
    { unfold lset. rewrite firstn_app. rewrite firstn_length, H2. replace (S (wi w) - Nat.min (wi w) BS) with 1 by lia.
      rewrite firstn_firstn. replace (Nat.min (S (wi w)) (wi w)) with (wi w) by lia. reflexivity. }
    destruct (Nat.ltb_spec (wi w + 1) BS) as [Z|Z].
    - unfold wok, wfl. cbn [wdone wcur wi]. split; [repeat split; assumption|].
      rewrite Nat.add_1_r, F2, app_assoc. reflexivity.
    - destruct (wwrite_ok w (lset (wcur w) (wi w) e)) as (A & B); [repeat split; assumption|exact LC|].
      split; [exact A|]. rewrite B. unfold wfl. rewrite <- app_assoc. f_equal. rewrite <- F2.
      symmetry. apply firstn_all2. lia.
  Qed.
  Lemma wappends_ok l : forall w, wok w -> wok (fold_left wappend l w) /\ wfl (fold_left wappend l w) = wfl w ++ l.
  Proof.
    induction l as [|e l IH]; intros w H; cbn [fold_left]; [split; [exact H|symmetry; apply app_nil_r]|].
    destruct (wappend_ok w e H) as (A & B). destruct (IH _ A) as (C & D). split; [exact C|].
    rewrite D, B, <- app_assoc. reflexivity.
  Qed.
  Lemma wfinish_ok w : wok w -> wok (wfinish w)
    /\ exists pad q, wfl (wfinish w) = wfl w ++ pad /\ 0 < length pad /\ length (wfl (wfinish w)) = q * ss.
  Proof.
    intro H. pose proof H as (H1 & H2 & H3). unfold HashMapModel.wfinish.
    set (i0 := (wi w / ss + 1) * ss - 1). set (w0 := {| wdone := wdone w; wcur := wcur w; wi := i0; wbids := wbids w |}).
    assert (D : wi w / ss < spb) by (apply Nat.div_lt_upper_bound; lia).
    assert (D2 : (wi w / ss + 1) * ss <= BS) by (apply Nat.mul_le_mono_r; lia).
    assert (D3 : ss <= (wi w / ss + 1) * ss) by lia.
    assert (D4 : wi w <= i0).
    { unfold i0. pose proof (Nat.div_mod (wi w) ss). pose proof (Nat.mod_upper_bound (wi w) ss). lia. }
    assert (W0 : wok w0) by (unfold wok, w0; cbn [wdone wcur wi]; repeat split; [exact H1|exact H2|unfold i0; lia]).
    destruct (wappend_ok w0 edef W0) as (A & B). split; [exact A|].
    assert (F : wfl w0 = wfl w ++ firstn (i0 - wi w) (skipn (wi w) (wcur w))).
    { unfold wfl, w0. cbn [wdone wcur wi]. rewrite <- app_assoc. f_equal.
      rewrite <- (firstn_skipn (wi w) (wcur w)) at 1. rewrite firstn_app, firstn_firstn.
      replace (Nat.min i0 (wi w)) with (wi w) by lia. f_equal. rewrite firstn_length, H2. f_equal. lia. }
    exists (firstn (i0 - wi w) (skipn (wi w) (wcur w)) ++ [edef]), (length (wdone w) * spb + (wi w / ss + 1)).
    split; [rewrite B, F, <- app_assoc; reflexivity|]. split; [rewrite app_length; cbn [length]; lia|].
    rewrite B, app_length, (wfl_len w0 W0). unfold w0. cbn [wdone wi length]. unfold i0. lia.
  Qed.

  (** Writing chunks, one for every bucket. *)
  Fixpoint wchunks (cs : list (list E)) (w : writer) : list bucket * writer :=
    match cs with
    | [] => ([], w)
    | c :: cs' =>
      let y := wchunks cs' (wfinish (fold_left wappend c w)) in (mk_bucket w (length c) :: fst y, snd y)
    end.
  Definition holds (m : list (list E)) (b : bucket) (c : list E) : Prop :=
    blist b = [] /\ bn b = length c /\ ext m b = c.

  Lemma wchunks_ok cs : forall w q, wok w -> length (wfl w) = q * ss ->
    wok (snd (wchunks cs w)) /\ (exists X, wfl (snd (wchunks cs w)) = wfl w ++ X)
    /\ length (fst (wchunks cs w)) = length cs
    /\ forall m, wfmem m -> (exists Y, concat m = wfl (snd (wchunks cs w)) ++ Y) ->
         lay (length (concat m)) (length (wfl w)) (fst (wchunks cs w))
         /\ match fst (wchunks cs w) with b :: _ => start b = length (wfl w) | [] => True end
         /\ Forall2 (holds m) (fst (wchunks cs w)) cs.
  Proof.
    induction cs as [|c cs IH]; intros w q H Hq.
    - cbn [wchunks fst snd]. split; [exact H|]. split; [exists []; symmetry; apply app_nil_r|]. split; [reflexivity|]. intros; cbn; repeat split. constructor.
    - destruct (wappends_ok c w H) as (A1 & A2). destruct (wfinish_ok _ A1) as (A3 & pad & q' & A4 & A5 & A6).
      set (w1 := wfinish (fold_left wappend c w)) in *. rewrite A2 in A4.
      destruct (IH w1 q' A3 A6) as (B1 & (X & B2) & B3 & B4).
      cbn [wchunks]. fold w1. cbv zeta. cbn [fst snd]. split; [exact B1|].
      split; [exists (c ++ pad ++ X); rewrite B2, A4, <- !app_assoc; reflexivity|].
      split; [cbn [length]; rewrite B3; reflexivity|].
      intros m W (Y & HY). destruct (B4 m W (ex_intro _ Y HY)) as (C1 & C2 & C3).
      pose proof H as (H1 & H2 & H3).
      assert (ST : start (mk_bucket w (length c)) = length (wfl w)).
      { unfold HashMapBase.start, HashMapModel.mk_bucket. cbn [bblk bsub]. rewrite (wfl_len w H) in Hq |- *.
        assert (Dv : (wi w) mod ss = 0).
        { replace (wi w) with ((q - length (wdone w) * spb) * ss).
          - apply Nat.mod_mul. lia.
          - rewrite Nat.mul_sub_distr_r. lia. }
        pose proof (Nat.div_mod (wi w) ss). lia. }
      assert (EX : ext m (mk_bucket w (length c)) = c).
      { unfold HashMapBase.ext. rewrite ST. unfold HashMapModel.mk_bucket. cbn [bn]. rewrite HY, B2, A4, <- !app_assoc.
        rewrite skipn_app, skipn_all2 by lia. rewrite Nat.sub_diag. cbn [skipn app].
        rewrite firstn_app, Nat.sub_diag. cbn [firstn]. rewrite app_nil_r. apply firstn_all. }
      split; [|split; [exact ST|constructor; [repeat split; assumption|exact C3]]].
      cbn [HashMapBase.lay]. rewrite ST. split; [lia|]. split.
      { unfold HashMapModel.mk_bucket. cbn [bsub]. apply Nat.div_lt_upper_bound; lia. }
      assert (LN : length (wfl w1) = length (wfl w) + length c + length pad) by (rewrite A4, !app_length; lia).
      split.
      { unfold HashMapModel.mk_bucket. cbn [bn]. rewrite HY, B2, !app_length. lia. }
      unfold HashMapModel.mk_bucket at 1. cbn [bn]. revert C1 C2. generalize (fst (wchunks cs w1)) as bs. intros bs C1 C2.
      destruct bs as [|b bs]; [exact I|]. cbn [HashMapBase.lay] in *. destruct C1 as (C1 & C4). split; [lia|exact C4].
  Qed.

  Lemma wmem_ok w : wok w -> wfmem (wmem w) /\ (exists Y, concat (wmem w) = wfl w ++ Y) /\ wmem w <> [].
  Proof.
    intro H. unfold HashMapModel.wmem. cbv zeta.
    destruct (wwrite_ok w (wcur w) H) as (A1 & A2); [apply H|]. destruct (wwrite_ok _ (wcur (wflush ss spb inc junk w)) A1) as (B1 & B2); [apply A1|].
    fold (wflush ss spb inc junk w) in *. fold (wflush ss spb inc junk (wflush ss spb inc junk w)) in *.
    set (w2 := wflush ss spb inc junk (wflush ss spb inc junk w)) in *.
    split; [|split].
    - apply Forall_app. split; [apply B1|]. rewrite Forall_map, Forall_forall. intros; apply fresh_len.
    - assert (Q : concat (wdone w2) = wfl w ++ skipn (wi w) (wcur w) ++ wcur (wflush ss spb inc junk w)).
      { unfold w2, wflush, HashMapModel.wwrite. cbn [wdone wcur]. rewrite !concat_app. cbn [concat]. rewrite !app_nil_r.
        unfold wfl. rewrite <- !app_assoc. f_equal. rewrite app_assoc, firstn_skipn. reflexivity. }
      rewrite concat_app, Q, <- !app_assoc. eexists. reflexivity.
    - unfold w2, wflush, HashMapModel.wwrite. cbn [wdone]. destruct (wdone w); discriminate.
  Qed.

  Lemma winit_ok : wok winit /\ wfl winit = [].
  Proof.
    unfold HashMapModel.winit, wok, wfl. cbn [wdone wcur wi concat firstn app]. repeat split.
    - constructor.
    - apply fresh_len.
    - apply (BS_pos ss spb SS SP).
  Qed.

  Lemma written cs : let y := wchunks cs winit in
    wfmem (wmem (snd y)) /\ layout (wmem (snd y)) (fst y) /\ Forall2 (holds (wmem (snd y))) (fst y) cs.
  Proof.
    intro y. destruct winit_ok as (A1 & A2). destruct (wchunks_ok cs winit 0 A1) as (B1 & _ & B3 & B4); [rewrite A2; reflexivity|].
    fold y in B1, B3, B4. destruct (wmem_ok (snd y) B1) as (C1 & C2 & C3). destruct (B4 _ C1 C2) as (D1 & D2 & D3).
    split; [exact C1|]. split; [|exact D3]. rewrite A2 in D1, D2. cbn [length] in D1, D2.
    unfold HashMapBase.layout. destruct (wmem (snd y)) as [|x m]; [congruence|]. split; assumption.
  Qed.
End Stream.
