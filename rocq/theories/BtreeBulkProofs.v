(** The construction from a sorted range gives a well formed tree with the elements of the range. *)
From Coq Require Import List Bool Arith Lia Sorting.Sorted.
From Verif Require Import OrderLib BtreeModel BtreeSpec BtreeBase BtreeLeaf BtreeTree BtreeRoot BtreeIter BtreeProofs BtreeBulkModel.
Import ListNotations.

Section BulkProofs.
  Context {K V : Type}.
  Notation E := (K * V)%type.
  Notation store := (list (nat * @leaf K V)).
  Notation tree := (@tree K).
  Notation bst := (@bst K V).
  Variable cmp : K -> K -> bool.
  Variable kmax : K.
  Variable lmax nmax ncap : nat.
  Variable alloc : store -> nat.
  Variable lfe nfe : nat.
  Hypothesis Hcmp : strict_weak cmp.
  Hypothesis Halloc : forall s, lget s (alloc s) = None.
  Hypothesis Hlmax : 4 <= lmax.
  Hypothesis Hnmax : 4 <= nmax.
  Hypothesis Hlfe : lmin lmax <= lfe <= lmax.
  Hypothesis Hnfe : nmin nmax <= nfe <= nmax.
  Notation G := (G cmp).
  Notation ent := (ent cmp lmax nmax).
  Notation wf := (wf cmp lmax nmax).
  Notation okc := (okc lmax nmax).
  Notation chain := (chain cmp).
  Notation above := (above cmp).

  (** ** A new leaf at the end *)
  Lemma G_append (s : store) A b nb (x : E) : G s (A ++ [b]) -> D s b <> [] -> lget s nb = None -> SS cmp (C s (A ++ [b]) ++ [x]) ->
    forall s', (forall y, lget s' y = if y =? nb then Some {| ld := [x]; lp := Some b; ln := None |}
                                      else if y =? b then Some {| ld := D s b; lp := lsto A None; ln := Some nb |} else lget s y) ->
    G s' (A ++ [b] ++ [nb]) /\ D s' nb = [x] /\ (forall y, y <> nb -> D s' y = D s y) /\ C s' (A ++ [b] ++ [nb]) = C s (A ++ [b]) ++ [x].
  Proof.
    intros HG Nb Hnb HS s' Hs'. pose proof (G_at _ _ _ _ _ HG) as Hb.
    assert (Nnb : ~ In nb (A ++ [b])).
    { intros Hi. apply in_split in Hi as (P & Q & E1). assert (HG' := HG). rewrite E1 in HG'. apply G_at in HG'. congruence. }
    assert (Dnb : D s' nb = [x]) by (unfold D; now rewrite Hs', Nat.eqb_refl).
    assert (Doth : forall y, y <> nb -> D s' y = D s y).
    { intros y Hy. unfold D at 1. rewrite Hs'. apply Nat.eqb_neq in Hy as ->. destruct (Nat.eqb_spec y b) as [->|N]; easy. }
    assert (HC : C s' (A ++ [b] ++ [nb]) = C s (A ++ [b]) ++ [x]).
    { rewrite app_assoc, C_app. f_equal.
      - apply C_ext. intros y Hy. apply Doth. now intros ->.
      - cbn. now rewrite Dnb. }
    split; [|easy]. destruct HG as [g1 g2 g3 g4 g5]. constructor.
    - rewrite app_assoc. apply NoDup_Add with (a := nb) (l := A ++ [b]); [|easy].
      replace ((A ++ [b]) ++ [nb]) with ((A ++ [b]) ++ nb :: []) by easy.
      rewrite <- (app_nil_r (A ++ [b])) at 1. apply Add_app.
    - intros y l Hy. rewrite Hs' in Hy. rewrite app_assoc, in_app_iff. destruct (Nat.eqb_spec y nb) as [->|N1]; [right; now left|].
      left. destruct (Nat.eqb_spec y b) as [->|N2]; [rewrite in_app_iff; right; now left|]. now apply (g2 y l).
    - apply links_app in g3 as [L1 L2]. apply links_app. split.
      + cbn [hdo app] in *. eapply links_ext; [|exact L1]. intros y Hy. unfold lk. rewrite Hs'.
        assert (y <> nb) by (intros ->; apply Nnb; rewrite in_app_iff; auto).
        assert (y <> b).
        { intros ->. destruct (nodup_mid1 A b [] g1) as (NA & _). contradiction. }
        apply Nat.eqb_neq in H as ->. apply Nat.eqb_neq in H0 as ->. easy.
      + cbn [links app hdo lsto] in *. unfold lk. rewrite !Hs', Nat.eqb_refl.
        assert (b <> nb) by (intros ->; apply Nnb; rewrite in_app_iff; right; now left).
        apply Nat.eqb_neq in H as ->. rewrite Nat.eqb_refl. cbn. auto.
    - rewrite HC. exact HS.
    - intros y Hy. destruct (Nat.eq_dec y nb) as [->|N]; [left; now rewrite Dnb|]. rewrite Doth by easy.
      rewrite app_assoc, in_app_iff in Hy. destruct Hy as [Hy|[->|[]]]; [|easy].
      apply g5 in Hy as [Hy|Hy]; [now left|]. left. destruct A as [|a A]; [injection Hy as <-; exact Nb|].
      injection Hy as _ Hy. now destruct A.
  Qed.

  Lemma last_key_snoc {A} (l : list (K * A)) e : last_key (l ++ [e]) = Some (fst e).
  Proof. destruct e. apply last_key_app. Qed.

  (** ** Filling the leaves *)
  Record BI (st : bst) (m : list E) : Prop := {
    bi_G : G (b_s st) (lvs (b_bids st) ++ [b_cur st]);
    bi_C : C (b_s st) (lvs (b_bids st) ++ [b_cur st]) = m;
    bi_ch : exists lo, chain (ent false (b_s st) 0) None lo (b_bids st) /\ (forall e, In e (D (b_s st) (b_cur st)) -> above lo (fst e))
              /\ match lo with Some k => cmp k kmax = true | None => True end;
    bi_len : length (D (b_s st) (b_cur st)) <= lfe;
    bi_ne : D (b_s st) (b_cur st) <> [] \/ b_bids st = [];
    bi_n : b_n st = length m;
    bi_last : match rev m with [] => b_last st = kmax | e :: _ => b_last st = fst e end;
    bi_max : forall e, In e m -> cmp (fst e) kmax = true }.

  Lemma bulk_init_ok : BI (bulk_init kmax alloc) [].
  Proof.
    unfold bulk_init. set (nb := alloc []). 
    assert (HD : D (V := V) (K := K) (lput [] nb {| ld := []; lp := None; ln := None |}) nb = []) by (rewrite D_lput, Nat.eqb_refl; easy).
    constructor; cbn [b_s b_cur b_last b_bids b_n lvs flat_map app].
    - constructor.
      + constructor; [easy|constructor].
      + intros b l H. rewrite lget_lput in H. destruct (Nat.eqb_spec b nb) as [->|N]; [now left|easy].
      + cbn [links hdo]. rewrite lk_lput, Nat.eqb_refl. easy.
      + cbn [C flat_map]. rewrite HD. apply SS_nil.
      + intros b [<-|[]]. now right.
    - cbn [C flat_map]. now rewrite HD.
    - exists None. cbn [chain]. rewrite HD. easy.
    - rewrite HD. cbn. lia.
    - now right.
    - easy.
    - easy.
    - easy.
  Qed.

  Lemma lmin_2 : 2 <= lmin lmax. Proof. now apply (lmin2 lmax nmax). Qed.

  Lemma bulk_step_ok (st : bst) m x : BI st m -> (forall e, In e m -> cmp (fst x) (fst e) = false) -> cmp (fst x) kmax = true ->
    exists st', bulk_step cmp alloc lfe st x = Some st' /\ BI st' (if eqv cmp (b_last st) (fst x) then m else m ++ [x]).
  Proof.
    intros HB Hx Hmx. pose proof lmin_2 as L2. unfold bulk_step. assert (HB' := HB). destruct HB as [HG HC (lo & Hch & Hlo & Hlk) HL HN Hn Hla HM].
    unfold eqv. rewrite (orb_comm (cmp (fst x) _)). destruct (cmp (b_last st) (fst x) || cmp (fst x) (b_last st)) eqn:Eq.
    2:{ exists st. now cbn. }
    cbn [negb].
    assert (Hlt : forall e, In e m -> cmp (fst e) (fst x) = true).
    { destruct (rev m) as [|e0 r] eqn:Er.
      - apply (f_equal (@rev E)) in Er. rewrite rev_involutive in Er. subst m. rewrite Er. easy.
      - apply (f_equal (@rev E)) in Er. rewrite rev_involutive in Er. cbn in Er. 
        assert (In e0 m) by (rewrite Er, in_app_iff; right; now left).
        assert (Hl0 : cmp (fst e0) (fst x) = true).
        { rewrite Hla in Eq. specialize (Hx e0 H). rewrite Hx in Eq. now rewrite orb_false_r in Eq. }
        intros e He. rewrite Er in He. apply in_app_iff in He as [He|[<-|[]]]; [|easy].
        pose proof (g_sorted _ _ _ HG) as HS. rewrite HC, Er in HS. apply SS_app in HS as (_ & _ & HS).
        eapply cmp_tr; [eassumption| |exact Hl0]. apply HS; [easy|now left]. }
    assert (HSx : SS cmp (m ++ [x])).
    { apply SS_app. split; [rewrite <- HC; apply HG|]. split; [apply SS_cons; split; [easy|apply SS_nil]|].
      intros a b Ha [<-|[]]. now apply Hlt. }
    assert (HMx : forall e, In e (m ++ [x]) -> cmp (fst e) kmax = true).
    { intros e He. apply in_app_iff in He as [He|[<-|[]]]; auto. }
    pose proof (G_at _ _ _ _ _ HG) as Hg. rewrite Hg. cbn [ld hdo].
    destruct (Nat.eqb_spec (length (D (b_s st) (b_cur st))) lfe) as [Ef|Ef].
    - (* a new leaf *)
      assert (Nd : D (b_s st) (b_cur st) <> []) by (intros X; rewrite X in Ef; cbn in Ef; lia).
      destruct (exists_last Nd) as (d' & e0 & Ed). assert (LK : last_key (D (b_s st) (b_cur st)) = Some (fst e0)) by (rewrite Ed; apply last_key_snoc). rewrite LK. clear LK.
      set (nb := alloc (b_s st)). cbv zeta. cbn [set_ln lp ld ln].
      rewrite lget_lput, Nat.eqb_refl. cbn [ld set_ld app lp ln].
      eexists. split; [reflexivity|].
      match goal with |- context [ {| b_s := ?S |} ] => set (s' := S) end.
      assert (Ncn : b_cur st <> nb).
      { intros X. unfold nb in X. pose proof (Halloc (b_s st)) as Y. rewrite <- X, Hg in Y. easy. }
      destruct (G_append (b_s st) (lvs (b_bids st)) (b_cur st) nb x HG Nd (Halloc _) ltac:(rewrite HC; exact HSx) s') as (HG' & Dn & Do & HC').
      { intros y. unfold s'. rewrite !lget_lput. destruct (Nat.eqb_spec y nb) as [->|N]; easy. }
      assert (HE0 : In e0 m).
      { rewrite <- HC, C_app, in_app_iff. right. cbn. rewrite app_nil_r, Ed, in_app_iff. right. now left. }
      assert (Hbn : forall y, In y (lvs (b_bids st) ++ [b_cur st]) -> y <> nb).
      { intros y Hy ->. apply in_split in Hy as (P & Q & E1). assert (HG2 := HG). rewrite E1 in HG2. apply G_at in HG2.
        unfold nb in HG2. rewrite Halloc in HG2. easy. }
      constructor; cbn [b_s b_cur b_last b_bids b_n]; rewrite ?lvs_app; cbn [lvs flat_map leaves snd app]; rewrite <- ?app_assoc.
      + exact HG'.
      + cbn [app] in *. rewrite HC', HC. easy.
      + exists (Some (fst e0)). split; [|split].
        * apply chain_app. exists lo. split.
          -- eapply ent_ext; [|exact Hch]. intros y Hy. apply Do. apply Hbn. rewrite in_app_iff. auto.
          -- cbn [chain]. split; [apply Hlo; rewrite Ed, in_app_iff; right; now left|]. split; [|easy].
             assert (Dc : D s' (b_cur st) = D (b_s st) (b_cur st)) by now apply Do.
             split.
             ++ cbn [wf]. rewrite Dc. intros e He. split; [now apply Hlo|].
                rewrite Ed in He. apply in_app_iff in He as [He|[<-|[]]]; [|now apply cmp_irr].
                pose proof (g_sorted _ _ _ HG) as HS. rewrite C_app in HS. cbn [C flat_map] in HS. rewrite app_nil_r, Ed in HS.
                apply SS_app in HS as (_ & HS & _). apply SS_app in HS as (_ & _ & HS). apply cmp_as; [easy|]. apply HS; [easy|now left].
             ++ unfold BtreeTree.okc. cbn [tsz tmx tmin]. rewrite Dc, Ef. lia.
        * rewrite Dn. intros e [<-|[]]. cbn. now apply Hlt.
        * now apply HM.
      + rewrite Dn. cbn. lia.
      + left. now rewrite Dn.
      + rewrite app_length, Hn. cbn. lia.
      + now rewrite rev_app_distr.
      + exact HMx.
    - (* the same leaf *)
      cbv zeta. rewrite Hg. unfold set_ld. cbn [ld lp ln].
      eexists. split; [reflexivity|].
      destruct (G_set_data cmp (b_s st) (lvs (b_bids st)) (b_cur st) [] (D (b_s st) (b_cur st) ++ [x]) HG) as (HG' & Dn & Do & _ & HC').
      { cbn. rewrite app_nil_r, app_assoc. rewrite <- HC, C_app in HSx. cbn [C flat_map] in HSx. now rewrite app_nil_r in HSx. }
      { left. now destruct (D (b_s st) (b_cur st)). }
      cbn [hdo] in *.
      set (s' := lput (b_s st) (b_cur st) {| ld := D (b_s st) (b_cur st) ++ [x]; lp := lsto (lvs (b_bids st)) None; ln := None |}) in *.
      constructor; cbn [b_s b_cur b_last b_bids b_n].
      + exact HG'.
      + rewrite HC'. rewrite <- HC, C_app. cbn [C flat_map]. now rewrite !app_nil_r, app_assoc.
      + exists lo. split; [|split; [|easy]].
        * eapply ent_ext; [|exact Hch]. intros y Hy. apply Do. intros ->.
          destruct (nodup_mid1 _ _ _ (g_nodup _ _ _ HG)) as (NA & _). contradiction.
        * rewrite Dn. intros e He. apply in_app_iff in He as [He|[<-|[]]]; [now apply Hlo|].
          destruct (D (b_s st) (b_cur st)) as [|e0 d] eqn:Ed.
          -- destruct HN as [HN|HN]; [easy|]. rewrite HN in Hch. cbn in Hch. now subst lo.
          -- apply (above_trans cmp Hcmp lo (fst e0)); [apply Hlo; now left|]. apply Hlt. rewrite <- HC, C_app, in_app_iff. right. cbn.
             rewrite Ed. now left.
      + rewrite Dn, app_length. cbn. lia.
      + left. rewrite Dn. now destruct (D (b_s st) (b_cur st)).
      + rewrite app_length, Hn. cbn. lia.
      + now rewrite rev_app_distr.
      + exact HMx.
  Qed.

  (** ** The elements are those of the sorted map *)
  Lemma s_put_last (m : list E) (x : E) : SS cmp m -> (forall e, In e m -> cmp (fst x) (fst e) = false) -> 
    s_put cmp m x = match rev m with [] => [x] | e :: _ => if eqv cmp (fst e) (fst x) then m else m ++ [x] end.
  Proof.
    intros HS Hx. unfold s_put.
    destruct (rev m) as [|e0 r] eqn:Er; apply (f_equal (@rev E)) in Er; rewrite rev_involutive in Er; cbn in Er.
    - subst m. easy.
    - assert (He0 : In e0 m) by (rewrite Er, in_app_iff; right; now left).
      destruct (eqv cmp (fst e0) (fst x)) eqn:Eq.
      + apply eqv_spec in Eq as [Q1 Q2].
        assert (X : s_has cmp m (fst x) = true). { unfold s_has. apply existsb_exists. exists e0. split; [easy|]. unfold same. now rewrite Q1, Q2. }
        now rewrite X.
      + assert (Hl0 : cmp (fst e0) (fst x) = true). { unfold eqv in Eq. rewrite (Hx e0 He0), orb_false_r in Eq. now apply negb_false_iff in Eq. }
        assert (Hlt : forall e, In e m -> cmp (fst e) (fst x) = true).
        { intros e He. rewrite Er in He. apply in_app_iff in He as [He|[<-|[]]]; [|easy].
          rewrite Er in HS. apply SS_app in HS as (_ & _ & HS). eapply cmp_tr; [eassumption| |exact Hl0]. apply HS; [easy|now left]. }
        assert (X : s_has cmp m (fst x) = false).
        { unfold s_has. apply not_true_is_false. intros X. apply existsb_exists in X as (e & He & X). unfold same in X.
          now rewrite (Hlt e He) in X. }
        rewrite X.
        assert (F1 : filter (fun e => cmp (fst e) (fst x)) m = m).
        { clear -Hlt. induction m as [|e m IH]; cbn; [easy|]. rewrite (Hlt e) by now left. f_equal. apply IH. intros; apply Hlt; now right. }
        assert (F2 : filter (fun e => cmp (fst x) (fst e)) m = []).
        { clear -Hx. induction m as [|e m IH]; cbn; [easy|]. rewrite (Hx e) by now left. apply IH. intros; apply Hx; now right. }
        now rewrite F1, F2.
  Qed.

  Lemma bulk_leaves_ok lim l : forall (st : bst) s s', BI st (sm s) ->
    (forall e x, In e (sm s) -> In x l -> cmp (fst x) (fst e) = false) ->
    StronglySorted (fun a b : E => cmp (fst b) (fst a) = false) l -> (forall x, In x l -> cmp (fst x) kmax = true) ->
    s_add_all cmp kmax lim s l = Some s' ->
    exists st', bulk_leaves cmp alloc lfe st l = Some st' /\ BI st' (sm s') /\ si s' = si s.
  Proof.
    induction l as [|x l IH]; intros st s s' HB Hle HS HM Ha; cbn [bulk_leaves s_add_all] in *.
    - injection Ha as <-. now exists st.
    - destruct (s_add cmp kmax lim s x) as [s1|] eqn:E1; [|easy].
      apply StronglySorted_inv in HS as [HS1 HS2]. rewrite Forall_forall in HS2.
      assert (Hx : forall e, In e (sm s) -> cmp (fst x) (fst e) = false) by (intros e He; apply Hle; [easy|now left]).
      destruct (bulk_step_ok st (sm s) x HB Hx (HM x (or_introl eq_refl))) as (st1 & E2 & HB1).
      rewrite E2. unfold s_add in E1. cbv zeta in E1. destruct (_ && _) in E1; [|easy]. injection E1 as <-.
      assert (X : s_put cmp (sm s) x = if eqv cmp (b_last st) (fst x) then sm s else sm s ++ [x]).
      { rewrite s_put_last; [|rewrite <- (bi_C _ _ HB); apply (bi_G _ _ HB)|easy].
        pose proof (bi_last _ _ HB) as Hla. destruct (rev (sm s)) as [|e0 r] eqn:Er.
        - apply (f_equal (@rev E)) in Er. rewrite rev_involutive in Er. cbn in Er. rewrite Er, Hla.
          unfold eqv. rewrite (HM x (or_introl eq_refl)), orb_true_r. easy.
        - now rewrite Hla. }
      rewrite <- X in HB1.
      destruct (IH st1 {| sm := s_put cmp (sm s) x; si := si s |} s' HB1) as (st' & E3 & HB' & Es); auto.
      + cbn [sm]. intros e y He Hy. rewrite X in He. destruct (eqv cmp (b_last st) (fst x)).
        * apply Hle; [easy|now right].
        * apply in_app_iff in He as [He|[<-|[]]]; [apply Hle; [easy|now right]|auto].
      + intros y Hy. apply HM. now right.
      + exists st'. auto.
  Qed.

  (** ** The last leaf *)
  Lemma lget_D (s : store) b l : lget s b = Some l -> D s b = ld l.
  Proof. unfold D. now intros ->. Qed.
  Lemma bulk_last_ok (st : bst) m : BI st m ->
    exists s it bids, bulk_last cmp kmax lmax nmax st = Some (s, [it], bids, length m) /\ G s (lvs bids) /\ C s (lvs bids) = m
      /\ chain (ent (small 0 (length bids)) s 0) None (Some kmax) bids /\ 1 <= length bids /\ pts (vw s (lvs bids)) it (length m).
  Proof.
    intros HB. pose proof lmin_2 as L2. assert (HB' := HB). destruct HB as [HG HC (lo & Hch & Hlo & Hlk) HL HN Hn Hla HM].
    assert (Hlm : lmin lmax <= lmax) by lia.
    unfold bulk_last. pose proof (G_at _ _ _ _ _ HG) as Hg. cbv zeta. rewrite Hg. cbn [ld].
    (* the end *)
    assert (FIN : forall (s : store) bids lo', G s (lvs bids ++ [b_cur st]) -> C s (lvs bids ++ [b_cur st]) = m ->
      chain (ent false s 0) None lo' bids -> above lo' kmax -> (forall e, In e (D s (b_cur st)) -> above lo' (fst e)) ->
      length (D s (b_cur st)) <= lmax -> lmin lmax <= length (D s (b_cur st)) \/ bids = [] ->
      exists s0 it bids0,
        (do l1 <- lget s (b_cur st);
         (if (length (ld l1) <=? lmax) && ((lmin lmax <=? length (ld l1)) || (b_n st <=? lmax))
          then Some (s, [(b_cur st, length (ld l1))], bids ++ [(kmax, Leaf (b_cur st))], b_n st) else None)) = Some (s0, [it], bids0, length m)
        /\ G s0 (lvs bids0) /\ C s0 (lvs bids0) = m
        /\ chain (ent (small 0 (length bids0)) s0 0) None (Some kmax) bids0 /\ 1 <= length bids0 /\ pts (vw s0 (lvs bids0)) it (length m)).
    { intros s bids lo' HG1 HC1 Hc1 Ha1 Hd1 Hl1 Hu1. pose proof (G_at _ _ _ _ _ HG1) as Hg1. rewrite Hg1. cbn [ld].
      assert (Lm : m = C s (lvs bids) ++ D s (b_cur st)) by (rewrite <- HC1, C_app; cbn; now rewrite app_nil_r).
      assert (C1 : (length (D s (b_cur st)) <=? lmax) && ((lmin lmax <=? length (D s (b_cur st))) || (b_n st <=? lmax)) = true).
      { rewrite andb_true_iff, orb_true_iff, !Nat.leb_le. split; [easy|]. destruct Hu1 as [Hu1|Hu1]; [now left|right].
        rewrite Hn, Lm, Hu1. cbn. easy. }
      rewrite C1. exists s, (b_cur st, length (D s (b_cur st))), (bids ++ [(kmax, Leaf (b_cur st))]).
      rewrite Hn, lvs_app. cbn [lvs flat_map leaves snd app]. split; [easy|]. split; [easy|]. split; [easy|]. split; [|split].
      - apply chain_app. exists lo'. split.
        + now apply ent_weaken.
        + cbn [chain]. split; [easy|]. split; [|easy]. split.
          * cbn [wf]. intros e He. split; [now apply Hd1|]. apply cmp_as; [easy|]. apply HM. rewrite Lm, in_app_iff. now right.
          * unfold BtreeTree.okc. cbn [tsz tmx tmin]. split; [|easy]. destruct Hu1 as [Hu1|Hu1]; [now right|left]. now rewrite Hu1.
      - rewrite app_length. cbn. lia.
      - rewrite vw_app. exists (vw s (lvs bids)), (D s (b_cur st)), []. cbn [fst snd]. split; [easy|]. split; [|now right].
        rewrite vw_cc, Lm, app_length. easy. }
    destruct (rev (b_bids st)) as [|[k0 tl] r] eqn:Er; apply (f_equal (@rev (K * tree))) in Er; rewrite rev_involutive in Er; cbn [rev] in Er.
    - rewrite Er in *. cbn [lvs flat_map app] in *. cbn in Hch. subst lo. apply (FIN _ [] None); auto; try easy. lia.
    - set (pre := rev r) in *. clearbody pre. clear r.
      destruct (Nat.ltb_spec (length (D (b_s st) (b_cur st))) (lmin lmax)) as [Hu|Hu].
      2:{ apply (FIN _ (b_bids st) lo); auto; try lia; destruct lo; easy. }
      rewrite Er in Hch. apply chain_app in Hch as (lo1 & Hc1 & Hc2). cbn [chain] in Hc2. destruct Hc2 as (Ha0 & [Hw0 Hk0] & <-).
      assert (Hne : D (b_s st) (b_cur st) <> []). { destruct HN as [HN|HN]; [easy|]. rewrite HN in Er. now destruct pre. }
      assert (HG2 : G (b_s st) (lvs pre ++ (leaves tl ++ leaves (@Leaf K (b_cur st))) ++ [])).
      { assert (HG2 := HG). rewrite Er, lvs_app in HG2. cbn [lvs flat_map snd] in HG2. rewrite !app_nil_r, <- app_assoc in HG2.
        rewrite app_nil_r. exact HG2. }
      assert (Z1 : tmin lmax nmax tl <= tsz (b_s st) tl <= tmx lmax nmax tl) by (destruct Hk0 as [[X|X] Y]; [easy|lia]).
      destruct tl as [bl|l0]; [|easy]. cbn [tsz tmin tmx] in Z1.
      destruct (fob_ok cmp lmax nmax Hcmp Hlmax Hnmax 0 (b_s st) [] (lvs pre) [] lo1 k0 kmax (Leaf bl) (Leaf (b_cur st)) HG2) as
        (s' & its' & y & Ef & HSM & HF & Hy); auto.
      + intros e He. split; [now apply Hlo|]. apply cmp_as; [easy|]. apply HM. rewrite <- HC, C_app, in_app_iff. right. cbn. now rewrite app_nil_r.
      + cbn [tsz tmx]. lia.
      + cbn [tsz tmx]. destruct (D (b_s st) (b_cur st)); [easy|]. cbn [length] in *. lia.
      + right. cbn [tsz tmin]. lia.
      + rewrite Ef. destruct HSM as [HGs HCs _ _].
        assert (Em : C (b_s st) (lvs pre ++ (leaves (@Leaf K bl) ++ leaves (@Leaf K (b_cur st))) ++ []) = m).
        { rewrite <- HC, Er, lvs_app. cbn [lvs flat_map snd leaves]. rewrite !app_nil_r, <- app_assoc. easy. }
        rewrite Em in HCs.
        assert (Rl : removelast (b_bids st) = pre) by (rewrite Er; apply removelast_last).
        rewrite Rl.
        assert (Hy2 : match y with inl t => t = Leaf (b_cur st) | inr (t1, t2, _) => t1 = Leaf bl /\ t2 = Leaf (b_cur st) end).
        { clear -Ef. unfold fob in Ef. destruct (lget (b_s st) bl); [|easy]. destruct (lget (b_s st) (b_cur st)); [|easy].
          destruct (_ <=? _) in Ef.
          - destruct (leaf_fuse _ _ _ _ _) as [[? ?]|] in Ef; [|easy]. now injection Ef as _ _ <-.
          - destruct (leaf_balance _ _ _ _ _ _) as [[[? ?] ?]|] in Ef; [|easy]. now injection Ef as _ _ <-. }
        destruct y as [t|[[t1 t2] k]].
        * subst t. cbn [yleaves leaves] in HGs, HCs. rewrite app_nil_r in HGs, HCs.
          destruct Hy as [Hw [[X|Hy1] Hy3]]; [easy|]. cbn [tsz tmin tmx wf] in Hw, Hy1, Hy3.
          assert (Ff : fits lmax nmax s' (Leaf (b_cur st)) = Some true).
          { unfold fits, tsize. rewrite (G_at _ _ _ _ _ HGs). cbn [ld tmin]. f_equal. rewrite andb_true_iff, !Nat.leb_le. easy. }
          rewrite Ff. apply (FIN s' pre lo1); auto.
          -- eapply ent_ext; [|exact Hc1]. auto.
          -- destruct lo1; [|easy]. cbn in *. eapply cmp_tr; eassumption.
          -- intros e He. now apply Hw.
        * destruct Hy2 as [-> ->]. destruct Hy as (Q1 & Q2 & Q3 & Q4 & Q5 & Q6).
          cbn [yleaves leaves] in HGs, HCs. rewrite app_nil_r in HGs, HCs.
          assert (Ff : fits lmax nmax s' (Leaf bl) = Some true).
          { unfold fits, tsize. cbn [app] in HGs. rewrite (G_at _ _ _ _ _ HGs). cbn [ld tmin].
            destruct Q4 as [[X|Q4] Q4']; [easy|]. cbn [tsz tmin tmx] in Q4, Q4'. f_equal. rewrite andb_true_iff, !Nat.leb_le. easy. }
          rewrite Ff. 
          destruct Q6 as [[X|Q6] Q6']; [easy|]. cbn [tsz tmin tmx] in Q6, Q6'.
          apply (FIN s' (pre ++ [(k, Leaf bl)]) (Some k)); auto.
          -- rewrite lvs_app. cbn [lvs flat_map leaves snd]. rewrite <- app_assoc. exact HGs.
          -- rewrite lvs_app. cbn [lvs flat_map leaves snd]. rewrite <- app_assoc. exact HCs.
          -- apply chain_app. exists lo1. split; [eapply ent_ext; [|exact Hc1]; auto|]. cbn [chain]. split; [easy|]. split; [|easy]. now split.
          -- intros e He. now apply Q5.
  Qed.

  (** ** The nodes above a sequence of entries *)
  Definition kids (p : list (K * tree)) : list (K * tree) := flat_map (fun e => match snd e with Node l => l | Leaf _ => [] end) p.
  Lemma kids_app a b : kids (a ++ b) = kids a ++ kids b. Proof. apply flat_map_app. Qed.
  Lemma kids_lvs (s : store) h p : forall lo hi, chain (ent false s (S h)) lo hi p -> lvs (kids p) = lvs p.
  Proof.
    induction p as [|[k [b|l]] p IH]; intros lo hi H; [easy| |]; cbn [chain] in H; destruct H as (_ & [H1 _] & H2); [easy|].
    change (kids ((k, Node l) :: p)) with (l ++ kids p). rewrite lvs_app, lvs_cons. f_equal. eapply IH, H2.
  Qed.
  Lemma kids_len (s : store) h p : forall lo hi, chain (ent false s (S h)) lo hi p -> length (kids p) <= length p * nmax.
  Proof.
    induction p as [|[k [b|l]] p IH]; intros lo hi H; [easy| |]; cbn [chain] in H; destruct H as (_ & [H1 H3] & H2); [easy|].
    change (kids ((k, Node l) :: p)) with (l ++ kids p). rewrite app_length. specialize (IH _ _ H2). destruct H3 as [_ H3]. cbn in H3. cbn [length Nat.mul]. lia.
  Qed.
  Definition isn (e : K * tree) : Prop := exists l, snd e = Node l /\ length l = nfe.

  Lemma nmin_2 : 2 <= nmin nmax. Proof. now apply (nmin2 lmax nmax). Qed.
  Lemma bulk_push_ok (s : store) h acc m node hi : chain (ent false s (S h)) None m acc -> chain (ent false s h) m (Some hi) node ->
    nmin nmax <= length node <= nmax -> 
    bulk_push nmax acc node = Some (acc ++ [(hi, Node node)]) /\ chain (ent false s (S h)) None (Some hi) (acc ++ [(hi, Node node)]).
  Proof.
    intros H1 H2 H3. pose proof nmin_2 as N2. unfold bulk_push.
    assert (X : (nmin nmax <=? length node) && (length node <=? nmax) = true) by (rewrite andb_true_iff, !Nat.leb_le; lia). rewrite X.
    assert (Nn : node <> []) by (intros ->; cbn in H3; lia).
    destruct (exists_last Nn) as (n' & [k c] & En). rewrite En in H2. pose proof (chain_snoc _ _ _ _ _ _ _ H2) as Hk. injection Hk as <-. rewrite <- En in H2.
    rewrite En at 1. rewrite last_key_snoc. cbn [fst]. split; [easy|].
    apply chain_app. exists m. split; [easy|]. cbn [BtreeTree.chain].
    destruct (chain_hi cmp Hcmp _ _ _ _ Nn H2) as (h0 & [= <-] & Ha). split; [easy|]. split; [|easy].
    split; [exact H2|]. unfold BtreeTree.okc. cbn [tsz tmin tmx]. lia.
  Qed.

  Definition cdiv (n : nat) : nat := (n + nfe - 1) / nfe.
  Lemma cdiv_small n : 1 <= n <= nfe -> cdiv n = 1.
  Proof. intros H. unfold cdiv. symmetry. apply (Nat.div_unique _ _ 1 (n - 1)); lia. Qed.
  Lemma cdiv_big n : nfe < n -> cdiv n = S (cdiv (n - nfe)).
  Proof.
    intros H. pose proof nmin_2 as N2. unfold cdiv. replace (n + nfe - 1) with ((n - nfe + nfe - 1) + 1 * nfe) by lia.
    rewrite Nat.div_add by lia. lia.
  Qed.

  Lemma firstn_chain P n (l : list (K * tree)) lo hi : chain P lo hi l -> exists m, chain P lo m (firstn n l) /\ chain P m hi (skipn n l).
  Proof. intros H. rewrite <- (firstn_skipn n l) in H. now apply chain_app in H. Qed.

  Lemma bulk_nodes_ok (s : store) h fuel : forall acc bids m, 
    chain (ent false s (S h)) None m acc -> Forall isn acc -> chain (ent false s h) m (Some kmax) bids -> length bids <= fuel ->
    (acc = [] -> nfe < length bids) -> nmax < length acc * nfe + length bids ->
    exists p, bulk_nodes cmp nmax nfe fuel acc bids = Some p /\ chain (ent false s (S h)) None (Some kmax) p
      /\ kids p = kids acc ++ bids /\ (length p = length acc + (if length bids =? 0 then 0 else cdiv (length bids)) 
                                      \/ S (length p) = length acc + cdiv (length bids)).
  Proof.
    pose proof nmin_2 as N2.
    induction fuel as [|fuel IH]; intros acc bids m Hacc Hisn Hb Hf Hne Hbig.
    { destruct bids; [|cbn in Hf; lia]. cbn [BtreeTree.chain] in Hb. subst m. exists acc. cbn. rewrite app_nil_r. auto. }
    destruct bids as [|e0 bids0] eqn:Eb.
    { cbn [BtreeTree.chain] in Hb. subst m. exists acc. cbn. rewrite app_nil_r. auto. }
    assert (Lb : 1 <= length bids) by (rewrite Eb; cbn; lia). rewrite <- Eb in *.
    assert (Es : bulk_nodes cmp nmax nfe (S fuel) acc bids =
      let node := firstn nfe bids in
      let rest := skipn nfe bids in
      do acc' <- (if length node <? nmin nmax then
                    match rest, rev acc with
                    | [], (_, Node lft) :: _ =>
                      if length lft + length node <=? nmax
                      then do n <- node_fuse cmp lft node; bulk_push nmax (removelast acc) n
                      else do x <- node_balance cmp nmax lft node false;
                           let '(a, c, k) := x in
                           if (nmin nmax <=? length a) && (length a <=? nmax)
                           then bulk_push nmax (removelast acc ++ [(k, Node a)]) c else None
                    | _, _ => None
                    end
                  else bulk_push nmax acc node);
      bulk_nodes cmp nmax nfe fuel acc' rest) by (rewrite Eb; reflexivity).
    rewrite Es. clear Es. cbv zeta. clear Eb e0 bids0.
    assert (Z0 : (length bids =? 0) = false) by (apply Nat.eqb_neq; lia). rewrite Z0.
    destruct (firstn_chain _ nfe _ _ _ Hb) as (m2 & Hn & Hr).
    assert (Ln : length (firstn nfe bids) = Nat.min nfe (length bids)) by apply firstn_length.
    assert (Lr : length (skipn nfe bids) = length bids - nfe) by apply skipn_length.
    assert (Ej : bids = firstn nfe bids ++ skipn nfe bids) by now rewrite firstn_skipn.
    set (node := firstn nfe bids) in *. set (rest := skipn nfe bids) in *. clearbody node rest.
    assert (Nn : node <> []) by (intros ->; cbn in Ln; lia).
    destruct (chain_hi cmp Hcmp _ _ _ _ Nn Hn) as (hi & -> & Hhi).
    destruct (Nat.ltb_spec (length node) (nmin nmax)) as [Hu|Hu].
    - (* the last node is too small *)
      destruct rest as [|y rest]; [|cbn in Lr; lia]. cbn [BtreeTree.chain] in Hr. injection Hr as ->. rewrite app_nil_r in Ej. subst node.
      destruct (rev acc) as [|[k0 t0] r] eqn:Er; apply (f_equal (@rev (K * tree))) in Er; rewrite rev_involutive in Er; cbn [rev] in Er.
      { specialize (Hne Er). lia. }
      set (pre := rev r) in *. clearbody pre. clear r. subst acc. rewrite removelast_last.
      apply Forall_app in Hisn as [Hi1 Hi2]. inversion Hi2 as [|? ? (lft & El & Ll) _]; subst. cbn [snd] in El. subst t0.
      apply chain_app in Hacc as (m3 & Ha1 & Ha2). cbn [BtreeTree.chain] in Ha2. destruct Ha2 as (Hk0 & [Hw _] & <-). cbn [BtreeTree.wf] in Hw.
      fold (BtreeTree.ent cmp lmax nmax false s h) in Hw.
      assert (Nl : lft <> []) by (intros ->; cbn in Ll; lia).
      assert (HCh : chain (ent false s h) m3 (Some kmax) (lft ++ bids)) by (apply chain_app; exists (Some k0); easy).
      assert (Hcd : cdiv (length bids) = 1) by (apply cdiv_small; lia). rewrite Hcd.
      destruct (Nat.leb_spec (length lft + length bids) nmax) as [Hfu|Hfu].
      + unfold node_fuse. rewrite (in_order_ok cmp lft bids Nl Nn (chain_SS cmp Hcmp _ _ _ _ HCh)).
        destruct (bulk_push_ok s h pre m3 (lft ++ bids) kmax Ha1 HCh) as [E1 E2]; [rewrite app_length; lia|]. rewrite E1.
        exists (pre ++ [(kmax, Node (lft ++ bids))]). split; [now destruct fuel|]. split; [easy|]. split.
        * rewrite !kids_app. cbn [kids flat_map snd]. now rewrite !app_nil_r, <- app_assoc.
        * right. rewrite !app_length. cbn. lia.
      + destruct (node_balance_ok cmp lmax nmax Hcmp Hlmax Hnmax _ lft bids m3 k0 kmax Hw Hb Hfu ltac:(lia) ltac:(lia) Nl Nn ltac:(lia)) as
          (a & b & k & E1 & Eab & Ca & Cb & Za & Zb & Hk1 & Hk2).
        assert (E1' : node_balance cmp nmax lft bids false = Some (a, b, k)).
        { unfold node_balance in E1 |- *. cbv zeta in E1 |- *. cbn [negb orb] in E1 |- *. rewrite <- E1.
          destruct ((_ && _ && _ && _) && _) eqn:X in E1; [|easy]. apply andb_prop in X as [X1 X2]. rewrite X1, X2. easy. }
        rewrite E1'.
        assert (X : (nmin nmax <=? length a) && (length a <=? nmax) = true) by (rewrite andb_true_iff, !Nat.leb_le; lia). rewrite X.
        assert (Hpa : chain (ent false s (S h)) None (Some k) (pre ++ [(k, Node a)])).
        { apply chain_app. exists m3. split; [easy|]. cbn [BtreeTree.chain]. split; [easy|]. split; [|easy]. split; [exact Ca|].
          unfold BtreeTree.okc. cbn [tsz tmin tmx]. lia. }
        destruct (bulk_push_ok s h _ _ b kmax Hpa Cb ltac:(lia)) as [E2 E3]. rewrite E2.
        eexists. split; [now destruct fuel|]. split; [exact E3|]. split.
        * rewrite !kids_app. cbn [kids flat_map snd]. rewrite !app_nil_r, <- !app_assoc. now rewrite Eab.
        * left. rewrite !app_length. cbn. lia.
    - destruct (bulk_push_ok s h acc m node hi Hacc Hn ltac:(lia)) as [E1 E2]. rewrite E1.
      destruct (Nat.le_gt_cases (length bids) nfe) as [Hle|Hgt].
      + (* the last one *)
        destruct rest as [|y rest]; [|cbn in Lr; lia]. cbn [BtreeTree.chain] in Hr. injection Hr as ->. rewrite app_nil_r in Ej. subst node.
        eexists. split; [now destruct fuel|]. split; [exact E2|]. split.
        * rewrite kids_app. cbn [kids flat_map snd]. now rewrite app_nil_r.
        * left. rewrite cdiv_small by lia. rewrite app_length. cbn. lia.
      + destruct (IH (acc ++ [(hi, Node node)]) rest (Some hi) E2) as (p & E3 & Hp & Hk & Hl); auto.
        * apply Forall_app. split; [easy|]. constructor; [|constructor]. exists node. split; [easy|]. lia.
        * lia.
        * intros X. now destruct acc.
        * rewrite app_length. cbn. lia.
        * exists p. split; [easy|]. split; [easy|]. split.
          -- rewrite Hk, kids_app. cbn [kids flat_map snd]. now rewrite app_nil_r, <- app_assoc, <- Ej.
          -- rewrite cdiv_big by easy. rewrite app_length in Hl. cbn [length] in Hl. rewrite Lr in Hl.
             assert (Z : (length bids - nfe =? 0) = false) by (apply Nat.eqb_neq; lia). rewrite Z in Hl. lia.
  Qed.

  (** ** All levels *)
  Lemma bulk_up_ok (s : store) fuel : forall h bids, chain (ent (small h (length bids)) s h) None (Some kmax) bids ->
    1 <= length bids <= S fuel -> (h <> 0 -> 2 <= length bids) -> length (C s (lvs bids)) < cap lmax nmax ncap ->
    exists r h', bulk_up cmp nmax ncap nfe fuel h bids = Some (r, h') /\ chain (ent (small h' (length r)) s h') None (Some kmax) r
      /\ 1 <= length r <= nmax /\ (h' <> 0 -> 2 <= length r) /\ lvs r = lvs bids.
  Proof.
    pose proof nmin_2 as N2.
    induction fuel as [|fuel IH]; intros h bids Hc Hl H2 Hcap; cbn [bulk_up].
    - assert (X : (length bids <=? nmax) = true) by (apply Nat.leb_le; lia). rewrite X. exists bids, h. split; [easy|]. split; [easy|]. split; [lia|easy].
    - destruct (Nat.leb_spec (length bids) nmax) as [Hs|Hs].
      { exists bids, h. split; [easy|]. split; [easy|]. split; [lia|easy]. }
      assert (Hsm : small h (length bids) = false).
      { unfold small. apply andb_false_iff. right. apply Nat.eqb_neq. lia. }
      rewrite Hsm in Hc. cbv zeta. fold (cdiv (length bids)).
      assert (Hcd : 2 <= cdiv (length bids)).
      { rewrite cdiv_big by lia. assert (1 <= cdiv (length bids - nfe)); [|lia].
        unfold cdiv. apply Nat.div_le_lower_bound; lia. }
      assert (Hcd2 : cdiv (length bids) < length bids).
      { unfold cdiv. apply Nat.div_lt_upper_bound; [lia|]. 
        assert (2 * length bids <= nfe * length bids) by (apply Nat.mul_le_mono_r; lia).
        destruct (Nat.le_gt_cases nfe (length bids)); [|lia].
        assert (nfe * 2 <= nfe * length bids) by (apply Nat.mul_le_mono_l; lia).
        destruct (Nat.eq_dec nfe 2) as [->|]; [lia|].
        assert (3 * length bids <= nfe * length bids) by (apply Nat.mul_le_mono_r; lia). lia. }
      apply Nat.leb_le in Hcd as Hcdb. rewrite Hcdb.
      destruct (bulk_nodes_ok s h (length bids) [] bids None) as (p & E1 & Hp & Hk & Hpl); auto; try easy; try (cbn; lia).
      rewrite E1. cbn [length Nat.add] in Hpl. assert (Z0 : (length bids =? 0) = false) by (apply Nat.eqb_neq; lia). rewrite Z0 in Hpl.
      assert (X : (cdiv (length bids) =? length p) || (cdiv (length bids) - 1 =? length p) = true).
      { rewrite orb_true_iff, !Nat.eqb_eq. lia. }
      rewrite X.
      assert (Hp2 : 2 <= length p).
      { pose proof (kids_len _ _ _ _ _ Hp) as Y. rewrite Hk in Y. cbn in Y. destruct (length p) as [|[|n]]; cbn in Y; lia. }
      assert (Hlv : lvs p = lvs bids). { rewrite <- (kids_lvs _ _ _ _ _ Hp), Hk. easy. }
      assert (Hnc : (ncap <? S h + 1) = false).
      { apply Nat.ltb_ge. destruct (Nat.le_gt_cases (S h + 1) ncap) as [Y|Y]; [exact Y|exfalso].
        pose proof (ent_count cmp lmax nmax Hlmax Hnmax _ _ _ _ _ Hc) as X1.
        assert (X2 : cap lmax nmax ncap <= length bids * (lmin lmax * nmin nmax ^ h)).
        { unfold cap. apply Nat.mul_le_mono; [lia|]. apply Nat.mul_le_mono_l. apply Nat.pow_le_mono_r; lia. }
        lia. }
      rewrite Hnc.
      destruct (IH (S h) p) as (r & h' & E2 & Q1 & Q2 & Q3 & Q4); auto.
      + lia.
      + rewrite Hlv. easy.
      + exists r, h'. rewrite Q4. auto.
  Qed.

  Theorem bulk_ok (l : list E) s' : 
    StronglySorted (fun a b : E => cmp (fst b) (fst a) = false) l -> (forall x, In x l -> cmp (fst x) kmax = true) ->
    s_add_all cmp kmax (cap lmax nmax ncap) sempty l = Some s' -> 
    exists c, bulk cmp kmax lmax nmax ncap alloc lfe nfe l = Some c /\ Rel cmp kmax lmax nmax c s'.
  Proof.
    intros HS HM Ha.
    assert (Hcap : length (sm s') < cap lmax nmax ncap).
    { assert (X : forall l (s s' : @sstate K V), s_add_all cmp kmax (cap lmax nmax ncap) s l = Some s' -> length (sm s) < cap lmax nmax ncap -> length (sm s') < cap lmax nmax ncap).
      { clear. induction l as [|x l IH]; intros s s' H; cbn [s_add_all] in H; [now injection H as <-|].
        destruct (s_add cmp kmax (cap lmax nmax ncap) s x) as [s1|] eqn:E1; [|easy]. intros _. apply (IH _ _ H).
        unfold s_add in E1. cbv zeta in E1. destruct (_ && _) eqn:X in E1; [|easy]. injection E1 as <-. cbn [sm]. apply andb_prop in X as [_ X].
        now apply Nat.ltb_lt. }
      apply (X l sempty s' Ha). unfold sempty. cbn [sm length]. unfold cap. pose proof lmin_2. pose proof nmin_2. 
      assert (1 <= nmin nmax ^ (ncap - 1)) by (apply Nat.neq_0_lt_0, Nat.pow_nonzero; lia).
      apply Nat.mul_pos_pos; [lia|]. apply Nat.mul_pos_pos; lia. }
    unfold bulk. destruct (bulk_leaves_ok _ l (bulk_init kmax alloc) sempty s' bulk_init_ok ltac:(easy) HS HM Ha) as (st & E1 & HB & Hsi).
    rewrite E1. destruct (bulk_last_ok st _ HB) as (s & it & bids & E2 & HG & HC & Hch & Hl & Hpt). rewrite E2.
    destruct (bulk_up_ok s (length bids) 0 bids Hch ltac:(lia) ltac:(lia) ltac:(rewrite HC; exact Hcap)) as (r & h' & E3 & Q1 & Q2 & Q3 & Q4).
    rewrite E3. cbn [fst snd]. rewrite (fold_insert cmp Hcmp r []) by (cbn; eapply chain_SS; eassumption). cbn [app].
    eexists. split; [reflexivity|]. constructor.
    - constructor; cbn [lv its root ht sz]; unfold cc, cv; cbn [lv root]; rewrite ?Q4; auto.
      + now rewrite HC.
      + exists it. split; [easy|]. now rewrite HC.
    - unfold cc. cbn [lv root]. now rewrite Q4.
    - cbn [its]. rewrite Hsi. easy.
    - rewrite Hsi. intros i a Hi. now destruct i.
  Qed.
End BulkProofs.
