(** The whole tree: insertion, erasure, lookup, and iterators. *)
From Coq Require Import List Bool Arith Lia Sorting.Sorted.
From Verif Require Import OrderLib BtreeModel BtreeBase BtreeLeaf BtreeTree.
Import ListNotations.

Section Root.
  Context {K V : Type}.
  Notation E := (K * V)%type.
  Notation store := (list (nat * @leaf K V)).
  Notation iter := (nat * nat)%type.
  Notation tree := (@tree K).
  Notation core := (@core K V).
  Variable cmp keqb : K -> K -> bool.
  Variable kmax : K.
  Variable lmax nmax ncap : nat.
  Variable alloc : store -> nat.
  Hypothesis Hcmp : strict_weak cmp.
  Hypothesis Hkeq : forall a b, keqb a b = eqv cmp a b.
  Hypothesis Halloc : forall s, lget s (alloc s) = None.
  Hypothesis Hlmax : 4 <= lmax.
  Hypothesis Hnmax : 4 <= nmax.
  Notation G := (G cmp).
  Notation INS := (INS cmp).
  Notation ERA := (ERA cmp).
  Notation ent := (ent cmp lmax nmax).
  Notation wf := (wf cmp lmax nmax).
  Notation okc := (okc lmax nmax).
  Notation chain := (chain cmp).

  Definition cc (c : core) : list E := C (lv c) (lvs (root c)).
  Definition cv (c : core) := vw (lv c) (lvs (root c)).
  Definition small (h n : nat) : bool := (h =? 0) && (n =? 1).
  Record RI (c : core) : Prop := {
    r_G : G (lv c) (lvs (root c));
    r_ch : chain (ent (small (ht c) (length (root c))) (lv c) (ht c)) None (Some kmax) (root c);
    r_len : 1 <= length (root c) <= nmax;
    r_two : ht c <> 0 -> 2 <= length (root c);
    r_sz : sz c = length (cc c);
    r_end : exists it, nth_error (its c) 0 = Some it /\ pts (cv c) it (length (cc c)) }.

  Lemma map_insert_mid (a b : list (K * tree)) k t : SS cmp (a ++ (k, t) :: b) -> map_insert cmp (a ++ b) k t = (a ++ (k, t) :: b, true).
  Proof.
    intros H. apply SS_app in H as (H1 & H2 & H3). apply SS_cons in H2 as [H2 H4].
    unfold map_insert. rewrite (lower_unique cmp a b k).
    - destruct b as [|e b].
      + rewrite app_nil_r. assert (X : nth_error a (length a) = None) by now apply nth_error_None. rewrite X.
        f_equal. unfold lins. rewrite firstn_all, skipn_all. easy.
      + rewrite nth_error_mid. assert (X : eqv cmp (fst e) k = false).
        { unfold eqv. specialize (H2 e (or_introl eq_refl)). cbn [fst] in H2. rewrite H2. now rewrite orb_true_r. }
        rewrite X. now rewrite lins_mid.
    - intros e He. apply (H3 e (k, t)); [easy|now left].
    - intros e He. apply cmp_as; [easy|]. now apply H2.
  Qed.
  Lemma fold_insert (l : list (K * tree)) : forall a, SS cmp (a ++ l) ->
    fold_left (fun m e => fst (map_insert cmp m (fst e) (snd e))) l a = a ++ l.
  Proof.
    induction l as [|[k t] l IH]; intros a H; cbn; [now rewrite app_nil_r|].
    assert (X : SS cmp (a ++ [(k, t)])).
    { replace (a ++ (k, t) :: l) with ((a ++ [(k, t)]) ++ l) in H by now rewrite <- app_assoc. apply SS_app in H. tauto. }
    pose proof (map_insert_mid a [] k t X) as Y. rewrite app_nil_r in Y. rewrite Y. cbn [fst].
    replace (a ++ (k, t) :: l) with ((a ++ [(k, t)]) ++ l) by now rewrite <- app_assoc. apply IH. now rewrite <- app_assoc.
  Qed.

  Definition cap : nat := S nmax * (lmin lmax * nmin nmax ^ (ncap - 1)).

  Lemma lower_le (l : list E) k : lower cmp l k <= length l.
  Proof. unfold lower. apply lead_le. Qed.
  Lemma INS_end (s : store) its bs x (s' : store) its' bs' fl it : INS s its bs x s' its' bs' fl -> nth_error its 0 = Some it ->
    pts (vw s bs) it (length (C s bs)) ->
    exists it', nth_error its' 0 = Some it' /\ pts (vw s' bs') it' (length (C s' bs')).
  Proof.
    intros [HG Hfl HC HE _ _] H1 H2.
    destruct (HE 0 it _ _ H1 H2 eq_refl) as (it' & H3 & H4). exists it'. split; [easy|].
    pose proof (lower_le (C s bs) (fst x)) as L. apply Nat.leb_le in L as L'. rewrite L', andb_true_r in H4.
    rewrite HC. destruct fl; [now rewrite lins_length|easy].
  Qed.
  Lemma has_lt (l : list E) k : has cmp l k = true -> lower cmp l k < length l.
  Proof. unfold has. destruct (nth_error l (lower cmp l k)) eqn:Ee; [|easy]. intros _. apply nth_error_Some. congruence. Qed.
  Lemma lrem_length {A} (l : list A) i : i < length l -> length (lrem l i) = length l - 1.
  Proof. intros H. unfold lrem. rewrite app_length, firstn_length, skipn_length. lia. Qed.
  Lemma ERA_end (s : store) its bs k (s' : store) its' bs' fl it : ERA s its bs k s' its' bs' fl -> nth_error its 0 = Some it ->
    pts (vw s bs) it (length (C s bs)) ->
    exists it', nth_error its' 0 = Some it' /\ pts (vw s' bs') it' (length (C s' bs')).
  Proof.
    intros [HG Hfl HC HE _] H1 H2.
    assert (X : era_f fl (lower cmp (C s bs) k) (length (C s bs)) = Some (length (C s' bs'))).
    { rewrite HC. unfold era_f. destruct fl; [|easy]. symmetry in Hfl. apply has_lt in Hfl. rewrite lrem_length by easy.
      destruct (Nat.ltb_spec (length (C s bs)) (lower cmp (C s bs) k)); [lia|].
      destruct (Nat.eqb_spec (length (C s bs)) (lower cmp (C s bs) k)); [lia|easy]. }
    destruct (HE 0 it _ _ H1 H2 X) as (it' & H3 & H4). now exists it'.
  Qed.

  Lemma insert_ok c x : RI c -> cmp kmax (fst x) = false ->
    length (if has cmp (cc c) (fst x) then cc c else lins (cc c) (lower cmp (cc c) (fst x)) x) < cap ->
    exists c' fl, insert cmp kmax lmax nmax ncap alloc c x = Some (c', fl) /\ RI c'
      /\ INS (lv c) (its c) (lvs (root c)) x (lv c') (its c') (lvs (root c')) fl.
  Proof.
    intros [HG HC HL H2 HS (e0 & He1 & He2)] Hx Hcap.
    assert (N : root c <> []) by (intros X; rewrite X in HL; cbn in HL; lia).
    assert (HG' : G (lv c) ([] ++ lvs (root c) ++ [])) by (now rewrite app_nil_r).
    destruct (entries_insert cmp kmax lmax nmax alloc Hcmp (ht c) _ (root c) None kmax (lv c) (its c) [] [] x
      (tree_insert_ok cmp kmax lmax nmax alloc Hcmp Halloc Hlmax Hnmax (ht c)) HG' HC N I Hx (cmp_irr _ Hcmp _)
      (fun e H => match H with end) (fun e H => match H with end)) as
      (i & kc & t & s' & its' & t' & spl & fl & M & l' & EL & En & Et & HI & HF & EM & HC' & HR).
    cbn [app] in HI. rewrite !app_nil_r in HI. subst M.
    assert (Hsz : (if fl then S (sz c) else sz c) = length (C s' (lvs l'))).
    { rewrite (i_C _ _ _ _ _ _ _ _ _ HI), HS. unfold cc. destruct fl; [|easy]. rewrite lins_length; [easy|apply lower_le]. }
    assert (Hlt : length (C s' (lvs l')) < cap).
    { rewrite (i_C _ _ _ _ _ _ _ _ _ HI). rewrite (i_fl _ _ _ _ _ _ _ _ _ HI). unfold cc in Hcap.
      destruct (has cmp (C (lv c) (lvs (root c))) (fst x)); exact Hcap. }
    destruct (INS_end _ _ _ _ _ _ _ _ _ HI He1 He2) as (e1 & Hf1 & Hf2).
    unfold insert. rewrite EL, En. cbn [fst snd]. rewrite Et.
    destruct HR as [(-> & El' & Hlen)|(k1 & t1 & -> & El' & Hlen & Hkm & Hk1 & Hn1 & Hlo1 & Ho1 & Ho2)]; cbn [fst snd].
    - assert (X : eqv cmp kmax kmax = true) by (apply eqv_spec; split; now apply cmp_irr). rewrite X.
      eexists _, fl. split; [reflexivity|]. cbn [lv its root ht sz]. rewrite <- El'. split; [|exact HI].
      constructor; cbn [lv its root ht sz fst snd]; [exact (i_G _ _ _ _ _ _ _ _ _ HI)|now rewrite Hlen|lia|intros Z; specialize (H2 Z); lia|exact Hsz|].
      exists e1. split; assumption.
    - rewrite Hkm. unfold root_insert, map_insert. rewrite Hlo1, Hn1.
      assert (X : eqv cmp (fst (kc, t')) k1 = false) by (unfold eqv; cbn; now rewrite Hk1, orb_true_r).
      rewrite X. cbn [fst snd]. rewrite <- El'.
      assert (HC2 : chain (ent false s' (ht c)) None (Some kmax) l').
      { destruct (small (ht c) (length (root c))) eqn:Esm; [|exact HC'].
        unfold small in Esm. apply andb_true_iff in Esm as [_ E2]. apply Nat.eqb_eq in E2.
        destruct (root c) as [|e r] eqn:Er; [easy|]. destruct r; [|easy].
        assert (i = 0). { destruct i; [easy|]. now destruct i. } rewrite H in El'. unfold lset, lins in El'. cbn [firstn skipn app] in El'. subst l'.
        cbn in HC'. destruct HC' as (Q1 & [Q2 _] & Q3 & [Q4 _] & Q5). cbn. repeat split; auto; try apply Ho1; try apply Ho2. }
      destruct (Nat.leb_spec (length l') nmax) as [Hle|Hgt].
      + eexists _, fl. split; [reflexivity|]. cbn [lv its root ht sz]. split; [|exact HI].
        constructor; cbn [lv its root ht sz fst snd]; [exact (i_G _ _ _ _ _ _ _ _ _ HI)| |lia|intros; lia|exact Hsz|exists e1; split; assumption].
        now apply ent_weaken.
      + destruct (node_split_ok cmp Hcmp _ l' None kmax HC2 ltac:(lia)) as (a & b & k & Es & Eab & La & Ca & Cb & _ & Hkk & Hlk).
        rewrite Es, Hlk.
        assert (Hc : (ncap <? S (ht c) + 1) = false).
        { apply Nat.ltb_ge. pose proof (ent_count cmp lmax nmax Hlmax Hnmax s' (ht c) l' _ _ HC2) as X1.
          destruct (Nat.le_gt_cases (S (ht c) + 1) ncap) as [Y|Y]; [exact Y|exfalso].
          assert (X2 : cap <= length l' * (lmin lmax * nmin nmax ^ ht c)).
          { unfold cap. apply Nat.mul_le_mono; [lia|]. apply Nat.mul_le_mono_l. apply Nat.pow_le_mono_r; [|lia].
            pose proof (nmin2 lmax nmax Hlmax Hnmax). lia. }
          lia. }
        rewrite Hc.
        assert (Er : map_insert cmp (fst (map_insert cmp [] k (Node a))) kmax (Node b) = ([(k, Node a); (kmax, Node b)], true)).
        { change (fst (map_insert cmp [] k (Node a))) with ([(k, Node a)] ++ []). apply map_insert_mid.
          apply SS_cons. split; [intros e [<-|[]]; exact Hkk|]. apply SS_cons. split; [easy|apply SS_nil]. }
        assert (Er' := f_equal fst Er). unfold map_insert in Er'. rewrite Er'. clear Er Er'. cbn [fst snd].
        eexists _, fl. split; [reflexivity|].
        assert (El2 : lvs [(k, Node a); (kmax, Node b)] = lvs l').
        { rewrite Eab. cbn. rewrite app_nil_r. symmetry. apply lvs_app. }
        cbn [lv its root ht sz]. rewrite El2. split; [|exact HI].
        assert (Hla : length a + length b = S nmax) by (rewrite <- app_length, <- Eab; lia).
        assert (Hh : nmin nmax <= length a /\ length a <= length b).
        { rewrite La. replace (length l') with (S nmax) in * by lia. unfold nmin. split; [apply Nat.div_le_mono; lia|].
          pose proof (Nat.div_mod (S nmax) 2 ltac:(lia)).
          pose proof (Nat.mod_upper_bound (S nmax) 2 ltac:(lia)). lia. }
        pose proof (nmin2 lmax nmax Hlmax Hnmax) as N2.
        constructor; cbn [lv its root ht sz fst snd]; unfold cc, cv; cbn [lv its root ht sz fst snd]; rewrite ?El2;
          [exact (i_G _ _ _ _ _ _ _ _ _ HI)| |cbn; lia|cbn; lia|exact Hsz|exists e1; split; assumption].
        cbn. split; [easy|]. split; [split; [exact Ca|split; [right; cbn; lia|cbn; lia]]|].
        split; [exact Hkk|]. split; [split; [exact Cb|split; [right; cbn; lia|cbn; lia]]|easy].
  Qed.

  Lemma erase_ok c k : RI c -> cmp kmax k = false ->
    exists c' fl, erase cmp keqb kmax lmax nmax c k = Some (c', fl) /\ RI c'
      /\ ERA (lv c) (its c) (lvs (root c)) k (lv c') (its c') (lvs (root c')) fl.
  Proof.
    intros [HG HC HL H2 HS (e0 & He1 & He2)] Hx.
    assert (N : root c <> []) by (intros X; rewrite X in HL; cbn in HL; lia).
    assert (HG' : G (lv c) ([] ++ lvs (root c) ++ [])) by (now rewrite app_nil_r).
    destruct (entries_erase cmp keqb lmax nmax Hcmp Hlmax Hnmax (ht c) _ (root c) None kmax (lv c) (its c) [] [] k
      (tree_erase_ok cmp keqb lmax nmax Hcmp Hkeq Hlmax Hnmax (ht c)) HG' HC N I Hx) as
      (l1 & kc & t & l2 & m & s' & its' & t' & fl & El & HLo & Et & HI & HF & C1 & Hm & Hw & C2 & Z1 & Z2 & Z3 & Hok & Hu).
    { unfold small. intros X. apply andb_true_iff in X as [X1 X2]. apply Nat.eqb_eq in X1, X2. auto. }
    { intros e []. } { intros e []. }
    cbn [app] in HI. rewrite !app_nil_r in HI.
    assert (Fin : forall (s2 : store) its2 (l3 : list (K * tree)), ERA (lv c) (its c) (lvs (root c)) k s2 its2 (lvs l3) fl ->
      (if fl then sz c - 1 else sz c) = length (C s2 (lvs l3))
      /\ exists it, nth_error its2 0 = Some it /\ pts (vw s2 (lvs l3)) it (length (C s2 (lvs l3)))).
    { intros s2 its2 l3 HI2. split; [|exact (ERA_end _ _ _ _ _ _ _ _ _ HI2 He1 He2)].
      rewrite (e_C _ _ _ _ _ _ _ _ _ HI2), HS. unfold cc. pose proof (e_fl _ _ _ _ _ _ _ _ _ HI2) as Hfl.
      destruct fl; [|easy]. symmetry in Hfl. apply has_lt in Hfl. now rewrite lrem_length. }
    pose proof (nmin2 lmax nmax Hlmax Hnmax) as N2. pose proof (lmin2 lmax nmax Hlmax Hnmax) as L2.
    assert (Tm : forall t : tree, 2 <= tmin lmax nmax t) by (intros [b|l]; cbn; lia).
    assert (Hn : nth_error (root c) (length l1) = Some (kc, t)) by (rewrite El; apply nth_error_mid).
    assert (Hset : lset (root c) (length l1) (kc, t') = l1 ++ (kc, t') :: l2) by (rewrite El; apply lset_mid).
    unfold erase. cbv zeta. rewrite HLo, Hn. cbn [fst snd].
    assert (Hc1 : (ht c =? 0) || (2 <=? length (root c)) = true).
    { destruct (ht c); [easy|]. cbn [Nat.eqb orb]. apply Nat.leb_le. apply H2. easy. }
    rewrite Hc1, Et, Hu, Hset.
    assert (Sm : ((ht c =? 0) && (length (root c) =? 1)) = small (ht c) (length (root c))) by easy.
    destruct (negb (tsz s' t' <? tmin lmax nmax t') || (ht c =? 0) && (length (root c) =? 1)) eqn:Ec.
    - destruct (Fin _ _ _ HI) as [F1 F2].
      eexists _, fl. split; [reflexivity|]. cbn [lv its root ht sz]. split; [|exact HI].
      assert (Ln : length (l1 ++ (kc, t') :: l2) = length (root c)) by (rewrite El, !app_length; easy).
      constructor; cbn [lv its root ht sz fst snd]; [exact (e_G _ _ _ _ _ _ _ _ _ HI)| |lia|intros Z; specialize (H2 Z); lia|exact F1|exact F2].
      rewrite Ln. apply chain_app. exists m. split; [exact C1|]. cbn. split; [exact Hm|]. split; [|exact C2].
      split; [exact Hw|]. split; [|exact Z2]. rewrite Sm in Ec. destruct (small (ht c) (length (root c))); [auto|].
      right. rewrite orb_false_r in Ec. apply negb_true_iff, Nat.ltb_ge in Ec. exact Ec.
    - apply orb_false_iff in Ec as [Ec1 Ec2]. apply negb_false_iff, Nat.ltb_lt in Ec1. rewrite Sm in Ec2. rewrite Ec2 in *.
      assert (L2r : 2 <= length (root c)).
      { unfold small in Ec2. destruct (Nat.eqb_spec (ht c) 0); [|auto]. cbn in Ec2. apply Nat.eqb_neq in Ec2. lia. }
      assert (HG2 : G s' ([] ++ lvs (l1 ++ (kc, t') :: l2) ++ [])) by (rewrite app_nil_r; exact (e_G _ _ _ _ _ _ _ _ _ HI)).
      destruct (entries_fob cmp lmax nmax Hcmp Hlmax Hnmax (ht c) s' its' [] [] None kmax l1 kc t' l2 m HG2 C1 Hm Hw C2) as
        (p & ka & ta & kb & tb & q & s2 & its2 & y & Ep & Lp & Ef & HSm & _ & HCy & Hy).
      { destruct Hok as [[X|X] _]; [easy|]. specialize (Tm t). lia. }
      { destruct l1; [right|left; easy]. destruct l2; [rewrite El in L2r; cbn in L2r; lia|easy]. }
      cbn [app] in HSm. rewrite !app_nil_r in HSm.
      set (l3 := match y with inl t => p ++ (kb, t) :: q | inr (a, b, k) => p ++ (k, a) :: (kb, b) :: q end) in *.
      pose proof (ERA_SAME _ _ _ _ _ _ _ _ _ _ _ _ HI HSm) as HI2. destruct (Fin _ _ _ HI2) as [F1 F2].
      assert (Ln : length (l1 ++ (kc, t') :: l2) = length (root c)) by (rewrite El, !app_length; easy).
      assert (Ln3 : length l3 <= length (root c) <= S (length l3)).
      { rewrite <- Ln, Ep. unfold l3. destruct y as [?|[[? ?] ?]]; rewrite !app_length; cbn; lia. }
      assert (Hrf : root_fob cmp keqb kmax lmax nmax s' its' (l1 ++ (kc, t') :: l2) (length l1) = Some (s2, its2, l3)).
      { unfold root_fob. rewrite nth_error_mid. cbn [fst]. rewrite Hkeq.
        assert (Ej : (if eqv cmp kc kmax then length l1 - 1 else length l1) = length p /\ eqv cmp kc kmax && (length l1 =? 0) = false).
        { rewrite Lp. destruct l2 as [|e2 l2].
          - cbn in C2. injection C2 as ->. assert (X : eqv cmp kmax kmax = true) by (apply eqv_spec; split; now apply cmp_irr). rewrite X.
            split; [easy|]. cbn. apply Nat.eqb_neq. rewrite El, app_length in L2r. cbn in L2r. lia.
          - destruct (chain_hic _ Hcmp _ _ _ _ _ C2) as (h0 & [= <-] & X). cbn in X. unfold eqv. rewrite X. cbn. easy. }
        destruct Ej as [-> ->]. rewrite Ep. destruct (nth_two lmax nmax Hlmax Hnmax p (ka, ta) (kb, tb) q) as [-> ->]. cbn [fst snd]. rewrite Ef.
        destruct y as [ty|[[a b] k']]; rewrite lrem_mid, lset_mid; [easy|].
        rewrite map_insert_mid; [easy|]. eapply chain_SS; [exact Hcmp|exact HCy]. }
      rewrite Hrf. destruct (ht c) as [|h'] eqn:Eh.
      + eexists _, fl. split; [reflexivity|]. cbn [lv its root ht sz]. split; [|exact HI2].
        constructor; cbn [lv its root ht sz fst snd]; [exact (e_G _ _ _ _ _ _ _ _ _ HI2)| |lia|easy|exact F1|exact F2].
        now apply ent_weaken.
      + destruct (Nat.le_gt_cases 2 (length l3)) as [Hl|Hl].
        * destruct l3 as [|e3 [|e4 l4]] eqn:E3; [cbn in Hl; lia|cbn in Hl; lia|].
          assert (Em : match e3 with (k1, Leaf b) => None | (k1, Node l3) => @None (core * bool) end = None) by (destruct e3 as [? []]; easy).
          assert (Goal1 : exists c' fl0, Some ({| lv := s2; its := its2; root := e3 :: e4 :: l4; ht := S h'; sz := if fl then sz c - 1 else sz c |}, fl) = Some (c', fl0)
             /\ RI c' /\ ERA (lv c) (its c) (lvs (root c)) k (lv c') (its c') (lvs (root c')) fl0).
          { eexists _, fl. split; [reflexivity|]. cbn [lv its root ht sz]. split; [|exact HI2].
            constructor; cbn [lv its root ht sz fst snd]; [exact (e_G _ _ _ _ _ _ _ _ _ HI2)| |lia|lia|exact F1|exact F2].
            now apply ent_weaken. }
          destruct e3 as [k3 [b3|l5]]; exact Goal1.
        * destruct l3 as [|[k3 t3] [|]] eqn:E3; [cbn in Ln3; lia| |cbn in Hl; lia].
          cbn in HCy. destruct HCy as (_ & [W1 [[X|W2] W3]] & [= ->]); [easy|].
          destruct t3 as [b3|l5]; [easy|]. cbn in W1, W2, W3.
          assert (N5 : l5 <> []) by (intros ->; cbn in W2; lia).
          assert (Ek : eqv cmp kmax kmax = true) by (apply eqv_spec; split; now apply cmp_irr).
          assert (Elk : last_key l5 = Some kmax).
          { destruct (exists_last N5) as (l6 & [k6 t6] & ->). apply chain_snoc in W1. injection W1 as <-. apply last_key_app. }
          rewrite Elk, Hkeq, Ek. cbn [andb].
          rewrite fold_insert by (cbn [app]; eapply chain_SS; [exact Hcmp|exact W1]). cbn [app].
          assert (El5 : lvs [(kmax, Node l5)] = lvs l5) by (cbn; now rewrite app_nil_r). rewrite El5 in *.
          eexists _, fl. split; [reflexivity|]. cbn [lv its root ht sz]. split; [|exact HI2].
          constructor; cbn [lv its root ht sz fst snd]; [exact (e_G _ _ _ _ _ _ _ _ _ HI2)| |lia|lia|exact F1|exact F2].
          apply ent_weaken. exact W1.
  Qed.

  (** ** Lookup *)
  Lemma descend_ok (s : store) p h : forall t lo hi, wf s h lo hi t -> match t with Node l => l <> [] | Leaf _ => True end -> p hi = false -> okm p lo ->
    exists b A B, descend p h t = Some b /\ leaves t = A ++ b :: B
      /\ (forall e, In e (C s A) -> exists m, p m = true /\ cmp m (fst e) = false)
      /\ (forall e, In e (C s B) -> exists m, p m = false /\ cmp m (fst e) = true).
  Proof.
    induction h as [|h IH]; intros t lo hi HW HN Hp Hlo; destruct t as [b|l]; cbn [BtreeTree.wf] in HW; try easy.
    - exists b, [], []. cbn. repeat split; easy.
    - destruct (locate cmp _ p l lo hi HW HN Hp Hlo) as (l1 & k & t & l2 & m & -> & HL & Q1 & Q2 & [Q3 Qs] & Q4 & Q5 & Q6).
      assert (Hnt : match t with Node l => l <> [] | Leaf _ => True end).
      { destruct t as [|l]; [easy|]. destruct Qs as [[X|X] _]; [easy|]. cbn in X. pose proof (nmin2 lmax nmax Hlmax Hnmax).
        intros ->. cbn in X. lia. }
      destruct (IH t m k Q3 Hnt Q5 Q6) as (b & A & B & E1 & E2 & HA & HB).
      exists b, (lvs l1 ++ A), (B ++ lvs l2). cbn [descend]. rewrite HL, nth_error_mid. cbn [snd]. split; [easy|]. split.
      { cbn [leaves]. fold (lvs (l1 ++ (k, t) :: l2)). rewrite lvs_app, lvs_cons, E2, <- !app_assoc. easy. }
      split.
      + intros e He. rewrite C_app in He. apply in_app_iff in He as [He|He]; [|auto].
        destruct (ent_range cmp lmax nmax Hcmp false s h l1 _ _ Q1 e He) as [_ X]. destruct m as [a|]; [|easy]. exists a. easy.
      + intros e He. rewrite C_app in He. apply in_app_iff in He as [He|He]; [auto|].
        destruct (ent_range cmp lmax nmax Hcmp false s h l2 _ _ Q4 e He) as [X _]. exists k. easy.
  Qed.
End Root.
