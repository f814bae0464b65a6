(** The operations on inner nodes keep separators, sizes, and the order of leaves. *)
From Coq Require Import List Bool Arith Lia Sorting.Sorted.
From Verif Require Import OrderLib BtreeModel BtreeBase BtreeLeaf.
Import ListNotations.

Section Tree.
  Context {K V : Type}.
  Notation E := (K * V)%type.
  Notation store := (list (nat * @leaf K V)).
  Notation iter := (nat * nat)%type.
  Notation tree := (@tree K).
  Variable cmp keqb : K -> K -> bool.
  Variable kmax : K.
  Variable lmax nmax : nat.
  Variable alloc : store -> nat.
  Hypothesis Hcmp : strict_weak cmp.
  Hypothesis Hkeq : forall a b, keqb a b = eqv cmp a b.
  Hypothesis Halloc : forall s, lget s (alloc s) = None.
  Notation G := (G cmp).
  Notation INS := (INS cmp).
  Notation ERA := (ERA cmp).

  Fixpoint leaves (t : tree) : list nat :=
    match t with Leaf b => [b] | Node l => flat_map (fun e => leaves (snd e)) l end.
  Definition lvs (l : list (K * tree)) : list nat := flat_map (fun e => leaves (snd e)) l.
  Lemma lvs_app a b : lvs (a ++ b) = lvs a ++ lvs b. Proof. apply flat_map_app. Qed.
  Lemma lvs_cons k t r : lvs ((k, t) :: r) = leaves t ++ lvs r. Proof. easy. Qed.

  Definition tsz (s : store) (t : tree) : nat := match t with Leaf b => length (D s b) | Node l => length l end.
  Definition tmx (t : tree) : nat := match t with Leaf _ => lmax | Node _ => nmax end.
  Notation tmn := (@tmin K lmax nmax).
  Definition okc (sp : bool) (s : store) (t : tree) : Prop := (sp = true \/ tmn t <= tsz s t) /\ tsz s t <= tmx t.

  Definition above (lo : option K) (k : K) : Prop := match lo with None => True | Some a => cmp a k = true end.
  Definition below (hi : option K) (k : K) : Prop := match hi with None => False | Some a => cmp a k = false end.

  Fixpoint chain (P : option K -> K -> tree -> Prop) (lo hi : option K) (l : list (K * tree)) : Prop :=
    match l with
    | [] => lo = hi
    | (k, c) :: r => above lo k /\ P lo k c /\ chain P (Some k) hi r
    end.
  Fixpoint wf (s : store) (h : nat) (lo : option K) (hi : K) (t : tree) : Prop :=
    match h, t with
    | 0, Leaf b => forall e, In e (D s b) -> above lo (fst e) /\ cmp hi (fst e) = false
    | S h', Node l => chain (fun lo hi t => wf s h' lo hi t /\ okc false s t) lo (Some hi) l
    | _, _ => False
    end.
  Definition ent (sp : bool) (s : store) (h : nat) (lo : option K) (hi : K) (t : tree) : Prop := wf s h lo hi t /\ okc sp s t.

  Lemma above_trans lo a b : above lo a -> cmp a b = true -> above lo b.
  Proof. destruct lo; cbn; [|easy]. intros. eapply cmp_tr; eassumption. Qed.
  Lemma above_le lo a b : above lo a -> cmp b a = false -> above lo b.
  Proof. destruct lo; cbn; [|easy]. intros. eapply cmp_lt_le; eassumption. Qed.

  Lemma chain_app P a : forall lo hi b, chain P lo hi (a ++ b) <-> exists m, chain P lo m a /\ chain P m hi b.
  Proof.
    induction a as [|[k c] a IH]; intros lo hi b; cbn.
    - split; [intros H; now exists lo|intros (m & -> & H); easy].
    - rewrite IH. split; [intros (H1 & H2 & m & H3 & H4); exists m; tauto|].
      intros (m & (H1 & H2 & H3) & H4). repeat split; auto. now exists m.
  Qed.
  Lemma chain_mono (P Q : option K -> K -> tree -> Prop) l : forall lo hi,
    (forall lo k c, In (k, c) l -> P lo k c -> Q lo k c) -> chain P lo hi l -> chain Q lo hi l.
  Proof.
    induction l as [|[k c] l IH]; intros lo hi H; cbn; [easy|]. intros (H1 & H2 & H3).
    repeat split; [easy|apply H; [now left|easy]|]. apply IH; [|easy]. intros; apply H; [now right|easy].
  Qed.
  Lemma chain_hi P l : forall lo hi, l <> [] -> chain P lo hi l -> exists h, hi = Some h /\ above lo h.
  Proof.
    induction l as [|[k c] l IH]; intros lo hi N; cbn; [easy|]. intros (H1 & H2 & H3).
    destruct l as [|e l].
    - cbn in H3. subst hi. now exists k.
    - destruct (IH (Some k) hi ltac:(easy) H3) as (h & -> & H4). cbn in H4. exists h. split; [easy|]. eapply above_trans; eassumption.
  Qed.
  Lemma chain_hic P e l lo hi : chain P lo hi (e :: l) -> exists h, hi = Some h /\ above lo h.
  Proof. now apply chain_hi. Qed.
  Lemma chain_snoc P l k c : forall lo hi, chain P lo hi (l ++ [(k, c)]) -> hi = Some k.
  Proof. intros lo hi H. apply chain_app in H as (m & _ & H). cbn in H. destruct H as (_ & _ & H). easy. Qed.
  (** Keys are sorted. *)
  Lemma chain_keys P l : forall lo hi, chain P lo hi l -> forall k c, In (k, c) l -> above lo k /\ below hi k.
  Proof.
    induction l as [|[k c] l IH]; intros lo hi; cbn; [easy|]. intros (H1 & H2 & H3) k' c' [E|Hi].
    - injection E as <- <-. split; [easy|]. destruct l as [|e l].
      + cbn in H3. subst hi. cbn. now apply cmp_irr.
      + destruct (chain_hic _ _ _ _ _ H3) as (h & -> & H4). cbn in *. now apply cmp_as.
    - destruct (IH _ _ H3 _ _ Hi) as [H4 H5]. split; [|easy]. cbn in H4. eapply above_trans; eassumption.
  Qed.
  Lemma chain_SS P l : forall lo hi, chain P lo hi l -> SS cmp l.
  Proof.
    induction l as [|[k c] l IH]; intros lo hi; cbn; [intros; apply SS_nil|]. intros (H1 & H2 & H3).
    apply SS_cons. split; [|eapply IH; eassumption]. intros [k' c'] Hi. destruct (chain_keys _ _ _ _ H3 _ _ Hi) as [H4 _]. easy.
  Qed.

  (** The entry behind those with a downward closed property. *)
  Definition okm (p : K -> bool) (m : option K) : Prop := match m with None => True | Some a => p a = true end.
  Lemma locate P (p : K -> bool) l : forall lo hi, chain P lo (Some hi) l -> l <> [] -> p hi = false -> okm p lo ->
    exists l1 k c l2 m, l = l1 ++ (k, c) :: l2 /\ lead (fun e => p (fst e)) l = length l1
      /\ chain P lo m l1 /\ above m k /\ P m k c /\ chain P (Some k) (Some hi) l2 /\ p k = false /\ okm p m.
  Proof.
    induction l as [|[k c] l IH]; intros lo hi H N Hp Hlo; [easy|]. cbn in H. destruct H as (H1 & H2 & H3). cbn [lead fst].
    destruct (p k) eqn:Ek.
    - destruct l as [|e l]; [cbn in H3; congruence|].
      destruct (IH (Some k) hi H3 ltac:(easy) Hp Ek) as (l1 & k' & c' & l2 & m & -> & HL & Q1 & Q2 & Q3 & Q4 & Q5 & Q6).
      exists ((k, c) :: l1), k', c', l2, m. cbn [length app]. rewrite HL. repeat split; auto.
    - exists [], k, c, l, lo. cbn. repeat split; auto.
  Qed.

  (** ** Frame: only the content of the leaves of a tree matters *)
  Lemma in_lvs k c l b : In (k, c) l -> In b (leaves c) -> In b (lvs l).
  Proof. intros H1 H2. unfold lvs. apply in_flat_map. exists (k, c). auto. Qed.
  Lemma tsz_ext s s' t : (forall b, In b (leaves t) -> D s' b = D s b) -> tsz s' t = tsz s t.
  Proof. destruct t; cbn; [|easy]. intros H. now rewrite H by auto. Qed.
  Lemma okc_ext sp s s' t : (forall b, In b (leaves t) -> D s' b = D s b) -> okc sp s t -> okc sp s' t.
  Proof. intros H. unfold okc. now rewrite (tsz_ext s s'). Qed.
  Lemma wf_ext s s' h : forall lo hi t, (forall b, In b (leaves t) -> D s' b = D s b) -> wf s h lo hi t -> wf s' h lo hi t.
  Proof.
    induction h as [|h IH]; intros lo hi t H; destruct t as [b|l]; cbn; auto.
    - rewrite H by (cbn; auto). easy.
    - apply chain_mono. intros lo' k c Hi [H1 H2].
      assert (X : forall b, In b (leaves c) -> D s' b = D s b) by (intros b Hb; apply H; eapply in_lvs; eassumption).
      split; [now apply IH|now apply (okc_ext false s s')].
  Qed.
  Lemma ent_ext sp s s' h l lo hi : (forall b, In b (lvs l) -> D s' b = D s b) -> chain (ent sp s h) lo hi l -> chain (ent sp s' h) lo hi l.
  Proof.
    intros H. apply chain_mono. intros lo' k c Hi [H1 H2].
    assert (X : forall b, In b (leaves c) -> D s' b = D s b) by (intros b Hb; apply H; eapply in_lvs; eassumption).
    split; [eapply wf_ext|eapply okc_ext]; eassumption.
  Qed.
  Lemma ent_weaken sp s h l lo hi : chain (ent false s h) lo hi l -> chain (ent sp s h) lo hi l.
  Proof. apply chain_mono. intros lo' k c _ [H1 [[H2|H2] H3]]; [easy|]. split; [easy|]. split; auto. Qed.

  (** ** Keys in a subtree *)
  Lemma wf_range s h : forall lo hi t, wf s h lo hi t -> forall e, In e (C s (leaves t)) -> above lo (fst e) /\ cmp hi (fst e) = false.
  Proof.
    induction h as [|h IH]; intros lo hi t H e He; destruct t as [b|l]; cbn [wf] in H; try easy.
    - apply H. cbn in He. now rewrite app_nil_r in He.
    - cbn [leaves] in He. clear -IH H He Hcmp. revert lo H. induction l as [|[k c] l IHl]; intros lo H; [easy|].
      cbn in H. destruct H as (H1 & [H2 _] & H3). cbn [flat_map snd] in He. rewrite C_app in He. apply in_app_iff in He as [He|He].
      + destruct (IH _ _ _ H2 e He) as [Q1 Q2]. split; [easy|].
        destruct l as [|y l]; [cbn in H3; congruence|].
        destruct (chain_hic _ _ _ _ _ H3) as (h' & [= <-] & Q3). cbn in Q3.
        apply (cmp_le_tr _ Hcmp _ k); [easy|now apply cmp_as].
      + destruct (IHl He _ H3) as [Q1 Q2]. split; [|easy]. cbn in Q1. eapply above_trans; eassumption.
  Qed.
  Lemma ent_range sp s h l : forall lo hi, chain (ent sp s h) lo hi l -> forall e, In e (C s (lvs l)) -> above lo (fst e) /\ below hi (fst e).
  Proof.
    induction l as [|[k c] l IHl]; intros lo hi H e He; [easy|].
    cbn in H. destruct H as (H1 & [H2 _] & H3). rewrite lvs_cons, C_app in He. apply in_app_iff in He as [He|He].
    - destruct (wf_range _ _ _ _ _ H2 e He) as [Q1 Q2]. split; [easy|].
      destruct l as [|y l]; [cbn in H3; subst hi; easy|].
      destruct (chain_hic _ _ _ _ _ H3) as (h' & -> & Q3). cbn in Q3. cbn.
      apply (cmp_le_tr _ Hcmp _ k); [easy|now apply cmp_as].
    - destruct (IHl _ _ H3 e He) as [Q1 Q2]. split; [|easy]. cbn in Q1. eapply above_trans; eassumption.
  Qed.

  (** ** Splitting entries *)
  Lemma node_split_ok P l lo hi : chain P lo (Some hi) l -> 2 <= length l ->
    exists a b k, node_split l = Some (a, b, k) /\ l = a ++ b /\ length a = length l / 2
      /\ chain P lo (Some k) a /\ chain P (Some k) (Some hi) b /\ above lo k /\ cmp k hi = true /\ last_key b = Some hi.
  Proof.
    intros H L. assert (Hh : 1 <= length l / 2) by (apply Nat.div_le_lower_bound; lia).
    assert (Hh2 : length l / 2 < length l) by (apply Nat.div_lt; lia).
    destruct (split_at l (length l / 2) ltac:(lia)) as (a & b & E & La & Fa & Sb).
    destruct (nth_last l (length l / 2) ltac:(lia)) as (a' & [k c] & Ea & En). rewrite Fa in Ea.
    exists a, b, k. unfold node_split. rewrite En, Fa, Sb. split; [easy|]. split; [easy|]. split; [easy|].
    rewrite E in H. apply chain_app in H as (m & H1 & H2).
    rewrite Ea in H1. pose proof (chain_snoc _ _ _ _ _ _ H1) as ->. rewrite <- Ea in H1. split; [easy|]. split; [easy|].
    assert (Nb : b <> []). { intros ->. rewrite app_nil_r in E. rewrite E in Hh2, La. lia. }
    split.
    - destruct (chain_hi _ a _ _ ltac:(rewrite Ea; now destruct a') H1) as (h & [= <-] & X). easy.
    - destruct (chain_hi _ _ _ _ Nb H2) as (h & [= <-] & X). split; [easy|].
      destruct (exists_last Nb) as (b' & [kb cb] & ->). apply chain_snoc in H2. injection H2 as <-. apply last_key_app.
  Qed.

  (** ** Insertion into one of a list of entries *)
  Definition ins_ok (h : nat) : Prop := forall t lo hi s its A B x,
    G s (A ++ leaves t ++ B) -> wf s h lo hi t -> tsz s t <= tmx t -> above lo (fst x) -> cmp hi (fst x) = false -> cmp kmax hi = false ->
    (forall e, In e (C s A) -> cmp (fst e) (fst x) = true) -> (forall e, In e (C s B) -> cmp (fst x) (fst e) = true) ->
    exists s' its' t' sp fl M, tree_insert cmp kmax lmax nmax alloc h t s its x = Some (s', its', t', sp, fl)
      /\ INS s its (A ++ leaves t ++ B) x s' its' (A ++ M ++ B) fl /\ (forall y, In y A \/ In y B -> D s' y = D s y)
      /\ ((sp = (kmax, None) /\ M = leaves t' /\ wf s' h lo hi t' /\ tsz s t <= tsz s' t' <= tmx t' /\ tmn t' = tmn t)
          \/ exists k1 t1, sp = (k1, Some t1) /\ M = leaves t1 ++ leaves t' /\ above lo k1 /\ cmp k1 hi = true
               /\ wf s' h lo k1 t1 /\ okc false s' t1 /\ wf s' h (Some k1) hi t' /\ okc false s' t').

  Lemma entries_insert h sp l lo hi s its A B x : ins_ok h ->
    G s (A ++ lvs l ++ B) -> chain (ent sp s h) lo (Some hi) l -> l <> [] -> above lo (fst x) -> cmp hi (fst x) = false -> cmp kmax hi = false ->
    (forall e, In e (C s A) -> cmp (fst e) (fst x) = true) -> (forall e, In e (C s B) -> cmp (fst x) (fst e) = true) ->
    exists i kc c s' its' c' spl fl M l', lower cmp l (fst x) = i /\ nth_error l i = Some (kc, c)
      /\ tree_insert cmp kmax lmax nmax alloc h c s its x = Some (s', its', c', spl, fl)
      /\ INS s its (A ++ lvs l ++ B) x s' its' (A ++ M ++ B) fl /\ (forall y, In y A \/ In y B -> D s' y = D s y)
      /\ M = lvs l' /\ chain (ent sp s' h) lo (Some hi) l'
      /\ ((spl = (kmax, None) /\ l' = lset l i (kc, c') /\ length l' = length l)
          \/ exists k1 t1, spl = (k1, Some t1) /\ l' = lins (lset l i (kc, c')) i (k1, t1) /\ length l' = S (length l)
               /\ eqv cmp kmax k1 = false /\ cmp k1 kc = true /\ nth_error (lset l i (kc, c')) i = Some (kc, c')
               /\ lower cmp (lset l i (kc, c')) k1 = i /\ okc false s' t1 /\ okc false s' c').
  Proof.
    intros IH HG HC N Hlo Hhi Hmax HA HB.
    destruct (locate _ (fun a => cmp a (fst x)) l lo hi HC N Hhi) as (l1 & kc & c & l2 & m & El & HL & Q1 & Q2 & Q3 & Q4 & Q5 & Q6).
    { destruct lo; easy. }
    subst l. destruct Q3 as [Qw Qs].
    assert (Hkc : cmp hi kc = false).
    { destruct (chain_keys _ _ _ _ HC kc c) as [_ X]; [rewrite in_app_iff; cbn; auto|easy]. }
    assert (Hkm : cmp kmax kc = false) by (eapply cmp_le_tr; eassumption).
    assert (EqL : A ++ lvs (l1 ++ (kc, c) :: l2) ++ B = (A ++ lvs l1) ++ leaves c ++ (lvs l2 ++ B)).
    { rewrite lvs_app, lvs_cons, <- !app_assoc. easy. }
    rewrite EqL in *.
    destruct (IH c m kc s its (A ++ lvs l1) (lvs l2 ++ B) x HG Qw (proj2 Qs)) as
      (s' & its' & c' & spl & fl & M & E1 & HI & HF & HR); auto.
    { intros e He. rewrite C_app in He. apply in_app_iff in He as [He|He]; [auto|].
      destruct (ent_range _ _ _ _ _ _ Q1 e He) as [_ X]. destruct m as [a|]; [|easy]. cbn in X. cbn in Q6. eapply cmp_le_lt; eassumption. }
    { intros e He. rewrite C_app in He. apply in_app_iff in He as [He|He]; [|auto].
      destruct (ent_range _ _ _ _ _ _ Q4 e He) as [X _]. cbn in X. eapply cmp_le_lt; eassumption. }
    assert (HF1 : forall b, In b (lvs l1) -> D s' b = D s b) by (intros; apply HF; rewrite in_app_iff; auto).
    assert (HF2 : forall b, In b (lvs l2) -> D s' b = D s b) by (intros; apply HF; rewrite !in_app_iff; auto).
    exists (length l1), kc, c, s', its', c', spl, fl.
    rewrite lset_mid. rewrite nth_error_mid.
    destruct HR as [(Esp & EM & Hw & Hz & Hmn)|(k1 & t1 & Esp & EM & Hk1 & Hk2 & Hw1 & Hs1 & Hw2 & Hs2)].
    - exists (lvs (l1 ++ (kc, c') :: l2)), (l1 ++ (kc, c') :: l2).
      split; [exact HL|]. split; [easy|]. split; [easy|]. split.
      { replace (A ++ lvs (l1 ++ (kc, c') :: l2) ++ B) with ((A ++ lvs l1) ++ M ++ (lvs l2 ++ B)); [easy|].
        rewrite lvs_app, lvs_cons, EM, <- !app_assoc. easy. }
      split. { intros y Hy. apply HF. rewrite !in_app_iff. tauto. }
      split; [easy|]. split.
      { apply chain_app. exists m. split; [now apply (ent_ext sp s s')|]. cbn. repeat split; auto.
        - destruct Qs as [[X|X] _]; [auto|right; lia].
        - lia.
        - now apply (ent_ext sp s s'). }
      left. repeat split; [easy|]. rewrite !app_length. easy.
    - exists (lvs (l1 ++ (k1, t1) :: (kc, c') :: l2)), (l1 ++ (k1, t1) :: (kc, c') :: l2).
      split; [exact HL|]. split; [easy|]. split; [easy|]. split.
      { replace (A ++ lvs (l1 ++ (k1, t1) :: (kc, c') :: l2) ++ B) with ((A ++ lvs l1) ++ M ++ (lvs l2 ++ B)); [easy|].
        rewrite lvs_app, !lvs_cons, EM, <- !app_assoc. easy. }
      split. { intros y Hy. apply HF. rewrite !in_app_iff. tauto. }
      split; [easy|].
      assert (XC : chain (ent sp s' h) lo (Some hi) (l1 ++ (k1, t1) :: (kc, c') :: l2)).
      { apply chain_app. exists m. split; [now apply (ent_ext sp s s')|]. cbn.
        assert (Hs1' := Hs1). assert (Hs2' := Hs2). destruct Hs1' as [[X1|X1] X2]; [easy|]. destruct Hs2' as [[Y1|Y1] Y2]; [easy|].
        repeat split; auto. now apply (ent_ext sp s s'). }
      split; [exact XC|].
      right. exists k1, t1. rewrite lins_mid. repeat match goal with |- _ /\ _ => split end; auto.
      + rewrite !app_length. cbn. lia.
      + assert (cmp k1 kmax = true) by (eapply cmp_lt_le; eassumption). unfold eqv. rewrite H. now rewrite orb_true_r.
      + apply nth_error_mid.
      + apply lower_unique.
        * intros [k2 c2] Hi. apply chain_SS in XC. apply SS_app in XC as (_ & _ & XC). apply (XC (k2, c2) (k1, t1)); [easy|now left].
        * intros [k2 c2] Hi. apply chain_SS in XC. apply SS_app in XC as (_ & XC & _). apply SS_cons in XC as [XC _].
          apply cmp_as; [easy|]. now apply (XC (k2, c2)).
  Qed.

  Hypothesis Hlmax : 4 <= lmax.
  Hypothesis Hnmax : 4 <= nmax.

  Lemma tree_insert_ok h : ins_ok h.
  Proof.
    induction h as [|h IH]; intros t lo hi s its A B x HG HW HZ Hlo Hhi Hmax HA HB; destruct t as [b|l]; cbn [wf] in HW; try easy.
    - cbn [leaves tsz tmx] in *.
      destruct (leaf_insert_ok cmp kmax lmax alloc Hcmp Halloc Hlmax s its A b B x HG HZ HA HB) as
        (s' & its' & sp & fl & M & E1 & HI & HF & HR).
      cbn [tree_insert]. rewrite E1.
      eexists s', its', (Leaf b), _, fl, M. split; [reflexivity|]. split; [exact HI|]. split; [exact HF|].
      destruct HR as [(-> & -> & Hz & Hin)|(k & nb & -> & -> & Z1 & Z2 & K1 & K2 & Hin & e0 & He0 & Ek)].
      + left. cbn. repeat split; auto; try lia.
        * destruct (Hin e H) as [X|X]; [now apply HW|now subst].
        * destruct (Hin e H) as [X|X]; [now apply HW|now subst].
      + right. exists k, (Leaf nb). cbn [fst snd].
        assert (Hr : forall e, In e (D s b) \/ e = x -> above lo (fst e) /\ cmp hi (fst e) = false).
        { intros e [He|He]; [now apply HW|now subst]. }
        assert (lmin2 : 2 <= lmin lmax) by (unfold lmin; apply Nat.div_le_lower_bound; lia).
        split; [easy|]. split; [easy|]. split; [subst k; now apply Hr|]. split.
        { destruct (D s' b) as [|y r] eqn:Ed; [cbn in Z2; lia|].
          apply (cmp_lt_le _ Hcmp _ (fst y)); [apply K2; now left|]. apply Hr, Hin. right. now left. }
        split. { cbn. intros e He. split; [apply Hr, Hin; auto|auto]. }
        split; [split; [right|]; cbn; lia|].
        split. { cbn. intros e He. split; [auto|apply Hr, Hin; auto]. }
        split; [right|]; cbn; lia.
    - cbn [leaves tsz tmx] in *. fold (lvs l) in *.
      assert (Nl : l <> []).
      { intros ->. cbn in HW. subst lo. cbn in Hlo. congruence. }
      destruct (entries_insert h false l lo hi s its A B x IH HG HW Nl Hlo Hhi Hmax HA HB) as
        (i & kc & c & s' & its' & c' & spl & fl & M & l' & HL & Hn & E1 & HI & HF & EM & HC & HR).
      cbn [tree_insert]. apply Nat.leb_le in HZ as HZ'. rewrite HZ'. rewrite HL, Hn. cbn [fst snd]. rewrite E1.
      destruct HR as [(Esp & El & Hlen)|(k1 & t1 & Esp & El & Hlen & Hkm & Hkc & Hni & Hlo' & _ & _)].
      + subst spl. cbn [fst]. assert (X : eqv cmp kmax kmax = true) by (apply eqv_spec; split; now apply cmp_irr). rewrite X.
        eexists s', its', _, _, fl, M. split; [reflexivity|]. split; [exact HI|]. split; [exact HF|].
        left. split; [easy|]. rewrite <- El. cbn [leaves]. fold (lvs l'). split; [easy|]. split; [exact HC|]. cbn. lia.
      + subst spl. cbn [fst snd]. rewrite Hkm. unfold node_insert. rewrite Hni. cbn [fst].
        rewrite Hkc, orb_true_r. rewrite <- El.
        destruct (Nat.leb_spec (length l') nmax) as [HN|HN].
        * eexists s', its', _, _, fl, M. split; [reflexivity|]. split; [exact HI|]. split; [exact HF|].
          left. cbn [fst snd leaves]. fold (lvs l'). repeat split; auto; cbn; lia.
        * destruct (node_split_ok _ l' lo hi HC ltac:(lia)) as (a & b & k & Es & Eab & La & Ca & Cb & Hk1 & Hk2 & _).
          rewrite Es. eexists s', its', _, _, fl, M. split; [reflexivity|]. split; [exact HI|]. split; [exact HF|].
          right. exists k, (Node a). cbn [fst snd leaves]. fold (lvs a) (lvs b).
          split; [easy|]. split; [now rewrite EM, Eab, lvs_app|]. split; [easy|]. split; [easy|].
          assert (Hl' : length l' = S nmax) by lia.
          assert (Hab : length a + length b = S nmax) by (rewrite <- Hl', Eab, app_length; easy).
          assert (Hh : nmin nmax <= length a /\ length a <= length b).
          { rewrite La, Hl'. unfold nmin. split; [apply Nat.div_le_mono; lia|].
            rewrite Hl' in La. pose proof (Nat.div_mod (S nmax) 2 ltac:(lia)).
            pose proof (Nat.mod_upper_bound (S nmax) 2 ltac:(lia)). lia. }
          assert (n2 : 2 <= nmin nmax) by (unfold nmin; apply Nat.div_le_lower_bound; lia).
          split; [exact Ca|]. split; [split; [right|]; cbn; lia|]. split; [exact Cb|]. split; [right|]; cbn; lia.
  Qed.

  (** ** Fusing or balancing two neighbours *)
  Record SAME (s : store) (its : list iter) (bs : list nat) (s' : store) (its' : list iter) (bs' : list nat) : Prop := {
    s_G : G s' bs';
    s_C : C s' bs' = C s bs;
    s_eff : Eff s its bs s' its' bs' Some;
    s_len : length its' = length its }.
  Lemma SAME_refl s its bs : G s bs -> SAME s its bs s its bs.
  Proof. intros HG. constructor; auto. intros j it n n' Hj Hp [= <-]. eauto. Qed.
  Lemma ERA_SAME s its bs k s1 its1 bs1 fl s2 its2 bs2 : ERA s its bs k s1 its1 bs1 fl -> SAME s1 its1 bs1 s2 its2 bs2 ->
    ERA s its bs k s2 its2 bs2 fl.
  Proof.
    intros [G1 F1 C1 E1 L1] [G2 C2 E2 L2]. constructor; auto.
    - now rewrite C2.
    - eapply Eff_trans; [exact E1|exact E2|]. intros n n' Hn. eauto.
    - congruence.
  Qed.

  Lemma lmin2 : 2 <= lmin lmax.
  Proof. unfold lmin. apply Nat.div_le_lower_bound; lia. Qed.
  Lemma nmin2 : 2 <= nmin nmax.
  Proof. unfold nmin. apply Nat.div_le_lower_bound; lia. Qed.

  Lemma node_balance_ok P l r lo k1 hi : chain P lo (Some k1) l -> chain P (Some k1) (Some hi) r ->
    nmax < length l + length r -> length l <= nmax -> length r <= nmax -> l <> [] -> r <> [] ->
    length l < nmin nmax \/ length r < nmin nmax ->
    exists a b k, node_balance cmp nmax l r true = Some (a, b, k) /\ a ++ b = l ++ r /\ chain P lo (Some k) a /\ chain P (Some k) (Some hi) b
      /\ nmin nmax <= length a <= nmax /\ nmin nmax <= length b <= nmax /\ above lo k /\ cmp k hi = true.
  Proof.
    intros Hl Hr Hbig Ll Lr Nl Nr Hund. pose proof nmin2 as N2.
    assert (HC : chain P lo (Some hi) (l ++ r)) by (apply chain_app; eauto).
    unfold node_balance. cbv zeta.
    rewrite (in_order_ok cmp l r Nl Nr (chain_SS _ _ _ _ HC)). cbn [negb orb].
    set (nl := (length l + length r) / 2). set (nr := length l + length r - nl).
    assert (Hnl : nmin nmax <= nl) by (unfold nl, nmin; apply Nat.div_le_mono; lia).
    assert (Hnr : nl <= nr /\ nr <= S nl).
    { unfold nr, nl. pose proof (Nat.div_mod (length l + length r) 2 ltac:(lia)).
      pose proof (Nat.mod_upper_bound (length l + length r) 2 ltac:(lia)). lia. }
    assert (Htot : nl + nr = length l + length r).
    { unfold nr. assert (nl <= length l + length r) by (unfold nl; apply Nat.div_le_upper_bound; lia). lia. }
    clearbody nr. assert (Hmin2 : 2 * nmin nmax <= nmax) by (unfold nmin; apply Nat.mul_div_le; lia).
    clearbody nl.
    assert (Cond : (nl <=? nmax) && (nmin nmax <=? nl) && (nr <=? nmax) && (nmin nmax <=? nr) && true = true).
    { rewrite !andb_true_iff, !Nat.leb_le. lia. }
    rewrite Cond. clear Cond.
    assert (X : exists a b, (if nl <? length l then Some (firstn nl l, skipn nl l ++ r)
               else if nr <? length r then Some (l ++ firstn (length r - nr) r, skipn (length r - nr) r)
               else None) = Some (a, b) /\ a ++ b = l ++ r /\ length a = nl /\ length b = nr).
    { destruct (Nat.ltb_spec nl (length l)) as [H1|H1].
      - eexists _, _. split; [reflexivity|]. split; [now rewrite app_assoc, firstn_skipn|].
        rewrite app_length, skipn_length, firstn_length. lia.
      - destruct (Nat.ltb_spec nr (length r)) as [H2|H2]; [|lia].
        eexists _, _. split; [reflexivity|]. split; [now rewrite <- app_assoc, firstn_skipn|].
        rewrite app_length, skipn_length, firstn_length. lia. }
    destruct X as (a & b & -> & Eab & La & Lb). cbn [fst snd].
    assert (Na : a <> []) by (intros X; rewrite X in La; cbn in La; lia).
    assert (Nb : b <> []) by (intros X; rewrite X in Lb; cbn in Lb; lia).
    rewrite <- Eab in HC. apply chain_app in HC as (m & Ca & Cb).
    destruct (exists_last Na) as (a' & [k c] & Ea). rewrite Ea in Ca. pose proof (chain_snoc _ _ _ _ _ _ Ca) as ->. rewrite <- Ea in Ca.
    assert (LKa : last_key a = Some k) by (rewrite Ea; apply last_key_app). rewrite LKa.
    exists a, b, k. repeat split; auto; try lia.
    - destruct (chain_hi _ _ _ _ Na Ca) as (h & [= <-] & X). easy.
    - destruct (chain_hi _ _ _ _ Nb Cb) as (h & [= <-] & X). easy.
  Qed.

  Definition yleaves (y : tree + tree * tree * K) : list nat :=
    match y with inl t => leaves t | inr (a, c, _) => leaves a ++ leaves c end.
  Lemma fob_ok h s its A B lo k1 hi tl tr :
    G s (A ++ (leaves tl ++ leaves tr) ++ B) -> wf s h lo k1 tl -> wf s h (Some k1) hi tr -> above lo k1 -> cmp k1 hi = true ->
    1 <= tsz s tl <= tmx tl -> 1 <= tsz s tr <= tmx tr ->
    (tsz s tl < tmn tl /\ tmn tr <= tsz s tr \/ tsz s tr < tmn tr /\ tmn tl <= tsz s tl) ->
    exists s' its' y, fob cmp lmax nmax s its tl tr = Some (s', its', y)
      /\ SAME s its (A ++ (leaves tl ++ leaves tr) ++ B) s' its' (A ++ yleaves y ++ B) /\ (forall b, In b A \/ In b B -> D s' b = D s b)
      /\ match y with
         | inl t => wf s' h lo hi t /\ okc false s' t
         | inr (a, c, k) => above lo k /\ cmp k hi = true /\ wf s' h lo k a /\ okc false s' a /\ wf s' h (Some k) hi c /\ okc false s' c
         end.
  Proof.
    intros HG Hl Hr Hlo Hhi Zl Zr Hund.
    destruct h as [|h]; destruct tl as [bl|l]; try easy; destruct tr as [br|r]; try easy; cbn [leaves tsz tmx tmin] in *.
    - change (A ++ ([bl] ++ [br]) ++ B) with (A ++ bl :: br :: B) in *.
      assert (X1 := HG). apply G_at in X1.
      assert (X2 : lget s br = Some {| ld := D s br; lp := Some bl; ln := hdo B None |}).
      { assert (HG' := HG). replace (A ++ bl :: br :: B) with ((A ++ [bl]) ++ br :: B) in HG' by now rewrite <- app_assoc.
        apply G_at in HG'. now rewrite lsto_snoc in HG'. }
      unfold fob. rewrite X1, X2. cbn [ld].
      cbn [wf] in Hl, Hr.
      assert (Rng : forall e, In e (D s bl ++ D s br) -> above lo (fst e) /\ cmp hi (fst e) = false).
      { intros e He. apply in_app_iff in He as [He|He].
        - destruct (Hl e He) as [Q1 Q2]. split; [easy|]. apply (cmp_le_tr _ Hcmp _ k1); [easy|now apply cmp_as].
        - destruct (Hr e He) as [Q1 Q2]. split; [|easy]. cbn in Q1. eapply above_trans; eassumption. }
      destruct (Nat.leb_spec (length (D s bl) + length (D s br)) lmax) as [Hf|Hf].
      + destruct (leaf_fuse_ok cmp lmax Hlmax s its A bl br B HG) as (s' & its' & E1 & HG' & Dr & HF & HCc & HE & HL).
        rewrite E1. eexists s', its', _. split; [reflexivity|]. split; [now constructor|]. split; [easy|].
        split.
        * cbn. rewrite Dr. exact Rng.
        * split; [right|]; cbn; rewrite Dr, app_length; lia.
      + destruct (leaf_balance_ok cmp lmax Hcmp Hlmax s its A bl br B HG Hf ltac:(lia) ltac:(lia) ltac:(tauto)) as
          (s' & its' & k & E1 & HG' & Dlr & S1 & S2 & HF & HCc & HE & HL & K1 & K2 & e0 & He0 & Ek).
        rewrite E1. eexists s', its', _. split; [reflexivity|]. split; [now constructor|]. split; [easy|].
        cbn [snd]. rewrite <- Dlr in Rng.
        pose proof lmin2 as M2.
        split; [|split; [|split; [|split; [|split]]]].
        * rewrite <- Ek. apply Rng. rewrite in_app_iff. auto.
        * destruct (D s' br) as [|y0 r0] eqn:Ed; [cbn in S2; lia|].
          apply (cmp_lt_le _ Hcmp _ (fst y0)); [apply K2; now left|]. apply Rng. rewrite in_app_iff. right. now left.
        * cbn. intros e He. split; [apply Rng; rewrite in_app_iff; auto|auto].
        * split; [right|]; cbn; lia.
        * cbn. intros e He. split; [auto|apply Rng; rewrite in_app_iff; auto].
        * split; [right|]; cbn; lia.
    - fold (lvs l) (lvs r) in *. cbn [wf] in Hl, Hr. unfold fob.
      assert (Nl : l <> []) by (intros ->; cbn in Zl; lia). assert (Nr : r <> []) by (intros ->; cbn in Zr; lia).
      assert (HCh : chain (fun lo hi t => wf s h lo hi t /\ okc false s t) lo (Some hi) (l ++ r)) by (apply chain_app; eauto).
      destruct (Nat.leb_spec (length l + length r) nmax) as [Hf|Hf].
      + unfold node_fuse. rewrite (in_order_ok cmp l r Nl Nr (chain_SS _ _ _ _ HCh)).
        eexists s, its, _. split; [reflexivity|]. split; [|split; [easy|]].
        * cbn [yleaves leaves]. fold (lvs (l ++ r)). rewrite lvs_app. now apply SAME_refl.
        * split; [exact HCh|]. split; [right|]; cbn; rewrite app_length; lia.
      + destruct (node_balance_ok _ l r lo k1 hi Hl Hr Hf ltac:(lia) ltac:(lia) Nl Nr ltac:(tauto)) as
          (a & b & k & E1 & Eab & Ca & Cb & Za & Zb & Hk1 & Hk2).
        rewrite E1. eexists s, its, _. split; [reflexivity|]. split; [|split; [easy|]].
        * cbn [yleaves leaves]. fold (lvs a) (lvs b). rewrite <- (lvs_app a b), Eab, lvs_app. now apply SAME_refl.
        * split; [easy|]. split; [easy|]. split; [exact Ca|]. split; [split; [right|]; cbn; lia|]. split; [exact Cb|]. split; [right|]; cbn; lia.
  Qed.

  (** A list of entries with one that is too small. *)
  Lemma entries_fob h s its A B lo hi l1 kc c l2 m :
    G s (A ++ lvs (l1 ++ (kc, c) :: l2) ++ B) -> chain (ent false s h) lo m l1 -> above m kc -> wf s h m kc c ->
    chain (ent false s h) (Some kc) (Some hi) l2 -> 1 <= tsz s c < tmn c -> l1 <> [] \/ l2 <> [] ->
    exists p ka ta kb tb q s' its' y, l1 ++ (kc, c) :: l2 = p ++ (ka, ta) :: (kb, tb) :: q
      /\ length p = (match l2 with [] => length l1 - 1 | _ => length l1 end)
      /\ fob cmp lmax nmax s its ta tb = Some (s', its', y)
      /\ SAME s its (A ++ lvs (l1 ++ (kc, c) :: l2) ++ B) s' its'
              (A ++ lvs (match y with inl t => p ++ (kb, t) :: q | inr (a, b, k) => p ++ (k, a) :: (kb, b) :: q end) ++ B)
      /\ (forall b, In b A \/ In b B -> D s' b = D s b)
      /\ chain (ent false s' h) lo (Some hi) (match y with inl t => p ++ (kb, t) :: q | inr (a, b, k) => p ++ (k, a) :: (kb, b) :: q end)
      /\ match y with inl _ => True | inr (_, _, k) => cmp k kb = true end.
  Proof.
    intros HG H1 Hm Hw H2 Hsz Hne. pose proof lmin2 as L2. pose proof nmin2 as N2.
    assert (HS : forall sp t, okc sp s t -> tsz s t <= tmx t) by (intros ? ? []; easy).
    assert (Tm : forall t, 2 <= tmn t) by (intros [b|l]; cbn; lia).
    assert (Tmx : forall t, tmn t <= tmx t) by (intros [b|l]; cbn; unfold lmin, nmin; apply Nat.div_le_upper_bound; lia).
    (* the two neighbours *)
    assert (X : exists p ka ta kb tb q m', l1 ++ (kc, c) :: l2 = p ++ (ka, ta) :: (kb, tb) :: q
      /\ length p = (match l2 with [] => length l1 - 1 | _ => length l1 end)
      /\ chain (ent false s h) lo m' p /\ above m' ka /\ wf s h m' ka ta /\ cmp ka kb = true /\ wf s h (Some ka) kb tb
      /\ chain (ent false s h) (Some kb) (Some hi) q /\ 1 <= tsz s ta <= tmx ta /\ 1 <= tsz s tb <= tmx tb
      /\ (tsz s ta < tmn ta /\ tmn tb <= tsz s tb \/ tsz s tb < tmn tb /\ tmn ta <= tsz s ta)).
    { destruct l2 as [|[k2 c2] l2].
      - destruct (exists_last (l := l1)) as (p & [ka ta] & El); [tauto|]. subst l1.
        pose proof (chain_snoc _ _ _ _ _ _ H1) as Em. subst m. apply chain_app in H1 as (m' & H1 & H1'). cbn in H1'.
        destruct H1' as (Q1 & [Q2 [[Q3|Q3] Q3']] & _); [easy|].
        exists p, ka, ta, kc, c, [], m'. rewrite app_length, <- app_assoc. cbn [length app].
        specialize (Tm ta). specialize (Tmx c). repeat split; auto; try lia.
      - cbn in H2. destruct H2 as (Q1 & [Q2 [[Q3|Q3] Q3']] & Q4); [easy|].
        exists l1, kc, c, k2, c2, l2, m. specialize (Tm c2). specialize (Tmx c). repeat split; auto; try lia. }
    destruct X as (p & ka & ta & kb & tb & q & m' & El & Lp & Cp & Ha & Wa & Hab & Wb & Cq & Za & Zb & Hund).
    rewrite El in HG |- *.
    assert (EqL : A ++ lvs (p ++ (ka, ta) :: (kb, tb) :: q) ++ B = (A ++ lvs p) ++ (leaves ta ++ leaves tb) ++ (lvs q ++ B)).
    { rewrite lvs_app, !lvs_cons, <- !app_assoc. easy. }
    rewrite EqL in *.
    destruct (fob_ok h s its (A ++ lvs p) (lvs q ++ B) m' ka kb ta tb HG Wa Wb Ha Hab Za Zb Hund) as (s' & its' & y & E1 & HSm & HF & HY).
    exists p, ka, ta, kb, tb, q, s', its', y. split; [easy|]. split; [easy|]. split; [easy|].
    assert (HF1 : forall b, In b (lvs p) -> D s' b = D s b) by (intros; apply HF; rewrite in_app_iff; auto).
    assert (HF2 : forall b, In b (lvs q) -> D s' b = D s b) by (intros; apply HF; rewrite !in_app_iff; auto).
    assert (Cp' := ent_ext false s s' h p lo m' HF1 Cp). assert (Cq' := ent_ext false s s' h q _ _ HF2 Cq).
    split; [|split; [intros b Hb; apply HF; rewrite !in_app_iff; tauto|]].
    - destruct y as [t|[[a b] k]]; cbn [yleaves] in HSm.
      + replace (A ++ lvs (p ++ (kb, t) :: q) ++ B) with ((A ++ lvs p) ++ leaves t ++ lvs q ++ B); [easy|].
        rewrite lvs_app, lvs_cons, <- !app_assoc. easy.
      + replace (A ++ lvs (p ++ (k, a) :: (kb, b) :: q) ++ B) with ((A ++ lvs p) ++ (leaves a ++ leaves b) ++ lvs q ++ B); [easy|].
        rewrite lvs_app, !lvs_cons, <- !app_assoc. easy.
    - destruct y as [t|[[a b] k]].
      + destruct HY as [Y1 Y2]. split; [|easy]. apply chain_app. exists m'. split; [easy|]. cbn.
        split; [eapply above_trans; eassumption|]. split; [now split|easy].
      + destruct HY as (Y1 & Y2 & Y3 & Y4 & Y5 & Y6). split; [|easy]. apply chain_app. exists m'. split; [easy|]. cbn.
        repeat (split; [first [easy|now split]|]). easy.
  Qed.

  Definition era_ok (h : nat) : Prop := forall t lo hi s its A B k,
    G s (A ++ leaves t ++ B) -> wf s h lo hi t -> okc false s t \/ (h = 0 /\ A = [] /\ B = [] /\ okc true s t) ->
    above lo k -> cmp hi k = false ->
    (forall e, In e (C s A) -> cmp (fst e) k = true) -> (forall e, In e (C s B) -> cmp k (fst e) = true) ->
    exists s' its' t' fl, tree_erase cmp keqb lmax nmax h t s its k = Some (s', its', t', fl)
      /\ ERA s its (A ++ leaves t ++ B) k s' its' (A ++ leaves t' ++ B) fl /\ (forall y, In y A \/ In y B -> D s' y = D s y)
      /\ wf s' h lo hi t' /\ tsz s t <= tsz s' t' + 1 /\ tsz s' t' <= tmx t' /\ tmn t' = tmn t.

  Lemma underflows_ok s h lo hi t A B : G s (A ++ leaves t ++ B) -> wf s h lo hi t ->
    underflows lmax nmax s t = Some (tsz s t <? tmn t).
  Proof.
    intros HG HW. unfold underflows. destruct t as [b|l]; cbn [tsize tsz]; [|easy].
    cbn in HG. apply G_at in HG. rewrite HG. easy.
  Qed.

  Lemma entries_erase h sp l lo hi s its A B k : era_ok h ->
    G s (A ++ lvs l ++ B) -> chain (ent sp s h) lo (Some hi) l -> l <> [] -> above lo k -> cmp hi k = false ->
    (sp = true -> h = 0 /\ A = [] /\ B = [] /\ length l = 1) ->
    (forall e, In e (C s A) -> cmp (fst e) k = true) -> (forall e, In e (C s B) -> cmp k (fst e) = true) ->
    exists l1 kc c l2 m s' its' c' fl, l = l1 ++ (kc, c) :: l2 /\ lower cmp l k = length l1
      /\ tree_erase cmp keqb lmax nmax h c s its k = Some (s', its', c', fl)
      /\ ERA s its (A ++ lvs l ++ B) k s' its' (A ++ lvs (l1 ++ (kc, c') :: l2) ++ B) fl /\ (forall y, In y A \/ In y B -> D s' y = D s y)
      /\ chain (ent sp s' h) lo m l1 /\ above m kc /\ wf s' h m kc c' /\ chain (ent sp s' h) (Some kc) (Some hi) l2
      /\ tsz s c <= tsz s' c' + 1 /\ tsz s' c' <= tmx c' /\ tmn c' = tmn c /\ okc sp s c
      /\ underflows lmax nmax s' c' = Some (tsz s' c' <? tmn c').
  Proof.
    intros IH HG HC N Hlo Hhi Hsp HA HB.
    destruct (locate _ (fun a => cmp a k) l lo hi HC N Hhi) as (l1 & kc & c & l2 & m & El & HL & Q1 & Q2 & Q3 & Q4 & Q5 & Q6).
    { destruct lo; easy. }
    subst l. destruct Q3 as [Qw Qs].
    assert (EqL : forall c, A ++ lvs (l1 ++ (kc, c) :: l2) ++ B = (A ++ lvs l1) ++ leaves c ++ (lvs l2 ++ B)).
    { intros c0. rewrite lvs_app, lvs_cons, <- !app_assoc. easy. }
    rewrite EqL in HG.
    destruct (IH c m kc s its (A ++ lvs l1) (lvs l2 ++ B) k HG Qw) as
      (s' & its' & c' & fl & E1 & HI & HF & Hw & Hz1 & Hz2 & Hmn); auto.
    { destruct sp; [|auto]. right. destruct (Hsp eq_refl) as (-> & -> & -> & X). rewrite app_length in X. cbn in X.
      destruct l1; [|cbn in X; lia]. destruct l2; [|cbn in X; lia]. auto. }
    { intros e He. rewrite C_app in He. apply in_app_iff in He as [He|He]; [auto|].
      destruct (ent_range _ _ _ _ _ _ Q1 e He) as [_ X]. destruct m as [a|]; [|easy]. cbn in X. cbn in Q6. eapply cmp_le_lt; eassumption. }
    { intros e He. rewrite C_app in He. apply in_app_iff in He as [He|He]; [|auto].
      destruct (ent_range _ _ _ _ _ _ Q4 e He) as [X _]. cbn in X. eapply cmp_le_lt; eassumption. }
    assert (HF1 : forall b, In b (lvs l1) -> D s' b = D s b) by (intros; apply HF; rewrite in_app_iff; auto).
    assert (HF2 : forall b, In b (lvs l2) -> D s' b = D s b) by (intros; apply HF; rewrite !in_app_iff; auto).
    exists l1, kc, c, l2, m, s', its', c', fl. rewrite !EqL.
    split; [easy|]. split; [exact HL|]. split; [easy|]. split; [easy|].
    split. { intros y Hy. apply HF. rewrite !in_app_iff. tauto. }
    split; [now apply (ent_ext sp s s')|]. split; [easy|]. split; [easy|]. split; [now apply (ent_ext sp s s')|].
    repeat (split; [easy|]). eapply underflows_ok; [exact (e_G _ _ _ _ _ _ _ _ _ HI)|exact Hw].
  Qed.

  Lemma nth_two {X} (p : list X) a b q : nth_error (p ++ a :: b :: q) (length p) = Some a /\ nth_error (p ++ a :: b :: q) (S (length p)) = Some b.
  Proof.
    split; [apply nth_error_mid|]. replace (p ++ a :: b :: q) with ((p ++ [a]) ++ b :: q) by now rewrite <- app_assoc.
    replace (S (length p)) with (length (p ++ [a])) by (rewrite app_length; cbn; lia). apply nth_error_mid.
  Qed.

  Lemma node_fob_ok h s its A B lo hi l1 kc c l2 m :
    G s (A ++ lvs (l1 ++ (kc, c) :: l2) ++ B) -> chain (ent false s h) lo m l1 -> above m kc -> wf s h m kc c ->
    chain (ent false s h) (Some kc) (Some hi) l2 -> 1 <= tsz s c < tmn c -> l1 <> [] \/ l2 <> [] ->
    exists s' its' l', node_fob cmp lmax nmax s its (l1 ++ (kc, c) :: l2) (length l1) = Some (s', its', l')
      /\ SAME s its (A ++ lvs (l1 ++ (kc, c) :: l2) ++ B) s' its' (A ++ lvs l' ++ B)
      /\ (forall b, In b A \/ In b B -> D s' b = D s b)
      /\ chain (ent false s' h) lo (Some hi) l'
      /\ length l' <= length (l1 ++ (kc, c) :: l2) <= S (length l').
  Proof.
    intros HG H1 Hm Hw H2 Hsz Hne.
    destruct (entries_fob h s its A B lo hi l1 kc c l2 m HG H1 Hm Hw H2 Hsz Hne) as
      (p & ka & ta & kb & tb & q & s' & its' & y & El & Lp & E1 & HS & HF & HC & HY).
    assert (Ej : (if length l1 =? length (l1 ++ (kc, c) :: l2) - 1 then length l1 - 1 else length l1) = length p).
    { rewrite Lp, app_length. cbn. destruct l2 as [|e l2]; cbn.
      - destruct (Nat.eqb_spec (length l1) (length l1 + 1 - 1)); lia.
      - destruct (Nat.eqb_spec (length l1) (length l1 + S (S (length l2)) - 1)); lia. }
    assert (Eg : (length l1 =? length (l1 ++ (kc, c) :: l2) - 1) && (length l1 =? 0) = false).
    { apply andb_false_iff. destruct l1; [|auto]. left. destruct l2; [tauto|]. apply Nat.eqb_neq. cbn. lia. }
    unfold node_fob. cbv zeta. rewrite Ej, Eg. rewrite El in *.
    destruct (nth_two p (ka, ta) (kb, tb) q) as [-> ->]. cbn [fst snd]. rewrite E1.
    destruct y as [t|[[a b] k]].
    - rewrite lrem_mid, lset_mid. eexists s', its', _. split; [reflexivity|]. repeat (split; [easy|]). rewrite !app_length. cbn. lia.
    - rewrite HY, lset_mid, lset_mid2. eexists s', its', _. split; [reflexivity|]. repeat (split; [easy|]). rewrite !app_length. cbn. lia.
  Qed.

  Lemma tree_erase_ok h : era_ok h.
  Proof.
    induction h as [|h IH]; intros t lo hi s its A B k HG HW HZ Hlo Hhi HA HB; destruct t as [b|l]; cbn [wf] in HW; try easy.
    - cbn [leaves tsz tmx] in *. pose proof lmin2 as L2.
      destruct (leaf_erase_ok cmp keqb lmax Hcmp Hkeq Hlmax s its A b B k HG) as (s' & its' & fl & E1 & HI & HF & Hlen & Hin); auto.
      { destruct HZ as [[[X|X] _]|(_ & -> & -> & _)]; [easy|left; cbn in X; lia|auto]. }
      cbn [tree_erase]. rewrite E1. exists s', its', (Leaf b), fl. split; [easy|]. split; [exact HI|]. split; [exact HF|].
      cbn [wf tsz tmx tmin]. split; [intros e He; apply HW; auto|].
      assert (length (D s b) <= lmax) by (destruct HZ as [[_ X]|(_ & _ & _ & [_ X])]; exact X).
      destruct fl; repeat split; lia.
    - cbn [leaves tsz tmx] in *. fold (lvs l) in *.
      destruct HZ as [[[X|Z1] Z2]|X]; [easy| |destruct X; lia]. cbn in Z1, Z2. pose proof nmin2 as N2. pose proof lmin2 as L2.
      assert (Nl : l <> []) by (intros ->; cbn in Z1; lia).
      destruct (entries_erase h false l lo hi s its A B k IH HG HW Nl Hlo Hhi ltac:(easy) HA HB) as
        (l1 & kc & c & l2 & m & s' & its' & c' & fl & El & HL & E1 & HI & HF & C1 & Hm & Hw & C2 & Hz1 & Hz2 & Hmn & Hok & Hu).
      cbn [tree_erase]. rewrite HL. subst l. rewrite nth_error_mid. cbn [fst snd].
      rewrite app_length in Z1, Z2. cbn in Z1, Z2.
      assert (X : 2 <= length (l1 ++ (kc, c) :: l2)) by (rewrite app_length; cbn; lia). apply Nat.leb_le in X. rewrite X. clear X.
      rewrite E1, lset_mid, Hu.
      assert (Tm : forall t, 2 <= tmn t) by (intros [b|l]; cbn; lia).
      destruct (Nat.ltb_spec (tsz s' c') (tmn c')) as [HU|HU].
      + assert (HG' := e_G _ _ _ _ _ _ _ _ _ HI).
        destruct (node_fob_ok h s' its' A B lo hi l1 kc c' l2 m HG' C1 Hm Hw C2) as (s2 & its2 & l' & E2 & HS & HF2 & HC & HLn).
        { destruct Hok as [[X|X] _]; [easy|]. specialize (Tm c). lia. }
        { destruct l1; [right|left; easy]. destruct l2; [cbn in Z1; lia|easy]. }
        rewrite E2. exists s2, its2, (Node l'), fl. split; [easy|]. cbn [leaves]. fold (lvs l').
        split; [eapply ERA_SAME; eassumption|]. split; [intros y Hy; rewrite HF2, HF; auto|].
        split; [exact HC|]. cbn [tsz tmx tmin]. rewrite app_length in *. cbn in HLn. cbn. lia.
      + exists s', its', (Node (l1 ++ (kc, c') :: l2)), fl. split; [easy|]. cbn [leaves]. fold (lvs (l1 ++ (kc, c') :: l2)).
        split; [easy|]. split; [easy|]. split.
        { cbn [wf]. apply chain_app. exists m. split; [exact C1|]. cbn. repeat split; auto. }
        cbn [tsz tmx tmin]. rewrite !app_length. cbn. lia.
  Qed.

  (** ** The number of elements in a subtree *)
  Lemma wf_count s h : forall lo hi t, wf s h lo hi t -> okc false s t -> lmin lmax * nmin nmax ^ h <= length (C s (leaves t)).
  Proof.
    induction h as [|h IH]; intros lo hi t HW [[X|HZ] _]; try easy; destruct t as [b|l]; try easy; cbn [wf tsz tmin leaves] in *.
    - cbn. rewrite app_nil_r. lia.
    - fold (lvs l).
      assert (X : length l * (lmin lmax * nmin nmax ^ h) <= length (C s (lvs l))).
      { clear HZ. revert lo HW. induction l as [|[k c] l IHl]; intros lo HW; [cbn; lia|].
        cbn in HW. destruct HW as (_ & [W1 W2] & W3). rewrite lvs_cons, C_app, app_length.
        specialize (IHl _ W3). specialize (IH _ _ _ W1 W2). cbn [length Nat.mul]. lia. }
      cbn [Nat.pow]. etransitivity; [|exact X]. rewrite Nat.mul_assoc, (Nat.mul_comm (lmin lmax)), <- Nat.mul_assoc.
      now apply Nat.mul_le_mono_r.
  Qed.
  Lemma ent_count s h l : forall lo hi, chain (ent false s h) lo hi l -> length l * (lmin lmax * nmin nmax ^ h) <= length (C s (lvs l)).
  Proof.
    induction l as [|[k c] l IHl]; intros lo hi HW; [cbn; lia|].
    cbn in HW. destruct HW as (_ & [W1 W2] & W3). rewrite lvs_cons, C_app, app_length.
    specialize (IHl _ _ W3). pose proof (wf_count _ _ _ _ _ W1 W2). cbn [length Nat.mul]. lia.
  Qed.
End Tree.
