(** Lookup, iterators, assignment, and clearing: every result as a position in the sequence of elements. *)
From Coq Require Import List Bool Arith Lia Sorting.Sorted.
From Verif Require Import OrderLib BtreeModel BtreeBase BtreeLeaf BtreeTree BtreeRoot.
Import ListNotations.

Section Iter.
  Context {K V : Type}.
  Notation E := (K * V)%type.
  Notation store := (list (nat * @leaf K V)).
  Notation iter := (nat * nat)%type.
  Notation tree := (@tree K).
  Notation core := (@core K V).
  Variable cmp keqb : K -> K -> bool.
  Variable kmax : K.
  Variable lmax nmax ncap : nat.
  Variable alloc : store -> nat.
  Hypothesis Hcmp : strict_weak cmp.
  Hypothesis Hkeq : forall a b, keqb a b = eqv cmp a b.
  Hypothesis Halloc : forall s, lget s (alloc s) = None.
  Hypothesis Hlmax : 4 <= lmax.
  Hypothesis Hnmax : 4 <= nmax.
  Notation G := (G cmp).
  Notation RI := (RI cmp kmax lmax nmax).
  Notation ent := (ent cmp lmax nmax).
  Notation wf := (wf cmp lmax nmax).
  Notation chain := (chain cmp).

  Lemma pts_bs (s : store) bs it n : pts (vw s bs) it n <-> exists A B, bs = A ++ fst it :: B /\ n = length (C s A) + snd it
    /\ (snd it < length (D s (fst it)) \/ B = [] /\ snd it = length (D s (fst it))).
  Proof.
    split.
    - intros (v1 & d & v2 & E1 & -> & H). unfold vw in E1. apply map_eq_app in E1 as (A & B & -> & <- & E2).
      destruct B as [|b B]; [easy|]. cbn in E2. injection E2 as Eb Ed E2. subst b. subst d. exists A, B.
      fold (vw s A). fold (vw s A) in H. rewrite vw_cc. repeat split; auto.
      destruct H as [H|[H1 H2]]; [auto|]. right. split; [|easy]. destruct B; [easy|]. subst v2. easy.
    - intros (A & B & -> & -> & H). exists (vw s A), (D s (fst it)), (vw s B). rewrite vw_app. cbn. rewrite vw_cc.
      repeat split; auto. destruct H as [H|[-> H]]; [auto|]. right. easy.
  Qed.

  Lemma to_leaf_ok (c : core) p : RI c -> p kmax = false ->
    exists b A B, to_leaf p c = Some b /\ lvs (root c) = A ++ b :: B
      /\ (forall e, In e (C (lv c) A) -> exists m, p m = true /\ cmp m (fst e) = false)
      /\ (forall e, In e (C (lv c) B) -> exists m, p m = false /\ cmp m (fst e) = true).
  Proof.
    intros [HG HC HL H2 HS _] Hp.
    assert (N : root c <> []) by (intros X; rewrite X in HL; cbn in HL; lia).
    destruct (locate cmp _ p (root c) None kmax HC N Hp I) as (l1 & k & t & l2 & m & El & HLe & Q1 & Q2 & [Q3 Qs] & Q4 & Q5 & Q6).
    assert (Hnt : match t with Node l => l <> [] | Leaf _ => True end).
    { destruct t as [|l]; [easy|]. destruct (ht c) eqn:Eh; [easy|].
      destruct Qs as [[X|X] _]; [easy|]. cbn in X. pose proof (nmin2 lmax nmax Hlmax Hnmax). intros ->. cbn in X. lia. }
    destruct (descend_ok cmp lmax nmax Hcmp Hlmax Hnmax (lv c) p (ht c) t m k Q3 Hnt Q5 Q6) as (b & A & B & E1 & E2 & HA & HB).
    exists b, (lvs l1 ++ A), (B ++ lvs l2). unfold to_leaf. rewrite HLe, El, nth_error_mid. cbn [snd]. split; [easy|]. split.
    { rewrite lvs_app, lvs_cons, E2, <- !app_assoc. easy. }
    split.
    - intros e He. rewrite C_app in He. apply in_app_iff in He as [He|He]; [|auto].
      destruct (ent_range cmp lmax nmax Hcmp _ _ _ l1 _ _ Q1 e He) as [_ X]. destruct m as [a|]; [|easy]. exists a. easy.
    - intros e He. rewrite C_app in He. apply in_app_iff in He as [He|He]; [auto|].
      destruct (ent_range cmp lmax nmax Hcmp _ _ _ l2 _ _ Q4 e He) as [X _]. exists k. easy.
  Qed.

  Lemma norm_ok (c : core) A b B p l : RI c -> lvs (root c) = A ++ b :: B -> lget (lv c) b = Some l -> p <= length (D (lv c) b) ->
    pts (cv c) (norm b l p) (length (C (lv c) A) + p).
  Proof.
    intros [HG _ _ _ _ _] El Hl Hp. assert (HG' := HG). rewrite El in HG'.
    pose proof (G_at _ _ _ _ _ HG') as X. rewrite Hl in X. injection X as ->. unfold norm. cbn [ln ld].
    apply pts_bs. destruct B as [|b' B]; cbn [hdo].
    - exists A, []. cbn [fst snd]. repeat split; auto. apply Nat.lt_eq_cases in Hp as [Hp|Hp]; auto.
    - destruct (Nat.eqb_spec p (length (D (lv c) b))) as [->|N].
      + exists (A ++ [b]), B. cbn [fst snd]. split; [now rewrite El, <- app_assoc|].
        split; [rewrite C_app, app_length; cbn; rewrite app_nil_r; lia|].
        destruct (g_ne _ _ _ HG b') as [Y|Y].
        * rewrite El, in_app_iff. cbn. auto.
        * left. destruct (D (lv c) b'); [easy|cbn; lia].
        * rewrite El in Y. apply (f_equal (@length nat)) in Y. rewrite app_length in Y. cbn in Y. lia.
      + exists A, (b' :: B). cbn [fst snd]. repeat split; auto. lia.
  Qed.

  Lemma end_ok (c : core) : RI c -> exists it, end_it c = Some it /\ pts (cv c) it (length (cc c)).
  Proof. intros []. easy. Qed.

  Lemma cc_split (c : core) A b B : lvs (root c) = A ++ b :: B -> cc c = C (lv c) A ++ D (lv c) b ++ C (lv c) B.
  Proof. intros H. unfold cc. now rewrite H, C_app, C_cons. Qed.

  Lemma lower_at (c : core) k b A B : lvs (root c) = A ++ b :: B ->
    (forall e, In e (C (lv c) A) -> exists m, cmp m k = true /\ cmp m (fst e) = false) ->
    (forall e, In e (C (lv c) B) -> exists m, cmp m k = false /\ cmp m (fst e) = true) ->
    (forall e, In e (C (lv c) A) -> cmp (fst e) k = true) /\ (forall e, In e (C (lv c) B) -> cmp k (fst e) = true).
  Proof.
    intros El HA HB. split; intros e He.
    - destruct (HA e He) as (m & M1 & M2). eapply cmp_le_lt; eassumption.
    - destruct (HB e He) as (m & M1 & M2). eapply cmp_le_lt; eassumption.
  Qed.

  Lemma find_ok (c : core) k : RI c -> cmp kmax k = false ->
    exists it, find cmp keqb c k = Some it /\ pts (cv c) it (if has cmp (cc c) k then lower cmp (cc c) k else length (cc c)).
  Proof.
    intros HR Hk. destruct (to_leaf_ok c (fun a => cmp a k) HR Hk) as (b & A & B & E1 & El & HA & HB).
    destruct (lower_at c k b A B El HA HB) as [HA' HB'].
    assert (HG := r_G _ _ _ _ _ HR). rewrite El in HG. pose proof (G_at _ _ _ _ _ HG) as Hb.
    pose proof (g_sorted _ _ _ HG) as HS. rewrite C_app, C_cons in HS.
    assert (HSd : SS cmp (D (lv c) b)) by (apply SS_app in HS as (_ & X & _); now apply SS_app in X as (X & _)).
    destruct (has_mid cmp Hcmp (C (lv c) A) (D (lv c) b) (C (lv c) B) k HA' HB' HSd) as [HLow HHas].
    rewrite <- (cc_split _ _ _ _ El) in HLow, HHas.
    unfold find. rewrite E1, Hb. cbn [ld]. rewrite HHas.
    assert (EH : match nth_error (D (lv c) b) (lower cmp (D (lv c) b) k) with Some e => keqb (fst e) k | None => false end = has cmp (D (lv c) b) k).
    { unfold has. destruct (nth_error _ _); [apply Hkeq|easy]. }
    rewrite EH. destruct (has cmp (D (lv c) b) k) eqn:Eh.
    - eexists. split; [reflexivity|]. rewrite HLow. apply has_lt in Eh.
      apply pts_bs. exists A, B. cbn [fst snd]. auto.
    - destruct (end_ok c HR) as (it & X1 & X2). exists it. easy.
  Qed.

  Lemma lower_bound_ok (c : core) k : RI c -> cmp kmax k = false ->
    exists it, lower_bound cmp c k = Some it /\ pts (cv c) it (lower cmp (cc c) k).
  Proof.
    intros HR Hk. destruct (to_leaf_ok c (fun a => cmp a k) HR Hk) as (b & A & B & E1 & El & HA & HB).
    destruct (lower_at c k b A B El HA HB) as [HA' HB'].
    assert (HG := r_G _ _ _ _ _ HR). rewrite El in HG. pose proof (G_at _ _ _ _ _ HG) as Hb.
    pose proof (g_sorted _ _ _ HG) as HS. rewrite C_app, C_cons in HS.
    assert (HSd : SS cmp (D (lv c) b)) by (apply SS_app in HS as (_ & X & _); now apply SS_app in X as (X & _)).
    destruct (has_mid cmp Hcmp (C (lv c) A) (D (lv c) b) (C (lv c) B) k HA' HB' HSd) as [HLow _].
    rewrite <- (cc_split _ _ _ _ El) in HLow.
    unfold lower_bound. rewrite E1, Hb. eexists. split; [reflexivity|]. rewrite HLow. cbn [ld].
    apply (norm_ok c A b B); [exact HR|exact El|exact Hb|]. apply lower_le.
  Qed.

  Lemma upper_bound_ok (c : core) k : RI c -> cmp k kmax = true ->
    exists it, upper_bound cmp c k = Some it /\ pts (cv c) it (upper cmp (cc c) k).
  Proof.
    intros HR Hk. destruct (to_leaf_ok c (fun a => negb (cmp k a)) HR) as (b & A & B & E1 & El & HA & HB).
    { now rewrite Hk. }
    assert (HG := r_G _ _ _ _ _ HR). rewrite El in HG. pose proof (G_at _ _ _ _ _ HG) as Hb.
    pose proof (g_sorted _ _ _ HG) as HS. rewrite C_app, C_cons in HS.
    assert (HSd : SS cmp (D (lv c) b)) by (apply SS_app in HS as (_ & X & _); now apply SS_app in X as (X & _)).
    destruct (upper_split cmp Hcmp _ k HSd) as (d1 & d2 & Ed & Eu & Q1 & Q2).
    unfold upper_bound. rewrite E1, Hb. eexists. split; [reflexivity|]. cbn [ld].
    assert (HU : upper cmp (cc c) k = length (C (lv c) A) + upper cmp (D (lv c) b) k).
    { rewrite Eu, (cc_split _ _ _ _ El), Ed, <- app_length.
      replace (C (lv c) A ++ (d1 ++ d2) ++ C (lv c) B) with ((C (lv c) A ++ d1) ++ (d2 ++ C (lv c) B)) by now rewrite <- !app_assoc.
      apply upper_unique.
      - intros e He. apply in_app_iff in He as [He|He]; [|auto].
        destruct (HA e He) as (m & M1 & M2). apply negb_true_iff in M1.
        destruct (cmp k (fst e)) eqn:Ek; [|easy]. rewrite (cmp_lt_le _ Hcmp _ _ _ Ek M2) in M1. easy.
      - intros e He. apply in_app_iff in He as [He|He]; [auto|].
        destruct (HB e He) as (m & M1 & M2). apply negb_false_iff in M1. eapply cmp_tr; eassumption. }
    rewrite HU. apply (norm_ok c A b B); [exact HR|exact El|exact Hb|]. rewrite Eu, Ed, app_length. lia.
  Qed.

  Lemma first_leaf_ok (s : store) h : forall lo hi t, wf s h lo hi t -> match t with Node l => 2 <= length l | Leaf _ => True end ->
    exists b B, first_leaf h t = Some b /\ leaves t = b :: B.
  Proof.
    induction h as [|h IH]; intros lo hi t HW HN; destruct t as [b|l]; cbn [BtreeTree.wf] in HW; try easy.
    - exists b, []. easy.
    - destruct l as [|[k t] l]; [cbn in HN; lia|]. cbn in HW. destruct HW as (_ & [W1 [[W2|W2] _]] & _); [easy|].
      destruct (IH _ _ _ W1) as (b & B & E1 & E2).
      { destruct t; [easy|]. cbn in W2. pose proof (nmin2 lmax nmax Hlmax Hnmax). lia. }
      cbn [first_leaf]. apply Nat.ltb_lt in HN. rewrite HN, orb_true_r. cbn [nth_error snd]. rewrite E1.
      cbn [leaves flat_map snd]. rewrite E2. cbn. eauto.
  Qed.
  Lemma begin_ok (c : core) : RI c -> exists it, begin c = Some it /\ pts (cv c) it 0.
  Proof.
    intros [HG HC HL H2 HS _]. unfold begin.
    destruct (root c) as [|[k t] r] eqn:Er; [cbn in HL; lia|]. cbn [nth_error snd].
    cbn in HC. destruct HC as (_ & [W1 W2] & _).
    destruct (first_leaf_ok _ _ _ _ _ W1) as (b & B & E1 & E2).
    { destruct t; [easy|]. destruct (ht c) eqn:Eh; [easy|]. destruct W2 as [[X|X] _]; [easy|]. cbn in X.
      pose proof (nmin2 lmax nmax Hlmax Hnmax). lia. }
    rewrite E1. rewrite lvs_cons, E2 in HG. cbn [app] in HG.
    pose proof (G_at cmp (lv c) [] b (B ++ lvs r) HG) as X. rewrite X.
    eexists. split; [reflexivity|]. apply pts_bs. exists [], (B ++ lvs r). cbn [fst snd]. rewrite Er, lvs_cons, E2. repeat split.
    destruct (g_ne _ _ _ HG b (or_introl eq_refl)) as [Y|Y].
    - left. destruct (D (lv c) b); [easy|cbn; lia].
    - injection Y as Y. rewrite Y. destruct (D (lv c) b); [auto|left; cbn; lia].
  Qed.

  Lemma it_eqb_ok (c : core) a b n m : RI c -> pts (cv c) a n -> pts (cv c) b m -> it_eqb a b = (n =? m).
  Proof.
    intros HR Ha Hb. assert (HG := r_G _ _ _ _ _ HR).
    destruct (Nat.eqb_spec n m) as [<-|N].
    - rewrite (pts_unique _ a b n (G_nonempties _ _ _ HG) (G_last_ne _ _ _ HG) Ha Hb). unfold it_eqb. now rewrite !Nat.eqb_refl.
    - destruct (it_eqb a b) eqn:Ee; [|easy]. unfold it_eqb in Ee. apply andb_true_iff in Ee as [E1 E2].
      apply Nat.eqb_eq in E1, E2. exfalso. apply N. assert (a = b) by (destruct a, b; cbn in *; congruence). subst b.
      apply (pts_fun (cv c) a); [|easy|easy]. unfold cv. rewrite vw_fst. apply (g_nodup _ _ _ HG).
  Qed.

  Lemma incr_ok (c : core) it n : RI c -> pts (cv c) it n -> n < length (cc c) -> exists it', incr c it = Some it' /\ pts (cv c) it' (S n).
  Proof.
    intros HR Hp Hn. unfold incr. destruct (end_ok c HR) as (e & -> & He).
    rewrite (it_eqb_ok c _ _ _ _ HR Hp He). destruct (Nat.eqb_spec n (length (cc c))); [lia|].
    apply pts_bs in Hp as (A & B & El & En & Hs).
    assert (HG := r_G _ _ _ _ _ HR). rewrite El in HG. pose proof (G_at _ _ _ _ _ HG) as Hb. rewrite Hb. cbn [ld ln].
    assert (Hlt : snd it < length (D (lv c) (fst it))).
    { destruct Hs as [Hs|[-> Hs]]; [easy|]. exfalso. rewrite (cc_split _ _ _ _ El), !app_length in Hn. cbn in Hn. lia. }
    destruct (Nat.eqb_spec (snd it) (length (D (lv c) (fst it)))); [lia|].
    pose proof (norm_ok c A (fst it) B (S (snd it)) _ HR El Hb ltac:(lia)) as X.
    unfold norm in X. cbn [ln ld] in X. replace (length (C (lv c) A) + S (snd it)) with (S n) in X by lia.
    destruct (hdo B None) as [b'|]; [destruct (S (snd it) =? length (D (lv c) (fst it)))|]; eauto.
  Qed.
  Lemma decr_ok (c : core) it n : RI c -> pts (cv c) it (S n) -> exists it', decr c it = Some it' /\ pts (cv c) it' n.
  Proof.
    intros HR Hp. apply pts_bs in Hp as (A & B & El & En & Hs).
    assert (HG := r_G _ _ _ _ _ HR). rewrite El in HG. pose proof (G_at _ _ _ _ _ HG) as Hb. unfold decr. rewrite Hb. cbn [ld lp].
    destruct it as [b [|q]]; cbn [fst snd] in *.
    - destruct A as [|x A] using rev_ind; [cbn in En; lia|]. clear IHA. rewrite lsto_snoc.
      assert (HG' := HG). rewrite <- app_assoc in HG'. cbn [app] in HG'. pose proof (G_at _ _ _ _ _ HG') as Hx. rewrite Hx. cbn [ld].
      assert (Nx : D (lv c) x <> []).
      { destruct (g_ne _ _ _ HG x) as [Y|Y]; [rewrite !in_app_iff; cbn; auto|easy|].
        apply (f_equal (@length nat)) in Y. rewrite !app_length in Y. cbn in Y. lia. }
      destruct (Nat.eqb_spec (length (D (lv c) x)) 0) as [Z|Z]; [destruct (D (lv c) x); easy|].
      eexists. split; [reflexivity|]. apply pts_bs. exists A, (b :: B). cbn [fst snd].
      split; [now rewrite El, <- app_assoc|]. rewrite C_app, app_length in En. cbn in En. rewrite app_nil_r in En. lia.
    - eexists. split; [reflexivity|]. apply pts_bs. exists A, B. cbn [fst snd]. repeat split; auto; [lia|].
      left. destruct Hs as [Hs|[_ Hs]]; lia.
  Qed.
  Lemma deref_ok (c : core) it n : RI c -> pts (cv c) it n -> n < length (cc c) -> deref c it = nth_error (cc c) n.
  Proof.
    intros HR Hp Hn. apply pts_bs in Hp as (A & B & El & En & Hs).
    assert (HG := r_G _ _ _ _ _ HR). rewrite El in HG. pose proof (G_at _ _ _ _ _ HG) as Hb. unfold deref. rewrite Hb. cbn [ld].
    rewrite (cc_split _ _ _ _ El) in *. rewrite nth_error_app2 by lia. rewrite En.
    replace (length (C (lv c) A) + snd it - length (C (lv c) A)) with (snd it) by lia.
    destruct Hs as [Hs|[-> Hs]]; [now rewrite nth_error_app1|].
    rewrite !app_length in Hn. cbn in Hn. lia.
  Qed.

  (** ** Changing a value *)
  Lemma lset_app {A} (a b d : list A) i x : i < length d -> lset (a ++ d ++ b) (length a + i) x = a ++ lset d i x ++ b.
  Proof.
    intros H. destruct (nth_error d i) as [y|] eqn:Ey; [|apply nth_error_None in Ey; lia].
    apply nth_error_split in Ey as (d1 & d2 & -> & <-). rewrite lset_mid.
    replace (a ++ (d1 ++ y :: d2) ++ b) with ((a ++ d1) ++ y :: (d2 ++ b)) by (rewrite <- !app_assoc; easy).
    rewrite <- app_length, lset_mid, <- !app_assoc. easy.
  Qed.
  Lemma SS_keys (l l' : list E) : map fst l = map fst l' -> SS cmp l -> SS cmp l'.
  Proof.
    revert l'. induction l as [|x l IH]; intros [|y l'] H; try easy. cbn in H. injection H as H1 H2.
    intros HS. apply SS_cons in HS as [HS1 HS2]. apply SS_cons. split; [|now apply IH].
    intros z Hz. apply (in_map fst) in Hz. rewrite <- H2 in Hz. apply in_map_iff in Hz as (w & E1 & E2).
    rewrite <- H1, <- E1. now apply HS1.
  Qed.
  Lemma lset_keys (d : list E) i e v : nth_error d i = Some e -> map fst (lset d i (fst e, v)) = map fst d.
  Proof. intros H. apply nth_error_split in H as (a & b & -> & <-). rewrite lset_mid, !map_app. easy. Qed.

  Lemma tsz_keys (s s' : store) (t : tree) : (forall b, map fst (D s' b) = map fst (D s b)) -> tsz s' t = tsz s t.
  Proof. intros H. destruct t; cbn; [|easy]. rewrite <- (map_length fst), H. apply map_length. Qed.
  Lemma wf_keys (s s' : store) h : (forall b, map fst (D s' b) = map fst (D s b)) -> forall lo hi t, wf s h lo hi t -> wf s' h lo hi t.
  Proof.
    intros H. induction h as [|h IH]; intros lo hi [b|l] HW; try easy; cbn [BtreeTree.wf] in *.
    - intros e He. apply (in_map fst) in He. rewrite H in He. apply in_map_iff in He as (w & E1 & E2). rewrite <- E1. auto.
    - revert HW. apply chain_mono. intros lo' k t _ [H1 H2]. split; [auto|]. unfold okc in *. now rewrite (tsz_keys s s').
  Qed.

  Lemma assign_ok (c : core) it n e v : RI c -> pts (cv c) it n -> nth_error (cc c) n = Some e ->
    exists c', assign c it v = Some c' /\ RI c' /\ cc c' = lset (cc c) n (fst e, v) /\ its c' = its c
      /\ (forall it m, pts (cv c) it m -> pts (cv c') it m).
  Proof.
    intros HR Hp Hn. assert (Hlt : n < length (cc c)) by (apply nth_error_Some; congruence).
    pose proof (deref_ok c it n HR Hp Hlt) as Hd. rewrite Hn in Hd. unfold deref in Hd.
    apply pts_bs in Hp as (A & B & El & En & Hs).
    assert (HG := r_G _ _ _ _ _ HR). assert (HG0 := HG). rewrite El in HG. pose proof (G_at _ _ _ _ _ HG) as Hb.
    rewrite Hb in Hd. cbn [ld] in Hd. unfold assign. rewrite Hb. cbn [ld]. rewrite Hd.
    set (s' := lput (lv c) (fst it) (set_ld {| ld := D (lv c) (fst it); lp := lsto A None; ln := hdo B None |} (lset (D (lv c) (fst it)) (snd it) (fst e, v)))).
    eexists. split; [reflexivity|].
    assert (Hsl : snd it < length (D (lv c) (fst it))) by (apply nth_error_Some; congruence).
    assert (HD : forall b, D s' b = if b =? fst it then lset (D (lv c) (fst it)) (snd it) (fst e, v) else D (lv c) b).
    { intros b. unfold s'. rewrite D_lput. easy. }
    assert (HK : forall b, map fst (D s' b) = map fst (D (lv c) b)).
    { intros b. rewrite HD. destruct (Nat.eqb_spec b (fst it)) as [->|]; [|easy]. now apply lset_keys. }
    assert (Hlk : forall b, lk s' b = lk (lv c) b).
    { intros b. unfold s'. rewrite lk_lput. destruct (Nat.eqb_spec b (fst it)) as [->|]; [|easy]. cbn. unfold lk. now rewrite Hb. }
    assert (NA : ~ In (fst it) A /\ ~ In (fst it) B).
    { pose proof (g_nodup _ _ _ HG) as ND. apply NoDup_remove_2 in ND. rewrite in_app_iff in ND. tauto. }
    assert (HCx : forall X, ~ In (fst it) X -> C s' X = C (lv c) X).
    { intros X HX. apply C_ext. intros b Hi. rewrite HD. destruct (Nat.eqb_spec b (fst it)) as [->|]; [contradiction|easy]. }
    assert (HCC : C s' (lvs (root c)) = lset (cc c) n (fst e, v)).
    { rewrite El, C_app, C_cons, !HCx by tauto. rewrite HD, Nat.eqb_refl. rewrite (cc_split _ _ _ _ El), En. symmetry. apply lset_app. easy. }
    assert (HL : forall b, length (D s' b) = length (D (lv c) b)).
    { intros b. rewrite <- (map_length fst), HK. apply map_length. }
    assert (HP : forall it m, pts (vw (lv c) (lvs (root c))) it m -> pts (vw s' (lvs (root c))) it m).
    { intros j m Hj. apply pts_bs in Hj as (A' & B' & E1 & E2 & E3). apply pts_bs. exists A', B'. rewrite HL.
      split; [easy|]. split; [|easy]. rewrite E2. f_equal. clear -HL. induction A' as [|a A' IH]; [easy|].
      rewrite !C_cons, !app_length, HL. lia. }
    assert (HCL : length (C s' (lvs (root c))) = length (cc c)).
    { rewrite HCC. unfold lset. rewrite app_length, firstn_length. cbn [length]. rewrite skipn_length. lia. }
    destruct HR as [_ R2 R3 R4 R5 R6]. split; [|split; [|split]].
    - constructor; cbn [lv its root ht sz]; auto.
      + destruct HG0 as [G1 G2 G3 G4 G5]. constructor; auto.
        * intros b l. unfold s'. rewrite lget_lput. destruct (Nat.eqb_spec b (fst it)) as [->|]; [|apply G2].
          intros _. rewrite El, in_app_iff. cbn. auto.
        * now apply (links_ext (lv c)).
        * eapply SS_keys; [|exact G4]. unfold cc in HCC. fold (cc c) in HCC. rewrite HCC. symmetry. now apply lset_keys.
        * intros b Hi. destruct (G5 b Hi) as [X|X]; [left|auto]. intros Y. apply X. destruct (D (lv c) b) eqn:Ed; [easy|].
          specialize (HL b). rewrite Y, Ed in HL. easy.
      + revert R2. apply chain_mono. intros lo k t _ [H1 H2]. split; [eapply wf_keys; eauto|]. unfold okc in *. now rewrite (tsz_keys (lv c) s').
      + rewrite R5. symmetry. exact HCL.
      + destruct R6 as (j & J1 & J2). exists j. split; [easy|]. rewrite <- HCL in J2. exact (HP _ _ J2).
    - exact HCC.
    - easy.
    - exact HP.
  Qed.

  (** ** Clearing *)
  Lemma dealloc_ok h : forall lo hi t (s s0 : store), wf s0 h lo hi t ->
    exists s', dealloc h t s = Some s' /\ forall b, lget s' b = if existsb (Nat.eqb b) (leaves t) then None else lget s b.
  Proof.
    induction h as [|h IH]; intros lo hi t s s0 HW; destruct t as [b|l]; cbn [BtreeTree.wf] in HW; try easy; cbn [dealloc].
    - eexists. split; [reflexivity|]. intros b'. rewrite lget_ldel. cbn. now rewrite orb_false_r.
    - cbn [leaves]. revert lo s HW. induction l as [|[k t] l IHl]; intros lo s HW; cbn [fold_left].
      + exists s. easy.
      + cbn in HW. destruct HW as (_ & [W1 _] & W3). destruct (IH _ _ _ s s0 W1) as (s1 & E1 & H1). cbn [snd]. rewrite E1.
        destruct (IHl _ s1 W3) as (s2 & E2 & H2). exists s2. split; [easy|]. intros b. rewrite H2. cbn [flat_map snd].
        rewrite existsb_app, H1. destruct (existsb (Nat.eqb b) (leaves t)); cbn; [now destruct (existsb _ _)|easy].
  Qed.
  Lemma clear_ok (c : core) : RI c -> exists c', clear kmax alloc c = Some c' /\ RI c' /\ cc c' = [] /\ length (its c') = length (its c).
  Proof.
    intros [HG HC HL H2 HS (e0 & He1 & He2)]. unfold clear.
    assert (X : forall l lo hi (s : store), chain (ent (small (ht c) (length (root c))) (lv c) (ht c)) lo hi l ->
      exists s', fold_left (fun a e => match a with Some s' => dealloc (ht c) (snd e) s' | None => None end) l (Some s) = Some s'
        /\ forall b, lget s' b = if existsb (Nat.eqb b) (lvs l) then None else lget s b).
    { induction l as [|[k t] l IHl]; intros lo hi s HW; cbn [fold_left].
      + exists s. easy.
      + cbn in HW. destruct HW as (_ & [W1 _] & W3). destruct (dealloc_ok _ _ _ _ s _ W1) as (s1 & E1 & H1). cbn [snd]. rewrite E1.
        destruct (IHl _ _ s1 W3) as (s2 & E2 & H3). exists s2. split; [easy|]. intros b. rewrite H3. unfold lvs. cbn [flat_map snd].
        rewrite existsb_app, H1. destruct (existsb (Nat.eqb b) (leaves t)); cbn; [now destruct (existsb _ _)|easy]. }
    destruct (X _ _ _ (lv c) HC) as (s' & E1 & E2). rewrite E1. eexists. split; [reflexivity|].
    assert (Hn : forall b, lget s' b = None).
    { intros b. rewrite E2. destruct (existsb (Nat.eqb b) (lvs (root c))) eqn:Ee; [easy|].
      destruct (lget (lv c) b) as [l|] eqn:El; [|easy]. apply (g_dom _ _ _ HG) in El.
      assert (Y : existsb (Nat.eqb b) (lvs (root c)) = true) by (apply existsb_exists; exists b; split; [easy|apply Nat.eqb_refl]). congruence. }
    unfold create_empty. set (nb := alloc s').
    assert (Hits : its c <> []) by (intros Y; rewrite Y in He1; easy).
    assert (Hset : forall x, lset (its c) 0 x = x :: skipn 1 (its c)) by reflexivity.
    assert (HCc : C (lput s' nb {| ld := []; lp := None; ln := None |}) [nb] = ([] : list E)).
    { cbn. rewrite D_lput, Nat.eqb_refl. easy. }
    split; [|split].
    - constructor; cbn [lv its root ht sz]; unfold cc, cv; cbn [lv its root ht sz length small Nat.eqb andb].
      + constructor.
        * repeat constructor. easy.
        * intros b l. rewrite lget_lput. destruct (Nat.eqb_spec b nb) as [->|]; [now left|now rewrite Hn].
        * cbn. rewrite lk_lput, Nat.eqb_refl. easy.
        * cbn [lvs flat_map leaves snd app]. rewrite HCc. apply SS_nil.
        * intros b [<-|[]]. now right.
      + cbn. repeat split; auto; try (rewrite D_lput, Nat.eqb_refl in *; easy); try (cbn; rewrite D_lput, Nat.eqb_refl; cbn; lia).
      + lia.
      + easy.
      + cbn [lvs flat_map leaves snd app]. now rewrite HCc.
      + exists (nb, 0). rewrite Hset. split; [easy|]. cbn [lvs flat_map leaves snd app]. rewrite HCc.
        apply pts_bs. exists [], []. cbn. rewrite D_lput, Nat.eqb_refl. cbn. auto.
    - exact HCc.
    - cbn [its]. rewrite Hset. destruct (its c); easy.
  Qed.
  Lemma empty_ok : RI (empty kmax alloc) /\ cc (empty kmax alloc) = [] /\ length (its (empty kmax alloc)) = 1.
  Proof.
    unfold empty, create_empty. set (nb := alloc []).
    assert (HCc : C (lput [] nb {| ld := []; lp := None; ln := None |}) [nb] = ([] : list E)).
    { cbn. rewrite D_lput, Nat.eqb_refl. easy. }
    split; [|split].
    - constructor; cbn [lv its root ht sz]; unfold cc, cv; cbn [lv its root ht sz length small Nat.eqb andb].
      + constructor.
        * repeat constructor. easy.
        * intros b l. rewrite lget_lput. destruct (Nat.eqb_spec b nb) as [->|]; [now left|easy].
        * cbn. rewrite lk_lput, Nat.eqb_refl. easy.
        * cbn [lvs flat_map leaves snd app]. rewrite HCc. apply SS_nil.
        * intros b [<-|[]]. now right.
      + cbn. repeat split; auto; try (rewrite D_lput, Nat.eqb_refl in *; easy); try (cbn; rewrite D_lput, Nat.eqb_refl; cbn; lia).
      + lia.
      + easy.
      + cbn [lvs flat_map leaves snd app]. now rewrite HCc.
      + exists (nb, 0). split; [easy|]. cbn [lvs flat_map leaves snd app]. rewrite HCc.
        apply pts_bs. exists [], []. cbn. rewrite D_lput, Nat.eqb_refl. cbn. auto.
    - exact HCc.
    - easy.
  Qed.

  Lemma RI_set_its (c : core) l : RI c -> nth_error l 0 = nth_error (its c) 0 -> RI (set_its c l).
  Proof. intros [] H. constructor; auto. cbn [its set_its]. now rewrite H. Qed.
End Iter.
