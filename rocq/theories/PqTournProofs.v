(** The tournament of the priority queue's loser tree: every node keeps the loser of its
    subtree's final; the way up after a winner was replaced, insertion at a leaf, and the
    construction from scratch all keep that. *)
From Coq Require Import List Bool Arith Lia Permutation Sorted.
From Verif Require Import SumLib OrderLib LoserProofs PqTreeModel.
Import ListNotations.

Section Tourn.
  Variable A : Type.
  Variable cmp : A -> A -> bool.
  Hypothesis SW : strict_weak cmp.
  Variable mn : A.
  Variable arity : nat.

  (** x is at least as good as y *)
  Definition ge (x y : A) : Prop := cmp x y = false.
  Lemma ge_refl x : ge x x.
  Proof. apply (sw_irrefl _ SW). Qed.
  Lemma ge_trans x y z : ge x y -> ge y z -> ge x z.
  Proof.
    unfold ge. intros H1 H2. destruct (cmp x z) eqn:E; [|reflexivity].
    destruct (sw_incomp _ SW x y z E); congruence.
  Qed.
  Lemma lt_ge x y : cmp x y = true -> ge y x.
  Proof. apply sw_asym. exact SW. Qed.

  Variable k : nat.

  (** [wins l i w e v]: w is the winner of the subtree with l levels below node i, where v j is
      the present key of leaf j *)
  Fixpoint wins (l i w : nat) (e : nat -> A * nat) (v : nat -> A) : Prop :=
    match l with
    | 0 => w + k = i
    | S l' => exists a b, wins l' (2 * i) a e v /\ wins l' (2 * i + 1) b e v /\
        ((w = a /\ snd (e i) = b) \/ (w = b /\ snd (e i) = a)) /\
        fst (e i) = v (snd (e i)) /\ ge (v w) (v (snd (e i)))
    end.

  Lemma wins_sub l : forall i w e v, wins l i w e v -> exists d, d < 2 ^ l /\ w + k = i * 2 ^ l + d.
  Proof.
    induction l as [|l IH]; intros i w e v H.
    - exists 0. simpl in *. lia.
    - destruct H as (a & b & Ha & Hb & Hw & _).
      destruct (IH _ _ _ _ Ha) as (d1 & D1 & E1). destruct (IH _ _ _ _ Hb) as (d2 & D2 & E2).
      rewrite Nat.pow_succ_r'. destruct Hw as [[-> _]|[-> _]].
      + exists d1. split; [lia|]. rewrite E1. ring.
      + exists (2 ^ l + d2). split; [lia|]. rewrite E2. ring.
  Qed.
  Lemma wins_node l i w e v : wins l i w e v -> (w + k) / 2 ^ l = i.
  Proof.
    intro H. destruct (wins_sub _ _ _ _ _ H) as (d & D & ->).
    symmetry. apply (Nat.div_unique _ _ _ d); [exact D|lia].
  Qed.
  Lemma wins_max l : forall i w e v, wins l i w e v ->
    forall j d, d < 2 ^ l -> j + k = i * 2 ^ l + d -> ge (v w) (v j).
  Proof.
    induction l as [|l IH]; intros i w e v H j d D E.
    - simpl in *. replace j with w by lia. apply ge_refl.
    - destruct H as (a & b & Ha & Hb & Hw & _ & Hc). rewrite Nat.pow_succ_r' in *.
      destruct (Nat.lt_ge_cases d (2 ^ l)) as [L|L].
      + assert (Q : ge (v a) (v j)) by (apply (IH _ _ _ _ Ha j d); [exact L|lia]).
        destruct Hw as [[-> _]|[-> He]]; [exact Q|]. rewrite He in Hc. eapply ge_trans; eassumption.
      + assert (Q : ge (v b) (v j)) by (apply (IH _ _ _ _ Hb j (d - 2 ^ l)); lia).
        destruct Hw as [[-> He]|[-> _]]; [|exact Q]. rewrite He in Hc. eapply ge_trans; eassumption.
  Qed.

  Lemma wins_ext l : forall i w e e' v v', wins l i w e v ->
    (forall n, under l i n -> e' n = e n) ->
    (forall j d, d < 2 ^ l -> j + k = i * 2 ^ l + d -> v' j = v j) ->
    wins l i w e' v'.
  Proof.
    induction l as [|l IH]; intros i w e e' v v' H He Hc; [exact H|].
    destruct H as (a & b & Ha & Hb & Hw & Hk & Hl). exists a, b.
    pose proof (wins_sub _ _ _ _ _ Ha) as (da & Da & Ea). pose proof (wins_sub _ _ _ _ _ Hb) as (db & Db & Eb).
    rewrite Nat.pow_succ_r' in *.
    assert (Ca : v' a = v a) by (apply (Hc a da); lia).
    assert (Cb : v' b = v b) by (apply (Hc b (2 ^ l + db)); lia).
    split; [|split; [|split; [|split]]].
    - apply (IH _ _ e _ v); [exact Ha| |].
      + intros n Hn. apply He, under_l, Hn.
      + intros j d D E. apply (Hc j d); lia.
    - apply (IH _ _ e _ v); [exact Hb| |].
      + intros n Hn. apply He, under_r, Hn.
      + intros j d D E. apply (Hc j (2 ^ l + d)); lia.
    - rewrite (He i (under_self l i)). exact Hw.
    - rewrite (He i (under_self l i)), Hk. destruct Hw as [[_ ->]|[_ ->]]; rewrite ?Ca, ?Cb; reflexivity.
    - rewrite (He i (under_self l i)). destruct Hw as [[-> Q]|[-> Q]]; rewrite Q in *; rewrite Ca, Cb; exact Hl.
  Qed.

  Lemma not_under_self l i : 0 < i -> ~ under l (2 * i) i /\ ~ under l (2 * i + 1) i.
  Proof. intro Hi. split; intro Q; apply under_big in Q; lia. Qed.
  Lemma not_under l i n : ~ under (S l) i n -> ~ under l (2 * i) n /\ ~ under l (2 * i + 1) n /\ n <> i.
  Proof.
    intros Hn. split; [|split].
    - intro Q. apply Hn, under_l, Q.
    - intro Q. apply Hn, under_r, Q.
    - intros ->. apply Hn, under_self.
  Qed.

  (** all steps of the path from leaf w0 with new key x, lowest first *)
  Fixpoint climbs (l w0 : nat) (x : A) (e : nat -> A * nat) : (A * nat) * (nat -> A * nat) :=
    match l with
    | 0 => ((x, w0), e)
    | S l' => let (w, e) := climbs l' w0 x e in tree_step A cmp ((w0 + k) / 2 ^ l) e w
    end.

  Lemma climbs_ok l : forall i w0 e v x, 0 < i -> wins l i w0 e v ->
    forall w' e', climbs l w0 x e = (w', e') ->
    wins l i (snd w') e' (upd v w0 x) /\ fst w' = upd v w0 x (snd w') /\ (forall n, ~ under l i n -> e' n = e n).
  Proof.
    induction l as [|l IH]; intros i w0 e v x Hi H w' e' E.
    - cbn [climbs] in E. injection E as <- <-. split; [exact H|]. split; [cbn; rewrite upd_same; reflexivity|reflexivity].
    - pose proof (wins_node _ _ _ _ _ H) as Hn.
      cbn [climbs] in E. rewrite Hn in E. clear Hn.
      destruct (climbs l w0 x e) as [w1 e1] eqn:E1.
      destruct H as (a & b & Ha & Hb & Hw & Hk & Hl).
      pose proof (wins_sub _ _ _ _ _ Ha) as (da & Da & Ea). pose proof (wins_sub _ _ _ _ _ Hb) as (db & Db & Eb).
      destruct (not_under_self l i Hi) as (Ni1 & Ni2).
      assert (Fin : forall a' b', wins l (2 * i) a' e1 (upd v w0 x) -> wins l (2 * i + 1) b' e1 (upd v w0 x) ->
                ((snd w1 = a' /\ snd (e1 i) = b') \/ (snd w1 = b' /\ snd (e1 i) = a')) ->
                fst w1 = upd v w0 x (snd w1) -> fst (e1 i) = upd v w0 x (snd (e1 i)) ->
                (forall n, ~ under l (2 * i) n -> ~ under l (2 * i + 1) n -> e1 n = e n) ->
                wins (S l) i (snd w') e' (upd v w0 x) /\ fst w' = upd v w0 x (snd w') /\ (forall n, ~ under (S l) i n -> e' n = e n)).
      { intros a' b' Wa Wb Hch K1 K2 He1.
        unfold tree_step in E.
        destruct (cmp (fst w1) (fst (e1 i))) eqn:Ec; injection E as <- <-.
        - split; [|split].
          + assert (X : forall n, n <> i -> upd e1 i w1 n = e1 n) by (intros; apply upd_other; assumption).
            exists a', b'. split; [|split; [|split; [|split]]].
            * apply (wins_ext _ _ _ e1 _ (upd v w0 x)); [exact Wa| |reflexivity]. intros n Hn. apply X. intros ->. contradiction.
            * apply (wins_ext _ _ _ e1 _ (upd v w0 x)); [exact Wb| |reflexivity]. intros n Hn. apply X. intros ->. contradiction.
            * rewrite upd_same. destruct Hch as [[-> Q]|[-> Q]]; [right|left]; split; congruence.
            * rewrite upd_same. exact K1.
            * rewrite upd_same. rewrite <- K1, <- K2. apply lt_ge, Ec.
          + exact K2.
          + intros n Hn. destruct (not_under _ _ _ Hn) as (N1 & N2 & N3). rewrite upd_other by exact N3. apply He1; assumption.
        - split; [|split].
          + exists a', b'. split; [exact Wa|split; [exact Wb|split; [exact Hch|split; [exact K2|]]]].
            rewrite <- K1, <- K2. exact Ec.
          + exact K1.
          + intros n Hn. destruct (not_under _ _ _ Hn) as (N1 & N2 & N3). apply He1; assumption. }
      destruct Hw as [[-> He]|[-> He]].
      + destruct (IH (2 * i) a e v x ltac:(lia) Ha w1 e1 E1) as (W1 & K1 & F1).
        apply (Fin (snd w1) b); [exact W1| | |exact K1| |intros; apply F1; assumption].
        * apply (wins_ext _ _ _ e _ v); [exact Hb| |].
          -- intros n Hn. apply F1. intro Q. exact (under_sep _ _ _ _ Hi Q Hn).
          -- intros j d D Ej. apply upd_other. intros ->. nia.
        * left; split; [reflexivity|rewrite F1 by exact Ni1; exact He].
        * rewrite F1 by exact Ni1. rewrite Hk, He. rewrite upd_other by nia. reflexivity.
      + destruct (IH (2 * i + 1) b e v x ltac:(lia) Hb w1 e1 E1) as (W1 & K1 & F1).
        apply (Fin a (snd w1)); [|exact W1| |exact K1| |intros; apply F1; assumption].
        * apply (wins_ext _ _ _ e _ v); [exact Ha| |].
          -- intros n Hn. apply F1. intro Q. exact (under_sep _ _ _ _ Hi Hn Q).
          -- intros j d D Ej. apply upd_other. intros ->. nia.
        * right; split; [reflexivity|rewrite F1 by exact Ni2; exact He].
        * rewrite F1 by exact Ni2. rewrite Hk, He. rewrite upd_other by nia. reflexivity.
  Qed.

  Lemma climbs_sub L j : forall w0 e v x, j <= L -> wins L ((w0 + k) / 2 ^ L) w0 e v -> 0 < (w0 + k) / 2 ^ L ->
    forall w' e', climbs j w0 x e = (w', e') -> (snd w' + k) / 2 ^ j = (w0 + k) / 2 ^ j.
  Proof.
    intros w0 e v x Hj H Hi w' e' E.
    assert (Hd : forall m, m <= L -> wins (L - m) ((w0 + k) / 2 ^ (L - m)) w0 e v /\ 0 < (w0 + k) / 2 ^ (L - m)).
    { induction m as [|m IHm]; intro Hm; [rewrite Nat.sub_0_r; split; assumption|].
      destruct (IHm ltac:(lia)) as (W & P). replace (L - m) with (S (L - S m)) in W, P by lia.
      destruct W as (a & b & Ha & Hb & Hw & _).
      destruct Hw as [[-> _]|[-> _]].
      - rewrite (wins_node _ _ _ _ _ Ha). split; [exact Ha|]. lia.
      - rewrite (wins_node _ _ _ _ _ Hb). split; [exact Hb|]. lia. }
    destruct (Hd (L - j) ltac:(lia)) as (W & P). replace (L - (L - j)) with j in * by lia.
    destruct (climbs_ok j _ w0 e v x P W w' e' E) as (W' & _ & _).
    rewrite (wins_node _ _ _ _ _ W'). reflexivity.
  Qed.

  Variable L : nat.
  Hypothesis kL : k = 2 ^ L.

  Lemma path_k_climbs w0 x e0 : w0 < k -> forall d j f w e,
    d = L - j -> j <= L -> d <= f -> climbs j w0 x e0 = (w, e) ->
    path_k A cmp f ((w0 + k) / 2 ^ S j) e w = Some (climbs L w0 x e0).
  Proof.
    intro Hw. induction d as [|d IH]; intros j f w e Hd Hj Hf E.
    - replace j with L in * by lia.
      replace ((w0 + k) / 2 ^ S L) with 0; [destruct f; cbn; rewrite E; reflexivity|].
      symmetry. apply Nat.div_small. rewrite Nat.pow_succ_r'. lia.
    - destruct f as [|f]; [lia|]. cbn [path_k].
      destruct (Nat.eqb_spec ((w0 + k) / 2 ^ S j) 0) as [Z|Z].
      + exfalso. assert (2 ^ S j <= k).
        { rewrite kL. apply Nat.pow_le_mono_r; lia. }
        pose proof (pow_pos (S j)).
        assert (1 <= (w0 + k) / 2 ^ S j) by (apply Nat.div_le_lower_bound; lia). lia.
      + rewrite <- div_pow_split.
        destruct (tree_step A cmp ((w0 + k) / 2 ^ S j) e w) as [w' e'] eqn:Es.
        apply IH; [lia|lia|lia|]. change (climbs (S j) w0 x e0) with
          (let (w, e) := climbs j w0 x e0 in tree_step A cmp ((w0 + k) / 2 ^ S j) e w).
        rewrite E. exact Es.
  Qed.

  Lemma path_f_climbs w0 x e0 v : w0 < k -> wins L 1 w0 e0 v -> forall l j w e,
    l = L - j -> j <= L -> climbs j w0 x e0 = (w, e) ->
    path_f A cmp l L e w = climbs L w0 x e0.
  Proof.
    intros Hw W. pose proof (wins_node _ _ _ _ _ W) as N.
    induction l as [|l IH]; intros j w e Hd Hj E.
    - replace j with L in * by lia. cbn [path_f]. symmetry. exact E.
    - cbn [path_f]. rewrite <- kL. replace (L - S l + 1) with (S j) by lia.
      assert (Es : (snd w + k) / 2 ^ S j = (w0 + k) / 2 ^ S j).
      { rewrite !div_pow_split. f_equal.
        apply (climbs_sub L j w0 e0 v x Hj) with (e' := e); [rewrite N; exact W|rewrite N; lia|exact E]. }
      rewrite Es.
      destruct (tree_step A cmp ((w0 + k) / 2 ^ S j) e w) as [w' e'] eqn:Et.
      apply (IH (S j)); [lia|lia|].
      change (climbs (S j) w0 x e0) with
          (let (w, e) := climbs j w0 x e0 in tree_step A cmp ((w0 + k) / 2 ^ S j) e w).
      rewrite E. exact Et.
  Qed.

  Lemma init_winner_ok arr : forall l f i e, k <= max_arity arity -> l < f -> 0 < i -> l <= L ->
    2 ^ (L - l) <= i < 2 ^ (S (L - l)) ->
    exists w e', init_winner A cmp mn arity f k arr i e = Some (w, e') /\ wins l i w e' (fun j => deref A mn (arr j)) /\
      (forall n, ~ under l i n -> e' n = e n).
  Proof.
    induction l as [|l IH]; intros f i e Hm Hf Hi Hl Hr; (destruct f as [|f]; [lia|]); cbn [init_winner].
    - rewrite Nat.sub_0_r in Hr. rewrite <- kL in Hr.
      destruct (Nat.leb_spec k i) as [_|Q]; [|lia]. exists (i - k), e. split; [reflexivity|]. split; [simpl; lia|reflexivity].
    - assert (Hlt : i < k).
      { destruct Hr as [_ Hr]. replace (S (L - S l)) with (L - l) in Hr by lia.
        assert (2 ^ (L - l) <= 2 ^ L) by (apply Nat.pow_le_mono_r; lia). lia. }
      destruct (Nat.leb_spec k i) as [Q|_]; [lia|]. destruct (Nat.leb_spec (max_arity arity) i) as [Q|_]; [lia|]. cbn [orb].
      replace (S (L - S l)) with (L - l) in Hr by lia.
      assert (Hp : 2 ^ (L - l) = 2 * 2 ^ (L - S l)) by (rewrite <- Nat.pow_succ_r'; f_equal; lia).
      pose proof (Nat.pow_succ_r' 2 (L - l)) as Hq.
      destruct (IH f (2 * i) e Hm ltac:(lia) ltac:(lia) ltac:(lia) ltac:(lia)) as (a & e1 & -> & Wa & Fa).
      destruct (IH f (2 * i + 1) e1 Hm ltac:(lia) ltac:(lia) ltac:(lia) ltac:(lia)) as (b & e2 & -> & Wb & Fb).
      destruct (not_under_self l i Hi) as (Ni1 & Ni2).
      set (v := fun j => deref A mn (arr j)) in *.
      assert (Fin : forall w x, (w = a /\ x = b) \/ (w = b /\ x = a) -> ge (v w) (v x) ->
        wins (S l) i w (upd e2 i (v x, x)) v /\ (forall n, ~ under (S l) i n -> upd e2 i (v x, x) n = e n)).
      { intros w x Hch Hc. split.
        - exists a, b. rewrite upd_same. split; [|split; [|split; [exact Hch|split; [reflexivity|exact Hc]]]].
          + apply (wins_ext _ _ _ e1 _ v); [exact Wa| |reflexivity]. intros n Hn.
            rewrite upd_other by (intros ->; contradiction). apply Fb. intro Q. exact (under_sep _ _ _ _ Hi Hn Q).
          + apply (wins_ext _ _ _ e2 _ v); [exact Wb| |reflexivity]. intros n Hn. apply upd_other. intros ->; contradiction.
        - intros n Hn. rewrite upd_other by (intros ->; apply Hn, under_self).
          rewrite Fb by (intro Q; apply Hn, under_r, Q). apply Fa. intro Q. apply Hn, under_l, Q. }
      change (deref A mn (arr a)) with (v a). change (deref A mn (arr b)) with (v b).
      destruct (cmp (v a) (v b)) eqn:E; cbn [negb].
      + destruct (Fin b a (or_intror (conj eq_refl eq_refl)) (lt_ge _ _ E)) as (W & F). eauto.
      + destruct (Fin a b (or_introl (conj eq_refl eq_refl)) E) as (W & F). eauto.
  Qed.

  (** insertion: what update_on_insert does, read from the root downwards *)
  Fixpoint ins (l : nat) (nk : A) (ni : nat) (w : A * nat) (e : nat -> A * nat) : nat -> A * nat :=
    match l with
    | 0 => e
    | S l' =>
        let i := (ni + k) / 2 ^ l in
        if negb (Nat.eqb (Nat.land (snd w) (2 ^ l')) (Nat.land ni (2 ^ l'))) then
          let e' := if cmp (fst (e i)) nk then
                      if cmp (fst w) nk then upd e i w else upd e i (nk, ni)
                    else e in
          ins l' nk ni (e i) e'
        else ins l' nk ni w e
    end.

  Lemma uoi_ins nk ni e0 : ni < k ->
    forall d j f, d = L - j -> j <= L -> d <= f ->
    exists e w m, update_on_insert A cmp f L ((ni + k) / 2 ^ S j) nk ni e0 = Some (e, w, m) /\
      (0 < L -> m = Some (2 ^ j / 2)) /\
      ins j nk ni w e = ins L nk ni (e0 0) (if cmp (fst (e0 0)) nk then upd e0 0 (nk, ni) else e0).
  Proof.
    intro Hn. induction d as [|d IH]; intros j f Hd Hj Hf.
    - replace j with L in * by lia.
      assert (Z : (ni + k) / 2 ^ S L = 0) by (apply Nat.div_small; rewrite Nat.pow_succ_r'; lia).
      rewrite Z. do 3 eexists. split; [destruct f; reflexivity|]. split; [|reflexivity].
      intro HL. destruct L as [|l]; [lia|]. cbn [root_mask]. f_equal.
      rewrite Nat.pow_succ_r', Nat.mul_comm. symmetry. apply Nat.div_mul. lia.
    - destruct f as [|f]; [lia|].
      assert (Z : (ni + k) / 2 ^ S j <> 0).
      { assert (2 ^ S j <= k) by (rewrite kL; apply Nat.pow_le_mono_r; lia).
        pose proof (pow_pos (S j)).
        assert (1 <= (ni + k) / 2 ^ S j) by (apply Nat.div_le_lower_bound; lia). lia. }
      destruct (IH (S j) f ltac:(lia) ltac:(lia) ltac:(lia)) as (e & w & m & E & Hm & Hi).
      cbn [update_on_insert]. apply Nat.eqb_neq in Z. rewrite Z, <- div_pow_split, E.
      rewrite (Hm ltac:(lia)).
      assert (M : 2 ^ S j / 2 = 2 ^ j) by (rewrite Nat.pow_succ_r', Nat.mul_comm; apply Nat.div_mul; lia).
      rewrite M. cbn [ins] in Hi.
      destruct (negb (Nat.land (snd w) (2 ^ j) =? Nat.land ni (2 ^ j))) eqn:Eb.
      + do 3 eexists. split; [reflexivity|]. split; [intros _; reflexivity|exact Hi].
      + do 3 eexists. split; [reflexivity|]. split; [intros _; reflexivity|exact Hi].
  Qed.

  Lemma land_pow x l : Nat.land x (2 ^ l) = if Nat.testbit x l then 2 ^ l else 0.
  Proof.
    apply Nat.bits_inj. intro m. rewrite Nat.land_spec.
    destruct (Nat.eq_dec m l) as [->|N].
    - rewrite Nat.pow2_bits_true, andb_true_r. destruct (Nat.testbit x l) eqn:E.
      + symmetry. apply Nat.pow2_bits_true.
      + rewrite Nat.bits_0. reflexivity.
    - rewrite Nat.pow2_bits_false by congruence. rewrite andb_false_r.
      destruct (Nat.testbit x l); [rewrite Nat.pow2_bits_false by congruence|rewrite Nat.bits_0]; reflexivity.
  Qed.
  Lemma bit_side x l i : l < L -> (x + k) / 2 ^ S l = i ->
    (Nat.testbit x l = false /\ (x + k) / 2 ^ l = 2 * i) \/ (Nat.testbit x l = true /\ (x + k) / 2 ^ l = 2 * i + 1).
  Proof.
    intros Hl E.
    assert (E1 : (x + k) / 2 ^ l = x / 2 ^ l + 2 ^ (L - l)).
    { rewrite kL. replace (2 ^ L) with (2 ^ (L - l) * 2 ^ l) by (rewrite <- Nat.pow_add_r; f_equal; lia).
      apply Nat.div_add. apply Nat.pow_nonzero. discriminate. }
    assert (E2 : 2 ^ (L - l) = 2 * 2 ^ (L - S l)) by (rewrite <- Nat.pow_succ_r'; f_equal; lia).
    rewrite div_pow_split in E.
    pose proof (Nat.testbit_spec' x l) as B.
    pose proof (Nat.div_mod (x / 2 ^ l) 2 ltac:(lia)) as D1.
    pose proof (Nat.div_mod ((x + k) / 2 ^ l) 2 ltac:(lia)) as D2.
    pose proof (Nat.mod_upper_bound ((x + k) / 2 ^ l) 2 ltac:(lia)) as D3.
    rewrite E in D2.
    destruct (Nat.testbit x l); cbn [Nat.b2n] in B; [right|left]; (split; [reflexivity|]); lia.
  Qed.

  Lemma ins_ok nk ni : forall l i w e v, l <= L -> (ni + k) / 2 ^ l = i -> 0 < i ->
    wins l i (snd w) e v -> fst w = v (snd w) -> cmp (v ni) nk = true ->
    wins l i (if cmp (fst w) nk then ni else snd w) (ins l nk ni w e) (upd v ni nk) /\
    (forall n, ~ under l i n -> ins l nk ni w e n = e n).
  Proof.
    induction l as [|l IH]; intros i w e v Hl Hi Hpos W K Hv.
    - cbn [ins]. split; [|reflexivity]. cbn [wins] in W. rewrite Nat.pow_0_r, Nat.div_1_r in Hi.
      replace (snd w) with ni in * by lia. rewrite K, Hv. cbn. lia.
    - pose proof (wins_node _ _ _ _ _ W) as Nw.
      cbn [ins]. rewrite Hi.
      destruct (not_under_self l i Hpos) as (Ni1 & Ni2).
      destruct W as (a & b & Wa & Wb & Hch & Kl & Hge).
      pose proof (wins_sub _ _ _ _ _ Wa) as (da & Da & Ea). pose proof (wins_sub _ _ _ _ _ Wb) as (db & Db & Eb).
      pose proof (wins_node _ _ _ _ _ Wa) as Na. pose proof (wins_node _ _ _ _ _ Wb) as Nb.
      (* [c] the child containing ni with old winner x, [o] the other one with winner y *)
      assert (G : forall c o x y, (c = 2 * i /\ o = 2 * i + 1 \/ c = 2 * i + 1 /\ o = 2 * i) ->
        (ni + k) / 2 ^ l = c -> wins l c x e v -> wins l o y e v ->
        ((snd w = x /\ snd (e i) = y) \/ (snd w = y /\ snd (e i) = x)) ->
        (forall w' e', wins l c w' e' (upd v ni nk) -> wins l o y e' (upd v ni nk) ->
           wins l c w' e' (upd v ni nk) -> True) ->
        wins (S l) i (if cmp (fst w) nk then ni else snd w)
          (if negb (Nat.land (snd w) (2 ^ l) =? Nat.land ni (2 ^ l))
           then ins l nk ni (e i) (if cmp (fst (e i)) nk then if cmp (fst w) nk then upd e i w else upd e i (nk, ni) else e)
           else ins l nk ni w e) (upd v ni nk) /\
        (forall n, ~ under (S l) i n ->
          (if negb (Nat.land (snd w) (2 ^ l) =? Nat.land ni (2 ^ l))
           then ins l nk ni (e i) (if cmp (fst (e i)) nk then if cmp (fst w) nk then upd e i w else upd e i (nk, ni) else e)
           else ins l nk ni w e) n = e n)).
      { intros c o x y Hco Hc Wx Wy Hxy _.
        assert (Cpos : 0 < c) by lia.
        assert (Nc : ~ under l c i) by (destruct Hco as [[-> _]|[-> _]]; assumption).
        assert (No : ~ under l o i) by (destruct Hco as [[_ ->]|[_ ->]]; assumption).
        assert (Sep : forall n, under l c n -> under l o n -> False).
        { intros n Q1 Q2. destruct Hco as [[-> ->]|[-> ->]]; [exact (under_sep _ _ _ _ Hpos Q1 Q2)|exact (under_sep _ _ _ _ Hpos Q2 Q1)]. }
        assert (Un : forall n, ~ under (S l) i n -> ~ under l c n /\ n <> i).
        { intros n Hn. destruct (not_under _ _ _ Hn) as (N1 & N2 & N3). destruct Hco as [[-> _]|[-> _]]; split; assumption. }
        assert (Yni : y <> ni).
        { pose proof (wins_node _ _ _ _ _ Wy) as Ny. intros ->. rewrite Hc in Ny. lia. }
        assert (Asm : forall w' x' z e1, wins l c x' e1 (upd v ni nk) -> (forall n, ~ under l c n -> n <> i -> e1 n = e n) ->
                  e1 i = z -> (w' = x' /\ snd z = y \/ w' = y /\ snd z = x') -> fst z = upd v ni nk (snd z) ->
                  ge (upd v ni nk w') (upd v ni nk (snd z)) ->
                  wins (S l) i w' e1 (upd v ni nk)).
        { intros w' x' z e1 Wc Fe Hz Hw Kz Gz.
          assert (Wo : wins l o y e1 (upd v ni nk)).
          { apply (wins_ext _ _ _ e _ v); [exact Wy| |].
            - intros n Hn. apply Fe; [intro Q; exact (Sep n Q Hn)|intros ->; contradiction].
            - intros j d D Ej. apply upd_other. intros ->.
              assert (Q : (ni + k) / 2 ^ l = o) by (rewrite Ej; symmetry; apply (Nat.div_unique _ _ _ d); [exact D|lia]).
              lia. }
          destruct Hco as [[-> ->]|[-> ->]].
          - exists x', y. rewrite Hz. split; [exact Wc|split; [exact Wo|split; [exact Hw|split; assumption]]].
          - exists y, x'. rewrite Hz. split; [exact Wo|split; [exact Wc|split; [tauto|split; assumption]]]. }
        rewrite !land_pow.
        destruct Hxy as [[Hx Hy]|[Hx Hy]].
        - (* the old winner comes from the same subtree *)
          assert (T : Nat.testbit (snd w) l = Nat.testbit ni l).
          { pose proof (wins_node _ _ _ _ _ Wx) as Nx. rewrite <- Hx in Nx.
            destruct (bit_side (snd w) l i ltac:(lia) Nw) as [[T1 S1]|[T1 S1]];
            destruct (bit_side ni l i ltac:(lia) Hi) as [[T2 S2]|[T2 S2]]; try congruence; lia. }
          rewrite T, Nat.eqb_refl. cbn [negb].
          rewrite <- Hx in Wx.
          destruct (IH c w e v ltac:(lia) Hc Cpos Wx K Hv) as (W' & F').
          split.
          + apply (Asm _ _ (e i) _ W').
            * intros n N1 N2. apply F', N1.
            * apply F', Nc.
            * left. split; [reflexivity|exact Hy].
            * rewrite Hy, upd_other by exact Yni. rewrite <- Hy. exact Kl.
            * rewrite Hy, (upd_other v ni nk y Yni). rewrite Hy in Hge. destruct (cmp (fst w) nk) eqn:Ec.
              -- rewrite upd_same. apply (ge_trans _ (v (snd w))); [|exact Hge]. rewrite <- K. apply lt_ge, Ec.
              -- rewrite upd_other; [exact Hge|]. intro Q. rewrite Q in K. congruence.
          + intros n Hn. apply F', Un, Hn.
        - (* different subtrees *)
          assert (T : (if Nat.testbit (snd w) l then 2 ^ l else 0) =? (if Nat.testbit ni l then 2 ^ l else 0) = false).
          { pose proof (wins_node _ _ _ _ _ Wy) as Nx. rewrite <- Hx in Nx. pose proof (pow_pos l).
            apply Nat.eqb_neq.
            destruct (bit_side (snd w) l i ltac:(lia) Nw) as [[T1 S1]|[T1 S1]];
            destruct (bit_side ni l i ltac:(lia) Hi) as [[T2 S2]|[T2 S2]]; rewrite T1, T2; lia. }
          rewrite T. cbn [negb].
          set (e1 := if cmp (fst (e i)) nk then if cmp (fst w) nk then upd e i w else upd e i (nk, ni) else e).
          assert (F1 : forall n, n <> i -> e1 n = e n).
          { intros n Hn. unfold e1. destruct (cmp (fst (e i)) nk); [|reflexivity].
            destruct (cmp (fst w) nk); apply upd_other, Hn. }
          assert (Wx1 : wins l c (snd (e i)) e1 v).
          { rewrite Hy. apply (wins_ext _ _ _ e _ v); [exact Wx| |reflexivity]. intros n Hn. apply F1. intros ->. contradiction. }
          destruct (IH c (e i) e1 v ltac:(lia) Hc Cpos Wx1 Kl Hv) as (W' & F').
          split.
          + apply (Asm _ _ (e1 i) _ W').
            * intros n N1 N2. rewrite F' by exact N1. apply F1, N2.
            * apply F', Nc.
            * unfold e1. destruct (cmp (fst (e i)) nk) eqn:Ec.
              -- destruct (cmp (fst w) nk) eqn:Ed; rewrite upd_same; [left|right]; (split; [|cbn]; congruence).
              -- right. split; [|reflexivity]. replace (cmp (fst w) nk) with false; [exact Hx|].
                 symmetry. rewrite K. apply (ge_trans _ (v (snd (e i)))); [exact Hge|]. rewrite <- Kl. exact Ec.
            * unfold e1. destruct (cmp (fst (e i)) nk) eqn:Ec.
              -- destruct (cmp (fst w) nk) eqn:Ed; rewrite upd_same; cbn [fst snd].
                 ++ rewrite Hx, upd_other by exact Yni. rewrite <- Hx. exact K.
                 ++ rewrite upd_same. reflexivity.
              -- rewrite upd_other; [exact Kl|]. intro Q. rewrite Q in Kl. congruence.
            * unfold e1. destruct (cmp (fst (e i)) nk) eqn:Ec.
              -- destruct (cmp (fst w) nk) eqn:Ed; rewrite upd_same; cbn [fst snd].
                 ++ rewrite upd_same, Hx, (upd_other v ni nk y Yni), <- Hx, <- K. apply lt_ge, Ed.
                 ++ rewrite upd_same. rewrite Hx, (upd_other v ni nk y Yni), <- Hx, <- K. exact Ed.
              -- replace (cmp (fst w) nk) with false.
                 2:{ symmetry. rewrite K. apply (ge_trans _ (v (snd (e i)))); [exact Hge|]. rewrite <- Kl. exact Ec. }
                 rewrite Hx, (upd_other v ni nk y Yni), <- Hx. rewrite upd_other; [exact Hge|].
                 intro Q. rewrite Q in Kl. congruence.
          + intros n Hn. destruct (Un n Hn) as (U1 & U2). rewrite F' by exact U1. apply F1, U2. }
      destruct (bit_side ni l i ltac:(lia) Hi) as [[_ Sn]|[_ Sn]].
      + apply (G (2 * i) (2 * i + 1) a b); [left; split; reflexivity|exact Sn|exact Wa|exact Wb| |tauto].
        destruct Hch as [[-> H]|[-> H]]; [left|right]; split; auto.
      + apply (G (2 * i + 1) (2 * i) b a); [right; split; reflexivity|exact Sn|exact Wb|exact Wa| |tauto].
        destruct Hch as [[-> H]|[-> H]]; [right|left]; split; auto.
  Qed.

  Lemma insert_ok nk ni e v : ni < k -> wins L 1 (snd (e 0)) e v -> fst (e 0) = v (snd (e 0)) ->
    cmp (v ni) nk = true ->
    exists e' w m, update_on_insert A cmp L L ((ni + k) / 2) nk ni e = Some (e', w, m) /\
      wins L 1 (snd (e' 0)) e' (upd v ni nk) /\ fst (e' 0) = upd v ni nk (snd (e' 0)).
  Proof.
    intros Hn W K Hv.
    destruct (uoi_ins nk ni e Hn (L - 0) 0 L ltac:(lia) ltac:(lia) ltac:(lia)) as (e' & w & m & E & _ & Hi).
    cbn [Nat.pow] in E. rewrite Nat.mul_1_r in E. cbn [ins] in Hi.
    exists e', w, m. split; [exact E|].
    set (e0 := if cmp (fst (e 0)) nk then upd e 0 (nk, ni) else e) in *.
    assert (N1 : (ni + k) / 2 ^ L = 1).
    { rewrite <- kL. symmetry. apply (Nat.div_unique _ _ _ ni); lia. }
    assert (Z : ~ under L 1 0) by (intro Q; apply under_big in Q; lia).
    assert (W0 : wins L 1 (snd (e 0)) e0 v).
    { apply (wins_ext _ _ _ e _ v); [exact W| |reflexivity]. intros n Hu. unfold e0.
      destruct (cmp (fst (e 0)) nk); [|reflexivity]. apply upd_other. intros ->. contradiction. }
    destruct (ins_ok nk ni L 1 (e 0) e0 v ltac:(lia) N1 ltac:(lia) W0 K Hv) as (W' & F').
    rewrite <- Hi in W', F'. rewrite (F' 0 Z). unfold e0.
    destruct (cmp (fst (e 0)) nk) eqn:Ec.
    - rewrite upd_same. cbn [fst snd]. split; [exact W'|]. rewrite upd_same. reflexivity.
    - split; [exact W'|]. rewrite upd_other; [exact K|]. intro Q. rewrite Q in K. congruence.
  Qed.
End Tourn.
