(** Proofs about the loser tree: the winner is a smallest head (tournament invariant), and the
    shared consumption sequence always keeps a smallest remaining element in some cursor. *)
From Coq Require Import List Bool Arith Lia Permutation Sorted.
From Verif Require Import SumLib OrderLib LoserModel LoserSpec.
Import ListNotations.

Lemma div_pow_split (m j : nat) : m / 2 ^ S j = m / 2 ^ j / 2.
Proof. rewrite Nat.pow_succ_r', Nat.mul_comm, Nat.div_div; [reflexivity| |discriminate]. apply Nat.pow_nonzero. discriminate. Qed.
Lemma pow_pos j : 0 < 2 ^ j.
Proof. apply Nat.neq_0_lt_0, Nat.pow_nonzero. discriminate. Qed.

Section Tree.
  Variable A : Type.
  Variable lt : A -> A -> bool.
  Hypothesis SW : strict_weak lt.
  Notation cur_cmp := (cur_cmp A lt).

  (** order of cursors by head, an empty cursor is infinite *)
  Definition cle (a b : list A) : Prop :=
    match a, b with _, [] => True | [], _ :: _ => False | x :: _, y :: _ => le lt x y end.
  Lemma cle_refl a : cle a a.
  Proof. destruct a; simpl; [exact I|apply le_refl; exact SW]. Qed.
  Lemma cle_trans a b c : cle a b -> cle b c -> cle a c.
  Proof. destruct a, b, c; simpl; try tauto. apply le_trans. exact SW. Qed.
  Lemma cmp_true a b : cur_cmp a b = true -> cle a b.
  Proof. destruct a, b; simpl; try tauto; try discriminate. apply lt_le. exact SW. Qed.
  Lemma cmp_false a b : cur_cmp a b = false -> cle b a.
  Proof. destruct a, b; simpl; try tauto; discriminate. Qed.

  Variable k : nat.

  (** [wins l i w e cur]: w is the winner of the subtree with l levels below node i *)
  Fixpoint wins (l i w : nat) (e : nat -> nat) (cur : nat -> list A) : Prop :=
    match l with
    | 0 => w + k = i
    | S l' => exists a b, wins l' (2 * i) a e cur /\ wins l' (2 * i + 1) b e cur /\
        ((w = a /\ e i = b) \/ (w = b /\ e i = a)) /\ cle (cur w) (cur (e i))
    end.

  Lemma wins_sub l : forall i w e cur, wins l i w e cur -> exists d, d < 2 ^ l /\ w + k = i * 2 ^ l + d.
  Proof.
    induction l as [|l IH]; intros i w e cur H.
    - exists 0. simpl in *. lia.
    - destruct H as (a & b & Ha & Hb & Hw & _).
      destruct (IH _ _ _ _ Ha) as (d1 & D1 & E1). destruct (IH _ _ _ _ Hb) as (d2 & D2 & E2).
      rewrite Nat.pow_succ_r'. destruct Hw as [[-> _]|[-> _]].
      + exists d1. split; [lia|]. rewrite E1. ring.
      + exists (2 ^ l + d2). split; [lia|]. rewrite E2. ring.
  Qed.
  Lemma wins_node l i w e cur : wins l i w e cur -> (w + k) / 2 ^ l = i.
  Proof.
    intro H. destruct (wins_sub _ _ _ _ _ H) as (d & D & ->).
    symmetry. apply (Nat.div_unique _ _ _ d); [exact D|lia].
  Qed.
  Lemma wins_min l : forall i w e cur, wins l i w e cur ->
    forall j d, d < 2 ^ l -> j + k = i * 2 ^ l + d -> cle (cur w) (cur j).
  Proof.
    induction l as [|l IH]; intros i w e cur H j d D E.
    - simpl in *. replace j with w by lia. apply cle_refl.
    - destruct H as (a & b & Ha & Hb & Hw & Hc). rewrite Nat.pow_succ_r' in *.
      destruct (Nat.lt_ge_cases d (2 ^ l)) as [L|L].
      + assert (Q : cle (cur a) (cur j)) by (apply (IH _ _ _ _ Ha j d); [exact L|lia]).
        destruct Hw as [[-> _]|[-> He]]; [exact Q|]. rewrite He in Hc. eapply cle_trans; eassumption.
      + assert (Q : cle (cur b) (cur j)) by (apply (IH _ _ _ _ Hb j (d - 2 ^ l)); lia).
        destruct Hw as [[-> He]|[-> _]]; [|exact Q]. rewrite He in Hc. eapply cle_trans; eassumption.
  Qed.

  Definition under (l i n : nat) : Prop := exists m d, m < l /\ d < 2 ^ m /\ n = i * 2 ^ m + d.
  Lemma under_l l i n : under l (2 * i) n -> under (S l) i n.
  Proof. intros (m & d & M & D & ->). exists (S m), d. rewrite Nat.pow_succ_r'. repeat split; lia. Qed.
  Lemma under_r l i n : under l (2 * i + 1) n -> under (S l) i n.
  Proof. intros (m & d & M & D & ->). exists (S m), (2 ^ m + d). rewrite Nat.pow_succ_r'. repeat split; lia. Qed.
  Lemma under_self l i : under (S l) i i.
  Proof. exists 0, 0. simpl. lia. Qed.
  Lemma under_big l i n : 0 < i -> under l i n -> i <= n.
  Proof. intros Hi (m & d & _ & _ & ->). pose proof (pow_pos m). nia. Qed.
  Lemma pow_sep m m' d d' i : d < 2 ^ m -> d' < 2 ^ m' -> 0 < i ->
    2 * i * 2 ^ m + d = (2 * i + 1) * 2 ^ m' + d' -> False.
  Proof.
    intros D D' Hi E.
    destruct (Nat.le_gt_cases m m') as [L|L].
    - assert (E1 : (2 * i * 2 ^ m + d) / 2 ^ m = 2 * i) by (symmetry; apply (Nat.div_unique _ _ _ d); lia).
      assert (E2 : 2 ^ m' = 2 ^ m * 2 ^ (m' - m)) by (rewrite <- Nat.pow_add_r; f_equal; lia).
      pose proof (pow_pos m). pose proof (pow_pos (m' - m)).
      rewrite E, E2 in E1.
      assert (E3 : (2 * i + 1) * 2 ^ (m' - m) <= 2 * i).
      { rewrite <- E1. apply Nat.div_le_lower_bound; [lia|]. nia. }
      nia.
    - assert (E1 : ((2 * i + 1) * 2 ^ m' + d') / 2 ^ m' = 2 * i + 1) by (symmetry; apply (Nat.div_unique _ _ _ d'); lia).
      assert (E2 : 2 ^ m = 2 ^ m' * 2 ^ (m - m')) by (rewrite <- Nat.pow_add_r; f_equal; lia).
      pose proof (pow_pos m'). assert (2 <= 2 ^ (m - m')).
      { replace (m - m') with (S (m - m' - 1)) by lia. rewrite Nat.pow_succ_r'. pose proof (pow_pos (m - m' - 1)). lia. }
      rewrite <- E, E2 in E1.
      assert (E3 : 2 * i * 2 ^ (m - m') <= 2 * i + 1).
      { rewrite <- E1. apply Nat.div_le_lower_bound; [lia|]. nia. }
      nia.
  Qed.
  Lemma under_sep l l' i n : 0 < i -> under l (2 * i) n -> under l' (2 * i + 1) n -> False.
  Proof. intros Hi (m & d & M & D & ->) (m' & d' & M' & D' & E). exact (pow_sep _ _ _ _ _ D D' Hi E). Qed.

  Lemma wins_ext l : forall i w e e' cur cur', wins l i w e cur ->
    (forall n, under l i n -> e' n = e n) ->
    (forall j d, d < 2 ^ l -> j + k = i * 2 ^ l + d -> cur' j = cur j) ->
    wins l i w e' cur'.
  Proof.
    induction l as [|l IH]; intros i w e e' cur cur' H He Hc; [exact H|].
    pose proof (wins_sub _ _ _ _ _ H) as (dw & Dw & Ew).
    destruct H as (a & b & Ha & Hb & Hw & Hl). exists a, b.
    pose proof (wins_sub _ _ _ _ _ Ha) as (da & Da & Ea). pose proof (wins_sub _ _ _ _ _ Hb) as (db & Db & Eb).
    rewrite Nat.pow_succ_r' in *.
    assert (Ca : cur' a = cur a) by (apply (Hc a da); lia).
    assert (Cb : cur' b = cur b) by (apply (Hc b (2 ^ l + db)); lia).
    split; [|split; [|split]].
    - apply (IH _ _ e _ cur); [exact Ha| |].
      + intros n Hn. apply He, under_l, Hn.
      + intros j d D E. apply (Hc j d); lia.
    - apply (IH _ _ e _ cur); [exact Hb| |].
      + intros n Hn. apply He, under_r, Hn.
      + intros j d D E. apply (Hc j (2 ^ l + d)); lia.
    - rewrite (He i (under_self l i)). exact Hw.
    - rewrite (He i (under_self l i)). destruct Hw as [[-> Q]|[-> Q]]; rewrite Q in *; rewrite Ca, Cb; exact Hl.
  Qed.

  (** all steps of the path from leaf w0, lowest first *)
  Fixpoint climbs (l w0 : nat) (cur : nat -> list A) (e : nat -> nat) : nat * (nat -> nat) :=
    match l with
    | 0 => (w0, e)
    | S l' => let (w, e) := climbs l' w0 cur e in tree_step A lt cur ((w0 + k) / 2 ^ l) e w
    end.

  Lemma climbs_ok l : forall i w0 e cur v, 0 < i -> wins l i w0 e cur ->
    forall w' e', climbs l w0 (upd cur w0 v) e = (w', e') ->
    wins l i w' e' (upd cur w0 v) /\ (forall n, ~ under l i n -> e' n = e n).
  Proof.
    induction l as [|l IH]; intros i w0 e cur v Hi H w' e' E.
    - cbn [climbs] in E. injection E as <- <-. split; [exact H|reflexivity].
    - pose proof (wins_node _ _ _ _ _ H) as Hn.
      cbn [climbs] in E. rewrite Hn in E. clear Hn.
      destruct (climbs l w0 (upd cur w0 v) e) as [w1 e1] eqn:E1.
      destruct H as (a & b & Ha & Hb & Hw & Hl).
      pose proof (wins_sub _ _ _ _ _ Ha) as (da & Da & Ea). pose proof (wins_sub _ _ _ _ _ Hb) as (db & Db & Eb).
      assert (Hin : forall n, ~ under (S l) i n -> ~ under l (2 * i) n /\ ~ under l (2 * i + 1) n /\ n <> i).
      { intros n Hn. split; [|split].
        - intro Q. apply Hn, under_l, Q.
        - intro Q. apply Hn, under_r, Q.
        - intros ->. apply Hn, under_self. }
      assert (Fin : forall a' b', wins l (2 * i) a' e1 (upd cur w0 v) -> wins l (2 * i + 1) b' e1 (upd cur w0 v) ->
                ((w1 = a' /\ e1 i = b') \/ (w1 = b' /\ e1 i = a')) ->
                (forall n, ~ under l (2 * i) n -> ~ under l (2 * i + 1) n -> e1 n = e n) ->
                wins (S l) i w' e' (upd cur w0 v) /\ (forall n, ~ under (S l) i n -> e' n = e n)).
      { intros a' b' Wa Wb Hch He1.
        assert (Ni1 : ~ under l (2 * i) i) by (intro Q; apply under_big in Q; lia).
        assert (Ni2 : ~ under l (2 * i + 1) i) by (intro Q; apply under_big in Q; lia).
        unfold tree_step in E.
        destruct (cur_cmp (upd cur w0 v (e1 i)) (upd cur w0 v w1)) eqn:Ec; injection E as <- <-.
        - split.
          + assert (X : forall n, n <> i -> upd e1 i w1 n = e1 n) by (intros; apply upd_other; assumption).
            exists a', b'. split; [|split; [|split]].
            * apply (wins_ext _ _ _ e1 _ (upd cur w0 v)); [exact Wa| |reflexivity]. intros n Hn. apply X. intros ->. contradiction.
            * apply (wins_ext _ _ _ e1 _ (upd cur w0 v)); [exact Wb| |reflexivity]. intros n Hn. apply X. intros ->. contradiction.
            * rewrite upd_same. destruct Hch as [[-> Q]|[-> Q]]; [right|left]; split; congruence.
            * rewrite upd_same. apply cmp_true, Ec.
          + intros n Hn. destruct (Hin n Hn) as (N1 & N2 & N3). rewrite upd_other by exact N3. apply He1; assumption.
        - split.
          + exists a', b'. split; [exact Wa|split; [exact Wb|split; [exact Hch|apply cmp_false, Ec]]].
          + intros n Hn. destruct (Hin n Hn) as (N1 & N2 & N3). apply He1; assumption. }
      assert (Ni1 : ~ under l (2 * i) i) by (intro Q; apply under_big in Q; lia).
      assert (Ni2 : ~ under l (2 * i + 1) i) by (intro Q; apply under_big in Q; lia).
      destruct Hw as [[-> He]|[-> He]].
      + destruct (IH (2 * i) a e cur v ltac:(lia) Ha w1 e1 E1) as (W1 & F1).
        apply (Fin w1 b); [exact W1| |left; split; [reflexivity|rewrite F1 by exact Ni1; exact He]|intros; apply F1; assumption].
        apply (wins_ext _ _ _ e _ cur); [exact Hb| |].
        * intros n Hn. apply F1. intro Q. exact (under_sep _ _ _ _ Hi Q Hn).
        * intros j d D Ej. apply upd_other. intros ->. nia.
      + destruct (IH (2 * i + 1) b e cur v ltac:(lia) Hb w1 e1 E1) as (W1 & F1).
        apply (Fin a w1); [|exact W1|right; split; [reflexivity|rewrite F1 by exact Ni2; exact He]|intros; apply F1; assumption].
        apply (wins_ext _ _ _ e _ cur); [exact Ha| |].
        * intros n Hn. apply F1. intro Q. exact (under_sep _ _ _ _ Hi Hn Q).
        * intros j d D Ej. apply upd_other. intros ->. nia.
  Qed.

  (** the winner after j steps is a leaf below the j-th node of the path *)
  Lemma climbs_sub L j : forall w0 e cur v, j <= L -> wins L ((w0 + k) / 2 ^ L) w0 e cur -> 0 < (w0 + k) / 2 ^ L ->
    forall w' e', climbs j w0 (upd cur w0 v) e = (w', e') -> (w' + k) / 2 ^ j = (w0 + k) / 2 ^ j.
  Proof.
    intros w0 e cur v Hj H Hi w' e' E.
    assert (Hd : forall m, m <= L -> wins (L - m) ((w0 + k) / 2 ^ (L - m)) w0 e cur /\ 0 < (w0 + k) / 2 ^ (L - m)).
    { induction m as [|m IHm]; intro Hm; [rewrite Nat.sub_0_r; split; assumption|].
      destruct (IHm ltac:(lia)) as (W & P). replace (L - m) with (S (L - S m)) in W, P by lia.
      destruct W as (a & b & Ha & Hb & Hw & _).
      destruct Hw as [[-> _]|[-> _]].
      - rewrite (wins_node _ _ _ _ _ Ha). split; [exact Ha|]. lia.
      - rewrite (wins_node _ _ _ _ _ Hb). split; [exact Hb|]. lia. }
    destruct (Hd (L - j) ltac:(lia)) as (W & P). replace (L - (L - j)) with j in * by lia.
    destruct (climbs_ok j _ w0 e cur v P W w' e' E) as (W' & _).
    rewrite (wins_node _ _ _ _ _ W'). reflexivity.
  Qed.

  Variable L : nat.
  Hypothesis kL : k = 2 ^ L.

  Lemma path_k_climbs w0 e0 cur : w0 < k -> forall d j f w e,
    d = L - j -> j <= L -> d <= f -> climbs j w0 cur e0 = (w, e) ->
    path_k A lt f ((w0 + k) / 2 ^ S j) cur e w = Some (climbs L w0 cur e0).
  Proof.
    intro Hw. induction d as [|d IH]; intros j f w e Hd Hj Hf E.
    - replace j with L in * by lia.
      replace ((w0 + k) / 2 ^ S L) with 0; [destruct f; cbn; rewrite E; reflexivity|].
      symmetry. apply Nat.div_small. rewrite Nat.pow_succ_r'. lia.
    - destruct f as [|f]; [lia|]. cbn [path_k].
      destruct (Nat.eqb_spec ((w0 + k) / 2 ^ S j) 0) as [Z|Z].
      + exfalso. assert (2 ^ S j <= k).
        { rewrite kL. apply Nat.pow_le_mono_r; lia. }
        pose proof (pow_pos (S j)).
        assert (1 <= (w0 + k) / 2 ^ S j) by (apply Nat.div_le_lower_bound; lia). lia.
      + rewrite <- div_pow_split.
        destruct (tree_step A lt cur ((w0 + k) / 2 ^ S j) e w) as [w' e'] eqn:Es.
        apply IH; [lia|lia|lia|]. change (climbs (S j) w0 cur e0) with
          (let (w, e) := climbs j w0 cur e0 in tree_step A lt cur ((w0 + k) / 2 ^ S j) e w).
        rewrite E. exact Es.
  Qed.

  Lemma path_u_climbs w0 e0 cur v : w0 < k -> wins L 1 w0 e0 cur -> forall l j w e,
    l = L - j -> j <= L -> climbs j w0 (upd cur w0 v) e0 = (w, e) ->
    path_u A lt l L (upd cur w0 v) e w = climbs L w0 (upd cur w0 v) e0.
  Proof.
    intros Hw W. pose proof (wins_node _ _ _ _ _ W) as N.
    induction l as [|l IH]; intros j w e Hd Hj E.
    - replace j with L in * by lia. cbn [path_u]. symmetry. exact E.
    - cbn [path_u]. rewrite <- kL. replace (L - S l + 1) with (S j) by lia.
      assert (Es : (w + k) / 2 ^ S j = (w0 + k) / 2 ^ S j).
      { rewrite !div_pow_split. f_equal.
        apply (climbs_sub L j w0 e0 cur v Hj) with (e' := e); [rewrite N; exact W|rewrite N; lia|exact E]. }
      rewrite Es.
      destruct (tree_step A lt (upd cur w0 v) ((w0 + k) / 2 ^ S j) e w) as [w' e'] eqn:Et.
      apply (IH (S j)); [lia|lia|].
      change (climbs (S j) w0 (upd cur w0 v) e0) with
          (let (w, e) := climbs j w0 (upd cur w0 v) e0 in tree_step A lt (upd cur w0 v) ((w0 + k) / 2 ^ S j) e w).
      rewrite E. exact Et.
  Qed.

  Lemma init_winner_ok cur : forall l f i e, k = 2 ^ L -> l < f -> 0 < i -> l <= L ->
    2 ^ (L - l) <= i < 2 ^ (S (L - l)) ->
    exists w e', init_winner A lt f k cur i e = Some (w, e') /\ wins l i w e' cur /\
      (forall n, ~ under l i n -> e' n = e n).
  Proof.
    induction l as [|l IH]; intros f i e Hk Hf Hi Hl Hr; (destruct f as [|f]; [lia|]); cbn [init_winner].
    - rewrite Nat.sub_0_r in Hr. rewrite <- Hk in Hr.
      destruct (Nat.leb_spec k i) as [_|Q]; [|lia]. exists (i - k), e. split; [reflexivity|]. split; [simpl; lia|reflexivity].
    - assert (Hlt : i < k).
      { destruct Hr as [_ Hr]. replace (S (L - S l)) with (L - l) in Hr by lia.
        assert (2 ^ (L - l) <= 2 ^ L) by (apply Nat.pow_le_mono_r; lia). lia. }
      destruct (Nat.leb_spec k i) as [Q|_]; [lia|].
      replace (S (L - S l)) with (L - l) in Hr by lia.
      assert (Hp : 2 ^ (L - l) = 2 * 2 ^ (L - S l)) by (rewrite <- Nat.pow_succ_r'; f_equal; lia).
      pose proof (Nat.pow_succ_r' 2 (L - l)) as Hq.
      destruct (IH f (2 * i) e Hk ltac:(lia) ltac:(lia) ltac:(lia) ltac:(lia)) as (a & e1 & -> & Wa & Fa).
      destruct (IH f (2 * i + 1) e1 Hk ltac:(lia) ltac:(lia) ltac:(lia) ltac:(lia)) as (b & e2 & -> & Wb & Fb).
      assert (Ni1 : ~ under l (2 * i) i) by (intro Q; apply under_big in Q; lia).
      assert (Ni2 : ~ under l (2 * i + 1) i) by (intro Q; apply under_big in Q; lia).
      assert (Fin : forall w x, (w = a /\ x = b) \/ (w = b /\ x = a) -> cle (cur w) (cur x) ->
        wins (S l) i w (upd e2 i x) cur /\ (forall n, ~ under (S l) i n -> upd e2 i x n = e n)).
      { intros w x Hch Hc. split.
        - exists a, b. rewrite upd_same. split; [|split; [|split; [exact Hch|exact Hc]]].
          + apply (wins_ext _ _ _ e1 _ cur); [exact Wa| |reflexivity]. intros n Hn.
            rewrite upd_other by (intros ->; contradiction). apply Fb. intro Q. exact (under_sep _ _ _ _ Hi Hn Q).
          + apply (wins_ext _ _ _ e2 _ cur); [exact Wb| |reflexivity]. intros n Hn. apply upd_other. intros ->; contradiction.
        - intros n Hn. rewrite upd_other by (intros ->; apply Hn, under_self).
          rewrite Fb by (intro Q; apply Hn, under_r, Q). apply Fa. intro Q. apply Hn, under_l, Q. }
      destruct (cur_cmp (cur a) (cur b)) eqn:E.
      + destruct (Fin a b (or_introl (conj eq_refl eq_refl)) (cmp_true _ _ E)) as (W & F). eauto.
      + destruct (Fin b a (or_intror (conj eq_refl eq_refl)) (cmp_false _ _ E)) as (W & F). eauto.
  Qed.
End Tree.

Lemma perm_sets {X} (l : list X) (f : nat -> list X) n w b x rest :
  w < n -> f w = x :: rest -> l = concat (map f (seq 0 n)) ->
  Permutation (l ++ b) (x :: concat (map (upd f w b) (seq 0 n)) ++ rest).
Proof.
  intros Hw E ->.
  assert (H : forall m s, s <= w < s + m ->
    Permutation (concat (map f (seq s m)) ++ b) (x :: concat (map (upd f w b) (seq s m)) ++ rest)).
  { induction m as [|m IH]; intros s Hs; [lia|]. cbn [seq map concat].
    destruct (Nat.eq_dec s w) as [->|N].
    - rewrite upd_same, E. cbn [app]. constructor.
      assert (Eq : map (upd f w b) (seq (S w) m) = map f (seq (S w) m)).
      { apply map_ext_in. intros j Hj. apply in_seq in Hj. apply upd_other. lia. }
      rewrite Eq. rewrite <- app_assoc. set (c := concat _).
      apply (Permutation_trans (Permutation_app_comm rest (c ++ b))). rewrite <- app_assoc.
      apply (Permutation_trans (Permutation_app_comm c (b ++ rest))). rewrite <- !app_assoc.
      apply Permutation_app_head, Permutation_app_comm.
    - rewrite (upd_other _ w b s N), <- app_assoc.
      eapply Permutation_trans; [apply Permutation_app_head, IH; lia|].
      rewrite <- app_assoc. apply Permutation_sym, Permutation_middle. }
  apply H. lia.
Qed.

Lemma nd_snoc {X} (l : list X) x : NoDup l -> ~ In x l -> NoDup (l ++ [x]).
Proof. intros H N. apply (Permutation_NoDup (Permutation_cons_append l x)). constructor; assumption. Qed.

Section Merge.
  Variable A : Type.
  Variable lt : A -> A -> bool.
  Hypothesis SW : strict_weak lt.
  Notation cle := (cle A lt).

  Definition below (X Y : list A) : Prop := forall x y, In x X -> In y Y -> le lt x y.
  Definition hle (X Y : list A) : Prop := match X, Y with x :: _, y :: _ => le lt x y | _, _ => True end.

  (** relation between two blocks (tagged with their run) in the order of consumption *)
  Definition later (u v : nat * list A) : Prop :=
    hle (snd u) (snd v) /\ (fst u = fst v -> below (snd u) (snd v)).

  Variables nr k : nat.
  Hypothesis nr1 : 0 < nr.
  Hypothesis nrk : nr <= k.

  (** ghost state: run tag and full block of every cursor, tagged blocks not handed out *)
  Record G (cur : nat -> list A) (og : nat -> nat * list A) (us : list (nat * list A)) : Prop := {
    g_sorted : forall i, i < nr -> sorted lt (snd (og i)) /\ exists p, snd (og i) = p ++ cur i;
    g_inf : forall i, nr <= i -> cur i = [];
    g_us : ForallOrdPairs later us;
    g_blk : forall u, In u us -> fst u < nr /\ snd u <> [] /\ sorted lt (snd u);
    g_act : forall i u, i < nr -> cur i <> [] -> In u us -> later (og i) u;
    g_two : forall i j, i < nr -> j < nr -> i <> j -> cur i <> [] -> cur j <> [] -> fst (og i) = fst (og j) ->
       below (snd (og i)) (snd (og j)) \/ below (snd (og j)) (snd (og i));
    g_tag : forall i, i < nr -> cur i <> [] -> fst (og i) < nr;
    g_all : us <> [] -> forall i, i < nr -> cur i <> [] }.

  Lemma dup_or_cover (f : nat -> nat) n : (forall i, i < n -> f i < n) ->
    (exists i j, i < n /\ j < n /\ i <> j /\ f i = f j) \/ (forall t, t < n -> exists i, i < n /\ f i = t).
  Proof.
    intro Hf.
    assert (D : (exists i j, i < n /\ j < n /\ i <> j /\ f i = f j) \/ NoDup (map f (seq 0 n))).
    { clear Hf. induction n as [|n IH]; [right; constructor|].
      destruct IH as [(i & j & ? & ? & ? & ?)|IH]; [left; exists i, j; repeat split; auto; lia|].
      rewrite seq_S, map_app. simpl.
      destruct (in_dec Nat.eq_dec (f n) (map f (seq 0 n))) as [I|I].
      - apply in_map_iff in I. destruct I as (i & E & I). apply in_seq in I.
        left. exists i, n. repeat split; try lia. 
      - right. apply nd_snoc; assumption. }
    destruct D as [D|D]; [left; exact D|right].
    intros t Ht.
    assert (I : incl (seq 0 n) (map f (seq 0 n))).
    { apply NoDup_length_incl; [exact D|rewrite map_length; lia|].
      intros y Hy. apply in_map_iff in Hy. destruct Hy as (i & <- & Hi). apply in_seq in Hi.
      apply in_seq. specialize (Hf i). lia. }
    specialize (I t). rewrite in_seq, in_map_iff in I. destruct I as (i & E & Hi); [lia|].
    apply in_seq in Hi. exists i. split; [lia|exact E].
  Qed.
  Lemma active_min cur og u us : G cur og (u :: us) -> exists i, i < nr /\ cle (cur i) (snd u).
  Proof.
    intros HG. pose proof (g_all _ _ _ HG ltac:(discriminate)) as Hact.
    assert (Sub : forall i, i < nr -> forall z, In z (cur i) -> In z (snd (og i))).
    { intros i Hi z Hz. destruct (g_sorted _ _ _ HG i Hi) as (_ & p & ->). apply in_or_app; right; exact Hz. }
    assert (Og : forall i, i < nr -> exists z l, snd (og i) = z :: l).
    { intros i Hi. destruct (cur i) as [|z l] eqn:E; [destruct (Hact i Hi E)|].
      specialize (Sub i Hi z). rewrite E in Sub. specialize (Sub (or_introl eq_refl)).
      destruct (snd (og i)); [destruct Sub|eauto]. }
    destruct (dup_or_cover (fun i => fst (og i)) nr) as [(i & j & Hi & Hj & Hn & Ht)|C].
    - intros i Hi. apply (g_tag _ _ _ HG i Hi), Hact, Hi.
    - assert (W : forall i j, i < nr -> j < nr -> below (snd (og i)) (snd (og j)) -> cle (cur i) (snd u)).
      { clear i j Hi Hj Hn Ht. intros i j Hi Hj B.
        destruct (cur i) as [|a l] eqn:E; [destruct (Hact i Hi E)|].
        destruct (snd u) as [|c m] eqn:Eu; [exact I|]. simpl.
        destruct (Og j Hj) as (z & q & Ez).
        apply (le_trans _ _ SW _ z).
        - apply B; [apply (Sub i Hi); rewrite E; left; reflexivity|rewrite Ez; left; reflexivity].
        - destruct (g_act _ _ _ HG j u Hj (Hact j Hj) (or_introl eq_refl)) as (H & _).
          rewrite Ez, Eu in H. exact H. }
      destruct (g_two _ _ _ HG i j Hi Hj Hn (Hact i Hi) (Hact j Hj) Ht) as [B|B]; [exists i|exists j]; split; eauto.
    - destruct (g_blk _ _ _ HG u (or_introl eq_refl)) as (Ht & _ & _).
      destruct (C (fst u) Ht) as (i & Hi & Ei). exists i. split; [exact Hi|].
      destruct (g_act _ _ _ HG i u Hi (Hact i Hi) (or_introl eq_refl)) as (_ & B). specialize (B Ei).
      destruct (cur i) as [|a l] eqn:E; [destruct (Hact i Hi E)|].
      destruct (snd u) as [|c m] eqn:Eu; [exact I|]. simpl. apply B; [|left; reflexivity].
      apply (Sub i Hi). rewrite E; left; reflexivity.
  Qed.

  Definition rem (cur : nat -> list A) (us : list (nat * list A)) : list A :=
    concat (map cur (seq 0 k)) ++ concat (map snd us).

  Lemma in_concat_map (cur : nat -> list A) n y : In y (concat (map cur (seq 0 n))) -> exists j, j < n /\ In y (cur j).
  Proof.
    intro H. apply in_concat in H. destruct H as (l & Hl & Hy). apply in_map_iff in Hl.
    destruct Hl as (j & <- & Hj). apply in_seq in Hj. exists j. split; [lia|exact Hy].
  Qed.

  Lemma cur_sorted cur og us i : G cur og us -> sorted lt (cur i).
  Proof.
    intro HG. destruct (Nat.lt_ge_cases i nr) as [L|L].
    - destruct (g_sorted _ _ _ HG i L) as (Hs & p & E). rewrite E in Hs. apply sorted_app_inv in Hs. apply Hs.
    - rewrite (g_inf _ _ _ HG i L). constructor.
  Qed.

  Lemma winner_min cur og us w : G cur og us -> (forall j, j < k -> cle (cur w) (cur j)) -> rem cur us <> [] ->
    exists x rest, cur w = x :: rest /\ forall y, In y (rem cur us) -> le lt x y.
  Proof.
    intros HG Hw Hr.
    assert (Hx : exists x rest, cur w = x :: rest).
    { destruct (cur w) as [|x rest] eqn:E; [|eauto]. exfalso.
      assert (Z : forall j, j < k -> cur j = []).
      { intros j Hj. specialize (Hw j Hj). simpl in Hw. destruct (cur j); [reflexivity|contradiction]. }
      destruct us as [|u us].
      - apply Hr. unfold rem. simpl. rewrite app_nil_r. apply concat_nil_Forall. rewrite Forall_map, Forall_forall.
        intros j Hj. apply in_seq in Hj. apply Z. lia.
      - apply (g_all _ _ _ HG ltac:(discriminate) 0 nr1). apply Z. lia. }
    destruct Hx as (x & rest & E). exists x, rest. split; [exact E|].
    intros y Hy. unfold rem in Hy. apply in_app_or in Hy. destruct Hy as [Hy|Hy].
    - apply in_concat_map in Hy. destruct Hy as (j & Hj & Hy). specialize (Hw j Hj). rewrite E in Hw.
      pose proof (cur_sorted _ _ _ j HG) as Hs. destruct (cur j) as [|a l]; [destruct Hy|]. simpl in Hw.
      eapply le_trans; [exact SW|exact Hw|]. eapply sorted_hd; eassumption.
    - apply in_concat in Hy. destruct Hy as (v & Hv & Hy). apply in_map_iff in Hv. destruct Hv as (v' & <- & Hv).
      destruct us as [|u us]; [destruct Hv|].
      destruct (active_min _ _ _ _ HG) as (i & Hi & Hm).
      assert (H1 : cle (x :: rest) (snd u)).
      { eapply cle_trans; [exact SW| |exact Hm]. rewrite <- E. apply Hw. lia. }
      destruct (g_blk _ _ _ HG u (or_introl eq_refl)) as (_ & Nu & _).
      destruct (snd u) as [|a l] eqn:Eu; [contradiction|]. simpl in H1.
      destruct (g_blk _ _ _ HG v' Hv) as (_ & Nv & Sv).
      destruct (snd v') as [|c m] eqn:Ev; [contradiction|].
      apply (le_trans _ _ SW _ a); [exact H1|]. apply (le_trans _ _ SW _ c); [|eapply sorted_hd; eassumption].
      destruct Hv as [->|Hv].
      + rewrite Eu in Ev. injection Ev as -> ->. apply le_refl, SW.
      + pose proof (g_us _ _ _ HG) as HP. inversion HP as [|? ? HF _]; subst. rewrite Forall_forall in HF.
        destruct (HF v' Hv) as (Hh & _). rewrite Eu, Ev in Hh. exact Hh.
  Qed.

  Lemma advance_ok cur og us w x rest : G cur og us -> cur w = x :: rest ->
    exists og' us' b, advance rest (map snd us) = (b, map snd us') /\ G (upd cur w b) og' us' /\
      Permutation (rem cur us) (x :: rem (upd cur w b) us').
  Proof.
    intros HG E.
    assert (Hwn : w < nr).
    { destruct (Nat.lt_ge_cases w nr) as [L|L]; [exact L|]. rewrite (g_inf _ _ _ HG w L) in E. discriminate. }
    assert (Act : cur w <> []) by (rewrite E; discriminate).
    destruct rest as [|y rest].
    - destruct us as [|u us].
      + exists og, [], []. split; [reflexivity|]. split.
        * assert (X : forall i, upd cur w [] i <> [] -> cur i <> [] /\ i <> w /\ upd cur w [] i = cur i).
          { intros i Hi. destruct (Nat.eq_dec i w) as [->|N]; [rewrite upd_same in Hi; contradiction|].
            rewrite upd_other in * by exact N. auto. }
          constructor.
          -- intros i Hi. destruct (g_sorted _ _ _ HG i Hi) as (Hs & p & Ep). split; [exact Hs|].
             destruct (Nat.eq_dec i w) as [->|N]; [exists (snd (og w)); rewrite upd_same, app_nil_r; reflexivity|].
             exists p. rewrite upd_other by exact N. exact Ep.
          -- intros i Hi. rewrite upd_other by lia. apply (g_inf _ _ _ HG); exact Hi.
          -- constructor.
          -- intros u [].
          -- intros i u _ _ [].
          -- intros i j Hi Hj Hn Ai Aj Ht. apply X in Ai, Aj. apply (g_two _ _ _ HG); tauto.
          -- intros i Hi Ai. apply X in Ai. apply (g_tag _ _ _ HG); tauto.
          -- intro H; contradiction.
        * pose proof (perm_sets _ cur k w [] x [] ltac:(lia) E eq_refl) as P. unfold rem. simpl.
          rewrite !app_nil_r in *. exact P.
      + exists (upd og w u), us, (snd u). split; [reflexivity|].
        destruct (g_blk _ _ _ HG u (or_introl eq_refl)) as (Tu & Nu & Su).
        pose proof (g_us _ _ _ HG) as HP. inversion HP as [|? ? HF HP']; subst. rewrite Forall_forall in HF.
        pose proof (g_all _ _ _ HG ltac:(discriminate)) as Hall.
        split.
        * constructor.
          -- intros i Hi. destruct (Nat.eq_dec i w) as [->|N].
             ++ rewrite !upd_same. split; [exact Su|]. exists []. reflexivity.
             ++ rewrite !upd_other by exact N. apply (g_sorted _ _ _ HG i Hi).
          -- intros i Hi. rewrite upd_other by lia. apply (g_inf _ _ _ HG); exact Hi.
          -- exact HP'.
          -- intros v Hv. apply (g_blk _ _ _ HG). right; exact Hv.
          -- intros i v Hi Ai Hv. destruct (Nat.eq_dec i w) as [->|N].
             ++ rewrite upd_same. apply HF, Hv.
             ++ rewrite upd_other by exact N. apply (g_act _ _ _ HG); [exact Hi|apply Hall, Hi|right; exact Hv].
          -- intros i j Hi Hj Hn Ai Aj Ht. destruct (Nat.eq_dec i w) as [->|Ni], (Nat.eq_dec j w) as [->|Nj].
             ++ contradiction.
             ++ rewrite upd_same in *. rewrite (upd_other og) in * by exact Nj. right.
                apply (g_act _ _ _ HG j u Hj (Hall j Hj) (or_introl eq_refl)). congruence.
             ++ rewrite (upd_same og) in *. rewrite (upd_other og) in * by exact Ni. left.
                apply (g_act _ _ _ HG i u Hi (Hall i Hi) (or_introl eq_refl)). congruence.
             ++ rewrite (upd_other og) in * by assumption. rewrite (upd_other og) in * by assumption.
                apply (g_two _ _ _ HG); auto.
          -- intros i Hi Ai. destruct (Nat.eq_dec i w) as [->|N]; [rewrite upd_same; exact Tu|].
             rewrite upd_other by exact N. apply (g_tag _ _ _ HG); auto.
          -- intros _ i Hi. destruct (Nat.eq_dec i w) as [->|N]; [rewrite upd_same; exact Nu|].
             rewrite upd_other by exact N. apply Hall, Hi.
        * pose proof (perm_sets _ cur k w (snd u) x [] ltac:(lia) E eq_refl) as P. rewrite app_nil_r in P.
          unfold rem. cbn [map concat]. rewrite app_assoc.
          apply (Permutation_app_tail (concat (map snd us)) P).
    - exists og, us, (y :: rest). split; [reflexivity|].
      assert (X : forall i, upd cur w (y :: rest) i <> [] -> cur i <> []).
      { intros i Hi. destruct (Nat.eq_dec i w) as [->|N]; [exact Act|]. rewrite upd_other in Hi by exact N. exact Hi. }
      split.
      + constructor.
        * intros i Hi. destruct (g_sorted _ _ _ HG i Hi) as (Hs & p & Ep). split; [exact Hs|].
          destruct (Nat.eq_dec i w) as [->|N].
          -- rewrite upd_same. exists (p ++ [x]). rewrite Ep, E, <- app_assoc. reflexivity.
          -- rewrite upd_other by exact N. eauto.
        * intros i Hi. rewrite upd_other by lia. apply (g_inf _ _ _ HG); exact Hi.
        * apply (g_us _ _ _ HG).
        * apply (g_blk _ _ _ HG).
        * intros i v Hi Ai Hv. apply (g_act _ _ _ HG); auto.
        * intros i j Hi Hj Hn Ai Aj Ht. apply (g_two _ _ _ HG); auto.
        * intros i Hi Ai. apply (g_tag _ _ _ HG); auto.
        * intros Hu i Hi. destruct (Nat.eq_dec i w) as [->|N]; [rewrite upd_same; discriminate|].
          rewrite upd_other by exact N. apply (g_all _ _ _ HG); auto.
      + unfold rem. pose proof (perm_sets _ cur k w (y :: rest) x (y :: rest) ltac:(lia) E eq_refl) as P.
        assert (P2 : Permutation (concat (map cur (seq 0 k))) (x :: concat (map (upd cur w (y :: rest)) (seq 0 k))))
          by (apply (Permutation_app_inv_r (y :: rest)); exact P).
        apply (Permutation_app_tail (concat (map snd us)) P2).
  Qed.

  Variable L : nat.
  Hypothesis kL : k = 2 ^ L.
  Notation wins := (wins A lt k).

  Lemma top_min w e cur : wins L 1 w e cur -> w < k /\ forall j, j < k -> cle (cur w) (cur j).
  Proof.
    intro H. destruct (wins_sub _ _ _ _ _ _ _ _ H) as (d & D & E). split; [lia|].
    intros j Hj. apply (wins_min _ _ SW _ _ _ _ _ _ H j j); lia.
  Qed.

  Lemma wins_e0 w e x cur : wins L 1 w e cur -> wins L 1 w (upd e 0 x) cur.
  Proof.
    intro H. apply (wins_ext _ _ _ _ _ _ e _ cur); [exact H| |reflexivity].
    intros n Hn. apply upd_other. intros ->. apply under_big in Hn; lia.
  Qed.

  Definition good_path (path : (nat -> list A) -> (nat -> nat) -> nat -> option (nat * (nat -> nat))) : Prop :=
    forall cur e w v, wins L 1 w e cur ->
      exists w' e', path (upd cur w v) e w = Some (w', e') /\ wins L 1 w' e' (upd cur w v).

  Lemma path_k_good : good_path (fun cur e w => path_k A lt (S L) ((w + k) / 2) cur e w).
  Proof.
    intros cur e w v W. destruct (top_min _ _ _ W) as (Hw & _).
    pose proof (path_k_climbs A lt k L kL w e (upd cur w v) Hw L 0 (S L) w e ltac:(lia) ltac:(lia) ltac:(lia) eq_refl) as P.
    rewrite Nat.pow_1_r in P. rewrite P. destruct (climbs A lt k L w (upd cur w v) e) as [w' e'] eqn:E.
    exists w', e'. split; [reflexivity|].
    apply (climbs_ok A lt SW k L 1 w e cur v ltac:(lia) W w' e' E).
  Qed.
  Lemma path_u_good : good_path (fun cur e w => Some (path_u A lt L L cur e w)).
  Proof.
    intros cur e w v W. destruct (top_min _ _ _ W) as (Hw & _).
    rewrite (path_u_climbs A lt SW k L kL w e cur v Hw W L 0 w e ltac:(lia) ltac:(lia) eq_refl).
    destruct (climbs A lt k L w (upd cur w v) e) as [w' e'] eqn:E.
    exists w', e'. split; [reflexivity|].
    apply (climbs_ok A lt SW k L 1 w e cur v ltac:(lia) W w' e' E).
  Qed.

  Definition pulled (cur : nat -> list A) (us : list (nat * list A)) out (cur' : nat -> list A) us' : Prop :=
    Permutation (rem cur us) (out ++ rem cur' us') /\ sorted lt out /\ below out (rem cur' us').

  Lemma pulled_nil cur us : pulled cur us [] cur us.
  Proof. split; [apply Permutation_refl|]. split; [constructor|intros x y []]. Qed.
  Lemma pulled_cons cur us x cur1 us1 out cur' us' :
    Permutation (rem cur us) (x :: rem cur1 us1) -> (forall y, In y (rem cur us) -> le lt x y) ->
    pulled cur1 us1 out cur' us' -> pulled cur us (x :: out) cur' us'.
  Proof.
    intros P M (P1 & S1 & B1). split; [|split].
    - eapply Permutation_trans; [exact P|]. simpl. constructor. exact P1.
    - constructor; [exact S1|]. rewrite Forall_forall. intros y Hy. apply M.
      apply (Permutation_in _ (Permutation_sym P)). right. apply (Permutation_in _ (Permutation_sym P1)).
      apply in_or_app; left; exact Hy.
    - intros a b [<-|Ha] Hb; [|apply B1; assumption]. apply M.
      apply (Permutation_in _ (Permutation_sym P)). right. apply (Permutation_in _ (Permutation_sym P1)).
      apply in_or_app; right; exact Hb.
  Qed.

  Lemma rem_nonempty cur us n : S n <= length (rem cur us) -> rem cur us <> [].
  Proof. intros H E. rewrite E in H. simpl in H. lia. Qed.

  Lemma merge_with_ok path : good_path path -> forall n w e cur og us,
    wins L 1 w e cur -> G cur og us -> n <= length (rem cur us) ->
    exists out w' e' cur' og' us',
      merge_with A path n w e cur (map snd us) = Some (out, (w', e', cur', map snd us')) /\
      wins L 1 w' e' cur' /\ G cur' og' us' /\ length out = n /\ pulled cur us out cur' us'.
  Proof.
    intro Hp. induction n as [|n IH]; intros w e cur og us W HG Hn.
    - exists [], w, e, cur, og, us. split; [reflexivity|]. split; [exact W|]. split; [exact HG|]. split; [reflexivity|apply pulled_nil].
    - destruct (top_min _ _ _ W) as (Hw & Hm).
      destruct (winner_min cur og us w HG Hm (rem_nonempty _ _ _ Hn)) as (x & rest & E & M).
      destruct (advance_ok cur og us w x rest HG E) as (og1 & us1 & b & Ea & G1 & P1).
      destruct (Hp cur e w b W) as (w1 & e1 & Ep & W1).
      destruct (IH w1 e1 (upd cur w b) og1 us1 W1 G1) as (out & w' & e' & cur' & og' & us' & Er & W' & G' & Hl & Hpl).
      { apply Permutation_length in P1. simpl in P1. lia. }
      cbn [merge_with]. rewrite E, Ea. rewrite Ep, Er.
      exists (x :: out), w', e', cur', og', us'. split; [reflexivity|]. split; [exact W'|]. split; [exact G'|].
      split; [simpl; lia|]. eapply pulled_cons; eassumption.
  Qed.

  Lemma merge_0_ok : k = 1 -> forall n cur og us, G cur og us -> n <= length (rem cur us) ->
    exists out cur' og' us',
      merge_0 A n cur (map snd us) = Some (out, (cur', map snd us')) /\
      G cur' og' us' /\ length out = n /\ pulled cur us out cur' us'.
  Proof.
    intro k1. induction n as [|n IH]; intros cur og us HG Hn.
    - exists [], cur, og, us. split; [reflexivity|]. split; [exact HG|]. split; [reflexivity|apply pulled_nil].
    - destruct (winner_min cur og us 0 HG) as (x & rest & E & M).
      { intros j Hj. replace j with 0 by lia. apply cle_refl, SW. }
      { exact (rem_nonempty _ _ _ Hn). }
      destruct (advance_ok cur og us 0 x rest HG E) as (og1 & us1 & b & Ea & G1 & P1).
      destruct (IH (upd cur 0 b) og1 us1 G1) as (out & cur' & og' & us' & Er & G' & Hl & Hpl).
      { apply Permutation_length in P1. simpl in P1. lia. }
      cbn [merge_0]. rewrite E, Ea, Er.
      exists (x :: out), cur', og', us'. split; [reflexivity|]. split; [exact G'|].
      split; [simpl; lia|]. eapply pulled_cons; eassumption.
  Qed.

  Record tinv (t : ltree A) og us : Prop := {
    ti_log : t_log t = L; ti_k : t_k t = k; ti_src : t_src t = map snd us;
    ti_G : G (t_cur t) og us;
    ti_w : wins L 1 (t_entry t 0) (t_entry t) (t_cur t) }.

  Lemma multi_merge_ok n t og us : tinv t og us -> n <= length (rem (t_cur t) us) ->
    exists out t' og' us', multi_merge A lt n t = Some (out, t') /\ tinv t' og' us' /\ length out = n /\
      pulled (t_cur t) us out (t_cur t') us'.
  Proof.
    intros [Tl Tk Ts TG TW] Hn. unfold multi_merge. rewrite Tl, Tk, Ts.
    destruct (Nat.eqb_spec L 0) as [Z|Z].
    - assert (k1 : k = 1) by (rewrite kL, Z; reflexivity).
      destruct (merge_0_ok k1 n (t_cur t) og us TG Hn) as (out & cur' & og' & us' & -> & G' & Hl & Hp).
      eexists _, _, og', us'. split; [reflexivity|]. split; [|split; [exact Hl|exact Hp]].
      constructor; try reflexivity; [exact G'|]. cbn [t_entry t_cur].
      rewrite Z in *. exact TW.
    - set (path := if L <=? 10 then _ else _).
      assert (Hp : good_path path) by (subst path; destruct (L <=? 10); [apply path_u_good|apply path_k_good]).
      destruct (merge_with_ok path Hp n _ _ _ og us TW TG Hn) as (out & w' & e' & cur' & og' & us' & -> & W' & G' & Hl & Hpl).
      eexists _, _, og', us'. split; [reflexivity|]. split; [|split; [exact Hl|exact Hpl]].
      constructor; try reflexivity; [exact G'|]. cbn [t_entry t_cur]. rewrite upd_same. apply wins_e0, W'.
  Qed.

  Lemma multi_merges_ok ns : forall t og us, tinv t og us -> list_sum ns <= length (rem (t_cur t) us) ->
    exists outs t' og' us', multi_merges A lt ns t = Some (outs, t') /\ tinv t' og' us' /\ map (@length A) outs = ns /\
      pulled (t_cur t) us (concat outs) (t_cur t') us'.
  Proof.
    induction ns as [|n ns IH]; intros t og us T Hn.
    - exists [], t, og, us. split; [reflexivity|]. split; [exact T|]. split; [reflexivity|apply pulled_nil].
    - cbn [list_sum fold_right] in Hn. fold (list_sum ns) in Hn.
      destruct (multi_merge_ok n t og us T ltac:(lia)) as (out & t1 & og1 & us1 & E1 & T1 & L1 & P1 & S1 & B1).
      destruct (IH t1 og1 us1 T1) as (outs & t' & og' & us' & E2 & T2 & L2 & P2 & S2 & B2).
      { apply Permutation_length in P1. rewrite app_length in P1. lia. }
      cbn [multi_merges]. rewrite E1, E2. exists (out :: outs), t', og', us'. split; [reflexivity|]. split; [exact T2|].
      split; [simpl; f_equal; assumption|]. cbn [concat].
      assert (I : forall y, In y (concat outs) -> In y (rem (t_cur t1) us1)).
      { intros y Hy. apply (Permutation_in _ (Permutation_sym P2)), in_or_app. left; exact Hy. }
      split; [|split].
      + eapply Permutation_trans; [exact P1|]. rewrite <- app_assoc. apply Permutation_app_head, P2.
      + apply sorted_app; [exact S1|exact S2|]. intros x y Hx Hy. apply B1; [exact Hx|apply I, Hy].
      + intros x y Hx Hy. apply in_app_or in Hx. destruct Hx as [Hx|Hx]; [|apply B2; assumption].
        apply B1; [exact Hx|]. apply (Permutation_in _ (Permutation_sym P2)), in_or_app. right; exact Hy.
  Qed.
End Merge.

Lemma pull_ok {X} : forall n i (cur : nat -> list X) (us : list (nat * list X)), n <= length us ->
  exists cur', pull_cursors i n cur (map snd us) = Some (cur', map snd (skipn n us)) /\
    (forall j u, j < n -> nth_error us j = Some u -> cur' (i + j) = snd u) /\
    (forall j, j < i \/ i + n <= j -> cur' j = cur j).
Proof.
  induction n as [|n IH]; intros i cur us Hn.
  - exists cur. split; [reflexivity|]. split; [intros; lia|reflexivity].
  - destruct us as [|u us]; [simpl in Hn; lia|]. simpl in Hn. cbn [pull_cursors map skipn].
    destruct (IH (S i) (upd cur i (snd u)) us ltac:(lia)) as (cur' & E & H1 & H2).
    exists cur'. split; [exact E|]. split.
    + intros [|j] v Hj Ev.
      * simpl in Ev. injection Ev as <-. rewrite Nat.add_0_r, H2 by lia. apply upd_same.
      * rewrite Nat.add_succ_r. apply (H1 j v); [lia|exact Ev].
    + intros j Hj. rewrite H2 by lia. apply upd_other. lia.
Qed.

Lemma fop_nth {X} (R : X -> X -> Prop) l : ForallOrdPairs R l ->
  forall i j a b, i < j -> nth_error l i = Some a -> nth_error l j = Some b -> R a b.
Proof.
  induction 1 as [|x l HF HP IH]; intros i j a b Hij Ha Hb; [destruct i; discriminate|].
  destruct j as [|j]; [lia|]. destruct i as [|i]; simpl in *.
  - injection Ha as <-. rewrite Forall_forall in HF. apply HF. eapply nth_error_In; exact Hb.
  - apply (IH i j); [lia|assumption|assumption].
Qed.
Lemma fop_skip {X} (R : X -> X -> Prop) n l : ForallOrdPairs R l -> ForallOrdPairs R (skipn n l).
Proof.
  revert l. induction n as [|n IH]; intros l H; [exact H|]. destruct l; [exact H|].
  simpl. apply IH. inversion H; assumption.
Qed.
Lemma in_skip {X} n (l : list X) u : In u (skipn n l) -> exists j, n <= j /\ nth_error l j = Some u.
Proof.
  intro H. apply In_nth_error in H. destruct H as (j & E). exists (n + j). split; [lia|].
  revert l E. induction n as [|n IH]; intros l E; [exact E|]. destruct l; [destruct j; discriminate|]. simpl in *. apply IH, E.
Qed.
Lemma concat_pull {X} n : forall s (cur : nat -> list X) (us : list (nat * list X)),
  (forall j u, j < n -> nth_error us j = Some u -> cur (s + j) = snd u) -> n <= length us ->
  concat (map cur (seq s n)) = concat (map snd (firstn n us)).
Proof.
  induction n as [|n IH]; intros s cur us H Hn; [reflexivity|].
  destruct us as [|u us]; [simpl in Hn; lia|]. simpl in Hn. cbn [seq map concat firstn].
  rewrite <- (H 0 u ltac:(lia) eq_refl), Nat.add_0_r. f_equal. apply IH; [|lia].
  intros j v Hj Ev. rewrite Nat.add_succ_l, <- Nat.add_succ_r. apply H; [lia|exact Ev].
Qed.
Lemma concat_nils {X} n : forall s (cur : nat -> list X), (forall j, s <= j -> cur j = []) -> concat (map cur (seq s n)) = [].
Proof. induction n as [|n IH]; intros s cur H; [reflexivity|]. cbn. rewrite H by lia. apply IH. intros; apply H; lia. Qed.

Lemma new_tree_ok A lt (SW : strict_weak lt) nr us : 0 < nr -> nr <= length us ->
  ForallOrdPairs (later A lt) us ->
  (forall u, In u us -> fst u < nr /\ snd u <> [] /\ sorted lt (snd u)) ->
  let L := Nat.log2_up nr in
  exists t og us', new_tree A lt nr (map snd us) = Some t /\ tinv A lt nr (2 ^ L) L t og us' /\
    rem A (2 ^ L) (t_cur t) us' = concat (map snd us).
Proof.
  intros H0 Hn HP HB L.
  assert (Hk : nr <= 2 ^ L).
  { destruct (Nat.eq_dec nr 1) as [->|N]; [simpl; lia|]. apply Nat.log2_up_spec. lia. }
  destruct (pull_ok nr 0 (fun _ => []) us Hn) as (cur & Ep & C1 & C2).
  unfold new_tree. rewrite Ep. fold L.
  destruct us as [|u0 us0] eqn:Eus; [simpl in Hn; lia|]. rewrite <- Eus in *.
  set (og := fun i => nth i us u0).
  assert (Hog : forall i, i < nr -> nth_error us i = Some (og i)).
  { intros i Hi. apply nth_error_nth'. lia. }
  assert (Hc : forall i, i < nr -> cur i = snd (og i)) by (intros i Hi; apply (C1 i (og i) Hi (Hog i Hi))).
  assert (HG : G A lt nr cur og (skipn nr us)).
  { constructor.
    - intros i Hi. rewrite (Hc i Hi). destruct (HB (og i)) as (_ & _ & S1); [eapply nth_error_In, Hog, Hi|].
      split; [exact S1|exists []; reflexivity].
    - intros i Hi. rewrite C2 by lia. reflexivity.
    - apply fop_skip, HP.
    - intros u Hu. apply HB. apply in_skip in Hu. destruct Hu as (j & _ & E). eapply nth_error_In, E.
    - intros i u Hi _ Hu. apply in_skip in Hu. destruct Hu as (j & Hj & E).
      apply (fop_nth _ _ HP i j); [lia|apply Hog, Hi|exact E].
    - intros i j Hi Hj N _ _ Et. destruct (Nat.lt_ge_cases i j) as [L1|L1].
      + left. apply (fop_nth _ _ HP i j); auto.
      + right. apply (fop_nth _ _ HP j i); auto. lia.
    - intros i Hi _. apply HB. eapply nth_error_In, Hog, Hi.
    - intros _ i Hi. rewrite (Hc i Hi). apply HB. eapply nth_error_In, Hog, Hi. }
  destruct (init_winner_ok A lt SW (2 ^ L) L eq_refl cur L (S L) 1 (fun _ => 0) eq_refl ltac:(lia) ltac:(lia) ltac:(lia))
    as (w & e & Ew & W & _).
  { rewrite Nat.sub_diag. simpl. lia. }
  rewrite Ew. eexists _, og, (skipn nr us). split; [reflexivity|]. split.
  - constructor; try reflexivity; [exact HG|]. cbn [t_entry t_cur]. rewrite upd_same. apply (wins_e0 A lt nr (2 ^ L)); try assumption; reflexivity.
  - unfold rem. cbn [t_cur]. replace (2 ^ L) with (nr + (2 ^ L - nr)) by lia.
    rewrite seq_app, map_app, concat_app. rewrite (concat_pull nr 0 cur us C1 Hn).
    rewrite concat_nils by (intros j Hj; rewrite C2 by lia; reflexivity).
    rewrite app_nil_r, <- concat_app, <- map_app, firstn_skipn. reflexivity.
Qed.

(** ---- from sorted runs to the tagged consumption sequence ---- *)
Fixpoint tag {A} (n : nat) (runs : list (list (A * list A))) : list (A * (nat * list A)) :=
  match runs with
  | [] => []
  | r :: rs => map (fun b => (fst b, (n, snd b))) r ++ tag (S n) rs
  end.
Lemma tag_untag {A} (runs : list (list (A * list A))) : forall n,
  map (fun b => (fst b, snd (snd b))) (tag n runs) = concat runs.
Proof.
  induction runs as [|r rs IH]; intro n; [reflexivity|]. cbn [tag concat]. rewrite map_app, map_map, IH. f_equal.
  rewrite <- (map_id r) at 2. apply map_ext. intros [x y]; reflexivity.
Qed.
Lemma insert_map {X Y} (f : X -> Y) ltx lty : (forall a b, ltx a b = lty (f a) (f b)) ->
  forall x l, map f (insert ltx x l) = insert lty (f x) (map f l).
Proof. intros H x l. induction l as [|y l IH]; [reflexivity|]. cbn. rewrite H. destruct (lty (f y) (f x)); cbn; congruence. Qed.
Lemma ssort_map {X Y} (f : X -> Y) ltx lty : (forall a b, ltx a b = lty (f a) (f b)) ->
  forall l, map f (ssort ltx l) = ssort lty (map f l).
Proof. intros H l. induction l as [|y l IH]; [reflexivity|]. cbn. rewrite (insert_map f _ lty H), IH. reflexivity. Qed.
Lemma strict_weak_by {X Y} (f : X -> Y) lt : strict_weak lt -> strict_weak (fun a b => lt (f a) (f b)).
Proof. intros [H1 H2 H3]. constructor; intros; eauto. Qed.
Lemma fop_app {X} (R : X -> X -> Prop) l1 l2 : ForallOrdPairs R l1 -> ForallOrdPairs R l2 ->
  (forall a b, In a l1 -> In b l2 -> R a b) -> ForallOrdPairs R (l1 ++ l2).
Proof.
  induction 1 as [|x l HF HP IH]; intros H2 H; [exact H2|]. simpl. constructor.
  - rewrite Forall_forall in *. intros y Hy. apply in_app_or in Hy. destruct Hy; [auto|]. apply H; [left; reflexivity|assumption].
  - apply IH; [exact H2|]. intros; apply H; [right|]; assumption.
Qed.
Lemma fop_map {X Y} (R : Y -> Y -> Prop) (f : X -> Y) l :
  ForallOrdPairs (fun a b => R (f a) (f b)) l -> ForallOrdPairs R (map f l).
Proof. induction 1 as [|x l HF HP IH]; [constructor|]. simpl. constructor; [rewrite Forall_map; exact HF|exact IH]. Qed.

Section Runs.
  Variable A : Type.
  Variable lt : A -> A -> bool.
  Hypothesis SW : strict_weak lt.

  Definition same_run (a b : A * (nat * list A)) : Prop :=
    fst (snd a) = fst (snd b) -> below A lt (snd (snd a)) (snd (snd b)).

  Lemma run_pairs r : sorted lt (concat (map snd r)) ->
    ForallOrdPairs (fun a b : A * list A => below A lt (snd a) (snd b)) r.
  Proof.
    induction r as [|b r IH]; intro H; [constructor|]. cbn in H. apply sorted_app_inv in H. destruct H as (_ & H2 & H3).
    constructor; [|apply IH, H2]. rewrite Forall_forall. intros c Hc x y Hx Hy. apply H3; [exact Hx|].
    apply in_concat. exists (snd c). split; [apply in_map, Hc|exact Hy].
  Qed.
  Lemma tag_ge runs : forall n b, In b (tag (A:=A) n runs) -> n <= fst (snd b) < n + length runs.
  Proof.
    induction runs as [|r rs IH]; intros n b H; [destruct H|]. cbn in H. apply in_app_or in H. destruct H as [H|H].
    - apply in_map_iff in H. destruct H as (c & <- & _). simpl. lia.
    - apply IH in H. simpl. lia.
  Qed.
  Lemma tag_pairs runs : Forall (is_run lt) runs -> forall n, ForallOrdPairs same_run (tag n runs).
  Proof.
    induction 1 as [|r rs (H1 & H2 & H3) Hr IH]; intro n; [constructor|]. cbn [tag]. apply fop_app; [|apply IH|].
    - apply fop_map. apply run_pairs in H3. clear H1 H2. induction H3 as [|c l HF HP IH3]; [constructor|].
      constructor; [|exact IH3]. rewrite Forall_forall in *. intros d Hd _. apply HF, Hd.
    - intros a b Ha Hb E. apply in_map_iff in Ha. destruct Ha as (c & <- & _). apply tag_ge in Hb. simpl in E. lia.
  Qed.
  Lemma tag_blocks runs : Forall (is_run lt) runs -> forall n b, In b (tag n runs) ->
    hd_error (snd (snd b)) = Some (fst b) /\ sorted lt (snd (snd b)).
  Proof.
    induction 1 as [|r rs (H1 & H2 & H3) Hr IH]; intros n b H; [destruct H|]. cbn in H. apply in_app_or in H.
    destruct H as [H|H]; [|apply (IH (S n)), H].
    apply in_map_iff in H. destruct H as (c & <- & Hc). simpl. rewrite Forall_forall in H2. split; [apply H2, Hc|].
    clear -H3 Hc. induction r as [|d r IH]; [destruct Hc|]. cbn in H3. apply sorted_app_inv in H3.
    destruct Hc as [->|Hc]; [apply H3|]. apply IH; [apply H3|exact Hc].
  Qed.
  Lemma tag_long runs : Forall (is_run lt) runs -> forall n, length runs <= length (tag n runs).
  Proof.
    induction 1 as [|r rs (H1 & H2 & H3) Hr IH]; intro n; [simpl; lia|]. cbn [tag]. rewrite app_length, map_length.
    specialize (IH (S n)). destruct r; [contradiction|]. simpl. lia.
  Qed.

  Definition tlt (a b : A * (nat * list A)) : bool := lt (fst a) (fst b).

  Lemma seq_pairs l : (forall b, In b l -> hd_error (snd (snd b)) = Some (fst b)) ->
    ForallOrdPairs same_run l -> ForallOrdPairs (fun a b => later A lt (snd a) (snd b)) (ssort tlt l).
  Proof.
    intros Hh. assert (SW' : strict_weak tlt) by (apply (strict_weak_by fst), SW).
    induction l as [|x l IH]; intro HP; [constructor|]. inversion HP as [|? ? HF HP']; subst. cbn [ssort].
    assert (Hd : forall a b, In a (x :: l) -> In b (x :: l) -> le lt (fst a) (fst b) -> hle A lt (snd (snd a)) (snd (snd b))).
    { intros a b Ha Hb Hl. pose proof (Hh a Ha). pose proof (Hh b Hb). unfold hle.
      destruct (snd (snd a)), (snd (snd b)); try exact I. simpl in *. congruence. }
    assert (Hin : forall y, In y (ssort tlt l) -> In y l) by (intros y Hy; apply (Permutation_in _ (ssort_perm _ tlt l)), Hy).
    rewrite Forall_forall in HF.
    apply insert_pairs; [exact SW'| | |apply ssort_sorted, SW'|apply IH; [intros b Hb; apply Hh; right; exact Hb|exact HP']].
    - intros y Hy E. split.
      + apply Hd; [right; apply Hin, Hy|left; reflexivity|]. apply (lt_le _ _ SW). exact E.
      + intro Et. exfalso. specialize (HF y (Hin y Hy) (eq_sym Et)).
        pose proof (Hh x (or_introl eq_refl)) as Hx. pose proof (Hh y (or_intror (Hin y Hy))) as Hy'.
        unfold tlt in E. destruct (snd (snd x)) as [|a ?] eqn:Ex; [discriminate|]. destruct (snd (snd y)) as [|b ?] eqn:Ey; [discriminate|].
        simpl in Hx, Hy'. injection Hx as Hx. injection Hy' as Hy'.
        assert (Q : le lt a b) by (apply HF; left; reflexivity). unfold le in Q. congruence.
    - intros y Hy E. split.
      + apply Hd; [left; reflexivity|right; apply Hin, Hy|exact E].
      + intro Et. apply HF; [apply Hin, Hy|exact Et].
  Qed.

  Theorem merge_runs_ok runs ns : runs <> [] -> Forall (is_run lt) runs -> list_sum ns <= length (elements runs) ->
    exists t outs t', new_tree A lt (length runs) (map snd (ssort (trig_lt lt) (concat runs))) = Some t /\
      multi_merges A lt ns t = Some (outs, t') /\ map (@length A) outs = ns /\
      smallest_first lt (concat outs) (elements runs).
  Proof.
    intros Hr HR Hn. set (us := map snd (ssort tlt (tag 0 runs))).
    assert (Es : map snd (ssort (trig_lt lt) (concat runs)) = map snd us).
    { subst us. rewrite <- (tag_untag runs 0), <- (ssort_map (fun b => (fst b, snd (snd b))) tlt (trig_lt lt)) by reflexivity.
      rewrite !map_map. reflexivity. }
    assert (Hus : forall u, In u us -> exists b, In b (tag 0 runs) /\ u = snd b).
    { intros u Hu. apply in_map_iff in Hu. destruct Hu as (b & <- & Hb). exists b. split; [|reflexivity].
      apply (Permutation_in _ (ssort_perm _ tlt _)), Hb. }
    destruct (new_tree_ok A lt SW (length runs) us) as (t & og & us' & Et & T & Er).
    - destruct runs; [contradiction|simpl; lia].
    - subst us. rewrite map_length, (Permutation_length (ssort_perm _ tlt _)). apply tag_long, HR.
    - apply fop_map, seq_pairs; [|apply tag_pairs, HR]. intros b Hb. apply (tag_blocks runs HR 0 b Hb).
    - intros u Hu. destruct (Hus u Hu) as (b & Hb & ->). split; [apply tag_ge in Hb; simpl in Hb; lia|].
      destruct (tag_blocks runs HR 0 b Hb) as (E & S1). split; [|exact S1]. intros Z. rewrite Z in E. discriminate.
    - assert (Pe : Permutation (concat (map snd us)) (elements runs)).
      { rewrite <- Es. unfold elements. rewrite <- !flat_map_concat_map. apply Permutation_flat_map, ssort_perm. }
      assert (H0 : 0 < length runs) by (destruct runs; [contradiction|simpl; lia]).
      assert (Hk : length runs <= 2 ^ Nat.log2_up (length runs)).
      { destruct (Nat.eq_dec (length runs) 1) as [->|N]; [simpl; lia|]. apply Nat.log2_up_spec. lia. }
      destruct (multi_merges_ok A lt SW _ _ H0 Hk _ eq_refl ns t og us' T)
        as (outs & t' & og' & us2 & Em & T' & Hl & P & S1 & B).
      { rewrite Er, (Permutation_length Pe). exact Hn. }
      exists t, outs, t'. split; [rewrite Es; exact Et|]. split; [exact Em|]. split; [exact Hl|].
      split; [exact S1|]. eexists. split; [|exact B]. eapply Permutation_trans; [apply Permutation_sym, P|].
      rewrite Er. exact Pe.
  Qed.
End Runs.
