(** Proofs about multiway merging, part two: the loser trees of parallel/losertree.h. *)
From Coq Require Import List Bool Arith ZArith Lia Permutation Sorted.
From Verif Require Import SumLib OrderLib LoserProofs MwmergeModel MwmergeSpec Mwmerge.
Import ListNotations.

Section Tourn.
  Variable A : Type.
  Notation node := (node A).
  (** [B x y]: x does not lose against y *)
  Variable B : node -> node -> Prop.
  Hypothesis Brefl : forall x, B x x.
  Hypothesis Btrans : forall x y z, B x y -> B y z -> B x z.
  Variable k : nat.

  (** leaf [w] won below node [i]; the nodes hold the players that lost *)
  Fixpoint won (l i w : nat) (t lf : nat -> node) : Prop :=
    match l with
    | 0 => w + k = i
    | S l' => exists a b, won l' (2 * i) a t lf /\ won l' (2 * i + 1) b t lf /\
        ((w = a /\ t i = lf b /\ B (lf a) (lf b)) \/ (w = b /\ t i = lf a /\ B (lf b) (lf a)))
    end.

  Lemma won_sub l : forall i w t lf, won l i w t lf -> exists d, d < 2 ^ l /\ w + k = i * 2 ^ l + d.
  Proof.
    induction l as [|l IH]; intros i w t lf H.
    - exists 0. simpl in *. lia.
    - destruct H as (a & b & Ha & Hb & Hw).
      destruct (IH _ _ _ _ Ha) as (d1 & D1 & E1). destruct (IH _ _ _ _ Hb) as (d2 & D2 & E2).
      rewrite Nat.pow_succ_r'. destruct Hw as [(-> & _)|(-> & _)].
      + exists d1. split; [lia|]. rewrite E1. ring.
      + exists (2 ^ l + d2). split; [lia|]. rewrite E2. ring.
  Qed.
  Lemma won_node l i w t lf : won l i w t lf -> (w + k) / 2 ^ l = i.
  Proof.
    intro H. destruct (won_sub _ _ _ _ _ H) as (d & D & ->).
    symmetry. apply (Nat.div_unique _ _ _ d); [exact D|lia].
  Qed.
  Lemma won_min l : forall i w t lf, won l i w t lf ->
    forall j d, d < 2 ^ l -> j + k = i * 2 ^ l + d -> B (lf w) (lf j).
  Proof.
    induction l as [|l IH]; intros i w t lf H j d D E.
    - simpl in *. replace j with w by lia. apply Brefl.
    - destruct H as (a & b & Ha & Hb & Hw). rewrite Nat.pow_succ_r' in *.
      destruct (Nat.lt_ge_cases d (2 ^ l)) as [L|L].
      + assert (Q : B (lf a) (lf j)) by (apply (IH _ _ _ _ Ha j d); [exact L|lia]).
        destruct Hw as [(-> & _)|(-> & _ & Hc)]; [exact Q|]. exact (Btrans _ _ _ Hc Q).
      + assert (Q : B (lf b) (lf j)) by (apply (IH _ _ _ _ Hb j (d - 2 ^ l)); lia).
        destruct Hw as [(-> & _ & Hc)|(-> & _)]; [|exact Q]. exact (Btrans _ _ _ Hc Q).
  Qed.
  Lemma won_ext l : forall i w t t' lf lf', won l i w t lf ->
    (forall n, under l i n -> t' n = t n) ->
    (forall j d, d < 2 ^ l -> j + k = i * 2 ^ l + d -> lf' j = lf j) ->
    won l i w t' lf'.
  Proof.
    induction l as [|l IH]; intros i w t t' lf lf' H He Hc; [exact H|].
    destruct H as (a & b & Ha & Hb & Hw). exists a, b.
    pose proof (won_sub _ _ _ _ _ Ha) as (da & Da & Ea). pose proof (won_sub _ _ _ _ _ Hb) as (db & Db & Eb).
    rewrite Nat.pow_succ_r' in *.
    assert (Ca : lf' a = lf a) by (apply (Hc a da); lia).
    assert (Cb : lf' b = lf b) by (apply (Hc b (2 ^ l + db)); lia).
    split; [|split].
    - apply (IH _ _ t _ lf); [exact Ha| |].
      + intros n Hn. apply He, under_l, Hn.
      + intros j d D E. apply (Hc j d); lia.
    - apply (IH _ _ t _ lf); [exact Hb| |].
      + intros n Hn. apply He, under_r, Hn.
      + intros j d D E. apply (Hc j (2 ^ l + d)); lia.
    - rewrite (He i (under_self l i)), Ca, Cb. exact Hw.
  Qed.

  Variable test : node -> node -> bool.
  Hypothesis Btest : forall l p, if test l p then B l p else B p l.

  Definition cstep (i : nat) (p : node) (t : nat -> node) : node * (nat -> node) :=
    if test (t i) p then (t i, upd t i p) else (p, t).
  Fixpoint climbs (l w0 : nat) (p0 : node) (t : nat -> node) : node * (nat -> node) :=
    match l with
    | 0 => (p0, t)
    | S l' => let (p, t) := climbs l' w0 p0 t in cstep ((w0 + k) / 2 ^ l) p t
    end.

  Lemma climbs_ok l : forall i w0 t lf p0, 0 < i -> won l i w0 t lf ->
    forall p' t', climbs l w0 p0 t = (p', t') ->
    exists w', won l i w' t' (upd lf w0 p0) /\ p' = upd lf w0 p0 w' /\ (forall n, ~ under l i n -> t' n = t n).
  Proof.
    induction l as [|l IH]; intros i w0 t lf p0 Hi H p' t' E.
    - cbn [climbs] in E. injection E as <- <-. exists w0. split; [exact H|]. split; [rewrite upd_same; reflexivity|reflexivity].
    - pose proof (won_node _ _ _ _ _ H) as Hn.
      cbn [climbs] in E. rewrite Hn in E. clear Hn.
      destruct (climbs l w0 p0 t) as [p1 t1] eqn:E1.
      destruct H as (a & b & Ha & Hb & Hw).
      pose proof (won_sub _ _ _ _ _ Ha) as (da & Da & Ea). pose proof (won_sub _ _ _ _ _ Hb) as (db & Db & Eb).
      assert (Ni1 : ~ under l (2 * i) i) by (intro Q; apply under_big in Q; lia).
      assert (Ni2 : ~ under l (2 * i + 1) i) by (intro Q; apply under_big in Q; lia).
      set (lf' := upd lf w0 p0) in *.
      assert (Fin : forall a' b' w1 x, won l (2 * i) a' t1 lf' -> won l (2 * i + 1) b' t1 lf' -> p1 = lf' w1 -> t1 i = lf' x ->
                ((w1 = a' /\ x = b') \/ (w1 = b' /\ x = a')) ->
                (forall n, ~ under l (2 * i) n -> ~ under l (2 * i + 1) n -> t1 n = t n) ->
                exists w', won (S l) i w' t' lf' /\ p' = lf' w' /\ (forall n, ~ under (S l) i n -> t' n = t n)).
      { intros a' b' w1 x Wa Wb Hp1 Hti Hch He1.
        assert (Hin : forall n, ~ under (S l) i n -> ~ under l (2 * i) n /\ ~ under l (2 * i + 1) n /\ n <> i).
        { intros n Hn. split; [|split].
          - intro Q. apply Hn, under_l, Q.
          - intro Q. apply Hn, under_r, Q.
          - intros ->. apply Hn, under_self. }
        unfold cstep in E. pose proof (Btest (t1 i) p1) as Bt.
        destruct (test (t1 i) p1) eqn:Ec; injection E as <- <-; rewrite Hp1, Hti in Bt.
        - exists x. split; [|split].
          + assert (X : forall n, n <> i -> upd t1 i p1 n = t1 n) by (intros; apply upd_other; assumption).
            exists a', b'. split; [|split].
            * apply (won_ext _ _ _ t1 _ lf'); [exact Wa| |reflexivity]. intros n Hn. apply X. intros ->. contradiction.
            * apply (won_ext _ _ _ t1 _ lf'); [exact Wb| |reflexivity]. intros n Hn. apply X. intros ->. contradiction.
            * rewrite upd_same, Hp1. destruct Hch as [(-> & ->)|(-> & ->)]; [right|left]; auto.
          + exact Hti.
          + intros n Hn. destruct (Hin n Hn) as (N1 & N2 & N3). rewrite upd_other by exact N3. apply He1; assumption.
        - exists w1. split; [|split].
          + exists a', b'. split; [exact Wa|split; [exact Wb|]]. rewrite Hti. destruct Hch as [(-> & ->)|(-> & ->)]; [left|right]; auto.
          + exact Hp1.
          + intros n Hn. destruct (Hin n Hn) as (N1 & N2 & N3). apply He1; assumption. }
      destruct Hw as [(-> & He & _)|(-> & He & _)].
      + destruct (IH (2 * i) a t lf p0 ltac:(lia) Ha p1 t1 E1) as (w1 & W1 & Hp & F1). fold lf' in W1, Hp.
        assert (Db' : b <> a) by nia.
        apply (Fin w1 b w1 b); [exact W1| |exact Hp|unfold lf'; rewrite F1 by exact Ni1; rewrite upd_other by exact Db'; exact He|left; auto|intros; apply F1; assumption].
        apply (won_ext _ _ _ t _ lf); [exact Hb| |].
        * intros n Hn. apply F1. intro Q. exact (under_sep _ _ _ _ Hi Q Hn).
        * intros j d D Ej. apply upd_other. intros ->. nia.
      + destruct (IH (2 * i + 1) b t lf p0 ltac:(lia) Hb p1 t1 E1) as (w1 & W1 & Hp & F1). fold lf' in W1, Hp.
        assert (Da' : a <> b) by nia.
        apply (Fin a w1 w1 a); [|exact W1|exact Hp|unfold lf'; rewrite F1 by exact Ni2; rewrite upd_other by exact Da'; exact He|right; auto|intros; apply F1; assumption].
        apply (won_ext _ _ _ t _ lf); [exact Ha| |].
        * intros n Hn. apply F1. intro Q. exact (under_sep _ _ _ _ Hi Hn Q).
        * intros j d D Ej. apply upd_other. intros ->. nia.
  Qed.

  Variable L : nat.
  Hypothesis kL : k = 2 ^ L.

  Lemma climb_climbs w0 p0 t0 : w0 < k -> forall d j f p t,
    d = L - j -> j <= L -> d <= f -> climbs j w0 p0 t0 = (p, t) ->
    climb A test f ((w0 + k) / 2 ^ S j) p t = Some (climbs L w0 p0 t0).
  Proof.
    intro Hw. induction d as [|d IH]; intros j f p t Hd Hj Hf E.
    - replace j with L in * by lia.
      replace ((w0 + k) / 2 ^ S L) with 0; [destruct f; cbn; rewrite E; reflexivity|].
      symmetry. apply Nat.div_small. rewrite Nat.pow_succ_r'. lia.
    - destruct f as [|f]; [lia|]. cbn [climb].
      destruct (Nat.eqb_spec ((w0 + k) / 2 ^ S j) 0) as [Z|Z].
      + exfalso. assert (2 ^ S j <= k).
        { rewrite kL. apply Nat.pow_le_mono_r; lia. }
        pose proof (pow_pos (S j)).
        assert (1 <= (w0 + k) / 2 ^ S j) by (apply Nat.div_le_lower_bound; lia). lia.
      + rewrite <- div_pow_split.
        assert (Ecl : climbs (S j) w0 p0 t0 = cstep ((w0 + k) / 2 ^ S j) p t) by (cbn [climbs]; rewrite E; reflexivity).
        unfold cstep in Ecl.
        destruct (test (t ((w0 + k) / 2 ^ S j)) p); apply IH; try lia; exact Ecl.
  Qed.

  Lemma climb_ok w0 p0 t lf : w0 < k -> won L 1 w0 t lf ->
    exists p t' w', climb A test (S L) ((k + w0) / 2) p0 t = Some (p, t') /\ won L 1 w' t' (upd lf w0 p0) /\ p = upd lf w0 p0 w'.
  Proof.
    intros Hw H. destruct (climbs L w0 p0 t) as [p t'] eqn:E.
    destruct (climbs_ok L 1 w0 t lf p0 ltac:(lia) H p t' E) as (w' & W & Hp & _).
    exists p, t', w'. split; [|split; assumption]. rewrite <- E.
    replace ((k + w0) / 2) with ((w0 + k) / 2 ^ 1) by (rewrite Nat.pow_1_r, (Nat.add_comm k w0); reflexivity).
    apply (climb_climbs w0 p0 t Hw (L - 0) 0 (S L) p0 t); [reflexivity|lia|lia|reflexivity].
  Qed.

  Variable left_wins : node -> node -> bool.
  Lemma init_ok lf : (forall a b, a < b -> b < k -> if left_wins (lf a) (lf b) then B (lf a) (lf b) else B (lf b) (lf a)) ->
    forall l f i t, l < f -> 0 < i -> l <= L ->
    2 ^ (L - l) <= i < 2 ^ (S (L - l)) -> (forall n, k <= n -> n < 2 * k -> t n = lf (n - k)) ->
    exists w t', init_winner A left_wins f k i t = Some (w + k, t') /\ won l i w t' lf /\ (forall n, ~ under l i n -> t' n = t n) /\
      (forall n, k <= n -> t' n = t n).
  Proof.
    intro Hb. induction l as [|l IH]; intros f i t Hf Hi Hl Hr Ht; (destruct f as [|f]; [lia|]); cbn [init_winner].
    - rewrite Nat.sub_0_r in Hr. rewrite <- kL in Hr.
      destruct (Nat.leb_spec k i) as [_|Q]; [|lia]. exists (i - k), t. split; [f_equal; f_equal; lia|]. split; [simpl; lia|split; reflexivity].
    - assert (Hlt : i < k).
      { destruct Hr as [_ Hr]. replace (S (L - S l)) with (L - l) in Hr by lia.
        assert (2 ^ (L - l) <= 2 ^ L) by (apply Nat.pow_le_mono_r; lia). lia. }
      destruct (Nat.leb_spec k i) as [Q|_]; [lia|].
      replace (S (L - S l)) with (L - l) in Hr by lia.
      assert (Hp : 2 ^ (L - l) = 2 * 2 ^ (L - S l)) by (rewrite <- Nat.pow_succ_r'; f_equal; lia).
      pose proof (Nat.pow_succ_r' 2 (L - l)) as Hq.
      destruct (IH f (2 * i) t ltac:(lia) ltac:(lia) ltac:(lia) ltac:(lia) Ht) as (a & t1 & -> & Wa & Fa & Ga). cbn [bind].
      destruct (IH f (2 * i + 1) t1 ltac:(lia) ltac:(lia) ltac:(lia) ltac:(lia)) as (b & t2 & -> & Wb & Fb & Gb).
      { intros n Hn Hn2. rewrite Ga by exact Hn. apply Ht; assumption. }
      cbn [bind].
      pose proof (won_sub _ _ _ _ _ Wa) as (da & Da & Ea). pose proof (won_sub _ _ _ _ _ Wb) as (db & Db & Eb).
      assert (Hpow : 2 ^ S (L - l) * 2 ^ l = 2 * k) by (rewrite kL, <- Nat.pow_add_r, <- Nat.pow_succ_r'; f_equal; lia).
      assert (Hbk : b < k) by nia. assert (Hak : a < k) by nia. assert (Hab : a < b) by nia.
      assert (Ta : t2 (a + k) = lf a) by (rewrite Gb, Ga, Ht by lia; f_equal; lia).
      assert (Tb : t2 (b + k) = lf b) by (rewrite Gb, Ga, Ht by lia; f_equal; lia).
      rewrite Ta, Tb. specialize (Hb a b Hab Hbk).
      assert (Ni1 : ~ under l (2 * i) i) by (intro Q; apply under_big in Q; lia).
      assert (Ni2 : ~ under l (2 * i + 1) i) by (intro Q; apply under_big in Q; lia).
      assert (Fin : forall w x, (w = a /\ x = b) \/ (w = b /\ x = a) -> B (lf w) (lf x) ->
        won (S l) i w (upd t2 i (lf x)) lf /\ (forall n, ~ under (S l) i n -> upd t2 i (lf x) n = t n) /\ (forall n, k <= n -> upd t2 i (lf x) n = t n)).
      { intros w x Hch Hc. split; [|split].
        - exists a, b. rewrite upd_same. split; [|split].
          + apply (won_ext _ _ _ t1 _ lf); [exact Wa| |reflexivity]. intros n Hn.
            rewrite upd_other by (intros ->; contradiction). apply Fb. intro Q. exact (under_sep _ _ _ _ Hi Hn Q).
          + apply (won_ext _ _ _ t2 _ lf); [exact Wb| |reflexivity]. intros n Hn. apply upd_other. intros ->; contradiction.
          + destruct Hch as [(-> & ->)|(-> & ->)]; [left|right]; auto.
        - intros n Hn. rewrite upd_other by (intros ->; apply Hn, under_self).
          rewrite Fb by (intro Q; apply Hn, under_r, Q). apply Fa. intro Q. apply Hn, under_l, Q.
        - intros n Hn. rewrite upd_other by lia. rewrite Gb by exact Hn. apply Ga, Hn. }
      destruct (left_wins (lf a) (lf b)) eqn:E.
      + destruct (Fin a b (or_introl (conj eq_refl eq_refl)) Hb) as (W & F & G). eauto 6.
      + destruct (Fin b a (or_intror (conj eq_refl eq_refl)) Hb) as (W & F & G). eauto 6.
  Qed.
End Tourn.

Lemma m_le m : 0 < m -> m <= 2 ^ Nat.log2_up m.
Proof. intro H. destruct (Nat.eq_dec m 1) as [->|D]; [cbn; lia|]. apply Nat.log2_up_spec. lia. Qed.

Section Loop.
  Variable A : Type.
  Variable lt : A -> A -> bool.
  Notation rng := (list A * list A)%type.
  Notation seqs := (list (list A * list A)).
  Variable stable : bool.
  Variable B : node A -> node A -> Prop.
  Hypothesis Brefl : forall x, B x x.
  Hypothesis Btrans : forall x y z, B x y -> B y z -> B x z.
  Variable test : node A -> node A -> bool.
  Hypothesis Btest : forall l p, if test l p then B l p else B p l.
  Variable left_wins : node A -> node A -> bool.
  Variable feed : rng -> option (bool * A).
  Variable fill : node A.
  Variable m : nat.                         (* number of sequences *)
  Hypothesis m0 : 0 < m.

  Definition leaf (s : seqs) (j : nat) : node A :=
    if Nat.ltb j m then match feed (get s j) with Some (f, y) => mkN f (Z.of_nat j) y | None => fill end else fill.

  Variable I : nat -> seqs -> Prop.
  Variable view : seqs -> list (list A).
  Hypothesis Ifeed : forall n s i, I n s -> length s = m -> i < m -> feed (get s i) <> None.
  (** a leaf that wins the tournament is a sequence whose head may be taken *)
  Hypothesis Iwin : forall n s w, I (S n) s -> length s = m -> w < 2 ^ Nat.log2_up m -> (forall j, j < 2 ^ Nat.log2_up m -> B (leaf s w) (leaf s j)) ->
    exists x r b r', w < m /\ get s w = (x :: r, b) /\ I n (setn w (r, b) s) /\
      nth w (view s) [] = x :: r' /\ view (setn w (r, b) s) = setn w r' (view s) /\ head_min lt stable (view s) w x.
  Hypothesis Iinit : forall n s a b, I n s -> length s = m -> a < b -> b < 2 ^ Nat.log2_up m ->
    if left_wins (leaf s a) (leaf s b) then B (leaf s a) (leaf s b) else B (leaf s b) (leaf s a).

  Let L := Nat.log2_up m.
  Let k := 2 ^ L.

  Lemma lt_loop_ok : forall n t s w, length s = m -> I n s -> won A B k L 1 w t (leaf s) -> t 0 = leaf s w ->
    exists out s', lt_loop A test feed L n t s = Some (out, s') /\ steps lt stable (view s) out (view s') /\ length out = n /\
      map snd s' = map snd s /\ length s' = m /\ I 0 s'.
  Proof.
    induction n as [|n IH]; intros t s w Hl HI Hw H0.
    { exists [], s. cbn. repeat split; auto. constructor. }
    destruct (won_sub _ _ _ _ _ _ _ _ Hw) as (d & Hd & Ed). assert (Hwk : w < k) by (unfold k; lia).
    destruct (Iwin n s w HI Hl Hwk) as (x & r & b & r' & Hwm & Ga & HI' & Ev & Evs & Hm).
    { intros j Hj. apply (won_min A B Brefl Btrans k L 1 w t (leaf s) Hw j j); [exact Hj|unfold k; lia]. }
    set (s1 := setn w (r, b) s) in *. assert (Hl1 : length s1 = m) by (unfold s1; rewrite setn_length; exact Hl).
    assert (Hlw : src (leaf s w) = Z.of_nat w).
    { unfold leaf. destruct (Nat.ltb_spec w m); [|lia]. pose proof (Ifeed _ s w HI Hl Hwm) as Q. destruct (feed (get s w)) as [[f y]|]; [reflexivity|congruence]. }
    cbn [lt_loop]. rewrite H0, Hlw. destruct (Z.ltb_spec (Z.of_nat w) 0); [lia|]. rewrite Nat2Z.id, (take_some _ _ _ _ _ _ Ga). cbn [bind]. fold s1.
    pose proof (Ifeed _ s1 w HI' Hl1 Hwm) as Hf. destruct (feed (get s1 w)) as [[f y]|] eqn:Ef; [|congruence]. cbn [bind].
    destruct (climb_ok A B k test Btest L eq_refl w (mkN f (Z.of_nat w) y) t (leaf s) Hwk Hw) as (p & t' & w' & Ec & Wc & Hp).
    change (2 ^ L) with k. rewrite Ec. cbn [bind].
    assert (Hleaf : forall j, leaf s1 j = upd (leaf s) w (mkN f (Z.of_nat w) y) j).
    { intro j. unfold leaf. destruct (Nat.eq_dec j w) as [->|D].
      - rewrite upd_same. destruct (Nat.ltb_spec w m); [|lia]. rewrite Ef. reflexivity.
      - rewrite upd_other by exact D. unfold s1, get. rewrite setn_other by exact D. reflexivity. }
    destruct (IH (upd t' 0 p) s1 w') as (out & s' & -> & Hs & Hlen & Hb & Hl' & HI0).
    - exact Hl1.
    - exact HI'.
    - apply (won_ext A B k L 1 w' t' _ (upd (leaf s) w (mkN f (Z.of_nat w) y))); [exact Wc| |intros; apply Hleaf].
      intros i Hi. apply upd_other. intros ->. apply under_big in Hi; lia.
    - rewrite upd_same, Hp. symmetry. apply Hleaf.
    - cbn [bind]. exists (x :: out), s'. split; [reflexivity|]. split; [|split; [cbn; congruence|split; [|split; [exact Hl'|exact HI0]]]].
      + econstructor; [exact Ev|exact Hm|]. rewrite <- Evs. exact Hs.
      + rewrite Hb. exact (set_snd _ _ _ _ _ _ Ga).
  Qed.

  Lemma players_ok : forall s i, (forall j, j < length s -> feed (get s j) <> None) ->
    exists pl, players A feed i s = Some pl /\ forall j, nth j pl fill =
      if Nat.ltb j (length s) then match feed (get s j) with Some (f, y) => mkN f (Z.of_nat (i + j)) y | None => fill end else fill.
  Proof.
    induction s as [|q s IH]; intros i Hf.
    - exists []. split; [reflexivity|]. intros [|j]; reflexivity.
    - cbn [players]. pose proof (Hf 0 ltac:(cbn; lia)) as H0. cbn in H0. destruct (feed q) as [[f y]|] eqn:Ef; [|congruence]. cbn [bind].
      destruct (IH (S i)) as (pl & -> & Hn). { intros j Hj. apply (Hf (S j)). cbn. lia. } cbn [bind].
      eexists. split; [reflexivity|]. intros [|j].
      + cbn. rewrite Ef. do 2 f_equal. lia.
      + cbn [nth length]. rewrite Hn. change (Nat.ltb (S j) (S (length s))) with (Nat.ltb j (length s)). change (get (q :: s) (S j)) with (get s j).
        replace (i + S j) with (S i + j) by lia. reflexivity.
  Qed.

  Lemma tree_merge_ok s len : length s = m -> I (Nat.min (total s) len) s ->
    exists out s', tree_merge A test left_wins feed fill s len = Some (out, s') /\ steps lt stable (view s) out (view s') /\
      length out = Nat.min (total s) len /\ map snd s' = map snd s /\ length s' = m /\ I 0 s'.
  Proof.
    intros Hl HI. unfold tree_merge. rewrite Hl. fold L. fold k.
    destruct (players_ok s 0) as (pl & -> & Hn). { intros j Hj. apply (Ifeed _ s j HI Hl). lia. } cbn [bind].
    destruct (init_ok A B k L eq_refl left_wins (leaf s)) with (l := L) (f := S L) (i := 1) (t := fun p => nth (p - k) pl fill) as (w & t' & Ei & Wi & _ & Gi).
    - intros a b Hab Hb. apply (Iinit _ s a b HI Hl Hab Hb).
    - lia.
    - lia.
    - lia.
    - rewrite Nat.sub_diag. cbn. lia.
    - intros n _ _. rewrite Hn, Hl. reflexivity.
    - rewrite Ei. cbn [bind].
      destruct (won_sub _ _ _ _ _ _ _ _ Wi) as (d & Hd & Ed).
      apply (lt_loop_ok _ _ s w Hl HI).
      + apply (won_ext A B k L 1 w t' _ (leaf s)); [exact Wi| |reflexivity]. intros i Hi. apply upd_other. intros ->. apply under_big in Hi; lia.
      + rewrite upd_same, Gi by lia. replace (w + k - k) with w by lia. rewrite Hn, Hl. reflexivity.
  Qed.
End Loop.
