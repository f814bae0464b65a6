(** Proofs about WinnerModel. *)
From Coq Require Import List Bool Arith Lia.
From Verif Require Import SumLib OrderLib WinnerModel WinnerSpec.
Import ListNotations.

Definition par (p : nat) : nat := left_pos p / 2.
Lemma par_spec p : 0 < p -> left_pos p = 2 * par p + 1 /\ (p = 2 * par p + 1 \/ p = 2 * par p + 2).
Proof.
  intro H. unfold par, left_pos. pose proof (Nat.div_mod (p + 1) 2 ltac:(lia)) as D.
  pose proof (Nat.mod_upper_bound (p + 1) 2 ltac:(lia)) as U.
  set (r := (p + 1) mod 2) in *. set (q := (p + 1) / 2) in *. clearbody r q.
  assert ((p - r) / 2 = q - 1) as E by (symmetry; apply Nat.div_unique with 1; lia).
  rewrite E. lia.
Qed.
Lemma par_lt p : 0 < p -> par p < p.
Proof. intro H. destruct (par_spec p H). lia. Qed.
Lemma par_left i : par (2 * i + 1) = i.
Proof. destruct (par_spec (2 * i + 1)); lia. Qed.
Lemma par_right i : par (2 * i + 2) = i.
Proof. destruct (par_spec (2 * i + 2)); lia. Qed.

(** [anc p i]: i is p or above p *)
Inductive anc : nat -> nat -> Prop :=
| anc_refl p : anc p p
| anc_up p i : 0 < p -> anc (par p) i -> anc p i.
Lemma anc_le p i : anc p i -> i <= p.
Proof. induction 1; [lia|]. pose proof (par_lt p H). lia. Qed.
Lemma anc_root p : anc p 0.
Proof.
  induction p as [p IH] using lt_wf_ind. destruct (Nat.eq_dec p 0) as [->|H]; [constructor|].
  constructor; [lia|]. apply IH, par_lt. lia.
Qed.
Lemma anc_trans p q i : anc p q -> anc q i -> anc p i.
Proof. induction 1; [auto|]. intro. constructor; auto. Qed.
Lemma anc_parent p i : anc p i -> 0 < i -> anc p (par i).
Proof. intros H Hi. eapply anc_trans; [exact H|]. constructor; [exact Hi|constructor]. Qed.
Lemma anc_inv p i : anc p i -> i = p \/ (0 < p /\ anc (par p) i).
Proof. intro H. destruct H; auto. Qed.
Lemma anc_dec p i : {anc p i} + {~ anc p i}.
Proof.
  induction p as [p IH] using lt_wf_rec. destruct (Nat.eq_dec p i) as [->|N]; [left; constructor|].
  destruct (Nat.eq_dec p 0) as [->|H0].
  - right. intro H. inversion H; subst; lia.
  - destruct (IH (par p) (par_lt p ltac:(lia))) as [Y|Y].
    + left. constructor; [lia|exact Y].
    + right. intro H. inversion H; subst; [congruence|contradiction].
Qed.

Section P.
  Variable A : Type.
  Variable lt : A -> A -> bool.
  Hypothesis SW : strict_weak lt.
  Notation vals := (nat -> option A).
  Notation tree := (nat -> option nat).

  Lemma game_ok (val : vals) l r : (forall w, l = Some w -> val w <> None) -> (forall w, r = Some w -> val w <> None) ->
    exists g, game A lt val l r = Some g /\ (g = l \/ g = r) /\ (g = None -> l = None /\ r = None).
  Proof.
    intros Hl Hr. destruct l as [i|], r as [j|]; cbn; try (eexists; split; [reflexivity|]; split; [auto|]; intros; split; congruence).
    unfold less. destruct (val i) as [a|] eqn:Ei; [|exfalso; apply (Hl i); auto].
    destruct (val j) as [b|] eqn:Ej; [|exfalso; apply (Hr j); auto].
    destruct (lt a b); eexists; (split; [reflexivity|]; split; [auto|]; intros; split; congruence).
  Qed.

  (** the result of a game is at an inner node *)
  Definition played (val : vals) (t : tree) (i : nat) : Prop := game A lt val (t (2 * i + 1)) (t (2 * i + 2)) = Some (t i).
  Definition sane (val : vals) (t : tree) : Prop := forall i w, t i = Some w -> val w <> None.

  (** replay: the path upwards is played, everything else unchanged *)
  Lemma replay_ok fuel : forall (val : vals) p o t, p <= fuel ->
    (forall i w, ~ anc p i -> t i = Some w -> val w <> None) -> (forall w, o = Some w -> val w <> None) ->
    exists t', replay A lt fuel val p o t = Some t' /\ t' p = o /\ (forall i, ~ anc p i -> t' i = t i) /\
      (forall i, anc p i -> i <> p -> played val t' i) /\ (forall i w, t' i = Some w -> val w <> None).
  Proof.
    induction fuel as [|fuel IH]; intros val p o t Hp Hs Ho.
    - assert (p = 0) as -> by lia. cbn [replay Nat.eqb]. exists (upd t 0 o). split; [reflexivity|]. split; [apply upd_same|].
      split; [|split].
      + intros i Hi. apply upd_other; intro; subst; apply Hi; constructor.
      + intros i Hi Hn. apply anc_le in Hi. lia.
      + intros i w Hw. destruct (Nat.eq_dec i 0) as [->|N]; [rewrite upd_same in Hw; auto|]. rewrite upd_other in Hw by auto.
        apply (Hs i w); [|exact Hw]. intro H. apply anc_le in H. lia.
    - cbn [replay]. destruct (Nat.eqb_spec p 0) as [->|Hp0].
      + exists (upd t 0 o). split; [reflexivity|]. split; [apply upd_same|].
        split; [|split].
        * intros i Hi. apply upd_other; intro; subst; apply Hi; constructor.
        * intros i Hi Hn. apply anc_le in Hi. lia.
        * intros i w Hw. destruct (Nat.eq_dec i 0) as [->|N]; [rewrite upd_same in Hw; auto|]. rewrite upd_other in Hw by auto.
          apply (Hs i w); [|exact Hw]. intro H. apply anc_le in H. lia.
      + destruct (par_spec p ltac:(lia)) as [EL EC]. rewrite EL. set (q := par p) in *.
        replace ((2 * q + 1) / 2) with q by (apply Nat.div_unique with 1; lia).
        replace (2 * q + 1 + 1) with (2 * q + 2) by lia.
        assert (Hpq : q < p) by (apply par_lt; lia).
        set (t1 := upd t p o).
        assert (forall i w, ~ anc q i -> t1 i = Some w -> val w <> None) as Hs1.
        { intros i w Hi Hw. unfold t1 in Hw. destruct (Nat.eq_dec i p) as [->|N]; [rewrite upd_same in Hw; auto|].
          rewrite upd_other in Hw by auto. apply (Hs i w); [|exact Hw]. intro H. destruct (anc_inv _ _ H) as [?|[_ ?]]; [congruence|contradiction]. }
        assert (forall c, c = 2 * q + 1 \/ c = 2 * q + 2 -> ~ anc q c) as Hc by (intros c Hc H; apply anc_le in H; lia).
        destruct (game_ok val (t1 (2 * q + 1)) (t1 (2 * q + 2))) as (g & Eg & Hg & _).
        { intros w Hw. eapply Hs1; [apply Hc; left; reflexivity|exact Hw]. }
        { intros w Hw. eapply Hs1; [apply Hc; right; reflexivity|exact Hw]. }
        rewrite Eg.
        assert (forall w, g = Some w -> val w <> None) as Hgw.
        { intros w ->. destruct Hg as [Hg|Hg]; symmetry in Hg; (eapply Hs1; [apply Hc|exact Hg]); auto. }
        destruct (IH val q g t1 ltac:(lia) Hs1 Hgw) as (t' & E & F1 & F2 & F3 & F4).
        exists t'. split; [exact E|]. split; [|split; [|split]].
        * rewrite F2 by (intro H; apply anc_le in H; lia). apply upd_same.
        * intros i Hi. rewrite F2 by (intro H; apply Hi; constructor; [lia|exact H]). apply upd_other; intro; subst; apply Hi; constructor.
        * intros i Hi Hn. destruct (anc_inv _ _ Hi) as [?|[_ Hq]]; [congruence|]. destruct (Nat.eq_dec i q) as [->|Nq]; [|apply F3; assumption].
          unfold played. rewrite F1, !F2 by (apply Hc; auto). exact Eg.
        * exact F4.
  Qed.

  (** valid tree with h inner nodes *)
  Definition leaves_ok (h : nat) (val : vals) (t : tree) : Prop :=
    forall j, j <= h -> t (h + j) = match val j with Some _ => Some j | None => None end.
  Record valid (h : nat) (val : vals) (t : tree) : Prop := {
    v_dom : forall j, h < j -> val j = None;
    v_leaves : leaves_ok h val t;
    v_played : forall i, i < h -> played val t i;
    v_out : forall i, 2 * h < i -> t i = None }.

  Lemma game_result (val : vals) l r g : game A lt val l r = Some g -> (g = l \/ g = r) /\ (g = None -> l = None /\ r = None).
  Proof.
    destruct l as [i|], r as [j|]; cbn; try (intros [= <-]; split; [auto|]; intros; split; congruence).
    unfold less. destruct (val i), (val j); try discriminate. destruct (lt a a0); intros [= <-]; (split; [auto|]; intros; split; congruence).
  Qed.

  (** a player at a node comes from below *)
  Definition contiguous (h : nat) (t : tree) : Prop :=
    forall i w, t i = Some w -> i = h + w \/ (i < h /\ (t (2 * i + 1) = Some w \/ t (2 * i + 2) = Some w)).
  Lemma valid_contiguous h val t : valid h val t -> contiguous h t.
  Proof.
    intros [V1 V2 V3 V4] i w Hw. destruct (Nat.lt_ge_cases i h) as [Hi|Hi].
    - right. split; [exact Hi|]. destruct (game_result _ _ _ _ (V3 i Hi)) as [[E|E] _]; [left|right]; congruence.
    - destruct (Nat.lt_ge_cases (2 * h) i) as [Ho|Ho]; [rewrite V4 in Hw by exact Ho; discriminate|].
      left. specialize (V2 (i - h) ltac:(lia)). replace (h + (i - h)) with i in V2 by lia. rewrite Hw in V2.
      destruct (val (i - h)); [injection V2 as ->; lia|discriminate].
  Qed.
  Lemma contiguous_path h t : contiguous h t -> forall n i w, h + w - i <= n -> t i = Some w ->
    anc (h + w) i /\ (forall q, anc (h + w) q -> anc q i -> t q = Some w).
  Proof.
    intro C. induction n as [|n IH]; intros i w Hn Hw; destruct (C i w Hw) as [->|[Hi HC]].
    - split; [constructor|]. intros q H1 H2. apply anc_le in H1, H2. replace q with (h + w) by lia. exact Hw.
    - lia.
    - split; [constructor|]. intros q H1 H2. apply anc_le in H1, H2. replace q with (h + w) by lia. exact Hw.
    - assert (exists c, par c = i /\ i < c /\ t c = Some w) as (c & Ec & Hc & Tc).
      { destruct HC as [HC|HC]; [exists (2 * i + 1)|exists (2 * i + 2)]; rewrite ?par_left, ?par_right; repeat split; auto; lia. }
      destruct (IH c w ltac:(lia) Tc) as [P1 P2]. split.
      + rewrite <- Ec. apply anc_parent; [exact P1|lia].
      + intros q H1 H2. destruct (anc_dec q c) as [Y|Y]; [apply P2; assumption|].
        (* q and c are on one path, q is above c and below or at i *)
        assert (q = i) as ->; [|exact Hw].
        assert (anc c q) as Hcq.
        { clear - P1 H1 Y. induction P1; [exact H1|]. inversion H1; subst; [exfalso; apply Y; constructor; assumption|auto]. }
        inversion Hcq; subst; [exfalso; apply Y; constructor|].
        apply anc_le in H0. apply anc_le in H2. lia.
  Qed.

  (** the winner at a node is the best of the leaves below *)
  Lemma valid_best h val t : valid h val t -> forall i n, 2 * h + 1 - i <= n -> i <= 2 * h ->
    match t i with
    | None => forall j, j <= h -> anc (h + j) i -> val j = None
    | Some w => exists a, val w = Some a /\ forall j b, j <= h -> anc (h + j) i -> val j = Some b -> lt b a = false
    end.
  Proof.
    intros [V1 V2 V3 V4] i n. revert i. induction n as [|n IH]; intros i Hn Hi; [lia|].
    destruct (Nat.lt_ge_cases i h) as [Hh|Hh].
    - pose proof (IH (2 * i + 1) ltac:(lia) ltac:(lia)) as IHl. pose proof (IH (2 * i + 2) ltac:(lia) ltac:(lia)) as IHr.
      assert (forall j, anc (h + j) i -> anc (h + j) (2 * i + 1) \/ anc (h + j) (2 * i + 2)) as Hsplit.
      { intros j Hj. assert (i < h + j) as Hlt by lia. clear - Hj Hlt. induction Hj as [p|p i Hp Hj IHj]; [lia|].
        destruct (Nat.eq_dec (par p) i) as [E|E].
        - destruct (par_spec p Hp) as [_ [S|S]]; rewrite E in S; [left|right]; rewrite <- S; constructor.
        - destruct IHj as [H|H]; [apply anc_le in Hj; lia|left; constructor; assumption|right; constructor; assumption]. }
      pose proof (V3 i Hh) as G. unfold played in G.
      destruct (t (2 * i + 1)) as [l|], (t (2 * i + 2)) as [r|]; cbn [game] in G.
      + destruct IHl as (a & Ea & Ha), IHr as (b & Eb & Hb). unfold less in G. rewrite Ea, Eb in G.
        destruct (lt a b) eqn:E; injection G as G; rewrite <- G.
        * exists a. split; [exact Ea|]. intros j c Hj Hc Hv. destruct (Hsplit j Hc) as [H|H]; [eapply Ha; eassumption|].
          specialize (Hb j c Hj H Hv). apply (le_trans A lt SW a b c); [apply (sw_asym A lt SW), E|exact Hb].
        * exists b. split; [exact Eb|]. intros j c Hj Hc Hv. destruct (Hsplit j Hc) as [H|H]; [|eapply Hb; eassumption].
          specialize (Ha j c Hj H Hv). apply (le_trans A lt SW b a c); [exact E|exact Ha].
      + injection G as G. rewrite <- G. destruct IHl as (a & Ea & Ha). exists a. split; [exact Ea|].
        intros j c Hj Hc Hv. destruct (Hsplit j Hc) as [H|H]; [eapply Ha; eassumption|]. rewrite (IHr j Hj H) in Hv. discriminate.
      + injection G as G. rewrite <- G. destruct IHr as (a & Ea & Ha). exists a. split; [exact Ea|].
        intros j c Hj Hc Hv. destruct (Hsplit j Hc) as [H|H]; [|eapply Ha; eassumption]. rewrite (IHl j Hj H) in Hv. discriminate.
      + injection G as G. rewrite <- G. intros j Hj Hc. destruct (Hsplit j Hc) as [H|H]; auto.
    - specialize (V2 (i - h) ltac:(lia)). replace (h + (i - h)) with i in V2 by lia.
      assert (forall j, j <= h -> anc (h + j) i -> j = i - h) as U.
      { intros j Hj Hc. inversion Hc as [|? ? H1 H2]; subst; [lia|]. apply anc_le in H2.
        destruct (par_spec (h + j) H1) as [_ [S|S]]; lia. }
      rewrite V2. destruct (val (i - h)) as [a|] eqn:E.
      + exists a. split; [exact E|]. intros j b Hj Hc Hv. rewrite (U j Hj Hc), E in Hv. injection Hv as <-. apply (sw_irrefl _ SW).
      + intros j Hj Hc. rewrite (U j Hj Hc). exact E.
  Qed.
  Lemma valid_smallest h val t : valid h val t -> smallest lt val (t 0).
  Proof.
    intro V. pose proof (valid_best h val t V 0 (2 * h + 1) ltac:(lia) ltac:(lia)) as H. unfold smallest. destruct (t 0) as [w|].
    - destruct H as (a & Ea & Ha). exists a. split; [exact Ea|]. intros j b Hb. destruct (Nat.le_gt_cases j h) as [Hj|Hj].
      + apply (Ha j b Hj); [apply anc_root|exact Hb].
      + destruct V as [V1 _ _ _]. rewrite V1 in Hb by exact Hj. discriminate.
    - intro j. destruct (Nat.le_gt_cases j h) as [Hj|Hj]; [apply H; [exact Hj|apply anc_root]|]. destruct V as [V1 _ _ _]. auto.
  Qed.

  (** all but the games above the pending leaves are played *)
  Record almost (h : nat) (val : vals) (t : tree) (P : nat -> Prop) : Prop := {
    a_dom : forall j, h < j -> val j = None;
    a_leaves : forall j, j <= h -> ~ P j -> t (h + j) = match val j with Some _ => Some j | None => None end;
    a_played : forall i, i < h -> (forall j, P j -> ~ anc (h + j) i) -> played val t i;
    a_out : forall i, 2 * h < i -> t i = None;
    a_sane : forall i w, (forall j, P j -> ~ anc (h + j) i) -> t i = Some w -> val w <> None }.

  Lemma valid_sane h val t : valid h val t -> sane val t.
  Proof.
    intros V i w Hw. pose proof (valid_contiguous h val t V) as C.
    destruct (contiguous_path h t C (h + w) i w ltac:(lia) Hw) as [P1 P2].
    assert (t (h + w) = Some w) as Hl by (apply P2; [constructor|exact P1]).
    destruct V as [V1 V2 V3 V4]. destruct (Nat.le_gt_cases w h) as [H|H].
    - specialize (V2 w H). rewrite Hl in V2. destruct (val w); congruence.
    - rewrite V4 in Hl by lia. discriminate.
  Qed.
  Lemma almost_valid h val t : almost h val t (fun _ => False) -> valid h val t.
  Proof. intros [A1 A2 A3 A4 A5]. constructor; [exact A1|intros j Hj; apply A2; auto|intros i Hi; apply A3; auto|exact A4]. Qed.
  Lemma valid_almost h val t : valid h val t -> almost h val t (fun _ => False).
  Proof.
    intros V. pose proof (valid_sane h val t V) as S. destruct V as [V1 V2 V3 V4]. constructor; auto. intros i w _ Hw. apply (S i w Hw).
  Qed.

  (** only players of P change *)
  Lemma almost_change h val val' t (P : nat -> Prop) : valid h val t -> (forall j, h < j -> val' j = None) ->
    (forall j, ~ P j -> val' j = val j) -> (forall j, {P j} + {~ P j}) -> almost h val' t P.
  Proof.
    intros V HD HE DP. pose proof (valid_contiguous h val t V) as C. pose proof (valid_sane h val t V) as S.
    assert (forall i w, (forall j, P j -> ~ anc (h + j) i) -> t i = Some w -> ~ P w) as NP.
    { intros i w Hi Hw HP. apply (Hi w HP). apply (contiguous_path h t C (h + w) i w); [lia|exact Hw]. }
    destruct V as [V1 V2 V3 V4]. constructor.
    - exact HD.
    - intros j Hj Hp. rewrite HE by exact Hp. apply V2, Hj.
    - intros i Hi Hp. unfold played. rewrite <- (V3 i Hi).
      assert (forall c, c = 2 * i + 1 \/ c = 2 * i + 2 -> forall w, t c = Some w -> val' w = val w) as HW.
      { intros c Hc w Hw. apply HE. apply (NP c w); [|exact Hw]. intros j Hj Ha. apply (Hp j Hj).
        assert (i = par c) as -> by (destruct Hc as [->| ->]; rewrite ?par_left, ?par_right; reflexivity). apply anc_parent; [exact Ha|lia]. }
      unfold game. destruct (t (2 * i + 1)) as [l|] eqn:El; [|reflexivity]. destruct (t (2 * i + 2)) as [r|] eqn:Er; [|reflexivity].
      unfold less. rewrite (HW _ (or_introl eq_refl) l El), (HW _ (or_intror eq_refl) r Er). reflexivity.
    - exact V4.
    - intros i w Hi Hw. rewrite HE by (apply (NP i w Hi Hw)). apply (S i w Hw).
  Qed.

  (** replay of one pending leaf; the nodes above the other pending leaves hold active players too *)
  Lemma replay_almost h val t (P : nat -> Prop) j : almost h val t P -> j <= h -> P j ->
    (forall i w, ~ anc (h + j) i -> t i = Some w -> val w <> None) ->
    exists t', replay A lt (h + j) val (h + j) (match val j with Some _ => Some j | None => None end) t = Some t' /\
      almost h val t' (fun i => P i /\ i <> j) /\ sane val t'.
  Proof.
    intros [A1 A2 A3 A4 A5] Hj HP HS.
    destruct (replay_ok (h + j) val (h + j) (match val j with Some _ => Some j | None => None end) t (le_n _) HS) as (t' & E & F1 & F2 & F3 & F4).
    { intros w Hw. destruct (val j) eqn:Ej; [injection Hw as <-; congruence|discriminate]. }
    assert (forall i, h <= i -> i <> h + j -> ~ anc (h + j) i) as Leaf.
    { intros i Hi Hn H. inversion H as [|? ? H1 H2]; subst; [congruence|]. apply anc_le in H2. destruct (par_spec (h + j) H1) as [_ [S|S]]; lia. }
    exists t'. split; [exact E|]. split; [|exact F4]. constructor.
    - exact A1.
    - intros i Hi Hn. destruct (Nat.eq_dec i j) as [->|N]; [exact F1|]. rewrite F2 by (apply Leaf; lia). apply A2; [exact Hi|tauto].
    - intros i Hi Hn. destruct (anc_dec (h + j) i) as [Y|Y]; [apply F3; [exact Y|lia]|].
      unfold played. rewrite !F2.
      + apply A3; [exact Hi|]. intros x Hx Ha. destruct (Nat.eq_dec x j) as [->|N]; [contradiction|]. apply (Hn x); auto.
      + exact Y.
      + intro H. apply Y. rewrite <- (par_right i). apply anc_parent; [exact H|lia].
      + intro H. apply Y. rewrite <- (par_left i). apply anc_parent; [exact H|lia].
    - intros i Hi. rewrite F2; [apply A4, Hi|]. intro H. apply anc_le in H. lia.
    - intros i w _ Hw. apply (F4 i w Hw).
  Qed.

  Lemma leaf_not_above h i j : i <= h -> j <= h -> i <> j -> ~ anc (h + i) (h + j).
  Proof.
    intros Hi Hj Hn H. destruct (anc_inv _ _ H) as [?|[H1 H2]]; [lia|]. apply anc_le in H2. destruct (par_spec (h + i) H1) as [_ [S|S]]; lia.
  Qed.
  Lemma almost_weaken h val t (P Q : nat -> Prop) : almost h val t P -> (forall j, P j -> Q j) -> almost h val t Q.
  Proof.
    intros [A1 A2 A3 A4 A5] H. constructor; auto.
    - intros i w Hi. apply A5. auto.
  Qed.
  Lemma almost_ext h val t t' (P : nat -> Prop) : almost h val t P -> (forall j, P j -> j <= h) ->
    (forall i, (forall j, P j -> ~ anc (h + j) i) -> t' i = t i) -> (forall i, 2 * h < i -> t' i = None) -> almost h val t' P.
  Proof.
    intros [A1 A2 A3 A4 A5] HP HE HO. constructor.
    - exact A1.
    - intros j Hj Hn. rewrite HE; [apply A2; assumption|]. intros x Hx. apply leaf_not_above; [auto|exact Hj|congruence].
    - intros i Hi Hn. unfold played. rewrite !HE.
      + apply A3; assumption.
      + exact Hn.
      + intros j Hj H. apply (Hn j Hj). rewrite <- (par_right i). apply anc_parent; [exact H|lia].
      + intros j Hj H. apply (Hn j Hj). rewrite <- (par_left i). apply anc_parent; [exact H|lia].
    - exact HO.
    - intros i w Hi Hw. rewrite HE in Hw by exact Hi. apply (A5 i w Hi Hw).
  Qed.

  (** sizes *)
  Notation wt := wtree.
  Definition inner (t : wt) : nat := 2 ^ w_log t - 1.
  Lemma pow_pos k : 0 < 2 ^ k.
  Proof. pose proof (Nat.pow_nonzero 2 k ltac:(lia)). lia. Qed.
  Lemma slots_inner t : slots t = inner t + 1.
  Proof. unfold slots, inner. pose proof (pow_pos (w_log t)). lia. Qed.
  Lemma size_inner t : size t = 2 * inner t + 1.
  Proof. unfold size, inner. rewrite Nat.pow_succ_r'. pose proof (pow_pos (w_log t)). lia. Qed.
  Lemma half_inner t : size t / 2 = inner t.
  Proof. rewrite size_inner. symmetry. apply Nat.div_unique with 1; lia. Qed.
  Lemma leaf_inner t i : leaf t i = inner t + i.
  Proof. unfold leaf. rewrite half_inner. reflexivity. Qed.

  Definition ok (val : vals) (t : wt) : Prop := valid (inner t) val (w_tree t).

  Lemma change_one val t j o : ok val t -> j < slots t ->
    exists t', replay_on_change A lt (upd val j o) j (match o with Some _ => false | None => true end) t = Some t' /\
      ok (upd val j o) t' /\ w_log t' = w_log t.
  Proof.
    intros V Hj. rewrite slots_inner in Hj. unfold replay_on_change. rewrite leaf_inner, size_inner.
    destruct (Nat.ltb_spec (inner t + j) (2 * inner t + 1)) as [_|?]; [|lia].
    assert (almost (inner t) (upd val j o) (w_tree t) (fun i => i = j)) as AL.
    { apply almost_change with val; [exact V| | |intro i; apply Nat.eq_dec].
      - intros i Hi. rewrite upd_other by lia. apply (v_dom _ _ _ V), Hi.
      - intros i Hi. apply upd_other. exact Hi. }
    destruct (replay_almost (inner t) (upd val j o) (w_tree t) _ j AL ltac:(lia) eq_refl) as (t' & E & AL' & _).
    { intros i w Hi Hw. apply (a_sane _ _ _ _ AL i w); [|exact Hw]. intros x ->. exact Hi. }
    replace (if match o with Some _ => false | None => true end then None else Some j) with (match upd val j o j with Some _ => Some j | None => None end)
      by (rewrite upd_same; destruct o; reflexivity).
    rewrite E. eexists. split; [reflexivity|]. split; [|reflexivity]. apply almost_valid. apply almost_weaken with (1 := AL'). intros i [? ?]. contradiction.
  Qed.

  (** deactivate_player_step removes all occurrences *)
  Lemma is_player_spec o x : is_player o x = true <-> o = Some x.
  Proof. destruct o as [y|]; cbn; [|split; discriminate]. rewrite Nat.eqb_eq. split; congruence. Qed.
  Lemma step_loop_ok x fuel : forall p (t : tree), p <= fuel ->
    (forall q, t q = Some x -> anc p q /\ (forall r, anc p r -> anc r q -> t r = Some x)) ->
    exists t', step_loop fuel x p t = Some t' /\ forall q, t' q = if andb (Nat.ltb 0 q) (is_player (t q) x) then None else t q.
  Proof.
    assert (forall p (t : tree), andb (Nat.ltb 0 p) (is_player (t p) x) = false ->
      (forall q, t q = Some x -> anc p q /\ (forall r, anc p r -> anc r q -> t r = Some x)) ->
      forall q, t q = if andb (Nat.ltb 0 q) (is_player (t q) x) then None else t q) as STOP.
    { intros p t E K q. destruct (is_player (t q) x) eqn:Eq; [|rewrite andb_false_r; reflexivity].
      apply is_player_spec in Eq. destruct (K q Eq) as [K1 K2]. specialize (K2 p (anc_refl p) K1).
      apply is_player_spec in K2. rewrite K2, andb_true_r in E. apply Nat.ltb_ge in E. apply anc_le in K1.
      destruct (Nat.ltb_spec 0 q); [lia|reflexivity]. }
    induction fuel as [|fuel IH]; intros p t Hp K; cbn [step_loop].
    - assert (p = 0) as -> by lia. cbn [Nat.ltb Nat.leb andb]. exists t. split; [reflexivity|]. apply (STOP 0); [reflexivity|exact K].
    - destruct (andb (Nat.ltb 0 p) (is_player (t p) x)) eqn:E.
      + apply andb_true_iff in E. destruct E as [E1 E2]. pose proof E1 as E1'. apply Nat.ltb_lt in E1. pose proof (par_lt p E1) as PL.
        change (left_pos p / 2) with (par p).
        destruct (IH (par p) (upd t p None) ltac:(lia)) as (t' & E & H).
        { intros q Hq. destruct (Nat.eq_dec q p) as [->|N]; [rewrite upd_same in Hq; discriminate|]. rewrite upd_other in Hq by exact N.
          destruct (K q Hq) as [K1 K2]. split.
          - destruct (anc_inv _ _ K1) as [?|[_ ?]]; [congruence|assumption].
          - intros r Hr1 Hr2. rewrite upd_other by (apply anc_le in Hr1; lia). apply K2; [|exact Hr2]. constructor; assumption. }
        exists t'. split; [exact E|]. intro q. rewrite H. destruct (Nat.eq_dec q p) as [->|N].
        * rewrite upd_same. cbn [is_player]. rewrite andb_false_r, E1', E2. reflexivity.
        * rewrite upd_other by exact N. reflexivity.
      + exists t. split; [reflexivity|]. apply (STOP p); assumption.
  Qed.
  Lemma deactivate_step_ok t x : contiguous (inner t) (w_tree t) -> x < slots t ->
    exists t', deactivate_player_step x t = Some t' /\ w_log t' = w_log t /\
      forall q, w_tree t' q = if is_player (w_tree t q) x then None else w_tree t q.
  Proof.
    intros C Hx. unfold deactivate_player_step. apply Nat.ltb_lt in Hx. rewrite Hx, leaf_inner.
    destruct (step_loop_ok x (inner t + x) (inner t + x) (w_tree t) (le_n _)) as (t' & E & H).
    { intros q Hq. apply (contiguous_path (inner t) (w_tree t) C (inner t + x) q x); [lia|exact Hq]. }
    rewrite E. eexists. split; [reflexivity|]. split; [reflexivity|]. cbn [w_tree]. intro q.
    pose proof (H 0) as H0. cbn [Nat.ltb Nat.leb andb] in H0. rewrite H0.
    destruct (Nat.eq_dec q 0) as [->|N].
    - destruct (is_player (w_tree t 0) x); [apply upd_same|exact H0].
    - assert (t' q = if is_player (w_tree t q) x then None else w_tree t q) as Hq.
      { rewrite H. destruct (Nat.ltb_spec 0 q); [reflexivity|lia]. }
      destruct (is_player (w_tree t 0) x); [rewrite upd_other by exact N|]; exact Hq.
  Qed.
  Definition killed (l : list nat) (o : option nat) : option nat :=
    match o with Some w => if in_dec Nat.eq_dec w l then None else Some w | None => None end.
  Lemma contiguous_ext h (t t' : tree) l : contiguous h t -> (forall q, t' q = killed l (t q)) -> contiguous h t'.
  Proof.
    intros C H i w Hw. rewrite H in Hw. unfold killed in Hw. destruct (t i) as [v|] eqn:E; [|discriminate].
    destruct (in_dec Nat.eq_dec v l) as [|N]; [discriminate|]. injection Hw as ->.
    destruct (C i w E) as [?|[Hi HC]]; [auto|]. right. split; [exact Hi|]. rewrite !H.
    destruct HC as [HC|HC]; rewrite HC; cbn [killed]; destruct (in_dec Nat.eq_dec w l); try contradiction; auto.
  Qed.
  Lemma each_step_ok l : forall t, contiguous (inner t) (w_tree t) -> (forall x, In x l -> x < slots t) ->
    exists t', each deactivate_player_step l t = Some t' /\ w_log t' = w_log t /\ forall q, w_tree t' q = killed l (w_tree t q).
  Proof.
    induction l as [|x l IH]; intros t C Hl; cbn [each].
    - exists t. split; [reflexivity|]. split; [reflexivity|]. intro q. destruct (w_tree t q); reflexivity.
    - destruct (deactivate_step_ok t x C (Hl x (or_introl eq_refl))) as (t1 & E1 & L1 & H1). rewrite E1.
      assert (forall q, w_tree t1 q = killed [x] (w_tree t q)) as H1'.
      { intro q. rewrite H1. destruct (w_tree t q) as [w|]; [|reflexivity]. cbn [is_player killed].
        destruct (Nat.eqb_spec w x) as [->|N]; destruct (in_dec Nat.eq_dec _ [x]) as [Y|Y]; auto.
        - exfalso. apply Y. left. reflexivity.
        - destruct Y as [->|[]]. congruence. }
      destruct (IH t1) as (t' & E & L & H).
      { replace (inner t1) with (inner t) by (unfold inner; rewrite L1; reflexivity). exact (contiguous_ext _ _ _ _ C H1'). }
      { intros y Hy. unfold slots. rewrite L1. apply Hl. right. exact Hy. }
      exists t'. split; [exact E|]. split; [congruence|]. intro q. rewrite H, H1'. destruct (w_tree t q) as [w|]; [|reflexivity]. cbn [killed].
      destruct (in_dec Nat.eq_dec w [x]) as [Y|Y], (in_dec Nat.eq_dec w (x :: l)) as [Z|Z]; cbn [killed]; try reflexivity.
      + exfalso. apply Z. destruct Y as [->|[]]. left. reflexivity.
      + destruct (in_dec Nat.eq_dec w l) as [W|W]; [reflexivity|]. exfalso. destruct Z as [->|Z]; [apply Y; left; reflexivity|contradiction].
      + destruct (in_dec Nat.eq_dec w l) as [W|W]; [|reflexivity]. exfalso. apply Z. right. exact W.
  Qed.
  Lemma each_deactivate_ok l : forall val t, almost (inner t) val (w_tree t) (fun i => In i l) -> sane val (w_tree t) ->
    (forall x, In x l -> x < slots t /\ val x = None) ->
    exists t', each (deactivate_player A lt val) l t = Some t' /\ w_log t' = w_log t /\ ok val t'.
  Proof.
    induction l as [|x l IH]; intros val t AL S Hl; cbn [each].
    - exists t. split; [reflexivity|]. split; [reflexivity|]. apply almost_valid. exact AL.
    - destruct (Hl x (or_introl eq_refl)) as [Hx Hv]. unfold deactivate_player at 1. pose proof Hx as Hx'. apply Nat.ltb_lt in Hx'. rewrite Hx'.
      unfold replay_on_change. rewrite leaf_inner, size_inner. rewrite slots_inner in Hx.
      destruct (Nat.ltb_spec (inner t + x) (2 * inner t + 1)) as [_|?]; [|lia].
      destruct (replay_almost (inner t) val (w_tree t) _ x AL ltac:(lia) (or_introl eq_refl)) as (t1 & E1 & AL1 & S1).
      { intros i w _ Hw. apply (S i w Hw). }
      rewrite Hv in E1. rewrite E1.
      destruct (IH val (mkw (w_log t) t1)) as (t' & E & L & V).
      { apply almost_weaken with (1 := AL1). intros j [[->|Hj] Hn]; [congruence|exact Hj]. }
      { exact S1. }
      { intros y Hy. apply Hl. right. exact Hy. }
      exists t'. auto.
  Qed.

  (** rebuild *)
  Lemma rebuild_loop_ok val h i : forall (t : tree), i <= h -> leaves_ok h val t -> (forall j, h < j -> val j = None) -> (forall q, 2 * h < q -> t q = None) ->
    (forall q, i <= q -> q < h -> played val t q) -> (forall q w, i <= q -> t q = Some w -> val w <> None) ->
    exists t', rebuild_loop A lt i val t = Some t' /\ valid h val t'.
  Proof.
    induction i as [|i IH]; intros t Hi HL HD HO HP HS; cbn [rebuild_loop].
    - exists t. split; [reflexivity|]. constructor; auto. intros q Hq. apply HP; [lia|exact Hq].
    - replace (i * 2 + 1) with (2 * i + 1) by lia. replace (i * 2 + 2) with (2 * i + 2) by lia.
      destruct (game_ok val (t (2 * i + 1)) (t (2 * i + 2))) as (g & E & Hg & _).
      { intros w Hw. apply (HS (2 * i + 1) w); [lia|exact Hw]. }
      { intros w Hw. apply (HS (2 * i + 2) w); [lia|exact Hw]. }
      rewrite E. apply IH; [lia| |exact HD| | |].
      + intros j Hj. rewrite upd_other by lia. apply HL, Hj.
      + intros q Hq. rewrite upd_other by lia. apply HO, Hq.
      + intros q Hq1 Hq2. unfold played. rewrite !(upd_other t i) by lia. destruct (Nat.eq_dec q i) as [->|N].
        * rewrite upd_same. exact E.
        * rewrite upd_other by exact N. apply HP; lia.
      + intros q w Hq Hw. destruct (Nat.eq_dec q i) as [->|N].
        * rewrite upd_same in Hw. subst g. destruct Hg as [Hg|Hg]; symmetry in Hg; [apply (HS (2 * i + 1) w)|apply (HS (2 * i + 2) w)]; auto; lia.
        * rewrite upd_other in Hw by exact N. apply (HS q w); [lia|exact Hw].
  Qed.
  Lemma rebuild_ok val t : leaves_ok (inner t) val (w_tree t) -> (forall j, inner t < j -> val j = None) -> (forall q, 2 * inner t < q -> w_tree t q = None) ->
    exists t', rebuild A lt val t = Some t' /\ ok val t' /\ w_log t' = w_log t.
  Proof.
    intros HL HD HO. unfold rebuild. rewrite half_inner.
    destruct (rebuild_loop_ok val (inner t) (inner t) (w_tree t) (le_n _) HL HD HO) as (t' & E & V).
    - intros q H1 H2. lia.
    - intros q w Hq Hw. destruct (Nat.le_gt_cases q (2 * inner t)) as [H|H]; [|rewrite HO in Hw by exact H; discriminate].
      specialize (HL (q - inner t) ltac:(lia)). replace (inner t + (q - inner t)) with q in HL by lia. rewrite Hw in HL.
      destruct (val (q - inner t)) eqn:E; [injection HL as ->; congruence|discriminate].
    - rewrite E. eexists. split; [reflexivity|]. split; [exact V|reflexivity].
  Qed.
  Lemma batch_ok l : forall val t, leaves_ok (inner t) val (w_tree t) -> (forall j, inner t < j -> val j = None) -> (forall q, 2 * inner t < q -> w_tree t q = None) ->
    (forall e, In e l -> fst e < slots t) ->
    exists t', each (batch_one A) l t = Some t' /\ w_log t' = w_log t /\
      leaves_ok (inner t') (assign A val l) (w_tree t') /\ (forall j, inner t' < j -> assign A val l j = None) /\ (forall q, 2 * inner t' < q -> w_tree t' q = None).
  Proof.
    induction l as [|[x o] l IH]; intros val t HL HD HO Hl; cbn [each].
    - exists t. auto.
    - pose proof (Hl (x, o) (or_introl eq_refl)) as Hx. cbn [fst] in Hx. pose proof Hx as Hb. apply Nat.ltb_lt in Hb. rewrite slots_inner in Hx.
      assert (batch_one A (x, o) t = Some (mkw (w_log t) (upd (w_tree t) (inner t + x) (match o with Some _ => Some x | None => None end)))) as EB.
      { unfold batch_one, activate_without_replay, deactivate_without_replay. cbn [fst snd]. rewrite Hb, leaf_inner. destruct o; reflexivity. }
      rewrite EB. unfold assign. cbn [fold_left fst snd].
      set (t1 := mkw (w_log t) _). cut (exists t', each (batch_one A) l t1 = Some t' /\ w_log t' = w_log t1 /\
        leaves_ok (inner t') (assign A (upd val x o) l) (w_tree t') /\ (forall j, inner t' < j -> assign A (upd val x o) l j = None) /\
        (forall q, 2 * inner t' < q -> w_tree t' q = None)); [intro Y; exact Y|]. unfold t1. apply IH.
      + intros j Hj. change (inner (mkw (w_log t) _)) with (inner t) in *. cbn [w_tree]. destruct (Nat.eq_dec j x) as [->|N].
        * rewrite !upd_same. destruct o; reflexivity.
        * rewrite !upd_other by lia. apply HL, Hj.
      + intros j Hj. change (inner (mkw (w_log t) _)) with (inner t) in *. rewrite upd_other by lia. apply HD, Hj.
      + intros q Hq. change (inner (mkw (w_log t) _)) with (inner t) in *. cbn [w_tree]. rewrite upd_other by lia. apply HO, Hq.
      + intros e He. apply Hl. right. exact He.
  Qed.

  Lemma empty_ok k : ok (fun _ => None) (mkw k (fun _ => None)).
  Proof. constructor; try reflexivity. - intros j Hj. reflexivity. Qed.
  Lemma ok_smallest val t : ok val t -> smallest lt val (top t).
  Proof. apply valid_smallest. Qed.

  (** values assigned in order *)
  Lemma assign_other l : forall val i, ~ In i (map fst l) -> assign A val l i = val i.
  Proof.
    induction l as [|[x o] l IH]; intros val i H; [reflexivity|]. unfold assign. cbn [fold_left fst snd].
    change (assign A (upd val x o) l i = val i). rewrite IH by (intro; apply H; right; assumption). apply upd_other. intro. subst. apply H. left. reflexivity.
  Qed.
  Lemma assign_last l1 l2 val x o : ~ In x (map fst l2) -> assign A val (l1 ++ (x, o) :: l2) x = o.
  Proof.
    intro H. unfold assign. rewrite fold_left_app. cbn [fold_left fst snd]. change (assign A (upd (assign A val l1) x o) l2 x = o).
    rewrite assign_other by exact H. apply upd_same.
  Qed.
  Lemma assign_none l : forall val i, assign A val (map (fun i => (i, None)) l) i = if in_dec Nat.eq_dec i l then None else val i.
  Proof.
    induction l as [|x l IH]; intros val i; [reflexivity|]. unfold assign. cbn [map fold_left fst snd].
    change (assign A (upd val x None) (map (fun i => (i, None)) l) i = if in_dec Nat.eq_dec i (x :: l) then None else val i). rewrite IH.
    destruct (in_dec Nat.eq_dec i l) as [Y|Y], (in_dec Nat.eq_dec i (x :: l)) as [Z|Z]; try reflexivity.
    - exfalso. apply Z. right. exact Y.
    - destruct Z as [->|Z]; [apply upd_same|contradiction].
    - apply upd_other. intro. subst. apply Z. left. reflexivity.
  Qed.
  Lemma assign_combine (l : list A) : forall k (val : vals), (forall i, k <= i -> val i = None) ->
    forall i, assign A val (combine (seq k (length l)) (map Some l)) i = if Nat.ltb i k then val i else nth_error l (i - k).
  Proof.
    induction l as [|a l IH]; intros k val HV i.
    - cbn [length seq map combine assign fold_left]. destruct (Nat.ltb_spec i k); [reflexivity|]. rewrite HV by lia. destruct (i - k); reflexivity.
    - cbn [length seq map combine]. unfold assign. cbn [fold_left fst snd].
      change (assign A (upd val k (Some a)) (combine (seq (S k) (length l)) (map Some l)) i = if Nat.ltb i k then val i else nth_error (a :: l) (i - k)).
      rewrite IH by (intros j Hj; rewrite upd_other by lia; apply HV; lia).
      destruct (Nat.eq_dec i k) as [->|N].
      + rewrite upd_same. destruct (Nat.ltb_spec k (S k)); [|lia]. destruct (Nat.ltb_spec k k); [lia|]. rewrite Nat.sub_diag. reflexivity.
      + rewrite upd_other by exact N. destruct (Nat.ltb_spec i (S k)), (Nat.ltb_spec i k); try lia; try reflexivity.
        replace (i - k) with (S (i - S k)) by lia. reflexivity.
  Qed.
  Lemma each_combine (l : list A) : forall k t,
    each activate_without_replay (seq k (length l)) t = each (batch_one A) (combine (seq k (length l)) (map Some l)) t.
  Proof.
    induction l as [|a l IH]; intros k t; [reflexivity|]. cbn [length seq map combine each]. unfold batch_one at 1. cbn [fst snd].
    destruct (activate_without_replay k t); [apply IH|reflexivity].
  Qed.

  Theorem step_ok val t o : ok val t -> admissible (slots t) val o ->
    exists val' t', step A lt o (val, t) = Some (val', t') /\ ok val' t' /\ slots t' = slots_after (slots t) o /\ outcome val (top t) o val'.
  Proof.
    intros V AD. destruct o as [i a|i|l|a|l| |n|l]; cbn [admissible] in AD; cbn [step].
    - destruct (change_one val t i (Some a) V AD) as (t' & E & V' & L). unfold activate_player. pose proof AD as AD'. apply Nat.ltb_lt in AD'. rewrite AD', E.
      exists (upd val i (Some a)), t'. split; [reflexivity|]. split; [exact V'|]. split; [unfold slots; rewrite L; reflexivity|].
      split; [apply upd_same|]. intros j Hj. apply upd_other, Hj.
    - destruct (change_one val t i None V AD) as (t' & E & V' & L). unfold deactivate_player. pose proof AD as AD'. apply Nat.ltb_lt in AD'. rewrite AD', E.
      exists (upd val i None), t'. split; [reflexivity|]. split; [exact V'|]. split; [unfold slots; rewrite L; reflexivity|].
      split; [apply upd_same|]. intros j Hj. apply upd_other, Hj.
    - pose proof (valid_contiguous _ _ _ V) as C. destruct (each_step_ok l t C AD) as (t1 & E1 & L1 & H1). rewrite E1.
      set (val' := assign A val (map (fun i => (i, None)) l)).
      assert (forall i, val' i = if in_dec Nat.eq_dec i l then None else val i) as HV by (intro i; apply assign_none).
      assert (inner t1 = inner t) as I1 by (unfold inner; rewrite L1; reflexivity).
      destruct (each_deactivate_ok l val' t1) as (t' & E & L & V').
      + rewrite I1. apply almost_ext with (w_tree t).
        * apply almost_change with val; [exact V| | |intro j; apply in_dec, Nat.eq_dec].
          -- intros j Hj. rewrite HV, (v_dom _ _ _ V j Hj). destruct (in_dec Nat.eq_dec j l); reflexivity.
          -- intros j Hj. rewrite HV. destruct (in_dec Nat.eq_dec j l); [contradiction|reflexivity].
        * intros j Hj. specialize (AD j Hj). rewrite slots_inner in AD. lia.
        * intros i Hi. rewrite H1. destruct (w_tree t i) as [w|] eqn:Ew; [|reflexivity]. cbn [killed]. destruct (in_dec Nat.eq_dec w l) as [Y|Y]; [|reflexivity].
          exfalso. apply (Hi w Y). apply (contiguous_path _ _ C (inner t + w) i w); [lia|exact Ew].
        * intros i Hi. rewrite H1, (v_out _ _ _ V i Hi). reflexivity.
      + intros i w Hw. rewrite H1 in Hw. unfold killed in Hw. destruct (w_tree t i) as [v|] eqn:Ew; [|discriminate].
        rewrite HV. destruct (in_dec Nat.eq_dec v l) as [|N]; [discriminate|]. injection Hw as ->. destruct (in_dec Nat.eq_dec w l); [contradiction|].
        apply (valid_sane _ _ _ V i w Ew).
      + intros x Hx. split; [unfold slots; rewrite L1; apply AD, Hx|]. rewrite HV. destruct (in_dec Nat.eq_dec x l); [reflexivity|contradiction].
      + rewrite E. exists val', t'. split; [reflexivity|]. split; [exact V'|]. split; [unfold slots; rewrite L, L1; reflexivity|].
        cbn [outcome]. split; intros j Hj; rewrite HV; destruct (in_dec Nat.eq_dec j l); try contradiction; reflexivity.
    - pose proof (ok_smallest _ _ V) as SM. unfold top in *. unfold smallest in SM. destruct (w_tree t 0) as [w|] eqn:Ew.
      + assert (w < slots t) as Hw.
        { destruct SM as (b & Eb & _). rewrite slots_inner. destruct (Nat.le_gt_cases w (inner t)) as [|H]; [lia|]. rewrite (v_dom _ _ _ V w H) in Eb. discriminate. }
        destruct (change_one val t w a V Hw) as (t' & E & V' & L).
        exists (upd val w a), t'. unfold deactivate_player. apply Nat.ltb_lt in Hw. rewrite Hw.
        assert (match a with Some _ => replay_on_change A lt (upd val w a) w false t | None => replay_on_change A lt (upd val w a) w true t end = Some t') as -> by (destruct a; exact E).
        split; [reflexivity|]. split; [exact V'|]. split; [unfold slots; rewrite L; reflexivity|]. exists w. split; [reflexivity|]. split; [apply upd_same|]. intros j Hj. apply upd_other, Hj.
      + exfalso. destruct AD as [i Hi]. apply Hi, SM.
    - destruct (batch_ok l val t (v_leaves _ _ _ V) (v_dom _ _ _ V) (v_out _ _ _ V) AD) as (t1 & E1 & L1 & HL & HD & HO). rewrite E1.
      destruct (rebuild_ok _ _ HL HD HO) as (t' & E & V' & L). rewrite E. exists (assign A val l), t'.
      split; [reflexivity|]. split; [exact V'|]. split; [unfold slots; rewrite L, L1; reflexivity|]. cbn [outcome]. split.
      + intros j Hj. apply assign_other, Hj.
      + intros l1 j v l2 -> Hn. apply assign_last, Hn.
    - exists (fun _ => None), (mkw (w_log t) (fun _ => None)). split; [reflexivity|]. split; [apply empty_ok|]. split; [reflexivity|]. intro j. reflexivity.
    - unfold new_wtree. destruct (Nat.eqb_spec n 0); [lia|]. exists (fun _ => None), (mkw (Nat.log2_up n) (fun _ => None)).
      split; [reflexivity|]. split; [apply empty_ok|]. split; [reflexivity|]. intro j. reflexivity.
    - unfold resize_and_rebuild, new_wtree. destruct (Nat.eqb_spec (length l) 0) as [E0|N0]; [destruct l; [congruence|discriminate]|].
      set (t0 := mkw (Nat.log2_up (length l)) (fun _ => None)). rewrite (each_combine l 0 t0).
      pose proof (empty_ok (Nat.log2_up (length l))) as V0. fold t0 in V0. unfold ok in V0.
      destruct (batch_ok (combine (seq 0 (length l)) (map Some l)) (fun _ => None) t0 (v_leaves _ _ _ V0) (v_dom _ _ _ V0) (v_out _ _ _ V0)) as (t1 & E1 & L1 & HL & HD & HO).
      { intros [x o] He. cbn [fst]. apply in_combine_l, in_seq in He. unfold slots, t0. cbn [w_log].
        assert (length l <= 2 ^ Nat.log2_up (length l)).
        { destruct (Nat.eq_dec (length l) 1) as [->|N1]; [cbn; lia|]. apply Nat.log2_up_spec. lia. }
        lia. }
      rewrite E1. pose proof (assign_combine l 0 (fun _ => None) (fun _ _ => eq_refl)) as AC.
      destruct (rebuild_ok (fun i => nth_error l i) t1) as (t' & E & V' & L).
      + intros j Hj. rewrite (HL j Hj), AC. cbn [Nat.ltb Nat.leb]. rewrite Nat.sub_0_r. reflexivity.
      + intros j Hj. specialize (HD j Hj). rewrite AC in HD. cbn [Nat.ltb Nat.leb] in HD. rewrite Nat.sub_0_r in HD. exact HD.
      + exact HO.
      + rewrite E. exists (fun i => nth_error l i), t'. split; [reflexivity|]. split; [exact V'|]. split; [unfold slots; rewrite L, L1; reflexivity|]. intro j. reflexivity.
  Qed.

  Lemma double_loop_none i : forall tr, double_loop i tr = None.
  Proof. induction i as [|i IH]; intro tr; [reflexivity|]. cbn [double_loop]. apply IH. Qed.
End P.
