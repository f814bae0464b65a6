(** Proofs about the merge iterators of the priority queue: each of them takes a best head at
    every step. *)
From Coq Require Import List Bool Arith Lia Permutation Sorted.
From Verif Require Import SumLib OrderLib LoserProofs PqTreeModel PqTournProofs.
Import ListNotations.

Section Merge.
  Variable A : Type.
  Variable cmp : A -> A -> bool.
  Hypothesis SW : strict_weak cmp.
  Variable mn : A.
  Notation ge := (ge A cmp).
  Notation deref := (deref A mn).

  (** greater first, and greater than the sentinel *)
  Definition gt (x y : A) : bool := cmp y x.
  Definition real (x : A) : Prop := cmp mn x = true.
  Definition run (l : list A) : Prop := sorted gt l /\ Forall real l.
  Definition good (arr : nat -> list A) : Prop := forall j, run (arr j).
  Definition content (k : nat) (arr : nat -> list A) : list A := concat (map arr (seq 0 k)).
  Definition supp (k : nat) (arr : nat -> list A) : Prop := forall j, k <= j -> arr j = [].

  Lemma SWg : strict_weak gt.
  Proof.
    constructor; unfold gt.
    - apply (sw_irrefl _ SW).
    - intros x y z H1 H2. exact (sw_trans _ SW _ _ _ H2 H1).
    - intros x y z H. destruct (sw_incomp _ SW z y x H); auto.
  Qed.
  Lemma real_ge x : real x -> ge x mn.
  Proof. apply (lt_ge _ _ SW). Qed.
  Lemma run_nil : run [].
  Proof. split; constructor. Qed.
  Lemma run_tl x r : run (x :: r) -> run r /\ real x /\ (forall y, In y r -> ge x y).
  Proof.
    intros [H1 H2]. inversion H1 as [|? ? S1 S2]; subst. inversion H2 as [|? ? R1 R2]; subst.
    split; [split; assumption|]. split; [exact R1|]. rewrite Forall_forall in S2. exact S2.
  Qed.
  Lemma run_deref l y : run l -> In y l -> ge (deref l) y.
  Proof. destruct l as [|x r]; [contradiction|]. intros H [<-|Hy]; [apply ge_refl, SW|]. apply (run_tl _ _ H), Hy. Qed.
  Lemma deref_ge l : run l -> ge (deref l) mn.
  Proof. destruct l as [|x r]; intro H; [apply ge_refl, SW|]. apply real_ge, (run_tl _ _ H). Qed.
  Lemma good_upd arr j l : good arr -> run l -> good (upd arr j l).
  Proof. intros H R i. unfold upd. destruct (Nat.eqb i j); auto. Qed.
  Lemma supp_upd k arr j l : supp k arr -> j < k -> supp k (upd arr j l).
  Proof. intros H Hj i Hi. rewrite upd_other by lia. auto. Qed.
  Lemma sentinel_run l : run l -> is_sentinel A cmp mn (deref l) = match l with [] => true | _ => false end.
  Proof.
    unfold is_sentinel. destruct l as [|x r]; cbn; intro H; [rewrite (sw_irrefl _ SW); reflexivity|].
    destruct (run_tl _ _ H) as (_ & R & _). rewrite R. reflexivity.
  Qed.

  Lemma content_take k arr w : w < k -> Permutation (content k arr) (arr w ++ content k (upd arr w [])).
  Proof.
    intro Hw. unfold content.
    assert (H : forall m s, s <= w < s + m ->
      Permutation (concat (map arr (seq s m))) (arr w ++ concat (map (upd arr w []) (seq s m)))).
    { induction m as [|m IH]; intros s Hs; [lia|]. cbn [seq map concat].
      destruct (Nat.eq_dec s w) as [->|N].
      - rewrite upd_same. cbn [app].
        assert (Eq : map (upd arr w []) (seq (S w) m) = map arr (seq (S w) m)).
        { apply map_ext_in. intros j Hj. apply in_seq in Hj. apply upd_other. lia. }
        rewrite Eq. apply Permutation_refl.
      - rewrite (upd_other _ w [] s N).
        eapply Permutation_trans; [apply Permutation_app_head, IH; lia|].
        rewrite !app_assoc. apply Permutation_app_tail, Permutation_app_comm. }
    apply H. lia.
  Qed.
  Lemma content_ext k arr arr' : (forall j, j < k -> arr j = arr' j) -> content k arr = content k arr'.
  Proof. intro H. unfold content. f_equal. apply map_ext_in. intros j Hj. apply in_seq in Hj. apply H. lia. Qed.
  Lemma content_upd k arr w l : w < k -> Permutation (content k (upd arr w l)) (l ++ content k (upd arr w [])).
  Proof.
    intro Hw. eapply Permutation_trans; [apply (content_take k _ w Hw)|]. rewrite upd_same.
    apply Permutation_app_head.
    rewrite (content_ext k (upd (upd arr w l) w []) (upd arr w [])); [apply Permutation_refl|].
    intros j _. unfold upd. destruct (Nat.eqb j w); reflexivity.
  Qed.
  Lemma content_pop k arr w x r : w < k -> arr w = x :: r ->
    Permutation (content k arr) (x :: content k (upd arr w r)).
  Proof.
    intros Hw E. eapply Permutation_trans; [apply (content_take k arr w Hw)|]. rewrite E. cbn [app]. constructor.
    apply Permutation_sym, content_upd, Hw.
  Qed.
  Lemma in_content k arr x : In x (content k arr) <-> exists j, j < k /\ In x (arr j).
  Proof.
    unfold content. rewrite in_concat. split.
    - intros (l & Hl & Hx). apply in_map_iff in Hl. destruct Hl as (j & <- & Hj). apply in_seq in Hj. exists j. split; [lia|exact Hx].
    - intros (j & Hj & Hx). exists (arr j). split; [|exact Hx]. apply in_map, in_seq. lia.
  Qed.
  Lemma content_supp k k' arr : supp k arr -> k <= k' -> content k' arr = content k arr.
  Proof.
    intros H Hk. unfold content. replace k' with (k + (k' - k)) by lia. rewrite seq_app, map_app, concat_app.
    assert (E : concat (map arr (seq (0 + k) (k' - k))) = []).
    { assert (G : forall m s, k <= s -> concat (map arr (seq s m)) = []).
      { induction m as [|m IH]; intros s Hs; [reflexivity|]. cbn. rewrite (H s Hs), IH by lia. reflexivity. }
      apply G. lia. }
    rewrite E, app_nil_r. reflexivity.
  Qed.
  Lemma content_nil k arr : content k arr = [] <-> forall j, j < k -> arr j = [].
  Proof.
    split.
    - intros H j Hj. destruct (arr j) as [|x r] eqn:E; [reflexivity|].
      assert (In x (content k arr)) by (apply in_content; exists j; split; [exact Hj|rewrite E; left; reflexivity]).
      rewrite H in H0. contradiction.
    - intro H. destruct (content k arr) as [|x l] eqn:E; [reflexivity|].
      assert (Hx : In x (content k arr)) by (rewrite E; left; reflexivity).
      apply in_content in Hx. destruct Hx as (j & Hj & Hx). rewrite (H j Hj) in Hx. contradiction.
  Qed.

  (** a best head belongs to a sequence that has one, if anything is left *)
  Lemma best_nonempty k arr w : good arr -> supp k arr -> (forall j, ge (deref (arr w)) (deref (arr j))) ->
    content k arr <> [] -> w < k /\ exists x r, arr w = x :: r.
  Proof.
    intros Hg Hs Hb Hc.
    destruct (content k arr) as [|y l] eqn:E; [contradiction|].
    assert (Hy : In y (content k arr)) by (rewrite E; left; reflexivity).
    apply in_content in Hy. destruct Hy as (j & Hj & Hy).
    destruct (arr w) as [|x r] eqn:Ew.
    - exfalso. specialize (Hb j). cbn [PqTreeModel.deref hd] in Hb.
      pose proof (ge_trans _ _ SW _ _ _ Hb (run_deref _ _ (Hg j) Hy)) as Q.
      destruct (Hg j) as [_ R]. rewrite Forall_forall in R. specialize (R y Hy). unfold real in R.
      unfold PqTournProofs.ge in Q. congruence.
    - split; [|exists x, r; reflexivity]. destruct (Nat.lt_ge_cases w k) as [L|L]; [exact L|].
      rewrite (Hs w L) in Ew. discriminate.
  Qed.

  (** n best elements, best first *)
  Inductive emits : nat -> (nat -> list A) -> list A -> (nat -> list A) -> Prop :=
  | em_nil arr arr' : (forall j, arr' j = arr j) -> emits 0 arr [] arr'
  | em_cons n arr w x r out arr' : arr w = x :: r -> (forall j, ge x (deref (arr j))) ->
      emits n (upd arr w r) out arr' -> emits (S n) arr (x :: out) arr'.

  Lemma emits_ext n : forall arr out arr' b, emits n arr out arr' -> (forall j, b j = arr j) ->
    forall b', (forall j, b' j = arr' j) -> emits n b out b'.
  Proof.
    induction n as [|n IH]; intros arr out arr' b H Hb b' Hb'; inversion H as [? ? H0|? ? w x r out0 ? H1 H2 H5]; subst.
    - constructor. intro j. rewrite Hb', Hb. auto.
    - apply (em_cons _ _ w x r); [rewrite Hb; assumption|intro j; rewrite Hb; auto|].
      apply (IH _ _ _ _ H5); [|exact Hb']. intro j. unfold upd. destruct (Nat.eqb j w); [reflexivity|apply Hb].
  Qed.

  Lemma emits_facts n : forall arr out arr' k, emits n arr out arr' -> good arr -> supp k arr ->
    good arr' /\ supp k arr' /\ run out /\ length out = n /\
    Permutation (content k arr) (out ++ content k arr') /\
    (forall x y, In x out -> In y (content k arr') -> ge x y) /\
    (forall j x, In x (arr' j) -> In x (arr j)).
  Proof.
    induction n as [|n IH]; intros arr out arr' k H Hg Hs; inversion H as [? ? H0|? ? w x r out0 ? H1 H2 H5]; subst.
    - assert (Hg' : good arr') by (intro j; rewrite H0; apply Hg).
      assert (Hs' : supp k arr') by (intros j Hj; rewrite H0; apply Hs, Hj).
      repeat split; try constructor.
      + apply Hg'.
      + apply Hg'.
      + exact Hs'.
      + cbn [app]. rewrite (content_ext k arr arr') by (intros; symmetry; apply H0). apply Permutation_refl.
      + contradiction.
      + intros j x Hx. rewrite H0 in Hx. exact Hx.
    - assert (Hw : w < k).
      { destruct (Nat.lt_ge_cases w k) as [L|L]; [exact L|]. rewrite (Hs w L) in H1. discriminate. }
      pose proof (Hg w) as Rw. rewrite H1 in Rw. destruct (run_tl _ _ Rw) as (Rr & Rx & _).
      destruct (IH _ _ _ k H5 (good_upd _ _ _ Hg Rr) (supp_upd _ _ _ _ Hs Hw)) as (G' & S' & R' & L' & P' & O' & I').
      pose proof (content_pop k arr w x r Hw H1) as P1.
      assert (Best : forall y, In y (content k arr) -> ge x y).
      { intros y Hy. apply in_content in Hy. destruct Hy as (j & Hj & Hy).
        eapply (ge_trans _ _ SW); [apply (H2 j)|]. apply run_deref; [apply Hg|exact Hy]. }
      assert (P2 : Permutation (content k arr) (x :: out0 ++ content k arr')).
      { eapply Permutation_trans; [exact P1|]. constructor. exact P'. }
      split; [exact G'|]. split; [exact S'|]. split; [|split; [|split; [|split]]].
      + destruct R' as [R1 R2]. split; [|constructor; assumption]. constructor; [exact R1|].
        apply Forall_forall. intros y Hy. apply Best. apply (Permutation_in _ (Permutation_sym P2)).
        right. apply in_or_app. left. exact Hy.
      + cbn. rewrite L'. reflexivity.
      + exact P2.
      + intros y z [<-|Hy] Hz; [|apply O'; assumption]. apply Best. apply (Permutation_in _ (Permutation_sym P2)).
        right. apply in_or_app. right. exact Hz.
      + intros j y Hy. specialize (I' j y Hy). unfold upd in I'. destruct (Nat.eqb_spec j w) as [->|_]; [|exact I'].
        rewrite H1. right. exact I'.
  Qed.

  (** one step of any of the merge loops *)
  Lemma step_best n k arr w : good arr -> supp k arr -> S n <= length (content k arr) ->
    (forall j, ge (deref (arr w)) (deref (arr j))) ->
    exists x r, arr w = x :: r /\ deref (arr w) = x /\ (forall j, ge x (deref (arr j))) /\
      good (upd arr w r) /\ supp k (upd arr w r) /\ n <= length (content k (upd arr w r)).
  Proof.
    intros Hg Hs Hn Hb.
    assert (Hc : content k arr <> []) by (intro Q; rewrite Q in Hn; cbn in Hn; lia).
    destruct (best_nonempty k arr w Hg Hs Hb Hc) as (Hw & x & r & E).
    pose proof (Hg w) as Rw. rewrite E in Rw. destruct (run_tl _ _ Rw) as (Rr & _ & _).
    exists x, r. split; [exact E|]. rewrite E in *. split; [reflexivity|]. split; [exact Hb|].
    split; [apply good_upd; assumption|]. split; [apply supp_upd; assumption|].
    pose proof (Permutation_length (content_pop k arr w x r Hw E)) as Q. cbn [length] in Q. lia.
  Qed.

  Lemma merge2_ok n : forall arr k, good arr -> supp k arr -> (forall j, 2 <= j -> arr j = []) ->
    n <= length (content k arr) ->
    exists out r0 r1, merge2 A cmp mn n (arr 0) (arr 1) = Some (out, (r0, r1)) /\
      emits n arr out (upd (upd arr 0 r0) 1 r1).
  Proof.
    induction n as [|n IH]; intros arr k Hg Hs H2 Hn.
    - exists [], (arr 0), (arr 1). split; [reflexivity|]. constructor.
      intro j. unfold upd. destruct (Nat.eqb_spec j 1) as [->|]; [reflexivity|]. destruct (Nat.eqb_spec j 0) as [->|]; reflexivity.
    - assert (D : forall w, (forall j, ge (deref (arr w)) (deref (arr j))) <-> ge (deref (arr w)) (deref (arr 0)) /\ ge (deref (arr w)) (deref (arr 1))).
      { intro w. split; [intro Q; split; apply Q|]. intros [Q0 Q1] j. destruct j as [|[|j]]; [exact Q0|exact Q1|].
        rewrite (H2 (S (S j))) by lia. apply deref_ge, Hg. }
      cbn [merge2]. destruct (cmp (deref (arr 0)) (deref (arr 1))) eqn:E.
      + assert (Hb : forall j, ge (deref (arr 1)) (deref (arr j))).
        { apply D. split; [apply (lt_ge _ _ SW), E|apply ge_refl, SW]. }
        destruct (step_best n k arr 1 Hg Hs Hn Hb) as (x & r & E1 & E2 & Hb' & Hg' & Hs' & Hn').
        rewrite E2, E1. cbn [next].
        destruct (IH (upd arr 1 r) k Hg' Hs') as (out & r0 & r1 & M & Em); [|exact Hn'|].
        { intros j Hj. rewrite upd_other by lia. auto. }
        rewrite upd_same, upd_other in M by lia. rewrite M.
        exists (x :: out), r0, r1. split; [reflexivity|].
        apply (em_cons _ _ 1 x r); [exact E1|exact Hb'|]. eapply emits_ext; [exact Em|reflexivity|].
        intro j. unfold upd. destruct (Nat.eqb_spec j 1); [reflexivity|]. destruct (Nat.eqb_spec j 0); reflexivity.
      + assert (Hb : forall j, ge (deref (arr 0)) (deref (arr j))).
        { apply D. split; [apply ge_refl, SW|exact E]. }
        destruct (step_best n k arr 0 Hg Hs Hn Hb) as (x & r & E1 & E2 & Hb' & Hg' & Hs' & Hn').
        rewrite E2, E1. cbn [next].
        destruct (IH (upd arr 0 r) k Hg' Hs') as (out & r0 & r1 & M & Em); [|exact Hn'|].
        { intros j Hj. rewrite upd_other by lia. auto. }
        rewrite upd_same, upd_other in M by lia. rewrite M.
        exists (x :: out), r0, r1. split; [reflexivity|].
        apply (em_cons _ _ 0 x r); [exact E1|exact Hb'|]. eapply emits_ext; [exact Em|reflexivity|].
        intro j. unfold upd. destruct (Nat.eqb_spec j 1); [reflexivity|]. destruct (Nat.eqb_spec j 0); reflexivity.
  Qed.

  Lemma merge3_case_ok n : forall a b c s k, good s -> supp k s ->
    (forall j, j = a \/ j = b \/ j = c \/ s j = []) -> a <> b -> a <> c -> b <> c ->
    ge (deref (s a)) (deref (s b)) -> ge (deref (s b)) (deref (s c)) -> n <= length (content k s) ->
    exists out s', merge3_case A cmp mn n a b c s = Some (out, s') /\ emits n s out s'.
  Proof.
    induction n as [|n IH]; intros a b c s k Hg Hs Hc N1 N2 N3 O1 O2 Hn.
    - exists [], s. split; [reflexivity|]. constructor. reflexivity.
    - assert (Hb : forall j, ge (deref (s a)) (deref (s j))).
      { intro j. destruct (Hc j) as [->|[->|[->|E]]]; [apply ge_refl, SW|exact O1|exact (ge_trans _ _ SW _ _ _ O1 O2)|].
        rewrite E. apply deref_ge, Hg. }
      destruct (step_best n k s a Hg Hs Hn Hb) as (x & r & E1 & E2 & Hb' & Hg' & Hs' & Hn').
      cbn [merge3_case]. rewrite E2, E1. cbn [next].
      set (s1 := upd s a r) in *.
      assert (Sb : s1 b = s b) by (apply upd_other; congruence).
      assert (Sc : s1 c = s c) by (apply upd_other; congruence).
      assert (Hc' : forall j, j = a \/ j = b \/ j = c \/ s1 j = []).
      { intro j. destruct (Nat.eq_dec j a) as [->|N]; [left; reflexivity|].
        unfold s1. rewrite upd_other by exact N. apply Hc. }
      assert (Fin : forall a' b' c', (forall j, j = a' \/ j = b' \/ j = c' \/ s1 j = []) -> a' <> b' -> a' <> c' -> b' <> c' ->
        ge (deref (s1 a')) (deref (s1 b')) -> ge (deref (s1 b')) (deref (s1 c')) ->
        exists out s', match merge3_case A cmp mn n a' b' c' s1 with Some (out, s'') => Some (x :: out, s'') | None => None end = Some (out, s') /\ emits (S n) s out s').
      { intros a' b' c' Q1 Q2 Q3 Q4 Q5 Q6.
        destruct (IH a' b' c' s1 k Hg' Hs' Q1 Q2 Q3 Q4 Q5 Q6 Hn') as (out & s' & -> & Em).
        exists (x :: out), s'. split; [reflexivity|]. apply (em_cons _ _ a x r); assumption. }
      destruct (cmp (deref (s1 b)) (deref (s1 a))) eqn:C1.
      + apply Fin; auto; try (apply (lt_ge _ _ SW), C1). rewrite Sb, Sc. exact O2.
      + destruct (cmp (deref (s1 c)) (deref (s1 a))) eqn:C2.
        * apply Fin; auto; [intro j; destruct (Hc' j) as [?|[?|[?|?]]]; auto|]. apply (lt_ge _ _ SW), C2.
        * apply Fin; auto; [intro j; destruct (Hc' j) as [?|[?|[?|?]]]; auto|]. rewrite Sb, Sc. exact O2.
  Qed.
  Lemma merge3_ok n s k : good s -> supp k s -> (forall j, 3 <= j -> s j = []) -> n <= length (content k s) ->
    exists out s', merge3 A cmp mn n s = Some (out, s') /\ emits n s out s'.
  Proof.
    intros Hg Hs H3 Hn.
    assert (Q : forall j, j = 0 \/ j = 1 \/ j = 2 \/ s j = []).
    { intros [|[|[|j]]]; auto. right; right; right. apply H3. lia. }
    unfold merge3.
    destruct (cmp (deref (s 1)) (deref (s 0))) eqn:C1.
    - destruct (cmp (deref (s 2)) (deref (s 1))) eqn:C2.
      + apply (merge3_case_ok n 0 1 2 s k); auto; apply (lt_ge _ _ SW); assumption.
      + destruct (cmp (deref (s 0)) (deref (s 2))) eqn:C3.
        * apply (merge3_case_ok n 2 0 1 s k); auto; [intro j; destruct (Q j) as [?|[?|[?|?]]]; auto| |]; apply (lt_ge _ _ SW); assumption.
        * apply (merge3_case_ok n 0 2 1 s k); auto; intro j; destruct (Q j) as [?|[?|[?|?]]]; auto.
    - destruct (cmp (deref (s 2)) (deref (s 1))) eqn:C2.
      + destruct (cmp (deref (s 2)) (deref (s 0))) eqn:C3.
        * apply (merge3_case_ok n 1 0 2 s k); auto; [intro j; destruct (Q j) as [?|[?|[?|?]]]; auto|]; apply (lt_ge _ _ SW); assumption.
        * apply (merge3_case_ok n 1 2 0 s k); auto; [intro j; destruct (Q j) as [?|[?|[?|?]]]; auto|]; apply (lt_ge _ _ SW); assumption.
      + apply (merge3_case_ok n 2 1 0 s k); auto. intro j; destruct (Q j) as [?|[?|[?|?]]]; auto.
  Qed.

  Lemma merge4_case_ok n : forall a b c d s k, good s -> supp k s ->
    (forall j, j = a \/ j = b \/ j = c \/ j = d \/ s j = []) -> NoDup [a; b; c; d] ->
    ge (deref (s a)) (deref (s b)) -> ge (deref (s b)) (deref (s c)) -> ge (deref (s c)) (deref (s d)) ->
    n <= length (content k s) ->
    exists out s', merge4_case A cmp mn n a b c d s = Some (out, s') /\ emits n s out s'.
  Proof.
    induction n as [|n IH]; intros a b c d s k Hg Hs Hc ND O1 O2 O3 Hn.
    - exists [], s. split; [reflexivity|]. constructor. reflexivity.
    - assert (Hb : forall j, ge (deref (s a)) (deref (s j))).
      { intro j. pose proof (ge_trans _ _ SW _ _ _ O1 O2) as O12.
        destruct (Hc j) as [->|[->|[->|[->|E]]]]; [apply ge_refl, SW|exact O1|exact O12|exact (ge_trans _ _ SW _ _ _ O12 O3)|].
        rewrite E. apply deref_ge, Hg. }
      destruct (step_best n k s a Hg Hs Hn Hb) as (x & r & E1 & E2 & Hb' & Hg' & Hs' & Hn').
      cbn [merge4_case]. rewrite E2, E1. cbn [next].
      set (s1 := upd s a r) in *.
      assert (NE : b <> a /\ c <> a /\ d <> a).
      { inversion ND as [|? ? Q _]; subst. cbn in Q. repeat split; intros ->; tauto. }
      destruct NE as (Na & Nb & Nc).
      assert (Sb : s1 b = s b) by (apply upd_other; assumption).
      assert (Sc : s1 c = s c) by (apply upd_other; assumption).
      assert (Sd : s1 d = s d) by (apply upd_other; assumption).
      assert (Hc' : forall j, j = a \/ j = b \/ j = c \/ j = d \/ s1 j = []).
      { intro j. destruct (Nat.eq_dec j a) as [->|N]; [left; reflexivity|].
        unfold s1. rewrite upd_other by exact N. apply Hc. }
      assert (Fin : forall a' b' c' d', Permutation [a; b; c; d] [a'; b'; c'; d'] ->
        ge (deref (s1 a')) (deref (s1 b')) -> ge (deref (s1 b')) (deref (s1 c')) -> ge (deref (s1 c')) (deref (s1 d')) ->
        exists out s', match merge4_case A cmp mn n a' b' c' d' s1 with Some (out, s'') => Some (x :: out, s'') | None => None end = Some (out, s') /\ emits (S n) s out s').
      { intros a' b' c' d' P Q1 Q2 Q3.
        assert (Hc2 : forall j, j = a' \/ j = b' \/ j = c' \/ j = d' \/ s1 j = []).
        { intro j. assert (Q : In j [a; b; c; d] \/ s1 j = []) by (destruct (Hc' j) as [->|[->|[->|[->|?]]]]; cbn; auto 8).
          destruct Q as [Q|Q]; [|auto]. apply (Permutation_in _ P) in Q. cbn in Q. destruct Q as [<-|[<-|[<-|[<-|[]]]]]; auto. }
        destruct (IH a' b' c' d' s1 k Hg' Hs' Hc2 (Permutation_NoDup P ND) Q1 Q2 Q3 Hn') as (out & s' & -> & Em).
        exists (x :: out), s'. split; [reflexivity|]. apply (em_cons _ _ a x r); assumption. }
      assert (P1 : Permutation [a; b; c; d] [b; a; c; d]) by apply perm_swap.
      assert (P2 : Permutation [a; b; c; d] [b; c; a; d]) by (eapply Permutation_trans; [exact P1|]; apply perm_skip, perm_swap).
      assert (P3 : Permutation [a; b; c; d] [b; c; d; a]) by (eapply Permutation_trans; [exact P2|]; do 2 apply perm_skip; apply perm_swap).
      destruct (cmp (deref (s1 c)) (deref (s1 a))) eqn:C1.
      + destruct (cmp (deref (s1 b)) (deref (s1 a))) eqn:C2.
        * apply Fin; [apply Permutation_refl|apply (lt_ge _ _ SW), C2|rewrite Sb, Sc; exact O2|rewrite Sc, Sd; exact O3].
        * apply Fin; [exact P1|exact C2|apply (lt_ge _ _ SW), C1|rewrite Sc, Sd; exact O3].
      + destruct (cmp (deref (s1 d)) (deref (s1 a))) eqn:C2.
        * apply Fin; [exact P2|rewrite Sb, Sc; exact O2|exact C1|apply (lt_ge _ _ SW), C2].
        * apply Fin; [exact P3|rewrite Sb, Sc; exact O2|rewrite Sc, Sd; exact O3|exact C2].
  Qed.

  Lemma starts4_perm a b c d : In (a, b, c, d) starts4 -> Permutation [0; 1; 2; 3] [a; b; c; d].
  Proof.
    intro H. apply NoDup_Permutation_bis.
    - repeat constructor; cbn; intuition discriminate.
    - cbn. lia.
    - cbn in H. repeat (destruct H as [H|H]; [injection H as <- <- <- <-; intros x Hx; cbn in *; tauto|]). contradiction.
  Qed.
  Lemma perm_starts4 a b c d : Permutation [0; 1; 2; 3] [a; b; c; d] -> In (a, b, c, d) starts4.
  Proof.
    intro P.
    assert (B : forall x, In x [a; b; c; d] -> x < 4).
    { intros x Hx. apply (Permutation_in _ (Permutation_sym P)) in Hx. cbn in Hx. lia. }
    assert (ND : NoDup [a; b; c; d]).
    { apply (Permutation_NoDup P). repeat constructor; cbn; intuition discriminate. }
    pose proof (B a ltac:(cbn; auto)) as Ba. pose proof (B b ltac:(cbn; auto)) as Bb.
    pose proof (B c ltac:(cbn; auto)) as Bc. pose proof (B d ltac:(cbn; auto)) as Bd.
    inversion ND as [|? ? N1 ND1]; subst. inversion ND1 as [|? ? N2 ND2]; subst. inversion ND2 as [|? ? N3 _]; subst.
    cbn in N1, N2, N3.
    assert (Ca : a = 0 \/ a = 1 \/ a = 2 \/ a = 3) by lia. assert (Cb : b = 0 \/ b = 1 \/ b = 2 \/ b = 3) by lia.
    assert (Cc : c = 0 \/ c = 1 \/ c = 2 \/ c = 3) by lia.
    clear P B ND ND1 ND2.
    destruct Ca as [->|[->|[->| ->]]]; destruct Cb as [->|[->|[->| ->]]]; try tauto;
    destruct Cc as [->|[->|[->| ->]]]; try tauto;
    (assert (Cd : d = 0 \/ d = 1 \/ d = 2 \/ d = 3) by lia); destruct Cd as [->|[->|[->| ->]]]; try tauto; cbn; tauto.
  Qed.
  Lemma merge4_ok n s k : good s -> supp k s -> (forall j, 4 <= j -> s j = []) -> n <= length (content k s) ->
    exists out s', merge4 A cmp mn n s = Some (out, s') /\ emits n s out s'.
  Proof.
    intros Hg Hs H4 Hn. unfold merge4.
    set (lt := fun i j => cmp (deref (s j)) (deref (s i))).
    assert (SWl : strict_weak lt).
    { constructor; unfold lt.
      - intro. apply (sw_irrefl _ SW).
      - intros x y z Q1 Q2. exact (sw_trans _ SW _ _ _ Q2 Q1).
      - intros x y z Q. destruct (sw_incomp _ SW _ (deref (s y)) _ Q); auto. }
    destruct (find (start4_ok A cmp mn s) starts4) as [[[[a b] c] d]|] eqn:F.
    - apply find_some in F. destruct F as [F1 F2]. unfold start4_ok in F2.
      apply andb_prop in F2. destruct F2 as [F2 F3]. apply andb_prop in F2. destruct F2 as [F2 F4].
      apply negb_true_iff in F2, F3, F4.
      pose proof (starts4_perm _ _ _ _ F1) as P.
      apply (merge4_case_ok n a b c d s k); auto.
      + intro j. destruct (Nat.lt_ge_cases j 4) as [L|L]; [|right; right; right; right; apply H4, L].
        assert (Q : In j [0; 1; 2; 3]) by (cbn; lia). apply (Permutation_in _ P) in Q. cbn in Q.
        destruct Q as [<-|[<-|[<-|[<-|[]]]]]; auto.
      + apply (Permutation_NoDup P). repeat constructor; cbn; intuition discriminate.
    - exfalso. pose proof (ssort_perm nat lt [0; 1; 2; 3]) as P. pose proof (ssort_sorted nat lt SWl [0; 1; 2; 3]) as Q.
      destruct (ssort lt [0; 1; 2; 3]) as [|a [|b [|c [|d [|? ?]]]]] eqn:E; try (apply Permutation_length in P; discriminate P).
      inversion Q as [|? ? Q1 Q2]; subst. inversion Q1 as [|? ? Q3 Q4]; subst. inversion Q3 as [|? ? Q5 Q6]; subst.
      inversion Q2 as [|? ? H1 _]; inversion Q4 as [|? ? H5 _]; inversion Q6 as [|? ? H9 _]; subst.
      pose proof (find_none _ _ F (a, b, c, d) (perm_starts4 _ _ _ _ (Permutation_sym P))) as X.
      unfold start4_ok in X. unfold le, lt in *.
      rewrite H1, H5, H9 in X. discriminate.
  Qed.

  Lemma copy_n_ok n : forall l, n <= length l -> copy_n A mn n l = Some (firstn n l, skipn n l).
  Proof.
    induction n as [|n IH]; intros l Hl; [reflexivity|]. destruct l as [|x r]; [cbn in Hl; lia|].
    cbn in Hl. cbn [copy_n next firstn skipn PqTreeModel.deref hd]. rewrite IH by lia. reflexivity.
  Qed.
  Lemma copy_emits n : forall arr, good arr -> (forall j, 1 <= j -> arr j = []) -> n <= length (arr 0) ->
    emits n arr (firstn n (arr 0)) (upd arr 0 (skipn n (arr 0))).
  Proof.
    induction n as [|n IH]; intros arr Hg H1 Hn.
    - constructor. intro j. unfold upd. destruct (Nat.eqb_spec j 0) as [->|]; reflexivity.
    - destruct (arr 0) as [|x r] eqn:E; [cbn in Hn; lia|]. cbn [firstn skipn].
      pose proof (Hg 0) as R. rewrite E in R. destruct (run_tl _ _ R) as (Rr & Rx & _).
      apply (em_cons _ _ 0 x r); [exact E| |].
      + intros [|j]; [rewrite E; apply ge_refl, SW|]. rewrite H1 by lia. apply real_ge, Rx.
      + assert (Q := IH (upd arr 0 r) (good_upd _ _ _ Hg Rr)). rewrite upd_same in Q.
        eapply emits_ext; [apply Q| reflexivity|].
        * intros j Hj. rewrite upd_other by lia. auto.
        * cbn in Hn. lia.
        * intro j. unfold upd. destruct (Nat.eqb j 0); reflexivity.
  Qed.
End Merge.
