(** Proofs about MultiseqModel. *)
From Coq Require Import List Bool Arith ZArith Lia Permutation Sorted.
From Verif Require Import SumLib OrderLib MultiseqModel MultiseqSpec.
Import ListNotations.
Open Scope Z_scope.

(** * round_up_to_power_of_two *)
Definition smeared (h w y : Z) : Prop := forall i, 0 <= i -> (h - w < i <= h -> Z.testbit y i = true) /\ (h < i -> Z.testbit y i = false).
Lemma smear_ok h w k y : 0 <= k -> k <= w -> smeared h w y -> smeared h (w + k) (smear y k).
Proof.
  intros Hk Hw H i Hi. unfold smear. rewrite Z.lor_spec, Z.shiftr_spec by lia. split; intro HI.
  - destruct (Z_lt_dec (h - w) i) as [L|L].
    + rewrite (proj1 (H i Hi)) by lia. reflexivity.
    + rewrite (proj1 (H (i + k) ltac:(lia))) by lia. apply orb_true_r.
  - rewrite (proj2 (H i Hi)) by lia. rewrite (proj2 (H (i + k) ltac:(lia))) by lia. reflexivity.
Qed.
Lemma smeared_all h w y : 0 <= h -> h < w -> smeared h w y -> y = 2 ^ (h + 1) - 1.
Proof.
  intros Hh Hw H. replace (2 ^ (h + 1) - 1) with (Z.ones (h + 1)) by (rewrite Z.ones_equiv; lia). apply Z.bits_inj'. intros i Hi.
  destruct (Z_le_dec i h) as [L|L].
  - rewrite Z.ones_spec_low by lia. apply (proj1 (H i Hi)). lia.
  - rewrite Z.ones_spec_high by lia. apply (proj2 (H i Hi)). lia.
Qed.
Theorem round_up_ok n : 1 <= n <= 2 ^ 62 -> exists k, 0 <= k <= 62 /\ round_up_to_power_of_two n = 2 ^ k /\ n <= 2 ^ k < 2 * n.
Proof.
  intro Hn. unfold round_up_to_power_of_two. destruct (Z.eq_dec n 1) as [->|N1]; [exists 0; cbn; lia|].
  set (x := n - 1). assert (0 < x) as Hx by lia. pose proof (Z.log2_spec x Hx) as [L1 L2]. set (h := Z.log2 x) in *.
  assert (0 <= h) as Hh by apply Z.log2_nonneg.
  assert (h < 62) as Hh2. { apply (Z.pow_lt_mono_r_iff 2); lia. }
  assert (smeared h 1 x) as S1.
  { intros i Hi. split; intro HI.
    - replace i with h by lia. apply Z.bit_log2. exact Hx.
    - apply Z.bits_above_log2; [lia|exact HI]. }
  cbn [fold_left]. pose proof (smear_ok h 1 1 x ltac:(lia) ltac:(lia) S1) as S2. pose proof (smear_ok h 2 2 _ ltac:(lia) ltac:(lia) S2) as S4.
  pose proof (smear_ok h 4 4 _ ltac:(lia) ltac:(lia) S4) as S8. pose proof (smear_ok h 8 8 _ ltac:(lia) ltac:(lia) S8) as S16.
  pose proof (smear_ok h 16 16 _ ltac:(lia) ltac:(lia) S16) as S32. pose proof (smear_ok h 32 32 _ ltac:(lia) ltac:(lia) S32) as S64.
  rewrite (smeared_all h (32 + 32) _ Hh ltac:(lia) S64). exists (h + 1). replace (Z.succ h) with (h + 1) in L2 by lia.
  assert (2 ^ (h + 1) = 2 * 2 ^ h) as E by (rewrite Z.pow_add_r by lia; lia). split; [lia|]. split; [lia|]. unfold x in *. lia.
Qed.

(** * Lists and sums *)
Definition zsum (l : list Z) : Z := fold_right Z.add 0 l.
Lemma zsum_app l1 l2 : zsum (l1 ++ l2) = zsum l1 + zsum l2.
Proof. induction l1 as [|x l1 IH]; cbn [zsum fold_right app] in *; [reflexivity|]. change (fold_right Z.add 0 (l1 ++ l2)) with (zsum (l1 ++ l2)). rewrite IH. unfold zsum. lia. Qed.
Lemma sumf_zsum n f : sumf n f = zsum (map f (seq 0 n)).
Proof. induction n as [|n IH]; [reflexivity|]. rewrite seq_S, map_app, zsum_app, <- IH. cbn. lia. Qed.
Lemma sumf_le n f g : (forall i, (i < n)%nat -> f i <= g i) -> sumf n f <= sumf n g.
Proof. induction n as [|n IH]; intro H; cbn [sumf]; [lia|]. pose proof (H n ltac:(lia)). pose proof (IH ltac:(intros; apply H; lia)). lia. Qed.
Lemma sumf_lt n f g i : (i < n)%nat -> f i < g i -> (forall i, (i < n)%nat -> f i <= g i) -> sumf n f < sumf n g.
Proof.
  induction n as [|n IH]; intros Hi L H; [lia|]. cbn [sumf]. pose proof (H n ltac:(lia)). pose proof (sumf_le n f g ltac:(intros; apply H; lia)).
  destruct (Nat.eq_dec i n) as [->|N]; [lia|]. pose proof (IH ltac:(lia) L ltac:(intros; apply H; lia)). lia.
Qed.
Lemma sumf_sub n f g : sumf n (fun i => f i - g i) = sumf n f - sumf n g.
Proof. induction n as [|n IH]; cbn [sumf]; [lia|]. rewrite IH. lia. Qed.
Lemma sumf_lt_ex n f g : sumf n f < sumf n g -> exists i, (i < n)%nat /\ f i < g i.
Proof.
  induction n as [|n IH]; intro H; cbn [sumf] in H; [lia|]. destruct (Z_lt_dec (f n) (g n)) as [L|L]; [exists n; lia|].
  destruct IH as (i & Hi & HL); [lia|]. exists i. lia.
Qed.
Lemma sumf_const n c : sumf n (fun _ => c) = Z.of_nat n * c.
Proof. induction n as [|n IH]; [reflexivity|]. cbn [sumf]. rewrite IH. lia. Qed.

Section P.
  Variable A : Type.
  Variable lt : A -> A -> bool.
  Hypothesis SW : strict_weak lt.
  Variable seqs : list (list A).
  Hypothesis Hsorted : Forall (sorted lt) seqs.

  Notation m := (m A seqs). Notation seqlen := (seqlen A seqs). Notation at_ := (at_ A seqs). Notation lcomp := (lcomp A lt).

  Lemma seqlen_nonneg i : 0 <= seqlen i.
  Proof. unfold MultiseqModel.seqlen. lia. Qed.
  Lemma at_some i k : 0 <= k < seqlen i -> exists x, at_ i k = Some x.
  Proof.
    unfold MultiseqModel.seqlen, MultiseqModel.at_. intro H. destruct (Z.ltb_spec k 0); [lia|]. destruct (nth_error (nth i seqs []) (Z.to_nat k)) eqn:E; [eauto|].
    apply nth_error_None in E. lia.
  Qed.
  Lemma at_inv i k x : at_ i k = Some x -> 0 <= k < seqlen i.
  Proof.
    unfold MultiseqModel.seqlen, MultiseqModel.at_. destruct (Z.ltb_spec k 0); [discriminate|]. intro H1. apply nth_error_Some_length in H1 || (assert (nth_error (nth i seqs []) (Z.to_nat k) <> None) as H2 by congruence; apply nth_error_Some in H2); lia.
  Qed.
  Lemma sorted_nth l : sorted lt l -> forall p q x y, nth_error l p = Some x -> nth_error l q = Some y -> (p <= q)%nat -> le lt x y.
  Proof.
    induction 1 as [|z l Hs IH Hf]; intros [|p] [|q] x y Hx Hy L; cbn [nth_error] in *; try discriminate; try lia.
    - injection Hx as <-. injection Hy as <-. apply le_refl. exact SW.
    - injection Hx as <-. rewrite Forall_forall in Hf. apply Hf. apply nth_error_In in Hy. exact Hy.
    - apply (IH p q x y Hx Hy). lia.
  Qed.
  Lemma at_le i p q x y : at_ i p = Some x -> at_ i q = Some y -> p <= q -> le lt x y.
  Proof.
    intros Hx Hy L. pose proof (at_inv _ _ _ Hx). pose proof (at_inv _ _ _ Hy). unfold MultiseqModel.at_ in *.
    destruct (Z.ltb_spec p 0); [lia|]. destruct (Z.ltb_spec q 0); [lia|].
    assert (sorted lt (nth i seqs [])) as HS.
    { destruct (nth_in_or_default i seqs []) as [H3| ->]; [|constructor]. rewrite Forall_forall in Hsorted. apply Hsorted. exact H3. }
    apply (sorted_nth _ HS (Z.to_nat p) (Z.to_nat q) x y Hx Hy). lia.
  Qed.
  Lemma iter_seq {X} (P : nat -> X -> Prop) f : forall len k x, P k x ->
    (forall i x, (k <= i < k + len)%nat -> P i x -> exists x', f i x = Some x' /\ P (S i) x') -> exists x', iter (seq k len) f x = Some x' /\ P (k + len)%nat x'.
  Proof.
    induction len as [|len IH]; intros k x H HS; cbn [seq iter].
    - exists x. rewrite Nat.add_0_r. auto.
    - destruct (HS k x ltac:(lia) H) as (x1 & -> & H1). cbn [mbind]. destruct (IH (S k) x1 H1) as (x2 & E2 & H2); [intros; apply HS; [lia|assumption]|].
      exists x2. replace (k + S len)%nat with (S k + len)%nat by lia. auto.
  Qed.

  Lemma lcomp_sw : strict_weak lcomp.
  Proof.
    constructor; unfold MultiseqModel.lcomp.
    - intros [x i]. cbn [fst snd]. rewrite (sw_irrefl _ SW). apply Nat.ltb_irrefl.
    - intros [x i] [y j] [z k]. cbn [fst snd]. destruct (lt x y) eqn:E1.
      + intros _. destruct (lt y z) eqn:E2; [intros _; rewrite (sw_trans _ SW _ _ _ E1 E2); reflexivity|]. destruct (lt z y) eqn:E3; [discriminate|]. intros _.
        destruct (sw_incomp _ SW x z y E1) as [H|H]; [rewrite H; reflexivity|congruence].
      + destruct (lt y x) eqn:E2; [discriminate|]. intro H1. destruct (lt y z) eqn:E3.
        * intros _. destruct (sw_incomp _ SW y x z E3) as [H|H]; [congruence|rewrite H; reflexivity].
        * destruct (lt z y) eqn:E4; [discriminate|]. intro H2. destruct (lt x z) eqn:E5; [reflexivity|]. destruct (lt z x) eqn:E6.
          -- destruct (sw_incomp _ SW z y x E6) as [H|H]; congruence.
          -- apply Nat.ltb_lt in H1, H2. apply Nat.ltb_lt. lia.
    - intros [x i] [y j] [z k]. cbn [fst snd]. destruct (lt x z) eqn:E1.
      + intros _. destruct (sw_incomp _ SW x y z E1) as [H|H]; rewrite H; auto.
      + destruct (lt z x) eqn:E2; [discriminate|]. intro H. apply Nat.ltb_lt in H.
        destruct (lt x y) eqn:E3; [auto|]. destruct (lt y x) eqn:E4.
        * destruct (lt y z) eqn:E5; [auto|]. destruct (sw_incomp _ SW y z x E4) as [H1|H1]; congruence.
        * destruct (lt y z) eqn:E5; [auto|]. destruct (lt z y) eqn:E6; [destruct (sw_incomp _ SW z x y E6) as [H1|H1]; congruence|].
          destruct (Nat.ltb_spec i j); [auto|]. right. apply Nat.ltb_lt. lia.
  Qed.
  Lemma lcomp_le p q : lcomp p q = false -> le lt (fst q) (fst p).
  Proof. unfold MultiseqModel.lcomp, le. destruct (lt (fst p) (fst q)); [discriminate|reflexivity]. Qed.

  Lemma extract_ok less : strict_weak less -> forall q p r, extract A less q = Some (p, r) -> Permutation q (p :: r) /\ Forall (fun z => less p z = false) r.
  Proof.
    intro SL. induction q as [|x q IH]; intros p r H; cbn [extract] in H; [discriminate|].
    destruct (extract A less q) as [[y r1]|] eqn:E.
    - destruct (IH y r1 eq_refl) as [HP HF]. destruct (less y x) eqn:L.
      + injection H as <- <-. split; [rewrite HP; reflexivity|]. constructor; [apply (sw_asym _ _ SL); exact L|].
        rewrite Forall_forall in *. intros z Hz. specialize (HF z Hz). destruct (less x z) eqn:E2; [|reflexivity].
        rewrite (sw_trans _ SL _ _ _ L E2) in HF. discriminate.
      + injection H as <- <-. split; [rewrite HP; apply perm_swap|]. constructor; assumption.
    - injection H as <- <-. destruct q as [|z q]; [split; [reflexivity|constructor]|]. cbn [extract] in E. destruct (extract A less q) as [[y r1]|]; [destruct (less y z)|]; discriminate.
  Qed.
  Lemma extract_some less q : q <> [] -> exists p r, extract A less q = Some (p, r).
  Proof.
    destruct q as [|x q]; [congruence|]. intros _. cbn [extract]. destruct (extract A less q) as [[y r1]|]; [destruct (less y x)|]; eauto.
  Qed.

  (** * The state of the search *)
  Definition inv (n : Z) (a b : nat -> Z) : Prop :=
    forall i, (i < m)%nat -> (exists k, 0 <= k /\ a i = k * (n + 1)) /\ a i <= seqlen i /\ b i = a i + n.
  Definition valid (a b : nat -> Z) : Prop :=
    forall i j x y, (i < m)%nat -> (j < m)%nat -> at_ i (a i - 1) = Some x -> at_ j (b j) = Some y -> le lt x y.
  Definition leftsize (n : Z) (a : nat -> Z) : Z := sumf m (fun i => a i / (n + 1)).

  Lemma inv_nonneg n a b i : 0 <= n -> inv n a b -> (i < m)%nat -> 0 <= a i.
  Proof. intros Hn HI Hi. destruct (HI i Hi) as ((k & Hk & ->) & _). apply Z.mul_nonneg_nonneg; lia. Qed.

  (** ** the greatest element before the split *)
  Definition is_max (a : nat -> Z) (i : nat) (lm : option A) : Prop :=
    (forall j x, (j < i)%nat -> at_ j (a j - 1) = Some x -> exists y, lm = Some y /\ le lt x y) /\
    (forall y, lm = Some y -> exists j, (j < i)%nat /\ at_ j (a j - 1) = Some y).
  Lemma left_max_ok rear n a b : 0 <= n -> inv n a b -> exists lm, iter (seq 0 m) (left_max A lt seqs rear a) None = Some lm /\ is_max a m lm.
  Proof.
    intros Hn HI. apply (iter_seq (is_max a)).
    - split; [intros; lia|discriminate].
    - intros i lm Hi [H1 H2]. unfold left_max. pose proof (HI i ltac:(lia)) as (_ & HL & _). destruct (Z.ltb_spec 0 (a i)) as [P|P].
      + destruct (at_some i (a i - 1) ltac:(lia)) as [x Hx]. rewrite Hx. cbn [mbind]. eexists. split; [reflexivity|].
        set (w := match lm with None => x | Some y => if (if rear then negb (lt x y) else lt y x) then x else y end).
        assert (le lt x w /\ (forall y, lm = Some y -> le lt y w) /\ (w = x \/ lm = Some w)) as (W1 & W2 & W3).
        { unfold w. destruct lm as [y|].
          - destruct rear; [destruct (lt x y) eqn:E|destruct (lt y x) eqn:E]; cbn [negb].
            + split; [apply lt_le; assumption|]. split; [|auto]. intros y0 E0. injection E0 as <-. apply le_refl. exact SW.
            + split; [apply le_refl; exact SW|]. split; [|auto]. intros y0 E0. injection E0 as <-. exact E.
            + split; [apply le_refl; exact SW|]. split; [|auto]. intros y0 E0. injection E0 as <-. apply lt_le; assumption.
            + split; [exact E|]. split; [|auto]. intros y0 E0. injection E0 as <-. apply le_refl. exact SW.
          - split; [apply le_refl; exact SW|]. split; [discriminate|auto]. }
        clearbody w. split.
        * intros j z Hj Hz. exists w. split; [reflexivity|]. destruct (Nat.eq_dec j i) as [->|Nj].
          -- assert (z = x) as -> by congruence. exact W1.
          -- destruct (H1 j z ltac:(lia) Hz) as (y & Ey & Ly). apply (le_trans _ _ SW _ y); [exact Ly|apply W2; exact Ey].
        * intros y Ey. injection Ey as <-. destruct W3 as [->|W3]; [exists i; split; [lia|exact Hx]|]. destruct (H2 w W3) as (j & Hj & Hjw). exists j. split; [lia|exact Hjw].
      + eexists. split; [reflexivity|]. split.
        * intros j z Hj Hz. apply (H1 j z); [|exact Hz]. destruct (Nat.eq_dec j i) as [->|]; [|lia]. apply at_inv in Hz. lia.
        * intros y Ey. destruct (H2 y Ey) as (j & Hj & Hjw). exists j. split; [lia|exact Hjw].
  Qed.

  (** ** halving the step *)
  Definition moved (n' : Z) (lm : option A) (a b a' b' : nat -> Z) (j : nat) : Prop :=
    (a' j = a j + (n' + 1) /\ b' j = b j /\ exists x y, lm = Some y /\ at_ j (a j + n') = Some x /\ lt x y = true) \/
    (a' j = a j /\ b' j = b j - (n' + 1) /\ forall x y, lm = Some y -> at_ j (a j + n') = Some x -> lt x y = false).
  Lemma refine_one_ok n' lm a b : 0 <= n' -> inv (2 * n' + 1) a b ->
    exists a' b', iter (seq 0 m) (refine_one A lt seqs n' lm) (a, b) = Some (a', b') /\ forall j, (j < m)%nat -> moved n' lm a b a' b' j.
  Proof.
    intros Hn HI.
    destruct (iter_seq (fun i (s : arrays) => forall j, (j < m)%nat -> ((j < i)%nat -> moved n' lm a b (fst s) (snd s) j) /\ ((i <= j)%nat -> fst s j = a j /\ snd s j = b j))
      (refine_one A lt seqs n' lm) m 0 (a, b)) as ([a' b'] & E & H).
    - intros j Hj. split; [lia|auto].
    - intros i [a1 b1] Hi H. cbn [fst snd] in *. pose proof (HI i ltac:(lia)) as ((k & Hk & Ek) & HL & EB).
      destruct (H i ltac:(lia)) as [_ Hi2]. destruct (Hi2 ltac:(lia)) as [E1 E2]. unfold refine_one. rewrite E1, E2, EB.
      replace ((a i + (2 * n' + 1) + a i) / 2) with (a i + n') by (replace (a i + (2 * n' + 1) + a i) with (1 + (a i + n') * 2) by lia; rewrite Z.div_add by lia; reflexivity).
      assert (0 <= a i) as HA by (rewrite Ek; apply Z.mul_nonneg_nonneg; lia).
      assert (exists c, (match lm with None => Some false | Some y => if a i + n' <? seqlen i then let* x := at_ i (a i + n') in Some (lt x y) else Some false end) = Some c /\
        (c = true -> exists x y, lm = Some y /\ at_ i (a i + n') = Some x /\ lt x y = true) /\ (c = false -> forall x y, lm = Some y -> at_ i (a i + n') = Some x -> lt x y = false)) as (c & Ec & C1 & C2).
      { destruct lm as [y|].
        - destruct (Z.ltb_spec (a i + n') (seqlen i)) as [L|L].
          + destruct (at_some i (a i + n') ltac:(lia)) as [x Hx]. rewrite Hx. cbn [mbind]. eexists. split; [reflexivity|]. split.
            * intro. exists x, y. auto.
            * intros E x0 y0 Ey Ex. congruence.
          + exists false. split; [reflexivity|]. split; [discriminate|]. intros _ x0 y0 _ Ex. apply at_inv in Ex. lia.
        - exists false. split; [reflexivity|]. split; [discriminate|]. intros; discriminate. }
      rewrite Ec. cbn [mbind]. destruct c.
      + eexists. split; [reflexivity|]. cbn [fst snd]. destruct (C1 eq_refl) as (x & y & Ey & Ex & L). intros j Hj. split; intro Hji.
        * destruct (Nat.eq_dec j i) as [->|N].
          -- left. rewrite upd_same. pose proof (at_inv _ _ _ Ex). split; [lia|]. split; [congruence|]. exists x, y. auto.
          -- destruct (H j Hj) as [H1 _]. specialize (H1 ltac:(lia)). unfold moved in *. rewrite upd_other by exact N. exact H1.
        * rewrite upd_other by lia. apply H; lia.
      + eexists. split; [reflexivity|]. cbn [fst snd]. intros j Hj. split; intro Hji.
        * destruct (Nat.eq_dec j i) as [->|N].
          -- right. rewrite upd_same. split; [congruence|]. split; [lia|]. exact (C2 eq_refl).
          -- destruct (H j Hj) as [H1 _]. specialize (H1 ltac:(lia)). unfold moved in *. rewrite upd_other by exact N. exact H1.
        * rewrite upd_other by lia. apply H; lia.
    - exists a', b'. split; [exact E|]. intros j Hj. apply (H j Hj). cbn [plus]. exact Hj.
  Qed.
  Lemma moved_inv n' lm a b a' b' : 0 <= n' -> inv (2 * n' + 1) a b -> (forall j, (j < m)%nat -> moved n' lm a b a' b' j) -> inv n' a' b'.
  Proof.
    intros Hn HI HM i Hi. destruct (HI i Hi) as ((k & Hk & Ek) & HL & EB). destruct (HM i Hi) as [(E1 & E2 & x & y & _ & Hx & _)|(E1 & E2 & _)].
    - apply at_inv in Hx. split; [exists (2 * k + 1); split; [lia|]; rewrite E1, Ek; ring|]. lia.
    - split; [exists (2 * k); split; [lia|]; rewrite E1, Ek; ring|]. lia.
  Qed.
  Lemma moved_valid n' lm a b a' b' : 0 <= n' -> inv (2 * n' + 1) a b -> valid a b -> is_max a m lm -> (forall j, (j < m)%nat -> moved n' lm a b a' b' j) -> valid a' b'.
  Proof.
    intros Hn HI HV [HM1 HM2] HM i j x z Hi Hj Hx Hz.
    assert (exists y, lm = Some y /\ le lt x y) as (y & Ey & L1).
    { destruct (HM i Hi) as [(E1 & E2 & x' & y & Ey & Hx' & L)|(E1 & E2 & _)].
      - rewrite E1 in Hx. replace (a i + (n' + 1) - 1) with (a i + n') in Hx by lia. assert (x' = x) as -> by congruence. exists y. split; [exact Ey|apply lt_le; assumption].
      - rewrite E1 in Hx. apply (HM1 i x Hi Hx). }
    apply (le_trans _ _ SW _ y); [exact L1|]. destruct (HM2 y Ey) as (i0 & Hi0 & Hy).
    destruct (HM j Hj) as [(E1 & E2 & _)|(E1 & E2 & HN)].
    - rewrite E2 in Hz. apply (HV i0 j y z Hi0 Hj Hy Hz).
    - destruct (HI j Hj) as (_ & _ & EB). rewrite E2, EB in Hz. replace (a j + (2 * n' + 1) - (n' + 1)) with (a j + n') in Hz by lia.
      exact (HN z y Ey Hz).
  Qed.

  (** ** moving elements over the split *)
  Definition queue_of (edge : nat -> option A) (q : list (A * nat)) : Prop :=
    NoDup (map snd q) /\ forall x i, In (x, i) q <-> (i < m)%nat /\ edge i = Some x.
  Lemma queue_right_all b : (forall i, (i < m)%nat -> 0 <= b i) -> exists q, iter (seq 0 m) (queue_right A seqs b) [] = Some q /\ queue_of (fun i => at_ i (b i)) q.
  Proof.
    intro HB. destruct (iter_seq (fun k q => NoDup (map snd q) /\ forall x i, In (x, i) q <-> (i < k)%nat /\ at_ i (b i) = Some x) (queue_right A seqs b) m 0 []) as (q & E & H).
    - split; [constructor|]. intros x i. cbn [In]. split; [contradiction|lia].
    - intros i q Hi [ND HQ]. unfold queue_right. destruct (Z.ltb_spec (b i) (seqlen i)) as [L|L].
      + destruct (at_some i (b i)) as [x Hx]; [specialize (HB i ltac:(lia)); lia|]. rewrite Hx. cbn [mbind]. eexists. split; [reflexivity|]. split.
        * cbn [map snd]. constructor; [|exact ND]. intro HI. apply in_map_iff in HI. destruct HI as ([y j] & Ej & Hy). cbn [snd] in Ej. subst j. apply HQ in Hy. lia.
        * intros y j. cbn [In]. rewrite HQ. split.
          -- intros [E|[Hj Ej]]; [injection E as <- <-; split; [lia|exact Hx]|split; [lia|exact Ej]].
          -- intros [Hj Ej]. destruct (Nat.eq_dec j i) as [->|N]; [left; congruence|right; split; [lia|exact Ej]].
      + eexists. split; [reflexivity|]. split; [exact ND|]. intros y j. rewrite HQ. split; intros [Hj Ej]; (split; [|exact Ej]); [lia|].
        destruct (Nat.eq_dec j i) as [->|N]; [apply at_inv in Ej; lia|lia].
    - exists q. split; [exact E|exact H].
  Qed.
  Lemma queue_left_all a : (forall i, (i < m)%nat -> a i <= seqlen i) -> exists q, iter (seq 0 m) (queue_left A seqs a) [] = Some q /\ queue_of (fun i => at_ i (a i - 1)) q.
  Proof.
    intro HB. destruct (iter_seq (fun k q => NoDup (map snd q) /\ forall x i, In (x, i) q <-> (i < k)%nat /\ at_ i (a i - 1) = Some x) (queue_left A seqs a) m 0 []) as (q & E & H).
    - split; [constructor|]. intros x i. cbn [In]. split; [contradiction|lia].
    - intros i q Hi [ND HQ]. unfold queue_left. destruct (Z.ltb_spec 0 (a i)) as [L|L].
      + destruct (at_some i (a i - 1)) as [x Hx]; [specialize (HB i ltac:(lia)); lia|]. rewrite Hx. cbn [mbind]. eexists. split; [reflexivity|]. split.
        * cbn [map snd]. constructor; [|exact ND]. intro HI. apply in_map_iff in HI. destruct HI as ([y j] & Ej & Hy). cbn [snd] in Ej. subst j. apply HQ in Hy. lia.
        * intros y j. cbn [In]. rewrite HQ. split.
          -- intros [E|[Hj Ej]]; [injection E as <- <-; split; [lia|exact Hx]|split; [lia|exact Ej]].
          -- intros [Hj Ej]. destruct (Nat.eq_dec j i) as [->|N]; [left; congruence|right; split; [lia|exact Ej]].
      + eexists. split; [reflexivity|]. split; [exact ND|]. intros y j. rewrite HQ. split; intros [Hj Ej]; (split; [|exact Ej]); [lia|].
        destruct (Nat.eq_dec j i) as [->|N]; [apply at_inv in Ej; lia|lia].
    - exists q. split; [exact E|exact H].
  Qed.
  (** one entry replaced *)
  Lemma queue_step edge edge' q x i r : queue_of edge q -> Permutation q ((x, i) :: r) -> (forall j, j <> i -> edge' j = edge j) ->
    (i < m)%nat /\ edge i = Some x /\
    (edge' i = None -> queue_of edge' r) /\ (forall y, edge' i = Some y -> queue_of edge' ((y, i) :: r)) /\
    (forall y j, j <> i -> (j < m)%nat -> edge j = Some y -> In (y, j) r).
  Proof.
    intros [ND HQ] HP HE. assert (NoDup (i :: map snd r)) as ND2 by (apply (Permutation_NoDup (l := map snd q)); [apply (Permutation_map snd) in HP; exact HP|exact ND]).
    inversion ND2 as [|? ? NI ND3]; subst.
    assert (In (x, i) q) as HIN by (apply (Permutation_in _ (Permutation_sym HP)); left; reflexivity).
    destruct (proj1 (HQ x i) HIN) as [Hi Ei].
    assert (forall y j, j <> i -> In (y, j) r <-> (j < m)%nat /\ edge j = Some y) as HR.
    { intros y j N. rewrite <- HQ. split; intro H.
      - apply (Permutation_in _ (Permutation_sym HP)). right. exact H.
      - apply (Permutation_in _ HP) in H. destruct H as [H|H]; [congruence|exact H]. }
    assert (forall y, ~ In (y, i) r) as HNI by (intros y H; apply NI; apply (in_map snd) in H; exact H).
    split; [exact Hi|]. split; [exact Ei|]. split; [|split].
    - intro EN. split; [exact ND3|]. intros y j. destruct (Nat.eq_dec j i) as [->|N]; [split; [intro H; destruct (HNI y H)|intros [_ H]; congruence]|].
      rewrite HE by exact N. apply HR. exact N.
    - intros y0 EN. split; [exact ND2|]. intros y j. cbn [In]. destruct (Nat.eq_dec j i) as [->|N].
      + split; [intros [H|H]; [injection H as <-; auto|destruct (HNI y H)]|intros [_ H]; left; congruence].
      + rewrite HE by exact N. rewrite <- (HR y j N). split; [intros [H|H]; [congruence|exact H]|auto].
    - intros y j N Hj Ej. apply HR; auto.
  Qed.

  Lemma move_left_ok n : 0 <= n -> forall skew q a b, inv n a b -> valid a b -> queue_of (fun i => at_ i (b i)) q ->
    exists a' b', move_left A lt seqs skew n q (a, b) = Some (a', b') /\ inv n a' b' /\ valid a' b' /\
      (leftsize n a' = leftsize n a + Z.of_nat skew \/ (leftsize n a' <= leftsize n a + Z.of_nat skew /\ forall i, (i < m)%nat -> seqlen i <= b' i)).
  Proof.
    intro Hn. induction skew as [|skew IH]; intros q a b HI HV HQ; cbn [move_left].
    - exists a, b. split; [reflexivity|]. split; [exact HI|]. split; [exact HV|]. left. lia.
    - destruct q as [|p0 q0].
      + exists a, b. split; [reflexivity|]. split; [exact HI|]. split; [exact HV|]. right. split; [lia|]. intros i Hi. destruct HQ as [_ HQ].
        destruct (Z_lt_dec (b i) (seqlen i)) as [L|L]; [|lia]. destruct (at_some i (b i)) as [x Hx].
        { destruct (HI i Hi) as (_ & _ & EB). pose proof (inv_nonneg n a b i Hn HI Hi). lia. }
        destruct (proj2 (HQ x i) (conj Hi Hx)).
      + destruct (extract_some (fun x y => lcomp y x) (p0 :: q0) ltac:(discriminate)) as ([x i] & r & EX). rewrite EX. cbn [mbind snd].
        set (q := p0 :: q0) in *. clearbody q.
        assert (strict_weak (fun x y => lcomp y x)) as SR.
        { constructor; [intro; apply (sw_irrefl _ lcomp_sw)|intros u v w H1 H2; apply (sw_trans _ lcomp_sw w v u); assumption|].
          intros u v w H. destruct (sw_incomp _ lcomp_sw w v u H); auto. }
        destruct (extract_ok _ SR q (x, i) r EX) as [HP HF].
        set (a1 := upd a i (Z.min (a i + n + 1) (seqlen i))). set (b1 := upd b i (b i + (n + 1))).
        destruct (queue_step (fun i => at_ i (b i)) (fun i => at_ i (b1 i)) q x i r HQ HP) as (Hi & Ei & QN & QS & QI).
        { intros j N. unfold b1. rewrite upd_other by exact N. reflexivity. }
        destruct (HI i Hi) as ((k & Hk & Ek) & HL & EB). pose proof (at_inv _ _ _ Ei) as HB.
        assert (a1 i = a i + (n + 1)) as EA1 by (unfold a1; rewrite upd_same; lia). assert (b1 i = b i + (n + 1)) as EB1 by (unfold b1; rewrite upd_same; reflexivity).
        assert (forall j, j <> i -> a1 j = a j /\ b1 j = b j) as EO by (intros j N; unfold a1, b1; rewrite !upd_other by exact N; auto).
        assert (inv n a1 b1) as HI1.
        { intros j Hj. destruct (Nat.eq_dec j i) as [->|N].
          - rewrite EA1, EB1. split; [exists (k + 1); split; [lia|]; rewrite Ek; ring|]. lia.
          - destruct (EO j N) as [-> ->]. apply HI. exact Hj. }
        assert (valid a1 b1) as HV1.
        { intros j1 j2 u w Hj1 Hj2 Hu Hw.
          assert (le lt x w) as LX.
          { destruct (Nat.eq_dec j2 i) as [->|N2].
            - rewrite EB1 in Hw. apply (at_le i (b i) (b i + (n + 1)) x w Ei Hw). lia.
            - destruct (EO j2 N2) as [_ E2]. rewrite E2 in Hw. pose proof (QI w j2 N2 Hj2 Hw) as HIN. rewrite Forall_forall in HF. specialize (HF _ HIN). apply lcomp_le in HF. exact HF. }
          destruct (Nat.eq_dec j1 i) as [->|N1].
          - rewrite EA1 in Hu. replace (a i + (n + 1) - 1) with (b i) in Hu by lia. assert (u = x) as -> by congruence. exact LX.
          - destruct (EO j1 N1) as [E1 _]. rewrite E1 in Hu. apply (le_trans _ _ SW _ x); [|exact LX]. apply (HV j1 i u x Hj1 Hi Hu Ei). }
        assert (leftsize n a1 = leftsize n a + 1) as ELS.
        { unfold leftsize. rewrite (sumf_change m (fun j => a j / (n + 1)) (fun j => a1 j / (n + 1)) i Hi) by (intros j N; destruct (EO j N) as [-> _]; reflexivity).
          rewrite EA1, Ek. replace (k * (n + 1) + (n + 1)) with ((k + 1) * (n + 1)) by ring. rewrite !Z.div_mul by lia. lia. }
        assert (exists q1, queue_right A seqs b1 i r = Some q1 /\ queue_of (fun i => at_ i (b1 i)) q1) as (q1 & EQ & HQ1).
        { unfold queue_right. destruct (Z.ltb_spec (b1 i) (seqlen i)) as [L|L].
          - destruct (at_some i (b1 i) ltac:(lia)) as [y Hy]. rewrite Hy. cbn [mbind]. eexists. split; [reflexivity|]. apply QS. exact Hy.
          - eexists. split; [reflexivity|]. apply QN. destruct (at_ i (b1 i)) eqn:E; [apply at_inv in E; lia|reflexivity]. }
        rewrite EQ. cbn [mbind]. destruct (IH q1 a1 b1 HI1 HV1 HQ1) as (a' & b' & E & HI' & HV' & HC). exists a', b'. split; [exact E|]. split; [exact HI'|]. split; [exact HV'|].
        destruct HC as [HC|[HC1 HC2]]; [left; lia|right; split; [lia|exact HC2]].
  Qed.

  Lemma move_right_ok n : 0 <= n -> forall skew q a b, inv n a b -> valid a b -> queue_of (fun i => at_ i (a i - 1)) q -> Z.of_nat skew <= leftsize n a ->
    exists a' b', move_right A lt seqs skew n q (a, b) = Some (a', b') /\ inv n a' b' /\ valid a' b' /\ leftsize n a' = leftsize n a - Z.of_nat skew.
  Proof.
    intro Hn. induction skew as [|skew IH]; intros q a b HI HV HQ HS; cbn [move_right].
    - exists a, b. split; [reflexivity|]. split; [exact HI|]. split; [exact HV|]. lia.
    - assert (q <> []) as HNE.
      { intros ->. destruct (sumf_pos_ex m (fun i => a i / (n + 1))) as (i & Hi & HP).
        - intros j Hj. pose proof (inv_nonneg n a b j Hn HI Hj). apply Z.div_pos; lia.
        - unfold leftsize in HS. lia.
        - destruct (HI i Hi) as ((k & Hk & Ek) & HL & EB). assert (0 < a i) as PA.
          { destruct (Z.eq_dec (a i) 0) as [E0|N0]; [rewrite E0 in HP; rewrite Z.div_0_l in HP by lia; lia|]. pose proof (inv_nonneg n a b i Hn HI Hi). lia. }
          destruct (at_some i (a i - 1) ltac:(lia)) as [x Hx]. destruct HQ as [_ HQ]. destruct (proj2 (HQ x i) (conj Hi Hx)). }
      destruct (extract_some lcomp q HNE) as ([x i] & r & EX). rewrite EX. cbn [mbind snd].
      destruct (extract_ok _ lcomp_sw q (x, i) r EX) as [HP HF].
      set (a1 := upd a i (a i - (n + 1))). set (b1 := upd b i (b i - (n + 1))).
      destruct (queue_step (fun i => at_ i (a i - 1)) (fun i => at_ i (a1 i - 1)) q x i r HQ HP) as (Hi & Ei & QN & QS & QI).
      { intros j N. unfold a1. rewrite upd_other by exact N. reflexivity. }
      destruct (HI i Hi) as ((k & Hk & Ek) & HL & EB). pose proof (at_inv _ _ _ Ei) as HB.
      assert (a1 i = a i - (n + 1)) as EA1 by (unfold a1; rewrite upd_same; reflexivity). assert (b1 i = b i - (n + 1)) as EB1 by (unfold b1; rewrite upd_same; reflexivity).
      assert (forall j, j <> i -> a1 j = a j /\ b1 j = b j) as EO by (intros j N; unfold a1, b1; rewrite !upd_other by exact N; auto).
      assert (0 < k) as PK by (destruct (Z.eq_dec k 0) as [->|]; lia).
      assert (a1 i = (k - 1) * (n + 1)) as EA2 by (rewrite EA1, Ek; ring).
      assert (0 <= a1 i) as NA1 by (rewrite EA2; apply Z.mul_nonneg_nonneg; lia).
      assert (inv n a1 b1) as HI1.
      { intros j Hj. destruct (Nat.eq_dec j i) as [->|N].
        - split; [exists (k - 1); split; [lia|exact EA2]|]. lia.
        - destruct (EO j N) as [-> ->]. apply HI. exact Hj. }
      assert (valid a1 b1) as HV1.
      { intros j1 j2 u w Hj1 Hj2 Hu Hw.
        assert (le lt u x) as LX.
        { destruct (Nat.eq_dec j1 i) as [->|N1].
          - apply (at_le i (a1 i - 1) (a i - 1) u x Hu Ei). lia.
          - destruct (EO j1 N1) as [E1 _]. rewrite E1 in Hu. pose proof (QI u j1 N1 Hj1 Hu) as HIN. rewrite Forall_forall in HF. specialize (HF _ HIN). apply lcomp_le in HF. exact HF. }
        destruct (Nat.eq_dec j2 i) as [->|N2].
        - rewrite EB1 in Hw. replace (b i - (n + 1)) with (a i - 1) in Hw by lia. assert (w = x) as -> by congruence. exact LX.
        - destruct (EO j2 N2) as [_ E2]. rewrite E2 in Hw. apply (le_trans _ _ SW _ x); [exact LX|]. apply (HV i j2 x w Hi Hj2 Ei Hw). }
      assert (leftsize n a1 = leftsize n a - 1) as ELS.
      { unfold leftsize. rewrite (sumf_change m (fun j => a j / (n + 1)) (fun j => a1 j / (n + 1)) i Hi) by (intros j N; destruct (EO j N) as [-> _]; reflexivity).
        rewrite EA2, Ek. rewrite !Z.div_mul by lia. lia. }
      assert (exists q1, queue_left A seqs a1 i r = Some q1 /\ queue_of (fun i => at_ i (a1 i - 1)) q1) as (q1 & EQ & HQ1).
      { unfold queue_left. destruct (Z.ltb_spec 0 (a1 i)) as [L|L].
        - destruct (at_some i (a1 i - 1) ltac:(lia)) as [y Hy]. rewrite Hy. cbn [mbind]. eexists. split; [reflexivity|]. apply QS. exact Hy.
        - eexists. split; [reflexivity|]. apply QN. destruct (at_ i (a1 i - 1)) eqn:E; [apply at_inv in E; lia|reflexivity]. }
      rewrite EQ. cbn [mbind]. destruct (IH q1 a1 b1 HI1 HV1 HQ1 ltac:(lia)) as (a' & b' & E & HI' & HV' & HC). exists a', b'. split; [exact E|]. split; [exact HI'|]. split; [exact HV'|]. lia.
  Qed.

  (** ** the loop *)
  Lemma leftsize_0 a : leftsize 0 a = sumf m a.
  Proof. unfold leftsize. apply sumf_ext. intros i _. apply Z.div_1_r. Qed.
  Lemma refine_ok rear rank : 0 <= rank < sumf m seqlen -> forall fuel k a b, 0 <= k -> let n := 2 ^ k - 1 in n <= Z.of_nat fuel -> inv n a b -> valid a b ->
    exists a' b', refine A lt seqs fuel rear rank n (a, b) = Some (a', b') /\ inv 0 a' b' /\ valid a' b' /\ (sumf m a' = rank \/ (k = 0 /\ a' = a)).
  Proof.
    intro HR. induction fuel as [|fuel IH]; intros k a b Hk n HF HI HV; cbn [refine].
    - assert (n = 0) as E0 by (pose proof (Z.pow_pos_nonneg 2 k ltac:(lia) Hk); lia). assert (k = 0) as K0.
      { destruct (Z.eq_dec k 0) as [E|N]; [exact E|]. pose proof (proj1 (Z.pow_gt_1 2 k ltac:(lia)) ltac:(lia)). lia. }
      clearbody n. subst n k. cbn [Z.ltb Z.compare]. exists a, b. split; [reflexivity|]. split; [exact HI|]. split; [exact HV|]. right. split; [auto|reflexivity].
    - destruct (Z.eq_dec k 0) as [K0|NK].
      { assert (n = 0) as E0 by (unfold n; rewrite K0; reflexivity). clearbody n. subst n. cbn [Z.ltb Z.compare]. exists a, b. split; [reflexivity|]. split; [exact HI|]. split; [exact HV|]. right. split; [auto|reflexivity]. }
      pose proof (Z.pow_pos_nonneg 2 (k - 1) ltac:(lia) ltac:(lia)) as PP. assert (2 ^ k = 2 * 2 ^ (k - 1)) as EP by (rewrite <- Z.pow_succ_r by lia; f_equal; lia).
      set (n' := 2 ^ (k - 1) - 1) in *. assert (n = 2 * n' + 1) as En by lia. assert (n / 2 = n') as Ed by (rewrite En; replace (2 * n' + 1) with (1 + n' * 2) by lia; rewrite Z.div_add by lia; reflexivity).
      destruct (Z.ltb_spec 0 n) as [_|L]; [|lia]. rewrite Ed. assert (0 <= n') as Hn' by lia.
      destruct (left_max_ok rear n a b ltac:(lia) HI) as (lm & EL & HM). cbn [fst]. rewrite EL. cbn [mbind]. rewrite En in HI.
      destruct (refine_one_ok n' lm a b Hn' HI) as (a1 & b1 & E1 & HMV). rewrite E1. cbn [mbind fst snd].
      pose proof (moved_inv n' lm a b a1 b1 Hn' HI HMV) as HI1. pose proof (moved_valid n' lm a b a1 b1 Hn' HI HV HM HMV) as HV1.
      fold (leftsize n' a1). set (skew := rank / (n' + 1) - leftsize n' a1).
      assert (exists a2 b2, (if 0 <? skew then let* q := iter (seq 0 m) (queue_right A seqs b1) [] in move_left A lt seqs (Z.to_nat skew) n' q (a1, b1)
               else if skew <? 0 then let* q := iter (seq 0 m) (queue_left A seqs a1) [] in move_right A lt seqs (Z.to_nat (- skew)) n' q (a1, b1)
               else Some (a1, b1)) = Some (a2, b2) /\ inv n' a2 b2 /\ valid a2 b2 /\
               (leftsize n' a2 = rank / (n' + 1) \/ (leftsize n' a2 <= rank / (n' + 1) /\ forall i, (i < m)%nat -> seqlen i <= b2 i))) as (a2 & b2 & E2 & HI2 & HV2 & HC2).
      { destruct (Z.ltb_spec 0 skew) as [L1|L1].
        - destruct (queue_right_all b1) as (q & EQ & HQ).
          { intros i Hi. destruct (HI1 i Hi) as (_ & _ & EB). pose proof (inv_nonneg n' a1 b1 i Hn' HI1 Hi). lia. }
          rewrite EQ. cbn [mbind]. destruct (move_left_ok n' Hn' (Z.to_nat skew) q a1 b1 HI1 HV1 HQ) as (a2 & b2 & E2 & HI2 & HV2 & HC). exists a2, b2. split; [exact E2|]. split; [exact HI2|]. split; [exact HV2|].
          rewrite Z2Nat.id in HC by lia. replace (leftsize n' a1 + skew) with (rank / (n' + 1)) in HC by (unfold skew; lia). exact HC.
        - destruct (Z.ltb_spec skew 0) as [L2|L2].
          + destruct (queue_left_all a1) as (q & EQ & HQ). { intros i Hi. apply HI1. exact Hi. }
            assert (0 <= rank / (n' + 1)) as PR by (apply Z.div_pos; lia).
            rewrite EQ. cbn [mbind]. destruct (move_right_ok n' Hn' (Z.to_nat (- skew)) q a1 b1 HI1 HV1 HQ) as (a2 & b2 & E2 & HI2 & HV2 & HC); [unfold skew in *; lia|].
            exists a2, b2. split; [exact E2|]. split; [exact HI2|]. split; [exact HV2|]. left. rewrite HC. unfold skew in *. lia.
          + exists a1, b1. split; [reflexivity|]. split; [exact HI1|]. split; [exact HV1|]. left. unfold skew in *. lia. }
      unfold arrays in *. rewrite E2. cbn [mbind]. destruct (IH (k - 1) a2 b2 ltac:(lia) ltac:(fold n'; lia) HI2 HV2) as (a' & b' & E' & HI' & HV' & HC'). fold n' in E'. exists a', b'. split; [exact E'|]. split; [exact HI'|]. split; [exact HV'|].
      left. destruct HC' as [HC'|[K1 ->]]; [exact HC'|]. assert (n' = 0) as N0 by (unfold n'; rewrite K1; reflexivity). rewrite N0 in *. clear PP EP. rewrite leftsize_0 in HC2. replace (0 + 1) with 1 in HC2 by reflexivity. rewrite Z.div_1_r in HC2.
      destruct HC2 as [HC2|[HC2 HB2]]; [exact HC2|]. exfalso. assert (sumf m seqlen <= sumf m a2); [|lia]. apply sumf_le. intros i Hi. specialize (HB2 i Hi). destruct (HI2 i Hi) as (_ & _ & EB). lia.
  Qed.

  (** * The initial partition *)
  Lemma samples_ok n : 0 <= n -> exists s, iter (seq 0 m) (sample_of A seqs n) [] = Some s /\ NoDup (map snd s) /\ forall x i, In (x, i) s <-> (i < m)%nat /\ at_ i n = Some x.
  Proof.
    intro Hn. apply (iter_seq (fun k s => NoDup (map snd s) /\ forall x i, In (x, i) s <-> (i < k)%nat /\ at_ i n = Some x)).
    - split; [constructor|]. intros x i. cbn [In]. split; [contradiction|lia].
    - intros i s Hi [ND HS]. unfold sample_of. destruct (Z.ltb_spec n (seqlen i)) as [L|L].
      + destruct (at_some i n ltac:(lia)) as [x Hx]. rewrite Hx. cbn [mbind]. eexists. split; [reflexivity|]. split.
        * rewrite map_app. cbn [map snd]. apply NoDup_app_single || (apply (Permutation_NoDup (l := i :: map snd s)); [apply Permutation_cons_append|]; constructor; [|exact ND]; intro HI; apply in_map_iff in HI; destruct HI as ([y j] & Ej & Hy); cbn [snd] in Ej; subst j; apply HS in Hy; lia).
        * intros y j. rewrite in_app_iff, HS. cbn [In]. split.
          -- intros [[Hj Ej]|[E|[]]]; [split; [lia|exact Ej]|injection E as <- <-; split; [lia|exact Hx]].
          -- intros [Hj Ej]. destruct (Nat.eq_dec j i) as [->|N]; [right; left; congruence|left; split; [lia|exact Ej]].
      + eexists. split; [reflexivity|]. split; [exact ND|]. intros y j. rewrite HS. split; intros [Hj Ej]; (split; [|exact Ej]); [lia|].
        destruct (Nat.eq_dec j i) as [->|N]; [apply at_inv in Ej; lia|lia].
  Qed.
  Lemma infinities_ok n s : (forall i, (i < m)%nat -> 0 < seqlen i) -> exists t, iter (seq 0 m) (infinity_of A seqs n) s = Some (s ++ t) /\
    NoDup (map snd t) /\ (forall x i, In (x, i) t -> (i < m)%nat /\ seqlen i <= n) /\ (forall i, (i < m)%nat -> seqlen i <= n -> In i (map snd t)).
  Proof.
    intro HE.
    destruct (iter_seq (fun k s' => exists t, s' = s ++ t /\ NoDup (map snd t) /\ (forall x i, In (x, i) t -> (i < k)%nat /\ seqlen i <= n) /\ (forall i, (i < k)%nat -> seqlen i <= n -> In i (map snd t)))
      (infinity_of A seqs n) m 0 s) as (s' & E & t & Es & H).
    - exists []. rewrite app_nil_r. split; [reflexivity|]. split; [constructor|]. split; [intros x i []|lia].
    - intros i s' Hi (t & -> & ND & H1 & H2). unfold infinity_of. destruct (Z.leb_spec (seqlen i) n) as [L|L].
      + destruct (at_some i 0) as [x Hx]; [specialize (HE i ltac:(lia)); lia|]. rewrite Hx. cbn [mbind]. eexists. split; [reflexivity|]. exists (t ++ [(x, i)]). rewrite app_assoc. split; [reflexivity|].
        split; [|split].
        * rewrite map_app. cbn [map snd]. apply (Permutation_NoDup (l := i :: map snd t)); [apply Permutation_cons_append|]. constructor; [|exact ND]. intro HI. apply in_map_iff in HI.
          destruct HI as ([y j] & Ej & Hy). cbn [snd] in Ej. subst j. apply H1 in Hy. lia.
        * intros y j HIN. apply in_app_iff in HIN. destruct HIN as [HIN|[E|[]]]; [destruct (H1 y j HIN); split; [lia|assumption]|injection E as <- <-; split; [lia|exact L]].
        * intros j Hj Lj. rewrite map_app, in_app_iff. cbn [map In snd]. destruct (Nat.eq_dec j i) as [->|N]; [auto|left; apply H2; [lia|exact Lj]].
      + eexists. split; [reflexivity|]. exists t. split; [reflexivity|]. split; [exact ND|]. split.
        * intros y j HIN. destruct (H1 y j HIN). split; [lia|assumption].
        * intros j Hj Lj. destruct (Nat.eq_dec j i) as [->|N]; [lia|apply H2; [lia|exact Lj]].
    - exists t. rewrite E, Es. auto.
  Qed.
  Lemma take_left_ok n : 0 <= n -> forall k sample a, (k < length sample)%nat -> NoDup (map snd sample) -> (forall x i, In (x, i) sample -> (i < m)%nat) ->
    exists t rest a', take_left A seqs k n sample a = Some (a', rest) /\ sample = t ++ rest /\
      (forall i, In i (map snd t) -> a' i = a i + (n + 1)) /\ (forall i, ~ In i (map snd t) -> a' i = a i) /\ (forall i, In i (map snd t) -> n < seqlen i) /\
      sumf m a' = sumf m a + (n + 1) * Z.of_nat (length t) /\ (length t = k \/ exists x i rest', rest = (x, i) :: rest' /\ seqlen i <= n).
  Proof.
    intro Hn. induction k as [|k IH]; intros sample a HK ND HI; cbn [take_left].
    - exists [], sample, a. split; [reflexivity|]. split; [reflexivity|]. split; [intros i []|]. split; [reflexivity|]. split; [intros i []|]. cbn [length]. split; [lia|auto].
    - destruct sample as [|[x i] rest]; [cbn [length] in HK; lia|]. cbn [length map snd] in *. inversion ND as [|? ? NI ND2]; subst. destruct (Z.leb_spec (n + 1) (seqlen i)) as [L|L].
      + destruct (IH rest (upd a i (a i + (n + 1))) ltac:(lia) ND2) as (t & rest' & a' & E & Es & H1 & H2 & H3 & H4 & H5); [intros; apply (HI x0); right; assumption|].
        exists ((x, i) :: t), rest', a'. split; [exact E|]. split; [cbn [app]; congruence|]. cbn [map snd In length].
        assert (~ In i (map snd t)) as NIt by (intro; apply NI; rewrite Es, map_app, in_app_iff; auto).
        split; [|split; [|split; [|split]]].
        * intros j [<-|Hj]; [rewrite (H2 i NIt), upd_same; reflexivity|]. rewrite (H1 j Hj), upd_other by congruence. reflexivity.
        * intros j Hj. rewrite H2 by tauto. rewrite upd_other by (intros ->; tauto). reflexivity.
        * intros j [<-|Hj]; [lia|apply H3; exact Hj].
        * rewrite H4. rewrite (sumf_change m a (upd a i (a i + (n + 1))) i); [|apply (HI x); left; reflexivity|intros j N; rewrite upd_other by exact N; reflexivity]. rewrite upd_same. lia.
        * destruct H5 as [H5|H5]; [left; lia|right; exact H5].
      + exists [], ((x, i) :: rest), a. split; [reflexivity|]. split; [reflexivity|]. split; [intros j []|]. split; [reflexivity|]. split; [intros j []|]. cbn [length]. split; [lia|].
        right. exists x, i, rest. split; [reflexivity|lia].
  Qed.
  Lemma fold_b n : forall rest b, NoDup (map snd rest) ->
    let b' := fold_left (fun b (p : A * nat) => upd b (snd p) (b (snd p) - (n + 1))) rest b in
    (forall i, In i (map snd rest) -> b' i = b i - (n + 1)) /\ (forall i, ~ In i (map snd rest) -> b' i = b i).
  Proof.
    induction rest as [|[x i] rest IH]; intros b ND; cbn [fold_left map snd In].
    - split; [intros i []|reflexivity].
    - cbn [map snd] in ND. inversion ND as [|? ? NI ND2]; subst. destruct (IH (upd b i (b i - (n + 1))) ND2) as [H1 H2]. split.
      + intros j [<-|Hj]; [rewrite (H2 i NI), upd_same; reflexivity|]. rewrite (H1 j Hj), upd_other by congruence. reflexivity.
      + intros j Hj. rewrite H2 by tauto. rewrite upd_other by (intros ->; tauto). reflexivity.
  Qed.
  Lemma NoDup_app_disj {X} (l1 l2 : list X) : NoDup l1 -> NoDup l2 -> (forall x, In x l1 -> ~ In x l2) -> NoDup (l1 ++ l2).
  Proof.
    intros H1 H2 H. induction H1 as [|x l1 NI ND IH]; [exact H2|]. cbn [app]. constructor.
    - rewrite in_app_iff. intros [H3|H3]; [auto|]. apply (H x); [left; reflexivity|exact H3].
    - apply IH. intros y Hy. apply H. right. exact Hy.
  Qed.
  Lemma NoDup_app_inv {X} (l1 l2 : list X) : NoDup (l1 ++ l2) -> NoDup l1 /\ NoDup l2 /\ forall x, In x l1 -> ~ In x l2.
  Proof.
    induction l1 as [|y l1 IH]; cbn [app]; intro H; [split; [constructor|auto]|]. inversion H as [|? ? NI ND]; subst. destruct (IH ND) as (H1 & H2 & H3).
    split; [constructor; [intro; apply NI; apply in_app_iff; auto|exact H1]|]. split; [exact H2|]. intros x [<-|Hx]; [intro; apply NI; apply in_app_iff; auto|auto].
  Qed.
  Theorem initial_ok rank n : 0 <= n -> (forall i, (i < m)%nat -> 0 < seqlen i <= 2 * n + 1) -> 0 <= rank < sumf m seqlen ->
    exists a b, initial A lt seqs rank (2 * n + 1) = Some (a, b) /\ inv n a b /\ valid a b /\ (n = 0 -> sumf m a = rank).
  Proof.
    intros Hn HL HR. unfold initial. replace ((2 * n + 1) / 2) with n by (replace (2 * n + 1) with (1 + n * 2) by lia; rewrite Z.div_add by lia; reflexivity).
    destruct (samples_ok n Hn) as (s & ES & NDS & HS). rewrite ES. cbn [mbind].
    destruct (infinities_ok n (ssort lcomp s) ltac:(intros i Hi; apply HL; exact Hi)) as (t & ET & NDT & HT1 & HT2). rewrite ET. cbn [mbind].
    pose proof (ssort_perm _ lcomp s) as PS. pose proof (ssort_sorted _ lcomp lcomp_sw s) as SS. set (s1 := ssort lcomp s) in *. clearbody s1.
    assert (NoDup (map snd (s1 ++ t))) as ND.
    { rewrite map_app. apply NoDup_app_disj; [apply (Permutation_NoDup (l := map snd s)); [apply Permutation_map, Permutation_sym, PS|exact NDS]|exact NDT|].
      intros i H1 H2. apply in_map_iff in H1, H2. destruct H1 as ([x j] & Ej & H1). destruct H2 as ([y j'] & Ej' & H2). cbn [snd] in *. subst j j'.
      apply (Permutation_in _ PS) in H1. apply HS in H1. apply HT1 in H2. destruct H1 as [_ H1]. apply at_inv in H1. lia. }
    assert (forall x i, In (x, i) (s1 ++ t) -> (i < m)%nat) as HIN.
    { intros x i H. apply in_app_iff in H. destruct H as [H|H]; [apply (Permutation_in _ PS) in H; apply HS in H; tauto|apply HT1 in H; tauto]. }
    assert (forall i, (i < m)%nat -> In i (map snd (s1 ++ t))) as HALL.
    { intros i Hi. rewrite map_app, in_app_iff. destruct (Z_le_dec (seqlen i) n) as [L|L]; [right; apply HT2; assumption|left].
      destruct (at_some i n ltac:(lia)) as [x Hx]. change i with (snd (x, i)). apply in_map. apply (Permutation_in _ (Permutation_sym PS)). apply HS. auto. }
    assert (length (s1 ++ t) = m) as LEN.
    { rewrite <- (map_length snd). rewrite <- (seq_length m 0). apply Permutation_length. apply NoDup_Permutation; [exact ND|apply seq_NoDup|].
      intro i. rewrite in_seq. split; [|intro; apply HALL; lia]. intro H. apply in_map_iff in H. destruct H as ([x j] & Ej & H). cbn [snd] in Ej. subst j. apply HIN in H. lia. }
    assert (0 <= rank / (2 * n + 1)) as PR by (apply Z.div_pos; lia).
    assert (Z.to_nat (rank / (2 * n + 1)) < length (s1 ++ t))%nat as LR.
    { assert (sumf m seqlen <= sumf m (fun _ => 2 * n + 1)) as SL by (apply sumf_le; intros i Hi; apply HL; exact Hi). rewrite sumf_const in SL.
      assert (rank / (2 * n + 1) < Z.of_nat m) by (apply Z.div_lt_upper_bound; lia). lia. }
    destruct (take_left_ok n Hn _ (s1 ++ t) (fun _ => 0) LR ND HIN) as (tk & rest & a & EK & EQ & A1 & A2 & A3 & A4 & A5). rewrite EK. cbn [mbind].
    rewrite EQ, map_app in ND. destruct (NoDup_app_inv _ _ ND) as (ND1 & ND2 & ND3).
    destruct (fold_b n rest (fun _ => 2 * n + 1) ND2) as [B1 B2]. set (b := fold_left _ rest _) in *. cbv beta in *. clearbody b. exists a, b. split; [reflexivity|].
    assert (forall i, (i < m)%nat -> In i (map snd tk) \/ In i (map snd rest)) as HALL2 by (intros i Hi; specialize (HALL i Hi); rewrite EQ, map_app, in_app_iff in HALL; exact HALL).
    assert (exists s2, s1 = tk ++ s2) as [s2 Es2].
    { assert (length tk <= length s1)%nat as LT.
      { destruct (le_lt_dec (length tk) (length s1)) as [L|L]; [exact L|]. exfalso.
        assert (exists y, nth_error tk (length s1) = Some y) as [[x i] Ey] by (destruct (nth_error tk (length s1)) eqn:E; [eauto|apply nth_error_None in E; lia]).
        assert (nth_error (tk ++ rest) (length s1) = Some (x, i)) as E2 by (rewrite nth_error_app1 by exact L; exact Ey). rewrite <- EQ in E2. rewrite nth_error_app2 in E2 by lia.
        rewrite Nat.sub_diag in E2. apply nth_error_In in E2. apply HT1 in E2. apply nth_error_In in Ey. apply (in_map snd) in Ey. cbn [snd] in Ey. apply A3 in Ey. lia. }
      exists (skipn (length tk) s1). rewrite <- (firstn_skipn (length tk) s1) at 1. f_equal.
      assert (firstn (length tk) (s1 ++ t) = firstn (length tk) (tk ++ rest)) as E by (rewrite EQ; reflexivity).
      rewrite !firstn_app in E. replace (length tk - length s1)%nat with 0%nat in E by lia. rewrite Nat.sub_diag in E. cbn [firstn] in E. rewrite !app_nil_r, firstn_all in E. exact E. }
    split; [|split].
    - intros i Hi. destruct (in_dec Nat.eq_dec i (map snd tk)) as [I|NI].
      + rewrite (A1 i I), (B2 i (ND3 i I)). specialize (A3 i I). split; [exists 1; lia|]. lia.
      + destruct (HALL2 i Hi) as [I2|I2]; [tauto|]. rewrite (A2 i NI), (B1 i I2). split; [exists 0; lia|]. specialize (HL i Hi). lia.
    - intros i j x y Hi Hj Hx Hy.
      destruct (in_dec Nat.eq_dec i (map snd tk)) as [I|NI]; [|rewrite (A2 i NI) in Hx; apply at_inv in Hx; lia].
      destruct (in_dec Nat.eq_dec j (map snd tk)) as [J|NJ]; [rewrite (B2 j (ND3 j J)) in Hy; apply at_inv in Hy; specialize (HL j Hj); lia|].
      rewrite (A1 i I) in Hx. replace (0 + (n + 1) - 1) with n in Hx by lia. destruct (HALL2 j Hj) as [J2|J2]; [tauto|]. rewrite (B1 j J2) in Hy. replace (2 * n + 1 - (n + 1)) with n in Hy by lia.
      assert (In (x, i) tk) as IX.
      { apply in_map_iff in I. destruct I as ([x' i'] & E & I). cbn [snd] in E. subst i'. assert (In (x', i) s1) as I1 by (rewrite Es2; apply in_app_iff; auto). apply (Permutation_in _ PS) in I1. apply HS in I1.
        assert (x' = x) as -> by (destruct I1; congruence). exact I. }
      assert (In (y, j) s2) as IY.
      { assert (In (y, j) s1) as I1 by (apply (Permutation_in _ (Permutation_sym PS)); apply HS; auto). rewrite Es2, in_app_iff in I1. destruct I1 as [I1|I1]; [|exact I1]. apply (in_map snd) in I1. tauto. }
      rewrite Es2 in SS. apply sorted_app_inv in SS. destruct SS as (_ & _ & SS). specialize (SS _ _ IX IY). unfold le in SS. apply lcomp_le in SS. exact SS.
    - intros ->. rewrite A4, sumf_zero by reflexivity. rewrite Z.div_1_r in A5. destruct A5 as [A5|(x & i & r' & Er & L)]; [lia|]. exfalso.
      assert (i < m)%nat as Hi by (apply (HIN x); rewrite EQ, Er; apply in_app_iff; right; left; reflexivity). specialize (HL i Hi). lia.
  Qed.

  (** * Both functions *)
  Lemma nmax_ok i : (i < m)%nat -> seqlen i <= nmax A seqs.
  Proof.
    unfold nmax. assert (forall is x, x <= fold_left (fun x i => Z.max x (seqlen i)) is x /\ forall i, In i is -> seqlen i <= fold_left (fun x i => Z.max x (seqlen i)) is x) as H.
    { induction is as [|j is IH]; intro x; cbn [fold_left]; [split; [lia|intros i0 []]|]. destruct (IH (Z.max x (seqlen j))) as [H1 H2]. split; [lia|]. intros i0 [<-|HI]; [lia|auto]. }
    intro Hi. destruct (H (seq 1 (m - 1)) (seqlen 0)) as [H1 H2]. destruct i as [|i]; [exact H1|]. apply H2. apply in_seq. lia.
  Qed.
  Lemma nmax_bound c : (forall i, (i < m)%nat -> seqlen i <= c) -> (0 < m)%nat -> nmax A seqs <= c.
  Proof.
    intros H Hm. unfold nmax. assert (forall is x, x <= c -> (forall i, In i is -> (i < m)%nat) -> fold_left (fun x i => Z.max x (seqlen i)) is x <= c) as G.
    { induction is as [|j is IH]; intros x Hx HI; cbn [fold_left]; [exact Hx|]. apply IH; [|intros; apply HI; right; assumption]. pose proof (H j (HI j (or_introl eq_refl))). lia. }
    apply G; [apply H; exact Hm|]. intros i Hi. apply in_seq in Hi. lia.
  Qed.
  Theorem split_ok rear rank : (forall i, (i < m)%nat -> 0 < seqlen i < 2 ^ 62) -> 0 <= rank < sumf m seqlen ->
    exists a b, split A lt seqs rear rank = Some (a, b) /\ inv 0 a b /\ valid a b /\ sumf m a = rank.
  Proof.
    intros HL HR. assert (0 < m)%nat as Hm by (destruct m; [cbn in HR; lia|lia]). unfold split.
    pose proof (nmax_bound (2 ^ 62 - 1) ltac:(intros i Hi; specialize (HL i Hi); lia) Hm) as NB. pose proof (nmax_ok 0 Hm) as N0. pose proof (HL 0%nat Hm) as L0.
    destruct (round_up_ok (nmax A seqs + 1) ltac:(lia)) as (k & Hk & -> & HK). destruct (Z.eq_dec k 0) as [->|NK]; [cbn in HK; lia|].
    assert (2 ^ k = 2 * 2 ^ (k - 1)) as EP by (rewrite <- Z.pow_succ_r by lia; f_equal; lia). pose proof (Z.pow_pos_nonneg 2 (k - 1) ltac:(lia) ltac:(lia)) as PP.
    set (n := 2 ^ (k - 1) - 1) in *. replace (2 ^ k - 1) with (2 * n + 1) by lia. assert (0 <= n) as Hn by lia.
    destruct (initial_ok rank n Hn) as (a & b & E & HI & HV & HC); [|exact HR|].
    { intros i Hi. pose proof (nmax_ok i Hi). specialize (HL i Hi). lia. }
    rewrite E. cbn [mbind]. replace ((2 * n + 1) / 2) with n by (replace (2 * n + 1) with (1 + n * 2) by lia; rewrite Z.div_add by lia; reflexivity).
    destruct (refine_ok rear rank HR (Z.to_nat n) (k - 1) a b ltac:(lia)) as (a' & b' & E' & HI' & HV' & HC'); fold n; [lia|exact HI|exact HV|]. fold n in E'.
    exists a', b'. split; [exact E'|]. split; [exact HI'|]. split; [exact HV'|]. destruct HC' as [HC'|[K1 ->]]; [exact HC'|]. apply HC. unfold n. rewrite K1. reflexivity.
  Qed.
End P.
