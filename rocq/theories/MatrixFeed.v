(** The multi-level variants of the Strassen-Winograd algorithm on operands of few blocks. *)
From Coq Require Import List Arith Bool PeanoNat Lia Ring.
From Verif Require Import MatrixModel MatrixBase MatrixProofs MatrixRec MatrixStrassen MatrixSw MatrixFeedModel.
Import ListNotations.

(** ** Rounding *)
Lemma round_up_ge n p : n <= round_up n p.
Proof.
  unfold round_up. assert (2 ^ p <> 0) by (apply Nat.pow_nonzero; lia). destruct (_ =? 0); auto.
  pose proof (Nat.div_mod n (2 ^ p) H). pose proof (Nat.mod_upper_bound n (2 ^ p) H). nia.
Qed.
Lemma round_up_zero n : round_up n 0 = n.
Proof. unfold round_up. cbn [Nat.pow]. rewrite Nat.mod_1_r. reflexivity. Qed.
Lemma round_up_two : round_up 2 1 = 2.
Proof. reflexivity. Qed.
Lemma ilog2_ceil_spec n k : ilog2_ceil n <= k <-> n <= 2 ^ k.
Proof.
  unfold ilog2_ceil. destruct (Nat.leb_spec n 1) as [H|H].
  - split; [intros _|lia]. pose proof (Nat.pow_nonzero 2 k ltac:(lia)). lia.
  - assert (0 < n - 1) by lia. pose proof (Nat.log2_spec (n - 1) H0) as [L1 L2]. split; intros K.
    + assert (2 ^ S (Nat.log2 (n - 1)) <= 2 ^ k) by (apply Nat.pow_le_mono_r; lia). lia.
    + destruct (Nat.le_gt_cases (Nat.log2 (n - 1) + 1) k); auto. exfalso.
      assert (2 ^ k <= 2 ^ Nat.log2 (n - 1)) by (apply Nat.pow_le_mono_r; lia). lia.
Qed.

Section FeedP.
  Variable R : Type.
  Variables (rO rI : R) (radd rmul rsub : R -> R -> R) (ropp : R -> R).
  Variable Rth : ring_theory rO rI radd rmul rsub ropp eq.
  Add Ring Rr : Rth.
  Variable B : nat.

  Notation store := (list (option (list R))).
  Notation E := (E R rO B).
  Notation prodE := (prodE R rO radd rmul B).
  Notation mul_add_ok := (mul_add_ok R rO radd rmul B).
  Notation part_of := (part_of R).
  Notation ext := (ext R).

  (** padded operands *)
  Lemma pad_ok f A Bm C h l w : ht A <= h -> wd A <= l -> wd Bm <= w ->
    (forall a b c, ht a = h -> wd a = l -> ht b = l -> wd b = w -> ht c = h -> wd c = w ->
       tr a = tr A -> tr b = tr Bm -> tr c = tr C -> mul_add_ok f a b c) ->
    mul_add_ok (fun A Bm C s => do (a, s) <- sub R A h l 0 0 s; do (b, s) <- sub R Bm l w 0 0 s;
                                do (c, s) <- sub R C h w 0 0 s; f a b c s) A Bm C.
  Proof.
    intros Lh Ll Lw Hf s [WA WB WC JA JB JC DA DB (F1 & F2 & F3)].
    destruct (sub_part R A h l 0 0 s) as (a & s1 & E1 & Pa & Xa & a1 & a2); auto; try lia. rewrite E1. cbn [fst snd].
    pose proof (ext_le _ _ _ Xa) as La.
    destruct (sub_part R Bm l w 0 0 s1) as (b & s2 & E2 & Pb & Xb & b1 & b2); auto; try lia; [apply (wf_le (length s)); auto|]. rewrite E2. cbn [fst snd].
    pose proof (ext_le _ _ _ Xb) as Lb.
    destruct (sub_part R C h w 0 0 s2) as (c & s3 & E3 & Pc & Xc & c1 & c2); auto; try lia; [apply (wf_le (length s)); auto; lia|]. rewrite E3. cbn [fst snd].
    pose proof (ext_le _ _ _ Xc) as Lc.
    assert (Hp : pre (length s3) a b c).
    { pose proof Pa as (Wa & Ja & _). pose proof Pb as (Wb & Jb & _). pose proof Pc as (Wc & Jc & _).
      constructor; auto.
      - apply (wf_le (length s1)); auto. lia.
      - apply (wf_le (length s2)); auto.
      - intros id K1 K2. apply (part_own _ _ _ _ _ _ _ _ Pa) in K1. apply (part_own _ _ _ _ _ _ _ _ Pc) in K2.
        destruct K1 as [K1|K1], K2 as [K2|K2]; [eapply DA; eauto| | |lia].
        + apply (own_lt _ _ _ WA) in K1. lia.
        + apply (own_lt _ _ _ WC) in K2. lia.
      - intros id K1 K2. apply (part_own _ _ _ _ _ _ _ _ Pb) in K1. apply (part_own _ _ _ _ _ _ _ _ Pc) in K2.
        destruct K1 as [K1|K1], K2 as [K2|K2]; [eapply DB; eauto| | |lia].
        + apply (own_lt _ _ _ WB) in K1. lia.
        + apply (own_lt _ _ _ WC) in K2. lia.
      - unfold fits. lia. }
    destruct (Hf a b c) with (s := s3) as (s4 & E4 & [L4 Fr4] & V4); auto;
      [apply Pa|apply Pb|apply Pc|].
    exists s4. split; auto. split; [split; [lia|]|].
    - intros id Hid No. rewrite Fr4; [|lia|].
      + rewrite (proj2 Xc), (proj2 Xb), (proj2 Xa). reflexivity.
      + intros K. apply (part_own _ _ _ _ _ _ _ _ Pc) in K. destruct K as [K|K]; [auto|lia].
    - intros I J i k HI HJ Hi Hk.
      assert (Hc : forall s0, E s0 C I J i k = E s0 c I J i k).
      { intros s0. unfold MatrixBase.E. pose proof (part_in R _ _ _ _ _ _ I J Pc) as K. rewrite !Nat.sub_0_r in K. rewrite K by lia.
        destruct Pc as (_ & _ & -> & _). reflexivity. }
      rewrite Hc, V4 by lia. f_equal.
      + rewrite Hc. rewrite (ext_E R rO B s2 s3), (ext_E R rO B s1 s2), (ext_E R rO B s s1) by auto. reflexivity.
      + unfold MatrixProofs.prodE. rewrite a2. rewrite (Sum_more R rO rI radd rmul rsub ropp Rth (wd A) l); [|auto|].
        * apply Sum_ext. intros K HK. apply Sum_ext. intros x Hx. f_equal.
          -- rewrite (ext_E R rO B s2 s3), (ext_E R rO B s1 s2) by auto. rewrite (part_E R rO B _ _ _ _ _ _ _ _ _ _ Pa) by (auto; lia).
             cbn [Nat.add]. destruct (Nat.ltb_spec I (ht A)); [|lia]. destruct (Nat.ltb_spec K (wd A)); [|lia]. reflexivity.
          -- rewrite (ext_E R rO B s2 s3) by auto. rewrite (part_E R rO B _ _ _ _ _ _ _ _ _ _ Pb) by (auto; lia).
             cbn [Nat.add]. destruct (Nat.ltb_spec K (ht Bm)); [|lia]. destruct (Nat.ltb_spec J (wd Bm)); [|lia].
             cbn [andb]. apply ext_E. auto.
        * intros K K1 K2. apply (Sum_zero R rO rI radd rmul rsub ropp Rth). intros x Hx.
          replace (E s3 a I K i x) with rO; [ring|].
          rewrite (ext_E R rO B s2 s3), (ext_E R rO B s1 s2) by auto. rewrite (part_E R rO B _ _ _ _ _ _ _ _ _ _ Pa) by (auto; lia).
          cbn [Nat.add]. destruct (Nat.ltb_spec K (wd A)); [lia|]. rewrite andb_false_r. reflexivity.
  Qed.

  Lemma multi_level_small A Bm C : levels A C <= 1 -> mul_add_ok (multi_level R rO radd rmul rsub B) A Bm C.
  Proof.
    intros Hl s Hp. pose proof Hp as [WA WB WC JA JB JC _ _ (F1 & F2 & F3)]. set (p := levels A C) in *.
    destruct (pad_ok (rec_multiply_and_add R rO radd rmul B) A Bm C (round_up (ht A) p) (round_up (wd A) p) (round_up (wd Bm) p)) with (s := s)
      as (s' & E1 & K1 & K2); try apply round_up_ge; auto.
    { intros. apply (rec_fuel_ok R rO rI radd rmul rsub ropp Rth). }
    exists s'. split; auto. unfold multi_level, padded. fold p. rewrite <- F1, <- F2, <- F3.
    destruct (sub R A _ _ _ _ _) as [[a s1]|] eqn:Ea; [|discriminate]. cbn [fst snd] in *.
    destruct (sub R Bm _ _ _ _ _) as [[b s2]|] eqn:Eb; [|discriminate]. cbn [fst snd] in *.
    destruct (sub R C _ _ _ _ _) as [[c s3]|] eqn:Ec; [|discriminate]. cbn [fst snd] in *.
    cbn [choose_level]. replace (levels a c <=? 1) with true; auto. symmetry. apply Nat.leb_le.
    assert (Da : wd a = round_up (wd A) p).
    { destruct (sub_part R A (round_up (ht A) p) (round_up (wd A) p) 0 0 s) as (a' & s1' & Ea' & _ & _ & _ & K); auto; try lia. congruence. }
    assert (Dc : ht c = round_up (ht A) p /\ wd c = round_up (wd Bm) p).
    { assert (Ls : length s <= length s2).
      { destruct (sub_part R A (round_up (ht A) p) (round_up (wd A) p) 0 0 s) as (a' & s1' & Ea' & _ & X1 & _ & _); auto; try lia.
        rewrite Ea in Ea'. injection Ea' as <- <-. apply ext_le in X1.
        destruct (sub_part R Bm (round_up (wd A) p) (round_up (wd Bm) p) 0 0 s1) as (b' & s2' & Eb' & _ & X2 & _ & _); auto; try lia.
        { apply (wf_le (length s)); auto. }
        rewrite Eb in Eb'. injection Eb' as <- <-. apply ext_le in X2. lia. }
      destruct (sub_part R C (round_up (ht A) p) (round_up (wd Bm) p) 0 0 s2) as (c' & s3' & Ec' & _ & _ & K); auto; try lia.
      { apply (wf_le (length s)); auto. }
      rewrite Ec in Ec'. injection Ec' as <- <-. exact K. }
    destruct Dc as [Dc1 Dc2]. unfold levels. rewrite Da, Dc1, Dc2, F1, F2.
    apply ilog2_ceil_spec. cbn [Nat.pow]. unfold p, levels in *. apply ilog2_ceil_spec in Hl. cbn [Nat.pow] in Hl.
    set (m := Nat.min (wd A) (Nat.min (wd C) (ht C))) in *.
    assert (Ru : forall n, n <= 2 -> round_up n (ilog2_ceil m) <= 2).
    { intros n Hn. assert (Q : ilog2_ceil m = 0 \/ ilog2_ceil m = 1).
      { pose proof (proj2 (ilog2_ceil_spec m 1)) as K. cbn in K. specialize (K ltac:(lia)). lia. }
      destruct Q as [-> | ->]; [rewrite round_up_zero; lia|].
      assert (Cs : n = 0 \/ n = 1 \/ n = 2) by lia. destruct Cs as [ -> | [ -> | -> ] ]; cbn; lia. }
    unfold m in *. pose proof (Ru (wd A)). pose proof (Ru (wd C)). pose proof (Ru (ht C)). lia.
  Qed.

  Lemma multi_level_bg_small f A Bm C : levels A C <= 2 -> mul_add_ok (multi_level_bg R rO radd rmul rsub ropp B (S f)) A Bm C.
  Proof.
    intros Hl s Hp. cbn [multi_level_bg]. destruct (Nat.leb_spec (levels A C) 2); [|lia].
    apply (swi_ok R rO rI radd rmul rsub ropp Rth B (fuel_of A C) A Bm C); auto.
  Qed.
End FeedP.
