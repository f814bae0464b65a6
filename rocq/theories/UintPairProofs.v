From Coq Require Import ZArith Bool Lia.
From Verif Require Import UintPairModel UintPairSpec.
Open Scope Z_scope.

Section P.
  Variable hb : Z.
  Hypothesis Hhb : 0 < hb <= 32.

  Lemma pow_hb_pos : 0 < 2 ^ hb. Proof. apply Z.pow_pos_nonneg; lia. Qed.

  Lemma modulus_split : modulus hb = 2 ^ hb * 2 ^ 32.
  Proof. unfold modulus. rewrite Z.add_comm, Z.pow_add_r by lia. reflexivity. Qed.

  Lemma land_low_max z : Z.land z low_max = z mod 2 ^ 32.
  Proof. change low_max with (Z.ones 32). apply Z.land_ones; lia. Qed.

  Lemma land_high_max z : Z.land z (high_max hb) = z mod 2 ^ hb.
  Proof.
    unfold high_max. replace (2 ^ hb - 1) with (Z.ones hb).
    - apply Z.land_ones; lia.
    - rewrite Z.ones_equiv. lia.
  Qed.

  Lemma value_unique h h' l l' :
    0 <= l < 2 ^ 32 -> 0 <= l' < 2 ^ 32 -> h * 2 ^ 32 + l = h' * 2 ^ 32 + l' ->
    h = h' /\ l = l'.
  Proof. intros. lia. Qed.

  Lemma stored_value_range x : stored hb x -> 0 <= value x < modulus hb.
  Proof.
    intros [Hl Hh]. unfold value. rewrite modulus_split. nia.
  Qed.

  Lemma stored_value_inj x y : stored hb x -> stored hb y -> value x = value y -> x = y.
  Proof.
    intros [Hl Hh] [Hl' Hh'] E. unfold value in E. destruct x, y; cbn in *.
    destruct (value_unique high high0 low low0); try lia. congruence.
  Qed.

  (** reduce a number given by quotient/remainder to the stored value *)
  Lemma mod_modulus q r :
    0 <= r < 2 ^ 32 -> (q * 2 ^ 32 + r) mod modulus hb = (q mod 2 ^ hb) * 2 ^ 32 + r.
  Proof.
    intros Hr. pose proof pow_hb_pos as Hp. symmetry.
    apply Z.mod_unique with (q := q / 2 ^ hb).
    - left. pose proof (Z.mod_pos_bound q (2 ^ hb) Hp). rewrite modulus_split. nia.
    - rewrite modulus_split. pose proof (Z.div_mod q (2 ^ hb) ltac:(lia)) as E.
      rewrite E at 1. ring.
  Qed.

  Lemma of_u32_ok a : 0 <= a < 2 ^ 32 -> stored hb (of_u32 a) /\ value (of_u32 a) = a.
  Proof. intros. pose proof pow_hb_pos. unfold stored, value, of_u32; cbn. lia. Qed.

  Lemma of_i32_ok a : - 2 ^ 31 <= a < 2 ^ 31 ->
    stored hb (of_i32 hb a) /\ value (of_i32 hb a) = a mod modulus hb.
  Proof.
    intros Ha. pose proof pow_hb_pos as Hp. unfold of_i32.
    destruct (Z.leb_spec 0 a).
    - unfold to_low. rewrite Z.mod_small by lia. unfold stored, value; cbn [low high].
      split; [lia|]. rewrite Z.mod_small; [lia|]. rewrite modulus_split. nia.
    - unfold to_low, to_high, high_max. rewrite (Z.mod_small (2 ^ hb - 1)) by lia.
      assert (E : a mod 2 ^ 32 = a + 2 ^ 32).
      { symmetry. apply Z.mod_unique with (q := -1); lia. }
      unfold stored, value; cbn [low high]. rewrite E. split; [lia|].
      replace a with ((-1) * 2 ^ 32 + (a + 2 ^ 32)) at 2 by lia.
      rewrite mod_modulus by lia. f_equal. f_equal.
      apply Z.mod_unique with (q := -1); lia.
  Qed.

  Lemma of_u64_ok a : 0 <= a < 2 ^ 64 ->
    stored hb (of_u64 hb a) /\ value (of_u64 hb a) = a mod modulus hb.
  Proof.
    intros Ha. pose proof pow_hb_pos as Hp. unfold of_u64, to_low, to_high.
    rewrite land_low_max, land_high_max. rewrite !Z.mod_mod by lia.
    unfold low_bits. rewrite Z.shiftr_div_pow2 by lia.
    unfold stored, value; cbn [low high].
    pose proof (Z.mod_pos_bound a (2 ^ 32) ltac:(lia)).
    pose proof (Z.mod_pos_bound (a / 2 ^ 32) (2 ^ hb) Hp).
    split; [lia|].
    rewrite (Z.div_mod a (2 ^ 32)) at 3 by lia.
    rewrite (Z.mul_comm (2 ^ 32)). rewrite mod_modulus by lia. reflexivity.
  Qed.

  Lemma lor_add h l : 0 <= l < 2 ^ 32 -> Z.lor (Z.shiftl h 32) l = h * 2 ^ 32 + l.
  Proof.
    intros Hl. rewrite Z.shiftl_mul_pow2 by lia.
    rewrite <- Z.lxor_lor, <- Z.add_nocarry_lxor; try reflexivity.
    all: apply Z.bits_inj'; intros n Hn; rewrite Z.land_spec, Z.bits_0.
    all: destruct (Z.ltb_spec n 32).
    all: try (rewrite Z.mul_pow2_bits_low by lia; reflexivity).
    all: rewrite <- (Z.mod_small l (2 ^ 32)) by lia;
      rewrite Z.mod_pow2_bits_high by lia; apply andb_false_r.
  Qed.

  Lemma ull_ok x : stored hb x -> ull x = value x.
  Proof.
    intros [Hl Hh]. unfold ull, to_u64, low_bits.
    rewrite Z.mod_small.
    - apply lor_add; lia.
    - rewrite Z.shiftl_mul_pow2 by lia.
      assert (2 ^ hb <= 2 ^ 32) by (apply Z.pow_le_mono_r; lia). nia.
  Qed.

  Lemma u64_round_trip x : stored hb x -> of_u64 hb (ull x) = x.
  Proof.
    intros Hx. pose proof (stored_value_range x Hx).
    assert (modulus hb <= 2 ^ 64) by (unfold modulus; apply Z.pow_le_mono_r; lia).
    rewrite ull_ok by assumption.
    destruct (of_u64_ok (value x)) as [S V]; [lia|].
    apply stored_value_inj; auto. rewrite V. apply Z.mod_small; lia.
  Qed.

  Lemma incr_ok x : stored hb x ->
    stored hb (incr hb x) /\ value (incr hb x) = (value x + 1) mod modulus hb.
  Proof.
    intros [Hl Hh]. pose proof pow_hb_pos as Hp. unfold incr, to_low, to_high, low_max.
    destruct (Z.eqb_spec (low x) 4294967295) as [E|E].
    - unfold stored, value; cbn [low high].
      pose proof (Z.mod_pos_bound (high x + 1) (2 ^ hb) Hp). split; [lia|].
      replace (high x * 2 ^ 32 + low x + 1) with ((high x + 1) * 2 ^ 32 + 0) by lia.
      rewrite mod_modulus by lia. reflexivity.
    - unfold stored, value; cbn [low high]. rewrite Z.mod_small by lia. split; [lia|].
      rewrite Z.mod_small; [lia|]. rewrite modulus_split. nia.
  Qed.

  Lemma decr_ok x : stored hb x ->
    stored hb (decr hb x) /\ value (decr hb x) = (value x - 1) mod modulus hb.
  Proof.
    intros [Hl Hh]. pose proof pow_hb_pos as Hp. unfold decr, to_low, to_high, low_max.
    destruct (Z.eqb_spec (low x) 0) as [E|E].
    - unfold stored, value; cbn [low high]. rewrite (Z.mod_small 4294967295) by lia.
      pose proof (Z.mod_pos_bound (high x - 1) (2 ^ hb) Hp). split; [lia|].
      replace (high x * 2 ^ 32 + low x - 1) with ((high x - 1) * 2 ^ 32 + 4294967295) by lia.
      rewrite mod_modulus by lia. reflexivity.
    - unfold stored, value; cbn [low high]. rewrite Z.mod_small by lia. split; [lia|].
      rewrite Z.mod_small; [lia|]. rewrite modulus_split. nia.
  Qed.

  Lemma plus_assign_ok x y : stored hb x -> stored hb y ->
    stored hb (plus_assign hb x y) /\
    value (plus_assign hb x y) = (value x + value y) mod modulus hb.
  Proof.
    intros [Hl Hh] [Hl' Hh']. pose proof pow_hb_pos as Hp.
    unfold plus_assign, to_u64, to_low, to_high.
    assert (E64 : (low x + low y) mod 2 ^ 64 = low x + low y) by (apply Z.mod_small; lia).
    rewrite E64. rewrite land_low_max, land_high_max. rewrite Z.mod_mod by lia.
    unfold low_bits. rewrite Z.shiftr_div_pow2 by lia.
    rewrite Zplus_mod_idemp_r.
    pose proof (Z.div_mod (low x + low y) (2 ^ 32) ltac:(lia)) as DM.
    pose proof (Z.mod_pos_bound (low x + low y) (2 ^ 32) ltac:(lia)).
    pose proof (Z.mod_pos_bound (high x + high y + (low x + low y) / 2 ^ 32) (2 ^ hb) Hp).
    unfold stored, value; cbn [low high]. split; [lia|].
    replace (high x * 2 ^ 32 + low x + (high y * 2 ^ 32 + low y))
      with ((high x + high y + (low x + low y) / 2 ^ 32) * 2 ^ 32 + (low x + low y) mod 2 ^ 32)
      by lia.
    rewrite mod_modulus by lia. reflexivity.
  Qed.

  Lemma cmp_ok x y : stored hb x -> stored hb y ->
    (eqb x y = true <-> value x = value y) /\
    (neb x y = true <-> value x <> value y) /\
    (ltb x y = true <-> value x < value y) /\
    (leb x y = true <-> value x <= value y) /\
    (gtb x y = true <-> value x > value y) /\
    (geb x y = true <-> value x >= value y).
  Proof.
    intros [Hl Hh] [Hl' Hh']. unfold eqb, neb, ltb, leb, gtb, geb, value.
    rewrite !orb_true_iff, !andb_true_iff, !negb_true_iff, !Z.eqb_eq, !Z.eqb_neq, !Z.ltb_lt,
      !Z.leb_le, !Z.gtb_lt, !Z.geb_le.
    repeat split; intros; lia.
  Qed.

  Lemma limits_ok :
    stored hb min_up /\ value min_up = 0 /\
    stored hb (max_up hb) /\ value (max_up hb) = modulus hb - 1.
  Proof.
    pose proof pow_hb_pos. rewrite modulus_split.
    unfold stored, value, min_up, max_up, high_max, low_max; cbn [low high]. lia.
  Qed.
End P.
