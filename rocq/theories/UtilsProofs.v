From Coq Require Import Bool ZArith Lia Znumtheory.
From Verif Require Import UtilsModel.
Open Scope Z_scope.

Lemma ilog2_bytes_ok fuel : forall i p, 0 < i < 2 ^ (8 * (1 + Z.of_nat fuel)) -> exists j q, ilog2_bytes fuel i p = Some (j, q) /\ 0 < j < 256 /\ q + Z.log2 j = p + Z.log2 i.
Proof.
  induction fuel as [|fuel IH]; intros i p Hi; cbn [ilog2_bytes]; destruct (Z.leb_spec 256 i) as [H|H].
  - cbn in Hi. lia.
  - exists i, p. split; [reflexivity|]. lia.
  - assert (0 < Z.shiftr i 8) as P. { rewrite Z.shiftr_div_pow2 by lia. apply Z.div_str_pos. lia. }
    assert (Z.shiftr i 8 < 2 ^ (8 * (1 + Z.of_nat fuel))) as P2.
    { rewrite Z.shiftr_div_pow2 by lia. apply Z.div_lt_upper_bound; [lia|]. rewrite <- Z.pow_add_r by lia. replace (8 + 8 * (1 + Z.of_nat fuel)) with (8 * (1 + Z.of_nat (S fuel))) by lia. lia. }
    destruct (IH (Z.shiftr i 8) (p + 8) (conj P P2)) as (j & q & E & Hj & HL). exists j, q. split; [exact E|]. split; [exact Hj|]. rewrite HL.
    rewrite Z.log2_shiftr by lia. pose proof (Z.log2_le_mono 256 i H) as L. change (Z.log2 256) with 8 in L. lia.
  - exists i, p. split; [reflexivity|]. lia.
Qed.
Lemma ilog2_bits_ok fuel : forall i p, 0 <= i < 2 ^ (1 + Z.of_nat fuel) -> ilog2_bits fuel i p = Some (p + Z.log2 i).
Proof.
  induction fuel as [|fuel IH]; intros i p Hi; cbn [ilog2_bits]; destruct (Z.eqb_spec (Z.shiftr i 1) 0) as [H|H].
  - rewrite Z.shiftr_div_pow2 in H by lia. change (2 ^ 1) with 2 in H. assert (i = 0 \/ i = 1) as [-> | ->] by (pose proof (Z.div_mod i 2); pose proof (Z.mod_pos_bound i 2); lia); cbn; f_equal; lia.
  - exfalso. apply H. rewrite Z.shiftr_div_pow2 by lia. change (2 ^ 1) with 2. cbn in Hi. apply Z.div_small. lia.
  - rewrite Z.shiftr_div_pow2 in H by lia. change (2 ^ 1) with 2 in H. assert (i = 0 \/ i = 1) as [-> | ->] by (pose proof (Z.div_mod i 2); pose proof (Z.mod_pos_bound i 2); lia); cbn; f_equal; lia.
  - assert (2 <= i). { rewrite Z.shiftr_div_pow2 in H by lia. change (2 ^ 1) with 2 in H. destruct (Z_lt_ge_dec i 2); [exfalso; apply H; apply Z.div_small; lia|lia]. }
    rewrite IH.
    + rewrite Z.log2_shiftr by lia. pose proof (Z.log2_le_mono 2 i ltac:(lia)) as L. change (Z.log2 2) with 1 in L. f_equal. lia.
    + split; [rewrite Z.shiftr_div_pow2 by lia; apply Z.div_pos; lia|]. rewrite Z.shiftr_div_pow2 by lia. apply Z.div_lt_upper_bound; [lia|]. rewrite <- Z.pow_add_r by lia. replace (1 + (1 + Z.of_nat fuel)) with (1 + Z.of_nat (S fuel)) by lia. lia.
Qed.
Theorem ilog2_floor_ok i : 0 < i < 2 ^ 64 -> ilog2_floor i = Some (Z.log2 i).
Proof.
  intro H. unfold ilog2_floor. destruct (ilog2_bytes_ok 64 i 0) as (j & q & -> & Hj & HL); [split; [lia|]; apply (Z.lt_le_trans _ (2 ^ 64)); [lia|]; apply Z.pow_le_mono_r; lia|].
  rewrite ilog2_bits_ok; [f_equal; lia|]. split; [lia|]. apply (Z.lt_le_trans _ (2 ^ 8)); [lia|]. apply Z.pow_le_mono_r; lia.
Qed.
Theorem ilog2_ceil_ok i : 0 < i < 2 ^ 64 -> ilog2_ceil i = Some (Z.log2_up i).
Proof.
  intro H. unfold ilog2_ceil. destruct (Z.leb_spec i 1) as [H1|H1]; [assert (i = 1) as -> by lia; reflexivity|].
  rewrite ilog2_floor_ok by lia. rewrite Z.log2_up_eqn by lia. replace (Z.pred i) with (i - 1) by lia. rewrite <- Z.add_1_r. reflexivity.
Qed.

Theorem div_ceil_ok n d : 0 <= n < 2 ^ 64 -> 0 < d -> exists q, div_ceil n d = Some q /\ q * d >= n /\ (q - 1) * d < n.
Proof.
  intros Hn Hd. unfold div_ceil. destruct (Z.eqb_spec d 0); [lia|]. eexists. split; [reflexivity|].
  pose proof (Z.div_mod n d ltac:(lia)) as E. pose proof (Z.mod_pos_bound n d Hd) as M. pose proof (Z.div_pos n d ltac:(lia) Hd) as P.
  assert (n / d + (if n mod d =? 0 then 0 else 1) <= n) as U.
  { destruct (Z.eqb_spec (n mod d) 0); [pose proof (Z.div_le_upper_bound n d n ltac:(lia)); nia|]. assert (d <> 1) by (intros ->; rewrite Z.mod_1_r in *; lia). assert (n / d * 2 <= n / d * d) by nia. nia. }
  unfold w64. rewrite Z.mod_small; [|destruct (Z.eqb_spec (n mod d) 0); lia]. destruct (Z.eqb_spec (n mod d) 0); nia.
Qed.
Theorem round_up_to_multiple_ok n p : 0 <= p < 64 -> 0 <= n -> n + 2 ^ p <= 2 ^ 64 -> exists k, round_up_to_multiple n p = k * 2 ^ p /\ n <= k * 2 ^ p < n + 2 ^ p.
Proof.
  intros Hp Hn HB. unfold round_up_to_multiple. rewrite Z.shiftl_1_l. replace (2 ^ p - 1) with (Z.ones p) by (rewrite Z.ones_equiv; lia). rewrite Z.land_ones by lia.
  pose proof (Z.pow_pos_nonneg 2 p ltac:(lia) ltac:(lia)) as PP. pose proof (Z.div_mod n (2 ^ p) ltac:(lia)) as E. pose proof (Z.mod_pos_bound n (2 ^ p) PP) as M.
  destruct (Z.eqb_spec (n mod 2 ^ p) 0) as [Z0|NZ].
  - exists (n / 2 ^ p). lia.
  - assert (Z.land n (2 ^ 64 - 1 - Z.ones p) = n / 2 ^ p * 2 ^ p) as ->.
    { replace (2 ^ 64 - 1 - Z.ones p) with (Z.ldiff (Z.ones 64) (Z.ones p)).
      - rewrite <- Z.shiftr_div_pow2, <- Z.shiftl_mul_pow2 by lia. apply Z.bits_inj'. intros i Hi. rewrite Z.land_spec, Z.ldiff_spec.
        destruct (Z_lt_ge_dec i p).
        + rewrite (Z.ones_spec_low p) by lia. rewrite Z.shiftl_spec_low by lia. cbn. rewrite ?andb_false_r. reflexivity.
        + rewrite (Z.ones_spec_high p) by lia. rewrite Z.shiftl_spec by lia. rewrite Z.shiftr_spec by lia. replace (i - p + p) with i by lia. cbn [negb]. rewrite andb_true_r.
          destruct (Z_lt_ge_dec i 64); [rewrite Z.ones_spec_low by lia; rewrite andb_true_r; reflexivity|]. rewrite Z.ones_spec_high by lia. rewrite andb_false_r. symmetry.
          destruct (Z.eq_dec n 0) as [-> |]; [apply Z.testbit_0_l|]. apply Z.bits_above_log2; [lia|]. apply Z.log2_lt_pow2; [lia|]. apply (Z.lt_le_trans _ (2 ^ 64)); [lia|]. apply Z.pow_le_mono_r; lia.
      - rewrite <- Z.sub_nocarry_ldiff; [rewrite (Z.ones_equiv 64); lia|].
        apply Z.bits_inj'. intros i Hi. rewrite Z.ldiff_spec, Z.bits_0. destruct (Z_lt_ge_dec i p); [rewrite !Z.ones_spec_low by lia; reflexivity|rewrite (Z.ones_spec_high p) by lia; reflexivity]. }
    unfold w64. assert (n / 2 ^ p * 2 ^ p + 2 ^ p <= 2 ^ 64) as UB.
    { assert (2 ^ 64 = 2 ^ (64 - p) * 2 ^ p) as EP by (rewrite <- Z.pow_add_r by lia; f_equal; lia). set (q := n / 2 ^ p) in *. set (r := 2 ^ (64 - p)) in *. set (w := 2 ^ p) in *. set (N := 2 ^ 64) in *. clearbody q r w N. nia. }
    destruct (Z.eq_dec (n / 2 ^ p * 2 ^ p + 2 ^ p) (2 ^ 64)) as [E1|N1].
    + exfalso. assert (n + 2 ^ p > n / 2 ^ p * 2 ^ p + 2 ^ p) by lia. lia.
    + rewrite Z.mod_small by (pose proof (Z.div_pos n (2 ^ p) Hn PP); nia). exists (n / 2 ^ p + 1). lia.
Qed.

(** * longhash1 *)
Definition u64 (x : Z) : Prop := 0 <= x < 2 ^ 64.
Lemma w64_u64 x : u64 (w64 x).
Proof. unfold u64, w64. apply Z.mod_pos_bound. lia. Qed.
Lemma u64_eq x y : u64 x -> u64 y -> (2 ^ 64 | x - y) -> x = y.
Proof. unfold u64. intros Hx Hy [k Hk]. change (2 ^ 64) with 18446744073709551616 in *. assert (k = 0) by lia. lia. Qed.
Lemma w64_eq x y : w64 x = w64 y -> (2 ^ 64 | x - y).
Proof. unfold w64. intro H. apply Z.mod_divide; [lia|]. rewrite Zminus_mod, H, Z.sub_diag. reflexivity. Qed.
Lemma add_not_eq s x : 0 <= s -> add_not s x = w64 (x * (1 - 2 ^ s) - 1).
Proof.
  intro Hs. unfold add_not, not64, w64. rewrite Z.shiftl_mul_pow2 by lia. replace (x + (2 ^ 64 - 1 - (x * 2 ^ s) mod 2 ^ 64)) with (x - 1 - (x * 2 ^ s) mod 2 ^ 64 + 1 * 2 ^ 64) by lia.
  rewrite Z.mod_add by lia. rewrite Zminus_mod_idemp_r. f_equal. ring.
Qed.
Lemma add_shift_eq s x : 0 <= s -> add_shift s x = w64 (x * (1 + 2 ^ s)).
Proof. intro Hs. unfold add_shift, w64. rewrite Z.shiftl_mul_pow2 by lia. rewrite Zplus_mod_idemp_r. f_equal. ring. Qed.
Lemma add_not_inj s x y : 0 <= s -> Z.gcd (2 ^ 64) (1 - 2 ^ s) = 1 -> u64 x -> u64 y -> add_not s x = add_not s y -> x = y.
Proof.
  intros Hs G Hx Hy E. rewrite !add_not_eq in E by exact Hs. apply w64_eq in E. replace (x * (1 - 2 ^ s) - 1 - (y * (1 - 2 ^ s) - 1)) with ((1 - 2 ^ s) * (x - y)) in E by ring.
  apply u64_eq; [exact Hx|exact Hy|]. apply (Gauss _ (1 - 2 ^ s)); [exact E|]. apply Zgcd_1_rel_prime. exact G.
Qed.
Lemma add_shift_inj s x y : 0 <= s -> Z.gcd (2 ^ 64) (1 + 2 ^ s) = 1 -> u64 x -> u64 y -> add_shift s x = add_shift s y -> x = y.
Proof.
  intros Hs G Hx Hy E. rewrite !add_shift_eq in E by exact Hs. apply w64_eq in E. replace (x * (1 + 2 ^ s) - y * (1 + 2 ^ s)) with ((1 + 2 ^ s) * (x - y)) in E by ring.
  apply u64_eq; [exact Hx|exact Hy|]. apply (Gauss _ (1 + 2 ^ s)); [exact E|]. apply Zgcd_1_rel_prime. exact G.
Qed.
Lemma xor_shift_u64 s x : 0 <= s -> u64 x -> u64 (xor_shift s x).
Proof.
  unfold u64, xor_shift. intros Hs [H1 H2]. assert (0 <= Z.shiftr x s) as P by (apply Z.shiftr_nonneg; exact H1). split; [apply Z.lxor_nonneg; tauto|].
  assert (Z.shiftr x s <= x) as L by (rewrite Z.shiftr_div_pow2 by lia; apply Z.div_le_upper_bound; [apply Z.pow_pos_nonneg; lia|]; pose proof (Z.pow_pos_nonneg 2 s); nia).
  destruct (Z.eq_dec (Z.lxor x (Z.shiftr x s)) 0) as [-> |N]; [lia|]. assert (0 <= Z.lxor x (Z.shiftr x s)) by (apply Z.lxor_nonneg; tauto). apply Z.log2_lt_pow2; [lia|].
  apply (Z.le_lt_trans _ (Z.max (Z.log2 x) (Z.log2 (Z.shiftr x s)))); [apply Z.log2_lxor; assumption|].
  pose proof (Z.log2_le_mono _ _ L). assert (Z.log2 x < 64); [|lia]. destruct (Z.eq_dec x 0) as [-> |]; [cbn; lia|]. apply Z.log2_lt_pow2; lia.
Qed.
Lemma xor_shift_inj s x y : 0 < s -> u64 x -> u64 y -> xor_shift s x = xor_shift s y -> x = y.
Proof.
  unfold u64, xor_shift. intros Hs Hx Hy E. apply Z.lxor_eq. set (d := Z.lxor x y).
  assert (0 <= d) as Hd by (apply Z.lxor_nonneg; lia).
  assert (d = Z.shiftr d s) as ED.
  { unfold d. rewrite Z.shiftr_lxor. apply Z.lxor_eq. apply Z.bits_inj'. intros i Hi. assert (Z.testbit (Z.lxor x (Z.shiftr x s)) i = Z.testbit (Z.lxor y (Z.shiftr y s)) i) as B by (rewrite E; reflexivity).
    rewrite !Z.lxor_spec in *. rewrite Z.bits_0. destruct (Z.testbit x i), (Z.testbit y i), (Z.testbit (Z.shiftr x s) i), (Z.testbit (Z.shiftr y s) i); cbn in *; congruence. }
  destruct (Z.eq_dec d 0) as [|N]; [assumption|]. exfalso. rewrite Z.shiftr_div_pow2 in ED by lia. assert (d / 2 ^ s < d) by (apply Z.div_lt; [lia|]; apply Z.pow_gt_1; lia). lia.
Qed.
Theorem longhash1_inj x y : u64 x -> u64 y -> longhash1 x = longhash1 y -> x = y.
Proof.
  intros Hx Hy. unfold longhash1. intro E.
  assert (forall s z, u64 (add_not s z)) as UN by (intros; apply w64_u64). assert (forall s z, u64 (add_shift s z)) as US by (intros; apply w64_u64).
  apply xor_shift_inj in E; [|lia|apply UN|apply UN]. apply add_not_inj in E; [|lia|vm_compute; reflexivity|apply xor_shift_u64; [lia|apply US]|apply xor_shift_u64; [lia|apply US]].
  apply xor_shift_inj in E; [|lia|apply US|apply US]. apply add_shift_inj in E; [|lia|vm_compute; reflexivity|apply xor_shift_u64; [lia|apply UN]|apply xor_shift_u64; [lia|apply UN]].
  apply xor_shift_inj in E; [|lia|apply UN|apply UN]. apply add_not_inj in E; [|lia|vm_compute; reflexivity|apply xor_shift_u64; [lia|apply UN]|apply xor_shift_u64; [lia|apply UN]].
  apply xor_shift_inj in E; [|lia|apply UN|apply UN]. apply add_not_inj in E; [exact E|lia|vm_compute; reflexivity|exact Hx|exact Hy].
Qed.
Theorem longhash1_u64 x : u64 (longhash1 x).
Proof. unfold longhash1. apply xor_shift_u64; [lia|]. apply w64_u64. Qed.
