(** The bucket of a hash value: [_bkt_num] of
    /repo/include/stxxl/bits/containers/hash_map/hash_map.h 938-945, which computes in
    IEEE doubles (53 significant bits, rounding to nearest, ties to even).

    [(double)max()] is 2^64 exactly, so the division is exact and scales by a
    power of two; rounding commutes with that.  What is left is three roundings
    to 53 bits, of [n], of the hash value and of the product. *)
From Coq Require Import NArith Arith Lia Bool.
Local Open Scope N_scope.

(** Rounding a natural number to 53 bits. *)
Definition rnd53 (x : N) : N :=
  let e := N.size x - 53 in
  let u := 2 ^ e in
  let q := x / u in
  let r := x mod u in
  if 2 * r <? u then q * u
  else if u <? 2 * r then (q + 1) * u
  else if N.even q then q * u else (q + 1) * u.

Definition bkt_num (h n : N) : N := rnd53 (rnd53 n * rnd53 h) / 2 ^ 64.
Definition bkt64 (h : N) (n : nat) : nat := N.to_nat (bkt_num h (N.of_nat n)).

(** ** Rounding *)

Lemma size_le x s : x < 2 ^ s -> N.size x <= s.
Proof.
  intro H. destruct (N.eq_dec x 0) as [->|Z]; [apply N.le_0_l|]. rewrite N.size_log2 by exact Z.
  apply N.le_succ_l. apply N.log2_lt_pow2; lia.
Qed.
Lemma size_gt x : x < 2 ^ N.size x.
Proof. apply N.size_gt. Qed.
Lemma size_low x : 0 < x -> 2 ^ (N.size x - 1) <= x.
Proof.
  intro H. rewrite N.size_log2 by lia. rewrite N.sub_1_r, N.pred_succ. apply N.log2_spec, H.
Qed.

Lemma rnd_down x : (x / 2 ^ (N.size x - 53)) * 2 ^ (N.size x - 53) <= rnd53 x.
Proof. unfold rnd53. cbv zeta. destruct (_ <? _); [lia|]. destruct (_ <? _); [lia|]. destruct (N.even _); lia. Qed.
Lemma rnd_up x : rnd53 x <= (x / 2 ^ (N.size x - 53) + 1) * 2 ^ (N.size x - 53).
Proof. unfold rnd53. cbv zeta. destruct (_ <? _); [lia|]. destruct (_ <? _); [lia|]. destruct (N.even _); lia. Qed.
Lemma rnd_near x : 2 * rnd53 x <= 2 * x + 2 ^ (N.size x - 53).
Proof.
  unfold rnd53. cbv zeta. set (u := 2 ^ (N.size x - 53)).
  assert (U : u <> 0) by (apply N.pow_nonzero; lia). pose proof (N.div_mod x u U) as D. set (q := x / u) in *. set (r := x mod u) in *.
  destruct (N.ltb_spec (2 * r) u); [lia|]. destruct (N.ltb_spec u (2 * r)); [lia|]. destruct (N.even _); lia.
Qed.
Lemma rnd_small x : x < 2 ^ 53 -> rnd53 x = x.
Proof.
  intro H. unfold rnd53. cbv zeta. replace (N.size x - 53) with 0 by (pose proof (size_le x 53 H); lia).
  change (2 ^ 0) with 1. rewrite N.div_1_r, N.mod_1_r. cbn [N.mul N.ltb N.compare]. lia.
Qed.

(** Powers of two are limits that rounding does not cross. *)
Lemma rnd_pow_up x : rnd53 x <= 2 ^ N.size x.
Proof.
  destruct (N.le_gt_cases (N.size x) 53) as [S|S].
  - destruct (N.lt_ge_cases x (2 ^ 53)) as [G|G]; [rewrite rnd_small by exact G; pose proof (size_gt x); lia|].
    pose proof (size_gt x) as Z. assert (2 ^ N.size x <= 2 ^ 53) by (apply N.pow_le_mono_r; lia). lia.
  - eapply N.le_trans; [apply rnd_up|]. set (e := N.size x - 53).
    replace (N.size x) with (53 + e) by lia. rewrite N.pow_add_r.
    apply N.mul_le_mono_r. apply N.le_succ_l in S. rewrite N.add_1_r. apply N.le_succ_l.
    apply N.div_lt_upper_bound; [apply N.pow_nonzero; lia|]. rewrite <- N.pow_add_r. replace (e + 53) with (N.size x) by lia. apply size_gt.
Qed.
Lemma rnd_pow_down x : 0 < x -> 2 ^ (N.size x - 1) <= rnd53 x.
Proof.
  intro P. destruct (N.le_gt_cases (N.size x) 53) as [S|S].
  - rewrite rnd_small; [apply size_low, P|]. eapply N.lt_le_trans; [apply size_gt|]. apply N.pow_le_mono_r; lia.
  - eapply N.le_trans; [|apply rnd_down]. set (e := N.size x - 53).
    replace (N.size x - 1) with (52 + e) by lia. rewrite N.pow_add_r. apply N.mul_le_mono_r.
    apply N.div_le_lower_bound; [apply N.pow_nonzero; lia|]. rewrite <- N.pow_add_r. replace (e + 52) with (N.size x - 1) by lia. apply size_low, P.
Qed.

Lemma rnd_mono a b : a <= b -> rnd53 a <= rnd53 b.
Proof.
  intro H. destruct (N.eq_dec a 0) as [->|A0]; [rewrite (rnd_small 0) by lia; lia|].
  assert (S : N.size a <= N.size b) by (apply size_le; eapply N.le_lt_trans; [exact H|apply size_gt]).
  destruct (N.lt_ge_cases (N.size a) (N.size b)) as [L|G].
  - eapply N.le_trans; [apply rnd_pow_up|]. eapply N.le_trans; [|apply rnd_pow_down; lia]. apply N.pow_le_mono_r; lia.
  - assert (E : N.size a = N.size b) by lia. clear S G.
    set (u := 2 ^ (N.size b - 53)). assert (U : u <> 0) by (apply N.pow_nonzero; lia).
    assert (Q : a / u <= b / u) by (apply N.div_le_mono; assumption).
    destruct (N.lt_ge_cases (a / u) (b / u)) as [L|G].
    + pose proof (rnd_up a) as X. pose proof (rnd_down b) as Y. rewrite E in X. fold u in X, Y.
      eapply N.le_trans; [exact X|]. eapply N.le_trans; [|exact Y]. apply N.mul_le_mono_r. lia.
    + assert (EQ : a / u = b / u) by lia. pose proof (N.div_mod a u U) as Da. pose proof (N.div_mod b u U) as Db.
      unfold rnd53. cbv zeta. rewrite E. fold u. rewrite EQ in *. set (q := b / u) in *. set (ra := a mod u) in *. set (rb := b mod u) in *.
      assert (R : ra <= rb) by lia.
      destruct (N.ltb_spec (2 * ra) u); destruct (N.ltb_spec (2 * rb) u); try lia;
        destruct (N.ltb_spec u (2 * ra)); destruct (N.ltb_spec u (2 * rb)); try lia; destruct (N.even q); lia.
Qed.

(** ** The bucket number *)

Lemma bkt_mono h h' n : h <= h' -> bkt_num h n <= bkt_num h' n.
Proof.
  intro H. unfold bkt_num. apply N.div_le_mono; [apply N.pow_nonzero; lia|]. apply rnd_mono. apply N.mul_le_mono_l. apply rnd_mono, H.
Qed.

Lemma rnd_hash h : h < 2 ^ 64 - 2 ^ 10 -> rnd53 h <= 2 ^ 64 - 2 ^ 11.
Proof.
  intro H. destruct (N.lt_ge_cases h (2 ^ 63)) as [L|G].
  - eapply N.le_trans; [apply rnd_pow_up|]. eapply N.le_trans; [apply (N.pow_le_mono_r 2 _ 63); [lia|apply size_le, L]|]. vm_compute. discriminate.
  - assert (S : N.size h = 64).
    { apply N.le_antisymm; [apply size_le; change (2 ^ 64) with 18446744073709551616 in *; change (2 ^ 10) with 1024 in H; lia|].
      destruct (N.lt_ge_cases (N.size h) 64) as [Z|Z]; [|exact Z]. exfalso. pose proof (size_gt h) as Y.
      assert (2 ^ N.size h <= 2 ^ 63) by (apply N.pow_le_mono_r; lia). lia. }
    unfold rnd53. cbv zeta. rewrite S. change (2 ^ (64 - 53)) with 2048. pose proof (N.div_mod h 2048 ltac:(lia)) as D.
    change (2 ^ 64 - 2 ^ 10) with 18446744073709550592 in H. change (2 ^ 64 - 2 ^ 11) with 18446744073709549568.
    set (q := h / 2048) in *. set (r := h mod 2048) in *.
    assert (R : r < 2048) by (apply N.mod_lt; lia).
    destruct (N.ltb_spec (2 * r) 2048); [lia|]. destruct (N.ltb_spec 2048 (2 * r)); [lia|]. destruct (N.even q); lia.
Qed.

Lemma bkt_lt h n : h < 2 ^ 64 - 2 ^ 10 -> 0 < n -> n < 2 ^ 53 -> bkt_num h n < n.
Proof.
  intros H P L. unfold bkt_num. rewrite (rnd_small n L). apply N.div_lt_upper_bound; [apply N.pow_nonzero; lia|].
  pose proof (rnd_hash h H) as RH. set (h' := rnd53 h) in *.
  set (t := N.size n). pose proof (size_gt n) as Nt. pose proof (size_low n P) as Nl. fold t in Nt, Nl.
  assert (T1 : 1 <= t). { destruct (N.eq_dec t 0) as [Z|]; [|lia]. rewrite Z in Nt. change (2 ^ 0) with 1 in Nt. lia. }
  assert (PB : n * h' + n * 2 ^ 11 <= n * 2 ^ 64).
  { rewrite <- N.mul_add_distr_l. apply N.mul_le_mono_l. change (2 ^ 64 - 2 ^ 11) with 18446744073709549568 in RH.
    change (2 ^ 64) with 18446744073709551616. change (2 ^ 11) with 2048. lia. }
  pose proof (rnd_near (n * h')) as NE. set (x := n * h') in *.
  assert (P2 : 2 ^ t = 2 * 2 ^ (t - 1)). { replace t with (N.succ (t - 1)) at 1 by lia. apply N.pow_succ_r'. }
  assert (U : 2 ^ (N.size x - 53) < 2 * (n * 2 ^ 11) \/ rnd53 x <= x).
  { destruct (N.le_gt_cases (N.size x) 53) as [S|S].
    { right. destruct (N.lt_ge_cases x (2 ^ 53)) as [G|G]; [rewrite rnd_small by exact G; lia|].
      pose proof (size_gt x). assert (2 ^ N.size x <= 2 ^ 53) by (apply N.pow_le_mono_r; lia). lia. }
    left. destruct (N.eq_dec n (2 ^ (t - 1))) as [Z|Z].
    - assert (SX : N.size x <= t - 1 + 64).
      { apply size_le. rewrite N.pow_add_r, <- Z. assert (0 < n * 2 ^ 11) by (apply N.mul_pos_pos; [exact P|reflexivity]). lia. }
      apply N.le_lt_trans with (2 ^ (t - 1 + 11)); [apply N.pow_le_mono_r; lia|]. rewrite N.pow_add_r, <- Z. change (2 ^ 11) with 2048. lia.
    - assert (SX : N.size x <= t + 64).
      { apply size_le. rewrite N.pow_add_r. assert (n * 2 ^ 64 < 2 ^ t * 2 ^ 64) by (apply N.mul_lt_mono_pos_r; [reflexivity|exact Nt]). lia. }
      apply N.le_lt_trans with (2 ^ (t + 11)); [apply N.pow_le_mono_r; lia|]. rewrite N.pow_add_r, P2. change (2 ^ 11) with 2048. lia. }
  rewrite (N.mul_comm (2 ^ 64)). set (b := n * 2 ^ 64) in *. set (d := n * 2 ^ 11) in *.
  assert (D : 0 < d) by (apply N.mul_pos_pos; [exact P|reflexivity]).
  destruct U as [U|U]; lia.
Qed.

(** The last 1024 hash values are one bucket too far. *)
Lemma rnd_hash_high h : 2 ^ 64 - 2 ^ 10 <= h -> h < 2 ^ 64 -> rnd53 h = 2 ^ 64.
Proof.
  change (2 ^ 64 - 2 ^ 10) with 18446744073709550592. change (2 ^ 64) with 18446744073709551616. intros H1 H2.
  assert (S : N.size h = 64).
  { apply N.le_antisymm; [apply size_le; exact H2|].
    destruct (N.lt_ge_cases (N.size h) 64) as [Z|Z]; [|exact Z]. exfalso. pose proof (size_gt h) as Y.
    assert (2 ^ N.size h <= 2 ^ 63) by (apply N.pow_le_mono_r; lia). change (2 ^ 63) with 9223372036854775808 in *. lia. }
  unfold rnd53. cbv zeta. rewrite S. change (2 ^ (64 - 53)) with 2048. pose proof (N.div_mod h 2048 ltac:(lia)) as D.
  set (q := h / 2048) in *. set (r := h mod 2048) in *.
  assert (R : r < 2048) by (apply N.mod_lt; lia).
  assert (Q : q = 9007199254740991) by lia. subst q. rewrite Q in *. cbn [N.even].
  destruct (N.ltb_spec (2 * r) 2048); [lia|]. destruct (N.ltb_spec 2048 (2 * r)); reflexivity.
Qed.
Lemma bkt_high h n : 2 ^ 64 - 2 ^ 10 <= h -> h < 2 ^ 64 -> 0 < n -> n < 2 ^ 53 -> bkt_num h n = n.
Proof.
  intros H1 H2 P L. unfold bkt_num. rewrite (rnd_small n L), (rnd_hash_high h H1 H2).
  assert (E : rnd53 (n * 2 ^ 64) = n * 2 ^ 64).
  { unfold rnd53. cbv zeta.
    assert (S : N.size (n * 2 ^ 64) = N.size n + 64).
    { assert (n * 2 ^ 64 <> 0) by (intro Z; apply N.eq_mul_0 in Z; destruct Z as [Z|Z]; [lia|discriminate]).
      rewrite !N.size_log2 by lia. rewrite N.log2_mul_pow2 by lia. lia. }
    assert (SN : N.size n <= 53) by (apply size_le, L). rewrite S. set (e := N.size n + 64 - 53).
    assert (X : n * 2 ^ 64 = (n * 2 ^ (64 - e)) * 2 ^ e) by (rewrite <- N.mul_assoc, <- N.pow_add_r; f_equal; f_equal; lia).
    rewrite X. rewrite N.div_mul, N.mod_mul by (apply N.pow_nonzero; lia).
    assert (0 < 2 ^ e) by (apply N.neq_0_lt_0, N.pow_nonzero; lia).
    destruct (N.ltb_spec (2 * 0) (2 ^ e)); [reflexivity|lia]. }
  rewrite E. apply N.div_mul. discriminate.
Qed.

Lemma bkt64_mono h h' n : h <= h' -> (bkt64 h n <= bkt64 h' n)%nat.
Proof. intro H. unfold bkt64. pose proof (bkt_mono h h' (N.of_nat n) H). lia. Qed.
Lemma bkt64_lt h n : h < 2 ^ 64 - 2 ^ 10 -> (0 < n)%nat -> N.of_nat n < 2 ^ 53 -> (bkt64 h n < n)%nat.
Proof. intros H1 H2 H3. unfold bkt64. pose proof (bkt_lt h (N.of_nat n) H1 ltac:(lia) H3). lia. Qed.
Lemma bkt64_high h n : 2 ^ 64 - 2 ^ 10 <= h -> h < 2 ^ 64 -> (0 < n)%nat -> N.of_nat n < 2 ^ 53 -> bkt64 h n = n.
Proof. intros H1 H2 H3 H4. unfold bkt64. rewrite bkt_high; [apply Nat2N.id|assumption|assumption|lia|assumption]. Qed.
