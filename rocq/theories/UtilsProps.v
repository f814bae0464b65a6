(** C66: the integer helpers.  C67: longhash1 maps different keys to different values. *)
From Coq Require Import ZArith Lia.
From Verif Require Import MultiseqModel MultiseqProofs UtilsModel UtilsProofs.
Open Scope Z_scope.

Theorem C66_ilog2_floor : forall i, 0 < i < 2 ^ 64 -> exists p, ilog2_floor i = Some p /\ 0 <= p /\ 2 ^ p <= i < 2 ^ (p + 1).
Proof.
  intros i H. exists (Z.log2 i). split; [apply ilog2_floor_ok; exact H|]. split; [apply Z.log2_nonneg|]. replace (Z.log2 i + 1) with (Z.succ (Z.log2 i)) by lia. apply Z.log2_spec. lia.
Qed.
Theorem C66_ilog2_ceil : forall i, 0 < i < 2 ^ 64 -> exists p, ilog2_ceil i = Some p /\ 0 <= p /\ i <= 2 ^ p /\ 2 ^ p < 2 * i.
Proof.
  intros i H. exists (Z.log2_up i). split; [apply ilog2_ceil_ok; exact H|]. split; [apply Z.log2_up_nonneg|]. destruct (Z.eq_dec i 1) as [-> |N]; [cbn; lia|].
  pose proof (Z.log2_up_spec i ltac:(lia)) as [L U]. split; [exact U|]. assert (0 < Z.log2_up i) as P by (apply Z.log2_up_pos; lia).
  replace (Z.log2_up i) with (Z.succ (Z.pred (Z.log2_up i))) by lia. rewrite Z.pow_succ_r by lia. lia.
Qed.
Theorem C66_div_ceil : forall n d, 0 <= n < 2 ^ 64 -> 0 < d -> exists q, div_ceil n d = Some q /\ q * d >= n /\ (q - 1) * d < n.
Proof. exact div_ceil_ok. Qed.
Theorem C66_round_up : forall n, 1 <= n <= 2 ^ 62 -> exists k, 0 <= k /\ round_up_to_power_of_two n = 2 ^ k /\ n <= 2 ^ k < 2 * n.
Proof. intros n H. destruct (round_up_ok n H) as (k & H1 & H2 & H3). exists k. repeat split; lia || assumption. Qed.
Theorem C66_round_up_multiple : forall n p, 0 <= p < 64 -> 0 <= n -> n + 2 ^ p <= 2 ^ 64 ->
  exists k, round_up_to_multiple n p = k * 2 ^ p /\ n <= k * 2 ^ p < n + 2 ^ p.
Proof. exact round_up_to_multiple_ok. Qed.
Example C66_ex : ilog2_floor 1000000 = Some 19 /\ ilog2_ceil 1000000 = Some 20 /\ div_ceil 17 4 = Some 5 /\
  round_up_to_power_of_two 1000 = 1024 /\ round_up_to_multiple 48 4 = 48 /\ round_up_to_multiple 49 5 = 64.
Proof. repeat split; vm_compute; reflexivity. Qed.

Theorem C67_longhash1 : forall x y, 0 <= x < 2 ^ 64 -> 0 <= y < 2 ^ 64 -> x <> y ->
  longhash1 x <> longhash1 y /\ 0 <= longhash1 x < 2 ^ 64.
Proof. intros x y Hx Hy N. split; [|apply longhash1_u64]. intro E. apply N. apply (longhash1_inj x y Hx Hy E). Qed.
Example C67_ex : longhash1 1 <> longhash1 2.
Proof. vm_compute. discriminate. Qed.

Print Assumptions C66_ilog2_floor.
Print Assumptions C66_ilog2_ceil.
Print Assumptions C66_div_ceil.
Print Assumptions C66_round_up.
Print Assumptions C66_round_up_multiple.
Print Assumptions C67_longhash1.
