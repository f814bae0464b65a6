(** Proofs about a run of ksort (IntKsortModel.ksort_run_sort). *)
From Coq Require Import List Bool Arith NArith ZArith Lia Permutation Sorted.
From Verif Require Import SumLib OrderLib IntKsortModel IntKsortProofs.
Import ListNotations.

Section P.
  Variable A : Type.
  Variable w : N.
  Notation entry := (N * A)%type.
  Variable std_sort : list entry -> list entry.
  Hypothesis Hstd : sorts (klt A) std_sort.

  (** the bucket of a key, without overflow *)
  Definition rindex (offset : N) (shift : Z) (e : entry) : nat := N.to_nat ((fst e - offset) / 2 ^ Z.to_N shift).

  Lemma bucket_of_ok offset shift (e : entry) : (0 <= shift < Z.of_N w)%Z -> (offset <= fst e)%N -> (fst e < 2 ^ w)%N ->
    bucket_of w offset shift (fst e) = Some (rindex offset shift e).
  Proof.
    intros Hs Ho Hk. unfold bucket_of, rindex.
    replace (andb (Z.leb 0 shift) (Z.ltb shift (Z.of_N w))) with true by (symmetry; apply andb_true_iff; split; [apply Z.leb_le; lia|apply Z.ltb_lt; lia]).
    f_equal. f_equal. rewrite N.shiftr_div_pow2. f_equal.
    replace (fst e + 2 ^ w - offset)%N with ((fst e - offset) + 1 * 2 ^ w)%N by lia.
    rewrite N.mod_add by (apply N.pow_nonzero; lia). apply N.mod_small. lia.
  Qed.
  Lemma rindex_mono offset shift (x y : entry) : rindex offset shift x < rindex offset shift y -> klt A y x = false.
  Proof.
    unfold rindex, klt. intro H. apply N.ltb_ge. destruct (N.le_gt_cases (fst x) (fst y)) as [|G]; [assumption|exfalso].
    assert ((fst y - offset) / 2 ^ Z.to_N shift <= (fst x - offset) / 2 ^ Z.to_N shift)%N by (apply N.div_le_mono; [apply N.pow_nonzero; lia|lia]). lia.
  Qed.
  Lemma rindex_lt offset shift (e : entry) (K : nat) : (fst e < offset + N.of_nat K * 2 ^ Z.to_N shift)%N -> 0 < K -> rindex offset shift e < K.
  Proof.
    intros H HK. unfold rindex. assert ((fst e - offset) / 2 ^ Z.to_N shift < N.of_nat K)%N; [|lia].
    apply N.div_lt_upper_bound; [apply N.pow_nonzero; lia|]. pose proof (N.pow_nonzero 2 (Z.to_N shift) ltac:(lia)). nia.
  Qed.

  Lemma buckets_loop_ok (idx : entry -> nat) (a : list entry) (refs2 : nat -> entry) cap bucket1 k2 shift1 shift2 n : forall i refs1,
    (forall k, i <= k < i + n -> bucket1 k = starts A idx a (S k)) ->
    (forall k, i <= k < i + n -> slice A refs2 (starts A idx a k) (length (group A idx a k)) = group A idx a k) ->
    starts A idx a (i + n) <= cap ->
    (forall k b base, i <= k < i + n -> base + length (group A idx a k) <= cap ->
       exists b', l1sort A w std_sort (group A idx a k) b base cap k2 (N.shiftl 1 (Z.to_N shift1) * N.of_nat k)%N shift2 = Some b' /\
         Permutation (slice A b' base (length (group A idx a k))) (group A idx a k) /\ sorted (klt A) (slice A b' base (length (group A idx a k))) /\
         (forall j, j < base \/ base + length (group A idx a k) <= j -> b' j = b j)) ->
    exists b', buckets_loop A w std_sort n i refs2 refs1 cap (starts A idx a i) bucket1 k2 shift1 shift2 = Some b' /\
      sorted_groups A idx a i n (slice A b' (starts A idx a i) (starts A idx a (i + n) - starts A idx a i)) /\
      (forall j, j < starts A idx a i -> b' j = refs1 j).
  Proof.
    induction n as [|n IH]; intros i refs1 HB HS HC HL; cbn [buckets_loop].
    - exists refs1. split; [reflexivity|]. split; [|auto]. rewrite Nat.add_0_r, Nat.sub_diag. exists []. split; [reflexivity|]. split; [reflexivity|]. intros [|k] l Hk; discriminate.
    - rewrite HB by lia. cbn [starts]. set (st := starts A idx a) in *. change (starts A idx a i) with (st i) in *.
      assert (st (S i) = st i + length (group A idx a i)) as ES by reflexivity.
      replace (st i + length (group A idx a i) - st i) with (length (group A idx a i)) by lia.
      rewrite HS by lia. pose proof (starts_mono A idx a (S i) (i + S n) ltac:(lia)) as M. fold st in M.
      destruct (HL i refs1 (st i) ltac:(lia) ltac:(lia)) as (b1 & E1 & P1 & S1 & O1). rewrite E1, <- ES.
      destruct (IH (S i) b1) as (b' & E' & F1 & F2).
      + intros k Hk. apply HB. lia.
      + intros k Hk. apply HS. lia.
      + replace (S i + n) with (i + S n) by lia. exact HC.
      + intros k b base Hk. apply HL. lia.
      + change (starts A idx a (S i)) with (st (S i)) in *. exists b'. split; [exact E'|]. split.
        * replace (S i + n) with (i + S n) in F1 by lia. change (starts A idx a (i + S n)) with (st (i + S n)) in *.
          replace (st (i + S n) - st i) with (length (group A idx a i) + (st (i + S n) - st (S i))) by lia.
          rewrite slice_app. replace (st i + length (group A idx a i)) with (st (S i)) by lia.
          assert (slice A b' (st i) (length (group A idx a i)) = slice A b1 (st i) (length (group A idx a i))) as ->.
          { apply slice_ext. intros j Hj. apply F2. lia. }
          apply sorted_groups_cons; assumption.
        * intros j Hj. rewrite F2 by lia. apply O1. lia.
  Qed.

  Lemma log2_up_div n q : 8 <= n -> q * 8 <= n -> 2 <= q -> Nat.log2_up q + 1 <= Nat.log2 n.
  Proof.
    intros H8 Hq H2. pose proof (Nat.log2_up_le_mono q (n / 8)) as M.
    assert (q <= n / 8) as Hd by (apply Nat.div_le_lower_bound; lia). specialize (M Hd).
    assert (Nat.log2_up (n / 8) <= S (Nat.log2 (n / 8))) as U by apply Nat.le_log2_up_succ_log2.
    assert (Nat.log2 (n / 8) + 3 <= Nat.log2 n) as L.
    { assert (n / 8 <> 0) as NZ by (pose proof (Nat.div_str_pos n 8); lia).
      pose proof (Nat.log2_spec (n / 8) ltac:(lia)) as [S1 _]. apply Nat.log2_le_pow2; [lia|]. rewrite Nat.pow_add_r. change (2 ^ 3) with 8.
      pose proof (Nat.mul_div_le n 8 ltac:(lia)). lia. }
    lia.
  Qed.

  Variable key : A -> N.
  Hypothesis Hkey : forall x, (key x < 2 ^ w)%N.
  Definition key_lt (x y : A) : bool := N.ltb (key x) (key y).

  Theorem ksort_run_sort_ok n tk l2 junk l : 4 <= n -> 8 * tk <= l2 -> n * tk / l2 <> 1 -> (Nat.log2 n <= N.to_nat w) -> length l <= n ->
    exists l', ksort_run_sort A w std_sort key n tk l2 junk l = Some l' /\ Permutation l' l /\ sorted key_lt l'.
  Proof.
    intros H4 H8 H1 HW HL. unfold ksort_run_sort. set (q := n * tk / l2) in *. set (q' := if Nat.eqb q 0 then 2 else q).
    assert (2 <= q') as Hq2 by (unfold q'; destruct (Nat.eqb_spec q 0); lia).
    assert (1 <= Nat.log2_up q') as HL1 by (change 1 with (Nat.log2_up 2); apply Nat.log2_up_le_mono; lia).
    assert (Nat.log2_up q' + 1 <= Nat.log2 n) as HL2.
    { unfold q'. destruct (Nat.eqb_spec q 0) as [E|N].
      - change (Nat.log2_up 2 + 1) with (Nat.log2 4). apply Nat.log2_le_mono. lia.
      - assert (l2 <> 0) as NZ by (intro Z; unfold q in N; rewrite Z in N; cbn in N; lia).
        pose proof (Nat.mul_div_le (n * tk) l2 NZ) as D. fold q in D. assert (q * 8 <= n) by nia. apply log2_up_div; lia. }
    set (a1 := Nat.log2_up q') in *. set (a2 := Nat.log2 n - a1 - 1). clearbody q'.
    unfold ilog2_ceil, ilog2_floor. fold a1.
    replace (Z.of_nat (Nat.log2 n) - Z.of_nat a1 - 1)%Z with (Z.of_nat a2) by lia.
    assert (forall x, shl1 (Z.of_nat x) = Some (2 ^ x)) as SH.
    { intro x. unfold shl1. destruct (Z.leb_spec 0 (Z.of_nat x)); [rewrite Nat2Z.id; reflexivity|lia]. }
    rewrite !SH. set (k1 := 2 ^ a1). set (k2 := 2 ^ a2). set (s1 := (Z.of_N w - Z.of_nat a1)%Z). set (s2 := (s1 - Z.of_nat a2)%Z).
    assert (a1 + a2 < N.to_nat w) as HA by (unfold a2; lia).
    assert (0 <= s2 < Z.of_N w)%Z as Hs2 by (unfold s2, s1; lia). assert (0 <= s1 < Z.of_N w)%Z as Hs1 by (unfold s1; lia).
    assert (0 < k1 /\ 0 < k2) as [Hk1 Hk2] by (unfold k1, k2; split; apply Nat.neq_0_lt_0, Nat.pow_nonzero; lia).
    assert (N.of_nat k1 * 2 ^ Z.to_N s1 = 2 ^ w)%N as P1.
    { unfold k1. rewrite Nat2N.inj_pow, <- N.pow_add_r. f_equal. unfold s1. lia. }
    assert (N.of_nat k2 * 2 ^ Z.to_N s2 = 2 ^ Z.to_N s1)%N as P2.
    { unfold k2. rewrite Nat2N.inj_pow, <- N.pow_add_r. f_equal. unfold s2. lia. }
    set (refs := map (fun x => (key x, x)) l). set (idx := rindex 0 s1).
    assert (classified A w idx 0 s1 k1 refs) as C1.
    { intros e He. apply in_map_iff in He. destruct He as (x & <- & Hx). split.
      - apply bucket_of_ok; [exact Hs1|lia|apply Hkey].
      - apply rindex_lt; [|exact Hk1]. cbn [fst]. rewrite P1. apply Hkey. }
    unfold classify_block. fold refs. unfold count. destruct (count_loop_ok A w idx 0 s1 k1 refs (fun _ => 0) C1) as (bk & E1 & B1). rewrite E1.
    assert (length refs = length l) as LR by (unfold refs; apply map_length). rewrite LR.
    destruct (Nat.ltb_spec n (length l)) as [?|_]; [lia|].
    assert (forall i, i < k1 -> exclusive_prefix_sum bk k1 i = starts A idx refs i) as HP.
    { intros i Hi. unfold exclusive_prefix_sum. change 0 with (starts A idx refs 0) at 2. rewrite (prefix_loop_ok A idx refs k1 0 bk) by (intros; apply B1).
      destruct (Nat.leb_spec 0 i), (Nat.ltb_spec i (0 + k1)); try lia. reflexivity. }
    destruct (classify_ok A w idx 0 s1 k1 0 n refs [] junk (exclusive_prefix_sum bk k1)) as (refs2 & bk1 & E2 & F1 & F2 & _); cbn [app] in *.
    { exact C1. } { rewrite LR. cbn. exact HL. } { intros i Hi. rewrite HP by exact Hi. cbn. lia. } { intros i Hi. reflexivity. }
    rewrite E2.
    assert (starts A idx refs k1 = length l) as ST by (rewrite <- LR; apply starts_total; intros e He; apply C1, He).
    destruct (buckets_loop_ok idx refs refs2 n bk1 k2 s1 s2 k1 0 (store A junk 0 refs)) as (b' & E3 & G1 & _).
    - intros k Hk. apply F1. lia.
    - intros k Hk. apply F2. lia.
    - cbn [plus]. rewrite ST. exact HL.
    - intros k b base Hk Hb. rewrite N.shiftl_1_l. apply (l1sort_ok A w std_sort Hstd (rindex (2 ^ Z.to_N s1 * N.of_nat k) s2)).
      + intros e He. apply filter_In in He. destruct He as [He Ei]. apply Nat.eqb_eq in Ei. apply in_map_iff in He. destruct He as (x & <- & Hx).
        unfold idx, rindex in Ei. cbn [fst] in *. rewrite N.sub_0_r in Ei.
        assert (key x / 2 ^ Z.to_N s1 = N.of_nat k)%N as Ek by (apply N2Nat.inj; rewrite Ei, Nat2N.id; reflexivity).
        pose proof (N.div_mod (key x) (2 ^ Z.to_N s1) ltac:(apply N.pow_nonzero; lia)) as DM. rewrite Ek in DM.
        pose proof (N.mod_upper_bound (key x) (2 ^ Z.to_N s1) ltac:(apply N.pow_nonzero; lia)) as MU.
        set (pw := (2 ^ Z.to_N s1)%N) in *. set (rm := (key x mod pw)%N) in *. clearbody rm. assert (pw * N.of_nat k <= key x)%N as LO by (rewrite DM; apply N.le_add_r).
        split.
        * change (key x) with (fst (key x, x)). apply bucket_of_ok; [exact Hs2|exact LO|apply Hkey].
        * apply rindex_lt; [|exact Hk2]. cbn [fst]. rewrite P2, DM. apply N.add_lt_mono_l. exact MU.
      + exact Hb.
      + intros x y _ _. apply rindex_mono.
    - cbn [plus starts] in E3, G1. rewrite E3. rewrite Nat.sub_0_r, ST in G1. eexists. split; [reflexivity|].
      pose proof (sorted_groups_perm _ _ _ _ _ _ G1) as PM. change (concat (map (group A idx refs) (seq 0 k1))) with (groups A idx refs k1) in PM.
      rewrite (groups_perm A idx refs k1) in PM by (intros e He; apply C1, He).
      pose proof (sorted_groups_sorted A idx refs k1 (fun x y _ _ H => rindex_mono 0 s1 x y H) 0 _ G1) as SO.
      set (out := slice A b' 0 (length l)) in *. clearbody out. split.
      + rewrite (Permutation_map snd PM). unfold refs. rewrite map_map. cbn [snd]. rewrite map_id. reflexivity.
      + assert (forall e, In e out -> fst e = key (snd e)) as HK.
        { intros e He. apply (Permutation_in _ PM) in He. apply in_map_iff in He. destruct He as (x & <- & _). reflexivity. }
        clear - SO HK. induction SO as [|e o SO IH FA]; [constructor|]. cbn [map]. constructor.
        * apply IH. intros x Hx. apply HK. right. exact Hx.
        * rewrite Forall_forall in *. intros y Hy. apply in_map_iff in Hy. destruct Hy as (z & <- & Hz). specialize (FA z Hz).
          unfold le, klt in FA. unfold le, key_lt. rewrite <- !HK; [exact FA|left; reflexivity|right; exact Hz].
  Qed.

  Theorem ksort_run_sort_shift n tk l2 junk l : n * tk / l2 = 1 -> l <> [] -> ksort_run_sort A w std_sort key n tk l2 junk l = None.
  Proof.
    intros E HN. unfold ksort_run_sort. rewrite E. cbn [Nat.eqb]. unfold ilog2_ceil. change (Nat.log2_up 1) with 0.
    destruct (shl1 (Z.of_nat 0)); [|reflexivity]. destruct (shl1 _); [|reflexivity].
    unfold classify_block, count. destruct l as [|x l]; [congruence|]. cbn [map count_loop fst].
    unfold bucket_of. replace (Z.ltb (Z.of_N w - Z.of_nat 0) (Z.of_N w)) with false by (symmetry; apply Z.ltb_ge; lia).
    rewrite andb_false_r. reflexivity.
  Qed.
  Theorem ksort_run_sort_small n tk l2 junk l : n < 4 -> l <> [] -> ksort_run_sort A w std_sort key n tk l2 junk l = None.
  Proof.
    intros E HN. destruct (Nat.eq_dec (n * tk / l2) 1) as [E1|N1]; [apply ksort_run_sort_shift; assumption|].
    unfold ksort_run_sort. set (q := n * tk / l2) in *. set (q' := if Nat.eqb q 0 then 2 else q).
    assert (2 <= q') as Hq2 by (unfold q'; destruct (Nat.eqb_spec q 0); lia).
    assert (1 <= Nat.log2_up q') as HL1 by (change 1 with (Nat.log2_up 2); apply Nat.log2_up_le_mono; lia).
    assert (Nat.log2 n <= 1) as H1 by (change 1 with (Nat.log2 3); apply Nat.log2_le_mono; lia).
    unfold shl1 at 2, ilog2_floor, ilog2_ceil. destruct (Z.leb_spec 0 (Z.of_nat (Nat.log2 n) - Z.of_nat (Nat.log2_up q') - 1)); [lia|].
    destruct (shl1 _); reflexivity.
  Qed.
End P.
