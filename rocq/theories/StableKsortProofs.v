From Coq Require Import List Bool Arith NArith ZArith Lia Permutation Sorted.
From Verif Require Import SumLib OrderLib ScanModel IntKsortModel IntKsortProofs IntKsortRunProofs StableKsortModel StableKsortSpec.
Import ListNotations.

Lemma filter_length_le {X Y} (p : X -> bool) (q : Y -> bool) (r : X -> bool) (f : X -> Y) (l : list X) :
  (forall x, In x l -> p x = true -> r x = true /\ q (f x) = true) -> length (filter p l) <= length (filter q (map f (filter r l))).
Proof.
  induction l as [|x l IH]; intro H; [reflexivity|]. cbn [filter]. specialize (IH (fun y Hy => H y (or_intror Hy))). pose proof (H x (or_introl eq_refl)) as Hx.
  destruct (p x).
  - destruct (Hx eq_refl) as [-> Q]. cbn [map filter]. rewrite Q. cbn [length]. lia.
  - destruct (r x); [|exact IH]. cbn [map filter]. destruct (q (f x)); cbn [length]; lia.
Qed.

Section P.
  Variable A : Type.
  Variable w : N.
  Variable std_sort : list (N * A) -> list (N * A).
  Hypothesis Hstd : sorts (klt A) std_sort.
  Variable key : A -> N.
  Hypothesis Hkey : forall x, (key x < 2 ^ w)%N.
  Variables B m nd tk l2 : nat.
  Variable junk : nat -> N * A.
  Hypothesis HB : 0 < B.
  Notation entry := (N * A)%type.
  Notation F := (map (fun x : A => (key x, x))).

  (** ** streams *)
  Lemma times_skip n : forall r : list A, n <= length r -> times n (fun r => obind (get A r) (fun '(_, r) => Some r)) r = Some (skipn n r).
  Proof.
    induction n as [|n IH]; intros r H; [destruct r; reflexivity|]. destruct r as [|x r]; [cbn in H; lia|]. cbn [times get obind skipn]. apply IH. cbn in H. lia.
  Qed.

  Notation bucket := (list (list A) * list A)%type.
  Definition good (b : bucket) (l : list A) : Prop := concat (fst b) ++ snd b = l /\ Forall (fun c => length c = B) (fst b) /\ length (snd b) < B.
  Lemma good_put x b l : good b l -> good (put_bucket A B x b) (l ++ [x]).
  Proof.
    intros (G1 & G2 & G3). unfold put_bucket. destruct (Nat.eqb_spec (length (snd b ++ [x])) B) as [E|E]; unfold good; cbn [fst snd].
    - split; [rewrite concat_app; cbn [concat]; rewrite !app_nil_r, app_assoc, G1; reflexivity|]. split; [|cbn; exact HB]. apply Forall_app. split; [exact G2|constructor; [exact E|constructor]].
    - split; [rewrite app_assoc, G1; reflexivity|]. split; [exact G2|]. rewrite app_length in *. cbn [length] in *. lia.
  Qed.
  Lemma full_blocks (cs : list (list A)) : Forall (fun c => length c = B) cs -> length (concat cs) = B * length cs.
  Proof. induction 1 as [|c cs Hc _ IH]; [cbn; lia|]. cbn [concat length]. rewrite app_length, IH, Hc. lia. Qed.
  Lemma good_size b l : good b l -> bucket_size A B b = length l.
  Proof. intros (G1 & G2 & G3). unfold bucket_size. rewrite <- G1, app_length, (full_blocks _ G2). reflexivity. Qed.
  Lemma good_elements b l : good b l -> l <> [] -> bucket_elements A B b = Some l.
  Proof.
    intros G N. unfold bucket_elements. rewrite (good_size b l G). pose proof G as (G1 & G2 & G3). pose proof (full_blocks _ G2) as L.
    destruct b as [cs c]. cbn [fst snd] in *. unfold bucket_blocks. cbn [fst snd].
    assert (length l = B * length cs + length c) as LL by (rewrite <- G1, app_length; lia).
    destruct c as [|x c].
    - rewrite app_nil_r in *. cbn [length] in LL. rewrite Nat.add_0_r in LL.
      assert ((length l + B - 1) / B = length cs) as E.
      { rewrite LL. replace (B * length cs + B - 1) with (B - 1 + length cs * B) by nia. rewrite Nat.div_add, Nat.div_small by lia. reflexivity. }
      rewrite E. destruct (exists_last (l := cs)) as (cs' & c & ->).
      { intros ->. cbn in G1. congruence. }
      rewrite app_length in *. cbn [length] in *. rewrite Nat.add_sub in *. destruct (Nat.eqb_spec (length cs' + 1) 0); [lia|].
      rewrite nth_error_app2, Nat.sub_diag by lia. cbn [nth_error obind]. apply Forall_app in G2. destruct G2 as [G2 G2']. inversion G2'; subst.
      rewrite firstn_app, Nat.sub_diag, firstn_all. cbn [firstn]. rewrite app_nil_r. rewrite (firstn_all2 c) by (rewrite LL; nia).
      rewrite concat_app. cbn [concat]. rewrite app_nil_r. reflexivity.
    - assert ((length l + B - 1) / B = length cs + 1) as E.
      { rewrite LL. cbn [length] in *. replace (B * length cs + S (length c) + B - 1) with (length c + (length cs + 1) * B) by nia. rewrite Nat.div_add, Nat.div_small by lia. reflexivity. }
      rewrite E, Nat.add_sub. destruct (Nat.eqb_spec (length cs + 1) 0); [lia|].
      rewrite nth_error_app2, Nat.sub_diag by lia. cbn [nth_error obind]. rewrite firstn_app, Nat.sub_diag, firstn_all. cbn [firstn app]. rewrite app_nil_r.
      rewrite (firstn_all2 (x :: c)) by (rewrite LL; nia). rewrite G1. reflexivity.
  Qed.
  Lemma empty_elements b : good b [] -> bucket_elements A B b = None.
  Proof.
    intro G. unfold bucket_elements. rewrite (good_size b [] G). cbn [length]. rewrite Nat.div_small by lia. reflexivity.
  Qed.

  (** ** distribution *)
  Definition index (b : nat) (x : A) : nat := N.to_nat (key x / 2 ^ (w - N.of_nat b)).
  Lemma starting_index b i l : starting A w key b i l = filter (fun x => Nat.eqb (index b x) i) l.
  Proof.
    unfold starting. apply filter_ext. intro x. unfold index.
    destruct (N.eqb_spec (key x / 2 ^ (w - N.of_nat b)) (N.of_nat i)) as [E|E], (Nat.eqb_spec (N.to_nat (key x / 2 ^ (w - N.of_nat b))) i) as [E'|E']; try reflexivity; exfalso.
    - apply E'. rewrite E. apply Nat2N.id.
    - apply E. rewrite <- E'. symmetry. apply N2Nat.id.
  Qed.
  Lemma index_lt b x : b <= N.to_nat w -> index b x < 2 ^ b.
  Proof.
    intro Hb. unfold index. assert (key x / 2 ^ (w - N.of_nat b) < 2 ^ N.of_nat b)%N as H.
    { apply N.div_lt_upper_bound; [apply N.pow_nonzero; lia|]. rewrite <- N.pow_add_r. replace (w - N.of_nat b + N.of_nat b)%N with w by lia. apply Hkey. }
    assert (N.of_nat (2 ^ b) = 2 ^ N.of_nat b)%N as E by (rewrite Nat2N.inj_pow; reflexivity). lia.
  Qed.
  Lemma bucket_index b x : 1 <= b <= N.to_nat w -> bucket_of w 0 (Z.of_N w - Z.of_nat b) (key x) = Some (index b x).
  Proof.
    intro Hb. change (key x) with (fst (key x, x)) at 1. rewrite bucket_of_ok; [|lia|lia|apply Hkey]. unfold rindex, index. cbn [fst]. rewrite N.sub_0_r. do 4 f_equal. lia.
  Qed.
  Lemma distribute_loop_ok lb : 1 <= lb <= N.to_nat w -> forall n r bs, n <= length r ->
    exists bs', distribute_loop A w key B n (Z.of_N w - Z.of_nat lb) (2 ^ lb) r bs = Some bs' /\
      forall i l, good (bs i) l -> good (bs' i) (l ++ starting A w key lb i (firstn n r)).
  Proof.
    intro Hb. induction n as [|n IH]; intros r bs H; cbn [distribute_loop].
    - exists bs. split; [reflexivity|]. intros i l G. cbn. rewrite app_nil_r. exact G.
    - destruct r as [|x r]; [cbn in H; lia|]. cbn [get obind]. rewrite bucket_index by exact Hb. cbn [obind].
      pose proof (index_lt lb x (proj2 Hb)) as Hi. apply Nat.ltb_lt in Hi. rewrite Hi.
      destruct (IH r (upd bs (index lb x) (put_bucket A B x (bs (index lb x))))) as (bs' & E & G); [cbn in H; lia|].
      exists bs'. split; [exact E|]. intros i l Gi. rewrite starting_index in *. cbn [firstn filter]. destruct (Nat.eqb_spec (index lb x) i) as [Ei|Ei].
      + change (x :: ?t) with ([x] ++ t). rewrite app_assoc, <- starting_index. apply G. rewrite <- Ei, upd_same, Ei. apply good_put, Gi.
      + rewrite <- starting_index. apply G. rewrite upd_other by congruence. exact Gi.
  Qed.

  Lemma skipn_skipn_add {X} a b : forall l : list X, skipn a (skipn b l) = skipn (b + a) l.
  Proof. induction b as [|b IH]; intro l; [reflexivity|]. destruct l; [cbn; apply skipn_nil|]. cbn. apply IH. Qed.
  Lemma div_mod_id n : n / B * B + n mod B = n.
  Proof. pose proof (Nat.div_mod n B ltac:(lia)). lia. Qed.
  Lemma stream_ok (v : list A) q first last : length v = q * B -> first < last -> last <= length v -> aligned A B v first last ->
    exists r, open_in A B v (first / B) (last / B + (if Nat.eqb (first mod B) 0 then 0 else 1)) = Some r /\ first mod B <= length r /\
      last - first <= length (skipn (first mod B) r) /\ firstn (last - first) (skipn (first mod B) r) = range A v first last.
  Proof.
    intros Hv H1 H2 [A1 A2]. pose proof (div_mod_id first) as Df. pose proof (div_mod_id last) as Dl.
    pose proof (Nat.mod_upper_bound first B ltac:(lia)) as Mf. pose proof (Nat.mod_upper_bound last B ltac:(lia)) as Ml.
    set (b2 := last / B + (if Nat.eqb (first mod B) 0 then 0 else 1)).
    assert (last <= b2 * B) as L1.
    { unfold b2. destruct (Nat.eqb_spec (first mod B) 0) as [E|E]; [specialize (A1 E); lia|]. nia. }
    assert (b2 * B <= length v) as L2.
    { unfold b2. destruct (Nat.eqb_spec (first mod B) 0) as [E|E]; [lia|]. destruct (Nat.eq_dec (last mod B) 0) as [Z|Z]; [specialize (A2 E Z); nia|].
      assert (last / B < q) as X by (apply Nat.div_lt_upper_bound; [lia|]; destruct (Nat.eq_dec last (q * B)) as [X|X]; [exfalso; apply Z; rewrite X; apply Nat.mod_mul; lia|nia]). nia. }
    assert (first / B < b2) as L3 by nia.
    unfold open_in. fold b2. rewrite (proj2 (Nat.ltb_lt _ _) L3), (proj2 (Nat.leb_le _ _) L2). cbn [andb]. eexists. split; [reflexivity|].
    assert (length (firstn ((b2 - first / B) * B) (skipn (first / B * B) v)) = (b2 - first / B) * B) as LR by (rewrite firstn_length, skipn_length; nia).
    split; [rewrite LR; nia|]. split; [rewrite skipn_length, LR; nia|].
    unfold range. rewrite skipn_firstn_comm, firstn_firstn, Nat.min_l by nia. rewrite skipn_skipn_add. rewrite Df. reflexivity.
  Qed.
  Lemma distribute_ok (v : list A) q first last lb : 1 <= lb <= N.to_nat w -> length v = q * B -> first < last -> last <= length v -> aligned A B v first last ->
    exists bs, distribute A w key B v first last lb = Some bs /\ forall i, good (bs i) (starting A w key lb i (range A v first last)).
  Proof.
    intros Hb Hv H1 H2 HA. destruct (stream_ok v q first last Hv H1 H2 HA) as (r & E & L1 & L2 & ER). unfold distribute. rewrite E. cbn [obind].
    rewrite times_skip by exact L1. cbn [obind].
    destruct (distribute_loop_ok lb Hb (last - first) (skipn (first mod B) r) (fun _ => ([], [])) L2) as (bs & E2 & G). exists bs. split; [exact E2|].
    intro i. rewrite <- ER. apply (G i []). split; [reflexivity|]. split; [constructor|exact HB].
  Qed.

  (** ** sorting of a bucket *)
  Lemma subbuckets_ok (idx : entry -> nat) (a : list entry) (refs2 : nat -> entry) cap bucket1 offset1 shift1 : 2 <= length (group A idx a 0) -> forall n i refs1 out,
    (forall k, i <= k < i + n -> bucket1 k = starts A idx a (S k)) ->
    (forall k, i <= k < i + n -> slice A refs2 (starts A idx a k) (length (group A idx a k)) = group A idx a k) ->
    starts A idx a (i + n) <= cap ->
    (forall k b base c, i <= k < i + n -> base + length (group A idx a k) <= cap -> c <= Nat.log2 cap - 1 ->
       exists b', l1sort A w std_sort (group A idx a k) b base cap (2 ^ c) (offset1 + N.shiftl 1 (Z.to_N shift1) * N.of_nat k)%N (shift1 - Z.of_nat c) = Some b' /\
         Permutation (slice A b' base (length (group A idx a k))) (group A idx a k) /\ sorted (klt A) (slice A b' base (length (group A idx a k)))) ->
    exists es, subbuckets A w std_sort n i refs2 refs1 cap (starts A idx a i) bucket1 offset1 shift1 out = Some (out ++ map snd es) /\ sorted_groups A idx a i n es.
  Proof.
    intro H2. induction n as [|n IH]; intros i refs1 out HBk HS HC HL; cbn [subbuckets].
    - exists []. split; [cbn; rewrite app_nil_r; reflexivity|]. exists []. split; [reflexivity|]. split; [reflexivity|]. intros [|k] l Hk; discriminate.
    - rewrite HBk by lia. set (st := starts A idx a) in *. assert (st (S i) = st i + length (group A idx a i)) as ES by reflexivity.
      assert (2 <= st (S i)) as H2'.
      { pose proof (starts_mono A idx a 1 (S i) ltac:(lia)) as M. cbn [starts] in M. fold st in M. change (starts A idx a i + length (group A idx a i)) with (st (S i)) in M. lia. }
      pose proof (starts_mono A idx a (S i) (i + S n) ltac:(lia)) as M. fold st in M.
      assert (1 <= Nat.log2 (st (S i))) as HL1 by (change 1 with (Nat.log2 2); apply Nat.log2_le_mono; exact H2').
      set (c := Nat.log2 (st (S i)) - 1). assert (ilog2_floor (st (S i)) - 1 = Z.of_nat c)%Z as -> by (unfold ilog2_floor, c; lia).
      unfold shl1. destruct (Z.leb_spec 0 (Z.of_nat c)); [|lia]. rewrite Nat2Z.id. cbn [obind].
      replace (st (S i) - st i) with (length (group A idx a i)) by lia. rewrite HS by lia.
      assert (c <= Nat.log2 cap - 1) as Hc by (unfold c; pose proof (Nat.log2_le_mono (st (S i)) cap ltac:(lia)); lia).
      destruct (HL i refs1 (st i) c ltac:(lia) ltac:(lia) Hc) as (b1 & E1 & P1 & S1). rewrite E1. cbn [obind].
      destruct (IH (S i) b1 (out ++ map snd (slice A b1 (st i) (length (group A idx a i))))) as (es & E2 & SG).
      + intros k Hk. apply HBk. lia.
      + intros k Hk. apply HS. lia.
      + replace (S i + n) with (i + S n) by lia. exact HC.
      + intros k b base c' Hk. apply HL. lia.
      + fold st in E2. exists (slice A b1 (st i) (length (group A idx a i)) ++ es). split.
        * rewrite E2, map_app, app_assoc. reflexivity.
        * apply sorted_groups_cons; assumption.
  Qed.

  Lemma sort_bucket_ok lb b2 max_rec k b (l : list A) : 1 <= lb -> 1 <= b2 -> lb + b2 <= N.to_nat w -> good b l ->
    (forall x, In x l -> index lb x = k) -> 2 <= length (filter (fun x => Nat.eqb (index (lb + b2) x) (k * 2 ^ b2)) l) ->
    length l <= max_rec -> log_k1 tk l2 (length l) = b2 -> log_k1 tk l2 max_rec = b2 -> Nat.log2 max_rec - 1 <= N.to_nat w - lb - b2 ->
    exists l', sort_bucket A w std_sort key B tk l2 junk lb max_rec k b = Some l' /\ Permutation l' l /\ sorted (by_key A key) l'.
  Proof.
    intros Hlb Hb2 HW G Hk H2 HL L1 L2 H3. unfold sort_bucket. rewrite (good_size b l G), L1, L2, Nat.leb_refl.
    assert (l <> []) as HN by (intros ->; cbn in H2; lia). rewrite (good_elements b l G HN). cbn [obind].
    set (sh := (Z.of_N w - Z.of_nat lb)%Z). set (s1 := (sh - Z.of_nat b2)%Z). rewrite N.shiftl_1_l. set (off := (2 ^ Z.to_N sh * N.of_nat k)%N). set (k1 := 2 ^ b2).
    assert (0 <= s1 < Z.of_N w)%Z as Hs1 by (unfold s1, sh; lia).
    assert (2 ^ Z.to_N sh <> 0)%N as NZ by (apply N.pow_nonzero; lia). assert (2 ^ Z.to_N s1 <> 0)%N as NZ1 by (apply N.pow_nonzero; lia).
    assert (N.of_nat k1 * 2 ^ Z.to_N s1 = 2 ^ Z.to_N sh)%N as P1 by (unfold k1; rewrite Nat2N.inj_pow, <- N.pow_add_r; f_equal; unfold s1, sh; lia).
    assert (Z.to_N sh = w - N.of_nat lb)%N as Esh by (unfold sh; lia). assert (Z.to_N s1 = w - N.of_nat (lb + b2))%N as Es1 by (unfold s1, sh; lia).
    assert (0 < k1) as Hk1 by (unfold k1; apply Nat.neq_0_lt_0, Nat.pow_nonzero; lia).
    assert (forall x, In x l -> (off <= key x)%N /\ (key x < off + 2 ^ Z.to_N sh)%N) as HR.
    { intros x Hx. specialize (Hk x Hx). unfold index in Hk. rewrite <- Esh in Hk.
      assert (key x / 2 ^ Z.to_N sh = N.of_nat k)%N as Ek by (rewrite <- Hk; symmetry; apply N2Nat.id).
      pose proof (N.div_mod (key x) (2 ^ Z.to_N sh) NZ) as DM. rewrite Ek in DM. pose proof (N.mod_upper_bound (key x) (2 ^ Z.to_N sh) NZ) as MU. fold off in DM. rewrite DM. split; [apply N.le_add_r|apply N.add_lt_mono_l, MU]. }
    set (refs := F l). set (idx := rindex A off s1).
    assert (classified A w idx off s1 k1 refs) as C1.
    { intros e He. apply in_map_iff in He. destruct He as (x & <- & Hx). destruct (HR x Hx) as [R1 R2]. split.
      - apply bucket_of_ok; [exact Hs1|exact R1|apply Hkey].
      - apply rindex_lt; [|exact Hk1]. cbn [fst]. rewrite P1. exact R2. }
    unfold classify_block. fold refs. unfold count. destruct (count_loop_ok A w idx off s1 k1 refs (fun _ => 0) C1) as (bk & E1 & B1). rewrite E1. cbn [obind].
    assert (length refs = length l) as LR by (unfold refs; apply map_length).
    assert (forall i, i < k1 -> exclusive_prefix_sum bk k1 i = starts A idx refs i) as HP.
    { intros i Hi. unfold exclusive_prefix_sum. change 0 with (starts A idx refs 0) at 2. rewrite (prefix_loop_ok A idx refs k1 0 bk) by (intros; apply B1).
      destruct (Nat.leb_spec 0 i), (Nat.ltb_spec i (0 + k1)); try lia. reflexivity. }
    destruct (classify_ok A w idx off s1 k1 0 max_rec refs [] junk (exclusive_prefix_sum bk k1)) as (refs2 & bk1 & E2 & F1 & F2 & _); cbn [app] in *.
    { exact C1. } { rewrite LR. cbn. exact HL. } { intros i Hi. rewrite HP by exact Hi. cbn. lia. } { intros i Hi. reflexivity. }
    rewrite E2. cbn [obind].
    assert (starts A idx refs k1 = length l) as ST by (rewrite <- LR; apply starts_total; intros e He; apply C1, He).
    destruct (subbuckets_ok idx refs refs2 max_rec bk1 off s1) with (n := k1) (i := 0) (refs1 := store A junk 0 refs) (out := @nil A) as (es & E3 & SG).
    - unfold group. assert (exists p, filter p (F (filter (fun _ => true) l)) = filter (fun e => Nat.eqb (idx e) 0) refs /\ forall x, In x l -> Nat.eqb (index (lb + b2) x) (k * 2 ^ b2) = true -> p (key x, x) = true) as (p & EQ & Hp).
      { exists (fun e => Nat.eqb (idx e) 0). split; [unfold refs; f_equal; f_equal; clear; induction l as [|x l IH]; [reflexivity|cbn; f_equal; exact IH]|].
        intros x Hx Ex. apply Nat.eqb_eq in Ex. unfold index in Ex. rewrite <- Es1 in Ex. unfold idx, rindex. cbn [fst]. apply Nat.eqb_eq.
        assert (key x / 2 ^ Z.to_N s1 = N.of_nat (k * 2 ^ b2))%N as Ek by (rewrite <- Ex; symmetry; apply N2Nat.id).
        assert (off = N.of_nat (k * 2 ^ b2) * 2 ^ Z.to_N s1)%N as Eo by (unfold off; rewrite <- P1; unfold k1; lia).
        pose proof (N.div_mod (key x) (2 ^ Z.to_N s1) NZ1) as DM. rewrite Ek in DM. pose proof (N.mod_upper_bound (key x) (2 ^ Z.to_N s1) NZ1) as MU.
        rewrite N.div_small; [reflexivity|]. rewrite Eo. lia. }
      rewrite <- EQ. etransitivity; [exact H2|]. apply filter_length_le. intros x Hx Ex. split; [reflexivity|apply Hp; assumption].
    - intros i Hi. apply F1. lia.
    - intros i Hi. apply F2. lia.
    - cbn [plus]. rewrite ST. exact HL.
    - intros i b' base c Hi Hb Hc. rewrite N.shiftl_1_l. set (o2 := (off + 2 ^ Z.to_N s1 * N.of_nat i)%N). set (s2 := (s1 - Z.of_nat c)%Z).
      assert (0 <= s2 < Z.of_N w)%Z as Hs2 by (unfold s2, s1, sh; lia).
      assert (0 < 2 ^ c) as Hc0 by (apply Nat.neq_0_lt_0, Nat.pow_nonzero; lia).
      assert (N.of_nat (2 ^ c) * 2 ^ Z.to_N s2 = 2 ^ Z.to_N s1)%N as P2 by (rewrite Nat2N.inj_pow, <- N.pow_add_r; f_equal; unfold s2, s1, sh; lia).
      destruct (l1sort_ok A w std_sort Hstd (rindex A o2 s2) o2 s2 (2 ^ c) (group A idx refs i) b' base max_rec) as (b1 & Q1 & Q2 & Q3 & _).
      + intros e He. apply filter_In in He. destruct He as [He Ei]. apply Nat.eqb_eq in Ei. apply in_map_iff in He. destruct He as (x & <- & Hx).
        destruct (HR x Hx) as [R1 R2]. unfold idx, rindex in Ei. cbn [fst] in *.
        assert ((key x - off) / 2 ^ Z.to_N s1 = N.of_nat i)%N as Ek by (rewrite <- Ei; symmetry; apply N2Nat.id).
        pose proof (N.div_mod (key x - off) (2 ^ Z.to_N s1) NZ1) as DM. rewrite Ek in DM. pose proof (N.mod_upper_bound (key x - off) (2 ^ Z.to_N s1) NZ1) as MU.
        set (rm := ((key x - off) mod 2 ^ Z.to_N s1)%N) in *. clearbody rm.
        split; [change (key x) with (fst (key x, x)); apply bucket_of_ok; [exact Hs2|cbn [fst]; unfold o2; lia|apply Hkey]|].
        apply rindex_lt; [|exact Hc0]. cbn [fst]. rewrite P2. unfold o2. lia.
      + exact Hb.
      + intros x y _ _. apply rindex_mono.
      + exists b1. auto.
    - cbn [plus starts app] in E3. rewrite E3. eexists. split; [reflexivity|].
      pose proof (sorted_groups_perm _ _ _ _ _ _ SG) as PM. change (concat (map (group A idx refs) (seq 0 k1))) with (groups A idx refs k1) in PM.
      rewrite (groups_perm A idx refs k1) in PM by (intros e He; apply C1, He).
      pose proof (sorted_groups_sorted A idx refs k1 (fun x y _ _ H => rindex_mono A off s1 x y H) 0 _ SG) as SO. split.
      + rewrite (Permutation_map snd PM). unfold refs. rewrite map_map. cbn [snd]. rewrite map_id. reflexivity.
      + assert (forall e, In e es -> fst e = key (snd e)) as HK.
        { intros e He. apply (Permutation_in _ PM) in He. apply in_map_iff in He. destruct He as (x & <- & _). reflexivity. }
        clear - SO HK. induction SO as [|e o SO IH FA]; [constructor|]. cbn [map]. constructor.
        * apply IH. intros x Hx. apply HK. right. exact Hx.
        * rewrite Forall_forall in *. intros y Hy. apply in_map_iff in Hy. destruct Hy as (z & <- & Hz). specialize (FA z Hz).
          unfold le, klt in FA. unfold le, by_key. rewrite <- !HK; [exact FA|left; reflexivity|right; exact Hz].
  Qed.

  (** ** all buckets *)
  Lemma sort_buckets_ok lb max_rec bs : forall ks, (forall k, In k ks -> exists l', sort_bucket A w std_sort key B tk l2 junk lb max_rec k (bs k) = Some l' /\ Permutation l' (concat (fst (bs k)) ++ snd (bs k)) /\ sorted (by_key A key) l') ->
    exists ls, sort_buckets A w std_sort key B tk l2 junk ks lb max_rec bs = Some (concat ls) /\ Forall2 (fun k l' => Permutation l' (concat (fst (bs k)) ++ snd (bs k)) /\ sorted (by_key A key) l') ks ls.
  Proof.
    induction ks as [|k ks IH]; intro H; [exists []; split; [reflexivity|constructor]|]. cbn [sort_buckets].
    destruct (H k (or_introl eq_refl)) as (l' & E & P & S). destruct (IH (fun j Hj => H j (or_intror Hj))) as (ls & E2 & F2). rewrite E. cbn [obind]. rewrite E2. cbn [obind].
    exists (l' :: ls). split; [reflexivity|]. constructor; auto.
  Qed.

  Lemma sorted_F l : sorted (by_key A key) l -> sorted (klt A) (F l).
  Proof.
    induction 1 as [|x l S IH FA]; [constructor|]. cbn [map]. constructor; [exact IH|]. rewrite Forall_forall in *. intros e He. apply in_map_iff in He. destruct He as (y & <- & Hy). apply (FA y Hy).
  Qed.
  Lemma sorted_F_inv l : sorted (klt A) (F l) -> sorted (by_key A key) l.
  Proof.
    induction l as [|x l IH]; intro S; [constructor|]. inversion S as [|? ? S' FA]; subst. constructor; [apply IH, S'|]. rewrite Forall_forall in *. intros y Hy. apply (FA (key y, y)). apply in_map_iff. eauto.
  Qed.
  Lemma forall2_nth {X Y} (R : X -> Y -> Prop) l1 l2' : Forall2 R l1 l2' -> forall k y, nth_error l2' k = Some y -> exists x, nth_error l1 k = Some x /\ R x y.
  Proof. induction 1 as [|x y l1 l2' H _ IH]; intros [|k] z E; try discriminate; [injection E as <-; exists x; auto|apply IH, E]. Qed.
  Lemma forall2_len {X Y} (R : X -> Y -> Prop) l1 l2' : Forall2 R l1 l2' -> length l2' = length l1.
  Proof. induction 1; cbn; congruence. Qed.

  Lemma buckets_sorted lb (l : list A) ls : lb <= N.to_nat w ->
    Forall2 (fun k l' => Permutation l' (starting A w key lb k l) /\ sorted (by_key A key) l') (seq 0 (2 ^ lb)) ls ->
    Permutation (concat ls) l /\ sorted (by_key A key) (concat ls).
  Proof.
    intros Hb F2. set (idx := fun e : entry => index lb (snd e)).
    assert (forall k, group A idx (F l) k = F (starting A w key lb k l)) as HG.
    { intro k. rewrite starting_index. unfold group. clear. induction l as [|x l IH]; [reflexivity|]. cbn [map filter]. unfold idx at 1. cbn [snd]. destruct (Nat.eqb (index lb x) k); cbn [map]; rewrite IH; reflexivity. }
    assert (sorted_groups A idx (F l) 0 (2 ^ lb) (F (concat ls))) as SG.
    { exists (map F ls). split; [rewrite map_length, (forall2_len _ _ _ F2); apply seq_length|]. split; [apply concat_map|].
      intros k l' Hk. rewrite nth_error_map in Hk. destruct (nth_error ls k) as [l0|] eqn:E; [|discriminate]. injection Hk as <-.
      destruct (forall2_nth _ _ _ F2 k l0 E) as (j & Ej & P & S). cbn [plus].
      assert (j = k) as -> . { assert (k < 2 ^ lb) as Lk by (rewrite <- (seq_length (2 ^ lb) 0); apply nth_error_Some; congruence). apply (nth_error_nth _ _ 0) in Ej. rewrite seq_nth in Ej by exact Lk. symmetry. exact Ej. }
      rewrite HG. split; [apply Permutation_map, P|apply sorted_F, S]. }
    pose proof (sorted_groups_perm _ _ _ _ _ _ SG) as PM. change (concat (map (group A idx (F l)) (seq 0 (2 ^ lb)))) with (groups A idx (F l) (2 ^ lb)) in PM.
    rewrite groups_perm in PM by (intros e He; apply index_lt, Hb). split.
    - apply (Permutation_map snd) in PM. rewrite !map_map in PM. cbn [snd] in PM. rewrite !map_id in PM. exact PM.
    - apply sorted_F_inv. apply (sorted_groups_sorted A idx (F l) (2 ^ lb)) with (i := 0); [|exact SG].
      intros x y Hx Hy L. apply in_map_iff in Hx, Hy. destruct Hx as (x' & <- & _), Hy as (y' & <- & _). unfold idx, index in L. cbn [snd] in L. unfold klt. cbn [fst]. apply N.ltb_ge.
      destruct (N.le_gt_cases (key x') (key y')) as [|G]; [assumption|exfalso].
      assert (key y' / 2 ^ (w - N.of_nat lb) <= key x' / 2 ^ (w - N.of_nat lb))%N by (apply N.div_le_mono; [apply N.pow_nonzero; lia|lia]). lia.
  Qed.

  Lemma list_max_in (l : list nat) : l <> [] -> In (list_max l) l.
  Proof.
    induction l as [|x l IH]; intro H; [contradiction|]. cbn [list_max fold_right]. change (fold_right Nat.max 0 l) with (list_max l). destruct l as [|y l]; [left; cbn; lia|].
    specialize (IH ltac:(discriminate)). destruct (Nat.max_spec x (list_max (y :: l))) as [[_ ->]|[_ ->]]; [right; exact IH|left; reflexivity].
  Qed.
  Lemma firstn_add_app {X} a b : forall (l : list X), firstn a l ++ firstn b (skipn a l) = firstn (a + b) l.
  Proof. induction a as [|a IH]; intro l; [reflexivity|]. destruct l; [cbn; rewrite firstn_nil; reflexivity|]. cbn. f_equal. apply IH. Qed.

  Lemma range_length (v : list A) first last : last <= length v -> length (range A v first last) = last - first.
  Proof. intro H. unfold range. rewrite firstn_length, skipn_length. lia. Qed.

  (** what is written, given the sorted elements *)
  Lemma close_ok (v : list A) q first last (l : list A) : length v = q * B -> first <= last -> last <= length v -> length l = last - first ->
    (let head := firstn (first mod B) (skipn (first / B * B) v) in
     let tail := if Nat.eqb (last mod B) 0 then [] else firstn (B - last mod B) (skipn (last mod B) (skipn (last / B * B) (flushed A B v (first / B) (head ++ l)))) in
     close_out A B v (first / B) (head ++ l ++ tail)) = Some (firstn first v ++ l ++ skipn last v).
  Proof.
    intros Hv H1 H2 HL. cbv zeta. pose proof (div_mod_id first) as Df. pose proof (div_mod_id last) as Dl.
    pose proof (Nat.mod_upper_bound first B ltac:(lia)) as Mf. pose proof (Nat.mod_upper_bound last B ltac:(lia)) as Ml.
    set (fb := first / B) in *. set (lb := last / B) in *. set (fo := first mod B) in *. set (lo := last mod B) in *.
    set (head := firstn fo (skipn (fb * B) v)). assert (length head = fo) as LH by (unfold head; rewrite firstn_length, skipn_length; lia).
    assert (fb <= lb) as Hfl by (unfold fb, lb; apply Nat.div_le_mono; lia).
    assert (length (head ++ l) / B = lb - fb) as EN.
    { rewrite app_length, LH, HL. replace (fo + (last - first)) with (lo + (lb - fb) * B) by nia. rewrite Nat.div_add, Nat.div_small by lia. reflexivity. }
    assert (skipn (lb * B) (flushed A B v fb (head ++ l)) = skipn (lb * B) v) as EF.
    { unfold flushed. rewrite EN. rewrite app_assoc. rewrite skipn_app.
      assert (length (firstn (fb * B) v ++ firstn ((lb - fb) * B) (head ++ l)) = lb * B) as LX.
      { rewrite app_length, !firstn_length, app_length, LH, HL. nia. }
      rewrite LX, Nat.sub_diag, (skipn_all2 (firstn _ _ ++ _)) by (rewrite LX; apply Nat.le_refl). cbn [app skipn]. f_equal. nia. }
    rewrite EF, skipn_skipn_add, Dl. set (tail := if Nat.eqb lo 0 then [] else firstn (B - lo) (skipn last v)).
    assert (firstn (fb * B) v ++ head = firstn first v) as E1 by (unfold head; rewrite firstn_add_app, Df; reflexivity).
    assert (last + length tail <= length v /\ exists c, fo + (last - first) + length tail = c * B) as [LT (c & LC)].
    { unfold tail. destruct (Nat.eqb_spec lo 0) as [Z|Z].
      - cbn [length]. split; [lia|]. exists (lb - fb). nia.
      - assert (lb < q) as Q by (apply Nat.div_lt_upper_bound; [lia|]; destruct (Nat.eq_dec last (q * B)) as [X|X]; [exfalso; apply Z; unfold lo; rewrite X; apply Nat.mod_mul; lia|nia]).
        rewrite firstn_length, skipn_length, Nat.min_l by nia. split; [nia|]. exists (lb + 1 - fb). nia. }
    assert (tail ++ skipn (last + length tail) v = skipn last v) as E2.
    { unfold tail at 1. unfold tail in LT. unfold tail. destruct (Nat.eqb lo 0); [cbn [length app]; rewrite Nat.add_0_r; reflexivity|].
      rewrite <- skipn_skipn_add. assert (length (firstn (B - lo) (skipn last v)) <= B - lo) as LE by apply firstn_le_length.
      destruct (Nat.eq_dec (length (firstn (B - lo) (skipn last v))) (B - lo)) as [EQ|NE]; [rewrite EQ; apply firstn_skipn|].
      rewrite firstn_length in *. rewrite Nat.min_r by lia. rewrite skipn_all, firstn_all2 by lia. apply app_nil_r. }
    unfold close_out. rewrite !app_length, LH, HL.
    replace (fo + (last - first + length tail)) with (c * B) by lia. rewrite Nat.mod_mul by lia.
    destruct (Nat.leb_spec (fb * B + c * B) (length v)); [|lia]. cbn [Nat.eqb andb]. f_equal.
    replace (fb * B + c * B) with (last + length tail) by lia. rewrite app_assoc, app_assoc, app_assoc, E1. rewrite <- !app_assoc. rewrite E2. reflexivity.
  Qed.

  Theorem stable_ksort_ok (v : list A) q first last b2 : 4 * nd + 2 <= m -> length v = q * B -> first < last -> last <= length v -> aligned A B v first last ->
    even A w key B m nd tk l2 (range A v first last) b2 ->
    exists l', stable_ksort A w std_sort key B m nd tk l2 junk v first last = Some (firstn first v ++ l' ++ skipn last v) /\
      Permutation l' (range A v first last) /\ sorted (by_key A key) l'.
  Proof.
    intros Hm Hv H1 H2 HA (Hb & HW & HE). unfold stable_ksort. destruct (Nat.ltb_spec m (4 * nd + 2)); [lia|].
    change (Nat.log2 (m - 4 * nd)) with (first_bits m nd). set (lb := first_bits m nd) in *.
    assert (1 <= lb) as Hlb by (apply (Nat.log2_le_mono 2 (m - 4 * nd)); lia).
    destruct (distribute_ok v q first last lb ltac:(lia) Hv H1 H2 HA) as (bs & E & G). rewrite E. cbn [obind].
    set (l := range A v first last) in *. set (nb := 2 ^ lb) in *.
    assert (forall k, bucket_size A B (bs k) = length (starting A w key lb k l)) as HS by (intro k; apply good_size, G).
    assert (existsb (fun k => Nat.ltb ((m - 2 * nd) / 2 * B) (bucket_size A B (bs k))) (seq 0 nb) = false) as ->.
    { apply not_true_iff_false. intro X. apply existsb_exists in X. destruct X as (k & Hk & X). apply in_seq in Hk. apply Nat.ltb_lt in X. rewrite HS in X.
      destruct (HE k ltac:(lia)) as (Y & _). lia. }
    set (mr := list_max (map (fun k => bucket_size A B (bs k)) (seq 0 nb))).
    assert (0 < nb) as Hnb by (unfold nb; apply Nat.neq_0_lt_0, Nat.pow_nonzero; lia).
    assert (exists k0, k0 < nb /\ mr = length (starting A w key lb k0 l)) as (k0 & Hk0 & Emr).
    { assert (In mr (map (fun k => bucket_size A B (bs k)) (seq 0 nb))) as X by (apply list_max_in; destruct nb; [lia|discriminate]).
      apply in_map_iff in X. destruct X as (k & X & Hk). apply in_seq in Hk. exists k. split; [lia|]. rewrite <- X. apply HS. }
    assert (forall k, k < nb -> length (starting A w key lb k l) <= mr) as Hmax.
    { intros k Hk. rewrite <- HS. unfold mr. pose proof (proj1 (list_max_le (map (fun k => bucket_size A B (bs k)) (seq 0 nb)) _) (Nat.le_refl _)) as X.
      rewrite Forall_forall in X. apply X. apply in_map_iff. exists k. split; [reflexivity|apply in_seq; lia]. }
    destruct (sort_buckets_ok lb mr bs (seq 0 nb)) as (ls & E2 & F2).
    { intros k Hk. apply in_seq in Hk. pose proof (G k) as Gk. destruct Gk as (Gc & _). rewrite Gc.
      destruct (HE k ltac:(lia)) as (Y1 & Y2 & Y3 & Y4). destruct (HE k0 Hk0) as (Z1 & Z2 & Z3 & Z4). rewrite <- Emr in *.
      apply (sort_bucket_ok lb b2 mr k (bs k) (starting A w key lb k l)); try assumption.
      - apply G.
      - intros x Hx. rewrite starting_index in Hx. apply filter_In in Hx. apply Nat.eqb_eq, Hx.
      - rewrite starting_index. etransitivity; [exact Y3|]. rewrite starting_index. rewrite <- (map_id (filter (fun x => Nat.eqb (index lb x) k) l)). apply filter_length_le.
        intros x Hx Ex. split; [|exact Ex]. apply Nat.eqb_eq in Ex. apply Nat.eqb_eq. unfold index in *.
        assert (key x / 2 ^ (w - N.of_nat (lb + b2)) = N.of_nat (k * 2 ^ b2))%N as Ek by (rewrite <- Ex; symmetry; apply N2Nat.id).
        assert (2 ^ (w - N.of_nat lb) = 2 ^ (w - N.of_nat (lb + b2)) * 2 ^ N.of_nat b2)%N as EP by (rewrite <- N.pow_add_r; f_equal; lia).
        rewrite EP, <- N.div_div by (apply N.pow_nonzero; lia). rewrite Ek, Nat2N.inj_mul, Nat2N.inj_pow. change (N.of_nat 2) with 2%N. rewrite N.div_mul by (apply N.pow_nonzero; lia). apply Nat2N.id.
      - apply Hmax. lia. }
    rewrite E2. cbn [obind].
    destruct (buckets_sorted lb l ls) as [P S]; [lia| |].
    { clear - F2 G. fold nb. induction F2 as [|k l' ks ls [X Y] F2 IH]; constructor; [|exact IH]. split; [|exact Y]. destruct (G k) as (<- & _). exact X. }
    exists (concat ls). split; [|split; assumption].
    apply (close_ok v q first last (concat ls) Hv); [lia|exact H2|]. rewrite (Permutation_length P). apply range_length, H2.
  Qed.

  (** an empty bucket *)
  Theorem stable_ksort_empty (v : list A) q first last k : 4 * nd + 2 <= m -> first_bits m nd <= N.to_nat w -> length v = q * B -> first < last -> last <= length v -> aligned A B v first last ->
    k < 2 ^ first_bits m nd -> starting A w key (first_bits m nd) k (range A v first last) = [] ->
    stable_ksort A w std_sort key B m nd tk l2 junk v first last = None.
  Proof.
    intros Hm HW Hv H1 H2 HA Hk HE. unfold stable_ksort. destruct (Nat.ltb_spec m (4 * nd + 2)); [lia|].
    change (Nat.log2 (m - 4 * nd)) with (first_bits m nd). set (lb := first_bits m nd) in *.
    assert (1 <= lb) as Hlb by (apply (Nat.log2_le_mono 2 (m - 4 * nd)); lia).
    destruct (distribute_ok v q first last lb ltac:(lia) Hv H1 H2 HA) as (bs & E & G). rewrite E. cbn [obind]. destruct (existsb _ _); [reflexivity|].
    specialize (G k). rewrite HE in G.
    assert (forall mr ks, In k ks -> sort_buckets A w std_sort key B tk l2 junk ks lb mr bs = None) as X.
    { intros mr ks Hin. induction ks as [|j ks IH]; [destruct Hin|]. cbn [sort_buckets]. destruct Hin as [->|Hin].
      - unfold sort_bucket. rewrite (empty_elements _ G). destruct (Nat.leb _ _); reflexivity.
      - destruct (sort_bucket A w std_sort key B tk l2 junk lb mr j (bs j)); [|reflexivity]. cbn [obind]. rewrite IH by exact Hin. reflexivity. }
    rewrite X; [reflexivity|]. apply in_seq. lia.
  Qed.
  (** a range from the start of a block to the middle of one *)
  Lemma distribute_loop_short lb : forall n r bs, length r < n -> distribute_loop A w key B n (Z.of_N w - Z.of_nat lb) (2 ^ lb) r bs = None.
  Proof.
    induction n as [|n IH]; intros r bs H; [lia|]. destruct r as [|x r]; [reflexivity|]. cbn [distribute_loop get obind]. destruct (bucket_of _ _ _ _); [|reflexivity]. cbn [obind].
    destruct (Nat.ltb _ _); [|reflexivity]. apply IH. cbn in H. lia.
  Qed.
  Theorem stable_ksort_unaligned (v : list A) first last : first mod B = 0 -> last mod B <> 0 -> first <= last -> stable_ksort A w std_sort key B m nd tk l2 junk v first last = None.
  Proof.
    intros Z1 Z2 H. unfold stable_ksort. destruct (Nat.ltb _ _); [reflexivity|]. unfold distribute. rewrite Z1. cbn [Nat.eqb]. rewrite Nat.add_0_r.
    unfold open_in. destruct (Nat.ltb (first / B) (last / B) && Nat.leb (last / B * B) (length v)) eqn:E; [|reflexivity].
    apply andb_true_iff in E. destruct E as [E1 E2]. apply Nat.ltb_lt in E1. apply Nat.leb_le in E2. cbn [obind times]. rewrite distribute_loop_short; [reflexivity|].
    rewrite firstn_length. pose proof (div_mod_id first) as Df. pose proof (div_mod_id last) as Dl. nia.
  Qed.
End P.
