From Coq Require Import ZArith List Bool Lia.
From Verif Require Import BinBufModel BinBufSpec.
Import ListNotations.
Open Scope Z_scope.

(** * Bit facts *)
Lemma lor_shift a b k : 0 <= k -> 0 <= a < 2 ^ k -> Z.lor a (Z.shiftl b k) = a + b * 2 ^ k.
Proof.
  intros Hk Ha. rewrite Z.shiftl_mul_pow2 by lia.
  assert (E : Z.land a (b * 2 ^ k) = 0).
  { apply Z.bits_inj'. intros n Hn. rewrite Z.land_spec, Z.bits_0.
    destruct (Z.ltb_spec n k).
    - rewrite Z.mul_pow2_bits_low by lia. apply andb_false_r.
    - rewrite <- (Z.mod_small a (2 ^ k)) by lia. rewrite Z.mod_pow2_bits_high by lia. reflexivity. }
  rewrite <- Z.lxor_lor by exact E. symmetry. apply Z.add_nocarry_lxor. exact E.
Qed.

Lemma land127 z : Z.land z 127 = z mod 128.
Proof. change 127 with (Z.ones 7). rewrite Z.land_ones by lia. reflexivity. Qed.

Lemma last7_eq v s : 0 <= s -> last7 v s = (v / 2 ^ s) mod 128.
Proof.
  intros. unfold last7. rewrite land127, Z.shiftr_div_pow2 by lia.
  apply Z.mod_small. pose proof (Z.mod_pos_bound (v / 2 ^ s) 128); lia.
Qed.

Lemma cont_eq v s : 0 <= s -> cont v s = (v / 2 ^ s) mod 128 + 128.
Proof.
  intros. unfold cont. rewrite land127, Z.shiftr_div_pow2 by lia.
  pose proof (Z.mod_pos_bound (v / 2 ^ s) 128 ltac:(lia)).
  change 128 with (Z.shiftl 1 7) at 2. rewrite lor_shift by lia.
  rewrite Z.mod_small by lia. lia.
Qed.

(** exhaustive facts about bytes *)
Lemma byte_cases (P : Z -> bool) :
  forallb P (map Z.of_nat (seq 0 256)) = true -> forall b, is_byte b -> P b = true.
Proof.
  intros H b Hb. rewrite forallb_forall in H. apply H.
  apply in_map_iff. exists (Z.to_nat b). unfold is_byte in Hb. split; [lia|].
  apply in_seq. lia.
Qed.

Lemma has_cont_byte b : is_byte b -> has_cont b = (128 <=? b).
Proof.
  intros Hb. apply eqb_prop.
  apply (byte_cases (fun b => Bool.eqb (has_cont b) (128 <=? b))); [vm_compute; reflexivity|exact Hb].
Qed.
Lemma land240_byte b : is_byte b -> (Z.land b 240 =? 0) = (b <? 16).
Proof.
  intros Hb. apply eqb_prop.
  apply (byte_cases (fun b => Bool.eqb (Z.land b 240 =? 0) (b <? 16))); [vm_compute; reflexivity|exact Hb].
Qed.
Lemma land254_byte b : is_byte b -> (Z.land b 254 =? 0) = (b <? 2).
Proof.
  intros Hb. apply eqb_prop.
  apply (byte_cases (fun b => Bool.eqb (Z.land b 254 =? 0) (b <? 2))); [vm_compute; reflexivity|exact Hb].
Qed.

(** * The encoder as a recursion *)
Fixpoint enc (n : nat) (v : Z) : list Z :=
  match n with
  | O => [v mod 128]
  | S n' => if v <? 128 then [v] else (v mod 128 + 128) :: enc n' (v / 128)
  end.

Lemma enc_facts n : forall v, 0 <= v < 128 ^ (Z.of_nat n + 1) ->
  well_terminated (enc n v) /\ varint_value (enc n v) = v /\ bytes (enc n v) /\
  (1 <= length (enc n v) <= S n)%nat /\
  (length (enc n v) = 1%nat \/ 128 ^ (Z.of_nat (length (enc n v)) - 1) <= v) /\
  v < 128 ^ Z.of_nat (length (enc n v)).
Proof.
  induction n as [|n IH]; intros v Hv.
  - change (128 ^ (Z.of_nat 0 + 1)) with 128 in Hv.
    cbn [enc well_terminated varint_value length]. rewrite !(Z.mod_small v 128) by lia.
    split; [lia|]. split; [lia|].
    split; [constructor; [unfold is_byte; lia|constructor]|].
    split; [lia|]. split; [left; reflexivity|]. change (128 ^ Z.of_nat 1) with 128. lia.
  - cbn [enc]. destruct (Z.ltb_spec v 128).
    + cbn [well_terminated varint_value length]. rewrite !(Z.mod_small v 128) by lia.
      split; [lia|]. split; [lia|].
      split; [constructor; [unfold is_byte; lia|constructor]|].
      split; [lia|]. split; [left; reflexivity|]. change (128 ^ Z.of_nat 1) with 128. lia.
    + assert (Hq : 0 <= v / 128 < 128 ^ (Z.of_nat n + 1)).
      { split; [apply Z.div_pos; lia|]. apply Z.div_lt_upper_bound; [lia|].
        replace (Z.of_nat (S n) + 1) with (Z.succ (Z.of_nat n + 1)) in Hv by lia.
        rewrite Z.pow_succ_r in Hv by lia. lia. }
      destruct (IH _ Hq) as (W & V & B & L & LL & LU).
      pose proof (Z.mod_pos_bound v 128 ltac:(lia)).
      pose proof (Z.div_mod v 128 ltac:(lia)) as DM.
      assert (Hne : enc n (v / 128) <> []) by (destruct (enc n (v / 128)); cbn in L; [lia|discriminate]).
      repeat split.
      * destruct (enc n (v / 128)) eqn:E; [congruence|]. cbn [well_terminated]. split; [lia|exact W].
      * cbn [varint_value]. rewrite V.
        replace (v mod 128 + 128) with (v mod 128 + 1 * 128) by lia.
        rewrite Z.mod_add by lia. rewrite Z.mod_mod by lia. lia.
      * constructor; [unfold is_byte; lia|exact B].
      * cbn [length]. lia.
      * cbn [length]. lia.
      * right. cbn [length]. replace (Z.of_nat (S (length (enc n (v / 128)))) - 1)
          with (Z.succ (Z.of_nat (length (enc n (v / 128))) - 1)) by lia.
        destruct LL as [E1|E1].
        -- rewrite E1. change (128 ^ Z.succ (Z.of_nat 1 - 1)) with 128. lia.
        -- rewrite Z.pow_succ_r by lia.
           pose proof (Z.mul_div_le v 128 ltac:(lia)). nia.
      * cbn [length]. rewrite Nat2Z.inj_succ, Z.pow_succ_r by lia. nia.
Qed.

Lemma div_pow v s : 0 <= s -> v / 2 ^ (7 + s) = (v / 128) / 2 ^ s.
Proof.
  intros. rewrite Z.pow_add_r by lia. change (2 ^ 7) with 128.
  rewrite Z.div_div by lia. reflexivity.
Qed.

(** the i-th group of the encoder in terms of iterated division *)
Lemma cont_shift v s : 0 <= s -> cont v (7 + s) = cont (v / 128) s.
Proof. intros. rewrite !cont_eq by lia. now rewrite div_pow. Qed.
Lemma last7_shift v s : 0 <= s -> last7 v (7 + s) = last7 (v / 128) s.
Proof. intros. rewrite !last7_eq by lia. now rewrite div_pow. Qed.
Lemma cont0 v : cont v 0 = v mod 128 + 128.
Proof. rewrite cont_eq by lia. change (2 ^ 0) with 1. now rewrite Z.div_1_r. Qed.
Lemma last0 v : last7 v 0 = v mod 128.
Proof. rewrite last7_eq by lia. change (2 ^ 0) with 1. now rewrite Z.div_1_r. Qed.

Fixpoint groups (n : nat) (v : Z) : list Z :=
  match n with O => [v mod 128] | S n' => (v mod 128 + 128) :: groups n' (v / 128) end.

Lemma enc_groups n : forall k v, (k <= n)%nat -> 0 <= v ->
  v < 128 ^ (Z.of_nat k + 1) -> (k = O \/ 128 ^ Z.of_nat k <= v) -> enc n v = groups k v.
Proof.
  induction n as [|n IH]; intros k v Hk H0 Hu Hl.
  - assert (k = O) by lia. subst. reflexivity.
  - cbn [enc]. destruct k as [|k].
    + change (128 ^ (Z.of_nat 0 + 1)) with 128 in Hu. destruct (Z.ltb_spec v 128); [|lia].
      cbn [groups]. rewrite Z.mod_small by lia. reflexivity.
    + destruct Hl as [Hl|Hl]; [lia|].
      assert (128 ^ 1 <= 128 ^ Z.of_nat (S k)) by (apply Z.pow_le_mono_r; lia).
      change (128 ^ 1) with 128 in H. destruct (Z.ltb_spec v 128); [lia|].
      cbn [groups]. f_equal. apply IH; [lia|apply Z.div_pos; lia| |].
      * apply Z.div_lt_upper_bound; [lia|].
        replace (Z.of_nat (S k) + 1) with (Z.succ (Z.of_nat k + 1)) in Hu by lia.
        rewrite Z.pow_succ_r in Hu by lia. lia.
      * destruct k; [left; reflexivity|right].
        apply Z.div_le_lower_bound; [lia|].
        rewrite Nat2Z.inj_succ, Z.pow_succ_r in Hl by lia. lia.
Qed.

Ltac split_groups :=
  repeat match goal with
  | |- context [cont ?v ?s] =>
      match s with
      | 0 => rewrite (cont0 v)
      | _ => let s' := eval vm_compute in (s - 7) in
             replace (cont v s) with (cont (v / 128) s')
               by (symmetry; apply (cont_shift v s'); lia)
      end
  | |- context [last7 ?v ?s] =>
      match s with
      | 0 => rewrite (last0 v)
      | _ => let s' := eval vm_compute in (s - 7) in
             replace (last7 v s) with (last7 (v / 128) s')
               by (symmetry; apply (last7_shift v s'); lia)
      end
  end.

Lemma varint32_enc v : 0 <= v < 2 ^ 32 -> varint32_bytes v = enc 4 v.
Proof.
  intros Hv. unfold varint32_bytes.
  repeat match goal with |- context [?a <? ?b] => destruct (Z.ltb_spec a b) end.
  - rewrite (enc_groups 4 0) by (cbn; lia). cbn [groups]. rewrite !Z.mod_small by lia. reflexivity.
  - rewrite (enc_groups 4 1) by (cbn; lia). split_groups. reflexivity.
  - rewrite (enc_groups 4 2) by (cbn; lia). split_groups. reflexivity.
  - rewrite (enc_groups 4 3) by (cbn; lia). split_groups. reflexivity.
  - rewrite (enc_groups 4 4) by (cbn; lia). split_groups. reflexivity.
Qed.

Lemma varint64_enc v : 0 <= v < 2 ^ 64 -> varint64_bytes v = enc 9 v.
Proof.
  intros Hv. unfold varint64_bytes.
  repeat match goal with |- context [?a <? ?b] => destruct (Z.ltb_spec a b) end.
  - rewrite (enc_groups 9 0) by (cbn; lia). cbn [groups]. rewrite !Z.mod_small by lia. reflexivity.
  - rewrite (enc_groups 9 1) by (cbn; lia). split_groups. reflexivity.
  - rewrite (enc_groups 9 2) by (cbn; lia). split_groups. reflexivity.
  - rewrite (enc_groups 9 3) by (cbn; lia). split_groups. reflexivity.
  - rewrite (enc_groups 9 4) by (cbn; lia). split_groups. reflexivity.
  - rewrite (enc_groups 9 5) by (cbn; lia). split_groups. reflexivity.
  - rewrite (enc_groups 9 6) by (cbn; lia). split_groups. reflexivity.
  - rewrite (enc_groups 9 7) by (cbn; lia). split_groups. reflexivity.
  - rewrite (enc_groups 9 8) by (cbn; lia). split_groups. reflexivity.
  - rewrite (enc_groups 9 9) by (cbn; lia). split_groups. reflexivity.
Qed.

(** * The decoder as a recursion *)
Fixpoint dec (n : nat) (w mask : Z) (v s : Z) (r : reader) : res (Z * reader) :=
  bind (get 1 r) (fun '(u, r) =>
  match n with
  | O => if negb (Z.land u mask =? 0) then Overflow
         else Ok ((Z.lor v (Z.shiftl (Z.land u 127) s)) mod 2 ^ w, r)
  | S n' =>
      let v := (Z.lor v (Z.shiftl (Z.land u 127) s)) mod 2 ^ w in
      if negb (has_cont u) then Ok (v, r) else dec n' w mask v (s + 7) r
  end).

(** a reader position: [pre] consumed, [rest] still to come *)
Definition at_pos (pre rest : list Z) : reader := Rd (pre ++ rest) (Z.of_nat (length pre)).

Lemma get1_nil pre : Z.of_nat (length pre) < 2 ^ 63 -> get 1 (at_pos pre []) = Underflow.
Proof.
  intros H. unfold get, check_available, cursor_available, at_pos, rsize; cbn [curr rdata].
  rewrite app_nil_r. rewrite Z.mod_small by lia.
  destruct (Z.leb_spec (Z.of_nat (length pre) + Z.of_nat 1) (Z.of_nat (length pre))); [lia|reflexivity].
Qed.

Lemma get1_cons pre b rest : Z.of_nat (length (pre ++ b :: rest)) < 2 ^ 63 ->
  get 1 (at_pos pre (b :: rest)) = Ok (b, at_pos (pre ++ [b]) rest).
Proof.
  intros H. rewrite app_length in H. cbn [length] in H.
  unfold get, check_available, cursor_available, fetch, at_pos, rsize, set_curr; cbn [curr rdata].
  rewrite !app_length. cbn [length]. rewrite !Z.mod_small by lia.
  destruct (Z.leb_spec (Z.of_nat (length pre) + Z.of_nat 1) (Z.of_nat (length pre + S (length rest))));
    [|lia]. cbn [bind].
  destruct (Z.leb_spec 0 (Z.of_nat (length pre))); [|lia]. cbn [andb bind].
  rewrite !Nat2Z.id. rewrite skipn_app, skipn_all, Nat.sub_diag. cbn [app skipn firstn le_value].
  rewrite <- app_assoc. cbn [app]. do 3 f_equal; lia.
Qed.

Lemma or_step w v u s : 0 <= s -> 0 <= v < 2 ^ s -> is_byte u -> s + 7 <= w ->
  (Z.lor v (Z.shiftl (Z.land u 127) s)) mod 2 ^ w = v + 2 ^ s * (u mod 128) /\
  0 <= v + 2 ^ s * (u mod 128) < 2 ^ (s + 7).
Proof.
  intros Hs Hv Hu Hw. rewrite land127, lor_shift by lia.
  pose proof (Z.mod_pos_bound u 128 ltac:(lia)).
  assert (E : 2 ^ (s + 7) = 2 ^ s * 128) by (rewrite Z.pow_add_r by lia; reflexivity).
  assert (0 < 2 ^ s) by (apply Z.pow_pos_nonneg; lia).
  assert (2 ^ (s + 7) <= 2 ^ w) by (apply Z.pow_le_mono_r; lia).
  rewrite Z.mod_small by nia. split; nia.
Qed.

Definition mask_ok (lim mask : Z) : Prop :=
  2 <= lim <= 16 /\ forall b, is_byte b -> (Z.land b mask =? 0) = (b <? lim).

(** what the first bytes of a stream say *)
Definition dec_post (n : nat) (w lim v s : Z) (pre rest : list Z)
  (x : res (Z * reader)) : Prop :=
  match x with
  | Ok (v', r') => exists l suf, rest = l ++ suf /\ r' = at_pos (pre ++ l) suf /\
      well_terminated l /\ (length l <= S n)%nat /\
      v' = v + 2 ^ s * varint_value l /\ 0 <= v' < 2 ^ w
  | Underflow => (length rest <= n)%nat /\ Forall (fun b => 128 <= b < 256) rest
  | Overflow => exists l b suf, rest = l ++ b :: suf /\ length l = n /\
      Forall (fun b => 128 <= b < 256) l /\ lim <= b
  | OutOfBounds => False
  end.

Lemma dec_ok w lim mask (Hm : mask_ok lim mask) n : forall v s pre rest,
  0 <= s -> 0 <= v < 2 ^ s -> s + 7 * Z.of_nat n < w -> 2 ^ w = 2 ^ (s + 7 * Z.of_nat n) * lim ->
  bytes rest -> Z.of_nat (length (pre ++ rest)) < 2 ^ 63 ->
  dec_post n w lim v s pre rest (dec n w mask v s (at_pos pre rest)).
Proof.
  destruct Hm as [Hlim Hmask].
  induction n as [|n IH]; intros v s pre rest Hs Hv Hw Hlw Hb Hlen.
  - cbn [dec]. destruct rest as [|b rest].
    + rewrite app_nil_r in Hlen. rewrite get1_nil by lia. cbn. split; [lia|constructor].
    + rewrite get1_cons by exact Hlen. cbn [bind]. inversion_clear Hb as [|? ? Hb1 Hb2].
      rewrite Hmask by assumption. destruct (Z.ltb_spec b lim); cbn [negb].
      * cbn. exists [b], rest. cbn [well_terminated varint_value length app].
        unfold is_byte in Hb1. repeat split; try lia.
        -- rewrite land127, lor_shift by lia.
           replace (s + 7 * Z.of_nat 0) with s in Hlw by lia.
           rewrite (Z.mod_small b 128) by lia. rewrite Z.mod_small by nia. nia.
        -- apply Z.mod_pos_bound. apply Z.pow_pos_nonneg; lia.
        -- apply Z.mod_pos_bound. apply Z.pow_pos_nonneg; lia.
      * cbn. exists [], b, rest. repeat split; auto.
  - cbn [dec]. destruct rest as [|b rest].
    + rewrite app_nil_r in Hlen. rewrite get1_nil by lia. cbn. split; [lia|constructor].
    + rewrite get1_cons by exact Hlen. cbn [bind]. inversion_clear Hb as [|? ? Hb1 Hb2].
      destruct (or_step w v b s Hs Hv Hb1 ltac:(lia)) as [E R].
      rewrite E. rewrite has_cont_byte by assumption. unfold is_byte in Hb1.
      destruct (Z.leb_spec 128 b); cbn [negb].
      * specialize (IH (v + 2 ^ s * (b mod 128)) (s + 7) (pre ++ [b]) rest ltac:(lia) R
           ltac:(lia)).
        specialize (IH ltac:(rewrite Hlw; f_equal; f_equal; lia) Hb2).
        specialize (IH ltac:(rewrite <- app_assoc; exact Hlen)).
        destruct (dec n w mask (v + 2 ^ s * (b mod 128)) (s + 7) (at_pos (pre ++ [b]) rest))
          as [[v' r']| | |]; cbn [dec_post] in IH |- *.
        -- destruct IH as (l & suf & E1 & E2 & W & L & E3 & R3).
           exists (b :: l), suf. cbn [app length]. split; [congruence|].
           rewrite <- app_assoc in E2. split; [exact E2|].
           split; [|split; [lia|split; [|exact R3]]].
           ++ destruct l; [destruct W|]. cbn [well_terminated]. split; [lia|exact W].
           ++ cbn [varint_value]. rewrite E3. rewrite Z.pow_add_r by lia. change (2 ^ 7) with 128. ring.
        -- destruct IH as [L F]. cbn [length]. split; [lia|constructor; [lia|exact F]].
        -- destruct IH as (l & b' & suf & E1 & L & F & B).
           exists (b :: l), b', suf. cbn [app length]. repeat split; [congruence|lia| |exact B].
           constructor; [lia|exact F].
        -- exact IH.
      * cbn. exists [b], rest. cbn [well_terminated varint_value length app].
        repeat split; try lia.
        assert (2 ^ (s + 7) <= 2 ^ w) by (apply Z.pow_le_mono_r; lia). lia.
Qed.

Lemma get1_value pre rest b r : bytes rest -> Z.of_nat (length (pre ++ rest)) < 2 ^ 63 ->
  get 1 (at_pos pre rest) = Ok (b, r) -> is_byte b.
Proof.
  intros Hb Hl E. destruct rest as [|x rest].
  - rewrite app_nil_r in Hl. rewrite get1_nil in E by lia. discriminate.
  - rewrite get1_cons in E by exact Hl. inversion E; subst. inversion_clear Hb. assumption.
Qed.

Lemma dec_first w b : 7 <= w -> is_byte b ->
  (Z.lor 0 (Z.shiftl (Z.land b 127) 0)) mod 2 ^ w = Z.land b 127.
Proof.
  intros Hw Hb. rewrite Z.lor_0_l, Z.shiftl_0_r, land127.
  apply Z.mod_small. pose proof (Z.mod_pos_bound b 128 ltac:(lia)).
  assert (2 ^ 7 <= 2 ^ w) by (apply Z.pow_le_mono_r; lia). change (2 ^ 7) with 128 in *. lia.
Qed.

Lemma get_varint_dec pre rest : bytes rest -> Z.of_nat (length (pre ++ rest)) < 2 ^ 63 ->
  get_varint (at_pos pre rest) = dec 4 32 240 0 0 (at_pos pre rest).
Proof.
  intros Hb Hl. unfold get_varint. cbn [dec].
  destruct (get 1 (at_pos pre rest)) as [[b r]| | |] eqn:E; cbn [bind]; try reflexivity.
  pose proof (get1_value _ _ _ _ Hb Hl E) as B.
  rewrite dec_first by (assumption || lia). rewrite has_cont_byte by assumption.
  unfold is_byte in B. destruct (Z.leb_spec 128 b); cbn [negb]; [reflexivity|].
  rewrite land127, Z.mod_small by lia. reflexivity.
Qed.

Lemma get_varint64_dec pre rest : bytes rest -> Z.of_nat (length (pre ++ rest)) < 2 ^ 63 ->
  get_varint64 (at_pos pre rest) = dec 9 64 254 0 0 (at_pos pre rest).
Proof.
  intros Hb Hl. unfold get_varint64. cbn [dec].
  destruct (get 1 (at_pos pre rest)) as [[b r]| | |] eqn:E; cbn [bind]; try reflexivity.
  pose proof (get1_value _ _ _ _ Hb Hl E) as B.
  rewrite dec_first by (assumption || lia). rewrite has_cont_byte by assumption.
  unfold is_byte in B. destruct (Z.leb_spec 128 b); cbn [negb]; [reflexivity|].
  rewrite land127, Z.mod_small by lia. reflexivity.
Qed.

Lemma mask32 : mask_ok 16 240. Proof. split; [lia|exact land240_byte]. Qed.
Lemma mask64 : mask_ok 2 254. Proof. split; [lia|exact land254_byte]. Qed.

Lemma get_varint_post pre rest : bytes rest -> Z.of_nat (length (pre ++ rest)) < 2 ^ 63 ->
  dec_post 4 32 16 0 0 pre rest (get_varint (at_pos pre rest)).
Proof.
  intros Hb Hl. rewrite get_varint_dec by assumption.
  apply dec_ok; try assumption; try lia. exact mask32.
Qed.
Lemma get_varint64_post pre rest : bytes rest -> Z.of_nat (length (pre ++ rest)) < 2 ^ 63 ->
  dec_post 9 64 2 0 0 pre rest (get_varint64 (at_pos pre rest)).
Proof.
  intros Hb Hl. rewrite get_varint64_dec by assumption.
  apply dec_ok; try assumption; try lia. exact mask64.
Qed.

(** well-terminated strings are prefix-free *)
Lemma wt_prefix l : forall l' s s', well_terminated l -> well_terminated l' ->
  l ++ s = l' ++ s' -> l = l' /\ s = s'.
Proof.
  induction l as [|b l IH]; intros l' s s' W W' E; [destruct W|].
  destruct l' as [|b' l']; [destruct W'|]. cbn in E. inversion E as [[E1 E2]]; subst b'.
  destruct l as [|c l], l' as [|c' l'].
  - cbn in E2. subst. auto.
  - cbn in W, W'. destruct W'; lia.
  - cbn in W, W'. destruct W; lia.
  - destruct W as [_ W], W' as [_ W']. destruct (IH _ _ _ W W' E2) as [-> ->]. auto.
Qed.

Lemma varint_value_bound l : well_terminated l -> 0 <= varint_value l < 128 ^ Z.of_nat (length l).
Proof.
  induction l as [|b l IH]; intros W; [destruct W|].
  pose proof (Z.mod_pos_bound b 128 ltac:(lia)).
  cbn [varint_value length]. rewrite Nat2Z.inj_succ, Z.pow_succ_r by lia.
  destruct l as [|c l]; [cbn; lia|]. destruct W as [_ W]. specialize (IH W). lia.
Qed.

Lemma varint_value_last l b : well_terminated (l ++ [b]) ->
  128 ^ Z.of_nat (length l) * b <= varint_value (l ++ [b]).
Proof.
  induction l as [|c l IH]; intros W.
  - cbn in W |- *. rewrite Z.mod_small by lia. destruct b; lia.
  - cbn [app] in W |- *. cbn [length varint_value]. rewrite Nat2Z.inj_succ, Z.pow_succ_r by lia.
    assert (W' : well_terminated (l ++ [b])) by (destruct (l ++ [b]) eqn:E; [destruct l; discriminate|destruct W as [_ W]; exact W]).
    specialize (IH W'). pose proof (Z.mod_pos_bound c 128 ltac:(lia)). nia.
Qed.

Lemma wt_not_all_cont l s : well_terminated l -> Forall (fun b => 128 <= b < 256) (l ++ s) -> False.
Proof.
  induction l as [|b l IH]; intros W F; [destruct W|].
  cbn in F. inversion_clear F. destruct l; [cbn in W; lia|]. destruct W as [_ W]. auto.
Qed.

Lemma wt_longer l : forall c b s suf, well_terminated l -> Forall (fun b => 128 <= b < 256) c ->
  l ++ s = c ++ b :: suf -> exists x, l = c ++ b :: x.
Proof.
  induction l as [|d l IH]; intros c b s suf W F E; [destruct W|].
  destruct c as [|e c]; cbn in E; inversion E as [[E1 E2]]; subst.
  - exists l. reflexivity.
  - inversion_clear F. destruct l as [|d' l].
    + cbn in W. lia.
    + destruct W as [_ W]. destruct (IH _ _ _ _ W H0 E2) as [x ->]. exists x. reflexivity.
Qed.

Lemma dec_complete n w lim pre l suf x : 2 <= lim -> 
  2 ^ w = 2 ^ (7 * Z.of_nat n) * lim ->
  well_terminated l -> (length l <= S n)%nat -> varint_value l < 2 ^ w ->
  dec_post n w lim 0 0 pre (l ++ suf) x -> x = Ok (varint_value l, at_pos (pre ++ l) suf).
Proof.
  intros Hlim Hw W L V D. destruct x as [[v' r']| | |]; cbn [dec_post] in D.
  - destruct D as (l' & suf' & E1 & E2 & W' & _ & E3 & _).
    destruct (wt_prefix _ _ _ _ W W' E1) as [-> ->]. rewrite E2, E3. do 3 f_equal. lia.
  - exfalso. destruct D as [_ F]. eapply wt_not_all_cont; eauto.
  - exfalso. destruct D as (c & b & suf' & E & Lc & F & B).
    destruct (wt_longer _ _ _ _ _ W F E) as [y ->].
    rewrite app_length in L. cbn [length] in L. assert (length y = O) by lia.
    destruct y; [|discriminate].
    pose proof (varint_value_last c b W) as K. rewrite Lc in K.
    change 128 with (2 ^ 7) in K. rewrite <- Z.pow_mul_r in K by lia.
    assert (0 < 2 ^ (7 * Z.of_nat n)) by (apply Z.pow_pos_nonneg; lia). nia.
  - destruct D.
Qed.

(** * Round trips *)
Lemma round_trip32 pre v suf : 0 <= v < 2 ^ 32 -> bytes suf ->
  Z.of_nat (length (pre ++ varint32_bytes v ++ suf)) < 2 ^ 63 ->
  get_varint (at_pos pre (varint32_bytes v ++ suf)) = Ok (v, at_pos (pre ++ varint32_bytes v) suf).
Proof.
  intros Hv Hs Hl. rewrite varint32_enc in * by assumption.
  assert (Hv' : 0 <= v < 128 ^ (Z.of_nat 4 + 1)).
  { split; [lia|]. apply Z.lt_le_trans with (2 ^ 32); [lia|]. cbn. lia. }
  destruct (enc_facts 4 v Hv') as (W & V & B & L & _).
  assert (X : get_varint (at_pos pre (enc 4 v ++ suf)) = Ok (varint_value (enc 4 v), at_pos (pre ++ enc 4 v) suf)); [|rewrite V in X; exact X].
  apply (dec_complete 4 32 16); try (rewrite ?V; lia); try assumption; try reflexivity.
  apply get_varint_post; [apply Forall_app; auto|assumption].
Qed.

Lemma round_trip64 pre v suf : 0 <= v < 2 ^ 64 -> bytes suf ->
  Z.of_nat (length (pre ++ varint64_bytes v ++ suf)) < 2 ^ 63 ->
  get_varint64 (at_pos pre (varint64_bytes v ++ suf)) = Ok (v, at_pos (pre ++ varint64_bytes v) suf).
Proof.
  intros Hv Hs Hl. rewrite varint64_enc in * by assumption.
  assert (Hv' : 0 <= v < 128 ^ (Z.of_nat 9 + 1)).
  { split; [lia|]. apply Z.lt_le_trans with (2 ^ 64); [lia|]. cbn. lia. }
  destruct (enc_facts 9 v Hv') as (W & V & B & L & _).
  assert (X : get_varint64 (at_pos pre (enc 9 v ++ suf)) = Ok (varint_value (enc 9 v), at_pos (pre ++ enc 9 v) suf)); [|rewrite V in X; exact X].
  apply (dec_complete 9 64 2); try (rewrite ?V; lia); try assumption; try reflexivity.
  apply get_varint64_post; [apply Forall_app; auto|assumption].
Qed.

(** minimal length: [len] groups of seven bits are really needed *)
Lemma varint32_length v : 0 <= v < 2 ^ 32 ->
  (1 <= length (varint32_bytes v) <= 5)%nat /\ v < 128 ^ Z.of_nat (length (varint32_bytes v)) /\
  (length (varint32_bytes v) = 1%nat \/ 128 ^ (Z.of_nat (length (varint32_bytes v)) - 1) <= v).
Proof.
  intros Hv. rewrite varint32_enc by assumption.
  assert (Hv' : 0 <= v < 128 ^ (Z.of_nat 4 + 1)).
  { split; [lia|]. apply Z.lt_le_trans with (2 ^ 32); [lia|]. cbn. lia. }
  destruct (enc_facts 4 v Hv') as (_ & _ & _ & L & LL & LU). auto.
Qed.
Lemma varint64_length v : 0 <= v < 2 ^ 64 ->
  (1 <= length (varint64_bytes v) <= 10)%nat /\ v < 128 ^ Z.of_nat (length (varint64_bytes v)) /\
  (length (varint64_bytes v) = 1%nat \/ 128 ^ (Z.of_nat (length (varint64_bytes v)) - 1) <= v).
Proof.
  intros Hv. rewrite varint64_enc by assumption.
  assert (Hv' : 0 <= v < 128 ^ (Z.of_nat 9 + 1)).
  { split; [lia|]. apply Z.lt_le_trans with (2 ^ 64); [lia|]. cbn. lia. }
  destruct (enc_facts 9 v Hv') as (_ & _ & _ & L & LL & LU). auto.
Qed.

Lemma varint_compat v : 0 <= v < 2 ^ 32 -> varint64_bytes v = varint32_bytes v.
Proof.
  intros Hv. unfold varint64_bytes, varint32_bytes.
  destruct (v <? 128); [reflexivity|]. destruct (v <? 128 * 128); [reflexivity|].
  destruct (v <? 128 * 128 * 128); [reflexivity|]. destruct (v <? 128 * 128 * 128 * 128); [reflexivity|].
  destruct (Z.ltb_spec v (128 * 128 * 128 * 128 * 128)); [reflexivity|lia].
Qed.

Lemma varint32_is_bytes v : 0 <= v < 2 ^ 32 -> bytes (varint32_bytes v).
Proof.
  intros Hv. rewrite varint32_enc by assumption.
  assert (Hv' : 0 <= v < 128 ^ (Z.of_nat 4 + 1)).
  { split; [lia|]. apply Z.lt_le_trans with (2 ^ 32); [lia|]. cbn. lia. }
  destruct (enc_facts 4 v Hv') as (_ & _ & B & _). exact B.
Qed.
Lemma varint64_is_bytes v : 0 <= v < 2 ^ 64 -> bytes (varint64_bytes v).
Proof.
  intros Hv. rewrite varint64_enc by assumption.
  assert (Hv' : 0 <= v < 128 ^ (Z.of_nat 9 + 1)).
  { split; [lia|]. apply Z.lt_le_trans with (2 ^ 64); [lia|]. cbn. lia. }
  destruct (enc_facts 9 v Hv') as (_ & _ & B & _). exact B.
Qed.

(** * Reader: skip, read, get, strings *)
Lemma reader_at r : 0 <= curr r <= rsize r ->
  r = at_pos (firstn (Z.to_nat (curr r)) (rdata r)) (skipn (Z.to_nat (curr r)) (rdata r)).
Proof.
  intros H. unfold at_pos, rsize in *. destruct r as [d c]; cbn [rdata curr] in *.
  rewrite firstn_skipn, firstn_length_le by lia. f_equal. lia.
Qed.

Lemma read_ok pre s suf : Z.of_nat (length (pre ++ s ++ suf)) < 2 ^ 63 ->
  read (Z.of_nat (length s)) (at_pos pre (s ++ suf)) = Ok (s, at_pos (pre ++ s) suf).
Proof.
  intros H. rewrite !app_length in H.
  unfold read, check_available, cursor_available, fetch, at_pos, rsize, set_curr; cbn [curr rdata].
  rewrite !app_length. rewrite !Z.mod_small by lia.
  destruct (Z.leb_spec (Z.of_nat (length pre) + Z.of_nat (length s))
    (Z.of_nat (length pre + (length s + length suf)))); [|lia]. cbn [bind].
  destruct (Z.leb_spec 0 (Z.of_nat (length pre))); [|lia]. cbn [andb bind].
  rewrite !Nat2Z.id. rewrite skipn_app, skipn_all, Nat.sub_diag. cbn [app skipn].
  rewrite firstn_app, firstn_all, Nat.sub_diag. cbn [firstn].
  rewrite app_nil_r. rewrite <- app_assoc. do 3 f_equal. lia.
Qed.

Lemma read_under pre rest n : Z.of_nat (length (pre ++ rest)) < 2 ^ 63 ->
  Z.of_nat (length rest) < n < 2 ^ 63 -> read n (at_pos pre rest) = Underflow.
Proof.
  intros H Hn. rewrite app_length in H.
  unfold read, check_available, cursor_available, at_pos, rsize; cbn [curr rdata].
  rewrite app_length. rewrite Z.mod_small by lia.
  destruct (Z.leb_spec (Z.of_nat (length pre) + n) (Z.of_nat (length pre + length rest))); [lia|reflexivity].
Qed.

Lemma skip_ok pre s suf : Z.of_nat (length (pre ++ s ++ suf)) < 2 ^ 63 ->
  skip (Z.of_nat (length s)) (at_pos pre (s ++ suf)) = Ok (at_pos (pre ++ s) suf).
Proof.
  intros H. rewrite !app_length in H.
  unfold skip, check_available, cursor_available, at_pos, rsize, set_curr; cbn [curr rdata].
  rewrite !app_length. rewrite !Z.mod_small by lia.
  destruct (Z.leb_spec (Z.of_nat (length pre) + Z.of_nat (length s))
    (Z.of_nat (length pre + (length s + length suf)))); [|lia]. cbn [bind].
  rewrite <- app_assoc. do 2 f_equal. lia.
Qed.

Lemma skip_under pre rest n : Z.of_nat (length (pre ++ rest)) < 2 ^ 63 ->
  Z.of_nat (length rest) < n < 2 ^ 63 -> skip n (at_pos pre rest) = Underflow.
Proof.
  intros H Hn. rewrite app_length in H.
  unfold skip, check_available, cursor_available, at_pos, rsize; cbn [curr rdata].
  rewrite app_length. rewrite Z.mod_small by lia.
  destruct (Z.leb_spec (Z.of_nat (length pre) + n) (Z.of_nat (length pre + length rest))); [lia|reflexivity].
Qed.

Lemma get_eq_read k r : get k r = bind (read (Z.of_nat k) r) (fun '(d, r') => Ok (le_value d, r')).
Proof.
  unfold get, read. destruct (check_available (Z.of_nat k) r); cbn [bind]; try reflexivity.
  destruct (fetch (Z.of_nat k) r); reflexivity.
Qed.

Lemma le_bytes_length k v : length (le_bytes k v) = k.
Proof. revert v; induction k; intros; cbn; auto. Qed.
Lemma le_bytes_bytes k : forall v, bytes (le_bytes k v).
Proof.
  induction k; intros v; cbn; constructor; [|apply IHk].
  unfold is_byte. apply Z.mod_pos_bound; lia.
Qed.
Lemma le_value_le_bytes k : forall v, 0 <= v < 256 ^ Z.of_nat k -> le_value (le_bytes k v) = v.
Proof.
  induction k; intros v Hv; [cbn in *; lia|]. cbn [le_bytes le_value].
  rewrite IHk.
  - pose proof (Z.div_mod v 256). lia.
  - rewrite Nat2Z.inj_succ, Z.pow_succ_r in Hv by lia. split; [apply Z.div_pos; lia|].
    apply Z.div_lt_upper_bound; lia.
Qed.

(** * Writer *)
Definition wf_buffer (b : buffer) (d : list Z) : Prop :=
  bsize b = Z.of_nat (length d) /\ bsize b <= capacity b /\ contents b = map Some d.

Lemma grow_loop_spec fuel : forall c n, 0 <= c ->
  (exists m, grow_loop fuel c n = Some m /\ n <= m /\ c <= m) \/ grow_loop fuel c n = None.
Proof.
  induction fuel as [|f IH]; intros c n Hc; cbn [grow_loop];
    destruct (Z.ltb_spec c n); try (left; exists c; repeat split; lia); try (right; reflexivity).
  destruct (Z.ltb_spec c 256); [|destruct (Z.ltb_spec c (1024 * 1024))].
  - destruct (IH 512 n ltac:(lia)) as [(m & E & A & B)|E]; [left; exists m; repeat split; auto; lia|auto].
  - destruct (IH (2 * c) n ltac:(lia)) as [(m & E & A & B)|E]; [left; exists m; repeat split; auto; lia|auto].
  - destruct (IH (c + 1024 * 1024) n ltac:(lia)) as [(m & E & A & B)|E]; [left; exists m; repeat split; auto; lia|auto].
Qed.

Lemma grow_linear fuel : forall c n, 1048576 <= c -> n - c <= 1048576 * Z.of_nat fuel ->
  grow_loop fuel c n <> None.
Proof.
  induction fuel as [|f IH]; intros c n Hc Hf; cbn [grow_loop]; destruct (Z.ltb_spec c n);
    try discriminate; [lia|].
  destruct (Z.ltb_spec c 256); [lia|]. destruct (Z.ltb_spec c (1024 * 1024)); [lia|].
  apply IH; lia.
Qed.

Lemma grow_double k : forall fuel c n, 256 <= c -> 1048576 <= c * 2 ^ Z.of_nat k ->
  (k <= fuel)%nat -> n <= 1048576 * Z.of_nat (fuel - k) -> grow_loop fuel c n <> None.
Proof.
  induction k as [|k IH]; intros fuel c n Hc Hk Hf Hn.
  - apply grow_linear; cbn in Hk; lia.
  - destruct fuel as [|f]; [lia|]. cbn [grow_loop]. destruct (Z.ltb_spec c n); [|discriminate].
    destruct (Z.ltb_spec c 256); [lia|]. destruct (Z.ltb_spec c (1024 * 1024)).
    + apply IH; try lia. rewrite Nat2Z.inj_succ, Z.pow_succ_r in Hk by lia. lia.
    + apply grow_linear; lia.
Qed.

Lemma grow_total c n : 0 <= c -> 0 <= n ->
  grow_loop (Z.to_nat (n / (1024 * 1024) + 16)) c n <> None.
Proof.
  intros Hc Hn. pose proof (Z.div_pos n (1024 * 1024) ltac:(lia) ltac:(lia)).
  pose proof (Z.div_mod n (1024 * 1024) ltac:(lia)).
  pose proof (Z.mod_pos_bound n (1024 * 1024) ltac:(lia)).
  destruct (Z.to_nat (n / (1024 * 1024) + 16)) as [|f] eqn:E; [lia|].
  cbn [grow_loop]. destruct (Z.ltb_spec c n); [|discriminate].
  destruct (Z.ltb_spec c 256).
  - apply (grow_double 11); cbn [Z.of_nat]; lia.
  - destruct (Z.ltb_spec c (1024 * 1024)).
    + apply (grow_double 12); lia.
    + apply grow_linear; lia.
Qed.

Lemma dynalloc_ok n b d : wf_buffer b d -> 0 <= n ->
  exists b', dynalloc n b = Some b' /\ wf_buffer b' d /\ n <= capacity b'.
Proof.
  intros (Hs & Hc & Hd) Hn. unfold dynalloc. destruct (Z.ltb_spec (capacity b) n).
  - destruct (grow_loop_spec (Z.to_nat (n / (1024 * 1024) + 16)) (capacity b) n) as [(m & E & A & B)|E].
    + unfold capacity; lia.
    + rewrite E. eexists; split; [reflexivity|]. unfold alloc.
      destruct (Z.ltb_spec (capacity b) m); [|lia].
      unfold wf_buffer, capacity, contents in *; cbn [mem bsize] in *.
      rewrite app_length, repeat_length. repeat split; try lia.
      rewrite <- Hd. rewrite firstn_app.
      replace (Z.to_nat (bsize b) - length (mem b))%nat with O by lia. cbn. apply app_nil_r.
    + exfalso. eapply grow_total; [| |exact E]; [unfold capacity; lia|lia].
  - exists b. repeat split; auto.
Qed.

Lemma store_end b d x : wf_buffer b d -> bsize b + Z.of_nat (length x) <= capacity b ->
  exists b', obind (store (bsize b) (map Some x) b)
    (fun b2 => Some (set_bsize (bsize b2 + Z.of_nat (length x)) b2)) = Some b' /\
    wf_buffer b' (d ++ x).
Proof.
  intros (Hs & Hc & Hd) Hx. unfold store. rewrite map_length.
  destruct (Z.leb_spec (bsize b + Z.of_nat (length x)) (capacity b)); [|lia].
  cbn [obind]. eexists; split; [reflexivity|].
  unfold wf_buffer, capacity, contents, set_bsize in *; cbn [mem bsize] in *.
  repeat split.
  - rewrite app_length. lia.
  - rewrite !app_length, map_length, firstn_length_le, skipn_length by lia. lia.
  - rewrite Hd. rewrite app_assoc. rewrite <- map_app.
    rewrite firstn_app. rewrite map_length, app_length.
    replace (Z.to_nat (bsize b + Z.of_nat (length x)) - (length d + length x))%nat with O by lia.
    cbn [firstn]. rewrite app_nil_r. apply firstn_all2. rewrite map_length, app_length. lia.
Qed.

Lemma append_ok x b d : wf_buffer b d ->
  exists b', append x b = Some b' /\ wf_buffer b' (d ++ x).
Proof.
  intros H. unfold append.
  destruct (Z.ltb_spec (capacity b) (bsize b + Z.of_nat (length x))).
  - assert (Hs : 0 <= bsize b) by (destruct H; lia).
    destruct (dynalloc_ok (bsize b + Z.of_nat (length x)) b d H ltac:(lia)) as (b1 & E & W & C).
    rewrite E. cbn [obind]. apply store_end; auto.
    destruct H as (E1 & _), W as (E2 & _). lia.
  - cbn [obind]. apply store_end; auto.
Qed.

Definition pad (n s : Z) : list Z := repeat 0 (Z.to_nat ((- s) mod n)).

Lemma neg_mod n s : 0 < n -> s mod n <> 0 -> (- s) mod n = n - s mod n.
Proof. intros. apply Z_mod_nz_opp_full; auto. Qed.

Lemma align_ok n b d : 0 < n -> wf_buffer b d ->
  exists b', align n b = Some b' /\ wf_buffer b' (d ++ pad n (Z.of_nat (length d))) /\ bsize b' mod n = 0.
Proof.
  intros Hn H. unfold align, pad. pose proof H as (Hs & _).
  rewrite <- Hs. pose proof (Z.mod_pos_bound (bsize b) n Hn).
  destruct (Z.eqb_spec (bsize b mod n) 0) as [E|E].
  - exists b. rewrite Z_mod_zero_opp_full by assumption. cbn. rewrite app_nil_r. auto.
  - rewrite neg_mod by assumption.
    assert (X : Z.of_nat (length (repeat 0 (Z.to_nat (n - bsize b mod n)))) = n - bsize b mod n)
      by (rewrite repeat_length; lia).
    assert (M : (bsize b + (n - bsize b mod n)) mod n = 0).
    { pose proof (Z.div_mod (bsize b) n ltac:(lia)).
      replace (bsize b + (n - bsize b mod n)) with ((bsize b / n + 1) * n) by lia.
      apply Z_mod_mult. }
    destruct (Z.ltb_spec (capacity b) (bsize b + (n - bsize b mod n))).
    + assert (Hs0 : 0 <= bsize b) by lia.
      destruct (dynalloc_ok (bsize b + (n - bsize b mod n)) b d H ltac:(lia)) as (b1 & E1 & W & C).
      rewrite E1. cbn [obind].
      assert (Eb : bsize b1 = bsize b) by (destruct W; lia).
      destruct (store_end b1 d (repeat 0 (Z.to_nat (n - bsize b mod n))) W ltac:(lia)) as (b' & E2 & W2).
      rewrite X in E2. exists b'. split; [exact E2|]. split; [exact W2|].
      destruct W2 as (E3 & _). rewrite E3, app_length, Nat2Z.inj_add, X. rewrite <- Hs. exact M.
    + cbn [obind].
      destruct (store_end b d (repeat 0 (Z.to_nat (n - bsize b mod n))) H ltac:(lia)) as (b' & E2 & W2).
      rewrite X in E2. exists b'. split; [exact E2|]. split; [exact W2|].
      destruct W2 as (E3 & _). rewrite E3, app_length, Nat2Z.inj_add, X. rewrite <- Hs. exact M.
Qed.

Lemma put_all_ok l : forall b d, bytes l -> wf_buffer b d ->
  exists b', put_all l b = Some b' /\ wf_buffer b' (d ++ l).
Proof.
  induction l as [|x l IH]; intros b d Hl H.
  - exists b. rewrite app_nil_r. split; auto.
  - inversion_clear Hl. cbn [put_all]. unfold put.
    destruct (append_ok (le_bytes 1 x) b d H) as (b1 & E & W). rewrite E. cbn [obind].
    destruct (IH b1 _ H1 W) as (b2 & E2 & W2). exists b2. split; [exact E2|].
    cbn [le_bytes] in W2. unfold is_byte in H0. rewrite Z.mod_small in W2 by lia.
    rewrite <- app_assoc in W2. exact W2.
Qed.

(** the bytes an item stands for when the log has length [s] *)
Definition item_bytes (i : item) (s : Z) : list Z :=
  match i with
  | IInt k v => le_bytes k v
  | IVar32 v => varint32_bytes v
  | IVar64 v => varint64_bytes v
  | IStr x => varint32_bytes (Z.of_nat (length x)) ++ x
  | IRaw x => x
  | IAlign n => pad n s
  end.

Fixpoint log_bytes (l : list item) (s : Z) : list Z :=
  match l with
  | [] => []
  | i :: r => item_bytes i s ++ log_bytes r (s + Z.of_nat (length (item_bytes i s)))
  end.

Lemma put_item_ok i b d : item_ok i -> wf_buffer b d ->
  exists b', put_item i b = Some b' /\ wf_buffer b' (d ++ item_bytes i (Z.of_nat (length d))).
Proof.
  intros Hi H. destruct i; cbn [put_item item_bytes item_ok] in *.
  - apply append_ok; auto.
  - apply put_all_ok; auto. apply varint32_is_bytes; auto.
  - apply put_all_ok; auto. apply varint64_is_bytes; auto.
  - unfold put_string, put_varint32. destruct Hi as [Hb Hl].
    rewrite Z.mod_small by lia.
    destruct (put_all_ok (varint32_bytes (Z.of_nat (length s))) b d) as (b1 & E & W); auto.
    { apply varint32_is_bytes; lia. }
    rewrite E. cbn [obind]. rewrite app_assoc. apply append_ok; auto.
  - apply append_ok; auto.
  - destruct (align_ok n b d Hi H) as (b' & E & W & _). eauto.
Qed.

Lemma put_items_ok l : forall b d, Forall item_ok l -> wf_buffer b d ->
  exists b', put_items l b = Some b' /\ wf_buffer b' (d ++ log_bytes l (Z.of_nat (length d))).
Proof.
  induction l as [|i l IH]; intros b d Hl H.
  - exists b. cbn. rewrite app_nil_r. auto.
  - inversion_clear Hl. cbn [put_items log_bytes].
    destruct (put_item_ok i b d H0 H) as (b1 & E & W). rewrite E. cbn [obind].
    destruct (IH _ _ H1 W) as (b2 & E2 & W2). exists b2. split; [exact E2|].
    rewrite app_length, Nat2Z.inj_add, <- app_assoc in W2. exact W2.
Qed.

Lemma item_bytes_bytes i s : item_ok i -> bytes (item_bytes i s).
Proof.
  destruct i; cbn; intros H.
  - apply le_bytes_bytes.
  - apply varint32_is_bytes; auto.
  - apply varint64_is_bytes; auto.
  - destruct H. apply Forall_app. split; auto. apply varint32_is_bytes. lia.
  - auto.
  - unfold pad. apply Forall_forall. intros x Hx. apply repeat_spec in Hx. subst. unfold is_byte; lia.
Qed.
Lemma log_bytes_bytes l : forall s, Forall item_ok l -> bytes (log_bytes l s).
Proof.
  induction l as [|i l IH]; intros s H; cbn; [constructor|]. inversion_clear H.
  apply Forall_app. split; [apply item_bytes_bytes; auto|apply IH; auto].
Qed.

Lemma get_item_ok i pre suf : item_ok i -> bytes suf ->
  let x := item_bytes i (Z.of_nat (length pre)) in
  Z.of_nat (length (pre ++ x ++ suf)) < 2 ^ 63 ->
  get_item i (at_pos pre (x ++ suf)) = Ok (i, at_pos (pre ++ x) suf).
Proof.
  intros Hi Hs x Hl. subst x. destruct i; cbn [get_item item_bytes item_ok] in *.
  - rewrite get_eq_read.
    pose proof (read_ok pre (le_bytes k v) suf Hl) as R. rewrite le_bytes_length in R.
    rewrite R. cbn [bind]. rewrite le_value_le_bytes by assumption. reflexivity.
  - rewrite round_trip32 by assumption. reflexivity.
  - rewrite round_trip64 by assumption. reflexivity.
  - destruct Hi as [Hb Hlen]. unfold get_string. rewrite <- app_assoc.
    rewrite round_trip32; try lia.
    + cbn [bind]. rewrite read_ok.
      * cbn [bind]. rewrite <- app_assoc. reflexivity.
      * rewrite !app_length in *. lia.
    + apply Forall_app; auto.
    + rewrite <- app_assoc in Hl. exact Hl.
  - rewrite read_ok by assumption. reflexivity.
  - replace ((- curr (at_pos pre (pad n (Z.of_nat (length pre)) ++ suf))) mod n)
      with (Z.of_nat (length (pad n (Z.of_nat (length pre))))).
    + rewrite skip_ok by assumption. reflexivity.
    + unfold pad, at_pos; cbn [curr]. rewrite repeat_length.
      pose proof (Z.mod_pos_bound (- Z.of_nat (length pre)) n Hi). lia.
Qed.

Lemma get_items_ok l : forall pre suf, Forall item_ok l -> bytes suf ->
  let x := log_bytes l (Z.of_nat (length pre)) in
  Z.of_nat (length (pre ++ x ++ suf)) < 2 ^ 63 ->
  get_items l (at_pos pre (x ++ suf)) = Ok (l, at_pos (pre ++ x) suf).
Proof.
  induction l as [|i l IH]; intros pre suf Hl Hs x Hlen; subst x; cbn [log_bytes get_items] in *.
  - cbn [app] in *. rewrite app_nil_r. reflexivity.
  - inversion_clear Hl. rewrite <- app_assoc in *.
    rewrite get_item_ok; auto.
    + cbn [bind]. specialize (IH (pre ++ item_bytes i (Z.of_nat (length pre))) suf H0 Hs).
      cbv zeta in IH.
      assert (EL : Z.of_nat (length (pre ++ item_bytes i (Z.of_nat (length pre)))) =
        Z.of_nat (length pre) + Z.of_nat (length (item_bytes i (Z.of_nat (length pre)))))
        by (rewrite app_length; lia).
      rewrite EL in IH.
      rewrite IH.
      * cbn [bind]. rewrite <- app_assoc. reflexivity.
      * rewrite <- app_assoc. exact Hlen.
    + apply Forall_app. split; auto. apply log_bytes_bytes; auto.
Qed.

Lemma wf_empty : wf_buffer empty_buffer [].
Proof. unfold wf_buffer, empty_buffer, capacity, contents; cbn. repeat split; lia. Qed.

(** put a list of items into an empty buffer and read them back *)
Lemma log_round_trip l : Forall item_ok l ->
  exists b d, put_items l empty_buffer = Some b /\ bsize b = Z.of_nat (length d) /\
    bsize b <= capacity b /\ contents b = map Some d /\ bytes d /\
    (Z.of_nat (length d) < 2 ^ 63 ->
     exists r, get_items l (reader_of d) = Ok (l, r) /\ rempty r = true).
Proof.
  intros Hl. destruct (put_items_ok l empty_buffer [] Hl wf_empty) as (b & E & (W1 & W2 & W3)).
  exists b, (log_bytes l 0). cbn [app length] in *. repeat split; auto.
  - apply log_bytes_bytes; auto.
  - intros Hlen. pose proof (get_items_ok l [] [] Hl (Forall_nil _)) as G.
    cbn [app length] in G. cbv zeta in G. change (Z.of_nat 0) with 0 in G.
    rewrite app_nil_r in G. eexists. split.
    + exact (G Hlen).
    + unfold rempty, at_pos, rsize; cbn [curr rdata]. rewrite app_nil_r. apply Z.eqb_refl.
Qed.

(** a failed bounds check: the log of one [append] (not only of items) *)
Lemma append_log x b d : wf_buffer b d -> exists b', append x b = Some b' /\ wf_buffer b' (d ++ x).
Proof. apply append_ok. Qed.

(** * Bounds checking *)
Lemma skipn_skipn_add (b a : nat) (l : list Z) : skipn b (skipn a l) = skipn (a + b) l.
Proof.
  revert l. induction a; intros l; cbn; [reflexivity|].
  destruct l; [now rewrite skipn_nil|]. apply IHa.
Qed.

Lemma read_safe n r : 0 <= curr r <= rsize r -> 0 <= n -> curr r + n < 2 ^ 64 ->
  (n <= rsize r - curr r /\
     exists d, read n r = Ok (d, Rd (rdata r) (curr r + n)) /\
       rdata r = firstn (Z.to_nat (curr r)) (rdata r) ++ d ++ skipn (Z.to_nat (curr r + n)) (rdata r) /\
       Z.of_nat (length d) = n) \/
  (rsize r - curr r < n /\ read n r = Underflow).
Proof.
  intros Hc Hn Hw. unfold read, check_available, cursor_available, fetch.
  rewrite Z.mod_small by lia.
  destruct (Z.leb_spec (curr r + n) (rsize r)).
  - left. split; [lia|]. cbn [bind]. destruct (Z.leb_spec 0 (curr r)); [|lia]. cbn [andb bind].
    eexists. split; [reflexivity|]. unfold rsize in *. split.
    + replace (Z.to_nat (curr r + n)) with (Z.to_nat n + Z.to_nat (curr r))%nat by lia.
      rewrite <- (firstn_skipn (Z.to_nat (curr r)) (rdata r)) at 1. f_equal.
      rewrite <- (firstn_skipn (Z.to_nat n) (skipn (Z.to_nat (curr r)) (rdata r))) at 1. f_equal.
      rewrite Nat.add_comm. apply skipn_skipn_add.
    + rewrite firstn_length_le; [lia|]. rewrite skipn_length. lia.
  - right. split; [lia|]. reflexivity.
Qed.

Lemma skip_safe n r : 0 <= curr r <= rsize r -> 0 <= n -> curr r + n < 2 ^ 64 ->
  (n <= rsize r - curr r /\ skip n r = Ok (Rd (rdata r) (curr r + n))) \/
  (rsize r - curr r < n /\ skip n r = Underflow).
Proof.
  intros Hc Hn Hw. unfold skip, check_available, cursor_available, set_curr.
  rewrite Z.mod_small by lia. destruct (Z.leb_spec (curr r + n) (rsize r)).
  - left. split; [lia|reflexivity].
  - right. split; [lia|reflexivity].
Qed.

Definition in_bounds (r : reader) : Prop := 0 <= curr r <= rsize r.

Lemma at_pos_in_bounds pre rest : in_bounds (at_pos pre rest).
Proof. unfold in_bounds, at_pos, rsize; cbn. rewrite app_length. lia. Qed.

(** all typed reads stay in bounds, whatever the bytes are *)
Lemma get_varint_safe r : in_bounds r -> rsize r < 2 ^ 63 -> bytes (rdata r) ->
  match get_varint r with
  | Ok (v, r') => 0 <= v < 2 ^ 32 /\ rdata r' = rdata r /\ curr r < curr r' <= rsize r
  | OutOfBounds => False
  | _ => True
  end.
Proof.
  intros Hi Hs Hb. unfold in_bounds in Hi. rewrite (reader_at r Hi).
  set (pre := firstn _ _). set (rest := skipn _ _).
  assert (Hb' : bytes rest) by (apply Forall_forall; intros x Hx;
    rewrite <- (firstn_skipn (Z.to_nat (curr r)) (rdata r)) in Hb; apply Forall_app in Hb;
    destruct Hb as [_ Hb]; rewrite Forall_forall in Hb; auto).
  assert (Hl : Z.of_nat (length (pre ++ rest)) < 2 ^ 63)
    by (unfold pre, rest; rewrite firstn_skipn; exact Hs).
  pose proof (get_varint_post pre rest Hb' Hl) as P.
  destruct (get_varint (at_pos pre rest)) as [[v r']| | |]; cbn [dec_post] in P; auto.
  destruct P as (l & suf & E1 & E2 & W & _ & _ & R). subst r'.
  split; [exact R|]. unfold at_pos, rsize; cbn [rdata curr]. rewrite E1.
  rewrite <- app_assoc. split; [reflexivity|]. rewrite !app_length.
  destruct l; [destruct W|]. cbn [length]. lia.
Qed.

Lemma get_varint64_safe r : in_bounds r -> rsize r < 2 ^ 63 -> bytes (rdata r) ->
  match get_varint64 r with
  | Ok (v, r') => 0 <= v < 2 ^ 64 /\ rdata r' = rdata r /\ curr r < curr r' <= rsize r
  | OutOfBounds => False
  | _ => True
  end.
Proof.
  intros Hi Hs Hb. unfold in_bounds in Hi. rewrite (reader_at r Hi).
  set (pre := firstn _ _). set (rest := skipn _ _).
  assert (Hb' : bytes rest) by (apply Forall_forall; intros x Hx;
    rewrite <- (firstn_skipn (Z.to_nat (curr r)) (rdata r)) in Hb; apply Forall_app in Hb;
    destruct Hb as [_ Hb]; rewrite Forall_forall in Hb; auto).
  assert (Hl : Z.of_nat (length (pre ++ rest)) < 2 ^ 63)
    by (unfold pre, rest; rewrite firstn_skipn; exact Hs).
  pose proof (get_varint64_post pre rest Hb' Hl) as P.
  destruct (get_varint64 (at_pos pre rest)) as [[v r']| | |]; cbn [dec_post] in P; auto.
  destruct P as (l & suf & E1 & E2 & W & _ & _ & R). subst r'.
  split; [exact R|]. unfold at_pos, rsize; cbn [rdata curr]. rewrite E1.
  rewrite <- app_assoc. split; [reflexivity|]. rewrite !app_length.
  destruct l; [destruct W|]. cbn [length]. lia.
Qed.

Lemma get_string_safe r : in_bounds r -> rsize r < 2 ^ 63 -> bytes (rdata r) ->
  match get_string r with
  | Ok (s, r') => rdata r' = rdata r /\ in_bounds r' /\ curr r + Z.of_nat (length s) < curr r'
  | OutOfBounds => False
  | _ => True
  end.
Proof.
  intros Hi Hs Hb. unfold get_string. pose proof (get_varint_safe r Hi Hs Hb) as P.
  destruct (get_varint r) as [[v r']| | |]; cbn [bind]; auto.
  destruct P as (Hv & Ed & Hc). unfold in_bounds in Hi.
  assert (Hr : rsize r' = rsize r) by (unfold rsize; now rewrite Ed).
  destruct (read_safe v r' ltac:(lia) ltac:(lia) ltac:(lia)) as [(Hle & d & E & _ & L)|[_ E]];
    rewrite E; auto.
  unfold in_bounds, rsize in *; cbn [rdata curr]. repeat split; auto; lia.
Qed.

Lemma get_ref_safe r : in_bounds r -> rsize r < 2 ^ 63 -> bytes (rdata r) ->
  match get_binary_buffer_ref r with
  | Ok ((off, len), r') => rdata r' = rdata r /\ in_bounds r' /\
      curr r < off /\ 0 <= len /\ off + len = curr r'
  | OutOfBounds => False
  | _ => True
  end.
Proof.
  intros Hi Hs Hb. unfold get_binary_buffer_ref. pose proof (get_varint_safe r Hi Hs Hb) as P.
  destruct (get_varint r) as [[v r']| | |]; cbn [bind]; auto.
  destruct P as (Hv & Ed & Hc). unfold in_bounds in Hi.
  assert (Hr : rsize r' = rsize r) by (unfold rsize; now rewrite Ed).
  destruct (skip_safe v r' ltac:(lia) ltac:(lia) ltac:(lia)) as [(Hle & E)|[_ E]];
    rewrite E; cbn [bind]; auto.
  unfold in_bounds, rsize in *; cbn [rdata curr]. repeat split; auto; lia.
Qed.

Lemma memcmp_eq_iff a : forall b, memcmp_eq a b = true <-> a = b.
Proof.
  induction a as [|x a IH]; intros [|y b]; cbn; split; intros H; try discriminate; try reflexivity.
  - apply andb_true_iff in H. destruct H as [H1 H2]. apply Z.eqb_eq in H1. apply IH in H2. congruence.
  - inversion H; subst. rewrite Z.eqb_refl. apply IH. reflexivity.
Qed.
Lemma ref_eqb_iff a b : ref_eqb a b = true <-> a = b.
Proof.
  unfold ref_eqb. destruct (Z.eqb_spec (Z.of_nat (length a)) (Z.of_nat (length b))); cbn [negb].
  - apply memcmp_eq_iff.
  - split; [discriminate|]. intros ->. congruence.
Qed.

(** what decoding a stream [rest] may give: [n]+1 bytes at most, [w]-bit
    result; the last possible byte must be below [lim] *)
Definition decodes (n : nat) (w lim : Z) (pre rest : list Z) (x : res (Z * reader)) : Prop :=
  match x with
  | Ok (v, r') => exists l suf, rest = l ++ suf /\
      r' = Rd (pre ++ rest) (Z.of_nat (length pre + length l)) /\
      well_terminated l /\ (length l <= S n)%nat /\ v = varint_value l /\ 0 <= v < 2 ^ w
  | Underflow => (length rest <= n)%nat /\ Forall (fun b => 128 <= b < 256) rest
  | Overflow => exists l b suf, rest = l ++ b :: suf /\ length l = n /\
      Forall (fun b => 128 <= b < 256) l /\ lim <= b
  | OutOfBounds => False
  end.

Lemma dec_post_decodes n w lim pre rest x : dec_post n w lim 0 0 pre rest x -> decodes n w lim pre rest x.
Proof.
  destruct x as [[v r]| | |]; cbn [dec_post decodes]; auto.
  intros (l & suf & E1 & E2 & W & L & V & R). exists l, suf. split; [auto|]. split.
  - subst. unfold at_pos. rewrite <- app_assoc, app_length. reflexivity.
  - split; [auto|]. split; [auto|]. split; [|auto]. rewrite V. change (2 ^ 0) with 1. lia.
Qed.

Lemma get_varint_decodes pre rest : bytes rest -> Z.of_nat (length (pre ++ rest)) < 2 ^ 63 ->
  decodes 4 32 16 pre rest (get_varint (Rd (pre ++ rest) (Z.of_nat (length pre)))).
Proof. intros. apply dec_post_decodes. apply get_varint_post; auto. Qed.
Lemma get_varint64_decodes pre rest : bytes rest -> Z.of_nat (length (pre ++ rest)) < 2 ^ 63 ->
  decodes 9 64 2 pre rest (get_varint64 (Rd (pre ++ rest) (Z.of_nat (length pre)))).
Proof. intros. apply dec_post_decodes. apply get_varint64_post; auto. Qed.

Lemma round_trip32' pre v suf : 0 <= v < 2 ^ 32 -> bytes suf ->
  Z.of_nat (length (pre ++ varint32_bytes v ++ suf)) < 2 ^ 63 ->
  get_varint (Rd (pre ++ varint32_bytes v ++ suf) (Z.of_nat (length pre))) =
  Ok (v, Rd (pre ++ varint32_bytes v ++ suf) (Z.of_nat (length pre + length (varint32_bytes v)))).
Proof.
  intros. pose proof (round_trip32 pre v suf) as R. unfold at_pos in R.
  rewrite R by assumption. rewrite <- app_assoc, app_length. reflexivity.
Qed.
Lemma round_trip64' pre v suf : 0 <= v < 2 ^ 64 -> bytes suf ->
  Z.of_nat (length (pre ++ varint64_bytes v ++ suf)) < 2 ^ 63 ->
  get_varint64 (Rd (pre ++ varint64_bytes v ++ suf) (Z.of_nat (length pre))) =
  Ok (v, Rd (pre ++ varint64_bytes v ++ suf) (Z.of_nat (length pre + length (varint64_bytes v)))).
Proof.
  intros. pose proof (round_trip64 pre v suf) as R. unfold at_pos in R.
  rewrite R by assumption. rewrite <- app_assoc, app_length. reflexivity.
Qed.

(** the unchecked wrap-around of [m_curr + n] *)
Lemma skip_wraps : let r := Rd [1; 2; 3] 2 in
  skip (2 ^ 64 - 1) r = Ok (Rd [1; 2; 3] 1).
Proof. reflexivity. Qed.
Lemma read_wraps : let r := Rd [1; 2; 3] 2 in read (2 ^ 64 - 1) r = OutOfBounds.
Proof. reflexivity. Qed.
Lemma read_bounds_refuted :
  exists r n, in_bounds r /\ 0 <= n < 2 ^ 64 /\ n > rsize r - curr r /\ read n r = OutOfBounds.
Proof.
  exists (Rd [1;2;3] 2), (2 ^ 64 - 1). split; [unfold in_bounds, rsize; cbn; lia|].
  split; [lia|]. split; [unfold rsize; cbn [length rdata curr]; lia|exact read_wraps].
Qed.
Lemma skip_backwards_refuted :
  exists r n r', in_bounds r /\ 0 <= n < 2 ^ 64 /\ n > rsize r - curr r /\
    skip n r = Ok r' /\ curr r' < curr r.
Proof.
  exists (Rd [1;2;3] 2), (2 ^ 64 - 1), (Rd [1;2;3] 1). split; [unfold in_bounds, rsize; cbn; lia|].
  split; [lia|]. split; [unfold rsize; cbn [length rdata curr]; lia|].
  split; [exact skip_wraps|cbn; lia].
Qed.
