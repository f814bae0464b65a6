From Coq Require Import ZArith Lia Bool.
From Verif Require Import DblIndexModel DblIndexSpec.
Local Open Scope Z_scope.

Lemma w64_small z : 0 <= z < 2 ^ 64 -> w64 z = z.
Proof. apply Z.mod_small. Qed.

Section P.
Variables m1 m2 : Z.
Hypothesis H1 : 0 < m1.
Hypothesis H2 : 0 < m2.
Hypothesis H12 : m1 * m2 < 2 ^ 64.

(** a well-formed index: its components denote its position *)
Definition wf (d : dbi) : Prop :=
  denotes m1 m2 (block2 d) (block1 d) (offset d) (pos d) /\ 0 <= pos d < 2 ^ 64.

Lemma mod12 : modulo12 m1 m2 = m1 * m2.
Proof. apply w64_small. nia. Qed.

Lemma set_wf p : 0 <= p < 2 ^ 64 -> wf (dbi_set m1 m2 p) /\ pos (dbi_set m1 m2 p) = p.
Proof.
  intros Hp. unfold dbi_set. rewrite mod12. cbn [pos].
  assert (M : 0 < m1 * m2) by nia.
  pose proof (Z.div_mod p (m1 * m2) ltac:(lia)) as E.
  pose proof (Z.mod_pos_bound p (m1 * m2) M) as B.
  assert (B2 : 0 <= p / (m1 * m2)) by (apply Z.div_pos; lia).
  replace (p - p / (m1 * m2) * (m1 * m2)) with (p mod (m1 * m2)) by lia.
  set (q := p mod (m1 * m2)) in *.
  rewrite (w64_small q) by lia.
  pose proof (Z.div_mod q m1 ltac:(lia)) as F.
  pose proof (Z.mod_pos_bound q m1 H1) as G.
  assert (B1 : 0 <= q / m1) by (apply Z.div_pos; lia).
  replace (q - q / m1 * m1) with (q mod m1) by lia.
  rewrite (w64_small (q mod m1)) by nia.
  split; [|reflexivity]. split; cbn; [|exact Hp].
  assert (q / m1 < m2) by (apply Z.div_lt_upper_bound; lia).
  split; [nia|]. lia.
Qed.

Lemma denotes_unique b2 b1 o c2 c1 r p :
  denotes m1 m2 b2 b1 o p -> denotes m1 m2 c2 c1 r p -> b2 = c2 /\ b1 = c1 /\ o = r.
Proof.
  intros (E & A & B & C) (E' & A' & B' & C').
  assert (K : b2 * m2 + b1 = c2 * m2 + c1 /\ o = r).
  { apply (Z.div_mod_unique m1); [lia|lia|]. lia. }
  destruct K as [K ->]. assert (b2 = c2 /\ b1 = c1) by (apply (Z.div_mod_unique m2); lia). lia.
Qed.

Lemma parts_wf b2 b1 o p : denotes m1 m2 b2 b1 o p -> p < 2 ^ 64 ->
  let d := dbi_of_parts m1 m2 b2 b1 o in wf d /\ pos d = p /\ block2 d = b2 /\ block1 d = b1 /\ offset d = o.
Proof.
  intros D Hp d. unfold d, dbi_of_parts. rewrite mod12. cbn.
  destruct D as (E & A & B & C).
  assert (Q : b2 * (m1 * m2) + b1 * m1 + o = p) by nia.
  assert (0 <= p) by nia.
  rewrite Q, w64_small by lia.
  split; [|repeat split; reflexivity]. split; cbn; [repeat split; lia|lia].
Qed.

Lemma incr_wf d : wf d -> pos d + 1 < 2 ^ 64 ->
  wf (dbi_incr m1 m2 d) /\ pos (dbi_incr m1 m2 d) = pos d + 1.
Proof.
  intros [(E & A & B & C) P] L. unfold dbi_incr.
  assert (M1 : m1 < 2 ^ 64) by nia. assert (M2 : m2 < 2 ^ 64) by nia.
  rewrite (w64_small (pos d + 1)) by lia.
  rewrite (w64_small (offset d + 1)) by lia.
  rewrite (w64_small (block1 d + 1)) by lia.
  destruct (Z.eqb_spec (offset d + 1) m1) as [F|F].
  - destruct (Z.eqb_spec (block1 d + 1) m2) as [G|G]; cbn.
    + assert (block2 d + 1 < 2 ^ 64) by nia.
      rewrite (w64_small (block2 d + 1)) by lia.
      split; [|reflexivity]. split; cbn; [|lia]. repeat split; try lia; nia.
    + split; [|reflexivity]. split; cbn; [|lia]. repeat split; try lia; nia.
  - cbn. split; [|reflexivity]. split; cbn; [|lia]. repeat split; lia.
Qed.

Lemma decr_wf d : wf d -> 0 < pos d ->
  wf (dbi_decr m1 m2 d) /\ pos (dbi_decr m1 m2 d) = pos d - 1.
Proof.
  intros [(E & A & B & C) P] L. unfold dbi_decr.
  assert (M1 : m1 < 2 ^ 64) by nia. assert (M2 : m2 < 2 ^ 64) by nia.
  rewrite (w64_small (pos d - 1)) by lia.
  rewrite (w64_small (m1 - 1)) by lia. rewrite (w64_small (m2 - 1)) by lia.
  destruct (Z.eqb_spec (offset d) 0) as [F|F].
  - destruct (Z.eqb_spec (block1 d) 0) as [G|G]; cbn.
    + assert (1 <= block2 d) by nia. assert (block2 d < 2 ^ 64) by nia.
      rewrite (w64_small (block2 d - 1)) by lia.
      split; [|reflexivity]. split; cbn; [|lia]. repeat split; try lia; nia.
    + rewrite (w64_small (block1 d - 1)) by lia.
      split; [|reflexivity]. split; cbn; [|lia]. repeat split; try lia; nia.
  - cbn. rewrite (w64_small (offset d - 1)) by lia.
    split; [|reflexivity]. split; cbn; [|lia]. repeat split; lia.
Qed.

Lemma add_wf d n : wf d -> 0 <= pos d + n < 2 ^ 64 ->
  wf (dbi_add m1 m2 d n) /\ pos (dbi_add m1 m2 d n) = pos d + n.
Proof.
  intros W L. unfold dbi_add. rewrite w64_small by lia. apply set_wf. lia.
Qed.
Lemma sub_wf d n : wf d -> 0 <= pos d - n < 2 ^ 64 ->
  wf (dbi_sub m1 m2 d n) /\ pos (dbi_sub m1 m2 d n) = pos d - n.
Proof.
  intros W L. unfold dbi_sub. rewrite w64_small by lia. apply set_wf. lia.
Qed.
Lemma shr_wf d n : wf d -> 0 <= n ->
  wf (dbi_shr m1 m2 d n) /\ pos (dbi_shr m1 m2 d n) = pos d / 2 ^ n.
Proof.
  intros [_ W] L. unfold dbi_shr. rewrite Z.shiftr_div_pow2 by lia. apply set_wf.
  split; [apply Z.div_pos; lia|].
  assert (0 < 2 ^ n) by lia.
  apply Z.div_lt_upper_bound; [lia|]. nia.
Qed.
(** subtraction of a number given as two's complement (negative offset) *)
Lemma add_neg_wf d n : wf d -> 0 <= n <= pos d ->
  dbi_add m1 m2 d (w64 (- n)) = dbi_sub m1 m2 d n.
Proof.
  intros [_ W] L. unfold dbi_add, dbi_sub, w64. f_equal.
  rewrite Zplus_mod_idemp_r. f_equal.
Qed.

Lemma wf_same_pos d e : wf d -> wf e -> (d = e <-> pos d = pos e).
Proof.
  intros [D P] [E Q]. split; [congruence|]. intros K.
  rewrite K in D. destruct (denotes_unique _ _ _ _ _ _ _ D E) as (A & B & C).
  destruct d, e; cbn in *; subst; reflexivity.
Qed.

Lemma compare_wf d e : wf d -> wf e ->
  (dbi_eqb d e = true <-> d = e) /\ (dbi_neb d e = true <-> d <> e) /\
  (dbi_ltb d e = true <-> pos d < pos e) /\ (dbi_leb d e = true <-> pos d <= pos e) /\
  (dbi_gtb d e = true <-> pos d > pos e) /\ (dbi_geb d e = true <-> pos d >= pos e) /\
  (pos e <= pos d -> dbi_diff d e = pos d - pos e).
Proof.
  intros D E. pose proof (wf_same_pos d e D E) as S.
  unfold dbi_eqb, dbi_neb, dbi_ltb, dbi_leb, dbi_gtb, dbi_geb, dbi_diff.
  split; [rewrite Z.eqb_eq; tauto|]. split.
  { destruct (Z.eqb_spec (pos d) (pos e)); cbn; split; intros; try discriminate; try reflexivity; tauto. }
  rewrite !Z.ltb_lt, !Z.leb_le.
  split; [lia|]. split; [lia|]. split; [lia|]. split; [lia|].
  intros. apply w64_small. destruct D as [_ ?], E as [_ ?]. lia.
Qed.
End P.

Section FL.
Variables raw bs vs : Z.
Hypothesis Hb : 0 < bs.
Hypothesis Hv : 0 < vs.
Hypothesis Hr : bs * vs <= raw.

Lemma file_length_val n : 0 <= n -> n / bs * raw + (n mod bs) * vs < 2 ^ 64 -> n < 2 ^ 64 ->
  file_length raw bs vs n = n / bs * raw + (n mod bs) * vs.
Proof.
  intros Hn Hl Hn2. unfold file_length.
  pose proof (Z.div_mod n bs ltac:(lia)) as E.
  pose proof (Z.mod_pos_bound n bs Hb) as B.
  assert (0 <= n / bs) by (apply Z.div_pos; lia).
  assert (0 <= n / bs * raw) by nia. assert (0 <= (n mod bs) * vs) by nia.
  replace (n - n / bs * bs) with (n mod bs) by lia.
  destruct (Z.eqb_spec (n mod bs) 0) as [F|F]; cbn [negb].
  - rewrite F in *. rewrite w64_small by lia. lia.
  - rewrite (w64_small (n mod bs)) by nia. rewrite w64_small by lia. reflexivity.
Qed.

Lemma file_round_trip n : 0 <= n -> n / bs * raw + (n mod bs) * vs < 2 ^ 64 -> n < 2 ^ 64 ->
  size_from_file_length raw bs vs (file_length raw bs vs n) = n.
Proof.
  intros Hn Hl Hn2. rewrite file_length_val by auto. unfold size_from_file_length.
  pose proof (Z.div_mod n bs ltac:(lia)) as E.
  pose proof (Z.mod_pos_bound n bs Hb) as B.
  assert (0 <= n / bs) by (apply Z.div_pos; lia).
  assert (R : 0 <= (n mod bs) * vs < raw) by nia.
  assert (D : (n / bs * raw + (n mod bs) * vs) / raw = n / bs).
  { symmetry. apply Z.div_unique with ((n mod bs) * vs); lia. }
  rewrite D. replace (n / bs * raw + (n mod bs) * vs - n / bs * raw) with ((n mod bs) * vs) by lia.
  rewrite (w64_small ((n mod bs) * vs)) by nia.
  rewrite Z.div_mul by lia.
  rewrite (w64_small (n / bs * bs)) by lia. rewrite w64_small by lia. lia.
Qed.

(** the recorded length is long enough for every element: element i lives in
    block i / bs at byte (i mod bs) * vs *)
Lemma file_length_covers n i : 0 <= i < n -> n / bs * raw + (n mod bs) * vs < 2 ^ 64 -> n < 2 ^ 64 ->
  i / bs * raw + (i mod bs) * vs + vs <= file_length raw bs vs n.
Proof.
  intros Hi Hl Hn2. rewrite file_length_val by lia.
  pose proof (Z.div_mod n bs ltac:(lia)) as E.
  pose proof (Z.mod_pos_bound n bs Hb) as B.
  pose proof (Z.div_mod i bs ltac:(lia)) as E'.
  pose proof (Z.mod_pos_bound i bs Hb) as B'.
  assert (i / bs <= n / bs) by (apply Z.div_le_mono; lia).
  assert (i / bs = n / bs \/ i / bs + 1 <= n / bs) as [Q|Q] by lia.
  - rewrite Q in *. assert (i mod bs + 1 <= n mod bs) by lia. nia.
  - assert ((i / bs + 1) * raw <= n / bs * raw) by nia.
    assert ((i mod bs + 1) * vs <= bs * vs) by nia. nia.
Qed.

(** any file length a program may hand in: the size computed never claims an
    element that is not completely contained in the file *)
Lemma size_fits len i : 0 <= len < 2 ^ 64 -> 0 <= i < size_from_file_length raw bs vs len ->
  len mod raw < bs * vs + vs ->
  i / bs * raw + (i mod bs) * vs + vs <= len.
Proof.
  intros Hl Hi Hp. unfold size_from_file_length in Hi.
  assert (0 < raw) by nia.
  pose proof (Z.div_mod len raw ltac:(lia)) as E.
  pose proof (Z.mod_pos_bound len raw ltac:(lia)) as B.
  assert (0 <= len / raw) by (apply Z.div_pos; lia).
  replace (len - len / raw * raw) with (len mod raw) in Hi by lia.
  rewrite (w64_small (len mod raw)) in Hi by nia.
  set (q := len / raw) in *. set (r := len mod raw) in *.
  assert (bs <= raw) by nia.
  rewrite (w64_small (q * bs)) in Hi by nia.
  assert (0 <= r / vs) by (apply Z.div_pos; lia).
  assert (r / vs < bs + 1) by (apply Z.div_lt_upper_bound; lia).
  pose proof (Z.div_mod r vs ltac:(lia)). pose proof (Z.mod_pos_bound r vs Hv).
  assert (q * bs + r / vs <= q * raw + r) by nia.
  rewrite (w64_small (q * bs + r / vs)) in Hi by nia.
  pose proof (Z.div_mod i bs ltac:(lia)) as E'.
  pose proof (Z.mod_pos_bound i bs Hb) as B'.
  assert (0 <= i / bs) by (apply Z.div_pos; lia).
  assert (i / bs < q \/ i / bs = q \/ q + 1 <= i / bs) as [Q|[Q|Q]] by lia.
  - assert ((i / bs + 1) * raw <= q * raw) by nia.
    assert ((i mod bs + 1) * vs <= bs * vs) by nia. nia.
  - rewrite Q in *. assert (i mod bs + 1 <= r / vs) by lia. nia.
  - exfalso. assert ((q + 1) * bs <= i / bs * bs) by (apply Z.mul_le_mono_nonneg_r; lia). lia.
Qed.
End FL.

Lemma C51_bij : forall m1 m2, 0 < m1 -> 0 < m2 -> m1 * m2 < 2 ^ 64 ->
  (forall p, 0 <= p < 2 ^ 64 ->
     let d := dbi_set m1 m2 p in denotes m1 m2 (block2 d) (block1 d) (offset d) p /\ pos d = p) /\
  (forall b2 b1 off p, denotes m1 m2 b2 b1 off p -> p < 2 ^ 64 ->
     dbi_of_parts m1 m2 b2 b1 off = dbi_set m1 m2 p) /\
  (forall b2 b1 off c2 c1 r p, denotes m1 m2 b2 b1 off p -> denotes m1 m2 c2 c1 r p ->
     b2 = c2 /\ b1 = c1 /\ off = r).
Proof.
  intros m1 m2 H1 H2 H3. split; [|split].
  - intros p Hp d. destruct (set_wf m1 m2 H1 H2 H3 p Hp) as [[W _] E].
    fold d in W, E. rewrite E in W. auto.
  - intros b2 b1 o p D Hp. destruct (parts_wf m1 m2 H1 H2 H3 b2 b1 o p D Hp) as (W & E & _).
    assert (0 <= p) by (destruct D as (-> & ? & ? & ?); nia).
    destruct (set_wf m1 m2 H1 H2 H3 p ltac:(lia)) as [W' E'].
    apply (wf_same_pos m1 m2); auto; congruence.
  - intros. eapply denotes_unique; eauto.
Qed.

Lemma C51_arith : forall m1 m2, 0 < m1 -> 0 < m2 -> m1 * m2 < 2 ^ 64 ->
  forall p, 0 <= p < 2 ^ 64 ->
  (p + 1 < 2 ^ 64 -> dbi_incr m1 m2 (dbi_set m1 m2 p) = dbi_set m1 m2 (p + 1)) /\
  (0 < p -> dbi_decr m1 m2 (dbi_set m1 m2 p) = dbi_set m1 m2 (p - 1)) /\
  (forall n, 0 <= p + n < 2 ^ 64 -> dbi_add m1 m2 (dbi_set m1 m2 p) n = dbi_set m1 m2 (p + n)) /\
  (forall n, 0 <= n <= p -> dbi_add m1 m2 (dbi_set m1 m2 p) (w64 (- n)) = dbi_set m1 m2 (p - n)) /\
  (forall n, 0 <= p - n < 2 ^ 64 -> dbi_sub m1 m2 (dbi_set m1 m2 p) n = dbi_set m1 m2 (p - n)) /\
  (forall n, 0 <= n -> dbi_shr m1 m2 (dbi_set m1 m2 p) n = dbi_set m1 m2 (p / 2 ^ n)).
Proof.
  intros m1 m2 H1 H2 H3 p Hp.
  destruct (set_wf m1 m2 H1 H2 H3 p Hp) as [W E].
  assert (K : forall d q, 0 <= q < 2 ^ 64 -> wf m1 m2 d -> pos d = q -> d = dbi_set m1 m2 q).
  { intros d q Hq Wd Ed. destruct (set_wf m1 m2 H1 H2 H3 q Hq) as [W' E'].
    apply (wf_same_pos m1 m2); auto; congruence. }
  split; [|split; [|split; [|split; [|split]]]].
  - intros L. destruct (incr_wf m1 m2 H1 H2 H3 _ W ltac:(lia)). apply K; auto; try lia.
  - intros L. destruct (decr_wf m1 m2 H1 H2 H3 _ W ltac:(lia)). apply K; auto; try lia.
  - intros n L. destruct (add_wf m1 m2 H1 H2 H3 _ n W ltac:(lia)). apply K; auto; try lia.
  - intros n L. rewrite (add_neg_wf m1 m2) by (auto; try lia).
    destruct (sub_wf m1 m2 H1 H2 H3 _ n W ltac:(lia)). apply K; auto; try lia.
  - intros n L. destruct (sub_wf m1 m2 H1 H2 H3 _ n W ltac:(lia)). apply K; auto; try lia.
  - intros n L. unfold dbi_shr. rewrite E, Z.shiftr_div_pow2 by lia. reflexivity.
Qed.

Lemma C51_cmp : forall m1 m2, 0 < m1 -> 0 < m2 -> m1 * m2 < 2 ^ 64 ->
  forall p q, 0 <= p < 2 ^ 64 -> 0 <= q < 2 ^ 64 ->
  let d := dbi_set m1 m2 p in let e := dbi_set m1 m2 q in
  dbi_eqb d e = (p =? q) /\ dbi_neb d e = negb (p =? q) /\
  dbi_ltb d e = (p <? q) /\ dbi_leb d e = (p <=? q) /\
  dbi_gtb d e = (p >? q) /\ dbi_geb d e = (p >=? q) /\
  (q <= p -> dbi_diff d e = p - q) /\
  (d = e <-> p = q).
Proof.
  intros m1 m2 H1 H2 H3 p q Hp Hq d e.
  destruct (set_wf m1 m2 H1 H2 H3 p Hp) as [W E].
  destruct (set_wf m1 m2 H1 H2 H3 q Hq) as [W' E'].
  fold d in W, E. fold e in W', E'.
  unfold dbi_eqb, dbi_neb, dbi_ltb, dbi_leb, dbi_gtb, dbi_geb.
  rewrite E, E', Z.gtb_ltb, Z.geb_leb.
  do 6 (split; [reflexivity|]). split.
  - intros. unfold dbi_diff. rewrite E, E'. apply w64_small. lia.
  - rewrite (wf_same_pos m1 m2) by auto. lia.
Qed.
