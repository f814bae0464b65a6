(** Proofs about the I/O statistics. *)
From Coq Require Import ZArith List Bool Arith Permutation Lia.
From Verif Require Import IoStatsModel IoStatsSpec.
Import ListNotations.
Open Scope Z_scope.

(** ** Lists *)
Fixpoint sumz {A} (f : A -> Z) (l : list A) : Z := match l with [] => 0 | a :: l => f a + sumz f l end.
Lemma sumz_app {A} (f : A -> Z) l l' : sumz f (l ++ l') = sumz f l + sumz f l'.
Proof. induction l; cbn; [reflexivity|]. rewrite IHl. lia. Qed.
Lemma sumz_lset {A} (f : A -> Z) l i a b : nth_error l i = Some b -> sumz f (lset l i a) = sumz f l - f b + f a.
Proof.
  revert i. induction l as [|c l IH]; intros [|i] H; cbn in *; try discriminate.
  - injection H as ->. lia.
  - rewrite (IH i H). lia.
Qed.
Lemma sumz_perm {A} (f : A -> Z) l l' : Permutation l l' -> sumz f l = sumz f l'.
Proof. induction 1; cbn; lia. Qed.
Lemma sumz_map {A B} (f : B -> Z) (g : A -> B) l : sumz f (map g l) = sumz (fun a => f (g a)) l.
Proof. induction l; cbn; [reflexivity|]. rewrite IHl. reflexivity. Qed.
Lemma sumz_ext {A} (f g : A -> Z) l : (forall a, In a l -> f a = g a) -> sumz f l = sumz g l.
Proof. induction l; intro H; cbn; [reflexivity|]. rewrite (H a), IHl; [reflexivity| |left; reflexivity]. intros; apply H; right; assumption. Qed.
Lemma Forall_lset {A} (P : A -> Prop) l i a : Forall P l -> P a -> Forall P (lset l i a).
Proof. intros H Ha. revert i. induction H; intros [|i]; cbn; constructor; auto. Qed.
Lemma Forall_nth {A} (P : A -> Prop) l i a : Forall P l -> nth_error l i = Some a -> P a.
Proof. intros H E. rewrite Forall_forall in H. apply H. eapply nth_error_In; eassumption. Qed.

Definition plain (x : mic) : Prop :=
  match x with MSec (XReset _) | MSec XIoReset | MSec XWaitReset | MSec XWaitReset1 | MSec XLast | MStamp KReset => False | _ => True end.
Definition plains (m : mach) : Prop := Forall (fun t => Forall plain (snd t)) (thr m).
Lemma idle_plains m : idle m -> plains m.
Proof. apply Forall_impl. intros t ->. constructor. Qed.
Lemma no_reset_tl e es : no_reset (e :: es) -> no_reset es.
Proof. intros H i. specialize (H i). cbn in H. tauto. Qed.
Lemma code_plain i c es : no_reset (ECall i c :: es) -> Forall plain (code c).
Proof. intro H. specialize (H i). cbn in H. destruct c; cbn; repeat constructor; exfalso; tauto. Qed.

Lemma step_plains e es m m' : no_reset (e :: es) -> plains m -> step e m = Some m' -> plains m'.
Proof.
  intros NR P E. unfold plains in *. destruct e as [d|i c|i]; cbn [step] in E.
  - injection E as <-. exact P.
  - destruct (nth_error (thr m) i) as [[now [|]]|] eqn:N; try discriminate. injection E as <-. cbn [thr].
    apply Forall_lset; [exact P|]. exact (code_plain i c es NR).
  - destruct (nth_error (thr m) i) as [[now [|[k|x] l]]|] eqn:N; try discriminate; injection E as <-; cbn [thr];
      pose proof (Forall_nth _ _ _ _ P N) as Q; cbn in Q; inversion Q; subst; apply Forall_lset; auto.
Qed.

(** ** Counters *)
Section Count.
  Variable P : stats -> Z.
  Variable phi : sec -> Z.
  Variable M : Z.
  Hypothesis HP : forall now x s, plain (MSec x) -> exists k, P (apply now x s) = P s + phi x + k * M.
  Definition mphi (x : mic) : Z := match x with MSec x => phi x | _ => 0 end.
  Definition pend (m : mach) : Z := sumz (fun t => sumz mphi (snd t)) (thr m).

  Lemma count_run es m m' : no_reset es -> plains m -> run es m = Some m' ->
    exists k, P (ms m') + pend m' = P (ms m) + pend m + over_calls (fun c => sumz mphi (code c)) es + k * M.
  Proof.
    revert m. induction es as [|e es IH]; intros m NR PL R; cbn [run] in R.
    - injection R as <-. exists 0. cbn. lia.
    - destruct (step e m) as [m1|] eqn:E; [|discriminate].
      pose proof (step_plains e es m m1 NR PL E) as PL1.
      destruct (IH m1 (no_reset_tl _ _ NR) PL1 R) as (k & K). clear IH R.
      destruct e as [d|i c|i]; cbn [step] in E.
      + injection E as <-. exists k. exact K.
      + destruct (nth_error (thr m) i) as [[now [|]]|] eqn:N; try discriminate. injection E as <-.
        exists k. rewrite K. unfold pend. cbn [thr ms over_calls]. rewrite (sumz_lset _ _ _ _ _ N). cbn [snd sumz]. lia.
      + destruct (nth_error (thr m) i) as [[now [|[q|x] l]]|] eqn:N; try discriminate; injection E as <-.
        * exists k. rewrite K. unfold pend. cbn [thr ms over_calls]. rewrite (sumz_lset _ _ _ _ _ N). cbn [snd sumz mphi]. lia.
        * pose proof (Forall_nth _ _ _ _ PL N) as Q. cbn in Q. inversion Q as [|? ? Q1 Q2]; subst.
          destruct (HP now x (ms m) Q1) as (k1 & K1). exists (k + k1). rewrite K. unfold pend. cbn [thr ms over_calls].
          rewrite K1, (sumz_lset _ _ _ _ _ N). cbn [snd sumz mphi]. lia.
  Qed.
  Lemma pend_idle m : idle m -> pend m = 0.
  Proof. unfold idle, pend. induction 1 as [|t l H _ IH]; cbn; [reflexivity|]. rewrite H. cbn. exact IH. Qed.
  Lemma count_idle es m m' : no_reset es -> idle m -> run es m = Some m' -> idle m' ->
    exists k, P (ms m') - P (ms m) = over_calls (fun c => sumz mphi (code c)) es + k * M.
  Proof.
    intros NR I R I'. destruct (count_run es m m' NR (idle_plains _ I) R) as (k & K). exists k.
    rewrite (pend_idle _ I), (pend_idle _ I') in K. lia.
  Qed.
End Count.

Lemma u32_cong z : exists k, u32 z = z + k * 2 ^ 32.
Proof. exists (- (z / 2 ^ 32)). unfold u32. pose proof (Z.div_mod z (2 ^ 32) ltac:(discriminate)). lia. Qed.
Lemma i64_cong z : exists k, i64 z = z + k * 2 ^ 64.
Proof. exists (- ((z + 2 ^ 63) / 2 ^ 64)). unfold i64. pose proof (Z.div_mod (z + 2 ^ 63) (2 ^ 64) ltac:(discriminate)). lia. Qed.
Lemma u32_eq a b k : a = b + k * 2 ^ 32 -> u32 a = u32 b.
Proof. intros ->. unfold u32. apply Z_mod_plus_full. Qed.
Lemma i64_eq a b k : a = b + k * 2 ^ 64 -> i64 a = i64 b.
Proof. intros ->. unfold i64. replace (b + k * 2 ^ 64 + 2 ^ 63) with (b + 2 ^ 63 + k * 2 ^ 64) by lia. rewrite Z_mod_plus_full. reflexivity. Qed.
Lemma over_calls_ext f g es : (forall c, f c = g c) -> over_calls f es = over_calls g es.
Proof. intro H. induction es as [|[d|i c|i] es IH]; cbn; rewrite ?H, ?IH; reflexivity. Qed.

Definition ops_phi (w : bool) (x : sec) : Z :=
  match x with XStart v _ => if Bool.eqb v w then 1 else 0 | XCancel v _ => if Bool.eqb v w then -1 else 0 | _ => 0 end.
Definition vol_phi (w : bool) (x : sec) : Z :=
  match x with XStart v n => if Bool.eqb v w then n else 0 | XCancel v n => if Bool.eqb v w then - n else 0 | _ => 0 end.
Definition cops_phi (w : bool) (x : sec) : Z :=
  match x with XCached v _ => if Bool.eqb v w then 1 else 0 | _ => 0 end.
Definition cvol_phi (w : bool) (x : sec) : Z :=
  match x with XCached v n => if Bool.eqb v w then n else 0 | _ => 0 end.

Ltac cong_tac F z := destruct (F z) as (?k & ?K); eexists; rewrite K; lia.
Lemma ops_HP w now x s : plain (MSec x) -> exists k, ops (get_dir w (apply now x s)) = ops (get_dir w s) + ops_phi w x + k * 2 ^ 32.
Proof.
  intro PL. destruct x as [v n|v|v n|v n| | |r|r|v| | | |]; cbn [plain] in PL; try contradiction; cbn [ops_phi];
    try (exists 0; destruct w; cbn; lia); destruct v, w; cbn; try (exists 0; lia).
  - destruct (u32_cong (ops (dwr s) + 1)) as (k & K). exists k. rewrite K. lia.
  - destruct (u32_cong (ops (drd s) + 1)) as (k & K). exists k. rewrite K. lia.
  - destruct (u32_cong (ops (dwr s) - 1)) as (k & K). exists k. rewrite K. lia.
  - destruct (u32_cong (ops (drd s) - 1)) as (k & K). exists k. rewrite K. lia.
Qed.
Lemma vol_HP w now x s : plain (MSec x) -> exists k, vol (get_dir w (apply now x s)) = vol (get_dir w s) + vol_phi w x + k * 2 ^ 64.
Proof.
  intro PL. destruct x as [v n|v|v n|v n| | |r|r|v| | | |]; cbn [plain] in PL; try contradiction; cbn [vol_phi];
    try (exists 0; destruct w; cbn; lia); destruct v, w; cbn [Bool.eqb apply get_dir set_dir drd dwr vol]; try (exists 0; lia).
  - destruct (i64_cong (vol (dwr s) + n)) as (k & K). exists k. rewrite K. lia.
  - destruct (i64_cong (vol (drd s) + n)) as (k & K). exists k. rewrite K. lia.
  - destruct (i64_cong (vol (dwr s) - n)) as (k & K). exists k. rewrite K. lia.
  - destruct (i64_cong (vol (drd s) - n)) as (k & K). exists k. rewrite K. lia.
Qed.
Lemma cops_HP w now x s : plain (MSec x) -> exists k, c_ops (get_dir w (apply now x s)) = c_ops (get_dir w s) + cops_phi w x + k * 2 ^ 32.
Proof.
  intro PL. destruct x as [v n|v|v n|v n| | |r|r|v| | | |]; cbn [plain] in PL; try contradiction; cbn [cops_phi];
    try (exists 0; destruct w; cbn; lia); destruct v, w; cbn [Bool.eqb apply get_dir set_dir drd dwr c_ops]; try (exists 0; lia).
  - destruct (u32_cong (c_ops (dwr s) + 1)) as (k & K). exists k. rewrite K. lia.
  - destruct (u32_cong (c_ops (drd s) + 1)) as (k & K). exists k. rewrite K. lia.
Qed.
Lemma cvol_HP w now x s : plain (MSec x) -> exists k, c_vol (get_dir w (apply now x s)) = c_vol (get_dir w s) + cvol_phi w x + k * 2 ^ 64.
Proof.
  intro PL. destruct x as [v n|v|v n|v n| | |r|r|v| | | |]; cbn [plain] in PL; try contradiction; cbn [cvol_phi];
    try (exists 0; destruct w; cbn; lia); destruct v, w; cbn [Bool.eqb apply get_dir set_dir drd dwr c_vol]; try (exists 0; lia).
  - destruct (i64_cong (c_vol (dwr s) + n)) as (k & K). exists k. rewrite K. lia.
  - destruct (i64_cong (c_vol (drd s) + n)) as (k & K). exists k. rewrite K. lia.
Qed.

Lemma counters es m m' w : no_reset es -> idle m -> run es m = Some m' -> idle m' ->
  u32 (ops (get_dir w (ms m')) - ops (get_dir w (ms m))) = u32 (over_calls (is_op w) es)
  /\ i64 (vol (get_dir w (ms m')) - vol (get_dir w (ms m))) = i64 (over_calls (op_bytes w) es)
  /\ u32 (c_ops (get_dir w (ms m')) - c_ops (get_dir w (ms m))) = u32 (over_calls (is_cached w) es)
  /\ i64 (c_vol (get_dir w (ms m')) - c_vol (get_dir w (ms m))) = i64 (over_calls (cached_bytes w) es).
Proof.
  intros NR I R I'. repeat split.
  - destruct (count_idle (fun s => ops (get_dir w s)) (ops_phi w) (2 ^ 32) (ops_HP w) es m m' NR I R I') as (k & K).
    apply u32_eq with k. rewrite K. f_equal. apply over_calls_ext. intros [v n|v|v n|v n|r|r| |]; destruct w; try destruct v; cbn; reflexivity.
  - destruct (count_idle (fun s => vol (get_dir w s)) (vol_phi w) (2 ^ 64) (vol_HP w) es m m' NR I R I') as (k & K).
    apply i64_eq with k. rewrite K. f_equal. apply over_calls_ext. intros [v n|v|v n|v n|r|r| |]; destruct w; try destruct v; cbn; lia.
  - destruct (count_idle (fun s => c_ops (get_dir w s)) (cops_phi w) (2 ^ 32) (cops_HP w) es m m' NR I R I') as (k & K).
    apply u32_eq with k. rewrite K. f_equal. apply over_calls_ext. intros [v n|v|v n|v n|r|r| |]; destruct w; try destruct v; cbn; reflexivity.
  - destruct (count_idle (fun s => c_vol (get_dir w s)) (cvol_phi w) (2 ^ 64) (cvol_HP w) es m m' NR I R I') as (k & K).
    apply i64_eq with k. rewrite K. f_equal. apply over_calls_ext. intros [v n|v|v n|v n|r|r| |]; destruct w; try destruct v; cbn; lia.
Qed.

(** ** Serial times: sums over the timestamps *)
Section Sum.
  Variable P : stats -> Z.
  Variable phi : sec -> Z -> Z.
  Variable psi : kind -> Z -> Z.
  Hypothesis HP : forall now x s, plain (MSec x) -> P (apply now x s) = P s + phi x now.
  (** what the timestamp of a thread still has to contribute *)
  Fixpoint seg (now : Z) (l : list mic) : Z :=
    match l with MSec x :: l => phi x now + seg now l | _ => 0 end.
  Fixpoint wfm (l : list mic) : Prop :=
    match l with
    | [] => True
    | MStamp k :: l => (forall now, seg now l = psi k now) /\ wfm l
    | MSec _ :: l => wfm l
    end.
  Hypothesis HC : forall c, Forall plain (code c) -> wfm (code c) /\ forall now, seg now (code c) = 0.
  Definition owed (m : mach) : Z := sumz (fun t => seg (fst t) (snd t)) (thr m).
  Definition logsum (l : list (kind * Z)) : Z := sumz (fun e => psi (fst e) (snd e)) l.

  Lemma sum_run es m m' : no_reset es -> plains m -> Forall (fun t => wfm (snd t)) (thr m) -> run es m = Some m' ->
    exists l, log m' = log m ++ l /\ P (ms m') + owed m' = P (ms m) + owed m + logsum l.
  Proof.
    revert m. induction es as [|e es IH]; intros m NR PL W R; cbn [run] in R.
    - injection R as <-. exists []. rewrite app_nil_r. split; [reflexivity|]. cbn. lia.
    - destruct (step e m) as [m1|] eqn:E; [|discriminate].
      pose proof (step_plains e es m m1 NR PL E) as PL1.
      destruct e as [d|i c|i]; cbn [step] in E.
      + injection E as <-. destruct (IH _ (no_reset_tl _ _ NR) PL1 W R) as (l & L & K). exists l. split; [exact L|exact K].
      + destruct (nth_error (thr m) i) as [[now [|]]|] eqn:N; try discriminate. injection E as <-.
        destruct (HC c (code_plain i c es NR)) as (C1 & C2).
        destruct (IH _ (no_reset_tl _ _ NR) PL1 (Forall_lset _ _ _ (now, code c) W C1) R) as (l & L & K). exists l. split; [exact L|].
        rewrite K. unfold owed. cbn [thr ms]. rewrite (sumz_lset _ _ _ _ _ N). cbn [fst snd seg]. rewrite C2. lia.
      + destruct (nth_error (thr m) i) as [[now [|[q|x] l0]]|] eqn:N; try discriminate; injection E as <-;
          pose proof (Forall_nth _ _ _ _ W N) as W0; cbn [snd wfm] in W0.
        * destruct W0 as (W1 & W2). destruct (IH _ (no_reset_tl _ _ NR) PL1 (Forall_lset _ _ _ (clock m, l0) W W2) R) as (l & L & K).
          exists ((q, clock m) :: l). split; [rewrite L; cbn [log]; rewrite <- app_assoc; reflexivity|].
          rewrite K. unfold owed. cbn [thr ms]. rewrite (sumz_lset _ _ _ _ _ N). cbn [fst snd seg]. rewrite W1. unfold logsum. cbn [sumz fst snd]. lia.
        * pose proof (Forall_nth _ _ _ _ PL N) as Q. cbn in Q. inversion Q as [|? ? Q1 Q2]; subst.
          destruct (IH _ (no_reset_tl _ _ NR) PL1 (Forall_lset _ _ _ (now, l0) W W0) R) as (l & L & K). exists l. split; [exact L|].
          rewrite K. unfold owed. cbn [thr ms]. rewrite (HP now x (ms m) Q1), (sumz_lset _ _ _ _ _ N). cbn [fst snd seg]. lia.
  Qed.
  Lemma owed_idle m : idle m -> owed m = 0.
  Proof. unfold idle, owed. induction 1 as [|t l H _ IH]; cbn; [reflexivity|]. rewrite H. cbn. exact IH. Qed.
  Lemma sum_idle es m m' : no_reset es -> idle m -> run es m = Some m' -> idle m' ->
    exists l, log m' = log m ++ l /\ P (ms m') = P (ms m) + logsum l.
  Proof.
    intros NR I R I'. destruct (sum_run es m m' NR (idle_plains _ I)) as (l & L & K).
    - eapply Forall_impl; [|exact I]. intros t ->. exact Logic.I.
    - exact R.
    - exists l. split; [exact L|]. rewrite (owed_idle _ I), (owed_idle _ I') in K. lia.
  Qed.
End Sum.

(** ** The clocks *)
Definition pot (x : tim) : Z := t_sum x - acc x * p_begin x.
Lemma pot_upd d now x : d = 1 \/ d = -1 -> pot (tim_upd d now x) = pot x - d * now.
Proof. intros _. unfold pot, tim_upd. cbn [t_sum acc p_begin]. ring. Qed.
Lemma acc_upd d now x : acc (tim_upd d now x) = acc x + d.
Proof. reflexivity. Qed.

(** signs: a start is [1], an end [-1] *)
Definition sgn_io (w : bool) (x : sec) : Z :=
  match x with XStart v _ => if Bool.eqb v w then 1 else 0 | XFin v => if Bool.eqb v w then -1 else 0 | _ => 0 end.
Definition ksgn_io (w : bool) (k : kind) : Z :=
  match k with KStart v => if Bool.eqb v w then 1 else 0 | KFin v => if Bool.eqb v w then -1 else 0 | _ => 0 end.
Definition sgn_w (r : bool) (x : sec) : Z :=
  match x with XWait v => if Bool.eqb v r then 1 else 0 | XWaited v => if Bool.eqb v r then -1 else 0 | _ => 0 end.
Definition ksgn_w (r : bool) (k : kind) : Z :=
  match k with KWait v => if Bool.eqb v r then 1 else 0 | KWaited v => if Bool.eqb v r then -1 else 0 | _ => 0 end.
Definition w_one (r : bool) (s : stats) : tim := if r then w_rd s else w_wr s.

Lemma io_pot w now x s : plain (MSec x) -> pot (clk (get_dir w (apply now x s))) = pot (clk (get_dir w s)) + - sgn_io w x * now.
Proof.
  intro PL. destruct x as [v n|v|v n|v n| | |r|r|v| | | |]; cbn [plain] in PL; try contradiction; cbn [sgn_io];
    try (destruct w; cbn; lia); destruct v, w; cbn [Bool.eqb apply get_dir set_dir drd dwr clk]; rewrite ?pot_upd by lia; lia.
Qed.
Lemma io_acc w now x s : plain (MSec x) -> acc (clk (get_dir w (apply now x s))) = acc (clk (get_dir w s)) + sgn_io w x.
Proof.
  intro PL. destruct x as [v n|v|v n|v n| | |r|r|v| | | |]; cbn [plain] in PL; try contradiction; cbn [sgn_io];
    try (destruct w; cbn; lia); destruct v, w; cbn [Bool.eqb apply get_dir set_dir drd dwr clk]; rewrite ?acc_upd; lia.
Qed.
Lemma w_pot q now x s : plain (MSec x) -> pot (w_one q (apply now x s)) = pot (w_one q s) + - sgn_w q x * now.
Proof.
  intro PL. destruct x as [v n|v|v n|v n| | |r|r|v| | | |]; cbn [plain] in PL; try contradiction; cbn [sgn_w];
    try (destruct v, q; cbn; lia); try (destruct q; cbn; lia); destruct r, q; cbn [Bool.eqb apply w_one wait_upd set_waits w_rd w_wr]; rewrite ?pot_upd by lia; lia.
Qed.
Lemma w_acc q now x s : plain (MSec x) -> acc (w_one q (apply now x s)) = acc (w_one q s) + sgn_w q x.
Proof.
  intro PL. destruct x as [v n|v|v n|v n| | |r|r|v| | | |]; cbn [plain] in PL; try contradiction; cbn [sgn_w];
    try (destruct v, q; cbn; lia); try (destruct q; cbn; lia); destruct r, q; cbn [Bool.eqb apply w_one wait_upd set_waits w_rd w_wr]; rewrite ?acc_upd; lia.
Qed.
Lemma wa_pot now x s : plain (MSec x) -> pot (w_all (apply now x s)) = pot (w_all s) + - (sgn_w true x + sgn_w false x) * now.
Proof.
  intro PL. destruct x as [v n|v|v n|v n| | |r|r|v| | | |]; cbn [plain] in PL; try contradiction; cbn [sgn_w];
    try (destruct v; cbn; lia); try (cbn; lia); destruct r; cbn [Bool.eqb apply wait_upd set_waits w_all]; rewrite ?pot_upd by lia; lia.
Qed.
Lemma wa_acc now x s : plain (MSec x) -> acc (w_all (apply now x s)) = acc (w_all s) + (sgn_w true x + sgn_w false x).
Proof.
  intro PL. destruct x as [v n|v|v n|v n| | |r|r|v| | | |]; cbn [plain] in PL; try contradiction; cbn [sgn_w];
    try (destruct v; cbn; lia); try (cbn; lia); destruct r; cbn [Bool.eqb apply wait_upd set_waits w_all]; rewrite ?acc_upd; lia.
Qed.

Lemma psum_times (f : kind -> Z -> Z) a b g l :
  (forall k t, f k t = (if kind_eqb a k then g t else 0) - (if kind_eqb b k then g t else 0)) ->
  logsum f l = sumz g (times a l) - sumz g (times b l).
Proof.
  intro H. unfold logsum, times. induction l as [|[k t] l IH]; cbn [sumz filter map fst snd]; [reflexivity|].
  rewrite H, IH. destruct (kind_eqb a k), (kind_eqb b k); cbn [map sumz snd]; lia.
Qed.
Lemma sumz_one {A} (l : list A) : sumz (fun _ => 1) l = Z.of_nat (length l).
Proof. induction l; cbn [sumz length]; lia. Qed.
Lemma total_sum ivs : total ivs = sumz (fun t => t) (map snd ivs) - sumz (fun t => t) (map fst ivs).
Proof. unfold total. induction ivs as [|i l IH]; cbn [fold_right map sumz]; [reflexivity|]. rewrite IH. lia. Qed.

Section Clock.
  Variable C : stats -> tim.
  Variable sg : sec -> Z.
  Variable ks : kind -> Z.
  Variable a b : kind.
  Hypothesis HPot : forall now x s, plain (MSec x) -> pot (C (apply now x s)) = pot (C s) + - sg x * now.
  Hypothesis HAcc : forall now x s, plain (MSec x) -> acc (C (apply now x s)) = acc (C s) + sg x.
  Hypothesis HK : forall k, ks k = (if kind_eqb a k then 1 else 0) - (if kind_eqb b k then 1 else 0).
  Hypothesis HC : forall c, Forall plain (code c) ->
    wfm (fun x now => - sg x * now) (fun k now => - ks k * now) (code c) /\
    wfm (fun x now => sg x) (fun k now => ks k) (code c) /\
    (forall now, seg (fun x now => - sg x * now) now (code c) = 0) /\ (forall now, seg (fun x now => sg x) now (code c) = 0).

  Lemma clock_sum es m m' ivs : no_reset es -> idle m -> run es m = Some m' -> idle m' -> acc (C (ms m)) = 0 ->
    (forall l, log m' = log m ++ l -> intervals a b l ivs) ->
    acc (C (ms m')) = 0 /\ t_sum (C (ms m')) = t_sum (C (ms m)) + total ivs.
  Proof.
    intros NR I R I' A0 IV.
    destruct (sum_idle (fun s => pot (C s)) (fun x now => - sg x * now) (fun k now => - ks k * now) HPot) with (es := es) (m := m) (m' := m') as (l & L & K1); try assumption.
    { intros c PL. destruct (HC c PL) as (? & ? & ? & ?). split; assumption. }
    destruct (sum_idle (fun s => acc (C s)) (fun x now => sg x) (fun k now => ks k) HAcc) with (es := es) (m := m) (m' := m') as (l2 & L2 & K2); try assumption.
    { intros c PL. destruct (HC c PL) as (? & ? & ? & ?). split; assumption. }
    rewrite L in L2. apply app_inv_head in L2. subst l2. destruct (IV l L) as (I1 & I2).
    rewrite (psum_times (fun k _ => ks k) a b (fun _ => 1)) in K2.
    2:{ intros k _. apply HK. }
    rewrite (psum_times (fun k now => - ks k * now) a b (fun t => - t)) in K1.
    2:{ intros k t. rewrite HK. destruct (kind_eqb a k), (kind_eqb b k); lia. }
    rewrite (sumz_perm _ _ _ I1), (sumz_perm _ _ _ I2) in K1. rewrite (sumz_perm _ _ _ I1), (sumz_perm _ _ _ I2) in K2.
    rewrite !sumz_one, !map_length in K2. split; [lia|].
    assert (N : forall l : list Z, sumz (fun t => - t) l = - sumz (fun t => t) l) by (induction l0; cbn [sumz]; lia).
    rewrite !N in K1. rewrite total_sum. unfold pot in K1. rewrite A0 in K1. replace (acc (C (ms m'))) with 0 in K1 by lia. lia.
  Qed.
End Clock.

Ltac wf_tac := intros c _; destruct c as [v n|v|v n|v n|r|r| |]; repeat split; intros; try (destruct v; cbn; lia); try (destruct r; cbn; lia); try (cbn; lia).

Lemma io_clock es m m' w ivs : no_reset es -> idle m -> run es m = Some m' -> idle m' -> acc (clk (get_dir w (ms m))) = 0 ->
  (forall l, log m' = log m ++ l -> intervals (KStart w) (KFin w) l ivs) ->
  acc (clk (get_dir w (ms m'))) = 0 /\ t_sum (clk (get_dir w (ms m'))) = t_sum (clk (get_dir w (ms m))) + total ivs.
Proof.
  apply (clock_sum (fun s => clk (get_dir w s)) (sgn_io w) (ksgn_io w) (KStart w) (KFin w) (io_pot w) (io_acc w)).
  - intros [v|v|v|v|]; destruct w; try destruct v; reflexivity.
  - destruct w; wf_tac.
Qed.
Lemma w_clock es m m' r ivs : no_reset es -> idle m -> run es m = Some m' -> idle m' -> acc (w_one r (ms m)) = 0 ->
  (forall l, log m' = log m ++ l -> intervals (KWait r) (KWaited r) l ivs) ->
  acc (w_one r (ms m')) = 0 /\ t_sum (w_one r (ms m')) = t_sum (w_one r (ms m)) + total ivs.
Proof.
  apply (clock_sum (w_one r) (sgn_w r) (ksgn_w r) (KWait r) (KWaited r) (w_pot r) (w_acc r)).
  - intros [v|v|v|v|]; destruct r; try destruct v; reflexivity.
  - destruct r; intros c _; destruct c as [v n|v|v n|v n|r|r| |]; repeat split; intros; try (destruct v; cbn; lia); try (destruct r; cbn; lia); try (cbn; lia).
Qed.
(** All waits: the invariant is that its potential is the sum of the other two. *)
Definition both (s : stats) : Prop := pot (w_all s) = pot (w_rd s) + pot (w_wr s) /\ acc (w_all s) = acc (w_rd s) + acc (w_wr s).
Lemma both_apply now x s : plain (MSec x) -> both s -> both (apply now x s).
Proof.
  intros PL (B1 & B2). pose proof (w_pot true now x s PL). pose proof (w_pot false now x s PL). pose proof (w_acc true now x s PL). pose proof (w_acc false now x s PL).
  pose proof (wa_pot now x s PL). pose proof (wa_acc now x s PL). cbn [w_one] in *. unfold both. lia.
Qed.
Lemma both_run es m m' : no_reset es -> plains m -> run es m = Some m' -> both (ms m) -> both (ms m').
Proof.
  revert m. induction es as [|e es IH]; intros m NR PL R B; cbn [run] in R.
  - injection R as <-. exact B.
  - destruct (step e m) as [m1|] eqn:E; [|discriminate]. pose proof (step_plains e es m m1 NR PL E) as PL1.
    apply (IH m1 (no_reset_tl _ _ NR) PL1 R). destruct e as [d|i c|i]; cbn [step] in E.
    + injection E as <-. exact B.
    + destruct (nth_error (thr m) i) as [[now [|]]|] eqn:N; try discriminate. injection E as <-. exact B.
    + destruct (nth_error (thr m) i) as [[now [|[q|x] l0]]|] eqn:N; try discriminate; injection E as <-; [exact B|].
      pose proof (Forall_nth _ _ _ _ PL N) as Q. cbn in Q. inversion Q as [|? ? Q1 Q2]; subst. exact (both_apply now x _ Q1 B).
Qed.

(** ** Whole calls *)
Lemma lset_same {A} (l : list A) i a b : lset (lset l i a) i b = lset l i b.
Proof. revert i. induction l as [|c l IH]; intros [|i]; cbn; try reflexivity. rewrite IH. reflexivity. Qed.
Lemma nth_lset {A} (l : list A) i a b : nth_error l i = Some b -> nth_error (lset l i a) i = Some a.
Proof. revert i. induction l as [|c l IH]; intros [|i] H; cbn in *; try discriminate; auto. Qed.
Lemma run_app es es' m : run (es ++ es') m = match run es m with Some m' => run es' m' | None => None end.
Proof. revert m. induction es as [|e es IH]; intro m; cbn; [reflexivity|]. destruct (step e m); [apply IH|reflexivity]. Qed.

(** the effect of a call that is not interrupted *)
Fixpoint exec (now clk : Z) (l : list mic) (s : stats) : Z * stats * list (kind * Z) :=
  match l with
  | [] => (now, s, [])
  | MStamp k :: l => let '(n, s', g) := exec clk clk l s in (n, s', (k, clk) :: g)
  | MSec x :: l => exec now clk l (apply now x s)
  end.
Lemma run_exec i l : forall m now, nth_error (thr m) i = Some (now, l) ->
  run (repeat (EStep i) (length l)) m =
    (let '(n, s, g) := exec now (clock m) l (ms m) in
     Some (mkM s (clock m) (lset (thr m) i (n, [])) (log m ++ g))).
Proof.
  induction l as [|[k|x] l IH]; intros m now N.
  - cbn. rewrite app_nil_r. f_equal. destruct m as [s c t g]; cbn in *. f_equal.
    clear -N. revert i N. induction t as [|a t IH]; intros [|i] N; cbn in *; try discriminate; [injection N as ->; reflexivity|]. rewrite <- (IH i N). reflexivity.
  - cbn [length repeat run step]. rewrite N. rewrite (IH _ (clock m)); [|cbn [thr]; exact (nth_lset _ _ _ _ N)].
    cbn [clock ms thr log exec]. destruct (exec (clock m) (clock m) l (ms m)) as [[n s] g]. rewrite lset_same, <- app_assoc. reflexivity.
  - cbn [length repeat run step]. rewrite N. rewrite (IH _ now); [|cbn [thr]; exact (nth_lset _ _ _ _ N)].
    cbn [clock ms thr log exec]. destruct (exec now (clock m) l (apply now x (ms m))) as [[n s] g]. rewrite lset_same. reflexivity.
Qed.
Lemma steps_code c : steps c = length (code c).
Proof. destruct c; reflexivity. Qed.
Lemma run_call i c m m' : run (ECall i c :: repeat (EStep i) (steps c)) m = Some m' ->
  exists now, nth_error (thr m) i = Some (now, []) /\
    let '(n, s, g) := exec now (clock m) (code c) (ms m) in m' = mkM s (clock m) (lset (thr m) i (n, [])) (log m ++ g).
Proof.
  cbn [run step]. destruct (nth_error (thr m) i) as [[now [|]]|] eqn:N; try discriminate. intro R. exists now. split; [reflexivity|].
  rewrite steps_code, (run_exec i (code c) _ now) in R; [|cbn [thr]; exact (nth_lset _ _ _ _ N)].
  cbn [clock ms thr log] in R. destruct (exec now (clock m) (code c) (ms m)) as [[n s] g]. injection R as <-. rewrite lset_same. reflexivity.
Qed.

(** ** Parallel times *)
Definition evs (sg : kind -> Z) (l : list (kind * Z)) : list (Z * Z) :=
  map (fun e => (sg (fst e), snd e)) (filter (fun e => negb (sg (fst e) =? 0)) l).
Definition tfold (l : list (Z * Z)) (x : tim) : tim := fold_left (fun x e => tim_upd (fst e) (snd e) x) l x.
Definition pfold (l : list (Z * Z)) (x : par) : par := fold_left (fun x e => par_upd (fst e) (snd e) x) l x.
Definition ksgn_any (k : kind) : Z := match k with KStart _ => 1 | KFin _ => -1 | _ => 0 end.

(** the tail of a serial run: what is added to the log, and what becomes of the clocks *)
Lemma serial_run es : serial es -> forall m m', idle m -> no_reset es -> run es m = Some m' ->
  idle m' /\ clock m <= clock m' /\ exists l, log m' = log m ++ l
    /\ (forall w, clk (get_dir w (ms m')) = tfold (evs (ksgn_io w) l) (clk (get_dir w (ms m))))
    /\ ios (ms m') = pfold (evs ksgn_any l) (ios (ms m))
    /\ Forall (fun e => clock m <= snd e <= clock m') l
    /\ (forall l1 a l2, l = l1 ++ a :: l2 -> Forall (fun e => snd a <= snd e) l2).
Proof.
  induction 1 as [|d es S IH|i c es S IH]; intros m m' I NR R.
  - injection R as <-. split; [exact I|]. split; [lia|]. exists []. rewrite app_nil_r. repeat split; auto. intros [|] a l2 E; discriminate E.
  - cbn [run step] in R. destruct (IH (mkM (ms m) (clock m + Z.of_nat d) (thr m) (log m)) m' I (no_reset_tl _ _ NR) R) as (I' & CL & l & L & K1 & K2 & F & SO).
    split; [exact I'|]. cbn [clock ms log] in *. split; [lia|]. exists l. repeat split; auto.
    eapply Forall_impl; [|exact F]. cbn. intros; lia.
  - rewrite app_comm_cons, run_app in R.
    destruct (run (ECall i c :: repeat (EStep i) (steps c)) m) as [m1|] eqn:R1; [|discriminate].
    destruct (run_call _ _ _ _ R1) as (now & N & EX).
    assert (NR' : no_reset es). { intro j. specialize (NR j). cbn in NR. rewrite !in_app_iff in NR. tauto. }
    assert (NC : c <> CReset /\ c <> CResetWait). { specialize (NR i). cbn in NR. split; intros ->; tauto. }
    destruct (exec now (clock m) (code c) (ms m)) as [[n s] g] eqn:X. subst m1.
    assert (I1 : idle (mkM s (clock m) (lset (thr m) i (n, [])) (log m ++ g))) by (apply Forall_lset; [exact I|reflexivity]).
    destruct (IH _ m' I1 NR' R) as (I' & CL & l & L & K1 & K2 & F & SO). cbn [clock ms log] in *.
    split; [exact I'|]. split; [exact CL|]. exists (g ++ l). split; [rewrite L, app_assoc; reflexivity|].
    assert (G : (forall w, clk (get_dir w s) = tfold (evs (ksgn_io w) g) (clk (get_dir w (ms m))))
      /\ ios s = pfold (evs ksgn_any g) (ios (ms m)) /\ (g = [] \/ exists k, g = [(k, clock m)])).
    { destruct c as [v z|v|v z|v z|r|r| |]; cbn [code exec apply] in X; try (exfalso; tauto); injection X as <- <- <-;
        (split; [intro w; try destruct v; try destruct w; reflexivity|]); (split; [try destruct v; reflexivity|]); eauto. }
    destruct G as (G1 & G2 & G3). repeat split.
    + intro w. rewrite K1, G1. unfold evs, tfold. rewrite filter_app, map_app, fold_left_app. reflexivity.
    + rewrite K2, G2. unfold evs, pfold. rewrite filter_app, map_app, fold_left_app. reflexivity.
    + apply Forall_app. split; [|exact F]. destruct G3 as [-> | (k & ->)]; constructor; [cbn; lia|constructor].
    + intros l1 a l2 E. destruct G3 as [-> | (k & ->)]; [exact (SO l1 a l2 E)|].
      destruct l1 as [|e l1]; cbn in E; injection E as <- E.
      * subst l2. eapply Forall_impl; [|exact F]. cbn. intros; lia.
      * exact (SO l1 a l2 E).
Qed.

(** counting ticks *)
Fixpoint cnt (f : Z -> bool) (lo : Z) (n : nat) : Z :=
  match n with O => 0 | S n => (if f lo then 1 else 0) + cnt f (lo + 1) n end.
Lemma cnt_app f a b : forall lo, cnt f lo (a + b) = cnt f lo a + cnt f (lo + Z.of_nat a) b.
Proof.
  induction a as [|a IH]; intro lo; cbn [cnt Nat.add].
  - rewrite Z.add_0_r. reflexivity.
  - rewrite IH. replace (lo + 1 + Z.of_nat a) with (lo + Z.of_nat (S a)) by lia. lia.
Qed.
Lemma cnt_ext f g n : forall lo, (forall t, lo <= t < lo + Z.of_nat n -> f t = g t) -> cnt f lo n = cnt g lo n.
Proof. induction n as [|n IH]; intros lo H; cbn [cnt]; [reflexivity|]. rewrite (H lo) by lia. rewrite IH; [reflexivity|]. intros; apply H; lia. Qed.
Lemma cnt_const b n : forall lo, cnt (fun _ => b) lo n = if b then Z.of_nat n else 0.
Proof. induction n as [|n IH]; intro lo; cbn [cnt]; [destruct b; reflexivity|]. rewrite IH. destruct b; lia. Qed.
Lemma cnt_busy f lo n : cnt f lo n = Z.of_nat (length (filter f (map (fun k => lo + Z.of_nat k) (seq 0 n)))).
Proof.
  revert lo. induction n as [|n IH]; intro lo; [reflexivity|]. cbn [cnt seq map filter]. rewrite IH, <- seq_shift, map_map.
  replace (map (fun x => lo + Z.of_nat (S x)) (seq 0 n)) with (map (fun k => lo + 1 + Z.of_nat k) (seq 0 n)) by (apply map_ext; intros; lia).
  cbn [Z.of_nat]. rewrite Z.add_0_r. destruct (f lo); cbn [length]; lia.
Qed.

(** the number of operations that run at time [t] *)
Definition cov (l : list (Z * Z)) (t : Z) : Z := sumz (fun e => if snd e <=? t then fst e else 0) l.
Definition on (l : list (Z * Z)) (t : Z) : bool := negb (cov l t =? 0).
Definition par_of (x : tim) : par := mkP (p_sum x) (p_begin x) (acc x).
Lemma par_tim d now x : par_of (tim_upd d now x) = par_upd d now (par_of x).
Proof. reflexivity. Qed.
Lemma pfold_tfold l : forall x, par_of (tfold l x) = pfold l (par_of x).
Proof. induction l as [|e l IH]; intro x; [reflexivity|]. cbn [tfold pfold fold_left] in *. unfold tfold, pfold in IH. rewrite IH, par_tim. reflexivity. Qed.

Lemma pfold_count lo l q : q_sum q = 0 -> q_acc q = 0 ->
  (forall l1 a l2, l = l1 ++ a :: l2 -> Forall (fun e => snd a <= snd e) l2) -> Forall (fun e => lo <= snd e) l ->
  let r := pfold l q in
  q_acc r = sumz fst l /\ (l = [] /\ q_sum r = 0 \/
    Forall (fun e => snd e <= q_begin r) l /\ lo <= q_begin r /\ q_sum r = cnt (on l) lo (Z.to_nat (q_begin r - lo))
    /\ exists a, In a l /\ snd a = q_begin r).
Proof.
  intros Q0 A0. induction l as [|[d now] l IH] using rev_ind; intros SO F; cbn zeta.
  - cbn. split; [exact A0|]. left. auto.
  - apply Forall_app in F. destruct F as (F & F1). inversion F1 as [|? ? F2 _]; subst. cbn [snd] in F2.
    assert (SO' : forall l1 a l2, l = l1 ++ a :: l2 -> Forall (fun e => snd a <= snd e) l2).
    { intros l1 a l2 ->. assert (X := SO l1 a (l2 ++ [(d, now)])). rewrite <- app_assoc in X. specialize (X eq_refl). apply Forall_app in X. exact (proj1 X). }
    specialize (IH SO' F). cbn zeta in IH. unfold pfold in *. rewrite fold_left_app. cbn [fold_left].
    set (r := fold_left (fun x e => par_upd (fst e) (snd e) x) l q) in *. destruct IH as (A & IH).
    rewrite sumz_app. cbn [sumz fst snd]. split; [cbn [par_upd q_acc]; lia|]. right. cbn [par_upd q_begin q_sum fst snd].
    assert (LE : Forall (fun e => snd e <= now) l).
    { rewrite Forall_forall. intros e IN. apply in_split in IN. destruct IN as (l1 & l2 & ->). assert (X := SO l1 e (l2 ++ [(d, now)])). rewrite <- app_assoc in X. specialize (X eq_refl). apply Forall_app in X. destruct X as (_ & X). inversion X; subst. assumption. }
    split; [apply Forall_app; split; [exact LE|repeat constructor; cbn; lia]|]. split; [exact F2|].
    split; [|exists (d, now); split; [apply in_or_app; right; left; reflexivity|reflexivity]].
    assert (CV : forall t, t < now -> on (l ++ [(d, now)]) t = on l t).
    { intros t T. unfold on, cov. rewrite sumz_app. cbn [sumz snd fst]. destruct (now <=? t) eqn:Q; [apply Z.leb_le in Q; lia|]. f_equal. f_equal. lia. }
    rewrite (cnt_ext (on (l ++ [(d, now)])) (on l)); [|intros t T; apply CV; lia].
    destruct IH as [(-> & E) | (B1 & B2 & B3 & (a & IN & B4))].
    + cbn in A. unfold r in *. cbn [fold_left] in *. rewrite A0, Q0. cbn [Z.eqb].
      rewrite (cnt_ext _ (fun _ => false)) by (intros; reflexivity). rewrite cnt_const. reflexivity.
    + assert (BN : q_begin r <= now) by (rewrite Forall_forall in LE; specialize (LE a IN); lia).
      replace (Z.to_nat (now - lo)) with (Z.to_nat (q_begin r - lo) + Z.to_nat (now - q_begin r))%nat by lia.
      rewrite cnt_app, <- B3. f_equal.
      rewrite (cnt_ext _ (fun _ => negb (q_acc r =? 0))).
      * rewrite cnt_const. destruct (q_acc r =? 0); cbn [negb]; lia.
      * intros t T. unfold on, cov. rewrite A. do 2 f_equal. apply sumz_ext. intros e IN'. rewrite Forall_forall in B1. specialize (B1 e IN').
        destruct (snd e <=? t) eqn:Q; [reflexivity|]. apply Z.leb_gt in Q. lia.
Qed.

(** the operations that run *)
Lemma cov_runs ivs t : Forall (fun i => fst i <= snd i) ivs ->
  let c := sumz (fun i => if fst i <=? t then 1 else 0) ivs - sumz (fun i => if snd i <=? t then 1 else 0) ivs in
  0 <= c /\ running ivs t = negb (c =? 0).
Proof.
  induction 1 as [|[s f] l H _ IH]; cbn zeta in *; [split; [cbn; lia|reflexivity]|]. cbn [sumz running existsb fst snd] in *. fold (running l t).
  destruct IH as (P & ->). destruct (s <=? t) eqn:E1, (f <=? t) eqn:E2; try apply Z.leb_le in E1; try apply Z.leb_le in E2; try apply Z.leb_gt in E1; try apply Z.leb_gt in E2.
  - split; [lia|]. destruct (t <? f) eqn:E3; [apply Z.ltb_lt in E3; lia|]. cbn [andb orb]. f_equal. f_equal. lia.
  - split; [lia|]. destruct (t <? f) eqn:E3; [|apply Z.ltb_ge in E3; lia]. cbn [andb orb].
    match goal with |- true = negb (?x =? 0) => destruct (x =? 0) eqn:E4; [apply Z.eqb_eq in E4; lia|reflexivity] end.
  - lia.
  - split; [lia|]. cbn [andb orb]. reflexivity.
Qed.
Lemma times_cons (g : Z -> Z) a k s l : sumz g (times a ((k, s) :: l)) = (if kind_eqb a k then g s else 0) + sumz g (times a l).
Proof. unfold times. cbn [filter fst]. destruct (kind_eqb a k); reflexivity. Qed.
Lemma evs_cons sg k s l t : cov (evs sg ((k, s) :: l)) t = (if s <=? t then sg k else 0) + cov (evs sg l) t.
Proof.
  unfold cov, evs. cbn [filter fst]. destruct (sg k =? 0) eqn:E; cbn [negb map sumz fst snd].
  - apply Z.eqb_eq in E. rewrite E. destruct (s <=? t); reflexivity.
  - reflexivity.
Qed.
Lemma cov_io w l ivs t : intervals (KStart w) (KFin w) l ivs ->
  cov (evs (ksgn_io w) l) t = sumz (fun i => if fst i <=? t then 1 else 0) ivs - sumz (fun i => if snd i <=? t then 1 else 0) ivs.
Proof.
  intros (I1 & I2).
  assert (E : cov (evs (ksgn_io w) l) t = sumz (fun s => if s <=? t then 1 else 0) (times (KStart w) l) - sumz (fun s => if s <=? t then 1 else 0) (times (KFin w) l)).
  { clear. induction l as [|[k s] l IH]; [reflexivity|]. rewrite evs_cons, !times_cons, IH.
    destruct k as [v|v|v|v|]; [destruct v, w|destruct v, w| | |]; cbn [ksgn_io Bool.eqb kind_eqb]; destruct (s <=? t); lia. }
  rewrite E, (sumz_perm _ _ _ I1), (sumz_perm _ _ _ I2), !sumz_map. reflexivity.
Qed.
Lemma cov_any l t : cov (evs ksgn_any l) t = cov (evs (ksgn_io false) l) t + cov (evs (ksgn_io true) l) t.
Proof.
  induction l as [|[k s] l IH]; [reflexivity|]. rewrite !evs_cons, IH.
  destruct k as [v|v|v|v|]; [destruct v|destruct v| | |]; cbn [ksgn_any ksgn_io Bool.eqb]; destruct (s <=? t); lia.
Qed.
Lemma evs_in sg l e : In e (evs sg l) -> exists k, In (k, snd e) l.
Proof. unfold evs. rewrite in_map_iff. intros ([k t] & <- & H). apply filter_In in H. exists k. exact (proj1 H). Qed.
Lemma evs_sorted sg l : (forall l1 a l2, l = l1 ++ a :: l2 -> Forall (fun e => snd a <= snd e) l2) ->
  forall l1 a l2, evs sg l = l1 ++ a :: l2 -> Forall (fun e => snd a <= snd e) l2.
Proof.
  induction l as [|[k t] l IH]; intros SO l1 a l2 E; [destruct l1; discriminate E|].
  assert (SO' : forall l1 a l2, l = l1 ++ a :: l2 -> Forall (fun e => snd a <= snd e) l2).
  { intros p b q ->. exact (SO ((k, t) :: p) b q eq_refl). }
  unfold evs in E. cbn [filter fst] in E. destruct (negb (sg k =? 0)); cbn [map fst snd] in E; [|exact (IH SO' l1 a l2 E)].
  destruct l1 as [|b l1]; cbn in E; injection E as <- E.
  - cbn [snd]. rewrite Forall_forall. intros e IN. assert (IN' : In e (evs sg l)) by (unfold evs; rewrite E; exact IN).
    destruct (evs_in _ _ _ IN') as (k' & IN2). pose proof (SO [] (k, t) l eq_refl) as F. rewrite Forall_forall in F. exact (F _ IN2).
  - exact (IH SO' l1 a l2 E).
Qed.

(** the parallel time at the end, when all operations are over *)
Lemma pfold_busy sg l q lo hi ivs : q_sum q = 0 -> q_acc q = 0 -> lo <= hi -> Forall (fun e => lo <= snd e <= hi) l ->
  (forall l1 a l2, l = l1 ++ a :: l2 -> Forall (fun e => snd a <= snd e) l2) ->
  (forall t, on (evs sg l) t = running ivs t) -> Forall (fun i => snd i <= hi) ivs -> sumz fst (evs sg l) = 0 ->
  q_sum (pfold (evs sg l) q) = busy lo hi ivs.
Proof.
  intros Q0 A0 LH F SO RU FI S0. unfold busy. rewrite <- cnt_busy, (cnt_ext _ (on (evs sg l))) by (intros; symmetry; apply RU).
  assert (F' : Forall (fun e => lo <= snd e) (evs sg l)).
  { rewrite Forall_forall in *. intros e IN. destruct (evs_in _ _ _ IN) as (k & IN'). specialize (F _ IN'). cbn in F. lia. }
  destruct (pfold_count lo (evs sg l) q Q0 A0 (evs_sorted sg l SO) F') as (A & [(E & ->) | (B1 & B2 & B3 & (a & IN & B4))]).
  - rewrite E. rewrite (cnt_ext _ (fun _ => false)) by (intros; reflexivity). rewrite cnt_const. reflexivity.
  - set (r := pfold (evs sg l) q) in *.
    assert (BH : q_begin r <= hi). { destruct (evs_in _ _ _ IN) as (k & IN'). rewrite Forall_forall in F. specialize (F _ IN'). cbn in F. lia. }
    replace (Z.to_nat (hi - lo)) with (Z.to_nat (q_begin r - lo) + Z.to_nat (hi - q_begin r))%nat by lia.
    rewrite cnt_app, <- B3. rewrite (cnt_ext _ (fun _ => false)); [rewrite cnt_const; lia|].
    intros t T. unfold on, cov. rewrite (sumz_ext _ fst); [rewrite S0; reflexivity|].
    intros e IN'. rewrite Forall_forall in B1. specialize (B1 e IN'). destruct (snd e <=? t) eqn:Q; [reflexivity|]. apply Z.leb_gt in Q. lia.
Qed.

(** ** The scoped timers *)
Lemma timer_calls onc off os : forall running, exists b l, timer_ops onc off running (os ++ [TStop]) = (false, b ++ l)
  /\ b = (if running then [off] else []) /\ paired onc off l.
Proof.
  induction os as [|[n|] os IH]; intro running; cbn [app timer_ops].
  - exists (if running then [off] else []), []. destruct running; repeat split.
  - destruct running; cbn [timer_op]; destruct (IH true) as (b & l & -> & -> & P).
    + exists [off], l. repeat split. exact P.
    + exists [], (onc n :: off :: l). repeat split; [eauto|exact P].
  - destruct running; cbn [timer_op]; destruct (IH false) as (b & l & -> & -> & P).
    + exists [off], l. repeat split. exact P.
    + exists [], l. repeat split. exact P.
Qed.

Lemma evs_sum w l ivs : intervals (KStart w) (KFin w) l ivs -> sumz fst (evs (ksgn_io w) l) = 0.
Proof.
  intros (I1 & I2). transitivity (logsum (fun k _ => ksgn_io w k) l).
  - clear. unfold evs, logsum. induction l as [|[k t] l IH]; [reflexivity|]. cbn [filter sumz fst]. destruct (ksgn_io w k =? 0) eqn:E; cbn [negb map sumz fst]; [apply Z.eqb_eq in E|]; lia.
  - rewrite (psum_times _ (KStart w) (KFin w) (fun _ => 1)).
    + rewrite !sumz_one, (Permutation_length I1), (Permutation_length I2), !map_length. lia.
    + intros [v|v|v|v|] t; destruct w; try destruct v; reflexivity.
Qed.
Lemma evs_any_sum l : sumz fst (evs ksgn_any l) = sumz fst (evs (ksgn_io false) l) + sumz fst (evs (ksgn_io true) l).
Proof. unfold evs. induction l as [|[k t] l IH]; [reflexivity|]. destruct k as [v|v|v|v|]; [destruct v|destruct v| | |]; cbn [filter fst ksgn_any ksgn_io Bool.eqb Z.eqb negb map sumz]; lia. Qed.

(** a serial run from a state in which no operation runs and the sums are zero *)
Lemma serial_par es m m' l ivr ivw : serial es -> no_reset es -> idle m -> run es m = Some m' -> log m' = log m ++ l ->
  (forall w, acc (clk (get_dir w (ms m))) = 0 /\ p_sum (clk (get_dir w (ms m))) = 0) -> q_acc (ios (ms m)) = 0 -> q_sum (ios (ms m)) = 0 ->
  intervals (KStart false) (KFin false) l ivr -> intervals (KStart true) (KFin true) l ivw ->
  Forall (fun i => fst i <= snd i) (ivr ++ ivw) ->
  p_sum (clk (drd (ms m'))) = busy (clock m) (clock m') ivr /\ p_sum (clk (dwr (ms m'))) = busy (clock m) (clock m') ivw
  /\ q_sum (ios (ms m')) = busy (clock m) (clock m') (ivr ++ ivw).
Proof.
  intros S NR I R L Z1 Z2 Z3 IR IW FS.
  destruct (serial_run es S m m' I NR R) as (_ & CL & l' & L' & K1 & K2 & F & SO).
  rewrite L in L'. apply app_inv_head in L'. subst l'.
  assert (HI : Forall (fun i => snd i <= clock m') (ivr ++ ivw)).
  { assert (X : forall w ivs, intervals (KStart w) (KFin w) l ivs -> Forall (fun i => snd i <= clock m') ivs).
    { intros w ivs (_ & P). rewrite Forall_forall. intros i IN. apply (in_map snd) in IN. apply (Permutation_in _ (Permutation_sym P)) in IN.
      unfold times in IN. apply in_map_iff in IN. destruct IN as (e & <- & IN). apply filter_In in IN. rewrite Forall_forall in F. apply (F e). exact (proj1 IN). }
    apply Forall_app. split; [exact (X _ _ IR)|exact (X _ _ IW)]. }
  apply Forall_app in HI. destruct HI as (HR & HW). apply Forall_app in FS. destruct FS as (FR & FW).
  assert (G : forall w ivs, intervals (KStart w) (KFin w) l ivs -> Forall (fun i => snd i <= clock m') ivs -> Forall (fun i => fst i <= snd i) ivs ->
    p_sum (clk (get_dir w (ms m'))) = busy (clock m) (clock m') ivs).
  { intros w ivs IV H1 H2. destruct (Z1 w) as (A & P).
    change (p_sum (clk (get_dir w (ms m')))) with (q_sum (par_of (clk (get_dir w (ms m'))))). rewrite K1, pfold_tfold.
    apply pfold_busy; auto.
    - intro t. unfold on. rewrite (cov_io w l ivs t IV). symmetry. apply (proj2 (cov_runs ivs t H2)).
    - exact (evs_sum w l ivs IV). }
  split; [exact (G false ivr IR HR FR)|]. split; [exact (G true ivw IW HW FW)|].
  rewrite K2. apply pfold_busy; auto.
  - intro t. unfold on. rewrite cov_any, (cov_io false l ivr t IR), (cov_io true l ivw t IW).
    assert (FA : Forall (fun i => fst i <= snd i) (ivr ++ ivw)) by (apply Forall_app; split; assumption).
    rewrite (proj2 (cov_runs _ t FA)), !sumz_app. do 2 f_equal. lia.
  - apply Forall_app. split; assumption.
  - rewrite evs_any_sum, (evs_sum _ _ _ IR), (evs_sum _ _ _ IW). reflexivity.
Qed.

Definition sgn_any (x : sec) : Z := match x with XIoStart => 1 | XIoFin => -1 | _ => 0 end.
Lemma ios_acc es m m' l ivr ivw : no_reset es -> idle m -> run es m = Some m' -> idle m' -> log m' = log m ++ l ->
  intervals (KStart false) (KFin false) l ivr -> intervals (KStart true) (KFin true) l ivw -> q_acc (ios (ms m')) = q_acc (ios (ms m)).
Proof.
  intros NR I R I' L IR IW.
  destruct (sum_idle (fun s => q_acc (ios s)) (fun x now => sgn_any x) (fun k now => ksgn_any k)) with (es := es) (m := m) (m' := m') as (l2 & L2 & K2); try assumption.
  - intros now x s PL. destruct x as [v n|v|v n|v n| | |r|r|v| | | |]; cbn [plain] in PL; try contradiction; try destruct v; cbn; lia.
  - intros c _. destruct c as [v n|v|v n|v n|r|r| |]; repeat split; intros; reflexivity.
  - rewrite L in L2. apply app_inv_head in L2. subst l2. rewrite K2.
    assert (E : logsum (fun k _ => ksgn_any k) l = (sumz (fun _ => 1) (times (KStart false) l) - sumz (fun _ => 1) (times (KFin false) l)) + (sumz (fun _ => 1) (times (KStart true) l) - sumz (fun _ => 1) (times (KFin true) l))).
    { clear. unfold logsum. induction l as [|[k t] l IH]; [reflexivity|]. rewrite !times_cons. cbn [sumz fst snd]. rewrite IH. destruct k as [v|v|v|v|]; try destruct v; cbn [ksgn_any kind_eqb Bool.eqb]; lia. }
    destruct IR as (R1 & R2), IW as (W1 & W2). rewrite E, !sumz_one, (Permutation_length R1), (Permutation_length R2), (Permutation_length W1), (Permutation_length W2), !map_length. lia.
Qed.
Lemma idle_init n t : idle (minit n t).
Proof. unfold idle, minit. cbn. apply Forall_forall. intros x H. apply repeat_spec in H. subst x. reflexivity. Qed.
Lemma run_log es : forall m m', run es m = Some m' -> exists l, log m' = log m ++ l.
Proof.
  induction es as [|e es IH]; intros m m' R; cbn [run] in R.
  - injection R as <-. exists []. symmetry. apply app_nil_r.
  - destruct (step e m) as [m1|] eqn:E; [|discriminate]. destruct (IH _ _ R) as (l & L).
    destruct e as [d|i c|i]; cbn [step] in E.
    + injection E as <-. exists l. exact L.
    + destruct (nth_error (thr m) i) as [[now [|]]|]; try discriminate. injection E as <-. exists l. exact L.
    + destruct (nth_error (thr m) i) as [[now [|[q|x] l0]]|]; try discriminate; injection E as <-.
      * exists ((q, clock m) :: l). rewrite L. cbn [log]. rewrite <- app_assoc. reflexivity.
      * exists l. exact L.
Qed.
(** nothing runs *)
Definition quiet (s : stats) : Prop := (forall w, acc (clk (get_dir w s)) = 0) /\ q_acc (ios s) = 0 /\ (forall r, acc (w_one r s) = 0) /\ both s.
Lemma quiet_init t : quiet (stats0 t).
Proof. repeat split; intros; try (destruct w; reflexivity); try (destruct r; reflexivity). Qed.
(** what a run does to the serial times of a state in which nothing runs *)
Lemma quiet_run es m m' l ivr ivw ivwr ivww : no_reset es -> idle m -> run es m = Some m' -> idle m' -> log m' = log m ++ l -> quiet (ms m) ->
  intervals (KStart false) (KFin false) l ivr -> intervals (KStart true) (KFin true) l ivw ->
  intervals (KWait true) (KWaited true) l ivwr -> intervals (KWait false) (KWaited false) l ivww ->
  quiet (ms m') /\ get_read_time (ms m') = get_read_time (ms m) + total ivr /\ get_write_time (ms m') = get_write_time (ms m) + total ivw
  /\ get_wait_read_time (ms m') = get_wait_read_time (ms m) + total ivwr /\ get_wait_write_time (ms m') = get_wait_write_time (ms m) + total ivww
  /\ get_io_wait_time (ms m') - get_io_wait_time (ms m) = total ivwr + total ivww.
Proof.
  intros NR I R I' L (Q1 & Q2 & Q3 & Q4) IR IW IWR IWW.
  assert (X : forall a b ivs, intervals a b l ivs -> forall l', log m' = log m ++ l' -> intervals a b l' ivs).
  { intros a b ivs H l' L'. rewrite L in L'. apply app_inv_head in L'. subst l'. exact H. }
  destruct (io_clock es m m' false ivr NR I R I' (Q1 false) (X _ _ _ IR)) as (A1 & T1).
  destruct (io_clock es m m' true ivw NR I R I' (Q1 true) (X _ _ _ IW)) as (A2 & T2).
  destruct (w_clock es m m' true ivwr NR I R I' (Q3 true) (X _ _ _ IWR)) as (A3 & T3).
  destruct (w_clock es m m' false ivww NR I R I' (Q3 false) (X _ _ _ IWW)) as (A4 & T4).
  pose proof (both_run es m m' NR (idle_plains _ I) R Q4) as B. pose proof (Q3 true) as A5. pose proof (Q3 false) as A6.
  cbn [w_one get_dir] in *. unfold get_read_time, get_write_time, get_wait_read_time, get_wait_write_time, get_io_wait_time.
  repeat split; try assumption.
  - intros [|]; assumption.
  - rewrite (ios_acc es m m' l ivr ivw NR I R I' L IR IW). exact Q2.
  - intros [|]; assumption.
  - exact (proj1 B).
  - exact (proj2 B).
  - destruct B as (B1 & B2), Q4 as (B3 & B4). unfold pot in *. rewrite A3, A4 in B1, B2. rewrite A5, A6 in B3, B4. rewrite B2 in B1. rewrite B4 in B3. lia.
Qed.

(** ** Every call takes its timestamp *)
Definition kcount (k : kind) (x : mic) : Z := match x with MStamp q => if kind_eqb k q then 1 else 0 | _ => 0 end.
Lemma stamps k es : forall m m', run es m = Some m' ->
  Z.of_nat (length (times k (log m'))) + sumz (fun t => sumz (kcount k) (snd t)) (thr m')
  = Z.of_nat (length (times k (log m))) + sumz (fun t => sumz (kcount k) (snd t)) (thr m) + over_calls (fun c => sumz (kcount k) (code c)) es.
Proof.
  induction es as [|e es IH]; intros m m' R; cbn [run] in R.
  - injection R as <-. cbn [over_calls]. lia.
  - destruct (step e m) as [m1|] eqn:E; [|discriminate]. rewrite (IH _ _ R). clear IH R. destruct e as [d|i c|i]; cbn [step] in E.
    + injection E as <-. cbn [log thr over_calls]. lia.
    + destruct (nth_error (thr m) i) as [[now [|]]|] eqn:N; try discriminate. injection E as <-. cbn [log thr over_calls].
      rewrite (sumz_lset _ _ _ _ _ N). cbn [snd sumz]. lia.
    + destruct (nth_error (thr m) i) as [[now [|[q|x] l]]|] eqn:N; try discriminate; injection E as <-; cbn [log thr over_calls];
        rewrite (sumz_lset _ _ _ _ _ N); cbn [snd sumz kcount].
      * unfold times. rewrite filter_app, map_app, app_length. cbn [filter fst]. destruct (kind_eqb k q); cbn [map length]; lia.
      * lia.
Qed.
Lemma stamps_idle k n t es m : run es (minit n t) = Some m -> idle m ->
  Z.of_nat (length (times k (log m))) = over_calls (fun c => sumz (kcount k) (code c)) es.
Proof.
  intros R I. pose proof (stamps k es _ _ R) as H.
  assert (X : forall m, idle m -> sumz (fun t => sumz (kcount k) (snd t)) (thr m) = 0).
  { clear. intros m. unfold idle. induction 1 as [|a l E _ IH]; [reflexivity|]. cbn [sumz]. rewrite E. cbn [sumz]. lia. }
  rewrite (X m I), (X _ (idle_init n t)) in H. cbn [minit log times filter map length] in H. lia.
Qed.
Lemma intervals_of a b l : length (times a l) = length (times b l) -> exists ivs, intervals a b l ivs.
Proof.
  intro H. exists (combine (times a l) (times b l)). split.
  - revert H. generalize (times a l) (times b l). induction l0 as [|x l0 IH]; intros [|y l1] E; try discriminate E; cbn; constructor. apply IH. injection E as E. exact E.
  - revert H. generalize (times a l) (times b l). induction l0 as [|x l0 IH]; intros [|y l1] E; try discriminate E; cbn; constructor. apply IH. injection E as E. exact E.
Qed.
