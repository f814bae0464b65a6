From Coq Require Import List Bool Arith Lia.
From Verif Require Import SumLib StackProofs AsyncIoModel AsyncIoProofs AsyncIoRules RunWriteProofs WbtlModel WbtlSpec.
Import ListNotations.
Local Open Scope prog_scope.

(** * Free regions *)
Fixpoint gaps (lo : nat) (fs : list (nat * nat)) : Prop :=
  match fs with [] => True | (p, n) :: fs => lo <= p /\ 0 < n /\ gaps (S (p + n)) fs end.
Definition infree (u : nat) (fs : list (nat * nat)) : Prop := exists p n, In (p, n) fs /\ p <= u < p + n.
Fixpoint endof (lo : nat) (fs : list (nat * nat)) : nat := match fs with [] => lo | (p, n) :: fs => endof (S (p + n)) fs end.
Lemma gaps_app lo l m : gaps lo (l ++ m) <-> gaps lo l /\ gaps (endof lo l) m.
Proof. revert lo. induction l as [|[p n] l IH]; intro lo; cbn; [tauto|]. rewrite IH. tauto. Qed.
Lemma endof_snoc lo l p n : endof lo (l ++ [(p, n)]) = S (p + n).
Proof. revert lo. induction l as [|[q m] l IH]; intro lo; cbn; auto. Qed.
Lemma gaps_weaken lo lo' fs : lo' <= lo -> gaps lo fs -> gaps lo' fs.
Proof. destruct fs as [|[p n] fs]; cbn; [tauto|]. intuition lia. Qed.
Lemma gaps_in lo fs p n : gaps lo fs -> In (p, n) fs -> lo <= p /\ 0 < n.
Proof.
  revert lo. induction fs as [|[q m] fs IH]; intros lo G H; [destruct H|]. cbn in G. destruct G as (G1 & G2 & G3).
  destruct H as [E|H]; [injection E as -> ->; lia|]. destruct (IH _ G3 H). lia.
Qed.
Lemma gaps_endof lo fs : gaps lo fs -> lo <= endof lo fs.
Proof. revert lo. induction fs as [|[q m] fs IH]; intros lo G; cbn in *; [lia|]. destruct G as (G1 & G2 & G3). specialize (IH _ G3). lia. Qed.
Lemma gaps_in_end lo fs p n : gaps lo fs -> In (p, n) fs -> S (p + n) <= endof lo fs.
Proof.
  revert lo. induction fs as [|[q m] fs IH]; intros lo G H; [destruct H|]. cbn in G. destruct G as (G1 & G2 & G3).
  destruct H as [E|H]; [injection E as -> ->; cbn; apply (gaps_endof _ _ G3)|]. cbn. apply IH; assumption.
Qed.
Lemma infree_app u l m : infree u (l ++ m) <-> infree u l \/ infree u m.
Proof.
  split.
  - intros (p & n & H & E). apply in_app_iff in H. destruct H as [H|H]; [left|right]; exists p, n; auto.
  - intros [(p & n & H & E)|(p & n & H & E)]; exists p, n; (split; [apply in_app_iff; auto|exact E]).
Qed.
Lemma infree_cons u p n fs : infree u ((p, n) :: fs) <-> p <= u < p + n \/ infree u fs.
Proof.
  split.
  - intros (q & m & [E|H] & E'); [injection E as -> ->; left; exact E'|right; exists q, m; auto].
  - intros [E|(q & m & H & E')]; [exists p, n; split; [left; reflexivity|exact E]|exists q, m; split; [right; exact H|exact E']].
Qed.
Lemma infree_nil u : infree u [] <-> False.
Proof. split; [intros (p & n & [] & _)|tauto]. Qed.
Lemma split_at pos lo fs : gaps lo fs -> fs = before pos fs ++ after pos fs /\ (forall p n, In (p, n) (after pos fs) -> pos < p) /\ (forall p n, In (p, n) (before pos fs) -> p <= pos).
Proof.
  intro G. split; [|split].
  - revert lo G. induction fs as [|[p n] fs IH]; intros lo G; [reflexivity|]. cbn in G. destruct G as (G1 & G2 & G3). unfold before, after. cbn [filter fst].
    fold (before pos fs). fold (after pos fs). destruct (Nat.leb_spec p pos).
    + destruct (Nat.ltb_spec pos p); [lia|]. cbn. f_equal. eapply IH. exact G3.
    + destruct (Nat.ltb_spec pos p); [|lia].
      assert (forall l lo', gaps lo' l -> pos < lo' -> before pos l = [] /\ after pos l = l) as X.
      { induction l as [|[q m] l IHl]; intros lo' Gl Hl; [split; reflexivity|]. cbn in Gl. destruct Gl as (Gl1 & Gl2 & Gl3). unfold before, after. cbn [filter fst].
        destruct (Nat.leb_spec q pos); [lia|]. destruct (Nat.ltb_spec pos q); [|lia]. destruct (IHl _ Gl3 ltac:(lia)) as [E1 E2].
        unfold before in E1. unfold after in E2. rewrite E1, E2. split; reflexivity. }
      destruct (X fs _ G3 ltac:(lia)) as [-> ->]. reflexivity.
  - intros p n H. apply filter_In in H. destruct H as [_ H]. apply Nat.ltb_lt in H. exact H.
  - intros p n H. apply filter_In in H. destruct H as [_ H]. apply Nat.leb_le in H. exact H.
Qed.
Lemma last_cases {X} (l : list X) : l = [] /\ last_opt l = None \/ exists t x, l = t ++ [x] /\ last_opt l = Some x /\ removelast l = t.
Proof.
  unfold last_opt. destruct (rev l) as [|x t] eqn:E.
  - left. split; [|reflexivity]. rewrite <- (rev_involutive l), E. reflexivity.
  - right. exists (rev t), x. assert (l = rev t ++ [x]) as Hl by (rewrite <- (rev_involutive l), E; reflexivity). split; [exact Hl|]. split; [reflexivity|].
    rewrite Hl. apply removelast_last.
Qed.
Lemma join_succ_spec succs pos size : 0 < size -> (forall u, pos <= u < pos + size -> ~ infree u succs) -> (forall p n, In (p, n) succs -> pos < p) -> gaps 0 succs ->
  gaps (S (pos + snd (join_succ succs pos size))) (fst (join_succ succs pos size)) /\ size <= snd (join_succ succs pos size) /\
  forall u, infree u (fst (join_succ succs pos size)) \/ pos <= u < pos + snd (join_succ succs pos size) <-> infree u succs \/ pos <= u < pos + size.
Proof.
  intros Hs D Ha G. destruct succs as [|[p n] r]; cbn; [split; [exact I|]; split; [lia|]; intro u; tauto|].
  pose proof (Ha p n (or_introl eq_refl)) as Hp. cbn in G. destruct G as (_ & G2 & G3).
  assert (pos + size <= p) as Hp'. { destruct (Nat.le_gt_cases (pos + size) p) as [|C]; [assumption|]. exfalso. apply (D p); [lia|]. apply infree_cons. left. lia. }
  destruct (Nat.eqb_spec p (pos + size)) as [E|E]; cbn.
  - split; [replace (pos + (size + n)) with (p + n) by lia; exact G3|]. split; [lia|]. intro u. rewrite infree_cons.
    assert (pos <= u < pos + (size + n) <-> pos <= u < pos + size \/ p <= u < p + n) as -> by lia. tauto.
  - split; [split; [lia|split; assumption]|]. split; [lia|]. intro u. tauto.
Qed.
Lemma join_pred_spec preds pos size lo : 0 < size -> lo <= pos -> (forall u, pos <= u < pos + size -> ~ infree u preds) -> (forall p n, In (p, n) preds -> p <= pos) -> gaps lo preds ->
  let '(l, q, m) := join_pred preds pos size in
  gaps lo (l ++ [(q, m)]) /\ q + m = pos + size /\ forall u, infree u l \/ q <= u < q + m <-> infree u preds \/ pos <= u < pos + size.
Proof.
  intros Hs Hl D Hb G. unfold join_pred. destruct (last_cases preds) as [[-> ->]|(t & [p n] & -> & -> & ->)].
  - split; [cbn; auto|]. split; [reflexivity|]. intro u. tauto.
  - pose proof (Hb p n (in_or_app _ [_] _ (or_intror (or_introl eq_refl)))) as Hp. pose proof G as G0. apply gaps_app in G. destruct G as [G1 G2]. cbn in G2. destruct G2 as (G2 & G3 & _).
    assert (p + n <= pos) as Hn. { destruct (Nat.le_gt_cases (p + n) pos) as [|C]; [assumption|]. exfalso. apply (D pos); [lia|]. apply infree_app. right. apply infree_cons. left. lia. }
    destruct (Nat.eqb_spec (p + n) pos) as [E|E].
    + split; [apply gaps_app; split; [exact G1|]; cbn; split; [exact G2|split; [lia|exact I]]|]. split; [lia|]. intro u. rewrite infree_app, infree_cons, infree_nil.
      assert (p <= u < p + (size + n) <-> pos <= u < pos + size \/ p <= u < p + n) as -> by lia. tauto.
    + split; [apply gaps_app; split; [exact G0|]; cbn; rewrite endof_snoc; split; [lia|split; [exact Hs|exact I]]|]. split; [reflexivity|]. intro u. tauto.
Qed.
Lemma add_free_spec fs pos size : gaps 0 fs -> 0 < size -> (forall u, pos <= u < pos + size -> ~ infree u fs) ->
  exists fs', add_free fs pos size = Some fs' /\ gaps 0 fs' /\ forall u, infree u fs' <-> infree u fs \/ pos <= u < pos + size.
Proof.
  intros G Hs D. destruct fs as [|r0 fs0].
  { exists [(pos, size)]. split; [reflexivity|]. split; [cbn; lia|]. intro u. rewrite infree_cons. tauto. }
  set (fs := r0 :: fs0) in *. destruct (split_at pos 0 fs G) as (E & Ha & Hb). unfold add_free. fold fs.
  change (match fs with [] => Some [(pos, size)] | _ :: _ => ?X end) with X.
  set (preds := before pos fs) in *. set (succs := after pos fs) in *. clearbody preds succs.
  assert (G' := G). rewrite E in G'. apply gaps_app in G'. destruct G' as [Gp Gs].
  assert (forall u, pos <= u < pos + size -> ~ infree u preds) as Dp by (intros u Hu C; apply (D u Hu); rewrite E; apply infree_app; left; exact C).
  assert (forall u, pos <= u < pos + size -> ~ infree u succs) as Ds by (intros u Hu C; apply (D u Hu); rewrite E; apply infree_app; right; exact C).
  pose proof (join_succ_spec succs pos size Hs Ds Ha (gaps_weaken _ 0 _ (Nat.le_0_l _) Gs)) as JS.
  assert (corrupt pos size (last_opt preds) (hd_opt succs) = false) as ->.
  { unfold corrupt. apply orb_false_iff. split.
    - destruct (last_cases preds) as [[_ ->]|(t & [p n] & -> & -> & _)]; [reflexivity|]. apply andb_false_iff. right. apply Nat.ltb_ge.
      destruct (Nat.le_gt_cases (p + n) pos) as [|C]; [assumption|]. exfalso. apply (Dp pos); [lia|]. apply infree_app. right. apply infree_cons. left.
      specialize (Hb p n (in_or_app _ [_] _ (or_intror (or_introl eq_refl)))). lia.
    - destruct succs as [|[p n] r]; [reflexivity|]. cbn. apply andb_false_iff. right. apply Nat.ltb_ge.
      destruct (Nat.le_gt_cases (pos + size) p) as [|C]; [assumption|]. exfalso. specialize (Ha p n (or_introl eq_refl)). cbn in Gs. apply (Ds p); [lia|]. apply infree_cons. left. lia. }
  assert (forall l q m r z, gaps 0 (l ++ [(q, m)]) -> q + m = pos + z -> gaps (S (pos + z)) r -> gaps 0 (l ++ (q, m) :: r)) as GG.
  { intros l q m r z X Y Z. change ((q, m) :: r) with ([(q, m)] ++ r). rewrite app_assoc. apply gaps_app. split; [exact X|]. rewrite endof_snoc, Y. exact Z. }
  destruct succs as [|s0 r0'] eqn:Es.
  - pose proof (join_pred_spec preds pos size 0 Hs (Nat.le_0_l _) Dp Hb Gp) as JP. destruct (join_pred preds pos size) as [[l q] m]. destruct JP as (J1 & J2 & J3).
    eexists. split; [reflexivity|]. split; [exact J1|]. intro u. rewrite E, app_nil_r, infree_app, infree_cons, infree_nil. rewrite <- J3. tauto.
  - rewrite <- Es in *. destruct (join_succ succs pos size) as [sr sz]. cbn [fst snd] in JS. destruct JS as (S1 & S2 & S3).
    assert (forall u, pos <= u < pos + sz -> ~ infree u preds) as Dp'.
    { intros u Hu C. destruct (proj1 (S3 u) (or_intror Hu)) as [F|F]; [|exact (Dp u F C)].
      destruct C as (p & n & C1 & C2). destruct F as (p' & n' & F1 & F2). pose proof (gaps_in_end _ _ _ _ Gp C1). destruct (gaps_in _ _ _ _ Gs F1). lia. }
    destruct (Nat.ltb_spec 1 (length fs)).
    + pose proof (join_pred_spec preds pos sz 0 ltac:(lia) (Nat.le_0_l _) Dp' Hb Gp) as JP. destruct (join_pred preds pos sz) as [[l q] m]. destruct JP as (J1 & J2 & J3).
      eexists. split; [reflexivity|]. split; [apply (GG _ _ _ _ sz); assumption|]. intro u. rewrite E, !infree_app, infree_cons.
      assert (infree u l \/ q <= u < q + m \/ infree u sr <-> (infree u l \/ q <= u < q + m) \/ infree u sr) as -> by tauto. rewrite J3.
      specialize (S3 u). tauto.
    + assert (preds = []) as Hp0. { rewrite E, Es, app_length in H. cbn in H. destruct preds; [reflexivity|cbn in H; lia]. }
      subst preds. eexists. split; [reflexivity|]. split; [cbn; split; [lia|]; split; [lia|exact S1]|]. intro u. rewrite E. cbn. rewrite infree_cons. specialize (S3 u). tauto.
Qed.
Lemma gaps_disj lo fs p n q m : gaps lo fs -> In (p, n) fs -> In (q, m) fs -> (p, n) = (q, m) \/ p + n < q \/ q + m < p.
Proof.
  revert lo. induction fs as [|[a b] fs IH]; intros lo G H1 H2; [destruct H1|]. cbn in G. destruct G as (G1 & G2 & G3).
  destruct H1 as [E1|H1]; destruct H2 as [E2|H2].
  - left. congruence.
  - injection E1 as -> ->. destruct (gaps_in _ _ _ _ G3 H2). right. left. lia.
  - injection E2 as -> ->. destruct (gaps_in _ _ _ _ G3 H1). right. right. lia.
  - eapply IH; eassumption.
Qed.
Lemma run_in_region lo fs a k : gaps lo fs -> (forall u, a <= u < a + S k -> infree u fs) -> exists p n, In (p, n) fs /\ p <= a /\ a + S k <= p + n.
Proof.
  intro G. induction k as [|k IH]; intro H.
  - destruct (H a ltac:(lia)) as (p & n & X & Y). exists p, n. split; [exact X|]. lia.
  - destruct IH as (p & n & X & Y & Z); [intros u Hu; apply H; lia|]. destruct (H (a + S k) ltac:(lia)) as (q & m & X' & Y').
    destruct (gaps_disj _ _ _ _ _ _ G X X') as [E|[E|E]]; [injection E as -> ->; exists q, m; split; [exact X|]; lia|lia|lia].
Qed.
Lemma next_write_block_spec W fs : 0 < W -> forall lo, gaps lo fs ->
  match next_write_block W fs with
  | None => forall p n, In (p, n) fs -> n < W
  | Some (a, fs') => gaps lo fs' /\ lo <= a /\ (forall u, infree u fs <-> infree u fs' \/ a <= u < a + W) /\ (forall u, infree u fs' -> ~ a <= u < a + W)
  end.
Proof.
  intro HW. induction fs as [|[p n] fs IH]; intros lo G; cbn [next_write_block]; [intros p n []|]. cbn in G. destruct G as (G1 & G2 & G3).
  destruct (Nat.leb_spec W n).
  - assert (forall u, infree u fs -> p + n < u) as Hu by (intros u (q & m & X & Y); destruct (gaps_in _ _ _ _ G3 X); lia).
    destruct (Nat.ltb_spec W n).
    + split; [cbn; split; [lia|split; [lia|]]; replace (p + W + (n - W)) with (p + n) by lia; exact G3|]. split; [exact G1|]. split.
      * intro u. rewrite !infree_cons. assert (p <= u < p + n <-> p + W <= u < p + W + (n - W) \/ p <= u < p + W) as -> by lia. tauto.
      * intros u Hf. apply infree_cons in Hf. destruct Hf as [Hf|Hf]; [lia|]. specialize (Hu _ Hf). lia.
    + split; [eapply gaps_weaken; [|exact G3]; lia|]. split; [exact G1|]. split.
      * intro u. rewrite infree_cons. assert (p <= u < p + n <-> p <= u < p + W) as -> by lia. tauto.
      * intros u Hf. specialize (Hu _ Hf). lia.
  - specialize (IH _ G3). destruct (next_write_block W fs) as [[a fs']|].
    + destruct IH as (I1 & I2 & I3 & I4). split; [cbn; auto|]. split; [lia|]. split.
      * intro u. rewrite !infree_cons, I3. tauto.
      * intros u Hf. apply infree_cons in Hf. destruct Hf as [Hf|Hf]; [lia|apply I4; exact Hf].
    + intros q m [E|H']; [injection E as -> ->; lia|eapply IH; exact H'].
Qed.

Section P.
  Variable A : Type.
  Variable junk : A.
  Variable W sent : nat.
  Hypothesis HW : 0 < W.
  Notation sstate := (sstate A).
  Notation file := (file A).
  Notation unit_buf := (unit_buf W).

  (** * The address maps *)
  Definition live (f : file) (st : wb) (u : nat) : Prop := exists off l p, f_data f off = Some l /\ b_map st off = Some p /\ p <= u < p + length l.
  Definition resv (st : wb) (u : nat) : Prop := exists a, b_addr st (b_cur st) = Some a /\ a + b_pos st <= u < a + W.
  Record blocks (f : file) (st : wb) : Prop := {
    k_size : b_size st = f_size f;
    k_map : forall off l, f_data f off = Some l -> exists p, b_map st off = Some p /\ b_rev st p = Some (off, length l) /\ 0 < length l;
    k_none : forall off, f_data f off = None -> b_map st off = None;
    k_disj : forall o1 o2 l1 l2 p1 p2 u, o1 <> o2 -> f_data f o1 = Some l1 -> f_data f o2 = Some l2 -> b_map st o1 = Some p1 -> b_map st o2 = Some p2 ->
      p1 <= u < p1 + length l1 -> ~ p2 <= u < p2 + length l2;
    k_gaps : gaps 0 (b_free st);
    k_fl : forall u, infree u (b_free st) -> ~ live f st u;
    k_addr : forall c a, b_addr st c = Some a -> a + W <= f_size f }.
  Record pinv (f : file) (st : wb) : Prop := {
    p_blocks : blocks f st;
    p_part : forall u, u < f_size f <-> infree u (b_free st) \/ live f st u \/ resv st u;
    p_fr : forall u, infree u (b_free st) -> ~ resv st u;
    p_lr : forall u, live f st u -> ~ resv st u;
    p_pos : b_pos st <= W;
    p_first : b_addr st (b_cur st) = None -> b_pos st = W /\ forall c, b_addr st c = None }.

  (** * The contents *)
  Definition away (st : wb) (c : bool) (p n : nat) : Prop := forall a, b_addr st c = Some a -> p + n <= a \/ a + W <= p.
  Definition inbuf (s : sstate) (st : wb) (c : bool) (top p : nat) (l : list A) : Prop :=
    exists a, b_addr st c = Some a /\ a <= p /\ p + length l <= a + top /\ forall j v, nth_error l j = Some v -> scont s (unit_buf c (p - a + j)) 0 = Some v.
  Definition ondisk (s : sstate) (store : list nat) (p : nat) (l : list A) : Prop :=
    forall j v, nth_error l j = Some v -> exists b, nth_error store (p + j) = Some b /\ sdisk s b 0 = Some v.
  Record minv (f : file) (st : wb) (s : sstate) : Prop := {
    m_len : length (b_store st) = f_size f;
    m_nodup : NoDup (b_store st);
    m_own : forall b, In b (b_store st) -> In b (sown s);
    m_data : forall off l p, f_data f off = Some l -> b_map st off = Some p ->
      inbuf s st (b_cur st) (b_pos st) p l \/
      away st (b_cur st) p (length l) /\ ondisk s (b_store st) p l /\ (inbuf s st (negb (b_cur st)) W p l \/ away st (negb (b_cur st)) p (length l));
    m_out : forall r, In r (sout s) -> a_write r = true /\ In (a_id r) (b_reqs st) /\ a_id r < snext s /\
      exists i a, i < W /\ a_buf r = unit_buf (negb (b_cur st)) i /\ b_addr st (negb (b_cur st)) = Some a /\ nth_error (b_store st) (a + i) = Some (a_bid r) }.
  Definition inv (f : file) (st : wb) (s : sstate) : Prop := pinv f st /\ minv f st s.

  Lemma unit_buf_inj c d i j : i < W -> j < W -> unit_buf c i = unit_buf d j -> c = d /\ i = j.
  Proof. unfold WbtlModel.unit_buf. intros Hi Hj E. destruct c, d; (split; [reflexivity || lia|lia]). Qed.
  Lemma unit_buf_lt c i : i < W -> unit_buf c i < 2 * W.
  Proof. unfold WbtlModel.unit_buf. intro Hi. destruct c; lia. Qed.
  Lemma no_reads f st s x : minv f st s -> existsb (reads (on_buf x)) (sout s) = false.
  Proof.
    intro M. apply existsb_false. intros r Hr. unfold reads. destruct (m_out _ _ _ M r Hr) as (-> & _). reflexivity.
  Qed.

  Lemma gets_ok xs l : forall s, (forall x, existsb (reads (on_buf x)) (sout s) = false) -> length xs = length l ->
    (forall j x v, nth_error xs j = Some x -> nth_error l j = Some v -> scont s x 0 = Some v) -> ok (gets A xs) s (fun r s' => r = l /\ s' = s).
  Proof.
    revert l. induction xs as [|x xs IH]; intros l s N Hl H; destruct l as [|v l]; try discriminate; cbn [gets]; [apply ok_ret; auto|].
    unfold ok. cbn [srun]. rewrite N, (H 0 x v eq_refl eq_refl). change (ok (let* t := gets A xs in Ret (v :: t)) s (fun r s' => r = v :: l /\ s' = s)).
    apply ok_bind. eapply ok_imp; [apply (IH l s N); [cbn in Hl; lia|intros j y w; apply (H (S j))]|]. intros r s' [-> ->]. apply ok_ret. auto.
  Qed.
  Lemma puts_ok xs l : forall s, (forall r x, In r (sout s) -> In x xs -> a_buf r <> x) -> NoDup xs -> length xs = length l ->
    ok (puts A xs l) s (fun _ s' => sdisk s' = sdisk s /\ sout s' = sout s /\ sown s' = sown s /\ snext s' = snext s /\
      (forall x, ~ In x xs -> scont s' x = scont s x) /\ (forall j x v, nth_error xs j = Some x -> nth_error l j = Some v -> scont s' x 0 = Some v)).
  Proof.
    revert l. induction xs as [|x xs IH]; intros l s N ND Hl; destruct l as [|v l]; try discriminate; cbn [puts].
    - apply ok_ret. repeat split; auto. intros [|j] y w E; discriminate.
    - unfold ok. cbn [srun]. assert (existsb (on_buf x) (sout s) = false) as ->.
      { apply existsb_false. intros r Hr. apply Nat.eqb_neq. apply N; [exact Hr|left; reflexivity]. }
      inversion ND as [|? ? N1 N2]; subst.
      match goal with |- match srun ?p ?s0 with _ => _ end => change (ok p s0 (fun _ s' => sdisk s' = sdisk s /\ sout s' = sout s /\ sown s' = sown s /\ snext s' = snext s /\
      (forall y, ~ In y (x :: xs) -> scont s' y = scont s y) /\ (forall j y w, nth_error (x :: xs) j = Some y -> nth_error (v :: l) j = Some w -> scont s' y 0 = Some w))) end.
      eapply ok_imp; [apply (IH l); [intros r y Hr Hy; apply N; [exact Hr|right; exact Hy]|exact N2|cbn in Hl; lia]|].
      intros u s' (S1 & S2 & S3 & S4 & S5 & S6). cbn [sdisk sout sown snext scont] in *. repeat split; auto.
      + intros y Hy. rewrite S5 by (intro; apply Hy; right; assumption). unfold upd2. apply upd_other. intros ->. apply Hy. left. reflexivity.
      + intros [|j] y w E1 E2; cbn in E1, E2; [|eapply S6; eassumption]. injection E1 as <-. injection E2 as <-. rewrite S5 by exact N1.
        unfold upd2. rewrite upd_same. apply upd_same.
  Qed.

  Lemma units_at st a n : a + n <= length (b_store st) -> exists bs, units st a n = Some bs /\ length bs = n /\
    (forall j b, nth_error bs j = Some b -> nth_error (b_store st) (a + j) = Some b) /\ (forall j, j < n -> nth_error bs j = nth_error (b_store st) (a + j)).
  Proof.
    intro H. unfold units. destruct (Nat.leb_spec (a + n) (length (b_store st))); [|lia]. eexists. split; [reflexivity|].
    assert (length (firstn n (skipn a (b_store st))) = n) as L by (rewrite firstn_length, skipn_length; lia). split; [exact L|].
    assert (forall j b, nth_error (firstn n (skipn a (b_store st))) j = Some b -> nth_error (b_store st) (a + j) = Some b) as X by (intros j b E; eapply nth_error_slice; exact E).
    split; [exact X|]. intros j Hj. destruct (nth_error (firstn n (skipn a (b_store st))) j) as [b|] eqn:E; [symmetry; apply X; exact E|].
    apply nth_error_None in E. lia.
  Qed.
  Lemma nth_inj (l : list nat) i j b : NoDup l -> nth_error l i = Some b -> nth_error l j = Some b -> i = j.
  Proof. intros N E1 E2. apply (proj1 (NoDup_nth_error l) N); [apply nth_error_Some; congruence|congruence]. Qed.
  Lemma nodup_by_inj (l : list nat) : (forall i j b, nth_error l i = Some b -> nth_error l j = Some b -> i = j) -> NoDup l.
  Proof. intro H. apply NoDup_nth_error. intros i j Hi E. destruct (nth_error l i) eqn:F; [eapply H; [exact F|congruence]|]. apply nth_error_None in F. lia. Qed.

  (** ** reading *)
  Lemma in_buf_some st c p a : b_addr st c = Some a -> a <= p < a + W -> in_buf W st c p = Some (p - a).
  Proof. intros E H. unfold in_buf. rewrite E. destruct (Nat.leb_spec a p); [|lia]. destruct (Nat.ltb_spec p (a + W)); [reflexivity|lia]. Qed.
  Lemma in_buf_away st c p n : 0 < n -> away st c p n -> in_buf W st c p = None.
  Proof.
    intros Hn H. unfold in_buf. destruct (b_addr st c) as [a|] eqn:E; [|reflexivity]. specialize (H a E).
    destruct (Nat.leb_spec a p); [|reflexivity]. destruct (Nat.ltb_spec p (a + W)); [lia|reflexivity].
  Qed.
  Lemma nth_map_seq (g : nat -> nat) i n j x : nth_error (map g (seq i n)) j = Some x -> j < n /\ x = g (i + j).
  Proof.
    intro E. assert (j < n) as Hj by (replace n with (length (map g (seq i n))) by (rewrite map_length, seq_length; reflexivity); apply nth_error_Some; congruence).
    split; [exact Hj|]. rewrite nth_error_map in E. destruct (nth_error (seq i n) j) as [y|] eqn:F; [|discriminate]. injection E as <-. f_equal.
    pose proof (nth_error_nth _ _ 0 F) as G. rewrite seq_nth in G by exact Hj. auto.
  Qed.
  Lemma inbuf_get f st s c top p l : minv f st s -> top <= W -> 0 < length l -> inbuf s st c top p l ->
    exists i, in_buf W st c p = Some i /\ i + length l <= W /\ ok (gets A (map (unit_buf c) (seq i (length l)))) s (fun r s' => r = l /\ s' = s).
  Proof.
    intros M Ht Hl (a & E & H1 & H2 & H3). exists (p - a). split; [apply in_buf_some; [exact E|lia]|]. split; [lia|].
    apply gets_ok; [intro x; eapply no_reads; exact M|rewrite map_length, seq_length; reflexivity|].
    intros j x v Hx Hv. apply nth_map_seq in Hx. destruct Hx as [_ ->]. apply H3. exact Hv.
  Qed.
  Lemma minv_cont f st s s' : minv f st s -> b_pos st <= W -> sdisk s' = sdisk s -> sout s' = sout s -> sown s' = sown s -> snext s <= snext s' ->
    (forall x, x < 2 * W -> scont s' x = scont s x) -> minv f st s'.
  Proof.
    intros M Hp E1 E2 E3 E4 E5. constructor.
    - exact (m_len _ _ _ M).
    - exact (m_nodup _ _ _ M).
    - rewrite E3. exact (m_own _ _ _ M).
    - assert (forall c top p l, top <= W -> inbuf s st c top p l -> inbuf s' st c top p l) as X.
      { intros c top p l Ht (a & H1 & H2 & H3 & H4). exists a. repeat split; auto. intros j v Hv. rewrite E5; [apply H4; exact Hv|]. apply unit_buf_lt.
        assert (j < length l) by (apply nth_error_Some; congruence). lia. }
      assert (forall top p l, ondisk s top p l -> ondisk s' top p l) as Y by (intros top p l H j v Hv; rewrite E1; apply H; exact Hv).
      intros off l p H1 H2.
      destruct (m_data _ _ _ M off l p H1 H2) as [H|(H & H' & [H''|H''])]; [left; apply X; assumption|right|right]; repeat split; auto.
    - rewrite E2. intros r Hr. destruct (m_out _ _ _ M r Hr) as (H1 & H2 & H3 & H4). repeat split; auto. lia.
  Qed.
  Lemma live_at f st off l p j : f_data f off = Some l -> b_map st off = Some p -> j < length l -> live f st (p + j).
  Proof. intros H1 H2 Hj. exists off, l, p. repeat split; auto; lia. Qed.
  Lemma sread_ok f st s off l p : inv f st s -> f_data f off = Some l -> b_map st off = Some p ->
    ok (sread A junk W sent off (length l) st) s (fun r s' => r = l /\ inv f st s').
  Proof.
    intros [P M] H1 H2. unfold sread. rewrite H2. pose proof (p_blocks _ _ P) as K.
    destruct (k_map _ _ K off l H1) as (p' & E & Hr & Hl). assert (p' = p) as -> by congruence. clear E.
    assert (forall c top, top <= W -> inbuf s st c top p l -> exists i, in_buf W st c p = Some i /\ ok (if i + length l <=? W then gets A (map (unit_buf c) (seq i (length l))) else Err) s (fun r s' => r = l /\ inv f st s')) as X.
    { intros c top Ht Hb. destruct (inbuf_get f st s c top p l M Ht Hl Hb) as (i & I1 & I2 & I3). exists i. split; [exact I1|]. destruct (Nat.leb_spec (i + length l) W); [|lia].
      eapply ok_imp; [exact I3|]. intros r s' [-> ->]. split; [reflexivity|split; assumption]. }
    destruct (m_data _ _ _ M off l p H1 H2) as [H|(Ha & Hd & H)].
    { destruct (X _ _ (p_pos _ _ P) H) as (i & -> & Y). exact Y. }
    rewrite (in_buf_away _ _ _ _ Hl Ha). destruct H as [H|Ha'].
    { destruct (X _ _ (le_n W) H) as (i & -> & Y). exact Y. }
    rewrite (in_buf_away _ _ _ _ Hl Ha').
    assert (p + length l <= f_size f) as Hs.
    { pose proof (live_at f st off l p (length l - 1) H1 H2 ltac:(lia)) as L. assert (p + (length l - 1) < f_size f) by (apply (p_part _ _ P); auto). lia. }
    destruct (units_at st p (length l)) as (bs & -> & L & B1 & B2); [rewrite (m_len _ _ _ M); exact Hs|].
    unfold ok. rewrite srun_read_all.
    - rewrite srun_wait_all. cbn [scont sdisk sout sown snext salloc].
      rewrite drops_new by (intros r Hr'; apply (m_out _ _ _ M r Hr')). rewrite seq_length.
      set (s1 := mk_sstate _ _ _ _ _ _).
      assert (minv f st s1) as M1.
      { apply (minv_cont f st s); unfold s1; cbn [scont sdisk sout sown snext]; auto; [apply (p_pos _ _ P)|lia|]. intros x Hx. apply rd_cont_other. rewrite in_seq. lia. }
      match goal with |- match srun ?q ?s0 with _ => _ end => change (ok q s0 (fun r s' => r = l /\ inv f st s')) end.
      eapply ok_imp; [apply (gets_ok _ l); [intro x; eapply no_reads; exact M1|apply seq_length|]|].
      + intros j x v Hx Hv. assert (j < length l) as Hj by (apply nth_error_Some; congruence). destruct (Hd j v Hv) as (b & Hb1 & Hb2).
        unfold s1. cbn [scont]. rewrite (rd_cont_at _ _ _ _ _ x b); [exact Hb2|apply seq_NoDup|]. apply (combine_nth_in _ _ j); [exact Hx|]. rewrite B2 by exact Hj. exact Hb1.
      + intros r s' [-> ->]. split; [reflexivity|split; assumption].
    - rewrite seq_length. auto.
    - apply seq_NoDup.
    - intros b Hb. apply (m_own _ _ _ M). apply In_nth_error in Hb. destruct Hb as [j Hj]. eapply nth_error_In. apply B1. exact Hj.
    - intros r Hr' _ C. destruct (m_out _ _ _ M r Hr') as (_ & _ & _ & i & a & Hi & _ & Ea & En). apply In_nth_error in C. destruct C as [j Hj].
      pose proof (nth_inj _ _ _ _ (m_nodup _ _ _ M) En (B1 _ _ Hj)). assert (j < length bs) by (apply nth_error_Some; congruence). specialize (Ha' a Ea). lia.
    - intros r Hr' C. destruct (m_out _ _ _ M r Hr') as (_ & _ & _ & i & a & Hi & Eb & _ & _). rewrite Eb in C. apply in_seq in C. pose proof (unit_buf_lt (negb (b_cur st)) i Hi). lia.
  Qed.
  Lemma sread_none f st s off n : inv f st s -> f_data f off = None -> f_size f <= sent ->
    ok (sread A junk W sent off n st) s (fun r s' => length r = n /\ inv f st s').
  Proof.
    intros [P M] H1 Hs. unfold sread. rewrite (k_none _ _ (p_blocks _ _ P) off H1).
    assert (forall c, in_buf W st c sent = None) as X.
    { intro c. unfold in_buf. destruct (b_addr st c) as [a|] eqn:E; [|reflexivity]. pose proof (k_addr _ _ (p_blocks _ _ P) c a E).
      destruct (Nat.leb_spec a sent); [|reflexivity]. destruct (Nat.ltb_spec sent (a + W)); [lia|reflexivity]. }
    rewrite !X. apply ok_ret. split; [apply repeat_length|split; assumption].
  Qed.

  (** ** growing *)
  Lemma set_size_ok f st s n : inv f st s -> f_size f <= n -> ok (set_size A n st) s (fun x s' => snd x = false /\ inv (mkf n (f_data f)) (fst x) s').
  Proof.
    intros [P M] Hn. unfold set_size. pose proof (p_blocks _ _ P) as K. rewrite (k_size _ _ K). destruct (Nat.leb_spec (f_size f) n); [|lia].
    destruct (Nat.ltb_spec (f_size f) n) as [Hlt|Hge].
    2:{ apply ok_ret. split; [reflexivity|]. cbn [fst]. assert (n = f_size f) as -> by lia. destruct f; split; assumption. }
    destruct (add_free_spec (b_free st) (f_size f) (n - f_size f) (k_gaps _ _ K) ltac:(lia)) as (fs & -> & G & F).
    { intros u Hu C. assert (u < f_size f) by (apply (p_part _ _ P); left; exact C). lia. }
    apply alloc_ok. intros l al L1 L2 L3. apply ok_ret. split; [reflexivity|]. cbn [fst].
    assert (forall u, live (mkf n (f_data f)) (mkb n (b_store st ++ l) (b_map st) (b_rev st) fs (b_addr st) (b_cur st) (b_pos st) (b_reqs st)) u <-> live f st u) as LL by (intro u; unfold live; cbn; tauto).
    assert (forall u, resv (mkb n (b_store st ++ l) (b_map st) (b_rev st) fs (b_addr st) (b_cur st) (b_pos st) (b_reqs st)) u <-> resv st u) as RR by (intro u; unfold resv; cbn; tauto).
    split.
    - constructor; [constructor|..]; cbn [f_size f_data b_size b_store b_map b_rev b_free b_addr b_cur b_pos b_reqs].
      + reflexivity.
      + exact (k_map _ _ K).
      + exact (k_none _ _ K).
      + exact (k_disj _ _ K).
      + exact G.
      + intros u Hu C. apply LL in C. apply F in Hu. destruct Hu as [Hu|Hu]; [exact (k_fl _ _ K u Hu C)|].
        assert (u < f_size f) by (apply (p_part _ _ P); auto). lia.
      + intros c a E. pose proof (k_addr _ _ K c a E). lia.
      + intro u. rewrite F, LL, RR. pose proof (p_part _ _ P u) as X. split; [intro Hu; destruct (Nat.lt_ge_cases u (f_size f)); [apply X in H0; tauto|left; right; lia]|].
        intros [[Y|Y]|Y]; [assert (u < f_size f) by (apply X; tauto); lia|lia|assert (u < f_size f) by (apply X; tauto); lia].
      + intros u Hu C. apply RR in C. apply F in Hu. destruct Hu as [Hu|Hu]; [exact (p_fr _ _ P u Hu C)|].
        assert (u < f_size f) by (apply (p_part _ _ P); auto). lia.
      + intros u Hu C. apply RR in C. apply LL in Hu. exact (p_lr _ _ P u Hu C).
      + exact (p_pos _ _ P).
      + exact (p_first _ _ P).
    - assert (forall b, In b (b_store st) -> ~ In b l) as Hd by (intros b Hb C; exact (L3 b C (m_own _ _ _ M b Hb))).
      constructor; cbn [f_size f_data b_size b_store b_map b_rev b_free b_addr b_cur b_pos b_reqs sown sout snext scont sdisk].
      + rewrite app_length, L1, (m_len _ _ _ M). lia.
      + apply nodup_app_intro; [exact (m_nodup _ _ _ M)|exact L2|exact Hd].
      + intros b Hb. apply in_app_iff in Hb. apply in_app_iff. destruct Hb as [Hb|Hb]; [right; exact (m_own _ _ _ M b Hb)|left; exact Hb].
      + intros off l' p H1 H2. destruct (m_data _ _ _ M off l' p H1 H2) as [X|(X & Y & Z)]; [left; exact X|right]. split; [exact X|]. split; [|exact Z].
        intros j v Hv. destruct (Y j v Hv) as (b & B1 & B2). exists b. cbn [sdisk]. split; [rewrite nth_error_app1 by (apply nth_error_Some; congruence); exact B1|].
        rewrite (proj2 (mem_nin b l)) by (apply Hd; eapply nth_error_In; exact B1). exact B2.
      + intros r Hr. destruct (m_out _ _ _ M r Hr) as (X1 & X2 & X3 & i & a & X4 & X5 & X6 & X7). repeat split; auto. exists i, a. repeat split; auto.
        rewrite nth_error_app1 by (apply nth_error_Some; congruence). exact X7.
  Qed.

  (** ** discarding *)
  Definition drop (f : file) (off : nat) : file := mkf (f_size f) (upd (f_data f) off None).
  Lemma discard_ok f st s off l : inv f st s -> f_data f off = Some l ->
    ok (discard A off (length l) st) s (fun x s' => snd x = false /\ inv (drop f off) (fst x) s').
  Proof.
    intros [P M] H1. unfold discard. pose proof (p_blocks _ _ P) as K. destruct (k_map _ _ K off l H1) as (p & E & Er & Hl). rewrite E.
    assert (forall u, p <= u < p + length l -> live f st u) as Lp by (intros u Hu; exists off, l, p; auto).
    destruct (add_free_spec (b_free st) p (length l) (k_gaps _ _ K) Hl) as (fs & -> & G & F).
    { intros u Hu C. exact (k_fl _ _ K u C (Lp u Hu)). }
    rewrite Er, Nat.eqb_refl. apply ok_ret. split; [reflexivity|]. cbn [fst].
    set (st' := mkb _ _ _ _ _ _ _ _ _).
    assert (forall o l', f_data (drop f off) o = Some l' -> o <> off /\ f_data f o = Some l') as D.
    { intros o l' H. unfold drop in H. cbn in H. destruct (Nat.eq_dec o off) as [->|N]; [rewrite upd_same in H; discriminate|]. rewrite upd_other in H by auto. auto. }
    assert (forall o, o <> off -> b_map st' o = b_map st o) as Mo by (intros o N; unfold st'; cbn; apply upd_other; auto).
    assert (forall u, live (drop f off) st' u <-> live f st u /\ ~ p <= u < p + length l) as LL.
    { intro u. split.
      - intros (o & l' & q & X1 & X2 & X3). apply D in X1. destruct X1 as [N X1]. rewrite Mo in X2 by exact N. split; [exists o, l', q; auto|].
        exact (k_disj _ _ K o off l' l q p u N X1 H1 X2 E X3).
      - intros [(o & l' & q & X1 & X2 & X3) N]. destruct (Nat.eq_dec o off) as [->|No]; [exfalso; apply N; congruence|].
        exists o, l', q. split; [unfold drop; cbn; rewrite upd_other by auto; exact X1|]. split; [rewrite Mo by exact No; exact X2|exact X3]. }
    assert (forall u, resv st' u <-> resv st u) as RR by (intro u; unfold resv, st'; cbn; tauto).
    split.
    - constructor; [constructor|..].
      + exact (k_size _ _ K).
      + intros o l' H. apply D in H. destruct H as [N H]. destruct (k_map _ _ K o l' H) as (q & X1 & X2 & X3). exists q. split; [rewrite Mo by exact N; exact X1|]. split; [|exact X3].
        unfold st'. cbn. rewrite upd_other; [exact X2|]. intros ->. congruence.
      + intros o H. unfold drop in H. cbn in H. destruct (Nat.eq_dec o off) as [->|N]; [unfold st'; cbn; apply upd_same|]. rewrite upd_other in H by auto. rewrite Mo by exact N.
        exact (k_none _ _ K o H).
      + intros o1 o2 l1 l2 p1 p2 u N X1 X2. apply D in X1, X2. destruct X1 as [N1 X1], X2 as [N2 X2]. rewrite !Mo by assumption. apply (k_disj _ _ K o1 o2); assumption.
      + exact G.
      + intros u Hu C. apply LL in C. destruct C as [C1 C2]. apply F in Hu. destruct Hu as [Hu|Hu]; [exact (k_fl _ _ K u Hu C1)|exact (C2 Hu)].
      + exact (k_addr _ _ K).
      + intro u. change (b_free st') with fs. change (f_size (drop f off)) with (f_size f). rewrite F, LL, RR, (p_part _ _ P u).
        assert (p <= u < p + length l \/ ~ p <= u < p + length l) as [Y|Y] by lia; [|tauto]. specialize (Lp u Y). tauto.
      + intros u Hu C. apply RR in C. apply F in Hu. destruct Hu as [Hu|Hu]; [exact (p_fr _ _ P u Hu C)|exact (p_lr _ _ P u (Lp u Hu) C)].
      + intros u Hu C. apply RR in C. apply LL in Hu. exact (p_lr _ _ P u (proj1 Hu) C).
      + exact (p_pos _ _ P).
      + exact (p_first _ _ P).
    - constructor; [exact (m_len _ _ _ M)|exact (m_nodup _ _ _ M)|exact (m_own _ _ _ M)| |exact (m_out _ _ _ M)].
      intros o l' q H. apply D in H. destruct H as [N H]. rewrite Mo by exact N. apply (m_data _ _ _ M); exact H.
  Qed.

  (** ** the next buffer *)
  Lemma placed_of f st : blocks f st -> (forall u, live f st u -> u < f_size f) -> placed A f (b_map st).
  Proof.
    intros K B. split; [|split].
    - intro off. split; [apply (k_none _ _ K)|]. intro H. destruct (f_data f off) as [l|] eqn:E; [|reflexivity]. destruct (k_map _ _ K off l E) as (p & X & _). congruence.
    - intros off l p H1 H2. destruct (k_map _ _ K off l H1) as (q & _ & _ & Hl). pose proof (B _ (live_at f st off l p (length l - 1) H1 H2 ltac:(lia))). lia.
    - intros o1 o2 l1 l2 p1 p2 N H1 H2 H3 H4. pose proof (k_disj _ _ K o1 o2 l1 l2 p1 p2 p1 N H1 H2 H3 H4) as X.
      pose proof (k_disj _ _ K o2 o1 l2 l1 p2 p1 p2 ltac:(auto) H2 H1 H4 H3) as Y.
      destruct (k_map _ _ K o1 l1 H1) as (_ & _ & _ & Hl1). destruct (k_map _ _ K o2 l2 H2) as (_ & _ & _ & Hl2). lia.
  Qed.
  (** after the current buffer has been written: everything is on disk or on the way there *)
  Record flushed (f : file) (st : wb) (s : sstate) : Prop := {
    h_blocks : blocks f st;
    h_part : forall u, u < f_size f <-> infree u (b_free st) \/ live f st u;
    h_len : length (b_store st) = f_size f;
    h_nodup : NoDup (b_store st);
    h_own : forall b, In b (b_store st) -> In b (sown s);
    h_data : forall off l p, f_data f off = Some l -> b_map st off = Some p ->
      ondisk s (b_store st) p l /\ (inbuf s st (b_cur st) W p l \/ away st (b_cur st) p (length l));
    h_out : forall r, In r (sout s) -> a_write r = true /\ In (a_id r) (b_reqs st) /\ a_id r < snext s /\
      exists i a, i < W /\ a_buf r = unit_buf (b_cur st) i /\ b_addr st (b_cur st) = Some a /\ nth_error (b_store st) (a + i) = Some (a_bid r) }.
  Lemma next_buffer_ok f st s : flushed f st s -> let x := next_buffer W st in
    if snd x then placed A f (b_map (fst x)) /\ crowded A W f (b_map (fst x))
    else inv f (fst x) s /\ b_pos (fst x) = 0 /\ (exists a, b_addr (fst x) (b_cur (fst x)) = Some a).
  Proof.
    intros F x. unfold x, next_buffer. clear x. pose proof (h_blocks _ _ _ F) as K. pose proof (next_write_block_spec W (b_free st) HW 0 (k_gaps _ _ K)) as N.
    destruct (next_write_block W (b_free st)) as [[a fs]|]; cbn [fst snd b_map b_pos b_addr b_cur].
    - destruct N as (N1 & _ & N2 & N3). split; [|split; [reflexivity|exists a; rewrite eqb_reflx; reflexivity]].
      set (st' := mkb _ _ _ _ _ _ _ _ _).
      assert (forall u, live f st' u <-> live f st u) as LL by (intro u; unfold live, st'; cbn; tauto).
      assert (forall u, resv st' u <-> a <= u < a + W) as RR.
      { intro u. unfold resv, st'. cbn. rewrite eqb_reflx. split; [intros (a' & E & H); injection E as ->; lia|intro H; exists a; split; [reflexivity|lia]]. }
      assert (b_addr st' (negb (b_cur st)) = Some a) as A1 by (unfold st'; cbn; rewrite eqb_reflx; reflexivity).
      assert (b_addr st' (b_cur st) = b_addr st (b_cur st)) as A2 by (unfold st'; cbn; destruct (b_cur st); reflexivity).
      assert (a + W <= f_size f) as Ha. { assert (a + (W - 1) < f_size f) by (apply (h_part _ _ _ F); left; apply N2; right; lia). lia. }
      split.
      + constructor; [constructor|..].
        * exact (k_size _ _ K).
        * exact (k_map _ _ K).
        * exact (k_none _ _ K).
        * exact (k_disj _ _ K).
        * exact N1.
        * intros u Hu C. apply LL in C. apply (k_fl _ _ K u); [apply N2; left; exact Hu|exact C].
        * intros c a' E. unfold st' in E. cbn in E. destruct (Bool.eqb c (negb (b_cur st))); [injection E as <-; exact Ha|exact (k_addr _ _ K c a' E)].
        * intro u. rewrite LL, RR, (h_part _ _ _ F u), N2. change (b_free st') with fs. tauto.
        * intros u Hu C. apply RR in C. exact (N3 u Hu C).
        * intros u Hu C. apply LL in Hu. apply RR in C. apply (k_fl _ _ K u); [apply N2; right; exact C|exact Hu].
        * cbn. lia.
        * change (b_cur st') with (negb (b_cur st)). rewrite A1. discriminate.
      + assert (forall off l p, f_data f off = Some l -> b_map st off = Some p -> away st' (negb (b_cur st)) p (length l)) as Aw.
        { intros off l p H1 H2 a' E. rewrite A1 in E. injection E as <-. destruct (k_map _ _ K off l H1) as (_ & _ & _ & Hl).
          assert (forall j, j < length l -> ~ a <= p + j < a + W) as X.
          { intros j Hj C. apply (k_fl _ _ K (p + j)); [apply N2; right; exact C|eapply live_at; eassumption]. }
          destruct (Nat.le_gt_cases (p + length l) a) as [|C]; [left; assumption|right]. destruct (Nat.le_gt_cases (a + W) p) as [|C']; [assumption|]. exfalso.
          destruct (Nat.le_gt_cases a p) as [Y|Y]; [apply (X 0 Hl); lia|apply (X (a - p)); lia]. }
        constructor.
        * exact (h_len _ _ _ F).
        * exact (h_nodup _ _ _ F).
        * exact (h_own _ _ _ F).
        * intros off l p H1 H2. right. change (b_cur st') with (negb (b_cur st)). rewrite negb_involutive. split; [eapply Aw; eassumption|].
          destruct (h_data _ _ _ F off l p H1 H2) as [D1 D2]. split; [exact D1|]. destruct D2 as [D2|D2]; [left|right].
          -- unfold inbuf in *. rewrite A2. exact D2.
          -- unfold away in *. rewrite A2. exact D2.
        * intros r Hr. destruct (h_out _ _ _ F r Hr) as (X1 & X2 & X3 & i & a' & X4 & X5 & X6 & X7). repeat split; auto. exists i, a'.
          change (b_cur st') with (negb (b_cur st)). rewrite negb_involutive. rewrite A2. auto.
    - split.
      + apply placed_of; [|intros u Hu; apply (h_part _ _ _ F); right; exact Hu]. destruct K. constructor; assumption.
      + intros a Ha. destruct W as [|w] eqn:EW; [lia|]. rewrite <- EW in *.
        assert (~ forall u, a <= u < a + S w -> infree u (b_free st)) as X.
        { intro C. destruct (run_in_region 0 (b_free st) a w (k_gaps _ _ K) C) as (p & n & Y1 & Y2 & Y3). specialize (N p n Y1). lia. }
        assert (forall k, k <= S w -> (forall u, a <= u < a + k -> infree u (b_free st)) \/ exists u, a <= u < a + k /\ live f st u) as Y.
        { induction k as [|k IH]; intro Hk; [left; intros; lia|]. destruct IH as [IH|(u & U1 & U2)]; [lia| |right; exists u; split; [lia|exact U2]].
          assert (a + k < f_size f) as Hu by lia. apply (h_part _ _ _ F) in Hu. destruct Hu as [Hu|Hu]; [left|right; exists (a + k); split; [lia|exact Hu]].
          intros u U. destruct (Nat.eq_dec u (a + k)) as [->|]; [exact Hu|apply IH; lia]. }
        destruct (Y (S w) (le_n _)) as [Z|(u & U1 & off & l & p & U2 & U3 & U4)]; [contradiction|]. exists off, l, p, u. repeat split; auto; lia.
  Qed.
  Lemma write_buffer_ok f st s : inv f st s -> ok (write_buffer A W st) s (fun x s' => snd x = false /\ flushed f (fst x) s' /\ b_map (fst x) = b_map st).
  Proof.
    intros [P M]. pose proof (p_blocks _ _ P) as K. unfold write_buffer. destruct (b_addr st (b_cur st)) as [a|] eqn:Ea.
    2:{ apply ok_ret. split; [reflexivity|]. cbn [fst]. split; [|reflexivity]. destruct (p_first _ _ P Ea) as [_ Na].
        assert (forall u, ~ resv st u) as NR by (intros u (a & C & _); congruence).
        constructor; [exact K| |exact (m_len _ _ _ M)|exact (m_nodup _ _ _ M)|exact (m_own _ _ _ M)| |].
        - intro u. rewrite (p_part _ _ P u). specialize (NR u). tauto.
        - intros off l p H1 H2. destruct (m_data _ _ _ M off l p H1 H2) as [(a & C & _)|(X & Y & _)]; [congruence|]. split; [exact Y|right; exact X].
        - intros r Hr. destruct (m_out _ _ _ M r Hr) as (_ & _ & _ & i & a & _ & _ & C & _). rewrite Na in C. discriminate. }
    assert (exists fs, (if b_pos st <? W then add_free (b_free st) (a + b_pos st) (W - b_pos st) else Some (b_free st)) = Some fs /\ gaps 0 fs /\
      forall u, infree u fs <-> infree u (b_free st) \/ resv st u) as (fs & -> & G & F).
    { assert (forall u, resv st u <-> a + b_pos st <= u < a + W) as R by (intro u; split; [intros (a' & E & H); congruence|intro H; exists a; auto]).
      destruct (Nat.ltb_spec (b_pos st) W).
      - destruct (add_free_spec (b_free st) (a + b_pos st) (W - b_pos st) (k_gaps _ _ K) ltac:(lia)) as (fs & E & G & F).
        + intros u Hu C. apply (p_fr _ _ P u C). apply R. lia.
        + exists fs. split; [exact E|]. split; [exact G|]. intro u. rewrite F, R. assert (a + b_pos st <= u < a + b_pos st + (W - b_pos st) <-> a + b_pos st <= u < a + W) as -> by lia. tauto.
      - exists (b_free st). split; [reflexivity|]. split; [exact (k_gaps _ _ K)|]. intro u. rewrite R. split; [tauto|intros [H'|H']; [exact H'|lia]]. }
    unfold ok. rewrite srun_wait_all. rewrite (drops_all (b_reqs st) (sout s)) by (intros r Hr; apply (m_out _ _ _ M r Hr)).
    pose proof (k_addr _ _ K _ _ Ea) as Ha.
    destruct (units_at st a W) as (bs & -> & L & B1 & B2); [rewrite (m_len _ _ _ M); exact Ha|].
    assert (NoDup bs) as NB.
    { apply nodup_by_inj. intros i j b E1 E2. pose proof (nth_inj _ _ _ _ (m_nodup _ _ _ M) (B1 _ _ E1) (B1 _ _ E2)). lia. }
    rewrite srun_write_all; cbn [scont sdisk sout sown snext salloc].
    2:{ rewrite map_length, seq_length. auto. }
    2:{ exact NB. }
    2:{ intros b Hb. apply (m_own _ _ _ M). apply In_nth_error in Hb. destruct Hb as [j Hj]. eapply nth_error_In. apply B1. exact Hj. }
    2:{ intros r []. }
    2:{ intros r []. }
    rewrite map_length, seq_length. cbn [app srun]. split; [reflexivity|]. cbn [fst]. split; [|reflexivity].
    set (st' := mkb _ _ _ _ _ _ _ _ _). set (s' := mk_sstate _ _ _ _ _ _).
    assert (forall u, live f st' u <-> live f st u) as LL by (intro u; unfold live, st'; cbn; tauto).
    constructor.
    - constructor; [exact (k_size _ _ K)|exact (k_map _ _ K)|exact (k_none _ _ K)|exact (k_disj _ _ K)|exact G| |exact (k_addr _ _ K)].
      intros u Hu C. apply LL in C. apply F in Hu. destruct Hu as [Hu|Hu]; [exact (k_fl _ _ K u Hu C)|exact (p_lr _ _ P u C Hu)].
    - intro u. rewrite LL, (p_part _ _ P u). change (b_free st') with fs. rewrite F. tauto.
    - exact (m_len _ _ _ M).
    - exact (m_nodup _ _ _ M).
    - exact (m_own _ _ _ M).
    - intros off l p H1 H2. change (b_cur st') with (b_cur st). change (b_store st') with (b_store st).
      destruct (m_data _ _ _ M off l p H1 H2) as [(a' & X1 & X2 & X3 & X4)|(X & Y & _)].
      + assert (a' = a) as -> by congruence. pose proof (p_pos _ _ P) as Hp. split.
        * intros j v Hv. assert (j < length l) as Hj by (apply nth_error_Some; congruence). assert (p - a + j < W) as Hi by lia.
          destruct (nth_error bs (p - a + j)) as [b|] eqn:Eb; [|apply nth_error_None in Eb; lia]. exists b.
          split; [rewrite <- (B1 _ _ Eb); f_equal; lia|]. unfold s'. cbn [sdisk].
          rewrite (wr_disk_at _ _ _ _ _ (unit_buf (b_cur st) (p - a + j)) b NB); [apply X4; exact Hv|]. apply (combine_nth_in _ _ (p - a + j)); [|exact Eb].
          rewrite nth_error_map. assert (nth_error (seq 0 W) (p - a + j) = Some (p - a + j)) as ->; [|reflexivity].
          rewrite (nth_error_nth' _ 0) by (rewrite seq_length; exact Hi). rewrite seq_nth by exact Hi. reflexivity.
        * left. exists a. repeat split; auto. lia.
      + split; [|right; exact X]. intros j v Hv. destruct (Y j v Hv) as (b & Y1 & Y2). exists b. split; [exact Y1|]. unfold s'. cbn [sdisk].
        rewrite wr_disk_other; [exact Y2|]. intro C. apply In_nth_error in C. destruct C as [i Hi]. pose proof (nth_inj _ _ _ _ (m_nodup _ _ _ M) Y1 (B1 _ _ Hi)).
        assert (i < W) by (rewrite <- L; apply nth_error_Some; congruence). assert (j < length l) by (apply nth_error_Some; congruence). specialize (X a Ea). lia.
    - intros r Hr. unfold s' in Hr. cbn [sout] in Hr. pose proof (reqs_in _ _ _ _ _ Hr) as (I1 & I2 & I3 & I4). rewrite map_length, seq_length in I1.
      split; [exact I2|]. split; [unfold st'; cbn; apply in_seq; lia|]. split; [unfold s'; cbn; lia|].
      assert (In (a_buf r, a_bid r) (combine (map (unit_buf (b_cur st)) (seq 0 W)) bs)) as Hc.
      { clear - Hr. revert Hr. generalize (snext s) as n, (map (unit_buf (b_cur st)) (seq 0 W)) as xs. intros n xs. revert n bs. induction xs as [|x xs IH]; intros n bs H; [destruct H|].
        destruct bs as [|b bs]; [destruct H|]. destruct H as [<-|H]; [left; reflexivity|right; eapply IH; exact H]. }
      apply In_nth_error in Hc. destruct Hc as [i Hc].
      assert (nth_error (map (unit_buf (b_cur st)) (seq 0 W)) i = Some (a_buf r) /\ nth_error bs i = Some (a_bid r)) as [C1 C2].
      { clear - Hc. revert Hc. generalize (map (unit_buf (b_cur st)) (seq 0 W)) as xs. intro xs. revert i bs. induction xs as [|x xs IH]; intros i bs H; [destruct i; discriminate|].
        destruct bs as [|b bs]; [destruct i; discriminate|]. destruct i; cbn in *; [injection H as -> ->; auto|apply IH; exact H]. }
      apply nth_map_seq in C1. destruct C1 as [C1 C3]. exists i, a. change (b_cur st') with (b_cur st). repeat split; auto.
  Qed.
  Lemma make_room_ok f st s n : inv f st s -> 0 < n <= W -> ok (make_room A W n st) s (fun x s' =>
    if snd x then placed A f (b_map (fst x)) /\ crowded A W f (b_map (fst x))
    else inv f (fst x) s' /\ n <= W - b_pos (fst x) /\ exists a, b_addr (fst x) (b_cur (fst x)) = Some a).
  Proof.
    intros I Hn. unfold make_room. destruct (Nat.ltb_spec (W - b_pos st) n).
    - apply ok_bind. eapply ok_imp; [apply write_buffer_ok; exact I|]. intros [st1 t] s1 (Et & F & _). cbn [fst snd] in *. subst t. apply ok_ret.
      pose proof (next_buffer_ok f st1 s1 F) as X. cbv zeta in X. destruct (snd (next_buffer W st1)); [exact X|]. destruct X as (X1 & X2 & X3). rewrite X2. split; [exact X1|]. split; [lia|exact X3].
    - apply ok_ret. cbn [fst snd]. split; [exact I|]. split; [exact H|]. destruct (b_addr st (b_cur st)) as [a|] eqn:E; [exists a; reflexivity|].
      destruct (p_first _ _ (proj1 I) E). lia.
  Qed.

  (** ** writing *)
  Lemma append_ok f st s off l a : inv f st s -> f_data f off = None -> 0 < length l <= W - b_pos st -> b_addr st (b_cur st) = Some a ->
    ok (append A W off l st) s (fun st' s' => inv (mkf (f_size f) (upd (f_data f) off (Some l))) st' s').
  Proof.
    intros [P M] Hf Hl Ea. unfold append. rewrite Ea. destruct (Nat.leb_spec (length l) (W - b_pos st)); [|lia]. pose proof (p_blocks _ _ P) as K. pose proof (p_pos _ _ P) as Hp.
    apply ok_bind. eapply ok_imp; [apply puts_ok|].
    - intros r x Hr Hx. destruct (m_out _ _ _ M r Hr) as (_ & _ & _ & i & a' & X1 & X2 & _). rewrite X2. intro C. rewrite <- C in Hx. apply in_map_iff in Hx.
      destruct Hx as (j & E & Hj). apply in_seq in Hj. apply unit_buf_inj in E; [|lia|exact X1]. destruct E as [E _]. destruct (b_cur st); discriminate.
    - apply nodup_by_inj. intros i j b E1 E2. apply nth_map_seq in E1, E2. destruct E1 as [E1 ->], E2 as [E2 E3]. apply unit_buf_inj in E3; lia.
    - rewrite map_length, seq_length. reflexivity.
    - intros u s' (S1 & S2 & S3 & S4 & S5 & S6). apply ok_ret. set (p := a + b_pos st). set (f' := mkf _ _). set (st' := mkb _ _ _ _ _ _ _ _ _).
      assert (forall u', p <= u' < p + length l -> resv st u') as Rp by (intros u' Hu; exists a; split; [exact Ea|unfold p in Hu; lia]).
      assert (forall o, o <> off -> f_data f' o = f_data f o /\ b_map st' o = b_map st o) as O by (intros o N; unfold f', st'; cbn; rewrite !upd_other by auto; auto).
      assert (f_data f' off = Some l /\ b_map st' off = Some p) as [O1 O2] by (unfold f', st'; cbn; rewrite !upd_same; auto).
      assert (forall u', live f' st' u' <-> live f st u' \/ p <= u' < p + length l) as LL.
      { intro u'. split.
        - intros (o & l' & q & X1 & X2 & X3). destruct (Nat.eq_dec o off) as [->|N]; [right; congruence|]. destruct (O o N) as [Y1 Y2]. left. exists o, l', q. rewrite <- Y1, <- Y2. auto.
        - intros [(o & l' & q & X1 & X2 & X3)|X]; [|exists off, l, p; auto]. assert (o <> off) as N by congruence. destruct (O o N) as [Y1 Y2]. exists o, l', q. rewrite Y1, Y2. auto. }
      assert (forall u', resv st' u' <-> p + length l <= u' < a + W) as RR.
      { intro u'. unfold resv, st'. cbn. split; [intros (a' & E & H'); assert (a' = a) as -> by congruence; unfold p; lia|intro H'; exists a; split; [exact Ea|unfold p in H'; lia]]. }
      assert (forall u', resv st u' <-> p <= u' < a + W) as RR0 by (intro u'; unfold resv; split; [intros (a' & E & H'); assert (a' = a) as -> by congruence; exact H'|intro H'; exists a; auto]).
      split.
      + constructor; [constructor|..].
        * exact (k_size _ _ K).
        * intros o l' H'. destruct (Nat.eq_dec o off) as [->|N].
          -- assert (l' = l) as -> by congruence. exists p. split; [exact O2|]. split; [unfold st'; cbn; apply upd_same|lia].
          -- destruct (O o N) as [Y1 Y2]. rewrite Y1 in H'. destruct (k_map _ _ K o l' H') as (q & X1 & X2 & X3). exists q. rewrite Y2. split; [exact X1|]. split; [|exact X3].
             unfold st'. cbn. rewrite upd_other; [exact X2|]. intro C. apply (p_lr _ _ P q); [exists o, l', q; repeat split; auto; lia|]. apply Rp. rewrite <- C. unfold p. lia.
        * intros o H'. destruct (Nat.eq_dec o off) as [->|N]; [congruence|]. destruct (O o N) as [Y1 Y2]. rewrite Y1 in H'. rewrite Y2. exact (k_none _ _ K o H').
        * assert (forall o l' q u', o <> off -> f_data f' o = Some l' -> b_map st' o = Some q -> q <= u' < q + length l' -> ~ p <= u' < p + length l) as D.
          { intros o l' q u' N X1 X2 X3 C. destruct (O o N) as [Y1 Y2]. apply (p_lr _ _ P u'); [exists o, l', q; rewrite <- Y1, <- Y2; auto|apply Rp; exact C]. }
          intros o1 o2 l1 l2 p1 p2 u' N X1 X2 X3 X4 X5 X6. destruct (Nat.eq_dec o1 off) as [->|N1]; [|destruct (Nat.eq_dec o2 off) as [->|N2]].
          -- apply (D o2 l2 p2 u'); auto. congruence.
          -- apply (D o1 l1 p1 u'); auto. congruence.
          -- destruct (O o1 N1) as [Y1 Y2], (O o2 N2) as [Y3 Y4]. rewrite Y1 in X1. rewrite Y2 in X3. rewrite Y3 in X2. rewrite Y4 in X4. exact (k_disj _ _ K o1 o2 l1 l2 p1 p2 u' N X1 X2 X3 X4 X5 X6).
        * exact (k_gaps _ _ K).
        * intros u' Hu C. apply LL in C. destruct C as [C|C]; [exact (k_fl _ _ K u' Hu C)|exact (p_fr _ _ P u' Hu (Rp u' C))].
        * exact (k_addr _ _ K).
        * intro u'. change (f_size f') with (f_size f). change (b_free st') with (b_free st). rewrite LL, RR, (p_part _ _ P u'), RR0.
          assert (p <= u' < a + W <-> p <= u' < p + length l \/ p + length l <= u' < a + W) as -> by (unfold p; lia). tauto.
        * intros u' Hu C. apply (p_fr _ _ P u' Hu). apply RR0. apply RR in C. lia.
        * intros u' Hu C. apply RR in C. apply LL in Hu. destruct Hu as [Hu|Hu]; [|lia]. apply (p_lr _ _ P u' Hu). apply RR0. lia.
        * cbn. lia.
        * change (b_cur st') with (b_cur st). change (b_addr st') with (b_addr st). congruence.
      + constructor.
        * exact (m_len _ _ _ M).
        * exact (m_nodup _ _ _ M).
        * rewrite S3. exact (m_own _ _ _ M).
        * change (b_cur st') with (b_cur st). change (b_pos st') with (b_pos st + length l). change (b_store st') with (b_store st).
          intros o l' q X1 X2. destruct (Nat.eq_dec o off) as [->|N].
          -- left. assert (l' = l) as -> by congruence. assert (q = p) as -> by congruence. exists a. split; [exact Ea|]. split; [unfold p; lia|]. split; [unfold p; lia|].
             intros j v Hv. apply (S6 j); [|exact Hv]. assert (j < length l) as Hj by (apply nth_error_Some; congruence).
             rewrite nth_error_map. rewrite (nth_error_nth' _ 0) by (rewrite seq_length; exact Hj). rewrite seq_nth by exact Hj. cbn. do 2 f_equal. unfold p. lia.
          -- destruct (O o N) as [Y1 Y2]. rewrite Y1 in X1. rewrite Y2 in X2.
             assert (forall i, i < b_pos st -> scont s' (unit_buf (b_cur st) i) = scont s (unit_buf (b_cur st) i)) as C1.
             { intros i Hi. apply S5. intro C. apply in_map_iff in C. destruct C as (j & E & Hj). apply in_seq in Hj. apply unit_buf_inj in E; lia. }
             assert (forall i, i < W -> scont s' (unit_buf (negb (b_cur st)) i) = scont s (unit_buf (negb (b_cur st)) i)) as C2.
             { intros i Hi. apply S5. intro C. apply in_map_iff in C. destruct C as (j & E & Hj). apply in_seq in Hj. apply unit_buf_inj in E; [|lia|exact Hi]. destruct E as [E _]. destruct (b_cur st); discriminate. }
             destruct (m_data _ _ _ M o l' q X1 X2) as [(a' & Z1 & Z2 & Z3 & Z4)|(Z1 & Z2 & Z3)].
             ++ left. exists a'. split; [exact Z1|]. split; [exact Z2|]. split; [lia|]. intros j v Hv. assert (j < length l') by (apply nth_error_Some; congruence). rewrite C1 by lia. apply Z4. exact Hv.
             ++ right. split; [exact Z1|]. split; [intros j v Hv; rewrite S1; apply Z2; exact Hv|]. destruct Z3 as [(a' & Z3 & Z4 & Z5 & Z6)|Z3]; [left|right; exact Z3].
                exists a'. repeat split; auto. intros j v Hv. assert (j < length l') by (apply nth_error_Some; congruence). rewrite C2 by lia. apply Z6. exact Hv.
        * rewrite S2, S4. exact (m_out _ _ _ M).
  Qed.
  Notation forget := (forget A).
  Lemma swrite_ok f st s off l : inv f st s -> 0 < length l <= W -> (forall l', f_data f off = Some l' -> length l = length l') ->
    ok (swrite A W off l st) s (fun x s' => if snd x then placed A (forget f off) (b_map (fst x)) /\ crowded A W (forget f off) (b_map (fst x))
      else inv (mkf (f_size f) (upd (f_data f) off (Some l))) (fst x) s').
  Proof.
    intros I Hl Hs. unfold swrite. apply ok_bind.
    assert (ok (match b_map st off with Some _ => discard A off (length l) st | None => Ret (st, false) end) s (fun x s' => snd x = false /\ inv (forget f off) (fst x) s')) as D.
    { destruct (f_data f off) as [l'|] eqn:E.
      - destruct (k_map _ _ (p_blocks _ _ (proj1 I)) off l' E) as (p & -> & _). rewrite (Hs l' eq_refl). apply (discard_ok f st s off l' I E).
      - rewrite (k_none _ _ (p_blocks _ _ (proj1 I)) off E). apply ok_ret. split; [reflexivity|]. cbn [fst].
        assert (forall o, f_data (forget f off) o = f_data f o) as X by (intro o; unfold WbtlSpec.forget; cbn; destruct (Nat.eq_dec o off) as [->|N]; [rewrite upd_same; auto|apply upd_other; auto]).
        destruct I as [P M]. split.
        + destruct P as [[? ? ? ? ? ? ?] ? ? ? ? ?]. constructor; [constructor|..]; auto; unfold live; setoid_rewrite X; auto.
        + destruct M. constructor; auto; setoid_rewrite X; auto. }
    eapply ok_imp; [exact D|]. intros [st1 t] s1 (Et & I1). cbn [fst snd] in *. subst t.
    apply ok_bind. eapply ok_imp; [apply (make_room_ok _ _ _ _ I1 Hl)|]. intros [st2 t] s2 H. cbn [fst snd] in *. destruct t; [apply ok_ret; exact H|].
    destruct H as (I2 & Hr & a & Ea). apply ok_bind. eapply ok_imp; [apply (append_ok _ _ _ off l a I2); [unfold WbtlSpec.forget; cbn; apply upd_same|lia|exact Ea]|].
    intros st3 s3 I3. apply ok_ret. cbn [fst snd].
    assert (forall o, f_data (mkf (f_size (forget f off)) (upd (f_data (forget f off)) off (Some l))) o = upd (f_data f) off (Some l) o) as X.
    { intro o. unfold WbtlSpec.forget. cbn. destruct (Nat.eq_dec o off) as [->|N]; [rewrite !upd_same; reflexivity|rewrite !upd_other by auto; reflexivity]. }
    set (f2 := mkf (f_size f) (upd (f_data f) off (Some l))). change (forall o, f_data (mkf (f_size (forget f off)) (upd (f_data (forget f off)) off (Some l))) o = f_data f2 o) in X.
    destruct I3 as [P M]. split.
    - destruct P as [[? ? ? ? ? ? ?] ? ? ? ? ?]. constructor; [constructor|..]; auto; unfold live in *; setoid_rewrite <- X; auto.
    - destruct M. constructor; auto; setoid_rewrite <- X; auto.
  Qed.

  (** ** all operations *)
  Lemma new_inv al : inv f_new (b_new W) (sinit al).
  Proof.
    split.
    - constructor; [constructor|..]; cbn; auto; try discriminate.
      + intros u H (off & l & p & C & _). discriminate.
      + intro u. split; [lia|]. intros [H|[H|H]]; [apply infree_nil in H; destruct H|destruct H as (off & l & p & C & _); discriminate|destruct H as (a & C & _); discriminate].
      + intros u H (a & C & _). discriminate.
      + intros u H (a & C & _). discriminate.
    - constructor; cbn; auto; try discriminate; try tauto. constructor.
  Qed.
  Lemma b_op_ok f st s o f' e : inv f st s -> f_op A W sent o f = Some (f', e) ->
    ok (b_op A junk W sent o st) s (fun x s' => inv f' (fst x) s' /\ agrees A (snd x) e \/
      snd x = OThrow A /\ exists off l, o = BWrite A off l /\ placed A (forget f off) (b_map (fst x)) /\ crowded A W (forget f off) (b_map (fst x))).
  Proof.
    intros I E. destruct o as [n|off l|off n|off n]; cbn [f_op b_op] in *.
    - destruct (Nat.leb_spec (f_size f) n); [|discriminate]. injection E as <- <-. apply ok_bind. eapply ok_imp; [apply (set_size_ok f st s n I H)|].
      intros [st' t] s' (Et & I'). cbn [fst snd] in *. subst t. apply ok_ret. left. split; [exact I'|constructor].
    - destruct (Nat.ltb_spec 0 (length l)); [|discriminate]. destruct (Nat.leb_spec (length l) W); [|discriminate]. cbn [andb] in E.
      assert ((forall l', f_data f off = Some l' -> length l = length l') /\ f' = mkf (f_size f) (upd (f_data f) off (Some l)) /\ e = EWritten) as (X & -> & ->).
      { destruct (f_data f off) as [l'|]; [destruct (Nat.eqb_spec (length l) (length l')); [|discriminate]|]; injection E as <- <-; repeat split; auto; congruence. }
      apply ok_bind. eapply ok_imp; [apply (swrite_ok f st s off l I); auto|]. intros [st' t] s' Y. cbn [fst snd] in *. apply ok_ret. destruct t; [right|left].
      + split; [reflexivity|]. exists off, l. auto.
      + split; [exact Y|constructor].
    - destruct (f_data f off) as [l|] eqn:D.
      + destruct (Nat.eqb_spec n (length l)) as [->|]; [|discriminate]. injection E as <- <-. destruct (k_map _ _ (p_blocks _ _ (proj1 I)) off l D) as (p & Ep & _).
        apply ok_bind. eapply ok_imp; [apply (sread_ok f st s off l p I D Ep)|]. intros r s' [-> I']. apply ok_ret. left. split; [exact I'|constructor].
      + destruct (Nat.leb_spec (f_size f) sent); [|discriminate]. injection E as <- <-.
        apply ok_bind. eapply ok_imp; [apply (sread_none f st s off n I D H)|]. intros r s' [Hr I']. apply ok_ret. left. split; [exact I'|constructor; exact Hr].
    - destruct (f_data f off) as [l|] eqn:D.
      + destruct (Nat.eqb_spec n (length l)) as [->|]; [|discriminate]. injection E as <- <-. apply ok_bind. eapply ok_imp; [apply (discard_ok f st s off l I D)|].
        intros [st' t] s' (Et & I'). cbn [fst snd] in *. subst t. apply ok_ret. left. split; [exact I'|constructor].
      + injection E as <- <-. unfold discard. rewrite (k_none _ _ (p_blocks _ _ (proj1 I)) off D). apply ok_ret. left. split; [exact I|constructor].
  Qed.
  Lemma b_ops_ok os : forall f st s x, inv f st s -> f_ops A W sent os f = Some x ->
    ok (b_ops A junk W sent false os st) s (fun y s' => fine A W sent f os (b_map (fst y)) (snd y)).
  Proof.
    induction os as [|o os IH]; intros f st s x I E; cbn [b_ops f_ops] in *.
    - apply ok_ret. left. exists f, []. split; [reflexivity|]. split; [constructor|]. apply placed_of; [apply I|]. intros u Hu. apply (p_part _ _ (proj1 I)). auto.
    - destruct (f_op A W sent o f) as [[f1 e]|] eqn:Eo; [|discriminate]. destruct (f_ops A W sent os f1) as [[f2 es]|] eqn:Es; [|discriminate].
      apply ok_bind. eapply ok_imp; [apply (b_op_ok f st s o f1 e I Eo)|]. intros [st1 y] s1 H. cbn [fst snd] in H. destruct H as [[I1 Ag]|(-> & off & l & -> & Pl & Cr)].
      + assert (ok (let* (st, l) := b_ops A junk W sent false os st1 in Ret (st, y :: l)) s1 (fun y s' => fine A W sent f (o :: os) (b_map (fst y)) (snd y))) as X.
        { apply ok_bind. eapply ok_imp; [apply (IH f1 st1 s1 (f2, es) I1 Es)|]. intros [st2 ys] s2 H. apply ok_ret. cbn [fst snd] in *. destruct H as [(g & gs & H1 & H2 & H3)|H].
          - left. exists g, (e :: gs). cbn [f_ops]. rewrite Eo, H1. split; [reflexivity|]. split; [constructor; assumption|exact H3].
          - destruct H as (os1 & off & l & os2 & g & gs & outs1 & -> & H1 & -> & H2 & H3). right. exists (o :: os1), off, l, os2, g, (e :: gs), (y :: outs1).
            split; [reflexivity|]. cbn [f_ops]. rewrite Eo, H1. split; [reflexivity|]. split; [reflexivity|]. split; [constructor; assumption|exact H3]. }
        inversion Ag; subst y; exact X.
      + apply ok_ret. right. exists [], off, l, os, f, [], []. split; [reflexivity|]. split; [reflexivity|]. split; [reflexivity|]. split; [constructor|]. split; assumption.
  Qed.
End P.
