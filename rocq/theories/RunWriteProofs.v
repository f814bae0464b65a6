From Coq Require Import List Bool Arith Lia.
From Verif Require Import SumLib StackProofs AsyncIoModel AsyncIoProofs AsyncIoRules SortModel SortProofs RunWriteModel RunWriteSpec.
Import ListNotations.
Local Open Scope prog_scope.

Lemma set_nth_length {X} i (x : X) l : length (set_nth i x l) = length l.
Proof. revert i. induction l as [|y l IH]; intros [|i]; cbn; auto. Qed.
Lemma set_nth_same {X} i (x d : X) l : i < length l -> nth i (set_nth i x l) d = x.
Proof. revert i. induction l as [|y l IH]; intros [|i] H; cbn in *; try lia; auto. apply IH. lia. Qed.
Lemma set_nth_other {X} i k (x d : X) l : k <> i -> nth k (set_nth i x l) d = nth k l d.
Proof. revert i k. induction l as [|y l IH]; intros [|i] [|k] H; cbn; auto; try lia. Qed.
Lemma div_mod_eq B i e : e < B -> (i * B + e) / B = i /\ (i * B + e) mod B = e.
Proof.
  intro H. split.
  - rewrite Nat.add_comm, Nat.div_add, Nat.div_small by lia. lia.
  - rewrite Nat.add_comm, Nat.mod_add by lia. apply Nat.mod_small, H.
Qed.

Lemma nth_error_slice {X} (l : list X) k n e v : nth_error (firstn n (skipn k l)) e = Some v -> nth_error l (k + e) = Some v.
Proof.
  intro H. assert (e < length (firstn n (skipn k l))) as Hl by (apply nth_error_Some; congruence). rewrite firstn_length, skipn_length in Hl.
  rewrite <- (firstn_skipn k l). rewrite nth_error_app2 by (rewrite firstn_length; lia). rewrite firstn_length, Nat.min_l by lia.
  replace (k + e - k) with e by lia. rewrite <- (firstn_skipn n (skipn k l)). rewrite nth_error_app1; [exact H|]. rewrite firstn_length, skipn_length. lia.
Qed.

Lemma firstn_add {X} a b : forall (l : list X), firstn a l ++ firstn b (skipn a l) = firstn (a + b) l.
Proof. induction a as [|a IH]; intro l; [reflexivity|]. destruct l; [cbn; rewrite firstn_nil; reflexivity|]. cbn. f_equal. apply IH. Qed.

Section P.
  Variable A : Type.
  Variable maxv : A.
  Variable srt : list A -> list A.
  Variable B m2 : nat.
  Hypothesis HB : 0 < B.
  Hypothesis HM : 0 < m2.
  Hypothesis SL : forall l, length (srt l) = length l.
  Notation sstate := (sstate A).
  Notation buffer := (buffer m2).

  Definition held (s : sstate) (half : bool) (l : list A) : Prop :=
    forall j v, nth_error l j = Some v -> scont s (buffer half (j / B)) (j mod B) = Some v.
  Definition writes_only (s : sstate) : Prop := forall r, In r (sout s) -> a_write r = true.
  Definition free_half (s : sstate) (half : bool) : Prop := forall r i, In r (sout s) -> i < m2 -> a_buf r <> buffer half i.
  (** same state except for the contents of the buffers *)
  Definition same (s s' : sstate) : Prop :=
    sdisk s' = sdisk s /\ sout s' = sout s /\ sown s' = sown s /\ snext s' = snext s /\ salloc s' = salloc s.
  Lemma same_refl s : same s s.
  Proof. unfold same. auto. Qed.
  Lemma same_trans s s' s'' : same s s' -> same s' s'' -> same s s''.
  Proof. unfold same. intuition congruence. Qed.
  Lemma buffer_inj h i h' i' : i < m2 -> i' < m2 -> buffer h i = buffer h' i' -> h = h' /\ i = i'.
  Proof. unfold RunWriteModel.buffer. destruct h, h'; intros; split; auto; lia. Qed.
  Lemma index_lt j : j < m2 * B -> j / B < m2.
  Proof. intro H. apply Nat.div_lt_upper_bound; lia. Qed.

  Lemma held_app_l s h l l' : held s h (l ++ l') -> held s h l.
  Proof. intros H j v E. apply H. rewrite nth_error_app1; [exact E|]. apply nth_error_Some. congruence. Qed.

  Lemma gets_ok s h l : writes_only s -> held s h l -> forall js vs, map (nth_error l) js = map Some vs ->
    ok (get_elements A B m2 h js) s (fun r s' => r = vs /\ s' = s).
  Proof.
    intros W H. induction js as [|j js IH]; intros [|v vs] E; try discriminate; [split; reflexivity|].
    cbn in E. injection E as E1 E2. unfold AsyncIoRules.ok. cbn [get_elements srun].
    assert (existsb (reads (on_buf (buffer h (j / B)))) (sout s) = false) as ->.
    { apply existsb_false. intros r Hr. unfold reads. rewrite (W r Hr). reflexivity. }
    rewrite (H j v E1). change (ok (let* l0 := get_elements A B m2 h js in Ret (v :: l0)) s (fun r s' => r = v :: vs /\ s' = s)).
    apply ok_bind. eapply ok_imp; [apply IH, E2|]. intros r s' [-> ->]. split; reflexivity.
  Qed.
  Lemma nth_seq (l : list A) : forall pre, map (nth_error (pre ++ l)) (seq (length pre) (length l)) = map Some l.
  Proof.
    induction l as [|x l IH]; intro pre; [reflexivity|]. cbn [length seq map]. f_equal.
    - rewrite nth_error_app2, Nat.sub_diag by lia. reflexivity.
    - specialize (IH (pre ++ [x])). rewrite app_length, Nat.add_1_r, <- app_assoc in IH. exact IH.
  Qed.
  Lemma gets_all_ok s h l : writes_only s -> held s h l -> ok (get_elements A B m2 h (seq 0 (length l))) s (fun r s' => r = l /\ s' = s).
  Proof. intros W H. eapply gets_ok; [exact W|exact H|]. apply (nth_seq l []). Qed.

  Lemma puts_ok h l : forall pre s, held s h pre -> free_half s h -> length pre + length l <= m2 * B ->
    ok (put_elements A B m2 h (length pre) l) s (fun _ s' => held s' h (pre ++ l) /\ same s s' /\ (forall x, (forall i, i < m2 -> x <> buffer h i) -> scont s' x = scont s x)).
  Proof.
    induction l as [|v l IH]; intros pre s H F L; [rewrite app_nil_r; split; [exact H|split; [apply same_refl|reflexivity]]|].
    unfold AsyncIoRules.ok. cbn [put_elements srun]. cbn [length] in L. set (j := length pre) in *.
    assert (j / B < m2) as Hj by (apply index_lt; lia).
    assert (existsb (on_buf (buffer h (j / B))) (sout s) = false) as ->.
    { apply existsb_false. intros r Hr. apply Nat.eqb_neq. apply F; assumption. }
    set (s1 := mk_sstate (upd2 (scont s) (buffer h (j / B)) (j mod B) (Some v)) (sdisk s) (sout s) (sown s) (snext s) (salloc s)).
    change (ok (put_elements A B m2 h (S j) l) s1 (fun _ s' => held s' h (pre ++ v :: l) /\ same s s' /\ (forall x, (forall i, i < m2 -> x <> buffer h i) -> scont s' x = scont s x))).
    replace (S j) with (length (pre ++ [v])) by (rewrite app_length; cbn; lia).
    eapply ok_imp; [apply IH|].
    - intros k w E. unfold s1. cbn [scont]. unfold upd2, upd. destruct (Nat.eq_dec k j) as [->|Hk].
      + rewrite nth_error_app2, Nat.sub_diag in E by (unfold j; lia). rewrite !Nat.eqb_refl. exact E.
      + assert (nth_error pre k = Some w) as E'.
        { rewrite nth_error_app1 in E; [exact E|]. assert (k < length (pre ++ [v])) as X by (apply nth_error_Some; congruence). rewrite app_length in X. cbn in X. fold j in X. lia. }
        assert (k < j) as Hk' by (apply nth_error_Some; congruence).
        assert (k / B < m2) as Hkm by (apply index_lt; lia).
        destruct (Nat.eqb_spec (buffer h (k / B)) (buffer h (j / B))) as [Eb|Nb]; [|apply H, E'].
        apply buffer_inj in Eb; [|exact Hkm|exact Hj]. destruct Eb as [_ Eb].
        destruct (Nat.eqb_spec (k mod B) (j mod B)) as [Em|Nm].
        * exfalso. apply Hk. rewrite (Nat.div_mod k B), (Nat.div_mod j B) by lia. congruence.
        * rewrite <- Eb. apply H, E'.
    - exact F.
    - rewrite app_length. cbn. fold j. lia.
    - intros _ s' (E1 & E2 & E3). rewrite <- app_assoc in E1. split; [exact E1|]. split; [exact E2|].
      intros x Hx. rewrite E3 by exact Hx. unfold s1. cbn [scont]. unfold upd2. apply upd_other. apply Hx, Hj.
  Qed.

  Lemma sort_run_ok h l s : held s h l -> writes_only s -> free_half s h -> length l <= m2 * B ->
    ok (sort_run A srt B m2 h (length l)) s (fun _ s' => held s' h (srt l) /\ same s s' /\ (forall x, (forall i, i < m2 -> x <> buffer h i) -> scont s' x = scont s x)).
  Proof.
    intros H W F L. unfold sort_run. apply ok_bind. eapply ok_imp; [apply gets_all_ok; assumption|]. intros r s' [-> ->].
    apply (puts_ok h (srt l) [] s); [intros [|j] v E; discriminate|exact F|cbn; rewrite SL; exact L].
  Qed.

  (** * writing a run *)
  Definition blk (s : sstate) (b : nat) (c : list A) : Prop := length c = B /\ forall e v, nth_error c e = Some v -> sdisk s b e = Some v.
  Definition run_on (s : sstate) (r : list (nat * A)) (l : list A) : Prop := exists cs, Forall2 (fun e c => blk s (fst e) c) r cs /\ concat cs = l.
  Lemma run_on_ext s s' r l : (forall b, In b (map fst r) -> sdisk s' b = sdisk s b) -> run_on s r l -> run_on s' r l.
  Proof.
    intros H (cs & F & E). exists cs. split; [|exact E]. clear E. induction F as [|e c r cs [X Y] F IH]; constructor.
    - split; [exact X|]. intros. rewrite H by (left; reflexivity). auto.
    - apply IH. intros b Hb. apply H. right. exact Hb.
  Qed.
  (** every outstanding request writes from block k of a half, to a block in [bs], and is request k *)
  Definition tracked (s : sstate) (reqs : list (option nat)) (side : nat -> bool) (bs : list nat) : Prop :=
    forall r, In r (sout s) -> a_write r = true /\ In (a_bid r) bs /\ exists k, k < m2 /\ nth k reqs None = Some (a_id r) /\ a_buf r = buffer (side k) k.

  Lemma wait_opt_ok q s : ok (wait_opt A q) s (fun _ s' => scont s' = scont s /\ sdisk s' = sdisk s /\ sown s' = sown s /\
    forall r, In r (sout s') <-> In r (sout s) /\ q <> Some (a_id r)).
  Proof.
    destruct q as [q|]; unfold AsyncIoRules.ok; cbn.
    - split; [reflexivity|]. split; [reflexivity|]. split; [reflexivity|]. intro r. rewrite drop_id_in. split; intros [H1 H2]; (split; [exact H1|congruence]).
    - split; [reflexivity|]. split; [reflexivity|]. split; [reflexivity|]. intro r. split; [intro H; split; [exact H|discriminate]|tauto].
  Qed.
  Lemma wait_opts_ok qs : forall s, ok (wait_opts A qs) s (fun _ s' => scont s' = scont s /\ sdisk s' = sdisk s /\ sown s' = sown s /\
    forall r, In r (sout s') -> In r (sout s) /\ ~ In (Some (a_id r)) qs).
  Proof.
    induction qs as [|q qs IH]; intro s; [repeat split; auto|]. cbn [wait_opts]. apply ok_bind. eapply ok_imp; [apply wait_opt_ok|].
    intros _ s1 (E1 & E2 & E3 & E4). eapply ok_imp; [apply IH|]. intros _ s2 (G1 & G2 & G3 & G4).
    split; [congruence|]. split; [congruence|]. split; [congruence|]. intros r Hr. apply G4 in Hr. destruct Hr as [Hr Hn]. apply E4 in Hr. destruct Hr as [Hr Hq].
    split; [exact Hr|]. intros [H|H]; [congruence|contradiction].
  Qed.

  Lemma write_blocks_ok half L bs0 : forall bids i reqs s,
    held s half L -> (i + length bids) * B <= length L -> i + length bids <= m2 -> length reqs = m2 ->
    NoDup bids -> (forall b, In b bids -> In b (sown s) /\ ~ In b bs0) ->
    (forall r, In r (sout s) -> In (a_bid r) bids -> False) ->
    (exists done, tracked s reqs (fun k => if Nat.ltb k i then half else negb half) (bs0 ++ done)) ->
    ok (write_blocks A m2 half i bids reqs) s (fun x s' =>
      map fst (fst x) = bids /\ length (snd x) = m2 /\ run_on s' (fst x) (firstn (length bids * B) (skipn (i * B) L)) /\
      scont s' = scont s /\ sown s' = sown s /\ (forall b, ~ In b bids -> sdisk s' b = sdisk s b) /\
      (forall r, In r (sout s') -> a_write r = true /\ (In r (sout s) \/ In (a_bid r) bids) /\
         exists k, k < m2 /\ nth k (snd x) None = Some (a_id r) /\ a_buf r = buffer (if Nat.ltb k (i + length bids) then half else negb half) k)).
  Proof.
    induction bids as [|b bids IH]; intros i reqs s H HL Hi Lr ND Ho Hn (done & T).
    - unfold AsyncIoRules.ok. cbn. split; [reflexivity|]. split; [exact Lr|]. split; [exists []; split; [constructor|reflexivity]|]. split; [reflexivity|].
      split; [reflexivity|]. split; [reflexivity|]. intros r Hr. destruct (T r Hr) as (T1 & _ & T3). rewrite Nat.add_0_r. auto.
    - cbn [length] in *. inversion ND as [|? ? Nb ND']; subst.
      assert (forall e v, nth_error (firstn B (skipn (i * B) L)) e = Some v -> scont s (buffer half i) e = Some v) as Hc.
      { intros e v E. assert (e < B) as He by (assert (e < length (firstn B (skipn (i * B) L))) by (apply nth_error_Some; congruence); rewrite firstn_length in *; lia).
        apply nth_error_slice in E. destruct (div_mod_eq B i e He) as [D1 D2].
        specialize (H _ _ E). rewrite D1, D2 in H. exact H. }
      assert (length (firstn B (skipn (i * B) L)) = B) as Lc by (rewrite firstn_length, skipn_length; nia).
      destruct (firstn B (skipn (i * B) L)) as [|v0 c0] eqn:Ec; [cbn in Lc; lia|]. rewrite <- Ec in *.
      unfold AsyncIoRules.ok. cbn [write_blocks srun].
      assert (existsb (reads (on_buf (buffer half i))) (sout s) = false) as ->.
      { apply existsb_false. intros r Hr. unfold reads. destruct (T r Hr) as (-> & _). reflexivity. }
      rewrite (Hc 0 v0) by (rewrite Ec; reflexivity).
      match goal with |- match srun ?p ?st with _ => _ end => change (ok p st (fun x s' =>
        map fst (fst x) = b :: bids /\ length (snd x) = m2 /\ run_on s' (fst x) (firstn (S (length bids) * B) (skipn (i * B) L)) /\
        scont s' = scont s /\ sown s' = sown s /\ (forall b', ~ In b' (b :: bids) -> sdisk s' b' = sdisk s b') /\
        (forall r, In r (sout s') -> a_write r = true /\ (In r (sout s) \/ In (a_bid r) (b :: bids)) /\
         exists k, k < m2 /\ nth k (snd x) None = Some (a_id r) /\ a_buf r = buffer (if Nat.ltb k (i + S (length bids)) then half else negb half) k))) end.
      apply ok_bind. eapply ok_imp; [apply wait_opt_ok|]. intros _ s1 (E1 & E2 & E3 & E4).
      unfold AsyncIoRules.ok. cbn [srun].
      assert (mem b (sown s1) = true) as -> by (rewrite E3; apply mem_in, Ho; left; reflexivity).
      assert (existsb (reads (on_buf (buffer half i))) (sout s1) = false) as ->.
      { apply existsb_false. intros r Hr. apply E4 in Hr. unfold reads. destruct (T r (proj1 Hr)) as (-> & _). reflexivity. }
      assert (existsb (on_bid b) (sout s1) = false) as ->.
      { apply existsb_false. intros r Hr. apply E4 in Hr. apply Nat.eqb_neq. intro X. apply (Hn r (proj1 Hr)). left. auto. }
      cbn [negb orb].
      match goal with |- match srun ?p ?st with _ => _ end => set (s2 := st) end.
      match goal with |- match srun ?p ?st with _ => _ end => change (ok p st (fun x s' =>
        map fst (fst x) = b :: bids /\ length (snd x) = m2 /\ run_on s' (fst x) (firstn (S (length bids) * B) (skipn (i * B) L)) /\
        scont s' = scont s /\ sown s' = sown s /\ (forall b', ~ In b' (b :: bids) -> sdisk s' b' = sdisk s b') /\
        (forall r, In r (sout s') -> a_write r = true /\ (In r (sout s) \/ In (a_bid r) (b :: bids)) /\
         exists k, k < m2 /\ nth k (snd x) None = Some (a_id r) /\ a_buf r = buffer (if Nat.ltb k (i + S (length bids)) then half else negb half) k))) end.
      apply ok_bind. eapply ok_imp; [apply (IH (S i) (set_nth i (Some (snext s1)) reqs) s2)|].
      + intros j v E. unfold s2. cbn [scont]. rewrite E1. apply H, E.
      + lia.
      + lia.
      + rewrite set_nth_length. exact Lr.
      + exact ND'.
      + intros b' Hb'. unfold s2. cbn [sown]. rewrite E3. apply Ho. right. exact Hb'.
      + intros r Hr Hb'. unfold s2 in Hr. cbn [sout] in Hr. apply in_app_or in Hr. destruct Hr as [Hr|[<-|[]]].
        * apply E4 in Hr. apply (Hn r (proj1 Hr)). right. exact Hb'.
        * cbn in Hb'. contradiction.
      + exists (done ++ [b]). intros r Hr. unfold s2 in Hr. cbn [sout] in Hr. apply in_app_or in Hr. destruct Hr as [Hr|[<-|[]]].
        * apply E4 in Hr. destruct Hr as [Hr Hq]. destruct (T r Hr) as (T1 & T2 & k & T3 & T4 & T5). split; [exact T1|].
          split; [apply in_app_or in T2; apply in_or_app; destruct T2 as [T2|T2]; [left; exact T2|right; apply in_or_app; left; exact T2]|].
          assert (k <> i) as Hk by congruence. exists k. split; [exact T3|]. split; [rewrite set_nth_other by exact Hk; exact T4|].
          rewrite T5. destruct (Nat.ltb_spec k i), (Nat.ltb_spec k (S i)); try lia; reflexivity.
        * cbn [a_write a_bid a_id a_buf]. split; [reflexivity|]. split; [apply in_or_app; right; apply in_or_app; right; left; reflexivity|].
          exists i. split; [lia|]. split; [apply set_nth_same; lia|]. destruct (Nat.ltb_spec i (S i)); [reflexivity|lia].
      + intros [r reqs'] s3 (G1 & G2 & G3 & G4 & G5 & G6 & G7). cbn [fst snd] in *. unfold AsyncIoRules.ok. cbn [srun fst snd].
        split; [cbn; congruence|]. split; [exact G2|]. split.
        { destruct G3 as (cs & F & Ecs). exists (firstn B (skipn (i * B) L) :: cs). split.
          - constructor; [|exact F]. cbn [fst]. split; [exact Lc|]. intros e v E. rewrite G6 by exact Nb. unfold s2. cbn [sdisk].
            rewrite upd_same, E1. apply Hc, E.
          - cbn [concat]. rewrite Ecs. cbn [Nat.mul].
            rewrite (Nat.add_comm B (i * B)), <- (skipn_skipn' B (i * B) L). apply firstn_add. }
        split; [rewrite G4; unfold s2; cbn [scont]; exact E1|]. split; [rewrite G5; unfold s2; cbn [sown]; exact E3|].
        split.
        { intros b' Hb'. rewrite G6 by (intro X; apply Hb'; right; exact X). unfold s2. cbn [sdisk]. rewrite upd_other by (intros ->; apply Hb'; left; reflexivity). rewrite E2. reflexivity. }
        intros q Hq. destruct (G7 q Hq) as (X1 & X2 & k & X3 & X4 & X5). split; [exact X1|]. split.
        { destruct X2 as [X2|X2]; [|right; right; exact X2]. unfold s2 in X2. cbn [sout] in X2. apply in_app_or in X2. destruct X2 as [X2|[<-|[]]]; [left; apply E4, X2|right; left; reflexivity]. }
        exists k. split; [exact X3|]. split; [exact X4|]. replace (i + S (length bids)) with (S i + length bids) by lia. exact X5.
  Qed.

  Lemma blocks_of_bounds n : n <= blocks_of B n * B < n + B.
  Proof.
    unfold blocks_of. pose proof (Nat.div_mod (n + B - 1) B ltac:(lia)) as E. pose proof (Nat.mod_upper_bound (n + B - 1) B ltac:(lia)).
    rewrite Nat.mul_comm in E. lia.
  Qed.
  Lemma blocks_of_full : blocks_of B (m2 * B) = m2.
  Proof. pose proof (blocks_of_bounds (m2 * B)). nia. Qed.
  Lemma blocks_of_le n : n <= m2 * B -> blocks_of B n <= m2.
  Proof. intro H. pose proof (blocks_of_bounds n). nia. Qed.

  Lemma alloc_ok R n (k : list nat -> prog A R) (s : sstate) Q :
    (forall bids al, length bids = n -> NoDup bids -> (forall b, In b bids -> ~ In b (sown s)) ->
       ok (k bids) (mk_sstate (scont s) (fun b => if mem b bids then (fun _ => None) else sdisk s b) (sout s) (bids ++ sown s) (snext s) al) Q) ->
    ok (DoAlloc n k) s Q.
  Proof.
    intro H. unfold AsyncIoRules.ok. cbn [srun]. destruct (salloc s) as [|l al]; [exact I|]. destruct (good_alloc n (sown s) l) eqn:E; [|exact I].
    apply good_alloc_spec in E. destruct E as (E1 & E2 & E3). apply (H l al E1 E2 E3).
  Qed.

  Definition runs_on (s : sstate) (rs : list (wrun A)) (ls : list (list A * nat)) : Prop := Forall2 (fun r l => run_on s (fst r) (fst l) /\ snd r = snd l) rs ls.
  Lemma runs_on_ext s s' rs ls : (forall b, In b (run_blocks rs) -> sdisk s' b = sdisk s b) -> runs_on s rs ls -> runs_on s' rs ls.
  Proof.
    intros H F. induction F as [|r l rs ls [X Y] F IH]; constructor.
    - split; [|exact Y]. eapply run_on_ext; [|exact X]. intros b Hb. apply H. unfold run_blocks. cbn. apply in_or_app. left. exact Hb.
    - apply IH. intros b Hb. apply H. unfold run_blocks. cbn. apply in_or_app. right. exact Hb.
  Qed.
  Definition own_ok (s : sstate) (bs : list nat) : Prop := NoDup bs /\ forall b, In b (sown s) <-> In b bs.
  Lemma tracked_writes s reqs side bs : tracked s reqs side bs -> writes_only s.
  Proof. intros T r Hr. apply (T r Hr). Qed.
  Lemma tracked_free s reqs half bs : tracked s reqs (fun _ => negb half) bs -> free_half s half.
  Proof.
    intros T r i Hr Hi E. destruct (T r Hr) as (_ & _ & k & Hk & _ & Ek). rewrite E in Ek. apply buffer_inj in Ek; [|exact Hi|exact Hk].
    destruct Ek as [Ek _]. destruct half; discriminate.
  Qed.
  Lemma tracked_same s s' reqs side bs : sout s' = sout s -> tracked s reqs side bs -> tracked s' reqs side bs.
  Proof. intros E T r Hr. apply T. rewrite <- E. exact Hr. Qed.

  (** write a run from the buffers, after the blocks have been allocated; s is the state before the allocation *)
  Lemma store_ok half L (s s1 : sstate) reqs bs bids :
    held s1 half L -> length bids * B = length L -> length bids <= m2 -> length reqs = m2 ->
    own_ok s bs -> NoDup bids -> (forall b, In b bids -> ~ In b (sown s)) -> sown s1 = bids ++ sown s ->
    (forall b, ~ In b bids -> sdisk s1 b = sdisk s b) -> tracked s1 reqs (fun _ => negb half) bs ->
    ok (write_blocks A m2 half 0 bids reqs) s1 (fun x s' =>
      own_ok s' (bs ++ map fst (fst x)) /\ length (snd x) = m2 /\ run_on s' (fst x) L /\ scont s' = scont s1 /\
      (forall b, In b bs -> sdisk s' b = sdisk s b) /\
      tracked s' (snd x) (fun k => if Nat.ltb k (length bids) then half else negb half) (bs ++ map fst (fst x))).
  Proof.
    intros H Hl Hm Hr [O1 O2] ND Hf Hs Hd T.
    assert (forall b, In b bids -> ~ In b bs) as Hfb by (intros b Hb X; apply (Hf b Hb), O2, X).
    eapply ok_imp; [apply (write_blocks_ok half L bs bids 0 reqs s1); auto|].
    - cbn [Nat.add]. lia.
    - intros b Hb. split; [rewrite Hs; apply in_or_app; left; exact Hb|apply Hfb, Hb].
    - intros r Hr' Hb. destruct (T r Hr') as (_ & X & _). apply (Hfb _ Hb X).
    - exists []. rewrite app_nil_r. exact T.
    - intros [r reqs'] s' (E1 & E2 & E3 & E4 & E5 & E6 & E7). cbn [fst snd] in *. rewrite E1.
      split; [split|].
      + apply nodup_app_intro; [exact O1|exact ND|]. intros b Hb X. apply (Hfb b X Hb).
      + intro b. rewrite E5, Hs, !in_app_iff, O2. tauto.
      + split; [exact E2|]. cbn [Nat.mul skipn] in E3. rewrite firstn_all2 in E3 by lia. split; [exact E3|]. split; [exact E4|]. split.
        * intros b Hb. rewrite E6 by (intro X; apply (Hfb b X Hb)). apply Hd. intro X. apply (Hfb b X Hb).
        * intros q Hq. destruct (E7 q Hq) as (X1 & X2 & X3). split; [exact X1|]. split; [|exact X3]. apply in_or_app.
          destruct X2 as [X2|X2]; [left; apply (T q X2)|right; exact X2].
  Qed.

  Notation padded := (RunWriteSpec.padded A maxv srt B).
  Notation expected := (RunWriteSpec.expected A maxv srt B m2).
  Notation entry := (fun c : list A => (padded c, length c)).

  Definition filling (w : wstate A) (items : list A) (s : sstate) : Prop :=
    exists cks cur, items = concat cks ++ cur /\ Forall (fun c => length c = m2 * B) cks /\ length cur <= m2 * B /\
      (cks = [] -> sout s = []) /\ (cks <> [] -> cur <> []) /\ w_cur w = length cur /\ held s (w_half w) cur /\ w_elements w = length (concat cks) /\
      w_small w = [] /\ runs_on s (w_runs w) (map entry cks) /\ tracked s (w_reqs w) (fun _ => negb (w_half w)) (run_blocks (w_runs w)) /\ w_alloc w = true.
  Definition complete (w : wstate A) (items : list A) (s : sstate) : Prop :=
    sout s = [] /\ runs_on s (w_runs w) (snd (expected items)) /\ w_small w = fst (expected items).
  Definition J (w : wstate A) (h : told A) (s : sstate) : Prop :=
    w_computed w = h_computed h /\ w_alloc w = h_alloc h /\ (w_alloc w = true -> length (w_reqs w) = m2) /\ own_ok s (run_blocks (w_runs w)) /\
    if h_computed h then complete w (h_items h) s else filling w (h_items h) s.

  Lemma run_blocks_app (rs : list (wrun A)) r n : run_blocks (rs ++ [(r, n)]) = run_blocks rs ++ map fst r.
  Proof. unfold run_blocks. rewrite map_app, concat_app. cbn. rewrite app_nil_r. reflexivity. Qed.
  Lemma full_padded c : length c = m2 * B -> padded c = srt c.
  Proof. intro H. unfold RunWriteSpec.padded. rewrite H, blocks_of_full, Nat.sub_diag. cbn. apply app_nil_r. Qed.
  Lemma chunks_of (cks : list (list A)) cur : Forall (fun c => length c = m2 * B) cks -> cur <> [] -> length cur <= m2 * B ->
    chunks (m2 * B) (concat cks ++ cur) = cks ++ [cur].
  Proof.
    intros F N L. unfold chunks. assert (0 < m2 * B) as Hp by nia.
    assert (forall fuel, length (concat cks ++ cur) <= fuel -> chunk fuel (m2 * B) (concat cks ++ cur) = cks ++ [cur]) as W; [|apply W, le_n].
    induction F as [|c cks Hc F IH]; intros fuel Hf.
    - cbn [concat app] in *. destruct cur as [|x cur]; [contradiction|]. destruct fuel as [|f]; [cbn in Hf; lia|]. cbn [chunk].
      rewrite firstn_all2, skipn_all2 by exact L. destruct f; reflexivity.
    - cbn [concat] in *. rewrite <- app_assoc in *. destruct c as [|x c]; [cbn in Hc; lia|]. destruct fuel as [|f]; [cbn in Hf; lia|].
      cbn [app chunk]. change (x :: c ++ concat cks ++ cur) with ((x :: c) ++ concat cks ++ cur). rewrite <- Hc.
      rewrite firstn_app, Nat.sub_diag, firstn_all, skipn_app, Nat.sub_diag, skipn_all. cbn [firstn skipn app]. rewrite app_nil_r. f_equal.
      rewrite Hc. apply IH. rewrite app_length in Hf. cbn in Hf. lia.
  Qed.

  Lemma push_ok x w h h' s : J w h s -> tell A B m2 (WPush x) h = Some h' -> ok (w_push A srt B m2 x w) s (fun w' s' => J w' h' s').
  Proof.
    intros (J1 & J2 & J3 & J4 & J5) E. cbn in E. destruct (h_computed h) eqn:Ec; [discriminate|]. destruct (h_alloc h) eqn:Ea; [|discriminate]. injection E as <-.
    unfold w_push. rewrite J1, J2. destruct J5 as (cks & cur & F1 & F2 & F3 & F4 & F5 & F6 & F7 & F8 & F9 & F10 & F11 & F12).
    assert (0 < m2 * B) as Hp by nia.
    destruct (Nat.ltb_spec (w_cur w) (m2 * B)) as [Hl|Hl].
    - apply ok_bind. rewrite F6 in *. eapply ok_imp; [apply puts_ok; [exact F7|eapply tracked_free; exact F11|cbn; lia]|].
      intros _ s' (G1 & (G2 & G3 & G4 & G5 & G6) & G7). apply ok_ret. split; [reflexivity|]. split; [reflexivity|]. split; [intros _; apply J3, J2|].
      split; [destruct J4 as [O1 O2]; split; [exact O1|intro b; cbn [w_runs]; rewrite G4; apply O2]|]. cbn [h_computed h_items].
      exists cks, (cur ++ [x]). cbn [w_cur w_half w_elements w_small w_runs w_reqs w_alloc]. split; [rewrite F1, app_assoc; reflexivity|]. split; [exact F2|]. split; [rewrite app_length; cbn; lia|].
      split; [intro X; rewrite G3; apply F4, X|]. split; [intros _ X; destruct cur; discriminate|]. split; [rewrite app_length; cbn; lia|]. split; [exact G1|].
      split; [exact F8|]. split; [exact F9|]. split; [eapply runs_on_ext; [|exact F10]; intros b _; rewrite G2; reflexivity|]. split; [eapply tracked_same; [exact G3|exact F11]|reflexivity].
    - assert (length cur = m2 * B) as Lc by lia. rewrite <- Lc at 1. apply ok_bind. eapply ok_imp; [apply sort_run_ok; [exact F7|eapply tracked_writes; exact F11|eapply tracked_free; exact F11|exact F3]|].
      intros _ s1 (G1 & (G2 & G3 & G4 & G5 & G6) & G7). rewrite blocks_of_full. apply alloc_ok. intros bids al B1 B2 B3.
      set (s2 := mk_sstate (scont s1) _ _ _ _ _).
      assert (own_ok s1 (run_blocks (w_runs w))) as O1 by (destruct J4 as [O1 O2]; split; [exact O1|intro b; rewrite G4; apply O2]).
      apply ok_bind. eapply ok_imp; [apply (store_ok (w_half w) (srt cur) s1 s2 (w_reqs w) (run_blocks (w_runs w)) bids)|].
      + exact G1.
      + rewrite SL, B1. lia.
      + lia.
      + apply J3, J2.
      + exact O1.
      + exact B2.
      + exact B3.
      + reflexivity.
      + intros b Hb. unfold s2. cbn [sdisk]. rewrite (proj2 (mem_nin b bids) Hb). reflexivity.
      + eapply tracked_same; [|exact F11]. unfold s2. cbn [sout]. exact G3.
      + intros [r reqs'] s3 (K1 & K2 & K3 & K4 & K5 & K6). cbn [fst snd] in *. destruct (Nat.ltb_spec 0 (m2 * B)); [|lia].
        assert (tracked s3 reqs' (fun _ => negb (negb (w_half w))) (run_blocks (w_runs w) ++ map fst r)) as T3.
        { intros q Hq. destruct (K6 q Hq) as (X1 & X2 & k & X3 & X4 & X5). split; [exact X1|]. split; [exact X2|]. exists k. split; [exact X3|]. split; [exact X4|].
          rewrite X5, B1. destruct (Nat.ltb_spec k m2); [|lia]. rewrite negb_involutive. reflexivity. }
        apply ok_bind. eapply ok_imp; [apply (puts_ok (negb (w_half w)) [x] [] s3); [intros [|j] v E; discriminate|eapply tracked_free; exact T3|cbn; lia]|].
        intros _ s4 (L1 & (L2 & L3 & L4 & L5 & L6) & L7). apply ok_ret. split; [reflexivity|]. split; [reflexivity|]. split; [intros _; exact K2|].
        split; [cbn [w_runs]; rewrite run_blocks_app; destruct K1 as [Q1 Q2]; split; [exact Q1|intro b; rewrite L4; apply Q2]|]. cbn [h_computed h_items].
        exists (cks ++ [cur]), [x]. cbn [w_cur w_half w_elements w_small w_runs w_reqs w_alloc].
        split; [rewrite F1, concat_app; cbn; rewrite app_nil_r; reflexivity|]. split; [apply Forall_app; split; [exact F2|constructor; [exact Lc|constructor]]|].
        split; [cbn; lia|]. split; [intro X; destruct cks; discriminate|]. split; [discriminate|]. split; [reflexivity|]. split; [exact L1|].
        split; [rewrite F8, concat_app, app_length; cbn; rewrite app_nil_r; lia|]. split; [exact F9|]. split.
        * rewrite map_app. apply Forall2_app.
          -- eapply runs_on_ext; [|exact F10]. intros b Hb. rewrite L2, K5 by exact Hb. rewrite G2. reflexivity.
          -- constructor; [|constructor]. cbn [fst snd]. split; [|symmetry; exact Lc]. rewrite full_padded by exact Lc. eapply run_on_ext; [|exact K3]. intros b _. rewrite L2. reflexivity.
        * split; [|reflexivity]. rewrite run_blocks_app. eapply tracked_same; [exact L3|exact T3].
  Qed.

  Lemma result_ok w h s : J w h s -> h_computed h || h_alloc h = true -> ok (w_result A maxv srt B m2 w) s (fun w' s' => J w' (mkh (h_items h) true (h_alloc h)) s').
  Proof.
    intros (J1 & J2 & J3 & J4 & J5) E. unfold w_result. destruct (h_computed h) eqn:Ec.
    { rewrite J1. apply ok_ret. split; [exact J1|]. split; [exact J2|]. split; [exact J3|]. split; [exact J4|exact J5]. }
    destruct (h_alloc h) eqn:Ea; [|discriminate]. rewrite J1, J2. destruct J5 as (cks & cur & F1 & F2 & F3 & F4 & F5 & F6 & F7 & F8 & F9 & F10 & F11 & F12).
    assert (0 < m2 * B) as Hp by nia. assert (B <= m2 * B) as Hb by nia.
    apply ok_bind. unfold w_compute. rewrite F6. destruct (Nat.eqb_spec (length cur) 0) as [Hz|Hz].
    { apply ok_ret, ok_ret. destruct cur; [|discriminate]. assert (cks = []) as -> by (destruct cks; [reflexivity|exfalso; apply F5; [discriminate|reflexivity]]).
      split; [reflexivity|]. split; [cbn; congruence|]. split; [exact J3|]. split; [exact J4|]. cbn [h_computed h_items]. split; [apply F4; reflexivity|].
      rewrite F1. cbn [w_runs w_small]. split; [exact F10|]. rewrite F9. cbn. pose proof (SL []) as Hs. destruct (srt []); [reflexivity|discriminate]. }
    assert (cur <> []) as N by (intros ->; apply Hz; reflexivity).
    apply ok_bind. eapply ok_imp; [apply sort_run_ok; [exact F7|eapply tracked_writes; exact F11|eapply tracked_free; exact F11|exact F3]|].
    intros _ s1 (G1 & (G2 & G3 & G4 & G5 & G6) & G7).
    assert (own_ok s1 (run_blocks (w_runs w))) as O1 by (destruct J4 as [O1 O2]; split; [exact O1|intro b; rewrite G4; apply O2]).
    assert (tracked s1 (w_reqs w) (fun _ => negb (w_half w)) (run_blocks (w_runs w))) as T1 by (eapply tracked_same; [exact G3|exact F11]).
    destruct (Nat.leb (length cur) B && Nat.eqb (w_elements w) 0) eqn:Es.
    - apply andb_true_iff in Es. destruct Es as [Es1 Es2]. apply Nat.leb_le in Es1. apply Nat.eqb_eq in Es2.
      assert (cks = []) as Ek. { destruct F2 as [|c cks Hc F2]; [reflexivity|]. rewrite F8 in Es2. cbn in Es2. rewrite app_length in Es2. lia. }
      subst cks. apply ok_bind. rewrite <- (SL cur) at 1. eapply ok_imp; [apply gets_all_ok; [eapply tracked_writes; exact T1|exact G1]|].
      intros l s' [-> ->]. apply ok_ret, ok_ret. split; [reflexivity|]. split; [cbn; congruence|]. split; [exact J3|]. split; [exact O1|]. cbn [h_computed h_items].
      split; [rewrite G3; apply F4; reflexivity|]. rewrite F1. cbn [concat app w_runs w_small]. unfold RunWriteSpec.expected. rewrite (proj2 (Nat.leb_le _ _) Es1). cbn [fst snd].
      split; [eapply runs_on_ext; [|exact F10]; intros b _; rewrite G2; reflexivity|reflexivity].
    - pose proof (blocks_of_bounds (length cur)) as Hn. pose proof (blocks_of_le (length cur) F3) as Hn'. set (n := blocks_of B (length cur)) in *.
      apply alloc_ok. intros bids al B1 B2 B3. set (s2 := mk_sstate (scont s1) _ _ _ _ _).
      assert (tracked s2 (w_reqs w) (fun _ => negb (w_half w)) (run_blocks (w_runs w))) as T2 by (eapply tracked_same; [|exact T1]; reflexivity).
      apply ok_bind. rewrite <- (SL cur) at 1. eapply ok_imp; [apply puts_ok; [exact G1|eapply tracked_free; exact T2|rewrite SL, repeat_length; nia]|].
      intros _ s3 (L1 & (L2 & L3 & L4 & L5 & L6) & L7).
      change (srt cur ++ repeat maxv (n * B - length cur)) with (padded cur) in L1.
      apply ok_bind. eapply ok_imp; [apply (store_ok (w_half w) (padded cur) s1 s3 (w_reqs w) (run_blocks (w_runs w)) bids)|].
      + exact L1.
      + unfold RunWriteSpec.padded. rewrite app_length, repeat_length, SL, B1. fold n. lia.
      + lia.
      + apply J3, J2.
      + exact O1.
      + exact B2.
      + exact B3.
      + rewrite L4. reflexivity.
      + intros b Hx. rewrite L2. unfold s2. cbn [sdisk]. rewrite (proj2 (mem_nin b bids) Hx). reflexivity.
      + eapply tracked_same; [exact L3|exact T2].
      + intros [r reqs'] s4 (K1 & K2 & K3 & K4 & K5 & K6). cbn [fst snd] in *. apply ok_bind. eapply ok_imp; [apply wait_opts_ok|].
        intros _ s5 (M1 & M2 & M3 & M4). apply ok_ret, ok_ret.
        assert (sout s5 = []) as S5.
        { destruct (sout s5) as [|q l] eqn:Eq; [reflexivity|]. exfalso. destruct (M4 q (or_introl eq_refl)) as [X Y]. destruct (K6 q X) as (_ & _ & k & X3 & X4 & _).
          apply Y. rewrite <- X4. apply nth_In. lia. }
        split; [reflexivity|]. split; [cbn; congruence|]. split; [intros _; exact K2|].
        split; [cbn [w_runs]; rewrite run_blocks_app; destruct K1 as [Q1 Q2]; split; [exact Q1|intro b; rewrite M3; apply Q2]|]. cbn [h_computed h_items].
        split; [exact S5|]. cbn [w_runs w_small]. unfold RunWriteSpec.expected.
        assert (Nat.leb (length (h_items h)) B = false) as ->.
        { apply Nat.leb_gt. rewrite F1, app_length. destruct F2 as [|c cks Hc F2].
          - cbn [concat length] in *. rewrite F8 in Es. cbn in Es. rewrite andb_true_r in Es. apply Nat.leb_gt in Es. lia.
          - cbn [concat]. rewrite app_length. destruct cur; [contradiction|cbn in *; lia]. }
        rewrite F1, (chunks_of cks cur F2 N F3), map_app. cbn [fst snd]. split; [|exact F9]. apply Forall2_app.
        * eapply runs_on_ext; [|exact F10]. intros b Hx. rewrite M2, K5 by exact Hx. rewrite G2. reflexivity.
        * constructor; [|constructor]. cbn [fst snd]. split; [|reflexivity]. eapply run_on_ext; [|exact K3]. intros b _. rewrite M2. reflexivity.
  Qed.

  Lemma idle_quiet w h s : J w h s -> idle A B m2 h = true -> sout s = [].
  Proof.
    intros (J1 & J2 & J3 & J4 & J5) H. unfold idle in H. destruct (h_computed h); [apply J5|]. cbn in H. apply Nat.leb_le in H.
    destruct J5 as (cks & cur & F1 & F2 & F3 & F4 & F5 & _). apply F4. destruct F2 as [|c cks Hc F2]; [reflexivity|]. exfalso.
    rewrite F1 in H. cbn in H. rewrite !app_length in H. destruct cur; [apply F5; [discriminate|reflexivity]|]. cbn in H. lia.
  Qed.
  Lemma free_ok R bs (k : prog A R) (s : sstate) Q : own_ok s bs -> sout s = [] ->
    ok k (mk_sstate (scont s) (sdisk s) (sout s) (without bs (sown s)) (snext s) (salloc s)) Q -> ok (DoFree bs k) s Q.
  Proof.
    intros [O1 O2] E H. unfold AsyncIoRules.ok in *. cbn [srun]. rewrite (proj2 (nodup_spec bs) O1).
    assert (existsb (fun b => negb (mem b (sown s))) bs = false) as ->.
    { apply existsb_false. intros b Hb. apply negb_false_iff, mem_in, O2, Hb. }
    rewrite E in *. exact H.
  Qed.
  Lemma clear_ok w h s : J w h s -> idle A B m2 h = true -> w_alloc w = true -> length (w_reqs w) = m2 -> ok (w_clear A w) s (fun w' s' => J w' (mkh [] false true) s').
  Proof.
    intros Hj Hi Ha Hr. pose proof (idle_quiet w h s Hj Hi) as Hs. destruct Hj as (J1 & J2 & J3 & J4 & J5). unfold w_clear. apply free_ok; [exact J4|exact Hs|].
    apply ok_ret. split; [reflexivity|]. split; [exact Ha|]. split; [intros _; exact Hr|]. cbn [w_runs].
    split; [split; [constructor|]; intro b; cbn [sown]; rewrite without_in; destruct J4 as [_ O2]; rewrite O2; cbn; tauto|]. cbn [h_computed h_items].
    exists [], []. cbn [w_cur w_half w_elements w_small w_runs w_reqs w_alloc]. split; [reflexivity|]. split; [constructor|]. split; [cbn; lia|].
    split; [intros _; exact Hs|]. split; [intro X; contradiction|]. split; [reflexivity|]. split; [intros [|j] v E; discriminate|]. split; [reflexivity|]. split; [reflexivity|].
    split; [constructor|]. split; [|exact Ha]. intros r Hr'. cbn [sout] in Hr'. rewrite Hs in Hr'. destruct Hr'.
  Qed.
  Lemma drop_buffers_ok s : sout s = [] -> ok (drop_buffers A maxv m2) s (fun _ s' => same s s').
  Proof.
    unfold drop_buffers. generalize (seq 0 (2 * m2)) as xs. intro xs. revert s. induction xs as [|x xs IH]; intros s E; [apply same_refl|].
    unfold AsyncIoRules.ok. cbn [srun]. rewrite E. cbn [existsb]. specialize (IH (mk_sstate (upd2 (scont s) x 0 (Some maxv)) (sdisk s) [] (sown s) (snext s) (salloc s)) eq_refl).
    unfold AsyncIoRules.ok in IH. match goal with |- match ?x with _ => _ end => destruct x as [r s'| |] end; [|exact IH|exact IH].
    eapply same_trans; [|exact IH]. unfold same. cbn. auto.
  Qed.
  Lemma deallocate_ok w h s : J w h s -> h_computed h || h_alloc h = true -> ok (w_deallocate A maxv srt B m2 w) s (fun w' s' => J w' (mkh (h_items h) true false) s').
  Proof.
    intros Hj E. unfold w_deallocate. apply ok_bind. eapply ok_imp; [apply (result_ok w h s Hj E)|]. intros w1 s1 (J1 & J2 & J3 & J4 & J5).
    cbn [h_computed h_alloc h_items] in *. destruct J5 as (S1 & S2 & S3).
    destruct (w_alloc w1) eqn:Ea.
    - apply ok_bind. eapply ok_imp; [apply drop_buffers_ok, S1|]. intros _ s2 (G1 & G2 & G3 & _). apply ok_ret. split; [exact J1|]. split; [reflexivity|].
      split; [discriminate|]. cbn [w_runs]. split; [destruct J4 as [O1 O2]; split; [exact O1|intro b; rewrite G3; apply O2]|]. cbn [h_computed h_items].
      split; [congruence|]. split; [|exact S3]. eapply runs_on_ext; [|exact S2]. intros b _. rewrite G1. reflexivity.
    - apply ok_ret. split; [exact J1|]. split; [exact Ea|]. split; [congruence|]. split; [exact J4|]. split; [exact S1|split; assumption].
  Qed.

  Lemma op_ok o w h h' s : J w h s -> tell A B m2 o h = Some h' -> ok (w_op A maxv srt B m2 o w) s (fun w' s' => J w' h' s').
  Proof.
    intros Hj E. destruct o; cbn [w_op].
    - eapply push_ok; eassumption.
    - cbn in E. destruct (h_computed h || h_alloc h) eqn:X; [|discriminate]. injection E as <-. apply result_ok; assumption.
    - cbn in E. destruct (h_alloc h) eqn:Ea; [|discriminate]. cbn in E. destruct (idle A B m2 h) eqn:Ei; [|discriminate]. injection E as <-.
      pose proof Hj as (J1 & J2 & J3 & _). rewrite Ea in J2. rewrite J2. eapply clear_ok; eauto.
    - cbn in E. destruct (idle A B m2 h) eqn:Ei; [|discriminate]. injection E as <-. unfold w_allocate. pose proof Hj as (J1 & J2 & J3 & J4 & J5).
      destruct (w_alloc w) eqn:Ea; [eapply clear_ok; eauto|].
      set (w' := mkw false _ _ _ _ _ _ true). assert (h_computed h = true) as Hc.
      { destruct (h_computed h); [reflexivity|]. destruct J5 as (cks & cur & F). assert (w_alloc w = true) by apply F. congruence. }
      apply (clear_ok w' (mkh (h_items h) true true) s); [|reflexivity|reflexivity|apply repeat_length].
      split; [cbn; congruence|]. split; [reflexivity|]. split; [intros _; apply repeat_length|]. split; [exact J4|]. rewrite Hc in J5. exact J5.
    - cbn in E. destruct (h_computed h || h_alloc h) eqn:X; [|discriminate]. injection E as <-. apply deallocate_ok; assumption.
  Qed.
  Lemma ops_ok os : forall w h h' s, J w h s -> tells A B m2 os h = Some h' -> ok (w_ops A maxv srt B m2 os w) s (fun w' s' => J w' h' s').
  Proof.
    induction os as [|o os IH]; intros w h h' s Hj E; cbn in E; [injection E as <-; exact Hj|]. destruct (tell A B m2 o h) as [h1|] eqn:E1; [|discriminate].
    cbn [w_ops]. apply ok_bind. eapply ok_imp; [apply (op_ok o w h h1 s Hj E1)|]. intros w1 s1 J1. apply (IH w1 h1 h' s1 J1 E).
  Qed.

  (** * reading back *)
  Lemma read_block_ok s c : sout s = [] -> (forall e v, nth_error c e = Some v -> scont s (2 * m2) e = Some v) ->
    forall js vs, map (nth_error c) js = map Some vs -> ok (read_block A m2 js) s (fun r s' => r = vs /\ s' = s).
  Proof.
    intros E H. induction js as [|j js IH]; intros [|v vs] X; try discriminate; [split; reflexivity|]. cbn in X. injection X as X1 X2.
    unfold AsyncIoRules.ok. cbn [read_block srun]. rewrite E, (H j v X1). cbn [existsb].
    change (ok (let* l := read_block A m2 js in Ret (v :: l)) s (fun r s' => r = v :: vs /\ s' = s)).
    apply ok_bind. eapply ok_imp; [apply IH, X2|]. intros r s' [-> ->]. split; reflexivity.
  Qed.
  Definition same_disk (s s' : sstate) : Prop := sdisk s' = sdisk s /\ sout s' = sout s /\ sown s' = sown s.
  Lemma read_run_ok r : forall l s, sout s = [] -> (forall b, In b (map fst r) -> In b (sown s)) -> run_on s r l ->
    ok (read_run A B m2 r) s (fun x s' => x = l /\ same_disk s s').
  Proof.
    induction r as [|[b t] r IH]; intros l s E Ho (cs & F & El).
    - inversion F; subst. split; [reflexivity|unfold same_disk; auto].
    - inversion F as [|? c ? cs' [Hl Hc] F']; subst. cbn [read_run]. unfold AsyncIoRules.ok. cbn [srun].
      rewrite (proj2 (mem_in b (sown s)) (Ho b (or_introl eq_refl))), E. cbn [negb existsb orb app].
      match goal with |- match srun ?p ?st with _ => _ end => set (s1 := st); change (ok p s1 (fun x s' => x = concat (c :: cs') /\ same_disk s s')) end.
      assert (sout s1 = []) as E1. { unfold s1. cbn. unfold drop_id. cbn. rewrite Nat.eqb_refl. reflexivity. }
      apply ok_bind. eapply ok_imp; [apply (read_block_ok s1 c E1)|].
      + intros e v Hv. unfold s1. cbn [scont]. rewrite upd_same. apply Hc, Hv.
      + rewrite <- Hl. apply (nth_seq c []).
      + intros x s2 [-> ->]. apply ok_bind. eapply ok_imp; [apply (IH (concat cs') s1 E1)|].
        * intros b' Hb'. unfold s1. cbn [sown]. apply Ho. right. exact Hb'.
        * exists cs'. split; [exact F'|reflexivity].
        * intros x s3 [-> (G1 & G2 & G3)]. apply ok_ret. split; [reflexivity|]. unfold same_disk in *. rewrite G1, G2, G3, E1, E. auto.
  Qed.
  Lemma read_runs_ok rs : forall ls s, sout s = [] -> (forall b, In b (run_blocks rs) -> In b (sown s)) -> runs_on s rs ls ->
    ok (read_runs A B m2 rs) s (fun x s' => x = ls /\ same_disk s s').
  Proof.
    induction rs as [|[r n] rs IH]; intros ls s E Ho F; inversion F as [|? [l n'] ? ls' [H1 H2] F']; subst.
    - split; [reflexivity|unfold same_disk; auto].
    - cbn [fst snd] in *. subst n'. cbn [read_runs fst snd]. apply ok_bind. eapply ok_imp; [apply (read_run_ok r l s E); [|exact H1]|].
      + intros b Hb. apply Ho. unfold run_blocks. cbn. apply in_or_app. left. exact Hb.
      + intros x s1 [-> (G1 & G2 & G3)]. apply ok_bind. eapply ok_imp; [apply (IH ls' s1)|].
        * congruence.
        * intros b Hb. rewrite G3. apply Ho. unfold run_blocks. cbn. apply in_or_app. right. exact Hb.
        * eapply runs_on_ext; [|exact F']. intros b _. rewrite G1. reflexivity.
        * intros x s2 [-> (L1 & L2 & L3)]. apply ok_ret. split; [reflexivity|]. unfold same_disk. split; [congruence|split; congruence].
  Qed.

  Lemma J_init al : J (w_new m2) (mkh [] false true) (sinit al).
  Proof.
    split; [reflexivity|]. split; [reflexivity|]. split; [intros _; apply repeat_length|]. split; [split; [constructor|intro b; cbn; tauto]|].
    exists [], []. split; [reflexivity|]. split; [constructor|]. split; [cbn; lia|]. split; [reflexivity|]. split; [intro X; contradiction|]. split; [reflexivity|].
    split; [intros [|j] v E; discriminate|]. split; [reflexivity|]. split; [reflexivity|]. split; [constructor|]. split; [intros r []|reflexivity].
  Qed.
  Lemma destroy_ok w h s : J w h s -> sout s = [] -> ok (w_destroy A maxv srt B m2 w) s (fun _ s' => sown s' = [] /\ sout s' = []).
  Proof.
    intros (J1 & J2 & J3 & J4 & J5) E. unfold w_destroy, w_deallocate, w_result. cbn [w_computed]. apply ok_bind, ok_bind, ok_ret. cbn [w_alloc].
    assert (forall s', same s s' -> ok (DoFree (run_blocks (w_runs w)) (Ret tt)) s' (fun _ s'' => sown s'' = [] /\ sout s'' = [])) as W.
    { intros s' (G1 & G2 & G3 & _). destruct J4 as [O1 O2]. apply free_ok; [split; [exact O1|intro b; rewrite G3; apply O2]|congruence|].
      unfold AsyncIoRules.ok. cbn [srun sown sout]. split; [|congruence]. destruct (without _ _) as [|b l] eqn:X; [reflexivity|]. exfalso.
      assert (In b (without (run_blocks (w_runs w)) (sown s'))) as Y by (rewrite X; left; reflexivity). apply without_in in Y. destruct Y as [Y1 Y2].
      apply Y2, O2. rewrite <- G3. exact Y1. }
    destruct (w_alloc w).
    - apply ok_bind. eapply ok_imp; [apply drop_buffers_ok, E|]. intros u s1 S1. apply ok_ret. cbn [w_runs]. apply W, S1.
    - apply ok_ret. cbn [w_runs]. apply W, same_refl.
  Qed.

  Lemma use_runs_ok os h al : tells A B m2 os (mkh [] false true) = Some h -> idle A B m2 h = true ->
    ok (use_runs A maxv srt B m2 os) (sinit al) (fun x s => sown s = [] /\ sout s = [] /\ (h_computed h = true -> x = expected (h_items h))).
  Proof.
    intros E Hi. unfold use_runs. apply ok_bind. eapply ok_imp; [apply (ops_ok os _ _ h _ (J_init al) E)|]. intros w s Hj.
    pose proof (idle_quiet w h s Hj Hi) as Hs. pose proof Hj as (J1 & J2 & J3 & [O1 O2] & J5). apply ok_bind. rewrite J1. destruct (h_computed h) eqn:Ec.
    - destruct J5 as (S1 & S2 & S3). eapply ok_imp; [apply (read_runs_ok _ (snd (expected (h_items h))) s S1); [intros b Hb; apply O2, Hb|exact S2]|].
      intros rs s1 [-> (G1 & G2 & G3)]. apply ok_bind. eapply ok_imp.
      + apply (destroy_ok w h s1); [|congruence]. split; [congruence|]. split; [exact J2|]. split; [exact J3|].
        split; [split; [exact O1|intro b; rewrite G3; apply O2]|]. rewrite Ec. split; [congruence|]. split; [|exact S3]. eapply runs_on_ext; [|exact S2]. intros b _. rewrite G1. reflexivity.
      + intros _ s2 [X Y]. apply ok_ret. split; [exact X|]. split; [exact Y|]. intros _. rewrite S3. destruct (expected (h_items h)); reflexivity.
    - apply ok_ret, ok_bind. eapply ok_imp; [apply (destroy_ok w h s Hj Hs)|]. intros _ s2 [X Y]. apply ok_ret. split; [exact X|]. split; [exact Y|discriminate].
  Qed.
End P.
