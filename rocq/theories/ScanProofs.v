(** Proofs about ScanModel. *)
From Coq Require Import List Bool Arith Lia.
From Verif Require Import ScanModel ScanSpec.
Import ListNotations.

Section P.
  Variable A : Type.
  Variable B : nat.
  Hypothesis HB : 0 < B.

  Lemma firstn_len (l r : list A) : firstn (length l) (l ++ r) = l.
  Proof. rewrite firstn_app, Nat.sub_diag, firstn_O, app_nil_r. apply firstn_all. Qed.
  Lemma skipn_len (l r : list A) : skipn (length l) (l ++ r) = r.
  Proof. rewrite skipn_app, Nat.sub_diag, skipn_all. reflexivity. Qed.
  Lemma firstn_len' n (l r : list A) : n = length l -> firstn n (l ++ r) = l.
  Proof. intros ->. apply firstn_len. Qed.
  Lemma skipn_len' n (l r : list A) : n = length l -> skipn n (l ++ r) = r.
  Proof. intros ->. apply skipn_len. Qed.

  Lemma tail_end last : end_block B last * B = last + tail_length B last.
  Proof.
    unfold end_block, tail_length. pose proof (Nat.div_mod last B ltac:(lia)) as D. pose proof (Nat.mod_upper_bound last B ltac:(lia)) as U.
    destruct (Nat.eqb_spec (last mod B) 0); lia.
  Qed.
  Lemma tail_le (v : list A) nb last : length v = nb * B -> last <= length v -> last + tail_length B last <= length v.
  Proof.
    intros HV HL. rewrite <- tail_end, HV. apply Nat.mul_le_mono_r. unfold end_block. destruct (Nat.eqb_spec (last mod B) 0) as [E|N].
    - rewrite Nat.add_0_r. apply Nat.div_le_upper_bound; lia.
    - assert (last < nb * B) as L.
      { destruct (Nat.eq_dec last (nb * B)) as [->|]; [|lia]. exfalso. apply N. apply Nat.mod_mul. lia. }
      assert (last / B < nb) by (apply Nat.div_lt_upper_bound; lia). lia.
  Qed.
  (** the parts of a vector: blocks before, start of the first block, the range, end of the last block, blocks behind *)
  Lemma parts (v : list A) nb first last : length v = nb * B -> first <= last <= length v ->
    exists p h mid t q, v = p ++ h ++ mid ++ t ++ q /\ length p = first / B * B /\ length h = first mod B /\
      length mid = last - first /\ length t = tail_length B last.
  Proof.
    intros HV HR. pose proof (tail_le v nb last HV ltac:(lia)) as HT. pose proof (Nat.div_mod first B ltac:(lia)) as D.
    set (tl := tail_length B last) in *. clearbody tl. set (fo := first mod B) in *. set (b := first / B) in *. clearbody fo b.
    assert (first = b * B + fo) as D' by lia. clear D.
    exists (firstn (b * B) v), (firstn fo (skipn (b * B) v)), (firstn (last - first) (skipn fo (skipn (b * B) v))),
           (firstn tl (skipn (last - first) (skipn fo (skipn (b * B) v)))), (skipn tl (skipn (last - first) (skipn fo (skipn (b * B) v)))).
    rewrite !firstn_skipn. split; [reflexivity|]. rewrite !firstn_length, !skipn_length. lia.
  Qed.
  Lemma end_after first last : first < last -> first / B < end_block B last.
  Proof.
    intro H. apply Nat.mul_lt_mono_pos_r with B; [exact HB|]. rewrite tail_end. pose proof (Nat.div_mod first B ltac:(lia)). lia.
  Qed.
  Lemma open_parts p h mid t q first last : length p = first / B * B -> length h = first mod B ->
    length mid = last - first -> length t = tail_length B last -> first < last ->
    open_in A B (p ++ h ++ mid ++ t ++ q) (first / B) (end_block B last) = Some (h ++ mid ++ t).
  Proof.
    intros Hp Hh Hm Ht Hl. unfold open_in. pose proof (end_after first last Hl) as HE. pose proof (tail_end last) as TE.
    pose proof (Nat.div_mod first B ltac:(lia)) as D.
    replace (Nat.ltb (first / B) (end_block B last)) with true by (symmetry; apply Nat.ltb_lt; exact HE).
    replace (Nat.leb (end_block B last * B) (length (p ++ h ++ mid ++ t ++ q))) with true by (symmetry; apply Nat.leb_le; rewrite TE, !app_length; lia).
    cbn [andb]. rewrite skipn_len' by lia. f_equal. rewrite !app_assoc. rewrite firstn_len' by (rewrite Nat.mul_sub_distr_r, !app_length; lia).
    rewrite <- !app_assoc. reflexivity.
  Qed.
  Lemma close_parts p h mid t q mid' first last : length p = first / B * B -> length h = first mod B ->
    length mid = last - first -> length t = tail_length B last -> first <= last -> length mid' = length mid ->
    close_out A B (p ++ h ++ mid ++ t ++ q) (first / B) (h ++ mid' ++ t) = Some (replaced (p ++ h ++ mid ++ t ++ q) first last mid').
  Proof.
    intros Hp Hh Hm Ht Hl Hm'. unfold close_out. pose proof (tail_end last) as TE. pose proof (Nat.div_mod first B ltac:(lia)) as D.
    assert (length (h ++ mid' ++ t) = (end_block B last - first / B) * B) as EL by (rewrite Nat.mul_sub_distr_r, !app_length; lia).
    rewrite EL, Nat.mod_mul by lia. cbn [Nat.eqb andb]. rewrite <- EL.
    replace (Nat.leb (first / B * B + length (h ++ mid' ++ t)) (length (p ++ h ++ mid ++ t ++ q))) with true
      by (symmetry; apply Nat.leb_le; rewrite !app_length; lia).
    f_equal. unfold replaced. rewrite firstn_len' by lia.
    replace (p ++ h ++ mid ++ t ++ q) with ((p ++ h ++ mid ++ t) ++ q) at 1 by (rewrite <- !app_assoc; reflexivity).
    rewrite skipn_len' by (rewrite !app_length; lia).
    replace (p ++ h ++ mid ++ t ++ q) with ((p ++ h) ++ mid ++ t ++ q) at 1 by (rewrite <- !app_assoc; reflexivity).
    rewrite firstn_len' by (rewrite app_length; lia).
    replace (p ++ h ++ mid ++ t ++ q) with ((p ++ h ++ mid) ++ t ++ q) at 1 by (rewrite <- !app_assoc; reflexivity).
    rewrite skipn_len' by (rewrite !app_length; lia). rewrite <- !app_assoc. reflexivity.
  Qed.
  Lemma range_parts p h mid t q first last : length p = first / B * B -> length h = first mod B -> length mid = last - first ->
    @range A (p ++ h ++ mid ++ t ++ q) first last = mid.
  Proof.
    intros Hp Hh Hm. unfold range. pose proof (Nat.div_mod first B ltac:(lia)) as D.
    replace (p ++ h ++ mid ++ t ++ q) with ((p ++ h) ++ mid ++ t ++ q) by (rewrite <- !app_assoc; reflexivity).
    rewrite skipn_len' by (rewrite app_length; lia). apply firstn_len'. lia.
  Qed.

  Lemma skip_ok (h r : list A) : times (length h) (fun r => do (_, r) <- get A r; Some r) (h ++ r) = Some r.
  Proof. induction h as [|x h IH]; [reflexivity|]. cbn. exact IH. Qed.
  Lemma copy_ok h : forall r n w, length w <= n -> times (length h) (copy A) (mkio A (h ++ r) n w) = Some (mkio A r (n + length h) (w ++ h)).
  Proof.
    induction h as [|x h IH]; intros r n w Hn; cbn [length times app].
    - rewrite Nat.add_0_r, app_nil_r. reflexivity.
    - unfold copy at 1, io_get, io_put. cbn [rest nread written obind].
      replace (Nat.ltb (length w) (S n)) with true by (symmetry; apply Nat.ltb_lt; lia). cbn [obind].
      rewrite IH by (rewrite app_length; cbn; lia). rewrite <- app_assoc. cbn [app]. f_equal. f_equal. lia.
  Qed.

  Section F.
    Variable St : Type.
    Lemma for_each_loop f (mid : list A) : forall (st : St) r,
      times (length mid) (fun '(st, r) => do (x, r) <- get A r; Some (f st x, r)) (st, mid ++ r) = Some (fold_left f mid st, r).
    Proof. induction mid as [|x mid IH]; intros st r; [reflexivity|]. cbn. apply IH. Qed.
    Theorem for_each_ok f (st : St) (v : list A) nb first last : length v = nb * B -> first <= last <= length v ->
      for_each A B St f st v first last = Some (fold_left f (range v first last) st).
    Proof.
      intros HV HR. unfold for_each. destruct (Nat.eqb_spec first last) as [->|N].
      - unfold range. rewrite Nat.sub_diag. reflexivity.
      - destruct (parts v nb first last HV HR) as (p & h & mid & t & q & -> & Hp & Hh & Hm & Ht).
        rewrite open_parts by (assumption || lia). cbn [obind]. rewrite <- Hh, skip_ok. cbn [obind]. rewrite <- Hm, for_each_loop. cbn [obind].
        rewrite <- Ht. rewrite <- (app_nil_r t) at 2. rewrite skip_ok. cbn [obind]. rewrite range_parts by assumption. reflexivity.
    Qed.
    Lemma for_each_m_loop (f : St -> A -> St * A) (mid : list A) : forall (st : St) r n w, length w <= n ->
      times (length mid) (fun '((st, s) : St * io A) => do (x, s) <- io_get A s; let (st, y) := f st x in do s <- io_put A y s; Some (st, s)) (st, mkio A (mid ++ r) n w) =
      Some (fst (mapped f st mid), mkio A r (n + length mid) (w ++ snd (mapped f st mid))).
    Proof.
      induction mid as [|x mid IH]; intros st r n w Hn; cbn [length times app mapped].
      - rewrite Nat.add_0_r. cbn [fst snd]. rewrite app_nil_r. reflexivity.
      - unfold io_get at 1. cbn [rest nread written obind]. destruct (f st x) as [st' y]. unfold io_put at 1. cbn [rest nread written].
        replace (Nat.ltb (length w) (S n)) with true by (symmetry; apply Nat.ltb_lt; lia). cbn [obind].
        rewrite IH by (rewrite app_length; cbn; lia). destruct (mapped f st' mid) as [st2 l]. cbn [fst snd]. rewrite <- app_assoc. cbn [app].
        do 3 f_equal. lia.
    Qed.
    Lemma mapped_length f : forall (mid : list A) (st : St), length (snd (mapped f st mid)) = length mid.
    Proof.
      induction mid as [|x mid IH]; intro st; [reflexivity|]. cbn [mapped]. destruct (f st x) as [st' y]. specialize (IH st').
      destruct (mapped f st' mid). cbn [snd length] in *. congruence.
    Qed.
    Lemma replaced_same (v : list A) first : first <= length v -> replaced v first first [] = v.
    Proof. intro H. unfold replaced. cbn [app]. apply firstn_skipn. Qed.
    Theorem for_each_m_ok f (st : St) (v : list A) nb first last : length v = nb * B -> first <= last <= length v ->
      for_each_m A B St f st v first last =
      Some (fst (mapped f st (range v first last)), replaced v first last (snd (mapped f st (range v first last)))).
    Proof.
      intros HV HR. unfold for_each_m. destruct (Nat.eqb_spec first last) as [->|N].
      - unfold range. rewrite Nat.sub_diag. cbn [firstn mapped fst snd]. rewrite replaced_same by lia. reflexivity.
      - destruct (parts v nb first last HV HR) as (p & h & mid & t & q & -> & Hp & Hh & Hm & Ht).
        rewrite open_parts by (assumption || lia). cbn [obind]. rewrite <- Hh, copy_ok by (cbn; lia). cbn [obind app plus].
        rewrite <- Hm, for_each_m_loop by lia. cbn [obind].
        rewrite <- Ht. rewrite <- (app_nil_r t) at 2. rewrite copy_ok by (rewrite app_length, mapped_length; lia). cbn [obind written].
        rewrite range_parts by assumption. rewrite <- app_assoc. rewrite (close_parts p h mid t q _ first last) by (assumption || lia || apply mapped_length).
        reflexivity.
    Qed.

    (** generate *)
    Lemma set_nth_app i x (l r : list A) y : i = length l -> set_nth A i x (l ++ y :: r) = l ++ x :: r.
    Proof. intros ->. induction l as [|z l IH]; [reflexivity|]. cbn. rewrite IH. reflexivity. Qed.
    Lemma set_nth_length i x : forall l : list A, length (set_nth A i x l) = length l.
    Proof. induction i as [|i IH]; intros [|y l]; cbn; auto. Qed.
    Lemma replaced_one (v : list A) i x : i < length v -> set_nth A i x v = replaced v i (S i) [x].
    Proof.
      intro H. destruct (nth_error v i) as [y|] eqn:E; [|apply nth_error_None in E; lia]. apply nth_error_split in E. destruct E as (l1 & l2 & -> & <-).
      rewrite set_nth_app by reflexivity. unfold replaced. rewrite firstn_len.
      change (l1 ++ y :: l2) with (l1 ++ [y] ++ l2). rewrite (app_assoc l1 [y]). rewrite (skipn_len' _ (l1 ++ [y])) by (rewrite app_length; cbn; lia). reflexivity.
    Qed.
    Lemma replaced_replaced (v : list A) i j k l1 l2 : i <= j -> j <= k -> k <= length v -> length l1 = j - i -> length l2 = k - j ->
      replaced (replaced v i j l1) j k l2 = replaced v i k (l1 ++ l2).
    Proof.
      intros H1 H2 H3 E1 E2. unfold replaced.
      assert (firstn j (firstn i v ++ l1 ++ skipn j v) = firstn i v ++ l1) as ->.
      { rewrite app_assoc. apply firstn_len'. rewrite app_length, firstn_length. lia. }
      assert (skipn k (firstn i v ++ l1 ++ skipn j v) = skipn k v) as ->; [|rewrite <- !app_assoc; reflexivity].
      assert (v = firstn j v ++ firstn (k - j) (skipn j v) ++ skipn (k - j) (skipn j v)) as E by (rewrite !firstn_skipn; reflexivity).
      assert (length (firstn (k - j) (skipn j v)) = k - j) as L1 by (rewrite firstn_length, skipn_length; lia).
      assert (length (firstn j v) = j) as L2 by (rewrite firstn_length; lia).
      rewrite E at 3. rewrite (app_assoc (firstn j v)), (skipn_len' _ (firstn j v ++ _)) by (rewrite app_length; lia).
      rewrite <- (firstn_skipn (k - j) (skipn j v)) at 1. rewrite !app_assoc.
      apply skipn_len'. rewrite !app_length, L1, firstn_length. lia.
    Qed.
    Lemma generated_app (g : St -> A * St) n m : forall st,
      generated g st (n + m) = (fst (generated g (fst (generated g st n)) m), snd (generated g st n) ++ snd (generated g (fst (generated g st n)) m)).
    Proof.
      induction n as [|n IH]; intro st; cbn [plus generated].
      - cbn [fst snd app]. destruct (generated g st m); reflexivity.
      - destruct (g st) as [x st']. rewrite IH. destruct (generated g st' n) as [st2 l]. cbn [fst snd]. reflexivity.
    Qed.
    Lemma generated_length (g : St -> A * St) n : forall st, length (snd (generated g st n)) = n.
    Proof. induction n as [|n IH]; intro st; [reflexivity|]. cbn [generated]. destruct (g st) as [x st']. specialize (IH st'). destruct (generated g st' n). cbn in *. congruence. Qed.

    Lemma generate_head_ok g nb fuel : forall (st : St) (v : list A) first last, length v = nb * B -> first <= last <= length v ->
      (first mod B = 0 \/ B - first mod B <= fuel) ->
      exists n, first + n <= last /\ (last = first + n \/ (first + n) mod B = 0) /\
        generate_head A B St fuel g st v first last = Some (fst (generated g st n), replaced v first (first + n) (snd (generated g st n)), first + n).
    Proof.
      induction fuel as [|fuel IH]; intros st v first last HV HR HF; cbn [generate_head].
      - assert (first mod B = 0) as E by (pose proof (Nat.mod_upper_bound first B ltac:(lia)); lia). rewrite E. cbn [Nat.eqb].
        exists 0. rewrite Nat.add_0_r. split; [lia|]. split; [right; exact E|]. cbn [generated fst snd]. rewrite replaced_same by lia. reflexivity.
      - destruct (Nat.eqb_spec (first mod B) 0) as [E|N].
        { exists 0. rewrite Nat.add_0_r. split; [lia|]. split; [right; exact E|]. cbn [generated fst snd]. rewrite replaced_same by lia. reflexivity. }
        destruct (Nat.eqb_spec first last) as [->|NL].
        { exists 0. rewrite Nat.add_0_r. split; [lia|]. split; [left; reflexivity|]. cbn [generated fst snd]. rewrite replaced_same by lia. reflexivity. }
        destruct (g st) as [x st'] eqn:G.
        destruct (IH st' (set_nth A first x v) (S first) last) as (n & H1 & H2 & H3).
        + rewrite set_nth_length. exact HV.
        + rewrite set_nth_length. lia.
        + pose proof (Nat.mod_upper_bound first B ltac:(lia)) as U. destruct HF as [HF|HF]; [congruence|].
          destruct (Nat.eq_dec (S (first mod B)) B) as [EB|NB].
          * left. rewrite <- Nat.add_1_r, Nat.add_mod by lia. destruct (Nat.eq_dec B 1) as [->|B1]; [reflexivity|]. rewrite (Nat.mod_small 1) by lia.
            replace (first mod B + 1) with B by lia. apply Nat.mod_same. lia.
          * right. rewrite <- Nat.add_1_r, Nat.add_mod by lia. rewrite (Nat.mod_small 1) by lia. rewrite (Nat.mod_small (first mod B + 1)) by lia. lia.
        + exists (S n). replace (first + S n) with (S first + n) by lia. split; [exact H1|]. split; [exact H2|]. rewrite H3.
          cbn [generated]. rewrite G. pose proof (generated_length g n st') as GL. destruct (generated g st' n) as [st2 l]. cbn [fst snd] in *. rewrite (replaced_one v) by lia.
          rewrite replaced_replaced by (rewrite ?GL; cbn [length]; lia). reflexivity.
    Qed.
    Lemma generate_loop (g : St -> A * St) n : forall (st : St) (out : list A),
      times n (fun '(st, out) => let (x, st) := g st in Some (st, out ++ [x])) (st, out) = Some (fst (generated g st n), out ++ snd (generated g st n)).
    Proof.
      induction n as [|n IH]; intros st out; cbn [times generated].
      - cbn [fst snd]. rewrite app_nil_r. reflexivity.
      - destruct (g st) as [x st']. cbn [obind]. rewrite IH. destruct (generated g st' n). cbn [fst snd]. rewrite <- app_assoc. reflexivity.
    Qed.
    Lemma replaced_length (v : list A) i j l : i <= j -> j <= length v -> length l = j - i -> length (replaced v i j l) = length v.
    Proof. intros. unfold replaced. rewrite !app_length, firstn_length, skipn_length. lia. Qed.
    Theorem generate_ok g (st : St) (v : list A) nb first last : length v = nb * B -> first <= last <= length v ->
      generate A B St g st v first last = Some (fst (generated g st (last - first)), replaced v first last (snd (generated g st (last - first)))).
    Proof.
      intros HV HR. unfold generate.
      destruct (generate_head_ok g nb B st v first last HV HR) as (n & H1 & H2 & H3); [right; lia|]. rewrite H3. cbn [obind].
      pose proof (generated_length g n st) as GL. set (v1 := replaced v first (first + n) (snd (generated g st n))).
      assert (length v1 = length v) as HL1 by (apply replaced_length; lia).
      destruct (Nat.eqb_spec ((first + n) mod B) 0) as [E|N]; cbn [negb].
      - set (bg := first + n) in *. set (st1 := fst (generated g st n)). rewrite generate_loop. cbn [obind app].
        destruct (parts v1 nb bg last) as (p & h & mid & t & q & EV & Hp & Hh & Hm & Ht); [congruence|lia|].
        assert (h = []) as -> by (rewrite E in Hh; destruct h; [reflexivity|discriminate]).
        replace (Nat.leb (last + tail_length B last) (length v1)) with true by (symmetry; apply Nat.leb_le, (tail_le v1 nb); [congruence|lia]).
        cbn [obind]. rewrite EV. pose proof (Nat.div_mod bg B ltac:(lia)) as D.
        assert (firstn (tail_length B last) (skipn last (p ++ [] ++ mid ++ t ++ q)) = t) as ->.
        { cbn [app]. replace (p ++ mid ++ t ++ q) with ((p ++ mid) ++ t ++ q) by (rewrite <- !app_assoc; reflexivity).
          rewrite skipn_len' by (rewrite app_length; lia). apply firstn_len'. lia. }
        pose proof (generated_length g (last - bg) st1) as GL2.
        pose proof (close_parts p [] mid t q (snd (generated g st1 (last - bg))) bg last Hp Hh Hm Ht ltac:(lia) ltac:(lia)) as CP. cbn [app] in CP |- *.
        rewrite CP. cbn [obind]. change (p ++ mid ++ t ++ q) with (p ++ [] ++ mid ++ t ++ q). rewrite <- EV. unfold v1, bg in *.
        replace (last - first) with (n + (last - (first + n))) by lia. rewrite generated_app. cbn [fst snd]. fold st1.
        rewrite replaced_replaced by lia. reflexivity.
      - destruct H2 as [->|?]; [|contradiction]. replace (first + n - first) with n by lia. reflexivity.
    Qed.
  End F.

  Lemma find_loop_ok p mid : forall cur (r : list A), exists k, find_loop A (length mid) p cur (mid ++ r) = Some (cur + k) /\ k <= length mid /\
    (forall j x, j < k -> nth_error mid j = Some x -> p x = false) /\ (k < length mid -> exists x, nth_error mid k = Some x /\ p x = true).
  Proof.
    induction mid as [|x mid IH]; intros cur r; cbn [length find_loop app].
    - exists 0. rewrite Nat.add_0_r. split; [reflexivity|]. split; [lia|]. split; intros; lia.
    - cbn [get obind]. destruct (p x) eqn:E.
      + exists 0. rewrite Nat.add_0_r. split; [reflexivity|]. split; [lia|]. split; [intros; lia|]. intros _. exists x. auto.
      + destruct (IH (S cur) r) as (k & H1 & H2 & H3 & H4). exists (S k). replace (cur + S k) with (S cur + k) by lia. split; [exact H1|].
        split; [lia|]. split.
        * intros [|j] y Hj Hy; [injection Hy as <-; exact E|]. apply (H3 j y); [lia|exact Hy].
        * intro Hk. destruct (H4 ltac:(lia)) as (y & Hy). exists y. exact Hy.
  Qed.
  Theorem find_ok p (v : list A) nb first last : length v = nb * B -> first <= last <= length v ->
    exists i, find A B p v first last = Some i /\ first_match p v first last i.
  Proof.
    intros HV HR. unfold find. destruct (Nat.eqb_spec first last) as [->|N].
    - exists last. split; [reflexivity|]. split; [lia|]. split; intros; lia.
    - destruct (parts v nb first last HV HR) as (pp & h & mid & t & q & -> & Hp & Hh & Hm & Ht).
      rewrite open_parts by (assumption || lia). cbn [obind]. rewrite <- Hh, skip_ok. cbn [obind]. rewrite <- Hm.
      destruct (find_loop_ok p mid first t) as (k & H1 & H2 & H3 & H4). exists (first + k). split; [exact H1|].
      pose proof (Nat.div_mod first B ltac:(lia)) as D.
      assert (forall j, j < length mid -> nth_error (pp ++ h ++ mid ++ t ++ q) (first + j) = nth_error mid j) as NE.
      { intros j Hj. rewrite app_assoc. rewrite nth_error_app2 by (rewrite app_length; lia). rewrite nth_error_app1; [f_equal|]; rewrite app_length; lia. }
      split; [lia|]. split.
      + intros j x Hj Hx. replace j with (first + (j - first)) in Hx by lia. rewrite NE in Hx by lia. apply (H3 (j - first) x); [lia|exact Hx].
      + intro Hk. rewrite NE by lia. apply H4. lia.
  Qed.
End P.
