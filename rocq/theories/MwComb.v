(** Proofs about multiway merging, part four: the combined variants and bubble. *)
From Coq Require Import List Bool Arith ZArith Lia Permutation Sorted.
From Verif Require Import SumLib OrderLib MwmergeModel MwmergeSpec Mwmerge MwTree MwVariants.
Import ListNotations.

Lemma filter_none {X} (p : X -> bool) l : (forall y, In y l -> p y = false) -> filter p l = [].
Proof. induction l as [|x l IH]; intro H; [reflexivity|]. cbn. rewrite (H x (or_introl eq_refl)). apply IH. intros y Hy. apply H. now right. Qed.

Section Comb.
  Variable A : Type.
  Variable lt : A -> A -> bool.
  Hypothesis SW : strict_weak lt.
  Notation seqs := (list (list A * list A)).

  (** the elements that come before the end of the sequence that ends first *)
  Definition inn (stable : bool) (mn : A) (mi i : nat) (y : A) : bool :=
    if Nat.leb i mi && stable then negb (lt mn y) else lt y mn.
  Fixpoint cnt (stable : bool) (mn : A) (mi i : nat) (ls : list (list A)) : nat :=
    match ls with [] => 0 | l :: ls' => length (filter (inn stable mn mi i) l) + cnt stable mn mi (S i) ls' end.

  Lemma lower_len mn l : sorted lt l -> length (from_lower A lt mn l) + length (filter (fun y => lt y mn) l) = length l.
  Proof.
    induction l as [|x l IH]; intro H; [reflexivity|]. cbn [from_lower filter]. destruct (lt x mn) eqn:E.
    - cbn [length]. rewrite <- IH by (inversion H; assumption). lia.
    - rewrite filter_none; [cbn; lia|]. intros y Hy. destruct (lt y mn) eqn:Q; [|reflexivity].
      pose proof (sorted_hd _ _ SW x l y H (or_intror Hy)) as Hle. rewrite (le_then_lt lt SW x y mn Hle Q) in E. discriminate.
  Qed.
  Lemma upper_len mn l : sorted lt l -> length (from_upper A lt mn l) + length (filter (fun y => negb (lt mn y)) l) = length l.
  Proof.
    induction l as [|x l IH]; intro H; [reflexivity|]. cbn [from_upper filter]. destruct (lt mn x) eqn:E; cbn [negb].
    - rewrite filter_none; [cbn; lia|]. intros y Hy. apply negb_false_iff.
      pose proof (sorted_hd _ _ SW x l y H (or_intror Hy)) as Hle. exact (lt_then_le lt SW mn x y E Hle).
    - cbn [length]. rewrite <- IH by (inversion H; assumption). lia.
  Qed.
  Lemma overhang_cnt stable mn mi : forall s i, Forall (sorted lt) (map fst s) -> overhang A lt stable i mn mi s + cnt stable mn mi i (map fst s) = total s.
  Proof.
    induction s as [|[l b] s IH]; intros i H; [reflexivity|]. inversion H as [|? ? H1 H2]; subst. cbn [fst] in H1.
    cbn [overhang map cnt fst]. rewrite <- (Nat.add_assoc), (Nat.add_shuffle3 (overhang _ _ _ _ _ _ _)), Nat.add_assoc, (IH _ H2).
    unfold total. cbn [map list_sum fold_right fst]. f_equal. unfold inn.
    destruct (Nat.leb i mi && stable); [apply upper_len|apply lower_len]; exact H1.
  Qed.

  Lemma cnt_in st mn mi : forall ls i j y, In y (nth j ls []) -> inn st mn mi (i + j) y = true -> 0 < cnt st mn mi i ls.
  Proof.
    induction ls as [|l ls IH]; intros i j y Hy Hi; [destruct j; contradiction|]. cbn [cnt]. destruct j as [|j]; cbn [nth] in Hy.
    - rewrite Nat.add_0_r in Hi. assert (In y (filter (inn st mn mi i) l)) by (apply filter_In; auto). destruct (filter (inn st mn mi i) l); [contradiction|cbn; lia].
    - pose proof (IH (S i) j y Hy) as Q. replace (S i + j) with (i + S j) in Q by lia. specialize (Q Hi). lia.
  Qed.
  Lemma cnt_pos st mn mi : forall ls i, 0 < cnt st mn mi i ls -> exists j y, In y (nth j ls []) /\ inn st mn mi (i + j) y = true.
  Proof.
    induction ls as [|l ls IH]; intros i H; cbn [cnt] in H; [lia|].
    destruct (filter (inn st mn mi i) l) as [|y f] eqn:E.
    - destruct (IH (S i) H) as (j & y & Hy & Hi). exists (S j), y. split; [exact Hy|]. replace (i + S j) with (S i + j) by lia. exact Hi.
    - assert (Q : In y (filter (inn st mn mi i) l)) by (rewrite E; now left). apply filter_In in Q. exists 0, y. rewrite Nat.add_0_r. exact Q.
  Qed.
  Lemma cnt_take st mn mi : forall ls i0 i x r, nth i ls [] = x :: r ->
    cnt st mn mi i0 ls = (if inn st mn mi (i0 + i) x then 1 else 0) + cnt st mn mi i0 (setn i r ls).
  Proof.
    induction ls as [|l ls IH]; intros i0 i x r E; [destruct i; discriminate|]. destruct i as [|i]; cbn [nth setn cnt] in *.
    - subst l. rewrite Nat.add_0_r. cbn [filter]. destruct (inn st mn mi i0 x); cbn [length]; lia.
    - rewrite (IH (S i0) i x r E). replace (i0 + S i) with (S i0 + i) by lia. lia.
  Qed.
  Lemma cnt_le_total st mn mi : forall ls i, cnt st mn mi i ls <= length (concat ls).
  Proof.
    induction ls as [|l ls IH]; intro i; [cbn; lia|]. cbn [cnt concat]. rewrite app_length. specialize (IH (S i)).
    assert (length (filter (inn st mn mi i) l) <= length l); [|lia]. clear. induction l as [|x l IH]; cbn; [lia|]. destruct (inn st mn mi i x); cbn; lia.
  Qed.
  Lemma inn_down st mn mi i x y : le lt x y -> inn st mn mi i y = true -> inn st mn mi i x = true.
  Proof.
    unfold inn. destruct (Nat.leb i mi && st); intros H1 H2.
    - apply negb_true_iff in H2. apply negb_true_iff. exact (le_trans _ _ SW _ _ _ H1 H2).
    - exact (le_then_lt lt SW _ _ _ H1 H2).
  Qed.

  (** what prepare_unguarded finds *)
  Lemma scan_ok : forall s i mn mi, mi < i ->
    match scan A lt i mn mi s with
    | inl j => i <= j < i + length s /\ fst (get s (j - i)) = []
    | inr (mn', mi') =>
        (forall j, j < length s -> exists p v, fst (get s j) = p ++ [v] /\ le lt mn' v /\ (i + j < mi' -> lt mn' v = true)) /\
        ((mn' = mn /\ mi' = mi) \/ (i <= mi' < i + length s /\ lt mn' mn = true /\ exists p, fst (get s (mi' - i)) = p ++ [mn']))
    end.
  Proof.
    induction s as [|[l b] s IH]; intros i mn mi Hmi; cbn [scan].
    { split; [intros j Hj; cbn in Hj; lia|left; auto]. }
    destruct (rev l) as [|v rp] eqn:E.
    { split; [cbn [length]; lia|]. rewrite Nat.sub_diag. cbn. rewrite <- (rev_involutive l), E. reflexivity. }
    assert (El : l = rev rp ++ [v]) by (rewrite <- (rev_involutive l), E; reflexivity).
    assert (Sub : forall j, S i <= j -> get ((l, b) :: s) (j - i) = get s (j - S i)) by (intros j Hj; replace (j - i) with (S (j - S i)) by lia; reflexivity).
    destruct (lt v mn) eqn:C.
    - specialize (IH (S i) v i ltac:(lia)). destruct (scan A lt (S i) v i s) as [j|[mn' mi']].
      + destruct IH as (H1 & H2). split; [cbn [length]; lia|]. rewrite Sub by lia. exact H2.
      + destruct IH as (H1 & H2). split.
        * intros [|j] Hj.
          -- exists (rev rp), v. split; [exact El|]. destruct H2 as [(-> & ->)|(H2 & H3 & _)].
             ++ split; [apply (le_refl _ _ SW)|lia].
             ++ split; [exact (sw_asym _ _ SW _ _ H3)|intros _; exact H3].
          -- destruct (H1 j ltac:(cbn in Hj; lia)) as (p & w & Ep & Hle & Hlt). exists p, w. split; [exact Ep|]. split; [exact Hle|]. intro Q. apply Hlt. lia.
        * right. cbn [length]. destruct H2 as [(-> & ->)|(H2 & H3 & (p & H4))].
          -- split; [lia|]. split; [exact C|]. exists (rev rp). rewrite Nat.sub_diag. exact El.
          -- split; [lia|]. split; [exact (sw_trans _ SW _ _ _ H3 C)|]. exists p. rewrite Sub by lia. exact H4.
    - specialize (IH (S i) mn mi ltac:(lia)). destruct (scan A lt (S i) mn mi s) as [j|[mn' mi']].
      + destruct IH as (H1 & H2). split; [cbn [length]; lia|]. rewrite Sub by lia. exact H2.
      + destruct IH as (H1 & H2). split.
        * intros [|j] Hj.
          -- exists (rev rp), v. split; [exact El|]. destruct H2 as [(-> & ->)|(H2 & H3 & _)].
             ++ split; [exact C|lia].
             ++ pose proof (lt_then_le lt SW _ _ _ H3 C) as Q. split; [exact (sw_asym _ _ SW _ _ Q)|intros _; exact Q].
          -- destruct (H1 j ltac:(cbn in Hj; lia)) as (p & w & Ep & Hle & Hlt). exists p, w. split; [exact Ep|]. split; [exact Hle|]. intro Q. apply Hlt. lia.
        * cbn [length]. destruct H2 as [H2|(H2 & H3 & (p & H4))]; [now left|right]. split; [lia|]. split; [exact H3|]. exists p. rewrite Sub by lia. exact H4.
  Qed.
  Lemma prepare_ok st s : 0 < length s -> exists ov mi, prepare A lt st s = Some (ov, mi) /\ mi < length s /\
    match ov with
    | None => fst (get s mi) = []
    | Some ov => exists mn, ov = overhang A lt st 0 mn mi s /\ (exists p, fst (get s mi) = p ++ [mn]) /\
        (forall j, j < length s -> exists p v, fst (get s j) = p ++ [v] /\ le lt mn v /\ (j < mi -> lt mn v = true))
    end.
  Proof.
    destruct s as [|[l b] s]; cbn [length]; [lia|]. intros _. unfold prepare. destruct (rev l) as [|v rp] eqn:E.
    { exists None, 0. split; [reflexivity|]. split; [lia|]. cbn. rewrite <- (rev_involutive l), E. reflexivity. }
    assert (El : l = rev rp ++ [v]) by (rewrite <- (rev_involutive l), E; reflexivity).
    pose proof (scan_ok s 1 v 0 ltac:(lia)) as Q. destruct (scan A lt 1 v 0 s) as [j|[mn mi]].
    - destruct Q as (Q1 & Q2). exists None, j. split; [reflexivity|]. split; [lia|]. destruct j as [|j]; [lia|]. cbn. cbn in Q2. rewrite Nat.sub_0_r in Q2. exact Q2.
    - destruct Q as (Q1 & Q2). exists (Some (overhang A lt st 0 mn mi ((l, b) :: s))), mi. split; [reflexivity|]. split; [destruct Q2 as [(_ & ->)|(Q2 & _)]; lia|].
      exists mn. split; [reflexivity|]. split.
      + destruct Q2 as [(-> & ->)|(Q2 & _ & (p & Q3))]; [exists (rev rp); exact El|]. exists p. destruct mi as [|mi]; [lia|]. cbn in Q3. rewrite Nat.sub_0_r in Q3. exact Q3.
      + intros [|j] Hj.
        * exists (rev rp), v. split; [exact El|]. destruct Q2 as [(-> & ->)|(Q2 & Q3 & _)]; [split; [apply (le_refl _ _ SW)|lia]|]. split; [exact (sw_asym _ _ SW _ _ Q3)|auto].
        * destruct (Q1 j ltac:(lia)) as (p & w & Ep & Hle & Hlt). exists p, w. auto.
  Qed.

  (** stable: the sequence [mi] ends first, with the last of the counted elements *)
  Definition J (mn : A) (mi : nat) (ls : list (list A)) : Prop :=
    Forall (sorted lt) ls /\ (forall i, i < length ls -> i <> mi -> exists y, In y (nth i ls []) /\ inn true mn mi i y = false) /\
    (forall y, In y (nth mi ls []) -> le lt y mn) /\ (0 < cnt true mn mi 0 ls -> exists p, nth mi ls [] = p ++ [mn]).
  Lemma J_step mn mi ls i x r : J mn mi ls -> 0 < cnt true mn mi 0 ls -> nth i ls [] = x :: r -> head_min lt true ls i x ->
    J mn mi (setn i r ls) /\ cnt true mn mi 0 ls = S (cnt true mn mi 0 (setn i r ls)).
  Proof.
    intros (Hs & Hout & Hle & Hlast) Hc E Hm. pose proof (nth_in_range _ _ _ _ E) as Hi.
    assert (Key : forall j y, In y (nth j ls []) -> inn true mn mi j y = true -> inn true mn mi i x = true /\ (i = mi -> j <> mi -> le lt mn x -> False)).
    { intros j y Hy Hj. destruct (min_all A lt SW true ls i x Hs Hm j y Hy) as (H1 & H2). unfold inn in *. rewrite andb_true_r in *.
      destruct (Nat.leb_spec j mi) as [Lj|Lj], (Nat.leb_spec i mi) as [Li|Li].
      - apply negb_true_iff in Hj. split; [apply negb_true_iff; exact (le_trans _ _ SW _ _ _ H1 Hj)|].
        intros -> D Hx. specialize (H2 eq_refl ltac:(lia)). pose proof (lt_then_le lt SW _ _ _ (le_then_lt lt SW _ _ _ Hx H2) Hj) as Q. rewrite (sw_irrefl _ SW) in Q. discriminate.
      - apply negb_true_iff in Hj. split; [exact (lt_then_le lt SW _ _ _ (H2 eq_refl ltac:(lia)) Hj)|lia].
      - split; [apply negb_true_iff; exact (sw_asym _ _ SW _ _ (le_then_lt lt SW _ _ _ H1 Hj))|].
        intros -> D Hx. pose proof (le_then_lt lt SW _ _ _ (le_trans _ _ SW _ _ _ Hx H1) Hj) as Q. rewrite (sw_irrefl _ SW) in Q. discriminate.
      - split; [exact (le_then_lt lt SW _ _ _ H1 Hj)|lia]. }
    destruct (cnt_pos _ _ _ _ _ Hc) as (j & y & Hy & Hj). cbn [plus] in Hj. destruct (Key j y Hy Hj) as (Hx & _).
    assert (Hcnt : cnt true mn mi 0 ls = S (cnt true mn mi 0 (setn i r ls))) by (rewrite (cnt_take _ _ _ _ 0 i x r E); cbn [plus]; rewrite Hx; reflexivity).
    split; [|exact Hcnt]. split; [exact (sorted_setn A lt ls i x r Hs E)|]. split; [|split].
    - intros h Hh Dh. rewrite setn_length in Hh. destruct (Hout h Hh Dh) as (v & Hv & Nv). exists v. split; [|exact Nv].
      destruct (Nat.eq_dec h i) as [->|D]; [|rewrite setn_other by exact D; exact Hv]. rewrite setn_same by exact Hi. rewrite E in Hv. destruct Hv as [->|Hv]; [congruence|exact Hv].
    - intros v Hv. destruct (Nat.eq_dec mi i) as [->|D]; [|rewrite setn_other in Hv by exact D; exact (Hle v Hv)]. rewrite setn_same in Hv by exact Hi. apply Hle. rewrite E. now right.
    - intro Hc'. destruct (Hlast Hc) as (p & Ep). destruct (Nat.eq_dec mi i) as [->|D]; [|rewrite setn_other by exact D; eauto].
      rewrite setn_same by exact Hi. rewrite Ep in E. destruct p as [|x' p]; cbn in E; injection E as -> <-; [|eauto].
      exfalso. destruct (cnt_pos _ _ _ _ _ Hc') as (h & v & Hv & Hin). cbn [plus] in Hin.
      destruct (Nat.eq_dec h i) as [->|D]; [rewrite setn_same in Hv by exact Hi; contradiction|]. rewrite setn_other in Hv by exact D.
      destruct (Key h v Hv Hin) as (_ & Q). exact (Q eq_refl D (le_refl _ _ SW x)).
  Qed.
  Lemma J_steps mn mi ls o ls' : steps lt true ls o ls' -> length o <= cnt true mn mi 0 ls -> J mn mi ls ->
    J mn mi ls' /\ cnt true mn mi 0 ls = length o + cnt true mn mi 0 ls'.
  Proof.
    induction 1 as [|ls i x r o ls' E Hm Hs IH]; intros Hl HJ; [auto|]. cbn [length] in Hl.
    destruct (J_step mn mi ls i x r HJ ltac:(lia) E Hm) as (HJ' & Hc). destruct (IH ltac:(lia) HJ') as (H1 & H2). split; [exact H1|]. cbn [length]. lia.
  Qed.
  Lemma J_lasting mn mi ls n : J mn mi ls -> n <= cnt true mn mi 0 ls -> lasting A lt n ls.
  Proof.
    intros HJ Hn o ls' Hs Ho i Hi. destruct (J_steps mn mi ls o ls' Hs ltac:(lia) HJ) as ((_ & Hout & _ & Hlast) & Hc).
    destruct (steps_length A lt true _ _ _ Hs) as (_ & Hl).
    destruct (Nat.eq_dec i mi) as [->|D].
    - destruct (Hlast ltac:(lia)) as (p & ->). destruct p; discriminate.
    - destruct (Hout i ltac:(lia) D) as (y & Hy & _). intro Q. rewrite Q in Hy. contradiction.
  Qed.
  Lemma J_done mn mi ls : J mn mi ls -> cnt true mn mi 0 ls = 0 -> nth mi ls [] = [].
  Proof.
    intros (_ & _ & Hle & _) Hc. destruct (nth mi ls []) as [|y l] eqn:E; [reflexivity|]. exfalso.
    assert (Hy : In y (nth mi ls [])) by (rewrite E; now left). pose proof (cnt_in true mn mi ls 0 mi y Hy) as Q. cbn [plus] in Q.
    unfold inn in Q. rewrite Nat.leb_refl in Q. cbn [andb] in Q. rewrite Hc in Q. specialize (Hle y ltac:(now left)). unfold le in Hle. rewrite Hle in Q. specialize (Q eq_refl). lia.
  Qed.
  Lemma J_init mn mi (s : seqs) p : Forall (sorted lt) (map fst s) -> fst (get s mi) = p ++ [mn] ->
    (forall j, j < length s -> exists p v, fst (get s j) = p ++ [v] /\ le lt mn v /\ (j < mi -> lt mn v = true)) -> J mn mi (map fst s).
  Proof.
    intros Hs Ep Hv. split; [exact Hs|]. split; [|split].
    - intros i Hi D. rewrite map_length in Hi. destruct (Hv i Hi) as (q & v & Eq & H1 & H2). exists v. rewrite get_map, Eq. split; [apply in_or_app; right; now left|].
      unfold inn. rewrite andb_true_r. destruct (Nat.leb_spec i mi) as [L|L]; [|exact H1]. rewrite (H2 ltac:(lia)). reflexivity.
    - intros y Hy. pose proof (sorted_nth A lt _ mi Hs) as Q. rewrite get_map in Hy, Q. rewrite Ep in Hy, Q. apply in_app_or in Hy.
      destruct Hy as [Hy|[->|[]]]; [|apply (le_refl _ _ SW)]. apply sorted_app_inv in Q. destruct Q as (_ & _ & Q). apply Q; [exact Hy|now left].
    - intros _. rewrite get_map. eauto.
  Qed.

  Lemma sum_steps st (s s1 : seqs) o : steps lt st (map fst s) o (map fst s1) -> total s = length o + total s1 /\ length s1 = length s.
  Proof. intro H. apply steps_length in H. rewrite !total_concat. rewrite !map_length in H. lia. Qed.

  (** the prefix that needs no end tests: [unguarded] stands for the variant *)
  Lemma first_part s len (unguarded : seqs -> nat -> option (list A * seqs)) : Forall (sorted lt) (map fst s) -> 0 < length s -> len <= total s ->
    (forall n, n <= total s -> lasting A lt n (map fst s) -> takes A lt true s n (unguarded s n)) ->
    exists ov mi, prepare A lt true s = Some (ov, mi) /\ mi < length s /\ exists out s1 todo,
      match ov with
      | Some ov => let n := Nat.min len (total s - ov) in '(out, s) <- unguarded s n ;; Some (out, s, len - n)
      | None => Some ([], s, len)
      end = Some (out, s1, todo) /\ steps lt true (map fst s) out (map fst s1) /\ length out + todo = len /\ map snd s1 = map snd s /\
      (todo = 0 \/ fst (get s1 mi) = []).
  Proof.
    intros Hs H0 Hlen Hu. destruct (prepare_ok true s H0) as (ov & mi & Ep & Hmi & Hp). exists ov, mi. split; [exact Ep|]. split; [exact Hmi|].
    destruct ov as [ov|].
    - destruct Hp as (mn & -> & (p & Em) & Hv). pose proof (J_init mn mi s p Hs Em Hv) as HJ.
      pose proof (overhang_cnt true mn mi s 0 Hs) as Hov. cbv zeta.
      replace (total s - overhang A lt true 0 mn mi s) with (cnt true mn mi 0 (map fst s)) by lia. set (n := Nat.min len (cnt true mn mi 0 (map fst s))).
      destruct (Hu n ltac:(lia) (J_lasting mn mi _ n HJ ltac:(lia))) as (out & s1 & -> & Hst & Hlo & Hb). cbn [bind].
      exists out, s1, (len - n). split; [reflexivity|]. split; [exact Hst|]. split; [lia|]. split; [exact Hb|].
      destruct (J_steps mn mi _ _ _ Hst ltac:(lia) HJ) as (HJ' & Hc).
      destruct (Nat.eq_dec (len - n) 0) as [Z|Z]; [now left|right]. rewrite <- get_map. apply (J_done mn); [exact HJ'|]. lia.
    - exists [], s, len. split; [reflexivity|]. split; [constructor|]. split; [reflexivity|]. split; [reflexivity|]. right. exact Hp.
  Qed.

  Theorem merge3_combined_takes s len : Forall (sorted lt) (map fst s) -> length s = 3 -> len <= total s -> takes A lt true s len (merge3_combined A lt s len).
  Proof.
    intros Hs H3 Hlen. unfold merge3_combined.
    destruct (first_part s len (merge3 A lt false) Hs ltac:(lia) Hlen) as (ov & mi & -> & Hmi & out & s1 & todo & E & Hst & Hl & Hb & Hd).
    { intros n Hn Hla. apply merge3_lasting; auto. }
    cbv zeta in E. cbn [bind]. rewrite E. cbn [bind]. destruct (sum_steps _ _ _ _ Hst) as (Ht & Hl1).
    assert (Q : takes A lt true s1 todo (match mi with 0 => merge_advance A lt 1 2 s1 todo | 1 => merge_advance A lt 0 2 s1 todo | 2 => merge_advance A lt 0 1 s1 todo | _ => None end)).
    { assert (Hsum : total s1 = length (fst (get s1 0)) + length (fst (get s1 1)) + length (fst (get s1 2))).
      { destruct s1 as [|a [|b [|c [|]]]]; cbn in Hl1; try lia. unfold total, get. cbn. lia. }
      assert (Hfar : forall h, 3 <= h -> nth h (map fst s1) [] = []) by (intros h Hh; apply nth_overflow; rewrite map_length; lia).
      assert (Hz : todo = 0 \/ nth mi (map fst s1) [] = []) by (rewrite get_map; exact Hd).
      assert (Hz2 : todo = 0 \/ length (fst (get s1 mi)) = 0) by (destruct Hd as [->|Hd]; [now left|right; rewrite Hd; auto]).
      destruct mi as [|[|[|]]]; [| | |lia]; (apply (advance_takes A lt SW); [lia|lia|]);
        (destruct Hz as [Hz|Hz]; [now left|right]); intros h D1 D2; (destruct h as [|[|[|h]]]; try congruence; apply Hfar; lia). }
    destruct Q as (out2 & s2 & -> & Hst2 & Hl2 & Hb2). cbn [bind]. exists (out ++ out2), s2. split; [reflexivity|].
    split; [exact (steps_app _ _ _ _ _ _ _ _ Hst Hst2)|]. split; [rewrite app_length; lia|congruence].
  Qed.

  (** four: the sequence that ended is left out *)
  Fixpoint ins {X} (mi : nat) (v : X) (l : list X) : list X :=
    match mi, l with S m, x :: l' => x :: ins m v l' | _, _ => v :: l end.
  Lemma ins_eq {X} mi (v : X) : forall l, mi <= length l -> ins mi v l = firstn mi l ++ v :: skipn mi l.
  Proof. induction mi as [|m IH]; intros [|x l] H; cbn in *; try reflexivity. f_equal. apply IH. lia. Qed.
  Lemma ins_remove {X} (d : X) mi : forall l, mi < length l -> ins mi (nth mi l d) (firstn mi l ++ skipn (S mi) l) = l.
  Proof. induction mi as [|m IH]; intros [|x l] H; cbn in *; try lia; [reflexivity|]. f_equal. apply IH. lia. Qed.
  Lemma ins_map {X Y} (f : X -> Y) mi v : forall l, map f (ins mi v l) = ins mi (f v) (map f l).
  Proof. induction mi as [|m IH]; intros [|x l]; cbn; try reflexivity. f_equal. apply IH. Qed.
  Definition sh (mi i : nat) : nat := if Nat.ltb i mi then i else S i.
  Lemma sh_S m i : sh (S m) (S i) = S (sh m i).
  Proof. unfold sh. change (Nat.ltb (S i) (S m)) with (Nat.ltb i m). destruct (Nat.ltb i m); reflexivity. Qed.
  Lemma ins_nth {X} (d v : X) mi : forall l i, mi <= length l -> nth (sh mi i) (ins mi v l) d = nth i l d.
  Proof.
    induction mi as [|m IH]; intros [|x l] i H; cbn [length] in H; try lia; [reflexivity..|]. cbn [ins].
    destruct i as [|i]; [reflexivity|]. rewrite sh_S. cbn [nth]. apply IH. lia.
  Qed.
  Lemma ins_here {X} (d v : X) mi : forall l, mi <= length l -> nth mi (ins mi v l) d = v.
  Proof. induction mi as [|m IH]; intros [|x l] H; cbn in *; try lia; try reflexivity. apply IH. lia. Qed.
  Lemma ins_set {X} (v w : X) mi : forall l i, mi <= length l -> setn (sh mi i) w (ins mi v l) = ins mi v (setn i w l).
  Proof.
    induction mi as [|m IH]; intros [|x l] i H; cbn [length] in H; try lia; try (cbn; reflexivity).
    cbn [ins]. destruct i as [|i]; [reflexivity|]. rewrite sh_S. cbn [setn]. cbn [ins]. f_equal. apply IH. lia.
  Qed.
  Lemma steps_ins mi v ls o ls' : steps lt true ls o ls' -> mi <= length ls -> o = [] \/ v = [] -> steps lt true (ins mi v ls) o (ins mi v ls').
  Proof.
    induction 1 as [|ls i x r o ls' E Hm Hs IH]; intros Hmi Hv; [constructor|]. destruct Hv as [Hv|Hv]; [discriminate|].
    apply (steps_cons _ _ _ _ (sh mi i) x r).
    - rewrite ins_nth by exact Hmi. exact E.
    - intros j y q Ej. destruct (Nat.eq_dec j mi) as [->|D]; [rewrite ins_here in Ej by exact Hmi; congruence|].
      assert (Q : exists h, j = sh mi h /\ (j < sh mi i -> h < i)).
      { unfold sh. destruct (Nat.lt_ge_cases j mi) as [L|L].
        - exists j. destruct (Nat.ltb_spec j mi), (Nat.ltb_spec i mi); lia.
        - exists (j - 1). destruct (Nat.ltb_spec (j - 1) mi), (Nat.ltb_spec i mi); lia. }
      destruct Q as (h & -> & Hh). rewrite ins_nth in Ej by exact Hmi. destruct (Hm h y q Ej) as (H1 & H2). split; [exact H1|]. intros Ht Q. exact (H2 Ht (Hh Q)).
    - rewrite ins_set by exact Hmi. apply IH; [rewrite setn_length; exact Hmi|now right].
  Qed.

  Lemma total_ins v mi : forall om : seqs, mi <= length om -> total (ins mi v om) = length (fst v) + total om.
  Proof. unfold total. induction mi as [|m IH]; intros [|x l] H; cbn [length] in H; try lia; cbn [ins map list_sum fold_right]; try reflexivity.
    change (fold_right Nat.add 0 (map (fun r => length (fst r)) (ins m v l))) with (list_sum (map (fun r => length (fst r)) (ins m v l))). rewrite IH by lia. unfold list_sum. lia. Qed.

  Theorem merge4_combined_takes s len : Forall (sorted lt) (map fst s) -> length s = 4 -> len <= total s -> Forall (fun r => snd r <> []) s ->
    takes A lt true s len (merge4_combined A lt s len).
  Proof.
    intros Hs H4 Hlen Hbe. unfold merge4_combined.
    destruct (first_part s len (merge4 A lt false) Hs ltac:(lia) Hlen) as (ov & mi & -> & Hmi & out & s1 & todo & E & Hst & Hl & Hb & Hd).
    { intros n Hn Hla. apply merge4_lasting; auto. }
    cbv zeta in E. cbn [bind]. rewrite E. cbn [bind]. destruct (sum_steps _ _ _ _ Hst) as (Ht & Hl1).
    set (om := firstn mi s1 ++ skipn (S mi) s1).
    assert (Hins : s1 = ins mi (get s1 mi) om) by (symmetry; apply ins_remove; lia).
    assert (Hom : length om = 3) by (unfold om; rewrite app_length, firstn_length, skipn_length; lia).
    assert (Htot : todo <= total om).
    { assert (Q : total s1 = length (fst (get s1 mi)) + total om).
      { rewrite Hins at 1. apply total_ins. lia. }
      destruct Hd as [->|Hd]; [lia|]. rewrite Hd in Q. cbn in Q. lia. }
    destruct (merge3_guarded A lt SW om todo Hom Htot) as (out2 & om' & -> & Hst2 & Hl2 & Hb2). cbn [bind].
    destruct (sum_steps _ _ _ _ Hst2) as (_ & Hl3).
    assert (Hend : firstn mi om' ++ get s1 mi :: skipn mi om' = ins mi (get s1 mi) om') by (symmetry; apply ins_eq; lia).
    exists (out ++ out2), (ins mi (get s1 mi) om'). split; [rewrite Hend; reflexivity|]. split; [|split].
    - apply (steps_app _ _ _ _ _ (map fst s1)); [exact Hst|]. rewrite Hins at 1. rewrite !ins_map. apply steps_ins; [exact Hst2|rewrite map_length; lia|].
      destruct Hd as [->|Hd]; [left; destruct out2; [reflexivity|discriminate]|right; exact Hd].
    - rewrite app_length. lia.
    - rewrite ins_map, Hb2, <- ins_map, <- Hins. exact Hb.
  Qed.

  (** the combined loser tree without stability *)
  Definition K (mn : A) (n : nat) (s : seqs) : Prop :=
    Forall (sorted lt) (map fst s) /\ n <= cnt false mn 0 0 (map fst s) /\ forall i, i < length s -> exists y, In y (fst (get s i)) /\ le lt mn y.
  Lemma unguarded_takes copy s mn mi n p : Forall (sorted lt) (map fst s) -> 0 < length s -> fst (get s mi) = p ++ [mn] ->
    (forall j, j < length s -> exists p v, fst (get s j) = p ++ [v] /\ le lt mn v /\ (j < mi -> lt mn v = true)) -> n <= cnt false mn mi 0 (map fst s) ->
    exists out s', merge_tree_unguarded A lt false copy s n = Some (out, s') /\ steps lt false (map fst s) out (map fst s') /\ length out = n /\ map snd s' = map snd s /\ K mn 0 s'.
  Proof.
    intros Hs H0 Em Hv Hn. unfold merge_tree_unguarded.
    assert (Hcnt : forall ls i, cnt false mn mi i ls = cnt false mn 0 i ls).
    { induction ls as [|l ls IH]; intro i; [reflexivity|]. cbn [cnt]. rewrite IH. f_equal. unfold inn. rewrite !andb_false_r. reflexivity. }
    destruct (Hv 0 H0) as (p0 & v0 & E0 & Hv0 & _). rewrite E0, rev_app_distr. cbn [rev app hd_error bind]. set (fill := mkN false (-1) v0).
    assert (Hinn : forall i y, inn false mn 0 i y = lt y mn) by (intros; unfold inn; rewrite andb_false_r; reflexivity).
    destruct (tree_merge_ok A lt false (Bu A lt false v0) (Bu_refl A lt SW false v0) (Bu_trans A lt SW false v0) (test_uu A lt)
      (fun l p => Bu_test A lt SW false copy v0 l p eq_refl) (left_u A lt) (feed_u A) fill (length s) H0 (K mn) (map fst)) with (s := s) (len := n) as (out & s' & E & Hst & Hlo & Hb & Hl' & HI).
    - intros m s0 i (_ & _ & Q) Hl Hi. destruct (Q i ltac:(lia)) as (y & Hy & _). unfold feed_u, read. destruct (fst (get s0 i)); [contradiction|discriminate].
    - intros m s0 w (Ks & Kn & Kl) Hl Hw Hmin.
      assert (Lj : forall j y r, j < length s -> fst (get s0 j) = y :: r -> leaf A (feed_u A) fill (length s) s0 j = mkN false (Z.of_nat j) y).
      { intros j y r H1 H2. unfold leaf. destruct (Nat.ltb_spec j (length s)); [|lia]. unfold feed_u, read. rewrite H2. reflexivity. }
      assert (Hk : forall j, j < length s -> j < 2 ^ Nat.log2_up (length s)) by (intros; pose proof (m_le (length s) H0); lia).
      destruct (cnt_pos false mn 0 (map fst s0) 0 ltac:(lia)) as (j & y & Hy & Hj). rewrite Hinn in Hj. rewrite get_map in Hy.
      assert (Hjl : j < length s) by (destruct (Nat.lt_ge_cases j (length s)) as [L|L]; [exact L|]; unfold get in Hy; rewrite nth_overflow in Hy by lia; contradiction).
      pose proof (sorted_nth A lt _ j Ks) as Sj. rewrite get_map in Sj. destruct (fst (get s0 j)) as [|y0 rj] eqn:Ej; [contradiction|].
      pose proof (sorted_hd _ _ SW y0 rj y Sj Hy) as Hy0. pose proof (le_then_lt lt SW _ _ _ Hy0 Hj) as Hy0m.
      pose proof (Hmin j (Hk j Hjl)) as Bj. rewrite (Lj j y0 rj Hjl Ej) in Bj. destruct Bj as (Bj & _). cbn in Bj.
      pose proof (le_then_lt lt SW _ _ _ Bj Hy0m) as Hwm.
      destruct (Nat.lt_ge_cases w (length s)) as [Lw|Lw].
      2: { exfalso. unfold leaf in Hwm. destruct (Nat.ltb_spec w (length s)); [lia|]. cbn in Hwm. unfold le in Hv0. congruence. }
      destruct (Kl w ltac:(lia)) as (q & Hq & Hqm). destruct (get s0 w) as [lw bw] eqn:Gw. destruct lw as [|x rw]; [contradiction|].
      rewrite (Lj w x rw Lw) in Hwm by (rewrite Gw; reflexivity). cbn in Hwm.
      assert (Hhm : head_min lt false (map fst s0) w x).
      { intros h z r Eh. rewrite get_map in Eh.
        assert (Hh : h < length s) by (destruct (Nat.lt_ge_cases h (length s)) as [L|L]; [exact L|]; unfold get in Eh; rewrite nth_overflow in Eh by lia; discriminate).
        pose proof (Hmin h (Hk h Hh)) as Bh. rewrite (Lj h z r Hh Eh), (Lj w x rw Lw) in Bh by (rewrite Gw; reflexivity). destruct Bh as (B1 & _). split; [exact B1|discriminate]. }
      assert (Ew : nth w (map fst s0) [] = x :: rw) by (rewrite get_map, Gw; reflexivity).
      exists x, rw, bw, rw. split; [exact Lw|]. split; [reflexivity|]. split; [|split; [exact Ew|split; [apply set_fst|exact Hhm]]].
      split; [rewrite set_fst; exact (sorted_setn A lt _ _ _ _ Ks Ew)|]. split.
      + rewrite set_fst. rewrite (cnt_take false mn 0 _ 0 w x rw Ew), Hinn, Hwm in Kn. lia.
      + intros i Hi. rewrite setn_length in Hi. destruct (Nat.eq_dec i w) as [->|D].
        * unfold get. rewrite setn_same by exact Hi. exists q. split; [|exact Hqm]. destruct Hq as [->|Hq]; [unfold le in Hqm; congruence|exact Hq].
        * unfold get. rewrite setn_other by exact D. exact (Kl i Hi).
    - intros m s0 a b (_ & _ & Q) Hl Hab _. apply (Bu_init A lt SW); [|exact Hab]. intros i Hi. destruct (Q i ltac:(lia)) as (y & Hy & _). unfold feed_u, read. destruct (fst (get s0 i)); [contradiction|discriminate].
    - reflexivity.
    - split; [exact Hs|]. rewrite Hcnt in Hn. split; [lia|]. intros i Hi. destruct (Hv i Hi) as (q & v & Eq & H1 & _). exists v. rewrite Eq. split; [apply in_or_app; right; now left|exact H1].
    - fold fill. cbn [negb] in E. exists out, s'. split; [exact E|]. split; [exact Hst|]. split; [|split; [exact Hb|exact HI]].
      rewrite Hlo. pose proof (cnt_le_total false mn mi (map fst s) 0) as Q. rewrite <- total_concat in Q. lia.
  Qed.

  Theorem tree_combined_takes copy s len : Forall (sorted lt) (map fst s) -> 0 < total s -> len <= total s -> takes A lt false s len (merge_tree_combined A lt false copy s len).
  Proof.
    intros Hs Ht Hlen. unfold merge_tree_combined. assert (H0 : 0 < length s) by (destruct s; [cbn in Ht; lia|cbn; lia]).
    destruct (prepare_ok false s H0) as (ov & mi & -> & Hmi & Hp). cbn [bind]. destruct ov as [ov|].
    - destruct Hp as (mn & -> & (p & Em) & Hv). pose proof (overhang_cnt false mn mi s 0 Hs) as Hov. cbv zeta.
      replace (total s - overhang A lt false 0 mn mi s) with (cnt false mn mi 0 (map fst s)) by lia. set (n := Nat.min len (cnt false mn mi 0 (map fst s))).
      destruct (unguarded_takes copy s mn mi n p Hs H0 Em Hv ltac:(lia)) as (out & s1 & -> & Hst & Hlo & Hb & (_ & _ & HK)). cbn [bind].
      destruct (sum_steps _ _ _ _ Hst) as (Hsum & Hl1).
      assert (Ht1 : 0 < total s1).
      { destruct (HK 0 ltac:(lia)) as (y & Hy & _). rewrite total_concat. assert (Q : In y (concat (map fst s1))) by (apply in_concat_nth; exists 0; rewrite get_map; exact Hy).
        destruct (concat (map fst s1)); [contradiction|cbn; lia]. }
      destruct (tree_takes A lt SW false s1 (len - n) Ht1) as (out2 & s2 & -> & Hst2 & Hl2 & Hb2). cbn [bind].
      exists (out ++ out2), s2. split; [reflexivity|]. split; [exact (steps_app _ _ _ _ _ _ _ _ Hst Hst2)|]. split; [rewrite app_length; lia|congruence].
    - cbn [bind]. destruct (tree_takes A lt SW false s len Ht) as (out2 & s2 & -> & Hst2 & Hl2 & Hb2). cbn [bind].
      exists out2, s2. split; [reflexivity|]. split; [exact Hst2|]. split; [lia|exact Hb2].
  Qed.
End Comb.
