(** Basic facts for the B+-tree: the leaf store, positions in sorted lists, what an iterator refers to. *)
From Coq Require Import List Bool Arith Lia Sorting.Sorted.
From Verif Require Import OrderLib BtreeModel.
Import ListNotations.

(** ** Lists *)
Lemma lead_le {A} (p : A -> bool) l : lead p l <= length l.
Proof. induction l as [|x l IH]; cbn; [lia|]. destruct (p x); lia. Qed.
Lemma lead_all {A} (p : A -> bool) l : Forall (fun x => p x = true) l -> lead p l = length l.
Proof. induction 1; cbn; [easy|]. rewrite H. lia. Qed.
Lemma lead_app_all {A} (p : A -> bool) l r : Forall (fun x => p x = true) l -> lead p (l ++ r) = length l + lead p r.
Proof. induction 1; cbn; [easy|]. rewrite H. lia. Qed.
Lemma lead_app_none {A} (p : A -> bool) l r : Forall (fun x => p x = false) r -> lead p (l ++ r) = lead p l.
Proof.
  intros H; induction l as [|x l IH]; cbn.
  - destruct H as [|x r H]; cbn; [easy|]. now rewrite H.
  - destruct (p x); now rewrite ?IH.
Qed.
Lemma lead_firstn {A} (p : A -> bool) l : Forall (fun x => p x = true) (firstn (lead p l) l).
Proof. induction l as [|x l IH]; cbn; [constructor|]. destruct (p x) eqn:Ex; cbn; [now constructor|constructor]. Qed.
Lemma lead_split {A} (p : A -> bool) l : exists a b, l = a ++ b /\ length a = lead p l /\ Forall (fun x => p x = true) a
  /\ match b with [] => True | x :: _ => p x = false end.
Proof.
  induction l as [|x l (a & b & -> & HL & HA & HB)]; cbn.
  - now exists [], [].
  - destruct (p x) eqn:Ex.
    + exists (x :: a), b. cbn. repeat split; [now rewrite HL|now constructor|easy].
    + now exists [], (x :: a ++ b).
Qed.
Lemma lead_ext {A} (p q : A -> bool) l : (forall x, In x l -> p x = q x) -> lead p l = lead q l.
Proof. induction l as [|x l IH]; cbn; intros H; [easy|]. rewrite H by auto. now rewrite IH by auto. Qed.

Lemma nth_error_mid {A} (a : list A) x b : nth_error (a ++ x :: b) (length a) = Some x.
Proof. induction a; cbn; auto. Qed.
Lemma lset_mid {A} (a : list A) x b y : lset (a ++ x :: b) (length a) y = a ++ y :: b.
Proof.
  unfold lset. rewrite firstn_app, Nat.sub_diag, firstn_all; cbn. rewrite app_nil_r.
  f_equal. f_equal. change (S (length a)) with (1 + length a). now induction a.
Qed.
Lemma lset_mid2 {A} (a : list A) z x b y : lset (a ++ z :: x :: b) (S (length a)) y = a ++ z :: y :: b.
Proof. replace (a ++ z :: x :: b) with ((a ++ [z]) ++ x :: b) by now rewrite <- app_assoc.
  replace (S (length a)) with (length (a ++ [z])) by (rewrite app_length; cbn; lia). rewrite lset_mid. now rewrite <- app_assoc. Qed.
Lemma lins_mid {A} (a b : list A) y : lins (a ++ b) (length a) y = a ++ y :: b.
Proof.
  unfold lins. rewrite firstn_app, Nat.sub_diag, firstn_all; cbn. rewrite app_nil_r.
  f_equal. f_equal. now induction a.
Qed.
Lemma lrem_mid {A} (a b : list A) y : lrem (a ++ y :: b) (length a) = a ++ b.
Proof.
  unfold lrem. rewrite firstn_app, Nat.sub_diag, firstn_all; cbn. rewrite app_nil_r.
  f_equal. now induction a.
Qed.
Lemma nth_error_split2 {A} (l : list A) n x : nth_error l n = Some x -> exists a b, l = a ++ x :: b /\ length a = n.
Proof. apply nth_error_split. Qed.
Lemma split_at {A} (l : list A) n : n <= length l -> exists a b, l = a ++ b /\ length a = n /\ firstn n l = a /\ skipn n l = b.
Proof. intros H. exists (firstn n l), (skipn n l). rewrite firstn_skipn, firstn_length. repeat split; lia. Qed.
Lemma lset_length {A} (l : list A) i x : i < length l -> length (lset l i x) = length l.
Proof. intros H. unfold lset. rewrite app_length, firstn_length; cbn [length]. rewrite skipn_length. lia. Qed.
Lemma lset_nth {A} (l : list A) i x j : i < length l -> nth_error (lset l i x) j = if j =? i then Some x else nth_error l j.
Proof.
  intros H. destruct (nth_error l i) as [y|] eqn:Ey; [|apply nth_error_None in Ey; lia].
  apply nth_error_split in Ey as (a & b & -> & <-). rewrite lset_mid.
  destruct (Nat.eqb_spec j (length a)) as [->|N]; [apply nth_error_mid|].
  destruct (Nat.ltb_spec j (length a)).
  - now rewrite !nth_error_app1 by lia.
  - rewrite !nth_error_app2 by lia. destruct (j - length a) eqn:Ej; [lia|easy].
Qed.
Lemma lins_length {A} (l : list A) i x : i <= length l -> length (lins l i x) = S (length l).
Proof. intros H. unfold lins. rewrite app_length, firstn_length; cbn [length]. rewrite skipn_length. lia. Qed.

#[global] Hint Rewrite @flat_map_app @app_length : blen.

  Lemma NoDup_mid (a b r : list nat) : NoDup (a ++ b ++ r) ->
    (forall x, In x b -> ~ In x a) /\ (forall x, In x b -> ~ In x r) /\ (forall x, In x a -> ~ In x r).
  Proof.
    induction a as [|y a IH]; cbn; intros H.
    - repeat split; auto. induction b as [|z b IHb]; cbn; [easy|]. cbn in H. apply NoDup_cons_iff in H as [H1 H2].
      intros x [->|Hx]; [rewrite in_app_iff in H1; tauto|now apply IHb].
    - apply NoDup_cons_iff in H as [H1 H2]. rewrite !in_app_iff in H1. destruct (IH H2) as (A1 & A2 & A3).
      repeat split.
      + intros x Hx [->|Hx']; [tauto|now apply (A1 x)].
      + auto.
      + intros x [->|Hx]; [tauto|auto].
  Qed.

Section Base.
  Context {K V : Type}.
  Notation E := (K * V)%type.
  Notation store := (list (nat * @leaf K V)).
  Notation iter := (nat * nat)%type.
  Variable cmp : K -> K -> bool.
  Hypothesis Hcmp : strict_weak cmp.

  (** ** The store *)
  Lemma lget_lput (s : store) b l b' : lget (lput s b l) b' = if b' =? b then Some l else lget s b'.
  Proof.
    unfold lput; cbn. destruct (Nat.eqb_spec b' b) as [->|N]; [easy|].
    unfold ldel. induction s as [|[c m] s IH]; cbn; [easy|].
    destruct (Nat.eqb_spec c b) as [->|N']; cbn.
    - destruct (Nat.eqb_spec b' b); easy.
    - destruct (b' =? c); easy.
  Qed.
  Lemma lget_ldel (s : store) b b' : lget (ldel s b) b' = if b' =? b then None else lget s b'.
  Proof.
    unfold ldel. induction s as [|[c m] s IH]; cbn; [now destruct (b' =? b)|].
    destruct (Nat.eqb_spec c b) as [->|N']; cbn.
    - rewrite IH. destruct (Nat.eqb_spec b' b); easy.
    - rewrite IH. destruct (Nat.eqb_spec b' c) as [->|N]; [|easy]. destruct (Nat.eqb_spec c b); easy.
  Qed.

  Definition D (s : store) (b : nat) : list E := match lget s b with Some l => ld l | None => [] end.
  Definition lk (s : store) (b : nat) : option (option nat * option nat) :=
    match lget s b with Some l => Some (lp l, ln l) | None => None end.
  Lemma D_lput s b l b' : D (lput s b l) b' = if b' =? b then ld l else D s b'.
  Proof. unfold D. rewrite lget_lput. now destruct (b' =? b). Qed.
  Lemma lk_lput s b l b' : lk (lput s b l) b' = if b' =? b then Some (lp l, ln l) else lk s b'.
  Proof. unfold lk. rewrite lget_lput. now destruct (b' =? b). Qed.
  Lemma D_ldel s b b' : D (ldel s b) b' = if b' =? b then [] else D s b'.
  Proof. unfold D. rewrite lget_ldel. now destruct (b' =? b). Qed.
  Lemma lk_ldel s b b' : lk (ldel s b) b' = if b' =? b then None else lk s b'.
  Proof. unfold lk. rewrite lget_ldel. now destruct (b' =? b). Qed.
  Lemma lget_lk s b p n : lk s b = Some (p, n) -> lget s b = Some {| ld := D s b; lp := p; ln := n |}.
  Proof. unfold lk, D. destruct (lget s b) as [[d p' n']|]; cbn; congruence. Qed.

  Definition C (s : store) (bs : list nat) : list E := flat_map (D s) bs.
  Lemma C_app s a b : C s (a ++ b) = C s a ++ C s b.
  Proof. unfold C. apply flat_map_app. Qed.
  Lemma C_cons s b r : C s (b :: r) = D s b ++ C s r.
  Proof. easy. Qed.
  Lemma C_ext s s' bs : (forall b, In b bs -> D s' b = D s b) -> C s' bs = C s bs.
  Proof. induction bs as [|b bs IH]; intros H; [easy|]. rewrite !C_cons, (H b) by now left.
    f_equal. apply IH. intros; apply H; now right. Qed.

  (** Links of a list of leaves between [p] and [n]. *)
  Definition hdo (r : list nat) (n : option nat) : option nat := match r with [] => n | b :: _ => Some b end.
  Fixpoint lsto (r : list nat) (p : option nat) : option nat := match r with [] => p | b :: r' => lsto r' (Some b) end.
  Fixpoint links (s : store) (p : option nat) (bs : list nat) (n : option nat) : Prop :=
    match bs with
    | [] => True
    | b :: r => lk s b = Some (p, hdo r n) /\ links s (Some b) r n
    end.
  Lemma links_app s a : forall p b n, links s p (a ++ b) n <-> links s p a (hdo b n) /\ links s (lsto a p) b n.
  Proof.
    induction a as [|x a IH]; intros p b n; cbn; [tauto|].
    rewrite IH. destruct a; cbn; tauto.
  Qed.
  Lemma links_ext s s' bs : forall p n, (forall b, In b bs -> lk s' b = lk s b) -> links s p bs n -> links s' p bs n.
  Proof.
    induction bs as [|b bs IH]; cbn; intros p n H; [easy|]. rewrite H by auto. intros [? ?]; split; [easy|]. now apply IH; auto.
  Qed.
  Lemma lsto_snoc a x p : lsto (a ++ [x]) p = Some x.
  Proof. revert p; induction a as [|y a IH]; intros p; cbn; [easy|]. apply IH. Qed.
  Lemma hdo_app a b n : hdo (a ++ b) n = hdo a (hdo b n).
  Proof. now destruct a. Qed.

  (** ** Sorted lists of keys *)
  Definition SS {A} (l : list (K * A)) : Prop := StronglySorted (fun a b => cmp (fst a) (fst b) = true) l.
  Lemma SS_app {A} (l r : list (K * A)) :
    SS (l ++ r) <-> SS l /\ SS r /\ (forall a b, In a l -> In b r -> cmp (fst a) (fst b) = true).
  Proof.
    induction l as [|x l IH]; cbn.
    - split; [intros H; repeat split; [constructor|easy|intros ? ? []]|tauto].
    - split.
      + intros H. apply StronglySorted_inv in H as [H1 H2]. apply IH in H1 as (H1 & H3 & H4).
        rewrite Forall_app in H2. destruct H2 as [H2 H2']. rewrite Forall_forall in H2, H2'.
        repeat split; [constructor; [easy|now apply Forall_forall]|easy|].
        intros a b [->|Ha] Hb; auto.
      + intros (H1 & H2 & H3). apply StronglySorted_inv in H1 as [H1 H1'].
        constructor; [apply IH; repeat split; auto|].
        rewrite Forall_app. split; [easy|]. apply Forall_forall. intros y Hy. apply H3; auto.
  Qed.
  Lemma SS_cons {A} (x : K * A) r : SS (x :: r) <-> (forall b, In b r -> cmp (fst x) (fst b) = true) /\ SS r.
  Proof.
    split.
    - intros H. apply StronglySorted_inv in H as [H1 H2]. rewrite Forall_forall in H2. auto.
    - intros [H1 H2]. constructor; [easy|]. now apply Forall_forall.
  Qed.
  Lemma SS_nil {A} : SS (@nil (K * A)).
  Proof. constructor. Qed.

  Lemma cmp_irr k : cmp k k = false. Proof. apply (sw_irrefl _ Hcmp). Qed.
  Lemma cmp_tr a b c : cmp a b = true -> cmp b c = true -> cmp a c = true. Proof. apply (sw_trans _ Hcmp). Qed.
  Lemma cmp_lt_le a b c : cmp a b = true -> cmp c b = false -> cmp a c = true.
  Proof. intros H1 H2. destruct (sw_incomp _ Hcmp a c b H1); [easy|congruence]. Qed.
  Lemma cmp_le_lt a b c : cmp b a = false -> cmp b c = true -> cmp a c = true.
  Proof. intros H1 H2. destruct (sw_incomp _ Hcmp b a c H2); [congruence|easy]. Qed.
  Lemma cmp_as a b : cmp a b = true -> cmp b a = false.
  Proof. intros H. destruct (cmp b a) eqn:Eb; [|easy]. pose proof (cmp_tr _ _ _ H Eb). rewrite cmp_irr in *. easy. Qed.
  Lemma cmp_le_tr a b c : cmp b a = false -> cmp c b = false -> cmp c a = false.
  Proof. intros H1 H2. destruct (cmp c a) eqn:Eb; [|easy]. destruct (sw_incomp _ Hcmp c b a Eb); congruence. Qed.
  Lemma eqv_spec a b : eqv cmp a b = true <-> cmp a b = false /\ cmp b a = false.
  Proof. unfold eqv. destruct (cmp a b), (cmp b a); cbn; intuition congruence. Qed.

  (** The first position not below a key splits a sorted list. *)
  Lemma lower_split {A} (l : list (K * A)) k : SS l -> exists a b, l = a ++ b /\ lower cmp l k = length a
    /\ (forall e, In e a -> cmp (fst e) k = true) /\ (forall e, In e b -> cmp (fst e) k = false).
  Proof.
    intros H. unfold lower. destruct (lead_split (fun e => cmp (fst e) k) l) as (a & b & E1 & E2 & E3 & E4).
    exists a, b. rewrite Forall_forall in E3. repeat split; auto. subst l.
    apply SS_app in H as (_ & H & _). destruct b as [|x b]; [easy|].
    apply SS_cons in H as [H _]. intros e [->|He]; [easy|].
    apply H in He. destruct (cmp (fst e) k) eqn:Ek; [|easy]. rewrite (cmp_tr _ _ _ He Ek) in E4. easy.
  Qed.
  Lemma lower_unique {A} (a b : list (K * A)) k :
    (forall e, In e a -> cmp (fst e) k = true) -> (forall e, In e b -> cmp (fst e) k = false) -> lower cmp (a ++ b) k = length a.
  Proof.
    intros H1 H2. unfold lower. rewrite lead_app_none by now apply Forall_forall.
    apply lead_all. now apply Forall_forall.
  Qed.
  Lemma upper_split {A} (l : list (K * A)) k : SS l -> exists a b, l = a ++ b /\ upper cmp l k = length a
    /\ (forall e, In e a -> cmp k (fst e) = false) /\ (forall e, In e b -> cmp k (fst e) = true).
  Proof.
    intros H. unfold upper. destruct (lead_split (fun e => negb (cmp k (fst e))) l) as (a & b & E1 & E2 & E3 & E4).
    exists a, b. rewrite Forall_forall in E3. repeat split; auto.
    { intros e He. apply E3 in He. now apply negb_true_iff. }
    subst l. apply SS_app in H as (_ & H & _). destruct b as [|x b]; [easy|]. apply negb_false_iff in E4.
    apply SS_cons in H as [H _]. intros e [->|He]; [easy|]. apply H in He. eapply cmp_tr; eassumption.
  Qed.
  Lemma upper_unique {A} (a b : list (K * A)) k :
    (forall e, In e a -> cmp k (fst e) = false) -> (forall e, In e b -> cmp k (fst e) = true) -> upper cmp (a ++ b) k = length a.
  Proof.
    intros H1 H2. unfold upper. rewrite lead_app_none.
    - apply lead_all. apply Forall_forall. intros x Hx. now rewrite H1.
    - apply Forall_forall. intros x Hx. now rewrite H2.
  Qed.

  (** ** What an iterator refers to: the position of an element in the sequence of all leaves *)
  Notation view := (list (nat * list E)).
  Definition cc (v : view) : list E := flat_map snd v.
  Lemma cc_app a b : cc (a ++ b) = cc a ++ cc b. Proof. apply flat_map_app. Qed.
  Ltac cl := unfold cc in *; cbn in *; repeat (progress (autorewrite with blen in *; cbn in *)); lia.
  Definition pts (v : view) (it : iter) (n : nat) : Prop :=
    exists v1 d v2, v = v1 ++ (fst it, d) :: v2 /\ n = length (cc v1) + snd it
      /\ (snd it < length d \/ v2 = [] /\ snd it = length d).
  (** The same inside a part that is not the last one. *)
  Definition ptin (v : view) (it : iter) (n : nat) : Prop :=
    exists v1 d v2, v = v1 ++ (fst it, d) :: v2 /\ n = length (cc v1) + snd it /\ snd it < length d.

  Lemma pts_nil it n : ~ pts [] it n.
  Proof. intros (v1 & d & v2 & H & _). now destruct v1. Qed.
  Lemma pts_cons b d v it n : pts ((b, d) :: v) it n <->
    (fst it = b /\ n = snd it /\ (snd it < length d \/ v = [] /\ snd it = length d))
    \/ exists m, pts v it m /\ n = length d + m.
  Proof.
    split.
    - intros (v1 & d' & v2 & H & -> & H2). destruct v1 as [|[b1 d1] v1]; cbn in H; injection H as <- <-.
      + left. subst. now cbn.
      + subst. right. exists (length (cc v1) + snd it). split; [|cl].
        now exists v1, d', v2.
    - intros [(<- & -> & H)|(m & (v1 & d' & v2 & -> & -> & H) & ->)].
      + now exists [], d, v.
      + exists ((b, d) :: v1), d', v2. repeat split; [cl|easy].
  Qed.
  Lemma pts_app a r it n : r <> [] -> pts (a ++ r) it n <-> ptin a it n \/ exists m, pts r it m /\ n = length (cc a) + m.
  Proof.
    intros Hr. revert n. induction a as [|[b d] a IH]; intros n; cbn [app].
    - split; [intros H; right; now exists n|]. intros [(v1 & d & v2 & H & _)|(m & H & ->)]; [now destruct v1|easy].
    - rewrite pts_cons. split.
      + intros [(H1 & H2 & H3)|(m & H & ->)].
        * left. exists [], d, a. cbn. rewrite H1. repeat split; [easy|]. destruct H3 as [H3|[H3 _]]; [easy|].
          destruct a; [now cbn in H3|easy].
        * apply IH in H as [(v1 & d' & v2 & -> & -> & H)|(m' & H & ->)].
          -- left. exists ((b, d) :: v1), d', v2. repeat split; [cl|easy].
          -- right. exists m'. split; [easy|cl].
      + intros [(v1 & d' & v2 & H & -> & H2)|(m & H & ->)].
        * destruct v1 as [|[b1 d1] v1]; cbn in H; injection H as <- <-.
          -- left. subst. cbn. now intuition.
          -- right. subst. exists (length (cc v1) + snd it). split; [|cl].
             apply IH. left. now exists v1, d', v2.
        * right. exists (length (cc a) + m). split; [|cl]. apply IH. right. now exists m.
  Qed.
  Lemma pts_In v it n : pts v it n -> In (fst it) (map fst v).
  Proof. intros (v1 & d & v2 & -> & _). rewrite map_app, in_app_iff. cbn. auto. Qed.
  Lemma ptin_In v it n : ptin v it n -> In (fst it) (map fst v).
  Proof. intros (v1 & d & v2 & -> & _). rewrite map_app, in_app_iff. cbn. auto. Qed.
  Lemma ptin_lt v it n : ptin v it n -> n < length (cc v).
  Proof. intros (v1 & d & v2 & -> & -> & H). cl. Qed.
  Lemma pts_le v it n : pts v it n -> n <= length (cc v).
  Proof. intros (v1 & d & v2 & -> & -> & H). cl. Qed.

  Lemma pts_nth v it n : pts v it n -> n < length (cc v) ->
    exists v1 d v2, v = v1 ++ (fst it, d) :: v2 /\ n = length (cc v1) + snd it /\ snd it < length d
      /\ nth_error d (snd it) = nth_error (cc v) n.
  Proof.
    intros (v1 & d & v2 & -> & -> & H) L.
    destruct H as [H|[-> H]]; [|exfalso; cl].
    exists v1, d, v2. repeat split; [easy|]. rewrite cc_app, nth_error_app2 by lia.
    replace (length (cc v1) + snd it - length (cc v1)) with (snd it) by lia.
    cbn. now rewrite nth_error_app1.
  Qed.

  (** Iterators at the same position are the same. *)
  Definition nonempties (v : view) : Prop := forall v1 b d v2, v = v1 ++ (b, d) :: v2 -> v2 <> [] -> d <> [].
  Lemma nonempties_cons x v : nonempties (x :: v) -> nonempties v.
  Proof. intros H v1 b d v2 -> N. now apply (H (x :: v1) b d v2). Qed.
  Definition last_ne (v : view) : Prop := forall v1 b, v = v1 ++ [(b, [])] -> v1 = [].
  Lemma pts_unique v : forall it it' n, nonempties v -> last_ne v -> pts v it n -> pts v it' n -> it = it'.
  Proof.
    induction v as [|[b d] v IH]; intros it it' n N L H1 H2; [now apply pts_nil in H1|].
    assert (LE : forall it m, pts v it m -> length d <= length d + m) by lia.
    assert (Z : forall it, pts v it 0 -> v <> []) by (intros i Hi ->; now apply pts_nil in Hi).
    apply pts_cons in H1, H2.
    destruct H1 as [(F1 & S1 & [T1|[V1 T1]])|(m1 & P1 & S1)], H2 as [(F2 & S2 & [T2|[V2 T2]])|(m2 & P2 & S2)];
      try (destruct it, it'; cbn in *; congruence); try lia;
      try (exfalso; subst v; eapply pts_nil; eassumption).
    assert (m1 = m2) by lia. subst m2.
    apply IH with m1; auto; [now apply nonempties_cons in N|].
    intros v1 b' ->. exfalso. specialize (L ((b, d) :: v1) b' eq_refl). discriminate.
  Qed.
  Lemma pts_fun v : forall it n n', NoDup (map fst v) -> pts v it n -> pts v it n' -> n = n'.
  Proof.
    induction v as [|[b d] v IH]; intros it n n' N H1 H2; [now apply pts_nil in H1|].
    cbn in N. apply NoDup_cons_iff in N as [N1 N2].
    apply pts_cons in H1, H2.
    destruct H1 as [(F1 & S1 & T1)|(m1 & P1 & S1)], H2 as [(F2 & S2 & T2)|(m2 & P2 & S2)]; try lia.
    - apply pts_In in P2. subst b. contradiction.
    - apply pts_In in P1. subst b. contradiction.
    - f_equal; subst. f_equal. now apply IH with it.
  Qed.

  (** The view of a list of leaves. *)
  Definition vw (s : store) (bs : list nat) : view := map (fun b => (b, D s b)) bs.
  Lemma vw_app s a b : vw s (a ++ b) = vw s a ++ vw s b. Proof. apply map_app. Qed.
  Lemma vw_cc s bs : cc (vw s bs) = C s bs.
  Proof. unfold cc, vw, C. induction bs as [|b bs IH]; cbn; [easy|]. now rewrite IH. Qed.
  Lemma vw_fst s bs : map fst (vw s bs) = bs.
  Proof. unfold vw. rewrite map_map. cbn. apply map_id. Qed.
  Lemma vw_ext s s' bs : (forall b, In b bs -> D s' b = D s b) -> vw s' bs = vw s bs.
  Proof. intros H. unfold vw. apply map_ext_in. intros b Hb. now rewrite H. Qed.
  Lemma vw_nil s bs : vw s bs = [] -> bs = [].
  Proof. now destruct bs. Qed.

  (** ** Invariant of the leaves *)
  Record G (s : store) (bs : list nat) : Prop := {
    g_nodup : NoDup bs;
    g_dom : forall b l, lget s b = Some l -> In b bs;
    g_link : links s None bs None;
    g_sorted : SS (C s bs);
    g_ne : forall b, In b bs -> D s b <> [] \/ bs = [b] }.

  Lemma G_at s a b r : G s (a ++ b :: r) -> lget s b = Some {| ld := D s b; lp := lsto a None; ln := hdo r None |}.
  Proof.
    intros [_ _ H _ _]. apply links_app in H as [_ H]. cbn in H. destruct H as [H _]. now apply lget_lk.
  Qed.
  Lemma G_nonempties s bs : G s bs -> nonempties (vw s bs).
  Proof.
    intros HG v1 b d v2 E N.
    assert (H : In b bs). { rewrite <- (vw_fst s bs), E, map_app, in_app_iff. cbn. auto. }
    assert (d = D s b). { assert (I : In (b, d) (vw s bs)) by (rewrite E, in_app_iff; cbn; auto).
      unfold vw in I. apply in_map_iff in I as (b' & I & _). congruence. }
    subst d. destruct (g_ne _ _ HG b H) as [H1|H1]; [easy|].
    rewrite H1 in E. cbn in E. destruct v1 as [|? v1]; cbn in E; [|destruct v1; discriminate].
    injection E as <-. congruence.
  Qed.
  Lemma G_last_ne s bs : G s bs -> last_ne (vw s bs).
  Proof.
    intros HG v1 b E.
    assert (H : In b bs). { rewrite <- (vw_fst s bs), E, map_app, in_app_iff. cbn. auto. }
    assert ([] = D s b). { assert (I : In (b, []) (vw s bs)) by (rewrite E, in_app_iff; cbn; auto).
      unfold vw in I. apply in_map_iff in I as (b' & I & _). congruence. }
    destruct (g_ne _ _ HG b H) as [H1|H1]; [congruence|].
    rewrite H1 in E. cbn in E. destruct v1 as [|? v1]; cbn in E; [easy|destruct v1; discriminate].
  Qed.
End Base.
