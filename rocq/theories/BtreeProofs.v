(** The tree does what the sorted map does. *)
From Coq Require Import List Bool Arith Lia Sorting.Sorted.
From Verif Require Import OrderLib BtreeModel BtreeSpec BtreeBase BtreeLeaf BtreeTree BtreeRoot BtreeIter.
Import ListNotations.

Section Proofs.
  Context {K V : Type}.
  Notation E := (K * V)%type.
  Notation store := (list (nat * @leaf K V)).
  Notation iter := (nat * nat)%type.
  Notation core := (@core K V).
  Variable cmp keqb : K -> K -> bool.
  Variable kmax : K.
  Variable vdef : V.
  Variable lmax nmax ncap : nat.
  Variable alloc : store -> nat.
  Hypothesis Hcmp : strict_weak cmp.
  Notation SS := (SS cmp).
  Notation has := (has cmp).
  Notation lower := (lower cmp).
  Notation upper := (upper cmp).

  (** ** Sorted lists *)
  Lemma filter_all {A} (p : A -> bool) l : (forall x, In x l -> p x = true) -> filter p l = l.
  Proof. induction l as [|x l IH]; cbn; intros H; [easy|]. rewrite H by auto. f_equal. auto. Qed.
  Lemma filter_none {A} (p : A -> bool) l : (forall x, In x l -> p x = false) -> filter p l = [].
  Proof. induction l as [|x l IH]; cbn; intros H; [easy|]. rewrite H by auto. auto. Qed.

  Lemma cut (m : list E) k : SS m -> exists a o b, m = a ++ o ++ b
    /\ (o = [] \/ exists x, o = [x]) /\ (forall e, In e a -> cmp (fst e) k = true)
    /\ (forall e, In e o -> same cmp (fst e) k = true) /\ (forall e, In e b -> cmp k (fst e) = true)
    /\ lower m k = length a /\ upper m k = length a + length o /\ has m k = negb (length o =? 0)
    /\ s_has cmp m k = negb (length o =? 0)
    /\ filter (fun e => cmp (fst e) k) m = a /\ filter (fun e => cmp k (fst e)) m = b
    /\ filter (fun e => same cmp (fst e) k) m = o /\ filter (fun e => negb (cmp (fst e) k)) m = o ++ b
    /\ filter (fun e => negb (same cmp k (fst e))) m = a ++ b.
  Proof.
    intros H. destruct (lower_split cmp Hcmp m k H) as (a & r & -> & HL & HA & HR).
    assert (Hs : SS r) by (apply SS_app in H; tauto).
    assert (X : exists o b, r = o ++ b /\ (o = [] \/ exists x, o = [x]) /\ (forall e, In e o -> same cmp (fst e) k = true)
      /\ (forall e, In e b -> cmp k (fst e) = true)).
    { destruct r as [|x r]; [exists [], []; repeat split; try easy; now left|].
      apply SS_cons in Hs as [Hs1 Hs2]. pose proof (HR x (or_introl eq_refl)) as Hx.
      destruct (cmp k (fst x)) eqn:Ek.
      - exists [], (x :: r). repeat split; try easy; [now left|]. intros e [<-|He]; [easy|]. eapply cmp_tr; eauto.
      - exists [x], r. repeat split; [right; eauto| |].
        + intros e [<-|[]]. unfold same. now rewrite Hx, Ek.
        + intros e He. eapply cmp_le_lt; eauto. }
    destruct X as (o & b & -> & Ho & HO & HB).
    assert (SA : forall e, In e a -> same cmp (fst e) k = false) by (intros e He; unfold same; now rewrite HA).
    assert (SB : forall e, In e b -> same cmp (fst e) k = false) by (intros e He; unfold same; rewrite (HB e He); now rewrite andb_false_r).
    assert (OL : forall e, In e o -> cmp (fst e) k = false /\ cmp k (fst e) = false).
    { intros e He. specialize (HO e He). unfold same in HO. now apply andb_true_iff in HO as [X1%negb_true_iff X2%negb_true_iff]. }
    assert (AB : forall e, In e a -> cmp k (fst e) = false) by (intros; apply cmp_as; auto).
    assert (BA : forall e, In e b -> cmp (fst e) k = false) by (intros; apply cmp_as; auto).
    assert (SC : forall e : E, same cmp k (fst e) = same cmp (fst e) k) by (intros; unfold same; apply andb_comm).
    exists a, o, b. repeat match goal with |- _ /\ _ => split end; auto.
    - rewrite app_assoc, <- app_length. apply upper_unique; [|easy]. intros e He. apply in_app_iff in He as [He|He]; [auto|apply OL, He].
    - unfold BtreeLeaf.has. rewrite HL. destruct Ho as [->|[x ->]].
      + cbn [app length Nat.eqb negb]. destruct b as [|y b]; [rewrite app_nil_r|].
        * assert (Y : nth_error a (length a) = None) by now apply nth_error_None. now rewrite Y.
        * rewrite nth_error_mid. unfold eqv. rewrite (HB y (or_introl eq_refl)). now rewrite orb_true_r.
      + cbn [app length Nat.eqb negb]. rewrite nth_error_mid. apply eqv_spec. apply OL. now left.
    - unfold s_has. rewrite !existsb_app. destruct Ho as [->|[x ->]].
      + cbn. assert (Y : existsb (fun e => same cmp (fst e) k) a = false /\ existsb (fun e => same cmp (fst e) k) b = false).
        { split; (destruct (existsb _ _) eqn:Ee; [|easy]); apply existsb_exists in Ee as (e & E1 & E2).
          - now rewrite (SA e E1) in E2. - now rewrite (SB e E1) in E2. }
        destruct Y as [-> ->]. easy.
      + cbn. rewrite (HO x (or_introl eq_refl)). cbn. now rewrite orb_true_r.
    - rewrite !filter_app, (filter_all _ a), (filter_none _ o), (filter_none _ b); auto; [now rewrite !app_nil_r|]. intros e He. apply OL, He.
    - rewrite !filter_app, (filter_none _ a), (filter_none _ o), (filter_all _ b); auto. intros e He. apply OL, He.
    - rewrite !filter_app, (filter_none _ a), (filter_all _ o), (filter_none _ b); auto. now rewrite !app_nil_r.
    - rewrite !filter_app, (filter_none _ a), (filter_all _ o), (filter_all _ b); auto.
      + intros e He. now rewrite BA.
      + intros e He. destruct (OL e He) as [-> _]. easy.
      + intros e He. now rewrite HA.
    - rewrite !filter_app, (filter_all _ a), (filter_none _ o), (filter_all _ b); auto.
      + intros e He. now rewrite SC, SB.
      + intros e He. now rewrite SC, HO.
      + intros e He. now rewrite SC, SA.
  Qed.

  (** The iterator at a position. *)
  Definition posit (m : list E) (n : nat) : @sit K := match nth_error m n with Some e => At (fst e) | None => End end.
  Lemma posit_app (a b : list E) : posit (a ++ b) (length a) = s_first b.
  Proof. unfold posit. rewrite nth_error_app2, Nat.sub_diag by lia. now destruct b. Qed.

  Lemma put_pos (m : list E) x : SS m -> s_put cmp m x = if has m (fst x) then m else lins m (lower m (fst x)) x.
  Proof.
    intros H. destruct (cut m (fst x) H) as (a & o & b & Em & Ho & _ & _ & _ & HL & _ & HH & HS & F1 & F2 & _).
    unfold s_put. rewrite HS, HH. destruct Ho as [->|[y ->]]; cbn [length Nat.eqb negb]; [|easy].
    rewrite F1, F2, HL, Em. cbn [app]. now rewrite lins_mid.
  Qed.
  Lemma find_pos (m : list E) k : SS m -> s_find cmp m k = posit m (if has m k then lower m k else length m).
  Proof.
    intros H. destruct (cut m k H) as (a & o & b & Em & Ho & _ & _ & _ & HL & _ & HH & _ & _ & _ & F3 & _).
    unfold s_find. rewrite F3, HH, HL. destruct Ho as [->|[y ->]]; cbn [length Nat.eqb negb].
    - unfold posit. assert (Y : nth_error m (length m) = None) by now apply nth_error_None. now rewrite Y.
    - rewrite Em, posit_app. easy.
  Qed.
  Lemma lower_pos (m : list E) k : SS m -> s_lower cmp m k = posit m (lower m k).
  Proof.
    intros H. destruct (cut m k H) as (a & o & b & Em & Ho & _ & _ & _ & HL & _ & HH & _ & _ & _ & _ & F4 & _).
    unfold s_lower. rewrite F4, HL, Em, posit_app. easy.
  Qed.
  Lemma upper_pos (m : list E) k : SS m -> s_upper cmp m k = posit m (upper m k).
  Proof.
    intros H. destruct (cut m k H) as (a & o & b & Em & Ho & _ & _ & _ & HL & HU & HH & _ & _ & F2 & _ & _ & _).
    unfold s_upper. rewrite F2, HU, Em, app_assoc, <- app_length, posit_app. easy.
  Qed.
  Lemma count_pos (m : list E) k : SS m -> length (filter (fun e => same cmp (fst e) k) m) = if has m k then 1 else 0.
  Proof.
    intros H. destruct (cut m k H) as (a & o & b & Em & Ho & _ & _ & _ & HL & HU & HH & _ & _ & _ & F3 & _).
    rewrite F3, HH. destruct Ho as [->|[y ->]]; easy.
  Qed.
  Lemma remove_pos (m : list E) k : SS m -> filter (fun e => negb (same cmp k (fst e))) m = if has m k then lrem m (lower m k) else m.
  Proof.
    intros H. destruct (cut m k H) as (a & o & b & Em & Ho & _ & _ & _ & HL & HU & HH & _ & _ & _ & _ & _ & F5).
    rewrite F5, HH, HL, Em. destruct Ho as [->|[y ->]]; cbn [length Nat.eqb negb app]; [easy|]. now rewrite lrem_mid.
  Qed.
  (** The element at a position. *)
  Lemma nth_cmp (m : list E) i j x y : SS m -> nth_error m i = Some x -> nth_error m j = Some y -> cmp (fst x) (fst y) = (i <? j).
  Proof.
    intros H. revert i j. induction m as [|z m IH]; intros i j Hi Hj; [now destruct i|].
    apply SS_cons in H as [H1 H2]. destruct i as [|i], j as [|j]; cbn in Hi, Hj.
    - injection Hi as ->. injection Hj as ->. now apply cmp_irr.
    - injection Hi as ->. apply nth_error_In in Hj. now apply H1.
    - injection Hj as ->. apply nth_error_In in Hi. apply cmp_as; [easy|]. now apply H1.
    - rewrite (IH H2 i j Hi Hj). easy.
  Qed.
  Lemma nth_pos (m : list E) n k v : SS m -> nth_error m n = Some (k, v) ->
    has m k = true /\ lower m k = n /\ upper m k = S n /\ s_get cmp m (At k) = Some (k, v)
    /\ s_last (filter (fun e => cmp (fst e) k) m) = match n with 0 => None | S n' => Some (posit m n') end
    /\ forall w, s_set cmp m k w = lset m n (k, w).
  Proof.
    intros H Hn. apply nth_error_split in Hn as (a & b & -> & <-).
    apply SS_app in H as (H1 & H2 & H3). apply SS_cons in H2 as [H2 H4].
    assert (HA : forall e, In e a -> cmp (fst e) k = true) by (intros e He; apply (H3 e (k, v)); [easy|now left]).
    assert (HB : forall e, In e b -> cmp k (fst e) = true) by (intros e He; now apply H2).
    assert (SA : forall e, In e a -> same cmp (fst e) k = false) by (intros e He; unfold same; now rewrite HA).
    assert (SB : forall e, In e b -> same cmp (fst e) k = false) by (intros e He; unfold same; rewrite (HB e He); now rewrite andb_false_r).
    assert (SK : same cmp k k = true) by (unfold same; now rewrite (cmp_irr _ Hcmp)).
    assert (AB : forall e, In e a -> cmp k (fst e) = false) by (intros; apply cmp_as; auto).
    assert (BA : forall e, In e b -> cmp (fst e) k = false) by (intros; apply cmp_as; auto).
    assert (HL : lower (a ++ (k, v) :: b) k = length a).
    { apply lower_unique; [easy|]. intros e [<-|He]; [now apply cmp_irr|auto]. }
    split. { unfold BtreeLeaf.has. rewrite HL, nth_error_mid. apply eqv_spec. split; now apply cmp_irr. }
    split; [easy|]. split.
    { replace (a ++ (k, v) :: b) with ((a ++ [(k, v)]) ++ b) by now rewrite <- app_assoc.
      replace (S (length a)) with (length (a ++ [(k, v)])) by (rewrite app_length; cbn; lia). apply upper_unique; [|easy].
      intros e He. apply in_app_iff in He as [He|[<-|[]]]; [auto|now apply cmp_irr]. }
    split. { unfold s_get. rewrite filter_app, (filter_none _ a) by easy. cbn. now rewrite SK. }
    split.
    { rewrite filter_app, (filter_all _ a) by easy. cbn. rewrite (cmp_irr _ Hcmp), (filter_none _ b), app_nil_r by easy.
      destruct a as [|x a] using rev_ind; [easy|]. clear IHa. rewrite app_length. cbn [length]. rewrite Nat.add_1_r.
      unfold s_last. rewrite rev_app_distr. cbn. rewrite <- app_assoc. cbn [app]. rewrite posit_app. easy. }
    intros w. rewrite lset_mid. unfold s_set. rewrite map_app. cbn. rewrite SK. f_equal; [|f_equal].
    - rewrite <- (map_id a) at 2. apply map_ext_in. intros e He. now rewrite SA.
    - rewrite <- (map_id b) at 2. apply map_ext_in. intros e He. now rewrite SB.
  Qed.
  Lemma lins_shift (m : list E) i x n : i <= length m -> n < length m -> nth_error (lins m i x) (if i <=? n then S n else n) = nth_error m n.
  Proof.
    intros Hi Hn. destruct (split_at m i Hi) as (a & b & -> & La & _). rewrite <- La, lins_mid.
    destruct (Nat.leb_spec (length a) n).
    - rewrite !nth_error_app2 by lia. replace (S n - length a) with (S (n - length a)) by lia. easy.
    - now rewrite !nth_error_app1 by lia.
  Qed.
  Lemma lrem_shift (m : list E) i n n' : i < length m -> era_f true i n = Some n' -> nth_error (lrem m i) n' = nth_error m n.
  Proof.
    intros Hi. unfold era_f. destruct (nth_error m i) as [y|] eqn:Ey; [|apply nth_error_None in Ey; lia].
    apply nth_error_split in Ey as (a & b & -> & <-). rewrite lrem_mid.
    destruct (Nat.ltb_spec n (length a)).
    - intros [= <-]. now rewrite !nth_error_app1 by lia.
    - destruct (Nat.eqb_spec n (length a)); [easy|]. intros [= <-]. rewrite !nth_error_app2 by lia.
      replace (n - length a) with (S (n - 1 - length a)) by lia. easy.
  Qed.
  Lemma lrem_len {A} (l : list A) i : i < length l -> length (lrem l i) = length l - 1.
  Proof. intros H. unfold lrem. rewrite app_length, firstn_length, skipn_length. lia. Qed.
  Lemma filter_range (m : list E) q i j : i <= j <= length m -> (forall n e, nth_error m n = Some e -> q (fst e) = (i <=? n) && (n <? j)) ->
    filter (fun e => negb (q (fst e))) m = firstn i m ++ skipn j m.
  Proof.
    intros Hij H. destruct (split_at m j ltac:(lia)) as (ab & c & -> & Lj & _). destruct (split_at ab i ltac:(lia)) as (a & b & -> & Li & _).
    rewrite app_length in Lj.
    assert (Ea : firstn i ((a ++ b) ++ c) = a) by (rewrite <- app_assoc, <- Li, firstn_app, Nat.sub_diag, firstn_all, firstn_O, app_nil_r; easy).
    assert (Ec : skipn j ((a ++ b) ++ c) = c) by (rewrite <- Lj, <- app_length, skipn_app, Nat.sub_diag, skipn_all; easy).
    rewrite Ea, Ec, !filter_app, (filter_all _ a), (filter_none _ b), (filter_all _ c), app_nil_r; [easy| | |].
    - intros e He. apply In_nth_error in He as (n & Hn). assert (X := nth_error_Some c n). rewrite Hn in X.
      rewrite (H (j + n) e); [|rewrite nth_error_app2 by (rewrite app_length; lia); rewrite app_length; replace (j + n - (length a + length b)) with n by lia; easy].
      destruct (Nat.ltb_spec (j + n) j); [lia|]. now rewrite andb_false_r.
    - intros e He. apply In_nth_error in He as (n & Hn). assert (X : n < length b) by (apply nth_error_Some; congruence).
      rewrite (H (i + n) e).
      + destruct (Nat.leb_spec i (i + n)); [|lia]. destruct (Nat.ltb_spec (i + n) j); [easy|lia].
      + rewrite <- app_assoc, nth_error_app2 by lia. replace (i + n - length a) with n by lia. now rewrite nth_error_app1.
    - intros e He. apply In_nth_error in He as (n & Hn). assert (X : n < length a) by (apply nth_error_Some; congruence).
      rewrite (H n e).
      + destruct (Nat.leb_spec i n); [lia|]. easy.
      + rewrite <- app_assoc. now rewrite nth_error_app1.
  Qed.

  Hypothesis Hkeq : forall a b, keqb a b = eqv cmp a b.
  Hypothesis Halloc : forall s, lget s (alloc s) = None.
  Hypothesis Hlmax : 4 <= lmax.
  Hypothesis Hnmax : 4 <= nmax.
  Notation RI := (RI cmp kmax lmax nmax).
  Notation cap := (cap lmax nmax ncap).

  Definition Rit (c : core) (i : @sit K) (it : iter) : Prop :=
    match i with
    | At k => exists n v, nth_error (cc c) n = Some (k, v) /\ pts (cv c) it n
    | End => pts (cv c) it (length (cc c))
    | Bad => True
    end.
  Record Rel (c : core) (s : @sstate K V) : Prop := {
    R_inv : RI c;
    R_sm : cc c = sm s;
    R_len : length (its c) = S (length (si s));
    R_it : forall i a, nth_error (si s) i = Some a -> exists it, nth_error (its c) (S i) = Some it /\ Rit c a it }.

  Lemma RI_SS (c : core) : RI c -> SS (cc c).
  Proof. intros []. apply (g_sorted _ _ _ r_G). Qed.
  Lemma RI_key (c : core) e : RI c -> In e (cc c) -> cmp kmax (fst e) = false.
  Proof.
    intros [_ HC _ _ _ _] He. destruct (ent_range cmp lmax nmax Hcmp _ _ _ _ _ _ HC e He) as [_ X]. exact X.
  Qed.
  Lemma Rit_pos (c : core) it n : pts (cv c) it n -> Rit c (posit (cc c) n) it.
  Proof.
    intros H. unfold posit. destruct (nth_error (cc c) n) as [[k v]|] eqn:En; cbn; [eauto|].
    apply nth_error_None in En. pose proof (pts_le _ _ _ H) as X. unfold cv in X. rewrite vw_cc in X. fold (cc c) in X.
    assert (n = length (cc c)) by lia. now subst n.
  Qed.
  (** The position of an iterator that is not invalid. *)
  Lemma Rit_inv (c : core) a it : SS (cc c) -> Rit c a it -> a <> Bad -> exists n, pts (cv c) it n /\ a = posit (cc c) n /\ n <= length (cc c).
  Proof.
    intros HS H N. destruct a as [k| |]; [| |easy].
    - destruct H as (n & v & H1 & H2). exists n. split; [easy|]. unfold posit. rewrite H1. split; [easy|].
      assert (n < length (cc c)) by (apply nth_error_Some; congruence). lia.
    - cbn in H. exists (length (cc c)). split; [easy|]. unfold posit.
      assert (Y : nth_error (cc c) (length (cc c)) = None) by now apply nth_error_None. now rewrite Y.
  Qed.

  Lemma Rel_new (c : core) s it n : Rel c s -> pts (cv c) it n -> Rel (new_it c it) (s_new s (posit (sm s) n)).
  Proof.
    intros [H1 H2 H3 H4] Hp.
    constructor.
    - apply RI_set_its; [easy|]. rewrite nth_error_app1; [easy|]. lia.
    - exact H2.
    - cbn. rewrite !app_length. cbn. lia.
    - intros i a Hi. cbn [si s_new] in Hi. cbn [its new_it set_its].
      destruct (Nat.lt_ge_cases i (length (si s))) as [L|L].
      + rewrite nth_error_app1 in Hi by easy. destruct (H4 i a Hi) as (it' & X1 & X2). exists it'.
        rewrite nth_error_app1 by lia. easy.
      + rewrite nth_error_app2 in Hi by easy. destruct (i - length (si s)) as [|m] eqn:Em; [|now destruct m]. cbn in Hi. injection Hi as <-.
        exists it. rewrite nth_error_app2 by lia. replace (S i - length (its c)) with 0 by lia. cbn [nth_error]. split; [easy|].
        rewrite <- H2. now apply (Rit_pos c).
  Qed.
  Lemma Rel_set (c : core) s i it n : Rel c s -> i < length (si s) -> pts (cv c) it n ->
    Rel (set_its c (lset (its c) (S i) it)) (s_put_it s i (posit (sm s) n)).
  Proof.
    intros [H1 H2 H3 H4] Hi Hp. constructor.
    - apply RI_set_its; [easy|]. rewrite lset_nth by lia. easy.
    - exact H2.
    - cbn [its set_its si s_put_it]. rewrite lset_length by lia. fold (lset (si s) i (posit (sm s) n)). rewrite lset_length; lia.
    - intros j a Hj. cbn [si s_put_it] in Hj. fold (lset (si s) i (posit (sm s) n)) in Hj. rewrite lset_nth in Hj by lia.
      cbn [its set_its]. rewrite lset_nth by lia. cbn [Nat.eqb].
      destruct (Nat.eqb_spec j i) as [->|Nj].
      + injection Hj as <-. exists it. split; [easy|]. rewrite <- H2. now apply (Rit_pos c).
      + destruct (H4 j a Hj) as (it' & X1 & X2). exists it'. easy.
  Qed.

  Lemma insert_Rel (c : core) s x s' : Rel c s -> s_add cmp kmax cap s x = Some s' ->
    exists c' it, insert cmp kmax lmax nmax ncap alloc c x = Some (c', negb (s_has cmp (sm s) (fst x)))
      /\ length (its c') = S (length (its c)) /\ nth_error (its c') (length (its c)) = Some it
      /\ pts (cv c') it (lower (sm s) (fst x))
      /\ Rel c' (s_new s' (posit (sm s') (lower (sm s) (fst x)))).
  Proof.
    intros [H1 H2 H3 H4] Hadd. unfold s_add in Hadd. cbv zeta in Hadd.
    destruct (ok_key cmp kmax (fst x) && (length (s_put cmp (sm s) x) <? cap)) eqn:Ec; [|easy]. injection Hadd as <-.
    apply andb_true_iff in Ec as [Ek%negb_true_iff El%Nat.ltb_lt].
    pose proof (RI_SS c H1) as HS. rewrite put_pos in El |- * by (now rewrite <- H2). cbn [sm si].
    assert (HP : (if has (sm s) (fst x) then sm s else lins (sm s) (lower (sm s) (fst x)) x) = s_put cmp (sm s) x).
    { symmetry. apply put_pos. now rewrite <- H2. }
    destruct (insert_ok cmp kmax lmax nmax ncap alloc Hcmp Halloc Hlmax Hnmax c x H1 Ek) as (c' & fl & E1 & HR' & HI).
    { rewrite H2. exact El. }
    assert (Hhas : s_has cmp (sm s) (fst x) = has (sm s) (fst x)).
    { rewrite H2 in HS. destruct (cut (sm s) (fst x) HS) as (a & o & b & X). destruct X as (_ & _ & _ & _ & _ & _ & _ & -> & -> & _). easy. }
    destruct HI as [I1 I2 I3 I4 (it & I5 & I6) I7].
    fold (cc c) in I2, I3, I4, I6. rewrite H2 in I2, I3, I4, I6.
    assert (Hcc : cc c' = if has (sm s) (fst x) then sm s else lins (sm s) (lower (sm s) (fst x)) x).
    { unfold cc. rewrite I3, I2. now destruct (has (sm s) (fst x)). }
    exists c', it. rewrite Hhas, <- I2. split; [easy|]. split; [easy|]. split; [easy|]. split; [easy|].
    constructor; auto.
    - cbn. rewrite I7, H3, app_length. cbn. lia.
    - cbn [sm si s_new]. intros i a Hi.
      destruct (Nat.lt_ge_cases i (length (si s))) as [L|L].
      + rewrite nth_error_app1 in Hi by easy. destruct (H4 i a Hi) as (it0 & X1 & X2).
        destruct a as [k| |]; cbn in X2.
        * destruct X2 as (n & v & Y1 & Y2). destruct (I4 _ _ _ _ X1 Y2 eq_refl) as (it1 & Z1 & Z2). exists it1. split; [easy|].
          cbn. eexists _, v. split; [|exact Z2]. rewrite Hcc, I2.
          assert (Hn : n < length (sm s)) by (rewrite <- H2; apply nth_error_Some; congruence). rewrite H2 in Y1.
          destruct (has (sm s) (fst x)); cbn [negb andb]; [exact Y1|]. rewrite lins_shift; [exact Y1|apply lower_le|easy].
        * rewrite H2 in X2. destruct (I4 _ _ _ _ X1 X2 eq_refl) as (it1 & Z1 & Z2). exists it1. split; [easy|].
          cbn. rewrite Hcc. rewrite I2 in Z2. destruct (has (sm s) (fst x)); cbn [negb andb] in Z2; [exact Z2|].
          pose proof (lower_le cmp (sm s) (fst x)) as LL. rewrite lins_length by easy. apply Nat.leb_le in LL. rewrite LL in Z2. exact Z2.
        * assert (S i < length (its c')) by (rewrite I7; lia). destruct (nth_error (its c') (S i)) as [it1|] eqn:E2; [eauto|].
          apply nth_error_None in E2. lia.
      + rewrite nth_error_app2 in Hi by easy. destruct (i - length (si s)) as [|m] eqn:Em; [|now destruct m]. cbn in Hi. injection Hi as <-.
        exists it. replace (S i) with (length (its c)) by lia. split; [easy|].
        rewrite <- Hcc. now apply Rit_pos.
  Qed.
  Lemma Rel_firstn (c : core) s i : Rel c (s_new s i) -> Rel (set_its c (firstn (S (length (si s))) (its c))) s.
  Proof.
    intros [H1 H2 H3 H4]. cbn [sm si s_new] in *. rewrite app_length in H3. cbn in H3. constructor.
    - apply RI_set_its; [easy|]. destruct (its c); easy.
    - easy.
    - cbn [its set_its]. rewrite firstn_length. lia.
    - intros j a Hj. assert (L : j < length (si s)) by (apply nth_error_Some; congruence).
      destruct (H4 j a) as (it & X1 & X2); [now rewrite nth_error_app1|]. exists it. split; [|easy].
      cbn [its set_its]. rewrite <- (firstn_skipn (S (length (si s))) (its c)) in X1. rewrite nth_error_app1 in X1; [easy|].
      rewrite firstn_length. lia.
  Qed.

  Lemma erase_Rel (c : core) s k : Rel c s -> cmp kmax k = false ->
    exists c', erase cmp keqb kmax lmax nmax c k = Some (c', has (sm s) k) /\ Rel c' (s_remove (same cmp k) s).
  Proof.
    intros [H1 H2 H3 H4] Hk. pose proof (RI_SS c H1) as HS. rewrite H2 in HS.
    destruct (erase_ok cmp keqb kmax lmax nmax Hcmp Hkeq Hlmax Hnmax c k H1 Hk) as (c' & fl & E1 & HR' & [I1 I2 I3 I4 I5]).
    fold (cc c) in I2, I3, I4. rewrite H2 in I2, I3, I4. exists c'. rewrite <- I2. split; [easy|].
    assert (Hcc : cc c' = if has (sm s) k then lrem (sm s) (lower (sm s) k) else sm s) by (unfold cc; rewrite I3, I2; easy).
    constructor; auto.
    - cbn. now rewrite remove_pos.
    - cbn. now rewrite map_length, I5.
    - cbn [si s_remove]. intros i a Hi. rewrite nth_error_map in Hi. destruct (nth_error (si s) i) as [a0|] eqn:Ea; [|easy]. cbn in Hi. injection Hi as Hi.
      destruct (H4 i a0 Ea) as (it0 & X1 & X2).
      assert (Bd : exists it, nth_error (its c') (S i) = Some it).
      { assert (S i < length (its c')) by (rewrite I5; apply nth_error_Some; congruence).
        destruct (nth_error (its c') (S i)) as [it1|] eqn:E2; [eauto|]. apply nth_error_None in E2. lia. }
      destruct a0 as [k0| |]; cbn in X2.
      + destruct (same cmp k k0) eqn:Es; subst a; [destruct Bd as [it Bd]; exists it; easy|].
        destruct X2 as (n & v & Y1 & Y2). rewrite H2 in Y1.
        assert (Hf : exists n', era_f fl (lower (sm s) k) n = Some n' /\ nth_error (cc c') n' = Some (k0, v)).
        { rewrite Hcc, I2. destruct (has (sm s) k) eqn:Eh; [|exists n; easy].
          assert (Hlt := has_lt cmp _ _ Eh).
          destruct (era_f true (lower (sm s) k) n) as [n'|] eqn:Ef; [exists n'; split; [easy|]; now rewrite (lrem_shift _ _ n)|].
          exfalso. unfold era_f in Ef. destruct (n <? lower (sm s) k); [easy|]. destruct (Nat.eqb_spec n (lower (sm s) k)) as [->|]; [|easy].
          unfold BtreeLeaf.has in Eh. rewrite Y1 in Eh. cbn [fst] in Eh. apply eqv_spec in Eh as [Z1 Z2].
          unfold same in Es. rewrite Z1, Z2 in Es. easy. }
        destruct Hf as (n' & F1 & F2). destruct (I4 _ _ _ _ X1 Y2 F1) as (it1 & Z1 & Z2). exists it1. split; [easy|]. cbn. eauto.
      + subst a. rewrite H2 in X2.
        assert (Hf : era_f fl (lower (sm s) k) (length (sm s)) = Some (length (cc c'))).
        { rewrite Hcc, I2. unfold era_f. destruct (has (sm s) k) eqn:Eh; [|easy]. assert (Hlt := has_lt cmp _ _ Eh). rewrite lrem_len by easy.
          destruct (Nat.ltb_spec (length (sm s)) (lower (sm s) k)); [lia|]. destruct (Nat.eqb_spec (length (sm s)) (lower (sm s) k)); [lia|easy]. }
        destruct (I4 _ _ _ _ X1 X2 Hf) as (it1 & Z1 & Z2). exists it1. easy.
      + subst a. destruct Bd as [it Bd]; exists it; easy.
  Qed.

  Lemma erase_it_Rel (c : core) s it n k v : Rel c s -> pts (cv c) it n -> nth_error (cc c) n = Some (k, v) ->
    exists c', erase_it cmp keqb kmax lmax nmax c it = Some c' /\ Rel c' (s_remove (same cmp k) s).
  Proof.
    intros HR Hp Hn. assert (H1 := R_inv _ _ HR). pose proof (RI_SS c H1) as HS.
    assert (Hlt : n < length (cc c)) by (apply nth_error_Some; congruence).
    destruct (end_ok cmp kmax lmax nmax c H1) as (e & E1 & E2). unfold erase_it. rewrite E1.
    rewrite (it_eqb_ok cmp kmax lmax nmax c _ _ _ _ H1 Hp E2). destruct (Nat.eqb_spec n (length (cc c))); [lia|].
    rewrite (deref_ok cmp kmax lmax nmax Hlmax Hnmax c it n H1 Hp Hlt), Hn. cbn [fst].
    destruct (erase_Rel c s k HR) as (c' & E3 & HR').
    { apply (RI_key c (k, v) H1). eapply nth_error_In; eassumption. }
    rewrite E3. cbn [fst snd]. rewrite <- (R_sm _ _ HR). destruct (nth_pos (cc c) n k v HS Hn) as [-> _]. eauto.
  Qed.

  Definition dropl (l : list E) (a : @sit K) : @sit K :=
    match a with At k => if existsb (fun e => same cmp (fst e) k) l then Bad else a | _ => a end.
  Lemma remove_first (x : E) (b : list E) : (forall e, In e b -> cmp (fst x) (fst e) = true) ->
    (match s_first b with At k => if same cmp (fst x) k then Bad else s_first b | _ => s_first b end) = s_first b.
  Proof. intros H. destruct b as [|e b]; [easy|]. cbn. unfold same. rewrite (H e (or_introl eq_refl)). easy. Qed.

  Lemma erase_loop_Rel i (r : list E) : forall fuel (c : core) s (a b : list E), Rel c s -> sm s = a ++ r ++ b -> length (si s) = i + 2 ->
    nth_error (si s) i = Some (posit (sm s) (length a)) -> nth_error (si s) (S i) = Some (posit (sm s) (length a + length r)) ->
    length r <= fuel ->
    exists c' s', erase_loop cmp keqb kmax lmax nmax fuel c (S i) = Some c' /\ Rel c' s' /\ sm s' = a ++ b /\ length (si s') = i + 2
      /\ firstn i (si s') = map (dropl r) (firstn i (si s)).
  Proof.
    induction r as [|x r IH]; intros fuel c s a b HR Em Hl Ha Hb Hf.
    - destruct (R_it _ _ HR _ _ Ha) as (ia & A1 & A2). destruct (R_it _ _ HR _ _ Hb) as (ib & B1 & B2).
      assert (H1 := R_inv _ _ HR). pose proof (RI_SS c H1) as HS. rewrite <- (R_sm _ _ HR) in *.
      destruct (Rit_inv c _ ia HS A2) as (na & P1 & P2 & P3); [unfold posit; destruct (nth_error (cc c) (length a)); easy|].
      destruct (Rit_inv c _ ib HS B2) as (nb & Q1 & Q2 & Q3); [unfold posit; destruct (nth_error (cc c) (length a + length (@nil E))); easy|].
      cbn [length] in *. rewrite Nat.add_0_r in *.
      assert (PI : forall n m, n <= length (cc c) -> m <= length (cc c) -> posit (cc c) n = posit (cc c) m -> n = m).
      { intros n m L1 L2 X. unfold posit in X. destruct (nth_error (cc c) n) as [y|] eqn:E1, (nth_error (cc c) m) as [z|] eqn:E2; try easy.
        - injection X as X. pose proof (nth_cmp _ _ _ _ _ HS E1 E2) as Y1. pose proof (nth_cmp _ _ _ _ _ HS E2 E1) as Y2.
          rewrite X, (cmp_irr _ Hcmp) in Y1. rewrite X, (cmp_irr _ Hcmp) in Y2. symmetry in Y1, Y2. apply Nat.ltb_ge in Y1, Y2. lia.
        - apply nth_error_None in E1, E2. lia. }
      assert (na = nb) by (apply PI; auto; congruence). subst nb.
      exists c, s. split; [|split; [exact HR|split; [|split; [exact Hl|]]]].
      + destruct fuel; cbn [erase_loop]; rewrite A1, B1, (it_eqb_ok cmp kmax lmax nmax c _ _ _ _ H1 P1 Q1), Nat.eqb_refl; easy.
      + now rewrite <- (R_sm _ _ HR).
      + rewrite <- (map_id (firstn i (si s))) at 1. apply map_ext. now intros [].
    - destruct fuel as [|f]; [cbn in Hf; lia|].
      destruct (R_it _ _ HR _ _ Ha) as (ia & A1 & A2). destruct (R_it _ _ HR _ _ Hb) as (ib & B1 & B2).
      assert (H1 := R_inv _ _ HR). pose proof (RI_SS c H1) as HS. rewrite (R_sm _ _ HR) in HS.
      assert (Hx : nth_error (sm s) (length a) = Some x) by (rewrite Em; apply nth_error_mid).
      assert (HxS : forall e, In e (r ++ b) -> cmp (fst x) (fst e) = true).
      { rewrite Em in HS. apply SS_app in HS as (_ & HS & _). cbn in HS. apply SS_cons in HS as [HS _]. exact HS. }
      assert (HrS : forall e, In e r -> cmp (fst x) (fst e) = true) by (intros; apply HxS; rewrite in_app_iff; auto).
      assert (HbS : forall e, In e b -> cmp (fst x) (fst e) = true) by (intros; apply HxS; rewrite in_app_iff; auto).
      assert (Pa : pts (cv c) ia (length a)).
      { unfold posit in A2. rewrite Hx in A2. destruct x as [kx vx]. cbn in A2. destruct A2 as (n & v & X1 & X2). rewrite (R_sm _ _ HR) in X1.
        destruct (nth_pos _ _ _ _ HS X1) as (_ & L1 & _). destruct (nth_pos _ _ _ _ HS Hx) as (_ & L2 & _). congruence. }
      assert (Pb : pts (cv c) ib (length a + S (length r))).
      { assert (Eb : posit (sm s) (length a + S (length r)) = s_first b).
        { rewrite Em. cbn [app]. replace (a ++ x :: r ++ b) with ((a ++ x :: r) ++ b) by (rewrite <- app_assoc; easy).
          replace (length a + S (length r)) with (length (a ++ x :: r)) by (rewrite app_length; easy). apply posit_app. }
        cbn [length] in B2. unfold posit in B2. destruct (nth_error (sm s) (length a + S (length r))) as [[ky vy]|] eqn:Ey.
        - cbn in B2. destruct B2 as (n & v & X1 & X2). rewrite (R_sm _ _ HR) in X1.
          destruct (nth_pos _ _ _ _ HS X1) as (_ & L1 & _). destruct (nth_pos _ _ _ _ HS Ey) as (_ & L2 & _). congruence.
        - cbn in B2. apply nth_error_None in Ey. rewrite (R_sm _ _ HR) in B2.
          rewrite Em, !app_length in Ey. cbn in Ey.
          assert (Z : length a + S (length r) = length (sm s)) by (rewrite Em, !app_length; cbn; lia). rewrite Z. exact B2. }
      cbn [erase_loop]. rewrite A1, B1, (it_eqb_ok cmp kmax lmax nmax c _ _ _ _ H1 Pa Pb).
      destruct (Nat.eqb_spec (length a) (length a + S (length r))); [lia|].
      assert (Hlt : length a < length (cc c)) by (rewrite (R_sm _ _ HR), Em, !app_length; cbn; lia).
      destruct (incr_ok cmp kmax lmax nmax Hlmax Hnmax c ia (length a) H1 Pa Hlt) as (ia' & E1 & Pa'). rewrite E1.
      assert (HR1 := Rel_set c s i ia' (S (length a)) HR ltac:(lia) Pa').
      set (c1 := set_its c (lset (its c) (S i) ia')) in *. set (s1 := s_put_it s i (posit (sm s) (S (length a)))) in *.
      destruct x as [kx vx].
      destruct (erase_it_Rel c1 s1 ia (length a) kx vx HR1 Pa) as (c2 & E2 & HR2).
      { unfold c1. unfold cc. cbn [lv root set_its]. fold (cc c). rewrite (R_sm _ _ HR). exact Hx. }
      rewrite E2. destruct (nth_pos _ _ _ _ HS Hx) as (Nh & Nl & _).
      assert (Em2 : sm (s_remove (same cmp kx) s1) = a ++ r ++ b).
      { cbn [sm s_remove s1 s_put_it]. unfold s1. cbn [sm s_put_it]. rewrite (remove_pos _ _ HS), Nh, Nl, Em. cbn [app]. apply lrem_mid. }
      assert (Hsi : forall j, nth_error (si (s_remove (same cmp kx) s1)) j
        = option_map (fun i0 => match i0 with At k => if same cmp kx k then Bad else i0 | _ => i0 end)
            (if j =? i then Some (posit (sm s) (S (length a))) else nth_error (si s) j)).
      { intros j. cbn [si s_remove]. rewrite nth_error_map. unfold s1. cbn [si s_put_it].
        fold (lset (si s) i (posit (sm s) (S (length a)))). rewrite lset_nth by lia. easy. }
      destruct (IH f c2 (s_remove (same cmp kx) s1) a b HR2 Em2) as (c' & s' & F1 & F2 & F3 & F4 & F5).
      { cbn [si s_remove]. rewrite map_length. unfold s1. cbn [si s_put_it]. fold (lset (si s) i (posit (sm s) (S (length a)))). rewrite lset_length; lia. }
      { rewrite Hsi, Nat.eqb_refl, Em2, posit_app. cbn [option_map]. f_equal. rewrite Em.
        replace (a ++ ((kx, vx) :: r) ++ b) with ((a ++ [(kx, vx)]) ++ (r ++ b)) by (rewrite <- app_assoc; easy).
        replace (S (length a)) with (length (a ++ [(kx, vx)])) by (rewrite app_length; cbn; lia). rewrite posit_app.
        apply (remove_first (kx, vx)). easy. }
      { rewrite Hsi. destruct (Nat.eqb_spec (S i) i); [lia|]. rewrite Hb, Em2. cbn [option_map]. f_equal.
        assert (X1 : posit (sm s) (length a + length ((kx, vx) :: r)) = s_first b).
        { rewrite Em. replace (a ++ ((kx, vx) :: r) ++ b) with ((a ++ (kx, vx) :: r) ++ b) by (rewrite <- app_assoc; easy).
          rewrite <- app_length. apply posit_app. }
        rewrite X1. rewrite app_assoc, <- app_length, posit_app. apply (remove_first (kx, vx)). easy. }
      { cbn in Hf. lia. }
      exists c', s'. split; [easy|]. split; [exact F2|]. split; [exact F3|]. split; [exact F4|]. rewrite F5.
      cbn [si s_remove]. rewrite firstn_map. rewrite map_map. unfold s1. cbn [si s_put_it].
      rewrite firstn_app, firstn_firstn, Nat.min_id, firstn_length, Nat.min_l by lia. rewrite Nat.sub_diag. cbn [firstn]. rewrite app_nil_r.
      apply map_ext. intros [k| |]; try easy. cbn [dropl existsb fst]. destruct (same cmp kx k) eqn:Es; cbn; easy.
  Qed.

  Lemma clear_Rel (c : core) s : Rel c s -> exists c', clear kmax alloc c = Some c' /\ Rel c' (s_clear s) /\ length (its c') = length (its c).
  Proof.
    intros [H1 H2 H3 H4]. destruct (clear_ok cmp kmax lmax nmax alloc Hlmax Hnmax c H1) as (c' & E1 & HR & E2 & E3).
    exists c'. split; [easy|]. split; [|easy]. constructor; auto.
    - cbn. now rewrite E3, map_length.
    - cbn [si s_clear]. intros i a Hi. rewrite nth_error_map in Hi. destruct (nth_error (si s) i) eqn:Ea; [|easy]. injection Hi as <-.
      assert (i < length (si s)) by (apply nth_error_Some; congruence).
      destruct (nth_error (its c') (S i)) as [it1|] eqn:E4; [exists it1; easy|]. apply nth_error_None in E4. lia.
  Qed.

  Lemma Rel_its (c : core) s l : Rel c s -> l = its c -> Rel (set_its c l) s.
  Proof. intros H ->. destruct c. exact H. Qed.

  Lemma posit_inj (m : list E) i j : SS m -> i <= length m -> j <= length m -> posit m i = posit m j -> i = j.
  Proof.
    intros HS L1 L2 X. unfold posit in X. destruct (nth_error m i) as [y|] eqn:E1, (nth_error m j) as [z|] eqn:E2; try easy.
    - injection X as X. pose proof (nth_cmp _ _ _ _ _ HS E1 E2) as Y1. pose proof (nth_cmp _ _ _ _ _ HS E2 E1) as Y2.
      rewrite X, (cmp_irr _ Hcmp) in Y1. rewrite X, (cmp_irr _ Hcmp) in Y2. symmetry in Y1, Y2. apply Nat.ltb_ge in Y1, Y2. lia.
    - apply nth_error_None in E1, E2. lia.
  Qed.

  Lemma range_pos (m : list E) na nb q : SS m -> na <= length m -> nb <= length m -> s_range cmp (posit m na) (posit m nb) = Some q ->
    na <= nb /\ (forall n e, nth_error m n = Some e -> q (fst e) = (na <=? n) && (n <? nb))
    /\ s_all cmp m (posit m na) (posit m nb) = (na =? 0) && (nb =? length m).
  Proof.
    intros HS La Lb. unfold s_range, posit. destruct (nth_error m na) as [ea|] eqn:Ea, (nth_error m nb) as [eb|] eqn:Eb; try easy.
    - rewrite (nth_cmp _ _ _ _ _ HS Eb Ea). destruct (Nat.ltb_spec nb na); [easy|]. intros [= <-]. split; [easy|]. split.
      + intros n e He. rewrite (nth_cmp _ _ _ _ _ HS He Ea), (nth_cmp _ _ _ _ _ HS He Eb). now rewrite Nat.leb_antisym.
      + cbn. assert (nb < length m) by (apply nth_error_Some; congruence). destruct (Nat.eqb_spec nb (length m)); [lia|]. now rewrite andb_false_r.
    - intros [= <-]. apply nth_error_None in Eb. assert (nb = length m) by lia. subst nb.
      assert (na < length m) by (apply nth_error_Some; congruence). split; [lia|]. split.
      + intros n e He. rewrite (nth_cmp _ _ _ _ _ HS He Ea). assert (n < length m) by (apply nth_error_Some; congruence).
        destruct (Nat.ltb_spec n (length m)); [|lia]. rewrite andb_true_r. now rewrite Nat.leb_antisym.
      + cbn. rewrite Nat.eqb_refl, andb_true_r. destruct (Nat.eqb_spec na 0) as [->|N].
        * destruct (existsb _ m) eqn:Ee; [|easy]. apply existsb_exists in Ee as (e & X1 & X2). apply In_nth_error in X1 as (n & X1).
          rewrite (nth_cmp _ _ _ _ _ HS X1 Ea) in X2. easy.
        * assert (X : existsb (fun e => cmp (fst e) (fst ea)) m = true).
          { destruct (nth_error m 0) as [e|] eqn:E0; [|apply nth_error_None in E0; lia]. apply existsb_exists. exists e.
            split; [eapply nth_error_In; eassumption|]. rewrite (nth_cmp _ _ _ _ _ HS E0 Ea). apply Nat.ltb_lt. lia. }
          now rewrite X.
    - intros [= <-]. apply nth_error_None in Ea, Eb. assert (na = length m) by lia. assert (nb = length m) by lia. subst na nb.
      split; [lia|]. split.
      + intros n e He. assert (n < length m) by (apply nth_error_Some; congruence). destruct (Nat.leb_spec (length m) n); [lia|easy].
      + cbn. rewrite Nat.eqb_refl, andb_true_r. destruct m; easy.
  Qed.

  Lemma user_pos (c : core) s i a : Rel c s -> nth_error (si s) i = Some a -> a <> Bad ->
    exists it n, user_it c i = Some it /\ pts (cv c) it n /\ a = posit (sm s) n /\ n <= length (sm s).
  Proof.
    intros HR Hi N. destruct (R_it _ _ HR _ _ Hi) as (it & X1 & X2).
    destruct (Rit_inv c a it (RI_SS c (R_inv _ _ HR)) X2 N) as (n & P1 & P2 & P3). rewrite (R_sm _ _ HR) in *.
    exists it, n. easy.
  Qed.

  Lemma erase_range_Rel (c : core) s i j a b q : Rel c s -> nth_error (si s) i = Some a -> nth_error (si s) j = Some b -> s_range cmp a b = Some q ->
    exists ia ib c', user_it c i = Some ia /\ user_it c j = Some ib
      /\ erase_range cmp keqb kmax lmax nmax alloc c ia ib = Some c'
      /\ Rel c' (if s_all cmp (sm s) a b then s_clear s else s_remove q s).
  Proof.
    intros HR Hi Hj Hq.
    destruct (user_pos c s i a HR Hi) as (ia & na & I1 & I2 & -> & I4); [intros ->; easy|].
    destruct (user_pos c s j b HR Hj) as (ib & nb & J1 & J2 & -> & J4); [intros ->; now destruct (posit (sm s) na)|].
    exists ia, ib. assert (H1 := R_inv _ _ HR). pose proof (RI_SS c H1) as HS. rewrite (R_sm _ _ HR) in HS.
    destruct (range_pos (sm s) na nb q HS I4 J4 Hq) as (Hle & HQ & HA). rewrite HA.
    destruct (end_ok cmp kmax lmax nmax c H1) as (e & E1 & E2).
    destruct (begin_ok cmp kmax lmax nmax Hlmax Hnmax c H1) as (f & F1 & F2).
    unfold erase_range. rewrite E1, F1.
    rewrite (it_eqb_ok cmp kmax lmax nmax c _ _ _ _ H1 I2 F2), (it_eqb_ok cmp kmax lmax nmax c _ _ _ _ H1 J2 E2).
    rewrite (R_sm _ _ HR). cbv zeta. destruct ((na =? 0) && (nb =? length (sm s))) eqn:Ec.
    - destruct (clear_Rel c s HR) as (c' & X1 & X2 & X3). rewrite X1. eexists. split; [easy|]. split; [easy|]. split; [reflexivity|].
      apply Rel_its; [easy|]. rewrite <- X3. apply firstn_all.
    - assert (HR2 := Rel_new _ _ ib nb (Rel_new c s ia na HR I2) J2). cbn [sm s_new] in HR2.
      assert (Ec2 : new_it (new_it c ia) ib = set_its c (its c ++ [ia; ib])).
      { unfold new_it, set_its. cbn [lv its root ht sz]. now rewrite <- app_assoc. }
      rewrite Ec2 in HR2. set (s2 := s_new (s_new s (posit (sm s) na)) (posit (sm s) nb)) in *.
      destruct (split_at (sm s) nb J4) as (m1 & b2 & Em & Lb & _). destruct (split_at m1 na ltac:(lia)) as (a2 & r2 & Em1 & La & _).
      rewrite Em1, <- app_assoc in Em. rewrite Em1, app_length in Lb.
      destruct (erase_loop_Rel (length (si s)) r2 (S (sz c)) _ s2 a2 b2 HR2 Em) as (c' & s' & X1 & X2 & X3 & X4 & X5).
      + cbn. rewrite !app_length. cbn. lia.
      + unfold s2. cbn [si s_new sm]. rewrite <- app_assoc. rewrite La. apply nth_error_mid.
      + unfold s2. cbn [si s_new sm]. rewrite nth_error_app2 by (rewrite app_length; cbn; lia). rewrite app_length. cbn [length].
        replace (S (length (si s)) - (length (si s) + 1)) with 0 by lia. cbn [nth_error]. now rewrite Lb.
      + rewrite (r_sz _ _ _ _ _ H1), (R_sm _ _ HR), Em, !app_length. lia.
      + rewrite (R_len _ _ HR). rewrite X1. eexists. split; [easy|]. split; [easy|]. split; [reflexivity|].
        assert (Eq : firstn (length (si s)) (si s') = si (s_remove q s)).
        { rewrite X5. unfold s2. cbn [si s_new s_remove].
          rewrite <- app_assoc, firstn_app, Nat.sub_diag, firstn_all, firstn_O, app_nil_r.
          apply map_ext_in. intros z Hz. destruct z as [k| |]; try easy. apply In_nth_error in Hz as (nz & Hz).
          destruct (R_it _ _ HR _ _ Hz) as (it & Y1 & n & v & Y2 & Y3). rewrite (R_sm _ _ HR) in Y2.
          cbn [dropl]. pose proof (HQ n _ Y2) as HQn. cbn [fst] in HQn. rewrite HQn.
          assert (Ex : existsb (fun e => same cmp (fst e) k) r2 = (na <=? n) && (n <? nb)).
          { destruct ((na <=? n) && (n <? nb)) eqn:Ey.
            - apply andb_true_iff in Ey as [Ey1%Nat.leb_le Ey2%Nat.ltb_lt]. apply existsb_exists. exists (k, v). split.
              + rewrite Em, nth_error_app2, nth_error_app1 in Y2 by lia. eapply nth_error_In; eassumption.
              + unfold same. cbn. now rewrite (cmp_irr _ Hcmp).
            - destruct (existsb _ r2) eqn:Ez; [|easy]. apply existsb_exists in Ez as (z & Z1 & Z2). apply In_nth_error in Z1 as (p & Z1).
              assert (p < length r2) by (apply nth_error_Some; congruence).
              assert (Z3 : nth_error (sm s) (na + p) = Some z).
              { rewrite Em, nth_error_app2, nth_error_app1 by lia. now replace (na + p - length a2) with p by lia. }
              unfold same in Z2. apply andb_true_iff in Z2 as [Z4%negb_true_iff Z5%negb_true_iff].
              change k with (fst (k, v)) in Z4, Z5. rewrite (nth_cmp _ _ _ _ _ HS Z3 Y2) in Z4. rewrite (nth_cmp _ _ _ _ _ HS Y2 Z3) in Z5.
              apply Nat.ltb_ge in Z4, Z5. apply andb_false_iff in Ey as [Ey%Nat.leb_gt|Ey%Nat.ltb_ge]; lia. }
          rewrite Ex. destruct ((na <=? n) && (n <? nb)); easy. }
        assert (Em3 : sm s' = sm (s_remove q s)).
        { rewrite X3. cbn [sm s_remove]. rewrite (filter_range (sm s) q na nb ltac:(lia) HQ). rewrite Em at 1 2.
          rewrite <- La at 1. rewrite firstn_app, Nat.sub_diag, firstn_all, firstn_O, app_nil_r.
          rewrite app_assoc, <- Lb, <- app_length, skipn_app, Nat.sub_diag, skipn_all. easy. }
        assert (HL : length (si (s_remove q s)) = length (si s)) by (cbn; apply map_length).
        destruct X2 as [Y1 Y2 Y3 Y4]. constructor.
        * apply RI_set_its; [easy|]. destruct (its c'); easy.
        * rewrite <- Em3. exact Y2.
        * cbn [its set_its]. rewrite firstn_length, HL. lia.
        * intros n z Hz. rewrite <- Eq in Hz. assert (n < length (si s)) by (rewrite <- HL, <- Eq; apply nth_error_Some; congruence).
          destruct (Y4 n z) as (it & Z1 & Z2).
          { rewrite <- (firstn_skipn (length (si s)) (si s')), nth_error_app1; [easy|]. rewrite Eq, HL. easy. }
          exists it. split; [|easy]. cbn [its set_its]. rewrite <- (firstn_skipn (S (length (si s))) (its c')), nth_error_app1 in Z1; [easy|].
          rewrite firstn_length. lia.
  Qed.

  Lemma assign_Rel (c : core) s it n k v w : Rel c s -> pts (cv c) it n -> nth_error (cc c) n = Some (k, v) ->
    exists c', assign c it w = Some c' /\ its c' = its c /\ Rel c' {| sm := s_set cmp (sm s) k w; si := si s |}.
  Proof.
    intros [H1 H2 H3 H4] Hp Hn. pose proof (RI_SS c H1) as HS.
    destruct (assign_ok cmp kmax lmax nmax Hlmax Hnmax c it n (k, v) w H1 Hp Hn) as (c' & E1 & HR & E2 & E3 & E4). cbn [fst] in E2.
    exists c'. split; [easy|]. split; [easy|]. destruct (nth_pos (cc c) n k v HS Hn) as (_ & _ & _ & _ & _ & Hset).
    assert (Hlt : n < length (cc c)) by (apply nth_error_Some; congruence).
    constructor; auto.
    - cbn. rewrite <- H2, Hset. exact E2.
    - cbn. rewrite E3. exact H3.
    - cbn [si]. intros i a Hi. destruct (H4 i a Hi) as (it0 & X1 & X2). exists it0. rewrite E3. split; [easy|].
      destruct a as [k0| |]; cbn in *; [| |easy].
      + destruct X2 as (n0 & v0 & Y1 & Y2). rewrite E2. destruct (Nat.eqb_spec n0 n) as [->|N].
        * rewrite Hn in Y1. injection Y1 as -> ->. exists n, w. rewrite lset_nth, Nat.eqb_refl by easy. split; auto.
        * exists n0, v0. rewrite lset_nth by easy. destruct (Nat.eqb_spec n0 n); [easy|]. split; auto.
      + rewrite E2, lset_length by easy. auto.
  Qed.

  Lemma insert_all_Rel l : forall (c : core) s s', Rel c s -> s_add_all cmp kmax cap s l = Some s' ->
    exists c', insert_all cmp kmax lmax nmax ncap alloc c l = Some c' /\ Rel c' s'.
  Proof.
    induction l as [|x l IH]; intros c s s' HR Ha; cbn [s_add_all] in Ha.
    - injection Ha as <-. exists c. easy.
    - destruct (s_add cmp kmax cap s x) as [s1|] eqn:E1; [|easy].
      destruct (insert_Rel c s x s1 HR E1) as (c1 & it & F1 & F2 & F3 & F4 & F5).
      cbn [insert_all]. rewrite F1. cbn [fst].
      assert (Hs1 : si s1 = si s). { unfold s_add in E1. cbv zeta in E1. destruct (_ && _) in E1; [|easy]. injection E1 as <-. easy. }
      apply Rel_firstn in F5. rewrite Hs1, <- (R_len _ _ HR) in F5. apply (IH _ _ _ F5 Ha).
  Qed.

  Lemma step_Rel (c : core) s o s' r : Rel c s -> sstep cmp kmax vdef cap s o = Some (s', r) ->
    exists c', exec cmp keqb kmax vdef lmax nmax ncap alloc c o = Some (c', r) /\ Rel c' s'.
  Proof.
    intros HR Hs. assert (H1 := R_inv _ _ HR). pose proof (RI_SS c H1) as HS. assert (HS0 := HS). rewrite (R_sm _ _ HR) in HS.
    assert (Esm := R_sm _ _ HR).
    destruct o as [k v|k|k v|l|k|k|k| | |k|k|i|i|i|i v|i j|k|i|i j| |]; cbn [sstep exec] in *.
    - (* insert *)
      destruct (s_add cmp kmax cap s (k, v)) as [s1|] eqn:E1; [|easy]. injection Hs as <- <-.
      destruct (insert_Rel c s (k, v) s1 HR E1) as (c1 & it & F1 & F2 & F3 & F4 & F5). rewrite F1. cbn [fst snd] in *. exists c1. split; [easy|].
      assert (Es1 : sm s1 = s_put cmp (sm s) (k, v)). { unfold s_add in E1. cbv zeta in E1. destruct (_ && _) in E1; [|easy]. injection E1 as <-. easy. }
      assert (HS1 : SS (sm s1)). { rewrite <- (R_sm _ _ F5 : cc c1 = sm s1). apply RI_SS. apply (R_inv _ _ F5). }
      rewrite find_pos by easy. rewrite put_pos in Es1 by easy. cbn [fst] in Es1.
      assert (X : has (sm s1) k = true /\ lower (sm s1) k = lower (sm s) k).
      { destruct (has (sm s) k) eqn:Eh; [now rewrite Es1|]. pose proof (lower_le cmp (sm s) k) as LL.
        assert (Hn : nth_error (sm s1) (lower (sm s) k) = Some (k, v)).
        { rewrite Es1. destruct (split_at (sm s) (lower (sm s) k) LL) as (a & b & -> & La & _). rewrite <- La, lins_mid. apply nth_error_mid. }
        destruct (nth_pos _ _ _ _ HS1 Hn) as (X1 & X2 & _). easy. }
      destruct X as [-> ->]. exact F5.
    - (* operator[] *)
      destruct (s_add cmp kmax cap s (k, vdef)) as [s1|] eqn:E1; [|easy].
      destruct (insert_Rel c s (k, vdef) s1 HR E1) as (c1 & it & F1 & F2 & F3 & F4 & F5). rewrite F1. cbn [fst snd] in *. rewrite F3.
      assert (Es1 : sm s1 = s_put cmp (sm s) (k, vdef) /\ si s1 = si s). { unfold s_add in E1. cbv zeta in E1. destruct (_ && _) in E1; [|easy]. injection E1 as <-. easy. }
      destruct Es1 as [Es1 Es2].
      assert (HS1 : SS (sm s1)). { rewrite <- (R_sm _ _ F5 : cc c1 = sm s1). apply RI_SS. apply (R_inv _ _ F5). }
      assert (Hcc : cc c1 = sm s1) by exact (R_sm _ _ F5).
      destruct (s_get cmp (sm s1) (At k)) as [e|] eqn:Eg; [|easy]. injection Hs as <- <-.
      assert (Hn : nth_error (sm s1) (lower (sm s) k) = Some e).
      { unfold s_get in Eg. rewrite put_pos in Es1 by easy. cbn [fst] in Es1.
        destruct (cut (sm s1) k HS1) as (a & o & b & Em & Ho & _ & _ & _ & HL & _ & HH & _ & _ & _ & G3 & _). rewrite G3 in Eg.
        destruct Ho as [->|[y ->]]; [easy|]. injection Eg as ->.
        assert (lower (sm s1) k = lower (sm s) k).
        { destruct (has (sm s) k) eqn:Eh; [now rewrite Es1|]. pose proof (lower_le cmp (sm s) k) as LL.
          assert (Hn : nth_error (sm s1) (lower (sm s) k) = Some (k, vdef)).
          { rewrite Es1. destruct (split_at (sm s) (lower (sm s) k) LL) as (a' & b' & -> & La & _). rewrite <- La, lins_mid. apply nth_error_mid. }
          destruct (nth_pos _ _ _ _ HS1 Hn) as (X1 & X2 & _). easy. }
        rewrite <- H, HL, Em. apply nth_error_mid. }
      assert (Hd : deref c1 it = Some e).
      { rewrite (deref_ok cmp kmax lmax nmax Hlmax Hnmax c1 it _ (R_inv _ _ F5) F4); rewrite Hcc; [easy|apply nth_error_Some; congruence]. }
      rewrite Hd. eexists. split; [reflexivity|]. apply Rel_firstn in F5. now rewrite Es2, <- (R_len _ _ HR) in F5.
    - (* operator[] and assignment *)
      destruct (s_add cmp kmax cap s (k, vdef)) as [s1|] eqn:E1; [|easy]. injection Hs as <- <-.
      destruct (insert_Rel c s (k, vdef) s1 HR E1) as (c1 & it & F1 & F2 & F3 & F4 & F5). rewrite F1. cbn [fst snd] in *. rewrite F3.
      assert (Es1 : sm s1 = s_put cmp (sm s) (k, vdef) /\ si s1 = si s). { unfold s_add in E1. cbv zeta in E1. destruct (_ && _) in E1; [|easy]. injection E1 as <-. easy. }
      destruct Es1 as [Es1 Es2].
      assert (HS1 : SS (sm s1)). { rewrite <- (R_sm _ _ F5 : cc c1 = sm s1). apply RI_SS. apply (R_inv _ _ F5). }
      assert (Hcc : cc c1 = sm s1) by exact (R_sm _ _ F5).
      rewrite put_pos in Es1 by easy. cbn [fst] in Es1. pose proof (lower_le cmp (sm s) k) as LL.
      assert (Hn : exists k1 v1, nth_error (sm s1) (lower (sm s) k) = Some (k1, v1) /\ same cmp k1 k = true).
      { destruct (has (sm s) k) eqn:Eh.
        - unfold BtreeLeaf.has in Eh. rewrite Es1. destruct (nth_error (sm s) (lower (sm s) k)) as [[k1 v1]|]; [|easy].
          exists k1, v1. split; [easy|]. apply eqv_spec in Eh as [X1 X2]. cbn in X1, X2. unfold same. now rewrite X1, X2.
        - exists k, vdef. split; [|unfold same; now rewrite (cmp_irr _ Hcmp)].
          rewrite Es1. destruct (split_at (sm s) (lower (sm s) k) LL) as (a' & b' & -> & La & _). rewrite <- La, lins_mid. apply nth_error_mid. }
      destruct Hn as (k1 & v1 & Hn & Hk1).
      destruct (assign_Rel c1 _ it _ k1 v1 v F5 F4) as (c2 & X1 & X2 & X3); [now rewrite Hcc|]. rewrite X1.
      eexists. split; [reflexivity|].
      assert (Ek : s_set cmp (sm s1) k1 v = s_set cmp (sm s1) k v).
      { apply map_ext. intros e. assert (Y : same cmp (fst e) k1 = same cmp (fst e) k); [|now rewrite Y].
        unfold same in Hk1. apply andb_true_iff in Hk1 as [Y1%negb_true_iff Y2%negb_true_iff].
        assert (Z : forall z, cmp z k1 = cmp z k /\ cmp k1 z = cmp k z).
        { intros z. split.
          - destruct (cmp z k1) eqn:Z1; symmetry; [eapply cmp_lt_le; eassumption|]. destruct (cmp z k) eqn:Z2; [|easy].
            rewrite (cmp_lt_le _ Hcmp _ _ _ Z2 Y1) in Z1. easy.
          - destruct (cmp k1 z) eqn:Z1; symmetry; [eapply cmp_le_lt; eassumption|]. destruct (cmp k z) eqn:Z2; [|easy].
            rewrite (cmp_le_lt _ Hcmp _ _ _ Y2 Z2) in Z1. easy. }
        unfold same. destruct (Z (fst e)) as [-> ->]. easy. }
      cbn [sm si s_new] in X3. rewrite Ek in X3.
      pose proof (Rel_firstn c2 {| sm := s_set cmp (sm s1) k v; si := si s1 |} _ X3) as X4. cbn [si] in X4.
      rewrite Es2 in *. rewrite <- (R_len _ _ HR) in X4. exact X4.
    - (* insert a range *)
      destruct (s_add_all cmp kmax cap s l) as [s1|] eqn:E1; [|easy]. injection Hs as <- <-.
      destruct (insert_all_Rel l c s s1 HR E1) as (c1 & -> & F1). eauto.
    - (* find *)
      destruct (ok_key cmp kmax k) eqn:Ek; [|easy]. injection Hs as <- <-. apply negb_true_iff in Ek.
      destruct (find_ok cmp keqb kmax lmax nmax Hcmp Hkeq Hlmax Hnmax c k H1 Ek) as (it & -> & F). eexists. split; [reflexivity|].
      rewrite find_pos by easy. rewrite Esm in F. now apply Rel_new.
    - (* lower_bound *)
      destruct (ok_key cmp kmax k) eqn:Ek; [|easy]. injection Hs as <- <-. apply negb_true_iff in Ek.
      destruct (lower_bound_ok cmp kmax lmax nmax Hcmp Hlmax Hnmax c k H1 Ek) as (it & -> & F). eexists. split; [reflexivity|].
      rewrite lower_pos by easy. rewrite Esm in F. now apply Rel_new.
    - (* upper_bound *)
      destruct (cmp k kmax) eqn:Ek; [|easy]. injection Hs as <- <-.
      destruct (upper_bound_ok cmp kmax lmax nmax Hcmp Hlmax Hnmax c k H1 Ek) as (it & -> & F). eexists. split; [reflexivity|].
      rewrite upper_pos by easy. rewrite Esm in F. now apply Rel_new.
    - (* begin *)
      injection Hs as <- <-. destruct (begin_ok cmp kmax lmax nmax Hlmax Hnmax c H1) as (it & -> & F). eexists. split; [reflexivity|].
      apply (Rel_new c s it 0 HR) in F. pose proof (posit_app [] (sm s)) as X. cbn [app length] in X. now rewrite X in F.
    - (* end *)
      injection Hs as <- <-. destruct (end_ok cmp kmax lmax nmax c H1) as (it & -> & F). eexists. split; [reflexivity|].
      rewrite Esm in F. apply (Rel_new c s it _ HR) in F. unfold posit in F.
      assert (Y : nth_error (sm s) (length (sm s)) = None) by now apply nth_error_None. now rewrite Y in F.
    - (* equal_range *)
      destruct (ok_key cmp kmax k) eqn:Ek; [|easy]. injection Hs as <- <-. apply negb_true_iff in Ek.
      destruct (lower_bound_ok cmp kmax lmax nmax Hcmp Hlmax Hnmax c k H1 Ek) as (it & E1 & F).
      destruct (end_ok cmp kmax lmax nmax c H1) as (e & E2 & Fe). rewrite Esm in F, Fe.
      assert (X : exists u, equal_range cmp c k = Some (it, u) /\ pts (cv c) u (upper (sm s) k)).
      { unfold equal_range. rewrite E1, E2, (it_eqb_ok cmp kmax lmax nmax c _ _ _ _ H1 F Fe).
        destruct (cut (sm s) k HS) as (a & o & b & Em & Ho & HA & HO & HB & HL & HU & _). rewrite HL, HU in *.
        destruct (Nat.eqb_spec (length a) (length (sm s))) as [Z|Z].
        - exists it. split; [easy|]. rewrite Em, !app_length in Z. replace (length o) with 0 by lia. now rewrite Nat.add_0_r.
        - rewrite (deref_ok cmp kmax lmax nmax Hlmax Hnmax c it _ H1 F); rewrite Esm; [|rewrite Em, !app_length in *; lia].
          destruct Ho as [->|[y ->]].
          + destruct b as [|y b]; [exfalso; rewrite Em, app_nil_r in Z; easy|]. rewrite Em. cbn [app]. rewrite nth_error_mid.
            rewrite (HB y (or_introl eq_refl)). exists it. cbn [length]. now rewrite Nat.add_0_r.
          + rewrite Em. cbn [app]. rewrite nth_error_mid. pose proof (HO y (or_introl eq_refl)) as Hy. unfold same in Hy.
            apply andb_true_iff in Hy as [_ Hy%negb_true_iff]. rewrite Hy.
            destruct (incr_ok cmp kmax lmax nmax Hlmax Hnmax c it _ H1 F) as (u & -> & Fu).
            * rewrite Esm, Em, !app_length. cbn. lia.
            * exists u. cbn [length]. now rewrite Nat.add_1_r. }
      destruct X as (u & -> & Fu). eexists. split; [reflexivity|]. cbn [fst snd].
      rewrite lower_pos, upper_pos by easy.
      exact (Rel_new _ _ u _ (Rel_new c s it _ HR F) Fu).
    - (* count *)
      destruct (ok_key cmp kmax k) eqn:Ek; [|easy]. injection Hs as <- <-. apply negb_true_iff in Ek.
      destruct (find_ok cmp keqb kmax lmax nmax Hcmp Hkeq Hlmax Hnmax c k H1 Ek) as (it & -> & F).
      destruct (end_ok cmp kmax lmax nmax c H1) as (e & -> & Fe). rewrite (it_eqb_ok cmp kmax lmax nmax c _ _ _ _ H1 F Fe).
      rewrite count_pos, <- Esm by easy. exists c. split; [|easy]. do 3 f_equal. destruct (has (cc c) k) eqn:Eh; [|now rewrite Nat.eqb_refl].
      apply has_lt in Eh. destruct (Nat.eqb_spec (lower (cc c) k) (length (cc c))); [lia|easy].
    - (* ++ *)
      destruct (nth_error (si s) i) as [a|] eqn:Ei; [|easy]. destruct a as [k| |]; try easy. cbn [s_next] in Hs. injection Hs as <- <-.
      destruct (user_pos c s i _ HR Ei ltac:(easy)) as (it & n & U1 & U2 & U3 & U4). rewrite U1.
      unfold posit in U3. destruct (nth_error (sm s) n) as [[k' v']|] eqn:En; [|easy]. injection U3 as ->.
      destruct (incr_ok cmp kmax lmax nmax Hlmax Hnmax c it n H1 U2) as (it' & -> & F).
      { rewrite Esm. apply nth_error_Some. congruence. }
      eexists. split; [reflexivity|]. rewrite upper_pos by easy. destruct (nth_pos _ _ _ _ HS En) as (_ & _ & -> & _).
      apply Rel_set; auto. apply nth_error_Some. congruence.
    - (* -- *)
      destruct (nth_error (si s) i) as [a|] eqn:Ei; [|easy].
      assert (Na : a <> Bad) by (intros ->; easy).
      destruct (user_pos c s i _ HR Ei Na) as (it & n & U1 & U2 & U3 & U4). rewrite U1.
      assert (X : s_prev cmp (sm s) a = match n with 0 => None | S n' => Some (posit (sm s) n') end).
      { rewrite U3. unfold posit at 1. destruct (nth_error (sm s) n) as [[k' v']|] eqn:En; cbn [s_prev fst].
        - now destruct (nth_pos _ _ _ _ HS En) as (_ & _ & _ & _ & -> & _).
        - apply nth_error_None in En. assert (n = length (sm s)) by lia. subst n.
          destruct (sm s) as [|x l] using rev_ind; [easy|]. clear. rewrite app_length. cbn [length]. rewrite Nat.add_1_r.
          unfold s_last. rewrite rev_app_distr. cbn. now rewrite posit_app. }
      rewrite X in Hs. destruct n as [|n]; [easy|]. injection Hs as <- <-.
      destruct (decr_ok cmp kmax lmax nmax Hlmax Hnmax c it n H1 U2) as (it' & -> & F). eexists. split; [reflexivity|].
      apply Rel_set; auto. apply nth_error_Some. congruence.
    - (* dereference *)
      destruct (nth_error (si s) i) as [a|] eqn:Ei; [|easy]. destruct a as [k| |]; try easy.
      destruct (s_get cmp (sm s) (At k)) as [e|] eqn:Eg; [|easy]. injection Hs as <- <-.
      destruct (user_pos c s i _ HR Ei ltac:(easy)) as (it & n & U1 & U2 & U3 & U4). rewrite U1.
      unfold posit in U3. destruct (nth_error (sm s) n) as [[k' v']|] eqn:En; [|easy]. injection U3 as ->. cbn [fst] in Eg.
      destruct (nth_pos _ _ _ _ HS En) as (_ & _ & _ & Eg' & _). rewrite Eg' in Eg. injection Eg as <-.
      rewrite (deref_ok cmp kmax lmax nmax Hlmax Hnmax c it n H1 U2); rewrite Esm; [|apply nth_error_Some; congruence]. rewrite En. eauto.
    - (* assignment *)
      destruct (nth_error (si s) i) as [a|] eqn:Ei; [|easy]. destruct a as [k| |]; try easy. injection Hs as <- <-.
      destruct (user_pos c s i _ HR Ei ltac:(easy)) as (it & n & U1 & U2 & U3 & U4). rewrite U1.
      unfold posit in U3. destruct (nth_error (sm s) n) as [[k' v']|] eqn:En; [|easy]. injection U3 as ->. cbn [fst].
      destruct (assign_Rel c s it n k' v' v HR U2) as (c' & -> & _ & F); [now rewrite Esm|]. eauto.
    - (* == *)
      destruct (nth_error (si s) i) as [a|] eqn:Ei; [|easy]. destruct (nth_error (si s) j) as [b|] eqn:Ej; [|easy].
      destruct (s_eq cmp a b) as [q|] eqn:Eq; [|easy]. injection Hs as <- <-.
      destruct (user_pos c s i _ HR Ei) as (ia & n & U1 & U2 & U3 & U4); [intros ->; easy|].
      destruct (user_pos c s j _ HR Ej) as (ib & m & W1 & W2 & W3 & W4); [intros ->; now destruct a|].
      rewrite U1, W1. exists c. split; [|easy]. do 3 f_equal. rewrite (it_eqb_ok cmp kmax lmax nmax c _ _ _ _ H1 U2 W2).
      subst a b. unfold posit in Eq. destruct (nth_error (sm s) n) as [x|] eqn:En, (nth_error (sm s) m) as [y|] eqn:Em; cbn in Eq; injection Eq as <-.
      + unfold same. rewrite (nth_cmp _ _ _ _ _ HS En Em), (nth_cmp _ _ _ _ _ HS Em En).
        destruct (Nat.ltb_spec n m), (Nat.ltb_spec m n), (Nat.eqb_spec n m); cbn; lia || easy.
      + apply nth_error_None in Em. assert (n < length (sm s)) by (apply nth_error_Some; congruence). apply Nat.eqb_neq. lia.
      + apply nth_error_None in En. assert (m < length (sm s)) by (apply nth_error_Some; congruence). apply Nat.eqb_neq. lia.
      + apply nth_error_None in En, Em. apply Nat.eqb_eq. lia.
    - (* erase a key *)
      destruct (ok_key cmp kmax k) eqn:Ek; [|easy]. injection Hs as <- <-. apply negb_true_iff in Ek.
      destruct (erase_Rel c s k HR Ek) as (c' & -> & F). cbn [fst snd]. rewrite count_pos by easy. eauto.
    - (* erase an iterator *)
      destruct (nth_error (si s) i) as [a|] eqn:Ei; [|easy]. destruct a as [k| |]; try easy. injection Hs as <- <-.
      destruct (user_pos c s i _ HR Ei ltac:(easy)) as (it & n & U1 & U2 & U3 & U4). rewrite U1.
      unfold posit in U3. destruct (nth_error (sm s) n) as [[k' v']|] eqn:En; [|easy]. injection U3 as ->. cbn [fst].
      destruct (erase_it_Rel c s it n k' v' HR U2) as (c' & -> & F); [now rewrite Esm|]. eauto.
    - (* erase a range *)
      destruct (nth_error (si s) i) as [a|] eqn:Ei; [|easy]. destruct (nth_error (si s) j) as [b|] eqn:Ej; [|easy].
      destruct (s_range cmp a b) as [q|] eqn:Eq; [|easy]. injection Hs as <- <-.
      destruct (erase_range_Rel c s i j a b q HR Ei Ej Eq) as (ia & ib & c' & -> & -> & -> & F). eauto.
    - (* clear *)
      injection Hs as <- <-. destruct (clear_Rel c s HR) as (c' & -> & F & _). eauto.
    - (* size *)
      injection Hs as <- <-. exists c. rewrite (r_sz _ _ _ _ _ H1), Esm. easy.
  Qed.

  Lemma run_Rel os : forall (c : core) s s' rs, Rel c s -> srun cmp kmax vdef cap s os = Some (s', rs) ->
    exists c', run cmp keqb kmax vdef lmax nmax ncap alloc c os = Some (c', rs) /\ Rel c' s'.
  Proof.
    induction os as [|o os IH]; intros c s s' rs HR Hs; cbn [srun] in Hs.
    - injection Hs as <- <-. exists c. easy.
    - destruct (sstep cmp kmax vdef cap s o) as [[s1 r]|] eqn:E1; [|easy]. cbn [fst snd] in Hs.
      destruct (srun cmp kmax vdef cap s1 os) as [[s2 rs2]|] eqn:E2; [|easy]. injection Hs as <- <-.
      destruct (step_Rel c s o s1 r HR E1) as (c1 & F1 & F2). destruct (IH c1 s1 _ _ F2 E2) as (c2 & F3 & F4).
      exists c2. cbn [run]. rewrite F1. cbn [fst snd]. rewrite F3. easy.
  Qed.
  Lemma empty_Rel : Rel (empty kmax alloc) (@sempty K V).
  Proof.
    destruct (empty_ok cmp kmax lmax nmax alloc Hlmax Hnmax) as (H1 & H2 & H3). constructor; auto.
    intros i a Hi. now destruct i.
  Qed.
End Proofs.
