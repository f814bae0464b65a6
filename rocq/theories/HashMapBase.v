(** Lemmas on chains, the external part of a bucket, the reader and the writer
    of [HashMapModel]. *)
From Coq Require Import List Bool Arith NArith Lia Sorting.Sorted.
From Verif Require Import OrderLib HashMapModel HashMapSpec.
Import ListNotations.

Lemma lset_app {A} (l1 l2 : list A) x y : lset (l1 ++ x :: l2) (length l1) y = l1 ++ y :: l2.
Proof.
  unfold lset. rewrite firstn_app, Nat.sub_diag, firstn_all. cbn [firstn]. rewrite app_nil_r. f_equal. f_equal.
  rewrite skipn_app, skipn_all2 by lia. replace (S (length l1) - length l1) with 1 by lia. reflexivity.
Qed.
Lemma lins_app {A} (l1 l2 : list A) y : lins (l1 ++ l2) (length l1) y = l1 ++ y :: l2.
Proof.
  unfold lins. rewrite firstn_app, Nat.sub_diag, firstn_all. cbn [firstn]. rewrite app_nil_r. f_equal. f_equal.
  rewrite skipn_app, skipn_all2 by lia. rewrite Nat.sub_diag. reflexivity.
Qed.
Lemma lset_length {A} (l : list A) i x : i < length l -> length (lset l i x) = length l.
Proof. intro H. unfold lset. rewrite app_length, firstn_length. cbn [length]. rewrite skipn_length. lia. Qed.
Lemma nth_error_firstn' {A} (l : list A) n i : i < n -> nth_error (firstn n l) i = nth_error l i.
Proof.
  revert n l. induction i as [|i IH]; intros [|n] [|a l] H; try reflexivity; try lia. cbn. apply IH. lia.
Qed.
Lemma nth_error_skipn' {A} (l : list A) n i : nth_error (skipn n l) i = nth_error l (n + i).
Proof. revert n. induction l as [|a l IH]; intros [|n]; try reflexivity; [now destruct i|]. cbn. apply IH. Qed.
Lemma nth_lset {A} (l : list A) i j x : i < length l ->
  nth_error (lset l i x) j = if j =? i then Some x else nth_error l j.
Proof.
  intro H. unfold lset. destruct (Nat.eqb_spec j i) as [Q|Q].
  - subst. rewrite nth_error_app2 by (rewrite firstn_length; lia).
    rewrite firstn_length. replace (i - Nat.min i (length l)) with 0 by lia. reflexivity.
  - destruct (Nat.lt_ge_cases j i) as [Q1|Q1].
    + rewrite nth_error_app1 by (rewrite firstn_length; lia). apply nth_error_firstn'. exact Q1.
    + rewrite nth_error_app2 by (rewrite firstn_length; lia). rewrite firstn_length.
      replace (j - Nat.min i (length l)) with (S (j - S i)) by lia. cbn [nth_error].
      rewrite nth_error_skipn'. f_equal. lia.
Qed.
Lemma lset_split {A} (l : list A) i x : nth_error l i = Some x ->
  exists l1 l2, l = l1 ++ x :: l2 /\ length l1 = i.
Proof. intro H. apply nth_error_split in H. exact H. Qed.

Lemma FOP_app {A} (R : A -> A -> Prop) l1 l2 :
  ForallOrdPairs R (l1 ++ l2) <->
  ForallOrdPairs R l1 /\ ForallOrdPairs R l2 /\ (forall x y, In x l1 -> In y l2 -> R x y).
Proof.
  induction l1 as [|a l1 IH]; cbn [app].
  - split; [intro H; repeat split; [constructor|exact H|contradiction]|intros (_ & H & _); exact H].
  - split.
    + intro H. inversion H as [|? ? HF HP]; subst. apply IH in HP. destruct HP as (P1 & P2 & P3).
      rewrite Forall_forall in HF. repeat split; [|exact P2|].
      * constructor; [|exact P1]. rewrite Forall_forall. intros x Hx. apply HF, in_or_app; left; exact Hx.
      * intros x y [<-|Hx] Hy; [apply HF, in_or_app; right; exact Hy|apply P3; assumption].
    + intros (P1 & P2 & P3). inversion P1 as [|? ? HF HP]; subst. constructor.
      * rewrite Forall_forall in *. intros x Hx. apply in_app_or in Hx. destruct Hx as [Hx|Hx]; [auto|].
        apply P3; [left; reflexivity|exact Hx].
      * apply IH. repeat split; [exact HP|exact P2|]. intros x y Hx Hy. apply P3; [right|]; assumption.
Qed.
Lemma FOP_map {A B} (f : A -> B) (R : B -> B -> Prop) l :
  ForallOrdPairs R (map f l) <-> ForallOrdPairs (fun x y => R (f x) (f y)) l.
Proof.
  induction l as [|a l IH]; cbn [map]; [split; constructor|]. split; intro H; inversion H as [|? ? HF HP]; subst.
  - constructor; [|apply IH, HP]. rewrite Forall_map in HF. exact HF.
  - constructor; [rewrite Forall_map; exact HF|apply IH, HP].
Qed.
Lemma FOP_nth {A} (R : A -> A -> Prop) l i j x y : ForallOrdPairs R l -> i < j ->
  nth_error l i = Some x -> nth_error l j = Some y -> R x y.
Proof.
  intro H. revert i j. induction H as [|a l HF HP IH]; intros i j L Hi Hj; [now destruct i|].
  destruct j as [|j]; [lia|]. destruct i as [|i].
  - cbn in Hi, Hj. injection Hi as <-. rewrite Forall_forall in HF. apply HF. eapply nth_error_In. exact Hj.
  - apply (IH i j); [lia|exact Hi|exact Hj].
Qed.

Section Keys.
  Context {K : Type}.
  Variable hash : K -> N.
  Variable cmp : K -> K -> bool.
  Hypothesis SW : strict_weak cmp.
  Hypothesis HH : forall a b, keq cmp a b = true -> hash a = hash b.

  Notation klt := (klt hash cmp).
  Notation kleq := (kleq hash cmp).
  Notation keq := (keq cmp).

  (** ** The order of keys *)

  Lemma keq_sym a b : keq a b = keq b a.
  Proof. unfold HashMapModel.keq. apply andb_comm. Qed.
  Lemma keq_refl a : keq a a = true.
  Proof. unfold HashMapModel.keq. rewrite (sw_irrefl _ SW). reflexivity. Qed.
  Lemma keq_iff a b : keq a b = true <-> cmp a b = false /\ cmp b a = false.
  Proof. unfold HashMapModel.keq. rewrite andb_true_iff, !negb_true_iff. reflexivity. Qed.
  Lemma keq_trans a b c : keq a b = true -> keq b c = true -> keq a c = true.
  Proof.
    rewrite !keq_iff. intros (A1 & A2) (B1 & B2). split.
    - destruct (cmp a c) eqn:Q; [|reflexivity]. destruct (sw_incomp _ SW a b c Q); congruence.
    - destruct (cmp c a) eqn:Q; [|reflexivity]. destruct (sw_incomp _ SW c b a Q); congruence.
  Qed.
  Lemma keq_l a b c : keq a b = true -> keq a c = keq b c.
  Proof.
    intro H. destruct (keq b c) eqn:Q; [eapply keq_trans; eassumption|].
    destruct (keq a c) eqn:Q2; [|reflexivity]. rewrite keq_sym in H.
    rewrite (keq_trans _ _ _ H Q2) in Q. discriminate.
  Qed.
  Lemma keq_r a b c : keq a b = true -> keq c a = keq c b.
  Proof. intro H. rewrite (keq_sym c a), (keq_sym c b). apply keq_l, H. Qed.

  Lemma klt_SW : strict_weak klt.
  Proof.
    constructor; unfold HashMapModel.klt.
    - intro x. rewrite N.ltb_irrefl, N.eqb_refl, (sw_irrefl _ SW). reflexivity.
    - intros x y z. rewrite !orb_true_iff, !andb_true_iff, !N.ltb_lt, !N.eqb_eq.
      intros [H1|[H1 C1]] [H2|[H2 C2]]; [left; lia|left; lia|left; lia|right; split; [lia|]].
      eapply (sw_trans _ SW); eassumption.
    - intros x y z. rewrite !orb_true_iff, !andb_true_iff, !N.ltb_lt, !N.eqb_eq.
      intros [H|[H C]].
      + destruct (N.lt_trichotomy (hash x) (hash y)) as [Q|[Q|Q]]; [left; left; exact Q|right; left; lia|right; left; lia].
      + destruct (N.lt_trichotomy (hash x) (hash y)) as [Q|[Q|Q]]; [left; left; exact Q| |right; left; lia].
        destruct (sw_incomp _ SW x y z C) as [C1|C1]; [left; right; split; assumption|right; right; split; [lia|exact C1]].
  Qed.
  Lemma keq_klt a b : keq a b = true <-> klt a b = false /\ klt b a = false.
  Proof.
    split.
    - intro H. pose proof (HH _ _ H) as Q. apply keq_iff in H. destruct H as (A & B).
      unfold HashMapModel.klt. rewrite Q, N.ltb_irrefl, N.eqb_refl, A, B. split; reflexivity.
    - unfold HashMapModel.klt. rewrite !orb_false_iff, !andb_false_iff, !N.ltb_ge, !N.eqb_neq, keq_iff.
      intros ((A1 & A2) & (B1 & B2)). assert (hash a = hash b) by lia. split.
      + destruct A2; [contradiction|assumption].
      + destruct B2; [congruence|assumption].
  Qed.
  Lemma klt_neq a b : klt a b = true -> keq a b = false.
  Proof. intro H. destruct (keq a b) eqn:Q; [|reflexivity]. apply keq_klt in Q. destruct Q. congruence. Qed.
  Lemma klt_asym a b : klt a b = true -> klt b a = false.
  Proof. apply (sw_asym _ _ klt_SW). Qed.
  Lemma klt_trans a b c : klt a b = true -> klt b c = true -> klt a c = true.
  Proof. apply (sw_trans _ klt_SW). Qed.
  Lemma klt_keq_l a b c : keq a b = true -> klt a c = klt b c.
  Proof.
    intro H. apply keq_klt in H. destruct H as (A & B).
    destruct (klt b c) eqn:Q.
    - destruct (sw_incomp _ klt_SW b a c Q); congruence.
    - destruct (klt a c) eqn:Q2; [|reflexivity]. destruct (sw_incomp _ klt_SW a b c Q2); congruence.
  Qed.
  Lemma klt_keq_r a b c : keq a b = true -> klt c a = klt c b.
  Proof.
    intro H. apply keq_klt in H. destruct H as (A & B).
    destruct (klt c b) eqn:Q.
    - destruct (sw_incomp _ klt_SW c a b Q); congruence.
    - destruct (klt c a) eqn:Q2; [|reflexivity]. destruct (sw_incomp _ klt_SW c b a Q2); congruence.
  Qed.
  Lemma kleq_cases a b : kleq a b = true -> klt a b = true \/ keq a b = true.
  Proof.
    unfold HashMapModel.kleq. rewrite negb_true_iff. intro H.
    destruct (klt a b) eqn:Q; [left; reflexivity|right; apply keq_klt; split; assumption].
  Qed.
  Lemma kleq_false a b : kleq a b = false <-> klt b a = true.
  Proof. unfold HashMapModel.kleq. rewrite negb_false_iff. reflexivity. Qed.
  Lemma kleq_true a b : kleq a b = true <-> klt b a = false.
  Proof. unfold HashMapModel.kleq. rewrite negb_true_iff. reflexivity. Qed.

  (** Strictly ascending keys. *)
  Definition asc (l : list K) : Prop := ForallOrdPairs (fun a b => klt a b = true) l.

  Lemma asc_cons a l : asc (a :: l) <-> (forall b, In b l -> klt a b = true) /\ asc l.
  Proof.
    unfold asc. split.
    - intro H. inversion H as [|? ? HF HP]; subst. rewrite Forall_forall in HF. split; assumption.
    - intros (H1 & H2). constructor; [rewrite Forall_forall; exact H1|exact H2].
  Qed.

End Keys.

Section Chains.
  Context {K V : Type}.
  Notation E := (K * V)%type.
  Variable hash : K -> N.
  Variable cmp : K -> K -> bool.
  Hypothesis SW : strict_weak cmp.
  Hypothesis HH : forall a b, keq cmp a b = true -> hash a = hash b.

  Notation klt := (klt hash cmp).
  Notation kleq := (kleq hash cmp).
  Notation keq := (keq cmp).
  Notation node := (@node K V).
  Notation asc := (asc hash cmp).
  Notation keq_trans := (keq_trans cmp SW).
  Notation keq_l := (keq_l cmp SW).
  Notation keq_r := (keq_r cmp SW).
  Notation klt_neq := (klt_neq hash cmp HH).
  Notation klt_trans := (klt_trans hash cmp SW).
  Notation klt_keq_l := (klt_keq_l hash cmp SW HH).
  Notation klt_keq_r := (klt_keq_r hash cmp SW HH).
  Notation kleq_cases := (kleq_cases hash cmp HH).

  (** ** Looking up in lists *)

  Definition alook (l : list E) (k : K) : option V :=
    match List.find (fun e => keq (fst e) k) l with Some e => Some (snd e) | None => None end.
  Definition nfind (l : list node) (k : K) : option node := List.find (fun n => keq (nkey n) k) l.
  Definition blook (ns : list node) (es : list E) (k : K) : option V :=
    match nfind ns k with
    | Some n => if ndel n then None else Some (snd (nval n))
    | None => alook es k
    end.

  Lemma alook_none l k : (forall e, In e l -> keq (fst e) k = false) -> alook l k = None.
  Proof.
    intro H. unfold alook. destruct (List.find _ l) as [e|] eqn:Q; [|reflexivity].
    apply find_some in Q. destruct Q as (Q1 & Q2). rewrite (H _ Q1) in Q2. discriminate.
  Qed.
  Lemma alook_cons e l k : alook (e :: l) k = if keq (fst e) k then Some (snd e) else alook l k.
  Proof. unfold alook. cbn [List.find]. destruct (keq (fst e) k); reflexivity. Qed.
  Lemma alook_app l1 l2 k : alook (l1 ++ l2) k = match alook l1 k with Some v => Some v | None => alook l2 k end.
  Proof. induction l1 as [|e l1 IH]; [reflexivity|]. cbn [app]. rewrite !alook_cons, IH. destruct (keq (fst e) k); reflexivity. Qed.
  Lemma alook_some l k v : alook l k = Some v -> exists e, In e l /\ keq (fst e) k = true /\ snd e = v.
  Proof.
    unfold alook. destruct (List.find _ l) as [e|] eqn:Q; [|discriminate]. apply find_some in Q.
    intro H. injection H as <-. exists e. tauto.
  Qed.
  Lemma alook_in l e k : asc (map fst l) -> In e l -> keq (fst e) k = true -> alook l k = Some (snd e).
  Proof.
    induction l as [|a l IH]; [contradiction|]. cbn [map]. rewrite asc_cons. intros (H1 & H2) [<-|Hi] Hk.
    - rewrite alook_cons, Hk. reflexivity.
    - rewrite alook_cons. destruct (keq (fst a) k) eqn:Q; [|apply IH; assumption].
      exfalso. pose proof (H1 _ (in_map fst _ _ Hi)) as H3. apply klt_neq in H3. rewrite keq_sym in Hk.
      rewrite (keq_trans _ _ _ Q Hk) in H3. discriminate.
  Qed.
  Lemma alook_nth l j e k : asc (map fst l) -> nth_error l j = Some e -> keq (fst e) k = true -> alook l k = Some (snd e).
  Proof. intros H1 H2. apply alook_in; [exact H1|]. eapply nth_error_In, H2. Qed.
  Lemma alook_keq l a b : keq a b = true -> alook l a = alook l b.
  Proof.
    intro H. induction l as [|e l IH]; [reflexivity|]. rewrite !alook_cons, IH, (keq_r _ _ (fst e) H). reflexivity.
  Qed.
  Lemma nfind_cons n l k : nfind (n :: l) k = if keq (nkey n) k then Some n else nfind l k.
  Proof. reflexivity. Qed.
  Lemma nfind_keq l a b : keq a b = true -> nfind l a = nfind l b.
  Proof.
    intro H. induction l as [|e l IH]; [reflexivity|]. rewrite !nfind_cons, IH, (keq_r _ _ (nkey e) H). reflexivity.
  Qed.
  Lemma blook_keq ns es a b : keq a b = true -> blook ns es a = blook ns es b.
  Proof. intro H. unfold blook. rewrite (nfind_keq ns _ _ H), (alook_keq es _ _ H). reflexivity. Qed.
  Lemma nfind_none l k : (forall n, In n l -> keq (nkey n) k = false) -> nfind l k = None.
  Proof.
    intro H. unfold nfind. destruct (List.find _ l) as [e|] eqn:Q; [|reflexivity].
    apply find_some in Q. destruct Q as (Q1 & Q2). rewrite (H _ Q1) in Q2. discriminate.
  Qed.
  Lemma nfind_app l1 l2 k : nfind (l1 ++ l2) k = match nfind l1 k with Some n => Some n | None => nfind l2 k end.
  Proof. induction l1 as [|e l1 IH]; [reflexivity|]. cbn [app]. rewrite !nfind_cons, IH. destruct (keq (nkey e) k); reflexivity. Qed.

  (** ** Chains *)

  Lemma fki_gt (l : list node) k : (forall n, In n l -> klt k (nkey n) = true) -> fki hash cmp l k = 0.
  Proof.
    destruct l as [|n l]; [reflexivity|]. intro H. cbn [fki].
    assert (Q : kleq (nkey n) k = false) by (apply kleq_false, H; left; reflexivity). rewrite Q. reflexivity.
  Qed.
  Lemma fki_app (l1 l2 : list node) k :
    (forall n, In n l1 -> kleq (nkey n) k = true) -> fki hash cmp (l1 ++ l2) k = length l1 + fki hash cmp l2 k.
  Proof.
    induction l1 as [|n l1 IH]; [reflexivity|]. intro H. cbn [app fki length]. rewrite (H n (or_introl eq_refl)).
    rewrite IH by (intros; apply H; right; assumption). reflexivity.
  Qed.

  (** A chain at a key: the node of the key between the smaller and the greater ones, or no such node. *)
  Lemma chain_split (l : list node) k : asc (map nkey l) ->
    (exists l1 n l2, l = l1 ++ n :: l2 /\ keq (nkey n) k = true /\ fki hash cmp l k = S (length l1)
        /\ hit hash cmp l k = Some n /\ nfind l k = Some n
        /\ (forall x, In x l1 -> klt (nkey x) k = true) /\ (forall x, In x l2 -> klt k (nkey x) = true))
    \/ (exists l1 l2, l = l1 ++ l2 /\ fki hash cmp l k = length l1
        /\ hit hash cmp l k = None /\ nfind l k = None
        /\ (forall x, In x l1 -> klt (nkey x) k = true) /\ (forall x, In x l2 -> klt k (nkey x) = true)).
  Proof.
    induction l as [|n l IH].
    - intros _. right. exists [], []. repeat split; try contradiction.
    - cbn [map]. rewrite asc_cons. intros (H1 & H2). specialize (IH H2).
      assert (G : forall x, In x l -> klt (nkey n) (nkey x) = true) by (intros; apply H1, in_map; assumption).
      destruct (kleq (nkey n) k) eqn:Q.
      2: { apply kleq_false in Q. right. exists [], (n :: l).
           assert (A : forall x, In x (n :: l) -> klt k (nkey x) = true).
           { intros x [<-|Hx]; [exact Q|]. eapply klt_trans; [exact Q|apply G, Hx]. }
           pose proof (fki_gt (n :: l) k A) as F. split; [reflexivity|]. split; [exact F|].
           split; [unfold hit, fnode; rewrite F; reflexivity|].
           split; [apply nfind_none; intros x Hx; rewrite keq_sym; apply klt_neq, A, Hx|].
           split; [contradiction|exact A]. }
      destruct (keq (nkey n) k) eqn:Qe.
      + left. exists [], n, l. split; [reflexivity|]. split; [exact Qe|].
        assert (A : forall x, In x l -> klt k (nkey x) = true).
        { intros x Hx. rewrite <- (klt_keq_l _ _ (nkey x) Qe). apply G, Hx. }
        assert (F : fki hash cmp (n :: l) k = 1) by (cbn [fki]; rewrite Q, (fki_gt l k A); reflexivity).
        split; [exact F|]. split; [unfold hit, fnode; rewrite F; cbn [nth_error]; rewrite Qe; reflexivity|].
        split; [rewrite nfind_cons, Qe; reflexivity|]. split; [contradiction|exact A].
      + assert (Lt : klt (nkey n) k = true) by (destruct (kleq_cases _ _ Q); congruence).
        destruct IH as [(l1 & x & l2 & E1 & E2 & E3 & E4 & E5 & E6 & E7)|(l1 & l2 & E1 & E3 & E4 & E5 & E6 & E7)].
        * left. exists (n :: l1), x, l2. split; [rewrite E1; reflexivity|]. split; [exact E2|].
          split; [cbn [fki length]; rewrite Q, E3; reflexivity|].
          split.
          { unfold hit, fnode in *. cbn [fki]. rewrite Q. rewrite E3 in E4 |- *. cbn [nth_error] in *. exact E4. }
          split; [rewrite nfind_cons, Qe; exact E5|]. split; [|exact E7]. intros y [<-|Hy]; [exact Lt|apply E6, Hy].
        * right. exists (n :: l1), l2. split; [rewrite E1; reflexivity|].
          split; [cbn [fki length]; rewrite Q, E3; reflexivity|].
          split.
          { unfold hit, fnode in *. cbn [fki]. rewrite Q. rewrite E3 in *.
            destruct l1 as [|y l1]; cbn [length nth_error] in *; [rewrite Qe; reflexivity|exact E4]. }
          split; [rewrite nfind_cons, Qe; exact E5|]. split; [|exact E7]. intros y [<-|Hy]; [exact Lt|apply E6, Hy].
  Qed.

  Lemma asc_mid (l1 l2 : list node) (n : node) k : keq (nkey n) k = true -> asc (map nkey (l1 ++ l2)) ->
    (forall x, In x l1 -> klt (nkey x) k = true) -> (forall x, In x l2 -> klt k (nkey x) = true) ->
    asc (map nkey (l1 ++ n :: l2)).
  Proof.
    unfold asc. rewrite !FOP_map, !FOP_app. intros Hk (A1 & A2 & A3) H1 H2.
    assert (B1 : forall x, In x l1 -> klt (nkey x) (nkey n) = true).
    { intros x Hx. rewrite (klt_keq_r _ _ (nkey x) Hk). apply H1, Hx. }
    assert (B2 : forall x, In x l2 -> klt (nkey n) (nkey x) = true).
    { intros x Hx. rewrite (klt_keq_l _ _ (nkey x) Hk). apply H2, Hx. }
    split; [exact A1|]. split.
    - constructor; [rewrite Forall_forall; exact B2|exact A2].
    - intros x y Hx [<-|Hy]; [apply B1, Hx|apply A3; assumption].
  Qed.
  Lemma asc_drop (l1 l2 : list node) n : asc (map nkey (l1 ++ n :: l2)) -> asc (map nkey (l1 ++ l2)).
  Proof.
    unfold asc. rewrite !FOP_map, !FOP_app. intros (A1 & A2 & A3). inversion A2; subst.
    split; [exact A1|]. split; [assumption|]. intros; apply A3; [|right]; assumption.
  Qed.
  Lemma nfind_mid (l1 l2 : list node) (n : node) k' :
    (forall x, In x l1 -> keq (nkey x) (nkey n) = false) -> (forall x, In x l2 -> keq (nkey x) (nkey n) = false) ->
    nfind (l1 ++ n :: l2) k' = if keq (nkey n) k' then Some n else nfind (l1 ++ l2) k'.
  Proof.
    intros H1 H2. rewrite !nfind_app, nfind_cons. destruct (keq (nkey n) k') eqn:Q; [|reflexivity].
    rewrite nfind_none; [reflexivity|]. intros x Hx. rewrite <- (keq_r _ _ (nkey x) Q). apply H1, Hx.
  Qed.

  (** The two updates of a chain. *)
  Lemma chain_put (l : list node) k n n' : asc (map nkey l) -> hit hash cmp l k = Some n -> keq (nkey n') k = true ->
    let l' := lset l (fki hash cmp l k - 1) n' in
    asc (map nkey l') /\ (forall k', nfind l' k' = if keq k k' then Some n' else nfind l k')
    /\ (forall x, In x l' -> x = n' \/ In x l) /\ nfind l k = Some n /\ keq (nkey n) k = true.
  Proof.
    intros A H Hk l'. destruct (chain_split l k A) as [(l1 & x & l2 & E1 & E2 & E3 & E4 & E5 & E6 & E7)|(l1 & l2 & E1 & E3 & E4 & E5 & _)]; [|congruence].
    assert (x = n) by congruence. subst x.
    assert (Q : l' = l1 ++ n' :: l2).
    { unfold l'. rewrite E3, Nat.sub_succ, Nat.sub_0_r, E1. apply lset_app. }
    assert (AD : asc (map nkey (l1 ++ l2))) by (apply (asc_drop l1 l2 n); rewrite <- E1; exact A).
    split; [rewrite Q; eapply asc_mid; eassumption|].
    assert (N1 : forall m' : node, keq (nkey m') k = true -> forall x, In x l1 -> keq (nkey x) (nkey m') = false).
    { intros m' Hm x Hx. rewrite (keq_r _ _ (nkey x) Hm). apply klt_neq, E6, Hx. }
    assert (N2 : forall m' : node, keq (nkey m') k = true -> forall x, In x l2 -> keq (nkey x) (nkey m') = false).
    { intros m' Hm x Hx. rewrite (keq_r _ _ (nkey x) Hm), keq_sym. apply klt_neq, E7, Hx. }
    split; [|split; [|split; [exact E5|exact E2]]].
    - intro k'. rewrite Q, E1, (nfind_mid l1 l2 n' k' (N1 _ Hk) (N2 _ Hk)), (nfind_mid l1 l2 n k' (N1 _ E2) (N2 _ E2)).
      rewrite (keq_l _ _ k' Hk), (keq_l _ _ k' E2). destruct (keq k k'); reflexivity.
    - intros y Hy. rewrite Q in Hy. rewrite E1. rewrite in_app_iff in *. cbn [In] in *. intuition congruence.
  Qed.
  Lemma chain_ins (l : list node) k n' : asc (map nkey l) -> hit hash cmp l k = None -> keq (nkey n') k = true ->
    let l' := lins l (fki hash cmp l k) n' in
    asc (map nkey l') /\ (forall k', nfind l' k' = if keq k k' then Some n' else nfind l k')
    /\ (forall x, In x l' -> x = n' \/ In x l) /\ nfind l k = None.
  Proof.
    intros A H Hk l'. destruct (chain_split l k A) as [(l1 & x & l2 & E1 & E2 & E3 & E4 & _)|(l1 & l2 & E1 & E3 & E4 & E5 & E6 & E7)]; [congruence|].
    assert (Q : l' = l1 ++ n' :: l2) by (unfold l'; rewrite E3, E1; apply lins_app).
    rewrite E1 in A.
    split; [rewrite Q; eapply asc_mid; eassumption|].
    split; [|split; [|exact E5]].
    - intro k'. rewrite Q, E1, (nfind_mid l1 l2 n' k'); [rewrite (keq_l _ _ k' Hk); reflexivity| |].
      + intros x Hx. rewrite (keq_r _ _ (nkey x) Hk). apply klt_neq, E6, Hx.
      + intros x Hx. rewrite (keq_r _ _ (nkey x) Hk), keq_sym. apply klt_neq, E7, Hx.
    - intros y Hy. rewrite Q in Hy. rewrite E1. rewrite in_app_iff in *. cbn [In] in *. intuition congruence.
  Qed.
  Lemma hit_nfind (l : list node) k : asc (map nkey l) -> hit hash cmp l k = nfind l k.
  Proof.
    intro A. destruct (chain_split l k A) as [(l1 & x & l2 & E1 & E2 & E3 & E4 & E5 & _)|(l1 & l2 & E1 & E3 & E4 & E5 & _)]; congruence.
  Qed.

End Chains.

Section Memory.
  Context {K V : Type}.
  Notation E := (K * V)%type.
  Variable hash : K -> N.
  Variable cmp : K -> K -> bool.
  Variable ss spb : nat.
  Hypothesis SW : strict_weak cmp.
  Hypothesis HH : forall a b, keq cmp a b = true -> hash a = hash b.
  Hypothesis SS : 0 < ss.
  Hypothesis SP : 0 < spb.

  Notation klt := (klt hash cmp).
  Notation kleq := (kleq hash cmp).
  Notation keq := (keq cmp).
  Notation node := (@node K V).
  Notation bucket := (@bucket K V).
  Notation asc := (asc hash cmp).
  Notation alook := (@alook K V cmp).
  Notation klt_neq := (klt_neq hash cmp HH).
  Notation klt_trans := (klt_trans hash cmp SW).
  Notation klt_keq_l := (klt_keq_l hash cmp SW HH).
  Notation klt_keq_r := (klt_keq_r hash cmp SW HH).

  (** ** Blocks as one sequence of values *)

  Notation BS := (spb * ss).
  Notation rpos := (nat * nat)%type.
  Definition wfmem (m : list (list E)) : Prop := Forall (fun b => length b = BS) m.
  Lemma BS_pos : 0 < BS.
  Proof. apply Nat.mul_pos_pos; assumption. Qed.

  Lemma concat_len (m : list (list E)) : wfmem m -> length (concat m) = length m * BS.
  Proof. induction 1 as [|b m Hb Hm IH]; [reflexivity|]. cbn [concat length]. rewrite app_length, IH, Hb. lia. Qed.
  Lemma flat_nth (m : list (list E)) q r : wfmem m -> r < BS ->
    nth_error (concat m) (q * BS + r) = match nth_error m q with Some b => nth_error b r | None => None end.
  Proof.
    intros H Hr. revert q. induction H as [|b m Hb Hm IH]; intro q.
    { cbn [concat]. destruct (q * BS + r); destruct q; reflexivity. }
    cbn [concat]. destruct q as [|q].
    - rewrite nth_error_app1 by lia. reflexivity.
    - rewrite nth_error_app2 by lia. cbn [nth_error]. rewrite <- IH. f_equal. lia.
  Qed.

  Definition start (b : bucket) : nat := bblk b * BS + bsub b * ss.
  Definition ext (m : list (list E)) (b : bucket) : list E := firstn (bn b) (skipn (start b) (concat m)).

  Lemma ext_nth m b j : j < bn b -> nth_error (ext m b) j = nth_error (concat m) (start b + j).
  Proof. intro H. unfold ext. rewrite nth_error_firstn' by exact H. apply nth_error_skipn'. Qed.
  Lemma ext_len m b : start b + bn b <= length (concat m) -> length (ext m b) = bn b.
  Proof. intro H. unfold ext. rewrite firstn_length, skipn_length. lia. Qed.

  (** Buckets follow one another; something follows the values of the last one. *)
  Fixpoint lay (tot p : nat) (bs : list bucket) : Prop :=
    match bs with
    | [] => True
    | b :: bs' => p <= start b /\ bsub b < spb /\ start b + bn b < tot /\ lay tot (start b + bn b) bs'
    end.
  Definition layout (m : list (list E)) (bs : list bucket) : Prop :=
    match m with
    | [] => Forall (fun b => bn b = 0 /\ bblk b = 0) bs
    | _ => lay (length (concat m)) 0 bs /\ match bs with b :: _ => start b = 0 | [] => True end
    end.

  Lemma lay_nth tot p bs i b : lay tot p bs -> nth_error bs i = Some b ->
    p <= start b /\ bsub b < spb /\ start b + bn b < tot.
  Proof.
    revert p i. induction bs as [|a bs IH]; intros p [|i]; cbn [lay nth_error]; try discriminate.
    - intros (H1 & H2 & H3 & H4) Q. injection Q as <-. tauto.
    - intros (H1 & H2 & H3 & H4) Q. destruct (IH _ _ H4 Q) as (A & B & C). repeat split; [lia|assumption|assumption].
  Qed.
  Lemma layout_nth m bs i b : layout m bs -> nth_error bs i = Some b ->
    (bn b = 0 \/ bsub b < spb /\ start b + bn b < length (concat m)).
  Proof.
    unfold layout. destruct m as [|x m].
    - intros H Q. left. rewrite Forall_forall in H. apply H. eapply nth_error_In, Q.
    - intros (H & _) Q. right. eapply lay_nth in H; [|exact Q]. tauto.
  Qed.
  Lemma layout_len m bs i b : layout m bs -> nth_error bs i = Some b -> length (ext m b) = bn b.
  Proof.
    intros H Q. destruct (layout_nth _ _ _ _ H Q) as [Z|(_ & Z)]; [unfold ext; rewrite Z; reflexivity|].
    apply ext_len. lia.
  Qed.

  (** Loading a subblock. *)
  Lemma load_ok m b w : wfmem m -> bsub b < spb -> start b + w * ss < length (concat m) ->
    exists sb, load_subblock ss spb m b w = Some sb /\ length sb = ss
      /\ forall j, j < ss -> nth_error sb j = nth_error (concat m) (start b + w * ss + j).
  Proof.
    intros W Hs Hl. unfold load_subblock.
    set (q := (bsub b + w) / spb). set (r := (bsub b + w) mod spb).
    assert (D : bsub b + w = spb * q + r) by (apply Nat.div_mod; lia).
    assert (R : r < spb) by (apply Nat.mod_upper_bound; lia).
    assert (P : start b + w * ss = (bblk b + q) * BS + r * ss).
    { unfold start. replace (bblk b * BS + bsub b * ss + w * ss) with (bblk b * BS + (bsub b + w) * ss) by lia.
      rewrite D. lia. }
    rewrite P, (concat_len m W) in Hl.
    assert (Q : bblk b + q < length m).
    { destruct (Nat.lt_ge_cases (bblk b + q) (length m)) as [|G]; [assumption|].
      pose proof (Nat.mul_le_mono_r _ _ BS G). lia. }
    destruct (nth_error m (bblk b + q)) as [blk|] eqn:N; [|apply nth_error_None in N; lia].
    assert (LB : length blk = BS) by (unfold wfmem in W; rewrite Forall_forall in W; apply W; eapply nth_error_In, N).
    assert (RS : r * ss + ss <= BS) by (replace (r * ss + ss) with (S r * ss) by lia; apply Nat.mul_le_mono_r; lia).
    eexists. split; [reflexivity|]. split; [rewrite firstn_length, skipn_length, LB; lia|].
    intros j Hj. rewrite nth_error_firstn' by exact Hj. rewrite nth_error_skipn'.
    replace (start b + w * ss + j) with ((bblk b + q) * BS + (r * ss + j)) by lia.
    rewrite flat_nth by (assumption || lia). rewrite N. reflexivity.
  Qed.

  (** ** Searching the external part *)

  Lemma bsearch_ok (sb es : list E) k off nv : asc (map fst es) ->
    (forall j, j < nv -> nth_error sb j = nth_error es (off + j)) -> off + nv <= length es ->
    forall fuel lo hi, hi - lo < fuel -> lo < hi -> hi <= nv ->
    (lo = 0 \/ exists e, nth_error es (off + lo) = Some e /\ kleq (fst e) k = true) ->
    (forall j e, hi <= j -> j < nv -> nth_error es (off + j) = Some e -> klt k (fst e) = true) ->
    exists r, bsearch hash cmp fuel sb k lo hi = Some r /\ r < nv
      /\ forall j e, j < nv -> nth_error es (off + j) = Some e -> keq (fst e) k = true -> j = r.
  Proof.
    intros A HS HL. induction fuel as [|f IH]; intros lo hi Hf Hlt Hhi H1 H2; [lia|]. cbn [bsearch].
    destruct (Nat.eqb_spec (lo + 1) hi) as [Q|Q].
    - exists lo. split; [reflexivity|]. split; [lia|]. intros j e Hj Hn Hk.
      destruct (Nat.lt_trichotomy j lo) as [G|[G|G]]; [|exact G|].
      + destruct H1 as [H1|(e' & H1 & H3)]; [lia|].
        assert (Lt : klt (fst e) (fst e') = true).
        { apply (FOP_nth _ (map fst es) (off + j) (off + lo) _ _ A); [lia| |]; rewrite nth_error_map.
          - rewrite Hn. reflexivity.
          - rewrite H1. reflexivity. }
        rewrite (klt_keq_l _ _ _ Hk) in Lt. apply kleq_true in H3. congruence.
      + assert (klt k (fst e) = true) by (apply (H2 j e); [lia|exact Hj|exact Hn]).
        rewrite keq_sym in Hk. apply klt_neq in H. congruence.
    - set (mid := (lo + hi) / 2).
      assert (M : lo < mid < hi).
      { unfold mid. split; [apply Nat.div_le_lower_bound; lia|apply Nat.div_lt_upper_bound; lia]. }
      rewrite HS by lia. destruct (nth_error es (off + mid)) as [e|] eqn:N; [|apply nth_error_None in N; lia].
      destruct (kleq (fst e) k) eqn:C.
      + apply IH; try lia; [right; exists e; split; assumption|exact H2].
      + apply IH; try lia; [exact H1|]. intros j e' Hj1 Hj2 Hn. apply kleq_false in C.
        destruct (Nat.eq_dec j mid) as [Z|Z]; [subst j; rewrite N in Hn; injection Hn as <-; exact C|].
        eapply klt_trans; [exact C|]. apply (FOP_nth _ (map fst es) (off + mid) (off + j) _ _ A); [lia| |]; rewrite nth_error_map.
        * rewrite N. reflexivity.
        * rewrite Hn. reflexivity.
  Qed.

  Variable edef : E.
  Definition fke_spec (b : bucket) (es : list E) (k : K) (r : nat * E) : Prop :=
    (exists j e, nth_error es j = Some e /\ keq (fst e) k = true /\ r = (j, e))
    \/ (r = (bn b, edef) /\ forall e, In e es -> keq (fst e) k = false).

  Lemma fke_loop_ok m b k : wfmem m -> bsub b < spb -> start b + bn b < length (concat m) -> asc (map fst (ext m b)) ->
    forall nsub, nsub * ss < bn b + ss -> bn b <= nsub * ss ->
    forall cnt i, i + cnt = nsub ->
    (forall j e, j < i * ss -> nth_error (ext m b) j = Some e -> klt (fst e) k = true) ->
    exists r, fke_loop hash cmp edef ss spb m b k nsub cnt i = Some r /\ fke_spec b (ext m b) k r.
  Proof.
    intros W Hs Hl A nsub B1 B2. pose proof (ext_len m b (Nat.lt_le_incl _ _ Hl)) as EL.
    induction cnt as [|cnt IH]; intros i Hi HI; cbn [fke_loop].
    - eexists. split; [reflexivity|]. right. split; [reflexivity|]. intros e He.
      apply In_nth_error in He. destruct He as (j & He). apply klt_neq, (HI j e); [|exact He].
      assert (j < length (ext m b)) by (apply nth_error_Some; congruence). replace i with nsub by lia. lia.
    - assert (Hi2 : S i <= nsub) by lia.
      pose proof (Nat.mul_le_mono_r _ _ ss Hi2) as Hi3. cbn [Nat.mul] in Hi3.
      assert (Hb : i * ss < bn b) by lia.
      destruct (load_ok m b i W Hs) as (sb & Q1 & Q2 & Q3); [lia|]. rewrite Q1.
      set (nv := if i + 1 <? nsub then ss else bn b - i * ss).
      assert (NV : 0 < nv <= ss /\ i * ss + nv <= bn b).
      { unfold nv. destruct (Nat.ltb_spec (i + 1) nsub) as [Z|Z]; [|lia].
        assert (Z2 : S (S i) <= nsub) by lia. pose proof (Nat.mul_le_mono_r _ _ ss Z2) as Z3. cbn [Nat.mul] in Z3. lia. }
      assert (SBE : forall j, j < nv -> nth_error sb j = nth_error (ext m b) (i * ss + j)).
      { intros j Hj. rewrite Q3 by lia. rewrite ext_nth by lia. f_equal. lia. }
      rewrite SBE by lia. destruct (nth_error (ext m b) (i * ss + (nv - 1))) as [la|] eqn:NL; [|apply nth_error_None in NL; lia].
      destruct (klt (fst la) k) eqn:C.
      + destruct (Nat.ltb_spec (i + 1) nsub) as [Z|Z].
        * apply IH; [lia|]. intros j e Hj Hn. destruct (Nat.eq_dec j (i * ss + (nv - 1))) as [Y|Y].
          { subst j. rewrite NL in Hn. injection Hn as <-. exact C. }
          eapply klt_trans; [|exact C]. apply (FOP_nth _ (map fst (ext m b)) j (i * ss + (nv - 1)) _ _ A).
          { unfold nv in *. cbn [Nat.mul] in Hj. lia. }
          { rewrite nth_error_map, Hn. reflexivity. }
          { rewrite nth_error_map, NL. reflexivity. }
        * apply IH; [lia|]. intros j e Hj Hn.
          assert (Hj2 : j < length (ext m b)) by (apply nth_error_Some; congruence).
          destruct (Nat.eq_dec j (i * ss + (nv - 1))) as [Y|Y].
          { subst j. rewrite NL in Hn. injection Hn as <-. exact C. }
          eapply klt_trans; [|exact C]. apply (FOP_nth _ (map fst (ext m b)) j (i * ss + (nv - 1)) _ _ A).
          { unfold nv in *. lia. }
          { rewrite nth_error_map, Hn. reflexivity. }
          { rewrite nth_error_map, NL. reflexivity. }
      + destruct (bsearch_ok sb (ext m b) k (i * ss) nv A SBE) with (fuel := S nv) (lo := 0) (hi := nv) as (r & R1 & R2 & R3);
          [lia|lia|lia|lia|left; reflexivity|intros; lia|].
        rewrite R1, SBE by exact R2.
        destruct (nth_error (ext m b) (i * ss + r)) as [e|] eqn:NE; [|apply nth_error_None in NE; lia].
        destruct (keq (fst e) k) eqn:Ke.
        * eexists. split; [reflexivity|]. left. exists (i * ss + r), e. repeat split; assumption.
        * eexists. split; [reflexivity|]. right. split; [reflexivity|]. intros e' He'.
          destruct (keq (fst e') k) eqn:Ke'; [|reflexivity]. exfalso.
          apply In_nth_error in He'. destruct He' as (j & He').
          assert (Hj2 : j < length (ext m b)) by (apply nth_error_Some; congruence).
          destruct (Nat.lt_ge_cases j (i * ss)) as [G|G].
          { specialize (HI j e' G He'). apply klt_neq in HI. congruence. }
          destruct (Nat.lt_ge_cases j (i * ss + nv)) as [G2|G2].
          { assert (j - i * ss = r).
            { apply (R3 _ e'); [lia| |exact Ke']. replace (i * ss + (j - i * ss)) with j by lia. exact He'. }
            replace j with (i * ss + r) in He' by lia. congruence. }
          assert (Lt : klt (fst la) (fst e') = true).
          { apply (FOP_nth _ (map fst (ext m b)) (i * ss + (nv - 1)) j _ _ A); [lia| |]; rewrite nth_error_map.
            - rewrite NL. reflexivity.
            - rewrite He'. reflexivity. }
          rewrite (klt_keq_r _ _ _ Ke') in Lt. congruence.
  Qed.

  Lemma fke_ok m bs i b k : wfmem m -> layout m bs -> nth_error bs i = Some b -> asc (map fst (ext m b)) ->
    exists r, fke hash cmp edef ss spb m b k = Some r /\ fke_spec b (ext m b) k r.
  Proof.
    intros W LY N A. unfold fke.
    destruct (layout_nth _ _ _ _ LY N) as [Z|(Z1 & Z2)].
    - rewrite Z. rewrite Nat.div_0_l, Nat.mod_0_l by lia. cbn [Nat.eqb Nat.add fke_loop].
      eexists. split; [reflexivity|]. right. split; [rewrite Z; reflexivity|]. unfold ext. rewrite Z. contradiction.
    - apply fke_loop_ok; try assumption; [| |reflexivity|intros; lia].
      + pose proof (Nat.div_mod (bn b) ss) as D. destruct (Nat.eqb_spec (bn b mod ss) 0) as [Y|Y]; lia.
      + pose proof (Nat.div_mod (bn b) ss) as D. pose proof (Nat.mod_upper_bound (bn b) ss).
        destruct (Nat.eqb_spec (bn b mod ss) 0) as [Y|Y]; lia.
  Qed.

  Lemma fke_hit_spec b es k r : length es = bn b -> asc (map fst es) -> fke_spec b es k r ->
    (fke_hit cmp b k r = true /\ alook es k = Some (snd (snd r)) /\ nth_error es (fst r) = Some (snd r)
       /\ keq (fst (snd r)) k = true)
    \/ (fke_hit cmp b k r = false /\ alook es k = None).
  Proof.
    intros HL A [(j & e & H1 & H2 & ->)|(-> & H)].
    - left. unfold fke_hit. cbn [fst snd]. rewrite H2.
      assert (j < length es) by (apply nth_error_Some; congruence).
      assert (Q : (j <? bn b) = true) by (apply Nat.ltb_lt; lia). rewrite Q.
      repeat split; [eapply alook_nth; eassumption|exact H1].
    - right. unfold fke_hit. cbn [fst snd]. rewrite Nat.ltb_irrefl. split; [reflexivity|apply alook_none, H].
  Qed.

  (** ** The reader *)

  Definition pos (r : rpos) : nat := fst r * BS + snd r.
  Definition rok (m : list (list E)) (r : rpos) : Prop := snd r < BS /\ (fst r < length m \/ m = []).

  Lemma rvalue_ok (m : list (list E)) r : wfmem m -> snd r < BS -> rvalue m r = nth_error (concat m) (pos r).
  Proof. intros W H. unfold rvalue, pos. rewrite flat_nth by assumption. destruct (nth_error m (fst r)); reflexivity. Qed.
  Lemma rnext_pos (m : list (list E)) r : snd r < BS -> fst r < length m ->
    pos (rnext ss spb m r) = S (pos r) /\ snd (rnext ss spb m r) < BS.
  Proof.
    intros H1 H2. unfold rnext, pos. assert (Q : fst r =? length m = false) by (apply Nat.eqb_neq; lia). rewrite Q.
    destruct (Nat.ltb_spec (snd r + 1) BS) as [Z|Z]; cbn [fst snd]; [lia|]. split; [lia|apply BS_pos].
  Qed.
  Lemma pos_lt (m : list (list E)) r : wfmem m -> snd r < BS -> pos r < length (concat m) <-> fst r < length m.
  Proof.
    intros W H. rewrite (concat_len m W). unfold pos. split; intro G.
    - destruct (Nat.lt_ge_cases (fst r) (length m)) as [|Y]; [assumption|]. pose proof (Nat.mul_le_mono_r _ _ BS Y). lia.
    - assert (Y : S (fst r) <= length m) by lia. pose proof (Nat.mul_le_mono_r _ _ BS Y) as Y2. cbn [Nat.mul] in Y2. lia.
  Qed.
  Lemma rnext_ok (m : list (list E)) r : wfmem m -> snd r < BS -> S (pos r) < length (concat m) ->
    pos (rnext ss spb m r) = S (pos r) /\ snd (rnext ss spb m r) < BS.
  Proof. intros W H1 H2. apply rnext_pos; [exact H1|]. apply (pos_lt m r W H1). lia. Qed.
  Lemma riter_ok (m : list (list E)) r n : wfmem m -> snd r < BS -> pos r + n < length (concat m) ->
    pos (Nat.iter n (rnext ss spb m) r) = pos r + n /\ snd (Nat.iter n (rnext ss spb m) r) < BS.
  Proof.
    intros W H1. induction n as [|n IH]; intro H2; [cbn; split; [lia|exact H1]|].
    destruct IH as (A & B); [lia|]. cbn [Nat.iter nat_rect]. destruct (rnext_ok m (Nat.iter n (rnext ss spb m) r) W B) as (C & D).
    - rewrite A. lia.
    - unfold Nat.iter in *. split; [rewrite C; lia|exact D].
  Qed.
End Memory.
