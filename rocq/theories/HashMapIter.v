(** Iteration over the hash map: [++] moves to the next key, [begin()] is the first one. *)
From Coq Require Import List Bool Arith NArith Lia.
From Verif Require Import OrderLib HashMapModel HashMapSpec HashMapBase HashMapStream HashMapProofs HashMapIterModel.
Import ListNotations.

Section Iterate.
  Context {K V L : Type}.
  Notation E := (K * V)%type.
  Variable hash : K -> N.
  Variable cmp : K -> K -> bool.
  Variable keqb : K -> K -> bool.
  Variable kdef : K.
  Variable edef : E.
  Variable ss spb inc : nat.
  Variable bkt : N -> nat -> nat.
  Variable nbuck : L -> N -> N.
  Variable maxb : N.
  Variable fits : N -> bool.
  Variable junk : nat -> nat -> E.
  Variable srt : list E -> list E.

  Notation klt := (klt hash cmp).
  Notation kleq := (kleq hash cmp).
  Notation keq := (keq cmp).
  Notation node := (@node K V).
  Notation bucket := (@bucket K V).
  Notation core := (@core K V L).
  Notation BS := (spb * ss).
  Notation rpos := (nat * nat)%type.
  Notation asc := (asc hash cmp).
  Notation alook := (@alook K V cmp).
  Notation blook := (@blook K V cmp).
  Notation nfind := (@nfind K V cmp).
  Notation wfmem := (@wfmem K V ss spb).
  Notation ext := (@ext K V ss spb).
  Notation start := (@start K V ss spb).
  Notation layout := (@layout K V ss spb).
  Notation pos := (pos ss spb).
  Notation rnext := (rnext ss spb).
  Notation search := (search hash cmp ss spb).
  Notation find_next := (@find_next K V L hash cmp ss spb).
  Notation iter := (@iter K).

  Hypothesis PO : params_ok hash cmp keqb ss spb bkt maxb fits srt.
  Let SW := po_sw _ _ _ _ _ _ _ _ _ PO.
  Let HH := po_hash _ _ _ _ _ _ _ _ _ PO.
  Let SS := po_ss _ _ _ _ _ _ _ _ _ PO.
  Let SP := po_spb _ _ _ _ _ _ _ _ _ PO.
  Notation B := (B hash bkt).
  Notation wf := (@wf K V hash cmp ss spb bkt fits).
  Notation look := (@look K V hash cmp ss spb bkt).
  Notation klt_trans := (klt_trans hash cmp SW).
  Notation klt_keq_l := (klt_keq_l hash cmp SW HH).
  Notation klt_keq_r := (klt_keq_r hash cmp SW HH).

  (** ** Keys *)

  Lemma klt_irr a : klt a a = false.
  Proof. apply (klt_SW hash cmp SW). Qed.
  Lemma not_le_lt a b c : klt a b = false -> klt a c = true -> klt b c = true.
  Proof.
    intros H1 H2. destruct (klt b c) eqn:Q; [reflexivity|]. exfalso.
    destruct (kleq_cases hash cmp HH b a) as [H|H]; [apply kleq_true; exact H1| |].
    - rewrite (klt_trans _ _ _ H H2) in Q. discriminate.
    - rewrite (klt_keq_l _ _ c H), H2 in Q. discriminate.
  Qed.
  Lemma not_gt_neq k x y : klt k x = false -> klt k y = true -> keq x y = false.
  Proof. intros H1 H2. destruct (keq x y) eqn:Q; [|reflexivity]. rewrite (klt_keq_r _ _ k Q) in H1. congruence. Qed.

  (** ** The reader in a bucket *)

  Definition rgood (m : list (list E)) (b : bucket) (ie : nat) (r : rpos) : Prop :=
    m = [] /\ fst r = 0 \/ m <> [] /\ pos r = start b + ie /\ snd r < BS.

  Section Bucket.
    Variable m : list (list E).
    Variable bs : list bucket.
    Variable i : nat.
    Variable b : bucket.
    Hypothesis W : wfmem m.
    Hypothesis LY : layout m bs.
    Hypothesis NB : nth_error bs i = Some b.

    Lemma bucket_in : m = [] /\ bn b = 0 /\ bblk b = 0 \/ m <> [] /\ bsub b < spb /\ start b + bn b < length (concat m).
    Proof.
      unfold HashMapBase.layout in LY. destruct m as [|x m'].
      - left. split; [reflexivity|]. rewrite Forall_forall in LY. apply LY. eapply nth_error_In, NB.
      - right. split; [discriminate|]. destruct LY as (H & _). destruct (lay_nth ss spb SS SP _ _ _ _ _ H NB) as (H1 & H2 & H3). tauto.
    Qed.
    Lemma blen : length (ext m b) = bn b.
    Proof. eapply (layout_len ss spb SS SP); eassumption. Qed.
    Lemma rvalue_good ie r : rgood m b ie r -> ie < bn b ->
      exists e, rvalue m r = Some e /\ nth_error (ext m b) ie = Some e.
    Proof.
      intros G H. destruct bucket_in as [(_ & Z & _)|(Z1 & Z2 & Z3)]; [lia|]. destruct G as [(G & _)|(_ & G1 & G2)]; [contradiction|].
      rewrite (rvalue_ok ss spb SS SP m r W G2), G1. rewrite <- ext_nth by exact H.
      destruct (nth_error (ext m b) ie) as [e|] eqn:Q; [exists e; tauto|]. apply nth_error_None in Q. rewrite blen in Q. lia.
    Qed.
    Lemma rnext_good ie r : rgood m b ie r -> ie < bn b -> rgood m b (S ie) (rnext m r).
    Proof.
      intros G H. destruct bucket_in as [(_ & Z & _)|(Z1 & Z2 & Z3)]; [lia|]. destruct G as [(G & _)|(_ & G1 & G2)]; [contradiction|].
      destruct (rnext_ok ss spb SS SP m r W G2) as (R1 & R2); [lia|]. right. split; [assumption|]. split; [lia|exact R2].
    Qed.
    Lemma rstart_good : rgood m b 0 (bblk b, bsub b * ss).
    Proof.
      destruct bucket_in as [(Z1 & Z2 & Z3)|(Z1 & Z2 & Z3)]; [left; tauto|right]. split; [assumption|].
      unfold HashMapBase.pos, HashMapBase.start. cbn [fst snd]. split; [lia|]. apply Nat.mul_lt_mono_pos_r; assumption.
    Qed.
    Lemma riter_good ie : ie <= bn b -> rgood m b ie (Nat.iter ie (rnext m) (bblk b, bsub b * ss)).
    Proof.
      induction ie as [|ie IH]; intro H; [apply rstart_good|]. cbn [Nat.iter]. apply rnext_good; [apply IH; lia|lia].
    Qed.

    (** ** The search in one bucket *)

    Lemma low_none (ns : list node) (es : list E) k :
      (forall x, In x ns -> klt k (nkey x) = true) -> (forall e, In e es -> klt k (fst e) = true) -> blook ns es k = None.
    Proof.
      intros H1 H2. unfold HashMapBase.blook. rewrite nfind_none.
      - apply alook_none. intros e He. rewrite keq_sym. apply (klt_neq hash cmp HH), H2, He.
      - intros x Hx. rewrite keq_sym. apply (klt_neq hash cmp HH), H1, Hx.
    Qed.
    Lemma skipn_nth {A} (l : list A) n x : nth_error l n = Some x -> skipn n l = x :: skipn (S n) l.
    Proof. revert n. induction l as [|a l IH]; intros [|n] H; try discriminate; cbn in *; [congruence|]. apply IH, H. Qed.
    Lemma skipn_skipn' {A} (l : list A) x y : skipn x (skipn y l) = skipn (y + x) l.
    Proof. revert y. induction l as [|a l IH]; intros [|y]; [rewrite ?skipn_nil; reflexivity..| |]; cbn [skipn Nat.add]; [reflexivity|apply IH]. Qed.
    Lemma in_skipn_nth {A} (l : list A) n x : In x (skipn n l) -> exists t, n <= t /\ nth_error l t = Some x.
    Proof. intro H. apply In_nth_error in H. destruct H as (j & H). rewrite nth_error_skipn' in H. exists (n + j). split; [lia|exact H]. Qed.
    Lemma nth_in_skipn {A} (l : list A) n t x : n <= t -> nth_error l t = Some x -> In x (skipn n l).
    Proof. intros H Q. apply nth_error_In with (n := t - n). rewrite nth_error_skipn'. replace (n + (t - n)) with t by lia. exact Q. Qed.

    Definition cut (k : K) (j : nat) : Prop := forall t e, nth_error (ext m b) t = Some e -> klt k (fst e) = (j <=? t).

    (** What the search finds in the nodes [ns] and the external values from [ie]. *)
    Inductive found (ns : list node) (nd : option K) (ie : nat) : iter -> K -> Prop :=
    | Found_int pre n suf ie' r : ns = pre ++ n :: suf -> ndel n = false -> ie <= ie' <= bn b -> rgood m b ie' r ->
        (forall t e, nth_error (ext m b) t = Some e -> ie <= t -> klt (nkey n) (fst e) = (ie' <=? t)) ->
        found ns nd ie (at_int i ie' n r) (nkey n)
    | Found_ext pre suf nd' ie' e r : ns = pre ++ suf -> nth_error (ext m b) ie' = Some e -> ie <= ie' -> rgood m b ie' r ->
        (pre = [] /\ nd' = nd \/ exists pre' n, pre = pre' ++ [n] /\ nd' = Some (nkey n)) ->
        (forall x, In x pre -> klt (nkey x) (fst e) = true) -> (forall x, In x suf -> klt (fst e) (nkey x) = true) ->
        found ns nd ie (at_ext i ie' nd' (fst e) r) (fst e).

    Hypothesis AE : asc (map fst (ext m b)).
    Notation es := (ext m b).

    Lemma es_lt t t' e e' : nth_error es t = Some e -> nth_error es t' = Some e' -> t < t' -> klt (fst e) (fst e') = true.
    Proof.
      intros H1 H2 H. eapply (FOP_nth (fun a b => klt a b = true)); [exact AE|exact H|..]; rewrite nth_error_map;
        [rewrite H1|rewrite H2]; reflexivity.
    Qed.
    Lemma es_ge t e e' : nth_error es t = Some e -> In e' (skipn (S t) es) -> klt (fst e) (fst e') = true.
    Proof. intros H1 H2. apply in_skipn_nth in H2. destruct H2 as (t' & H2 & H3). eapply es_lt; [exact H1|exact H3|lia]. Qed.

    Lemma search_ok : forall ns nd ie r, asc (map nkey ns) -> ie <= bn b -> rgood m b ie r ->
      exists y, search m i (bn b) ns nd ie r = Some y
        /\ match y with
           | inl it => exists k1, found ns nd ie it k1 /\ blook ns (skipn ie es) k1 <> None
                         /\ forall k2, klt k2 k1 = true -> blook ns (skipn ie es) k2 = None
           | inr r' => rgood m b (bn b) r' /\ forall k2, blook ns (skipn ie es) k2 = None
           end.
    Proof.
      induction ns as [|n ns IH]; intros nd ie r A LE G; cbn [HashMapIterModel.search].
      - destruct (Nat.ltb_spec ie (bn b)) as [LT|GE].
        + destruct (rvalue_good ie r G LT) as (e & R1 & R2). rewrite R1. eexists. split; [reflexivity|]. exists (fst e).
          rewrite (skipn_nth _ _ _ R2). split; [|split].
          * eapply (Found_ext [] nd ie [] [] nd ie e r); [reflexivity|exact R2|lia|exact G|left; tauto|contradiction|contradiction].
          * unfold HashMapBase.blook. cbn [HashMapBase.nfind List.find]. rewrite alook_cons, (keq_refl cmp SW). discriminate.
          * intros k2 H. apply low_none; [contradiction|]. intros e' [<-|He]; [exact H|]. eapply klt_trans; [exact H|eapply es_ge; eassumption].
        + assert (ie = bn b) by lia. subst ie. eexists. split; [reflexivity|]. split; [exact G|]. intro k2.
          rewrite skipn_all2 by (rewrite blen; lia). reflexivity.
      - cbn [map] in A. apply asc_cons in A. destruct A as (A1 & A2).
        assert (A1' : forall x, In x ns -> klt (nkey n) (nkey x) = true) by (intros x Hx; apply A1, in_map, Hx). clear A1.
        (* a node that wins: the external values not after it are skipped *)
        assert (WIN : forall ie' r', ie <= ie' <= bn b -> rgood m b ie' r' ->
          (forall t e, nth_error es t = Some e -> ie <= t -> klt (nkey n) (fst e) = (ie' <=? t)) ->
          (forall t e, nth_error es t = Some e -> ie <= t < ie' -> keq (nkey n) (fst e) = true) ->
          exists y, (if ndel n then search m i (bn b) ns (Some (nkey n)) ie' r' else Some (inl (at_int i ie' n r'))) = Some y
            /\ match y with
               | inl it => exists k1, found (n :: ns) nd ie it k1 /\ blook (n :: ns) (skipn ie es) k1 <> None
                             /\ forall k2, klt k2 k1 = true -> blook (n :: ns) (skipn ie es) k2 = None
               | inr r' => rgood m b (bn b) r' /\ forall k2, blook (n :: ns) (skipn ie es) k2 = None
               end).
        { intros ie' r' LE' G' CU EQ. destruct (ndel n) eqn:D.
          - assert (T : forall k2, blook (n :: ns) (skipn ie es) k2 = if keq (nkey n) k2 then None else blook ns (skipn ie' es) k2).
            { intro k2. unfold HashMapBase.blook. rewrite nfind_cons. destruct (keq (nkey n) k2) eqn:Q; [rewrite D; reflexivity|].
              destruct (nfind ns k2); [reflexivity|].
              replace (skipn ie es) with (firstn (ie' - ie) (skipn ie es) ++ skipn (ie' - ie) (skipn ie es)) by apply firstn_skipn.
              assert (SK : skipn (ie' - ie) (skipn ie es) = skipn ie' es).
              { rewrite skipn_skipn'. f_equal. lia. }
              rewrite SK, alook_app, alook_none; [reflexivity|]. intros e He. destruct (keq (fst e) k2) eqn:Q2; [|reflexivity].
              exfalso. apply In_nth_error in He. destruct He as (t & He).
              assert (Ht : t < ie' - ie).
              { assert (Z : nth_error (firstn (ie' - ie) (skipn ie es)) t <> None) by congruence. apply nth_error_Some in Z.
                rewrite firstn_length in Z. lia. }
              rewrite nth_error_firstn', nth_error_skipn' in He by exact Ht.
              assert (Z := EQ _ _ He ltac:(lia)). rewrite (keq_trans cmp SW _ _ _ Z Q2) in Q. discriminate. }
            destruct (IH (Some (nkey n)) ie' r' A2 (proj2 LE') G') as (y & Y1 & Y2). exists y. split; [exact Y1|].
            destruct y as [it|r2].
            + destruct Y2 as (k1 & F & N1 & N2). exists k1.
              assert (GT : klt (nkey n) k1 = true).
              { inversion F; subst.
                - apply A1'. apply in_or_app. right. left. reflexivity.
                - rewrite (CU _ _ H0) by lia. apply Nat.leb_le. lia. }
              split; [|split].
              * inversion F; subst.
                -- eapply (Found_int (n :: pre ++ n0 :: suf) nd ie (n :: pre)); [reflexivity|assumption|lia|assumption|].
                   intros t e He Ht. destruct (Nat.le_gt_cases ie' t) as [Q|Q]; [apply H3; assumption|].
                   transitivity false; [|symmetry; apply Nat.leb_gt; lia].
                   destruct (klt (nkey n0) (fst e)) eqn:Z; [|reflexivity].
                   assert (C2 := klt_trans _ _ _ GT Z). rewrite (CU t e He Ht) in C2. apply Nat.leb_le in C2. lia.
                -- eapply (Found_ext (n :: pre ++ suf) nd ie (n :: pre)); [reflexivity|eassumption|lia|assumption| | |assumption].
                   ++ right. destruct H3 as [(-> & ->)|(pre' & n' & -> & ->)]; [exists [], n; split; reflexivity|].
                      exists (n :: pre'), n'. split; reflexivity.
                   ++ intros x [<-|Hx]; [exact GT|]. match goal with H : forall x, In x pre -> _ |- _ => apply H, Hx end.
              * rewrite T, (klt_neq hash cmp HH _ _ GT). exact N1.
              * intros k2 H. rewrite T. destruct (keq (nkey n) k2); [reflexivity|apply N2, H].
            + destruct Y2 as (Y2 & Y3). split; [exact Y2|]. intro k2. rewrite T. destruct (keq (nkey n) k2); [reflexivity|apply Y3].
          - eexists. split; [reflexivity|]. exists (nkey n). split; [|split].
            + eapply (Found_int (n :: ns) nd ie [] n ns); [reflexivity|exact D|exact LE'|exact G'|exact CU].
            + unfold HashMapBase.blook. rewrite nfind_cons, (keq_refl cmp SW), D. discriminate.
            + intros k2 H. apply low_none.
              * intros x [<-|Hx]; [exact H|]. eapply klt_trans; [exact H|apply A1', Hx].
              * intros e He. apply in_skipn_nth in He. destruct He as (t & Ht & He).
                destruct (Nat.le_gt_cases ie' t) as [Q|Q].
                -- eapply klt_trans; [exact H|]. rewrite (CU t e He Ht). apply Nat.leb_le, Q.
                -- rewrite <- (klt_keq_r (nkey n) (fst e) k2); [exact H|]. apply (EQ t); [exact He|lia]. }
        destruct (Nat.ltb_spec ie (bn b)) as [LT|GE].
        + destruct (rvalue_good ie r G LT) as (e & R1 & R2). rewrite R1.
          destruct (kleq (nkey n) (fst e)) eqn:KL.
          * cbv zeta. destruct (keq (nkey n) (fst e)) eqn:KE.
            -- apply WIN; [lia|apply rnext_good; assumption| |].
               ++ intros t e' He' Ht. rewrite (klt_keq_l _ _ (fst e') KE). destruct (Nat.leb_spec (S ie) t) as [Q|Q].
                  ** eapply es_lt; [exact R2|exact He'|lia].
                  ** assert (t = ie) by lia. subst t. replace e' with e by congruence. apply klt_irr.
               ++ intros t e' He' Ht. assert (t = ie) by lia. subst t. replace e' with e by congruence. exact KE.
            -- destruct (kleq_cases hash cmp HH _ _ KL) as [KT|KT]; [|congruence].
               apply WIN; [lia|exact G| |intros; lia].
               intros t e' He' Ht. transitivity true; [|symmetry; apply Nat.leb_le, Ht].
               destruct (Nat.eq_dec t ie) as [->|Q]; [replace e' with e by congruence; exact KT|].
               eapply klt_trans; [exact KT|]. eapply es_lt; [exact R2|exact He'|lia].
          * apply kleq_false in KL. eexists. split; [reflexivity|]. exists (fst e).
            assert (LO : forall x, In x (n :: ns) -> klt (fst e) (nkey x) = true).
            { intros x [<-|Hx]; [exact KL|]. eapply klt_trans; [exact KL|apply A1', Hx]. }
            split; [|split].
            -- eapply (Found_ext (n :: ns) nd ie [] (n :: ns) nd ie e r); [reflexivity|exact R2|lia|exact G|left; tauto|contradiction|exact LO].
            -- unfold HashMapBase.blook. rewrite nfind_none.
               ++ rewrite (skipn_nth _ _ _ R2), alook_cons, (keq_refl cmp SW). discriminate.
               ++ intros x Hx. rewrite keq_sym. apply (klt_neq hash cmp HH), LO, Hx.
            -- intros k2 H. apply low_none.
               ++ intros x Hx. eapply klt_trans; [exact H|apply LO, Hx].
               ++ rewrite (skipn_nth _ _ _ R2). intros e' [<-|He]; [exact H|]. eapply klt_trans; [exact H|eapply es_ge; eassumption].
        + assert (ie = bn b) by lia. subst ie. apply WIN; [lia|exact G| |intros; lia].
          intros t e He Ht. exfalso. assert (Z : nth_error es t <> None) by congruence. apply nth_error_Some in Z. rewrite blen in Z. lia.
    Qed.

    Lemma seek_ok k : forall cnt ie r, ie + cnt = bn b -> rgood m b ie r ->
      (forall t e, nth_error es t = Some e -> t < ie -> klt k (fst e) = false) ->
      exists ie' r', seek hash cmp ss spb m k cnt ie r = Some (ie', r') /\ ie' <= bn b /\ rgood m b ie' r' /\ cut k ie'.
    Proof.
      induction cnt as [|cnt IH]; intros ie r Hc G H; cbn [seek].
      - exists ie, r. split; [reflexivity|]. split; [lia|]. split; [exact G|]. intros t e He.
        assert (t < bn b) by (rewrite <- blen; apply nth_error_Some; congruence).
        rewrite (H t e He) by lia. symmetry. apply Nat.leb_gt. lia.
      - destruct (rvalue_good ie r G) as (e & R1 & R2); [lia|]. rewrite R1. destruct (klt k (fst e)) eqn:Q.
        + exists ie, r. split; [reflexivity|]. split; [lia|]. split; [exact G|]. intros t e' He.
          destruct (Nat.leb_spec ie t) as [Z|Z]; [|apply (H t e' He), Z].
          destruct (Nat.eq_dec t ie) as [->|Z2]; [replace e' with e by congruence; exact Q|].
          eapply klt_trans; [exact Q|]. eapply es_lt; [exact R2|exact He|lia].
        + apply IH; [lia|apply rnext_good; [exact G|lia]|]. intros t e' He Ht.
          destruct (Nat.eq_dec t ie) as [->|Z]; [replace e' with e by congruence; exact Q|]. apply (H t e' He). lia.
    Qed.
  End Bucket.

  (** ** Where an iterator is *)

  Definition iat (c : core) (it : iter) (k : K) : Prop :=
    let sp := i_sp it in
    exists b, nth_error (bks c) (is_b sp) = Some b /\ is_b sp = B (length (bks c)) k /\ keq (is_key sp) k = true
      /\ match is_src sp with
         | Internal =>
             (exists k' n, is_node sp = Some k' /\ nfind (blist b) k' = Some n /\ keq (nkey n) k = true /\ ndel n = false)
             /\ (is_valid sp = true -> is_ext sp <= bn b /\ cut (mem c) b k (is_ext sp))
             /\ match i_rd it with Some r => is_valid sp = true /\ rgood (mem c) b (is_ext sp) r | None => True end
         | External =>
             nfind (blist b) k = None
             /\ (exists e, nth_error (ext (mem c) b) (is_ext sp) = Some e /\ keq (fst e) k = true)
             /\ is_valid sp = true
             /\ match i_rd it with Some r => rgood (mem c) b (is_ext sp) r | None => True end
             /\ match is_node sp with
                | Some k' => exists pre n suf, blist b = pre ++ n :: suf /\ keq (nkey n) k' = true
                                               /\ forall x, In x pre -> klt k (nkey x) = false
                | None => True
                end
         | Unknown => False
         end.

  (** The node of an iterator at an external value is not behind the value. *)
  Definition slow (it : iter) : Prop :=
    is_src (i_sp it) = External -> forall k', is_node (i_sp it) = Some k' -> klt (is_key (i_sp it)) k' = false.

  Lemma chain_from_split (l : list node) k n : nfind l k = Some n ->
    exists pre suf, l = pre ++ n :: suf /\ chain_from cmp l k = Some (n :: suf).
  Proof.
    induction l as [|x l IH]; [discriminate|]. rewrite nfind_cons. cbn [chain_from]. destruct (keq (nkey x) k).
    - intro H. injection H as ->. exists [], l. split; reflexivity.
    - intro H. destruct (IH H) as (pre & suf & -> & Q). exists (x :: pre), suf. split; [reflexivity|exact Q].
  Qed.
  Lemma nfind_here (l pre suf : list node) n k : asc (map nkey l) -> l = pre ++ n :: suf -> keq (nkey n) k = true -> nfind l k = Some n.
  Proof.
    intros A -> Q. rewrite nfind_app, nfind_cons, Q, nfind_none; [reflexivity|]. intros x Hx.
    rewrite map_app in A. apply FOP_app in A. destruct A as (_ & _ & A). cbn [map] in A.
    assert (Z := A (nkey x) (nkey n) (in_map _ _ _ Hx) (or_introl eq_refl)). rewrite <- (keq_r cmp SW _ _ (nkey x) Q).
    apply (klt_neq hash cmp HH), Z.
  Qed.
  Lemma drop_leq_split (l : list node) k : asc (map nkey l) ->
    exists p, l = p ++ drop_leq hash cmp l k /\ (forall x, In x p -> klt k (nkey x) = false)
      /\ (forall x, In x (drop_leq hash cmp l k) -> klt k (nkey x) = true).
  Proof.
    induction l as [|n l IH]; intro A; [exists []; repeat split; contradiction|]. cbn [drop_leq].
    cbn [map] in A. apply asc_cons in A. destruct A as (A1 & A2). destruct (kleq (nkey n) k) eqn:Q.
    - destruct (IH A2) as (p & P1 & P2 & P3). exists (n :: p). split; [cbn [app]; rewrite <- P1; reflexivity|]. split; [|exact P3].
      intros x [<-|Hx]; [apply kleq_true, Q|apply P2, Hx].
    - exists []. apply kleq_false in Q. split; [reflexivity|]. split; [contradiction|].
      intros x [<-|Hx]; [exact Q|]. eapply klt_trans; [exact Q|apply A1, in_map, Hx].
  Qed.

  (** ** One step *)

  Section Step.
    Variable c : core.
    Hypothesis WF : wf (mem c) (bks c).
    Notation m := (mem c).
    Notation bs := (bks c).
    Notation NBK := (length bs).

    Let W : wfmem m := proj1 WF.
    Let LY : layout m bs := proj1 (proj2 WF).
    Let HB := proj2 (proj2 (proj2 WF)).

    Lemma iat_value it k : iat c it k ->
      exists e, value hash cmp ss spb c it = Some e /\ keq (fst e) k = true /\ look m bs k = Some (snd e).
    Proof.
      intros (b & NB & HBK & HK & H). unfold value. rewrite NB. destruct (HB _ _ NB) as (A1 & A2 & _).
      unfold HashMapProofs.look. rewrite <- HBK, NB. unfold HashMapBase.blook. destruct (is_src (i_sp it)) eqn:SR; [| |contradiction].
      - destruct H as ((k' & n & H1 & H2 & H3 & H4) & _). rewrite H1. destruct (chain_from_split _ _ _ H2) as (pre & suf & Q1 & Q2).
        rewrite Q2. cbn [hd_error]. exists (nval n). split; [reflexivity|]. split; [exact H3|].
        rewrite (nfind_here _ _ _ _ k A1 Q1 H3), H4. reflexivity.
      - destruct H as (H1 & (e & H2 & H3) & H4 & H5 & _). rewrite H1.
        assert (LT : is_ext (i_sp it) < bn b) by (rewrite <- (blen m bs (is_b (i_sp it)) b LY NB); apply nth_error_Some; congruence).
        assert (R : exists r, reader hash cmp ss spb m b it = Some (is_ext (i_sp it), r) /\ rgood m b (is_ext (i_sp it)) r).
        { unfold reader. destruct (i_rd it) as [r|]; [exists r; split; [reflexivity|exact H5]|].
          unfold init_reader. rewrite H4. eexists. split; [reflexivity|]. apply (riter_good m bs (is_b (i_sp it)) b W LY NB). lia. }
        destruct R as (r & R1 & R2). rewrite R1. cbn [snd].
        destruct (rvalue_good m bs (is_b (i_sp it)) b W LY NB _ _ R2 LT) as (e' & Q1 & Q2). rewrite Q1. exists e'.
        replace e' with e by congruence. split; [reflexivity|]. split; [exact H3|]. eapply (alook_nth hash cmp SW HH); eassumption.
    Qed.

    (** The keys after a position. *)
    Variable aft : K -> bool.
    Hypothesis AU : forall a b, aft a = true -> klt a b = true -> aft b = true.
    Hypothesis AQ : forall a b, keq a b = true -> aft a = aft b.

    Lemma aft_neq x y : aft x = false -> aft y = true -> keq x y = false.
    Proof. intros H1 H2. destruct (keq x y) eqn:Q; [|reflexivity]. rewrite (AQ _ _ Q) in H1. congruence. Qed.
    Lemma aft_ngt x y : aft x = false -> aft y = true -> klt y x = false.
    Proof. intros H1 H2. destruct (klt y x) eqn:Q; [|reflexivity]. rewrite (AU _ _ H2 Q) in H1. discriminate. Qed.

    Definition nodeok (b : bucket) (nd : option K) : Prop :=
      match nd with
      | Some k' => exists pre n suf, blist b = pre ++ n :: suf /\ keq (nkey n) k' = true /\ forall x, In x pre -> aft (nkey x) = false
      | None => True
      end.

    Definition hits (sl : Prop) (i : nat) (y : iter + rpos) : Prop :=
      match y with
      | inl it => (exists k1, aft k1 = true /\ B NBK k1 = i /\ iat c it k1
                    /\ forall k2, aft k2 = true -> B NBK k2 = i -> klt k2 k1 = true -> look m bs k2 = None)
                  /\ (sl -> slow it)
      | inr r => (exists b, nth_error bs i = Some b /\ rgood m b (bn b) r)
                 /\ forall k2, aft k2 = true -> B NBK k2 = i -> look m bs k2 = None
      end.

    Lemma bucket_step (sl : Prop) i b P ns nd ie r : nth_error bs i = Some b -> blist b = P ++ ns ->
      (forall x, In x P -> aft (nkey x) = false) -> (forall x, In x ns -> aft (nkey x) = true) ->
      (forall t e, nth_error (ext m b) t = Some e -> aft (fst e) = (ie <=? t)) -> ie <= bn b -> rgood m b ie r -> nodeok b nd ->
      (sl -> forall k', nd = Some k' -> aft k' = false) ->
      exists y, search m i (bn b) ns nd ie r = Some y /\ hits sl i y.
    Proof.
      intros NB HL HP HN HE LE G ND NS. destruct (HB _ _ NB) as (A1 & A2 & A3 & A4).
      assert (AN : asc (map nkey ns)). { rewrite HL, map_app in A1. apply FOP_app in A1. apply A1. }
      assert (T : forall k2, aft k2 = true -> B NBK k2 = i -> look m bs k2 = blook ns (skipn ie (ext m b)) k2).
      { intros k2 H1 H2. unfold HashMapProofs.look. rewrite H2, NB. unfold HashMapBase.blook. rewrite HL, nfind_app.
        rewrite (nfind_none cmp P) by (intros x Hx; apply aft_neq; [apply HP, Hx|exact H1]).
        destruct (nfind ns k2); [reflexivity|]. rewrite <- (firstn_skipn ie (ext m b)) at 1. rewrite alook_app.
        rewrite (alook_none cmp (firstn _ _)); [reflexivity|]. intros e He. apply aft_neq; [|exact H1].
        apply In_nth_error in He. destruct He as (t & He).
        assert (Ht : t < ie).
        { assert (Z : nth_error (firstn ie (ext m b)) t <> None) by congruence. apply nth_error_Some in Z. rewrite firstn_length in Z. lia. }
        rewrite nth_error_firstn' in He by exact Ht. rewrite (HE t e He). apply Nat.leb_gt, Ht. }
      destruct (search_ok m bs i b W LY NB A2 ns nd ie r AN LE G) as (y & Y1 & Y2). exists y. split; [exact Y1|].
      destruct y as [it|r']; cbn [hits].
      - destruct Y2 as (k1 & F & N1 & N2).
        assert (AK : aft k1 = true).
        { inversion F; subst.
          - apply HN. apply in_or_app. right. left. reflexivity.
          - rewrite (HE _ _ H0). apply Nat.leb_le. assumption. }
        assert (BK : B NBK k1 = i).
        { inversion F; subst.
          - apply A3. rewrite HL. apply in_or_app. right. apply in_or_app. right. left. reflexivity.
          - apply A4. eapply nth_error_In. eassumption. }
        split; [exists k1; split; [exact AK|]; split; [exact BK|]; split|].
        + exists b. destruct F as [pre n suf ie' r' F1 F2 F3 F4 F5|pre suf nd' ie' e r' F1 F2 F3 F4 F5 F6 F7]; cbn [i_sp is_b is_key is_src is_node is_ext is_valid i_rd at_int at_ext].
          * split; [exact NB|]. split; [symmetry; exact BK|]. split; [apply (keq_refl cmp SW)|]. split; [|split].
            -- exists (nkey n), n. split; [reflexivity|]. split; [|split; [apply (keq_refl cmp SW)|exact F2]].
               apply (nfind_here (blist b) (P ++ pre) suf); [exact A1|rewrite HL, F1, app_assoc; reflexivity|apply (keq_refl cmp SW)].
            -- intros _. split; [lia|]. intros t e He. destruct (Nat.le_gt_cases ie t) as [Q|Q]; [apply F5; assumption|].
               transitivity false; [|symmetry; apply Nat.leb_gt; lia]. apply aft_ngt; [|exact AK]. rewrite (HE t e He). apply Nat.leb_gt, Q.
            -- split; [reflexivity|exact F4].
          * split; [exact NB|]. split; [symmetry; exact BK|]. split; [apply (keq_refl cmp SW)|]. split; [|split; [|split; [|split]]].
            -- rewrite HL, F1. apply nfind_none. intros x Hx. apply in_app_or in Hx. destruct Hx as [Hx|Hx].
               ++ apply aft_neq; [apply HP, Hx|exact AK].
               ++ apply in_app_or in Hx. destruct Hx as [Hx|Hx].
                  ** apply (klt_neq hash cmp HH), F6, Hx.
                  ** rewrite keq_sym. apply (klt_neq hash cmp HH), F7, Hx.
            -- exists e. split; [exact F2|apply (keq_refl cmp SW)].
            -- reflexivity.
            -- exact F4.
            -- destruct F5 as [(-> & ->)|(pre' & n' & -> & ->)].
               ++ destruct nd as [k'|]; [|exact I]. destruct ND as (p & n & q & D1 & D2 & D3). exists p, n, q. split; [exact D1|]. split; [exact D2|].
                  intros x Hx. apply aft_ngt; [apply D3, Hx|exact AK].
               ++ exists (P ++ pre'), n', suf. split; [rewrite HL, F1, <- !app_assoc; reflexivity|]. split; [apply (keq_refl cmp SW)|].
                  intros x Hx. apply in_app_or in Hx. destruct Hx as [Hx|Hx]; [apply aft_ngt; [apply HP, Hx|exact AK]|].
                  apply (klt_asym hash cmp SW), F6. apply in_or_app. left. exact Hx.
        + intros k2 H1 H2 H3. rewrite (T k2 H1 H2). apply N2, H3.
        + intros S SR k' NK. destruct F as [pre n suf ie' r' F1 F2 F3 F4 F5|pre suf nd' ie' e r' F1 F2 F3 F4 F5 F6 F7]; cbn [at_int at_ext i_sp is_src is_node is_key] in *; [discriminate|].
          subst nd'. destruct F5 as [(-> & Q)|(pre' & n' & -> & Q)].
          * apply aft_ngt; [apply (NS S); congruence|exact AK].
          * injection Q as ->. apply (klt_asym hash cmp SW), F6. apply in_or_app. right. left. reflexivity.
      - destruct Y2 as (Y2 & Y3). split; [exists b; split; assumption|]. intros k2 H1 H2. rewrite (T k2 H1 H2). apply Y3.
    Qed.
  End Step.

  Lemma lay_next tot (l : list bucket) : forall p i b b', HashMapBase.lay ss spb tot p l ->
    nth_error l i = Some b -> nth_error l (S i) = Some b' -> start b + bn b <= start b'.
  Proof.
    induction l as [|a l IH]; intros p i b b' H N1 N2; [destruct i; discriminate|]. cbn [HashMapBase.lay] in H.
    destruct H as (_ & _ & _ & H). destruct i as [|i].
    - cbn [nth_error] in *. injection N1 as ->. destruct l as [|a' l]; [discriminate|]. injection N2 as ->. apply H.
    - cbn [nth_error] in *. eapply IH; eassumption.
  Qed.
  Lemma rskip_good (m : list (list E)) bs i b b' r : wfmem m -> layout m bs ->
    nth_error bs i = Some b -> nth_error bs (S i) = Some b' -> rgood m b (bn b) r ->
    exists r', rskip ss m r (bblk b') (bsub b') = Some r' /\ rgood m b' 0 r'.
  Proof.
    intros W LY N1 N2 G.
    destruct (bucket_in m bs (S i) b' W LY N2) as [(Z1 & Z2 & Z3)|(Z1 & Z2 & Z3)].
    - destruct G as [(G1 & G2)|(G1 & _)]; [|contradiction]. exists r. unfold rskip. rewrite Z1, G2. cbn [length Nat.eqb].
      split; [reflexivity|]. left. split; [reflexivity|exact G2].
    - destruct G as [(G1 & G2)|(_ & G1 & G2)]; [contradiction|].
      assert (NX : start b + bn b <= start b').
      { unfold HashMapBase.layout in LY. destruct m; [contradiction|]. destruct LY as (LY & _). eapply lay_next; eassumption. }
      pose proof (rstart_good m bs (S i) b' W LY N2) as RS.
      destruct RS as [(RS & _)|(_ & R1 & R2)]; [contradiction|].
      assert (FB : bblk b' < length m). { apply (pos_lt ss spb SS SP m (bblk b', bsub b' * ss) W R2). lia. }
      assert (FR : fst r < length m). { apply (pos_lt ss spb SS SP m r W G2). lia. }
      assert (GE : fst r <= bblk b').
      { destruct (Nat.le_gt_cases (fst r) (bblk b')) as [|Z]; [assumption|]. exfalso.
        assert (Y : S (bblk b') <= fst r) by lia. apply (Nat.mul_le_mono_r _ _ BS) in Y. cbn [Nat.mul] in Y.
        cbn [snd] in R2. unfold HashMapBase.pos, HashMapBase.start in *. cbn [fst snd] in *. lia. }
      unfold rskip. replace (fst r =? length m) with false by (symmetry; apply Nat.eqb_neq; lia).
      replace (bblk b' =? length m) with false by (symmetry; apply Nat.eqb_neq; lia).
      replace (bblk b' <? fst r) with false by (symmetry; apply Nat.ltb_ge; lia).
      eexists. split; [reflexivity|]. right. split; [assumption|]. split; assumption.
  Qed.

  (** The keys from here on. *)
  Definition next_is (c : core) (aft : K -> Prop) (z : option iter) : Prop :=
    match z with
    | Some it => exists k1, aft k1 /\ iat c it k1
                   /\ forall k2, aft k2 -> klt k2 k1 = true -> look (mem c) (bks c) k2 = None
    | None => forall k2, aft k2 -> look (mem c) (bks c) k2 = None
    end.

  (** The same, and the iterator is [slow] if [sl] holds. *)
  Definition next_sl (c : core) (sl : Prop) (aft : K -> Prop) (z : option iter) : Prop :=
    match z with
    | Some it => (exists k1, aft k1 /\ iat c it k1
                   /\ forall k2, aft k2 -> klt k2 k1 = true -> look (mem c) (bks c) k2 = None) /\ (sl -> slow it)
    | None => forall k2, aft k2 -> look (mem c) (bks c) k2 = None
    end.
  Lemma next_sl_is c sl aft z : next_sl c sl aft z -> next_is c aft z.
  Proof. destruct z; [intros (H & _)|intro H]; exact H. Qed.

  Lemma nth_skipn_cons {A} (l : list A) i x r : skipn i l = x :: r -> nth_error l i = Some x /\ skipn (S i) l = r.
  Proof. revert i. induction l as [|a l IH]; intros [|i] H; try discriminate; cbn in *; [injection H as -> ->; tauto|apply IH, H]. Qed.

  Lemma go_on_ok (c : core) (sl : Prop) aft : wf (mem c) (bks c) ->
    (forall a b, aft a = true -> klt a b = true -> aft b = true) -> (forall a b, keq a b = true -> aft a = aft b) ->
    forall rest i y, skipn (S i) (bks c) = rest -> hits c aft sl i y ->
    (forall x, i < B (length (bks c)) x -> aft x = true) ->
    exists z, go_on hash cmp ss spb (mem c) i y rest = Some z
      /\ next_sl c sl (fun x => aft x = true /\ i <= B (length (bks c)) x) z.
  Proof.
    intros WF AU AQ. pose proof WF as (W & LY & _ & HB).
    induction rest as [|b rest IH]; intros i y SK HY HA; (destruct y as [it|r]; cbn [go_on hits] in *;
      [destruct HY as ((k1 & H1 & H2 & H3 & H4) & HS); exists (Some it); split; [reflexivity|]; split; [|exact HS]; exists k1; split; [split; [exact H1|lia]|];
       split; [exact H3|]; intros k2 (Q1 & Q2) Q3; apply H4; [exact Q1| |exact Q3];
       pose proof (B_klt _ _ _ _ _ _ _ _ _ PO (length (bks c)) _ _ Q3); lia|]).
    - destruct HY as ((b & NB & G) & HN). exists None. split; [reflexivity|]. intros k2 (Q1 & Q2).
      destruct (Nat.eq_dec (B (length (bks c)) k2) i) as [Q|Q]; [apply HN; assumption|].
      unfold HashMapProofs.look. assert (LS : length (bks c) <= S i).
      { assert (Z := skipn_length (S i) (bks c)). rewrite SK in Z. cbn [length] in Z. lia. }
      replace (nth_error (bks c) (B (length (bks c)) k2)) with (@None bucket); [reflexivity|]. symmetry. apply nth_error_None. lia.
    - destruct HY as ((b0 & NB & G) & HN). destruct (nth_skipn_cons _ _ _ _ SK) as (N2 & SK2).
      destruct (rskip_good _ _ _ _ _ _ W LY NB N2 G) as (r' & R1 & R2). rewrite R1. destruct (HB _ _ N2) as (A1 & A2 & A3 & A4).
      destruct (bucket_step c WF aft AU AQ sl (S i) b [] (blist b) None 0 r' N2 eq_refl) as (y & Y1 & Y2).
      + contradiction.
      + intros x Hx. apply HA. rewrite (A3 x Hx). lia.
      + intros t e He. cbn [Nat.leb]. apply HA. rewrite (A4 e (nth_error_In _ _ He)). lia.
      + lia.
      + exact R2.
      + exact I.
      + discriminate.
      + rewrite Y1. destruct (IH (S i) y SK2 Y2) as (z & Z1 & Z2); [intros x Hx; apply HA; lia|]. exists z. split; [exact Z1|].
        assert (Lo : forall k2, aft k2 = true /\ i <= B (length (bks c)) k2 -> look (mem c) (bks c) k2 = None \/ S i <= B (length (bks c)) k2).
        { intros k2 (Q1 & Q2). destruct (Nat.eq_dec (B (length (bks c)) k2) i) as [Q|Q]; [left; apply HN; assumption|right; lia]. }
        destruct z as [it|]; cbn [next_sl] in *.
        * destruct Z2 as ((k1 & (Z2 & Z2') & Z3 & Z4) & Z5). split; [|exact Z5]. exists k1. split; [split; [exact Z2|lia]|]. split; [exact Z3|].
          intros k2 Q1 Q2. destruct (Lo k2 Q1) as [Q|Q]; [exact Q|]. apply Z4; [split; [apply Q1|exact Q]|exact Q2].
        * intros k2 Q1. destruct (Lo k2 Q1) as [Q|Q]; [exact Q|]. apply Z2. split; [apply Q1|exact Q].
  Qed.

  (** [++] moves to the next key of the map. *)
  Lemma find_next_sl (c : core) it k : wf (mem c) (bks c) -> iat c it k ->
    exists z, find_next c it = Some z /\ next_sl c (slow it) (fun x => klt k x = true) z.
  Proof.
    intros WF H. pose proof WF as (W & LY & _ & HB). destruct H as (b & NB & HBK & HK & H).
    unfold HashMapIterModel.find_next. rewrite NB. destruct (HB _ _ NB) as (A1 & A2 & A3 & A4).
    assert (AU : forall a b, klt k a = true -> klt a b = true -> klt k b = true) by (intros; eapply klt_trans; eassumption).
    assert (AQ : forall a b, keq a b = true -> klt k a = klt k b) by (intros; apply klt_keq_r; assumption).
    assert (NX : forall P ns nd ie r, blist b = P ++ ns ->
      (forall x, In x P -> klt k (nkey x) = false) -> (forall x, In x ns -> klt k (nkey x) = true) ->
      cut (mem c) b k ie -> ie <= bn b -> rgood (mem c) b ie r -> nodeok (klt k) b nd ->
      (slow it -> forall k', nd = Some k' -> klt k k' = false) ->
      exists z, (do y <- search (mem c) (is_b (i_sp it)) (bn b) ns nd ie r;
                 go_on hash cmp ss spb (mem c) (is_b (i_sp it)) y (skipn (S (is_b (i_sp it))) (bks c))) = Some z
                /\ next_sl c (slow it) (fun x => klt k x = true) z).
    { intros P ns nd ie r Q1 Q2 Q3 Q4 Q5 Q6 Q7 Q8.
      destruct (bucket_step c WF (klt k) AU AQ (slow it) (is_b (i_sp it)) b P ns nd ie r NB Q1 Q2 Q3 Q4 Q5 Q6 Q7 Q8) as (y & Y1 & Y2). rewrite Y1.
      destruct (go_on_ok c (slow it) (klt k) WF AU AQ _ (is_b (i_sp it)) y eq_refl Y2) as (z & Z1 & Z2).
      { intros x Hx. eapply (B_lt _ _ _ _ _ _ _ _ _ PO (length (bks c))). rewrite <- HBK. exact Hx. }
      exists z. split; [exact Z1|].
      assert (GE : forall x, klt k x = true -> klt k x = true /\ is_b (i_sp it) <= B (length (bks c)) x).
      { intros x Hx. split; [exact Hx|]. rewrite HBK. apply (B_klt _ _ _ _ _ _ _ _ _ PO), Hx. }
      destruct z as [it'|]; cbn [next_sl] in *.
      - destruct Z2 as ((k1 & (X1 & _) & X2 & X3) & X4). split; [|exact X4]. exists k1. split; [exact X1|]. split; [exact X2|]. intros k2 G1 G2. apply X3; [apply GE, G1|exact G2].
      - intros k2 G1. apply Z2, GE, G1. }
    destruct (is_src (i_sp it)) eqn:SR; [| |contradiction].
    - destruct H as ((k' & n & H1 & H2 & H3 & H4) & H5 & H6).
      assert (R : exists ie r, reader hash cmp ss spb (mem c) b it = Some (ie, r) /\ ie <= bn b /\ rgood (mem c) b ie r /\ cut (mem c) b k ie).
      { unfold reader. destruct (i_rd it) as [r|].
        - destruct H6 as (H6 & H7). destruct (H5 H6) as (H8 & H9). eexists _, _. split; [reflexivity|]. tauto.
        - unfold init_reader. destruct (is_valid (i_sp it)).
          + destruct (H5 eq_refl) as (H8 & H9). eexists _, _. split; [reflexivity|]. split; [exact H8|]. split; [|exact H9].
            apply (riter_good (mem c) (bks c) (is_b (i_sp it)) b W LY NB), H8.
          + rewrite H1. destruct (seek_ok (mem c) (bks c) (is_b (i_sp it)) b W LY NB A2 k' (bn b) 0 (bblk b, bsub b * ss)) as (ie & r & S1 & S2 & S3 & S4);
              [reflexivity|apply (rstart_good (mem c) (bks c) (is_b (i_sp it)) b W LY NB)|intros; lia|].
            exists ie, r. split; [exact S1|]. split; [exact S2|]. split; [exact S3|]. intros t e He. rewrite <- (S4 t e He).
            symmetry. apply klt_keq_l. apply find_some in H2. destruct H2 as (_ & H2). rewrite keq_sym in H2. eapply (keq_trans cmp SW); eassumption. }
      destruct R as (ie & r & R1 & R2 & R3 & R4). rewrite R1, H1.
      destruct (chain_from_split _ _ _ H2) as (pre & suf & Q1 & Q2). rewrite Q2. cbn [tl].
      pose proof A1 as A1'. rewrite Q1, map_app in A1'. apply FOP_app in A1'. destruct A1' as (_ & A5 & A6). cbn [map] in A5, A6.
      apply asc_cons in A5. destruct A5 as (A5 & _).
      assert (PR : forall x, In x pre -> klt k (nkey x) = false).
      { intros x Hx. rewrite <- (klt_keq_l _ _ (nkey x) H3). apply (klt_asym hash cmp SW). apply A6; [apply in_map, Hx|left; reflexivity]. }
      apply (NX (pre ++ [n]) suf (Some k') ie r).
      + rewrite <- app_assoc. exact Q1.
      + intros x Hx. apply in_app_or in Hx. destruct Hx as [Hx|[<-|[]]]; [apply PR, Hx|].
        rewrite <- (klt_keq_l _ _ (nkey n) H3). apply klt_irr.
      + intros x Hx. rewrite <- (klt_keq_l _ _ (nkey x) H3). apply A5, in_map, Hx.
      + exact R4.
      + exact R2.
      + exact R3.
      + exists pre, n, suf. split; [exact Q1|]. split; [apply find_some in H2; apply H2|exact PR].
      + intros _ k2 Q. injection Q as <-. apply find_some in H2. destruct H2 as (_ & H2).
        rewrite <- (klt_keq_r _ _ k H2), <- (klt_keq_l _ _ (nkey n) H3). apply klt_irr.
    - destruct H as (H1 & (e & H2 & H3) & H4 & H5 & H6).
      assert (LT : is_ext (i_sp it) < bn b) by (rewrite <- (blen (mem c) (bks c) (is_b (i_sp it)) b LY NB); apply nth_error_Some; congruence).
      assert (R : exists r, reader hash cmp ss spb (mem c) b it = Some (is_ext (i_sp it), r) /\ rgood (mem c) b (is_ext (i_sp it)) r).
      { unfold reader. destruct (i_rd it) as [r|]; [exists r; split; [reflexivity|exact H5]|].
        unfold init_reader. rewrite H4. eexists. split; [reflexivity|]. apply (riter_good (mem c) (bks c) (is_b (i_sp it)) b W LY NB). lia. }
      destruct R as (r & R1 & R2). rewrite R1.
      assert (CU : cut (mem c) b k (S (is_ext (i_sp it)))).
      { intros t e' He. rewrite <- (klt_keq_l _ _ (fst e') H3). destruct (Nat.leb_spec (S (is_ext (i_sp it))) t) as [Q|Q].
        - eapply (es_lt (mem c) b A2); [exact H2|exact He|lia].
        - destruct (Nat.eq_dec t (is_ext (i_sp it))) as [Z|Z]; [subst t; replace e' with e by congruence; apply klt_irr|].
          apply (klt_asym hash cmp SW). eapply (es_lt (mem c) b A2); [exact He|exact H2|lia]. }
      assert (RN := rnext_good (mem c) (bks c) (is_b (i_sp it)) b W LY NB _ _ R2 LT).
      assert (CH : exists P0 ns, match is_node (i_sp it) with Some k' => chain_from cmp (blist b) k' | None => Some (blist b) end = Some ns
                     /\ blist b = P0 ++ ns /\ (forall x, In x P0 -> klt k (nkey x) = false) /\ nodeok (klt k) b (is_node (i_sp it))).
      { destruct (is_node (i_sp it)) as [k'|].
        - destruct H6 as (pre & n & suf & Q1 & Q2 & Q3).
          assert (NF := nfind_here (blist b) pre suf n k' A1 Q1 Q2). destruct (chain_from_split _ _ _ NF) as (pre2 & suf2 & Q4 & Q5).
          assert (EQ : pre2 = pre /\ suf2 = suf).
          { clear - Q1 Q4 A1 SW HH. rewrite Q1 in Q4. rewrite Q1 in A1. clear Q1. revert pre2 Q4 A1.
            induction pre as [|a pre IHp]; intros pre2 Q4 A1.
            - destruct pre2 as [|a2 pre2]; cbn [app] in Q4; [injection Q4 as ->; tauto|]. injection Q4 as <- ->. exfalso.
              cbn [app map] in A1. apply asc_cons in A1. destruct A1 as (A1 & _).
              assert (Z := A1 (nkey n)). rewrite klt_irr in Z. discriminate Z. rewrite map_app. apply in_or_app. right. left. reflexivity.
            - destruct pre2 as [|a2 pre2]; cbn [app] in Q4.
              + injection Q4 as -> <-. exfalso. cbn [app map] in A1. apply asc_cons in A1. destruct A1 as (A1 & _).
                assert (Z := A1 (nkey n)). rewrite klt_irr in Z. discriminate Z. rewrite map_app. apply in_or_app. right. left. reflexivity.
              + injection Q4 as -> Q4. cbn [app map] in A1. apply asc_cons in A1. destruct A1 as (_ & A1).
                destruct (IHp pre2 Q4 A1) as (-> & ->). tauto. }
          destruct EQ as (-> & ->). exists pre, (n :: suf). split; [exact Q5|]. split; [exact Q1|]. split; [exact Q3|].
          exists pre, n, suf. tauto.
        - exists [], (blist b). split; [reflexivity|]. split; [reflexivity|]. split; [contradiction|exact I]. }
      destruct CH as (P0 & ns & C1 & C2 & C3 & C4). rewrite C1.
      assert (AN : asc (map nkey ns)). { rewrite C2, map_app in A1. apply FOP_app in A1. apply A1. }
      destruct (drop_leq_split ns (is_key (i_sp it)) AN) as (p & P1 & P2 & P3).
      apply (NX (P0 ++ p) (drop_leq hash cmp ns (is_key (i_sp it))) (is_node (i_sp it)) (S (is_ext (i_sp it))) (rnext (mem c) r)).
      + rewrite <- app_assoc, <- P1. exact C2.
      + intros x Hx. apply in_app_or in Hx. destruct Hx as [Hx|Hx]; [apply C3, Hx|]. rewrite <- (klt_keq_l _ _ (nkey x) HK). apply P2, Hx.
      + intros x Hx. rewrite <- (klt_keq_l _ _ (nkey x) HK). apply P3, Hx.
      + exact CU.
      + lia.
      + exact RN.
      + exact C4.
      + intros SL k' Q. rewrite <- (klt_keq_l _ _ k' HK). apply (SL SR k' Q).
  Qed.
  Theorem find_next_ok (c : core) it k : wf (mem c) (bks c) -> iat c it k ->
    exists z, find_next c it = Some z /\ next_is c (fun x => klt k x = true) z.
  Proof.
    intros WF H. destruct (find_next_sl c it k WF H) as (z & Z1 & Z2). exists z. split; [exact Z1|eapply next_sl_is, Z2].
  Qed.

  (** [begin()] is the first key. *)
  Theorem begin_ok (c : core) : wf (mem c) (bks c) ->
    exists z, begin hash cmp kdef ss spb c = Some z /\ next_is c (fun _ => True) z.
  Proof.
    intro WF. pose proof WF as (W & LY & _ & HB). unfold begin. destruct (bks c) as [|b rest] eqn:BK.
    - exists None. split; [reflexivity|]. intros k _. unfold HashMapProofs.look. rewrite BK. cbn [length]. destruct (B 0 k); reflexivity.
    - assert (NB : nth_error (bks c) 0 = Some b) by (rewrite BK; reflexivity).
      rewrite <- BK in *. destruct (HB _ _ NB) as (A1 & A2 & A3 & A4).
      unfold HashMapIterModel.find_next. cbn [i_sp is_b is_node is_src is_ext is_key]. rewrite NB.
      unfold reader. cbn [i_rd]. unfold init_reader. cbn [is_valid i_sp is_ext Nat.iter].
      assert (CH : match match blist b with n :: _ => Some (nkey n) | [] => None end with
                   | Some k' => chain_from cmp (blist b) k' | None => Some (blist b) end = Some (blist b)).
      { destruct (blist b) as [|n l]; [reflexivity|]. cbn [chain_from]. rewrite (keq_refl cmp SW). reflexivity. }
      rewrite CH.
      destruct (bucket_step c WF (fun _ => true) (fun _ _ _ _ => eq_refl) (fun _ _ _ => eq_refl) False 0 b [] (blist b)
        (match blist b with n :: _ => Some (nkey n) | [] => None end) 0 (bblk b, bsub b * ss) NB eq_refl) as (y & Y1 & Y2).
      + contradiction.
      + reflexivity.
      + reflexivity.
      + lia.
      + apply (rstart_good (mem c) (bks c) 0 b W LY NB).
      + destruct (blist b) as [|n l] eqn:BL; [exact I|]. exists [], n, l. split; [exact BL|]. split; [apply (keq_refl cmp SW)|contradiction].
      + contradiction.
      + change (Nat.iter 0 (rnext (mem c)) (bblk b, bsub b * ss)) with (bblk b, bsub b * ss). rewrite Y1.
        destruct (go_on_ok c False (fun _ => true) WF (fun _ _ _ _ => eq_refl) (fun _ _ _ => eq_refl) _ 0 y eq_refl Y2 (fun _ _ => eq_refl)) as (z & Z1 & Z2).
        exists z. split; [exact Z1|]. apply next_sl_is in Z2. destruct z as [it'|]; cbn [next_is] in *.
        * destruct Z2 as (k1 & _ & X2 & X3). exists k1. split; [exact I|]. split; [exact X2|]. intros k2 _ G2. apply X3; [|exact G2]. split; [reflexivity|lia].
        * intros k2 _. apply Z2. split; [reflexivity|lia].
  Qed.

  (** ** The loop from [begin()] to [end()] *)

  Lemma filter_len {A} (f g : A -> bool) l x : (forall y, g y = true -> f y = true) -> In x l -> f x = true -> g x = false ->
    length (filter g l) < length (filter f l).
  Proof.
    intros H. assert (LE : forall l, length (filter g l) <= length (filter f l)).
    { induction l0 as [|a l0 IH]; [reflexivity|]. cbn [filter]. destruct (g a) eqn:G; [rewrite (H a G); cbn [length]; lia|].
      destruct (f a); cbn [length]; lia. }
    induction l as [|a l IH]; [contradiction|]. intros [->|Hx] F G; cbn [filter].
    - rewrite F, G. cbn [length]. pose proof (LE l). lia.
    - specialize (IH Hx F G). destruct (g a) eqn:GA; [rewrite (H a GA); cbn [length]; lia|]. destruct (f a); cbn [length]; lia.
  Qed.

  Definition lists (c : core) (aft : K -> Prop) (l : list E) : Prop :=
    asc (map fst l) /\ (forall e, In e l -> aft (fst e) /\ look (mem c) (bks c) (fst e) = Some (snd e))
    /\ (forall k, aft k -> look (mem c) (bks c) k <> None -> exists e, In e l /\ keq (fst e) k = true).

  Lemma collect_ok (c : core) (Hc : wf (mem c) (bks c)) : forall n z (aft : K -> Prop),
    (forall a b, keq a b = true -> aft a -> aft b) -> (forall a b, klt a b = true -> aft a -> aft b) -> next_is c aft z ->
    (forall it k1, z = Some it -> aft k1 -> iat c it k1 -> 
       exists X, asc (map fst X) /\ (forall k, alook X k = look (mem c) (bks c) k) /\ length (filter (fun e => kleq k1 (fst e)) X) <= n) ->
    exists l, (forall f, length l <= f -> collect hash cmp ss spb f c z = Some l) /\ lists c aft l.
  Proof.
    induction n as [|n IH]; intros z aft AQ AU NX HX; (destruct z as [it|]; cbn [next_is] in NX;
      [|exists []; split; [intros [|f] _; reflexivity|]; split; [constructor|]; split; [contradiction|]; intros k Hk Hl; elim Hl; apply NX, Hk]);
      destruct NX as (k1 & N1 & N2 & N3); destruct (HX it k1 eq_refl N1 N2) as (X & X1 & X2 & X3);
      destruct (iat_value c Hc it k1 N2) as (e & V1 & V2 & V3).
    - exfalso. rewrite <- X2 in V3. apply alook_some in V3. destruct V3 as (e' & Y1 & Y2 & Y3).
      assert (Z : In e' (filter (fun e => kleq k1 (fst e)) X)).
      { apply filter_In. split; [exact Y1|]. apply kleq_true. rewrite (klt_keq_l _ _ k1 Y2). apply klt_irr. }
      destruct (filter _ X); [contradiction|cbn [length] in X3; lia].
    - destruct (find_next_ok c it k1 Hc N2) as (z & F1 & F2).
      assert (AQ2 : forall a b, keq a b = true -> klt k1 a = true -> klt k1 b = true).
      { intros a b Q Q2. rewrite <- (klt_keq_r _ _ k1 Q). exact Q2. }
      destruct (IH z (fun x => klt k1 x = true) AQ2 (fun a b Q1 Q2 => klt_trans _ _ _ Q2 Q1) F2) as (l & L1 & L2 & L3 & L4).
      { intros it' k2 _ H1 H2. exists X. split; [exact X1|]. split; [exact X2|]. apply Nat.lt_succ_r.
        assert (V3' := V3). rewrite <- X2 in V3'. apply alook_some in V3'. destruct V3' as (e' & Y1 & Y2 & Y3).
        eapply Nat.lt_le_trans; [|exact X3]. apply (filter_len (fun e => kleq k1 (fst e)) (fun e => kleq k2 (fst e)) X e').
        - intros y Hy. apply kleq_true in Hy. apply kleq_true. destruct (klt (fst y) k1) eqn:Q; [|reflexivity].
          rewrite (klt_trans _ _ _ Q H1) in Hy. discriminate.
        - exact Y1.
        - apply kleq_true. rewrite (klt_keq_l _ _ k1 Y2). apply klt_irr.
        - apply kleq_false. rewrite (klt_keq_l _ _ k2 Y2). exact H1. }
      exists (e :: l). split.
      { intros [|f] Hf; cbn [length] in Hf; [lia|]. cbn [collect]. rewrite V1, F1, (L1 f) by lia. reflexivity. }
      split; [|split].
      + cbn [map]. apply asc_cons. split; [|exact L2]. intros k Hk. apply in_map_iff in Hk. destruct Hk as (e' & <- & He').
        rewrite (klt_keq_l _ _ (fst e') V2). apply L3, He'.
      + assert (AE : aft (fst e)) by (apply (AQ k1); [rewrite keq_sym; exact V2|exact N1]).
        intros e' [<-|He'].
        * split; [exact AE|]. rewrite (look_keq _ _ _ _ _ _ _ _ _ PO _ _ _ _ V2). exact V3.
        * destruct (L3 e' He') as (L5 & L6). split; [|exact L6]. apply (AU k1); assumption.
      + intros k Hk Hl. destruct (klt k1 k) eqn:Q.
        * destruct (L4 k Q Hl) as (e' & E1 & E2). exists e'. split; [right; exact E1|exact E2].
        * destruct (kleq_cases hash cmp HH k k1) as [Q2|Q2]; [apply kleq_true; exact Q| |].
          -- elim Hl. apply N3; assumption.
          -- exists e. split; [left; reflexivity|]. rewrite keq_sym in Q2. eapply (keq_trans cmp SW); eassumption.
  Qed.

  (** Every value once, in the order of the keys. *)
  Theorem traverse_ok (c : core) : wf (mem c) (bks c) ->
    exists l, (forall f, length l <= f -> traverse hash cmp kdef ss spb f c = Some l)
      /\ asc (map fst l) /\ (forall e, In e l -> look (mem c) (bks c) (fst e) = Some (snd e))
      /\ (forall k, look (mem c) (bks c) k <> None -> exists e, In e l /\ keq (fst e) k = true).
  Proof.
    intro WF. destruct (begin_ok c WF) as (z & Z1 & Z2).
    destruct (stream_ok _ _ _ _ _ _ _ _ _ PO _ _ WF) as (Xs & _ & _ & _ & X1 & X2).
    destruct (collect_ok c WF (length (concat Xs)) z (fun _ => True)) as (l & L1 & L2 & L3 & L4); try trivial.
    { intros it k1 _ _ _. exists (concat Xs). split; [exact X1|]. split; [exact X2|].
      rewrite <- (firstn_all (filter _ _)). generalize (concat Xs). intro X.
      rewrite firstn_all. induction X as [|x X IH]; [reflexivity|]. cbn [filter]. destruct (kleq k1 (fst x)); cbn [length]; lia. }
    exists l. split; [|split; [exact L2|split]].
    - intros f Hf. unfold traverse. rewrite Z1. apply L1, Hf.
    - intros e He. apply L3, He.
    - intros k Hk. apply L4; [exact I|exact Hk].
  Qed.

  (** An iterator made by [find], [insert] or after a rebuild, with a new reader. *)
  Lemma points_iat (c : core) it k : wf (mem c) (bks c) -> points hash cmp ss spb bkt c it k -> is_src it <> Unknown -> keq (is_key it) k = true ->
    (is_src it = Internal -> is_valid it = false) -> (is_src it = External -> is_valid it = true /\ is_node it = None) ->
    iat c {| i_sp := it; i_rd := None |} k.
  Proof.
    intros WF (P1 & P2) NU HK HI HE. pose proof WF as (W & LY & _ & HB). unfold iat. cbn [i_sp i_rd].
    destruct (is_src it) eqn:SR; [| |congruence].
    - destruct P2 as (k' & n & Q1 & Q2 & Q3 & Q4). destruct Q3 as (b & B1 & B2). exists b. rewrite P1. split; [exact B1|]. split; [reflexivity|]. split; [exact HK|].
      destruct (HB _ _ B1) as (A1 & _). rewrite (hit_nfind hash cmp SW HH _ _ A1) in B2.
      split; [|split; [rewrite (HI eq_refl); discriminate|exact I]]. exists k', n. split; [exact Q1|].
      rewrite (nfind_keq cmp SW _ _ _ Q2). split; [exact B2|]. split; [apply find_some in B2; apply B2|exact Q4].
    - destruct P2 as (b & e & Q1 & Q2 & Q3 & Q4). exists b. split; [exact Q1|]. split; [exact P1|]. split; [exact HK|].
      destruct (HE eq_refl) as (V1 & V2). rewrite V2. split; [exact Q2|]. split; [exists e; tauto|]. tauto.
  Qed.

  Lemma cfind_iat (c : core) k it : wf (mem c) (bks c) -> bks c <> [] -> cfind hash cmp edef ss spb bkt c k = Some (Some it) ->
    iat c {| i_sp := it; i_rd := None |} k.
  Proof.
    intros WF NE. unfold cfind.
    destruct (fetch_ok _ _ _ edef _ _ _ _ _ junk _ PO _ _ k WF NE) as (b & B1 & B2 & FE). unfold b_of. fold (B (length (bks c)) k). rewrite B1.
    destruct B2 as (A1 & A2 & A3 & A4).
    destruct FE as [(n & F1 & F2 & F3)|(F1 & F0 & r & F2 & F3)]; rewrite F1.
    - destruct (ndel n) eqn:D; [discriminate|]. intro Q. injection Q as <-. exists b. cbn [i_sp i_rd is_b is_key is_src is_node is_valid].
      split; [exact B1|]. split; [reflexivity|]. split; [apply (keq_refl cmp SW)|]. split; [|split; [discriminate|exact I]].
      exists (nkey n), n. rewrite (hit_nfind hash cmp SW HH _ _ A1) in F1. rewrite <- (nfind_keq cmp SW (blist b) k (nkey n)); [|rewrite keq_sym; exact F2]. tauto.
    - rewrite F2. destruct F3 as [(G1 & G2 & G3 & G4)|(G1 & G2)]; rewrite G1; [|discriminate]. intro Q. injection Q as <-.
      exists b. cbn [i_sp i_rd is_b is_key is_src is_node is_valid is_ext].
      split; [exact B1|]. split; [reflexivity|]. split; [apply (keq_refl cmp SW)|]. split; [exact F0|]. split; [exists (snd r); tauto|].
      split; [reflexivity|]. split; [exact I|]. unfold pnode, fnode.
      destruct (chain_split hash cmp SW HH (blist b) k A1) as [(l1 & n & l2 & _ & _ & _ & Z & _)|(l1 & l2 & E1 & E2 & _ & _ & E3 & E4)]; [congruence|].
      rewrite E2. destruct l1 as [|a l1] using rev_ind; [exact I|]. clear IHl1. rewrite app_length. cbn [length]. rewrite Nat.add_1_r.
      rewrite E1, <- app_assoc. cbn [app]. rewrite nth_error_app2 by lia. rewrite Nat.sub_diag. cbn [nth_error].
      exists l1, a, l2. split; [reflexivity|]. split; [apply (keq_refl cmp SW)|]. intros x Hx.
      apply (klt_asym hash cmp SW), E3, in_or_app. left. exact Hx.
  Qed.

  Lemma find_iat s g u (c c' : core) m k evs it : Inv hash cmp ss spb bkt fits s g u c m -> bks c <> [] ->
    (maxbuf c <= S (bufsz c) -> good_p nbuck fits (lf c) (ntot c)) ->
    find hash cmp edef ss spb inc bkt nbuck maxb fits junk c k = Some (c', evs, Some it) ->
    iat c' {| i_sp := it; i_rd := None |} k.
  Proof.
    intros IN NE HG. unfold find.
    destruct (room_inv _ _ _ edef _ _ inc _ nbuck _ _ junk _ PO s g u c m IN NE HG) as (c0 & e0 & R1 & I0 & NE0 & _). rewrite R1.
    pose proof I0 as (WF & HL & _).
    destruct (fetch_ok _ _ _ edef _ _ _ _ _ junk _ PO _ _ k WF NE0) as (b & B1 & B2 & FE). unfold b_of. fold (B (length (bks c0)) k). rewrite B1.
    destruct B2 as (A1 & A2 & A3 & A4).
    destruct FE as [(n & F1 & F2 & F3)|(F1 & F0 & r & F2 & F3)]; rewrite F1.
    - destruct (ndel n) eqn:D; [discriminate|]. intro Q. injection Q as <- _ <-. exists b. cbn [i_sp i_rd is_b is_key is_src is_node is_valid].
      split; [exact B1|]. split; [reflexivity|]. split; [apply (keq_refl cmp SW)|]. split; [|split; [discriminate|exact I]].
      exists (nkey n), n. rewrite (hit_nfind hash cmp SW HH _ _ A1) in F1. rewrite <- (nfind_keq cmp SW (blist b) k (nkey n)); [|rewrite keq_sym; exact F2]. tauto.
    - rewrite F2. destruct F3 as [(G1 & G2 & G3 & G4)|(G1 & G2)]; rewrite G1; [|discriminate].
      destruct (ins_ok _ _ _ _ _ _ _ _ _ PO (mem c0) (bks c0) k b {| nval := snd r; ndel := false |} WF B1 F1 G4) as (U1 & U2 & U3 & U4).
      intro Q. injection Q as <- _ <-. unfold iat. cbn [i_sp i_rd is_b is_key is_src is_node is_valid is_ext].
      cbn [bks mem set_bufsz ins_node upd_bucket set_bks].
      exists (set_list b (lins (blist b) (fki hash cmp (blist b) k) {| nval := snd r; ndel := false |})).
      assert (LT : B (length (bks c0)) k < length (bks c0)) by (apply nth_error_Some; congruence).
      split; [rewrite nth_lset, Nat.eqb_refl by exact LT; reflexivity|]. split; [exact (f_equal (fun n => B n k) (eq_sym U2))|].
      split; [apply (keq_refl cmp SW)|]. cbn [blist bn set_list].
      destruct (chain_ins hash cmp SW HH (blist b) k {| nval := snd r; ndel := false |} A1 F1 G4) as (C1 & C2 & _).
      split; [|split; [|exact I]].
      + exists (fst (snd r)), {| nval := snd r; ndel := false |}. split; [reflexivity|].
        rewrite C2. rewrite keq_sym, G4. repeat split. exact G4.
      + intros _. assert (LE : fst r < length (ext (mem c0) b)) by (apply nth_error_Some; congruence). pose proof WF as (_ & LY & _).
        rewrite (blen _ _ _ _ LY B1) in LE. split; [lia|]. intros t e He. change (nth_error (ext (mem c0) b) t = Some e) in He.
        rewrite <- (klt_keq_l _ _ (fst e) G4). destruct (Nat.leb_spec (fst r + 1) t) as [Q|Q].
        * eapply (es_lt (mem c0) b A2); [exact G3|exact He|lia].
        * destruct (Nat.eq_dec t (fst r)) as [Z|Z]; [subst t; replace e with (snd r) by congruence; apply klt_irr|].
          apply (klt_asym hash cmp SW). eapply (es_lt (mem c0) b A2); [exact He|exact G3|lia].
  Qed.
End Iterate.
