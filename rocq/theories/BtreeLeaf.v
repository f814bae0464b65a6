(** The operations on leaves keep the invariant of the leaves, the content, and what iterators refer to. *)
From Coq Require Import List Bool Arith Lia Sorting.Sorted.
From Verif Require Import OrderLib BtreeModel BtreeBase.
Import ListNotations.

Section Leaf.
  Context {K V : Type}.
  Notation E := (K * V)%type.
  Notation store := (list (nat * @leaf K V)).
  Notation iter := (nat * nat)%type.
  Variable cmp keqb : K -> K -> bool.
  Variable kmax : K.
  Variable lmax : nat.
  Variable alloc : store -> nat.
  Hypothesis Hcmp : strict_weak cmp.
  Hypothesis Hkeq : forall a b, keqb a b = eqv cmp a b.
  Hypothesis Halloc : forall s, lget s (alloc s) = None.
  Notation G := (G cmp).

  Definition Eff (s : store) (its : list iter) (bs : list nat) (s' : store) (its' : list iter) (bs' : list nat)
      (f : nat -> option nat) : Prop :=
    forall j it n n', nth_error its j = Some it -> pts (vw s bs) it n -> f n = Some n' ->
      exists it', nth_error its' j = Some it' /\ pts (vw s' bs') it' n'.

  Lemma Eff_map s its bs s' g bs' f :
    (forall it n n', pts (vw s bs) it n -> f n = Some n' -> pts (vw s' bs') (g it) n') -> Eff s its bs s' (map g its) bs' f.
  Proof.
    intros H j it n n' Hj Hp Hf. exists (g it). split; [|eauto]. now apply map_nth_error.
  Qed.
  Lemma Eff_app s its bs s' its' bs' f l : Eff s its bs s' its' bs' f -> length its <= length its' -> Eff s its bs s' (its' ++ l) bs' f.
  Proof.
    intros H L j it n n' Hj Hp Hf. destruct (H j it n n' Hj Hp Hf) as (it' & Hi & Hp'). exists it'. split; [|easy].
    assert (j < length its) by (apply nth_error_Some; congruence). rewrite nth_error_app1 by lia. easy.
  Qed.
  Lemma Eff_trans s its bs s1 its1 bs1 f s2 its2 bs2 g h :
    Eff s its bs s1 its1 bs1 f -> Eff s1 its1 bs1 s2 its2 bs2 g ->
    (forall n n', h n = Some n' -> exists m, f n = Some m /\ g m = Some n') -> Eff s its bs s2 its2 bs2 h.
  Proof.
    intros H1 H2 H3 j it n n' Hj Hp Hh. apply H3 in Hh as (m & Hf & Hg).
    destruct (H1 j it n m Hj Hp Hf) as (it1 & Hi & Hp1). eauto.
  Qed.

  (** One leaf [b] of a sequence of leaves is replaced by some leaves: the iterators elsewhere only move
      by the difference in size. *)
  Lemma pts_other (s s' : store) A M B it n :
    (forall b, In b A -> D s' b = D s b) -> (forall b, In b B -> D s' b = D s b) -> M <> [] ->
    pts (vw s (A ++ M ++ B)) it n ->
    (In (fst it) A /\ n < length (C s A) /\ forall M'', M'' <> [] -> pts (vw s' A ++ M'') it n)
    \/ (exists m, n = length (C s A) + m /\ pts (vw s (M ++ B)) it m).
  Proof.
    intros HA HB HM H. rewrite vw_app in H. apply pts_app in H.
    2:{ rewrite vw_app. intros X. apply app_eq_nil in X as [X _]. apply vw_nil in X. contradiction. }
    destruct H as [H|(m & H & ->)].
    - left. pose proof (ptin_In _ _ _ H). rewrite vw_fst in *. pose proof (ptin_lt _ _ _ H) as L. rewrite vw_cc in L.
      repeat split; auto. intros M'' N. apply pts_app; [easy|]. left. rewrite (vw_ext s s') by auto. easy.
    - right. exists m. rewrite vw_cc. auto.
  Qed.

  Lemma nodup_mid1 (A : list nat) b B : NoDup (A ++ b :: B) -> ~ In b A /\ ~ In b B /\ (forall x, In x A -> ~ In x B).
  Proof.
    intros H. destruct (NoDup_mid A [b] B) as (H1 & H2 & H3); [easy|].
    repeat split; auto; [apply (H1 b)|apply (H2 b)]; now left.
  Qed.

  (** ** Data of one leaf changes *)
  Lemma G_set_data (s : store) A b B (d : list E) : G s (A ++ b :: B) -> SS cmp (C s A ++ d ++ C s B) -> (d <> [] \/ A = [] /\ B = []) ->
    let s' := lput s b {| ld := d; lp := lsto A None; ln := hdo B None |} in
    G s' (A ++ b :: B) /\ D s' b = d /\ (forall x, x <> b -> D s' x = D s x)
    /\ (forall x, In x A \/ In x B -> D s' x = D s x) /\ C s' (A ++ b :: B) = C s A ++ d ++ C s B.
  Proof.
    intros HG HS HN s'. pose proof (G_at _ _ _ _ _ HG) as Hb.
    destruct (nodup_mid1 _ _ _ (g_nodup _ _ _ HG)) as (NA & NB & NAB).
    assert (D1 : D s' b = d) by (unfold s'; now rewrite D_lput, Nat.eqb_refl).
    assert (D2 : forall x, x <> b -> D s' x = D s x) by (intros x Hx; unfold s'; rewrite D_lput; now apply Nat.eqb_neq in Hx as ->).
    assert (D3 : forall x, In x A \/ In x B -> D s' x = D s x) by (intros x Hx; apply D2; intros ->; tauto).
    assert (D4 : C s' (A ++ b :: B) = C s A ++ d ++ C s B).
    { rewrite C_app, C_cons, D1. f_equal; [apply C_ext; auto|]. f_equal. apply C_ext; auto. }
    assert (LK : forall x, lk s' x = lk s x).
    { intros x. unfold s'. rewrite lk_lput. cbn. destruct (Nat.eqb_spec x b) as [->|N]; [|easy]. unfold lk. now rewrite Hb. }
    repeat split; auto.
    - exact (g_nodup _ _ _ HG).
    - intros x l Hx. unfold s' in Hx. rewrite lget_lput in Hx. destruct (Nat.eqb_spec x b) as [->|N].
      + rewrite in_app_iff; cbn; auto.
      + now apply (g_dom _ _ _ HG) in Hx.
    - eapply links_ext; [|exact (g_link _ _ _ HG)]. auto.
    - now rewrite D4.
    - intros x Hx. destruct (Nat.eq_dec x b) as [->|N].
      + rewrite D1. destruct HN as [HN|[-> ->]]; auto.
      + rewrite D2 by easy. exact (g_ne _ _ _ HG x Hx).
  Qed.

  (** ** Splitting *)
  Lemma last_key_app {A} (l : list (K * A)) e : last_key (l ++ [e]) = Some (fst e).
  Proof. unfold last_key. rewrite app_length; cbn. replace (length l + 1 - 1) with (length l) by lia. now rewrite nth_error_mid. Qed.
  Lemma in_order_ok {A} (l r : list (K * A)) : l <> [] -> r <> [] -> SS cmp (l ++ r) -> in_order cmp l r = true.
  Proof.
    intros Hl Hr H. apply SS_app in H as (_ & _ & H).
    destruct (exists_last Hl) as (l' & e & ->). destruct r as [|x r]; [easy|].
    unfold in_order. rewrite last_key_app. cbn. apply H; [apply in_app_iff; cbn; auto|now left].
  Qed.
  Lemma nth_last {A} (l : list A) n : 0 < n <= length l -> exists l' e, firstn n l = l' ++ [e] /\ nth_error l (n - 1) = Some e.
  Proof.
    intros Hn. destruct (split_at l n) as (a & b & -> & La & -> & _); [lia|].
    destruct (exists_last (l := a)) as (l' & e & ->); [intros ->; cbn in La; lia|].
    exists l', e. split; [easy|]. rewrite app_length in La; cbn in La.
    rewrite <- app_assoc. replace (n - 1) with (length l') by lia. apply nth_error_mid.
  Qed.

  Lemma leaf_split_ok (s : store) its A b B : G s (A ++ b :: B) -> 2 <= length (D s b) ->
    let half := length (D s b) / 2 in
    exists s' its' k nb, leaf_split cmp alloc s its b = Some (s', its', (k, Some nb)) /\ nb = alloc s
      /\ ~ In nb (A ++ b :: B) /\ G s' (A ++ nb :: b :: B)
      /\ D s' nb = firstn half (D s b) /\ D s' b = skipn half (D s b) /\ (forall x, In x A \/ In x B -> D s' x = D s x)
      /\ C s' (A ++ nb :: b :: B) = C s (A ++ b :: B)
      /\ Eff s its (A ++ b :: B) s' its' (A ++ nb :: b :: B) Some /\ length its' = length its
      /\ (forall e, In e (D s' nb) -> cmp k (fst e) = false) /\ (forall e, In e (D s' b) -> cmp k (fst e) = true)
      /\ (exists e, In e (D s b) /\ fst e = k) /\ nth_error its' (length its) = nth_error its (length its).
  Proof.
    intros HG Hlen half. set (nb := alloc s). pose proof (G_at _ _ _ _ _ HG) as Hb.
    destruct (nodup_mid1 _ _ _ (g_nodup _ _ _ HG)) as (NA & NB & NAB).
    assert (Hnb : ~ In nb (A ++ b :: B)).
    { intros X. apply in_split in X as (l1 & l2 & X). rewrite X in HG. pose proof (G_at _ _ _ _ _ HG) as Y.
      unfold nb in Y. rewrite Halloc in Y. discriminate. }
    assert (Hnb' : ~ In nb A /\ nb <> b /\ ~ In nb B) by (rewrite in_app_iff in Hnb; cbn in Hnb; intuition).
    destruct Hnb' as (NbA & Nbb & NbB).
    assert (Hh : 1 <= half /\ half < length (D s b)).
    { unfold half. split; [apply Nat.div_le_lower_bound; lia|apply Nat.div_lt; lia]. }
    destruct (nth_last (D s b) half ltac:(lia)) as (l' & e & El & En).
    destruct (split_at (D s b) half ltac:(lia)) as (dl & dr & Ed & Ldl & Fdl & Sdr).
    rewrite Fdl in El.
    (* the predecessor *)
    assert (S1 : exists s1, match lsto A None with
             | None => Some s
             | Some p => do pl <- lget s p;
                         if in_order cmp (ld pl) (D s b) then Some (lput s p (set_ln pl (Some nb))) else None
             end = Some s1 /\ (forall x, D s1 x = D s x)
             /\ (forall x, ~ In x A -> lk s1 x = lk s x) /\ links s1 None A (Some nb)
             /\ (forall x l, lget s1 x = Some l -> In x (A ++ b :: B))).
    { destruct A as [|a0 A0] eqn:EA.
      - exists s. repeat split; auto. exact (g_dom _ _ _ HG).
      - destruct (exists_last (l := A)) as (A' & a & EA'); [congruence|]. rewrite <- EA in *. clear EA a0 A0. subst A.
        rewrite lsto_snoc.
        pose proof HG as HG'. replace ((A' ++ [a]) ++ b :: B) with (A' ++ a :: b :: B) in HG' by now rewrite <- app_assoc.
        pose proof (G_at _ _ _ _ _ HG') as Ha. rewrite Ha. cbn [ld].
        assert (IO : in_order cmp (D s a) (D s b) = true).
        { apply in_order_ok.
          - destruct (g_ne _ _ _ HG' a) as [X|X]; [rewrite in_app_iff; cbn; auto|easy|].
            apply (f_equal (@length _)) in X. rewrite app_length in X. cbn in X. lia.
          - intros X. rewrite X in Hlen. cbn in Hlen. lia.
          - pose proof (g_sorted _ _ _ HG') as X. rewrite C_app, !C_cons in X. apply SS_app in X as (_ & X & _).
            rewrite app_assoc in X. now apply SS_app in X as (X & _). }
        rewrite IO. eexists. split; [reflexivity|].
        assert (Na : a <> b /\ ~ In a A').
        { destruct (nodup_mid1 A' a (b :: B)) as (X1 & X2 & _).
          { exact (g_nodup _ _ _ HG'). }
          split; [intros ->; apply X2; now left|easy]. }
        repeat split.
        + intros x. rewrite D_lput. destruct (Nat.eqb_spec x a) as [->|]; [|easy]. reflexivity.
        + intros x Hx. rewrite lk_lput. destruct (Nat.eqb_spec x a) as [->|]; [|easy]. exfalso. apply Hx, in_app_iff; cbn; auto.
        + pose proof (g_link _ _ _ HG') as X. apply links_app in X as [X _]. apply links_app. split.
          * eapply links_ext; [|exact X]. intros x Hx. rewrite lk_lput. destruct (Nat.eqb_spec x a) as [->|]; [tauto|easy].
          * cbn. rewrite lk_lput, Nat.eqb_refl. cbn. auto.
        + intros x l Hx. rewrite lget_lput in Hx. destruct (Nat.eqb_spec x a) as [->|].
          * rewrite !in_app_iff; cbn; auto.
          * eapply (g_dom _ _ _ HG). eassumption. }
    destruct S1 as (s1 & E1 & D1 & L1 & LA & G1).
    unfold leaf_split. rewrite Hb. cbn [ld lp ln]. fold nb. rewrite E1. fold half. rewrite En.
    rewrite Fdl, Sdr.
    set (s2 := lput s1 nb _). set (s3 := lput s2 b _).
    assert (Dn : D s3 nb = dl).
    { unfold s3, s2. rewrite !D_lput. apply Nat.eqb_neq in Nbb as ->. now rewrite Nat.eqb_refl. }
    assert (Db : D s3 b = dr) by (unfold s3; now rewrite D_lput, Nat.eqb_refl).
    assert (Dx : forall x, x <> nb -> x <> b -> D s3 x = D s x).
    { intros x X1 X2. unfold s3, s2. rewrite !D_lput. apply Nat.eqb_neq in X1 as ->, X2 as ->. apply D1. }
    assert (DAB : forall x, In x A \/ In x B -> D s3 x = D s x).
    { intros x Hx. apply Dx; intros ->; tauto. }
    assert (CC : C s3 (A ++ nb :: b :: B) = C s (A ++ b :: B)).
    { rewrite !C_app, !C_cons, Dn, Db. rewrite !(C_ext s s3) by auto. rewrite Ed, <- app_assoc. easy. }
    pose proof (g_sorted _ _ _ HG) as SSs.
    assert (SSb : SS cmp (dl ++ dr)).
    { rewrite C_app, C_cons in SSs. apply SS_app in SSs as (_ & X & _). apply SS_app in X as (X & _ & _). now rewrite <- Ed. }
    assert (dlne : dl <> []) by (intros X; rewrite X in Ldl; change (0 = half) in Ldl; lia).
    assert (drne : dr <> []). { intros ->. rewrite app_nil_r in Ed. rewrite Ed in Hh. lia. }
    eexists s3, _, (fst e), nb. split; [reflexivity|]. split; [reflexivity|]. split; [easy|].
    split; [|split; [easy|]; split; [easy|]; split; [easy|]; split; [easy|]; split; [|split; [apply map_length|split; [|split; [|split]]]]].
    - constructor.
      + change (NoDup (A ++ nb :: b :: B)). apply NoDup_Add with (a := nb) (l := A ++ b :: B); [apply Add_app|].
        split; [exact (g_nodup _ _ _ HG)|easy].
      + intros x l Hx. unfold s3, s2 in Hx. rewrite !lget_lput in Hx. rewrite in_app_iff; cbn.
        destruct (Nat.eqb_spec x b); [auto|]. destruct (Nat.eqb_spec x nb); [auto|].
        apply G1 in Hx. rewrite in_app_iff in Hx; cbn in Hx. tauto.
      + pose proof (g_link _ _ _ HG) as X. apply links_app in X as [_ X]. cbn in X. destruct X as [_ X].
        apply links_app. cbn. repeat split.
        * eapply links_ext; [|exact LA]. intros x Hx. unfold s3, s2. rewrite !lk_lput.
          destruct (Nat.eqb_spec x b) as [->|]; [tauto|]. destruct (Nat.eqb_spec x nb) as [->|]; [tauto|easy].
        * unfold s3, s2. rewrite !lk_lput. apply Nat.eqb_neq in Nbb as ->. now rewrite Nat.eqb_refl.
        * unfold s3, s2. rewrite !lk_lput. now rewrite Nat.eqb_refl.
        * eapply links_ext; [|exact X]. intros x Hx. unfold s3, s2. rewrite !lk_lput.
          destruct (Nat.eqb_spec x b) as [->|]; [tauto|]. destruct (Nat.eqb_spec x nb) as [->|]; [tauto|]. apply L1.
          intros XA. now apply (NAB x).
      + now rewrite CC.
      + intros x Hx. left. rewrite in_app_iff in Hx; cbn in Hx.
        destruct (Nat.eq_dec x nb) as [->|N1]; [now rewrite Dn|]. destruct (Nat.eq_dec x b) as [->|N2]; [now rewrite Db|].
        rewrite Dx by easy. destruct (g_ne _ _ _ HG x) as [X|X]; [rewrite in_app_iff; cbn; intuition congruence|easy|].
        exfalso. assert (In b [x]) by (rewrite <- X, in_app_iff; cbn; auto). cbn in *. intuition congruence.
    - apply Eff_map. intros it n n' Hp E0. injection E0 as <-.
      apply (pts_other s s3 A [b] B) in Hp; try easy; [|intros; apply DAB; auto|intros; apply DAB; auto].
      destruct Hp as [(Hi & Hn & Hp)|(m & -> & Hp)].
      + assert (fst it <> b) by (intros X; rewrite X in Hi; tauto). apply Nat.eqb_neq in H as ->. cbn [andb].
        rewrite vw_app. now apply Hp.
      + cbn [app] in Hp. change (vw s (b :: B)) with ((b, D s b) :: vw s B) in Hp. apply pts_cons in Hp.
        rewrite vw_app. apply pts_app; [easy|]. right. exists m. rewrite vw_cc, (C_ext s s3) by auto. split; [|easy].
        change (vw s3 (nb :: b :: B)) with ((nb, D s3 nb) :: (b, D s3 b) :: vw s3 B). rewrite Dn, Db.
        assert (LD : length (D s b) = length dl + length dr) by (rewrite Ed; apply app_length).
        destruct Hp as [(F & -> & Hlt)|(m' & Hp & ->)].
        * rewrite F, Nat.eqb_refl. cbn [andb].
          assert (snd it <= length (D s b)) by (destruct Hlt as [|[_ ?]]; lia).
          apply Nat.leb_le in H as ->. cbn [andb Nat.leb].
          destruct (Nat.ltb_spec (snd it) half) as [X|X].
          -- apply pts_cons. left. cbn [fst snd]. repeat split. left. lia.
          -- apply pts_cons. right. exists (snd it - half). split; [|lia]. apply pts_cons. left. cbn [fst snd]. repeat split.
             destruct Hlt as [Hlt|[Hlt1 Hlt2]]; [left; lia|right]. split; [|lia]. apply vw_nil in Hlt1 as ->. easy.
        * assert (fst it <> b). { apply pts_In in Hp. rewrite vw_fst in Hp. intros X. rewrite X in Hp. tauto. }
          apply Nat.eqb_neq in H as ->. cbn [andb].
          apply pts_cons. right. exists (length dr + m'). split; [|lia]. apply pts_cons. right. exists m'. split; [|easy].
          rewrite (vw_ext s s3) by auto. easy.
    - rewrite Dn. subst dl. intros x Hx. apply in_app_iff in Hx as [Hx|[<-|[]]]; [|now apply cmp_irr].
      apply SS_app in SSb as (SSb & _ & _). apply SS_app in SSb as (_ & _ & X). apply cmp_as; [easy|]. apply X; [easy|now left].
    - rewrite Db. subst dl. intros x Hx. apply SS_app in SSb as (_ & _ & X). apply X; [apply in_app_iff; cbn; auto|easy].
    - exists e. split; [|easy]. rewrite Ed, El, !in_app_iff. cbn. auto.
    - assert (forall X (l : list X), nth_error l (length l) = None) as NE by (intros; now apply nth_error_None).
      rewrite NE. apply nth_error_None. unfold fix_its. now rewrite map_length.
  Qed.

  (** ** Insertion *)
  Definition has {A} (l : list (K * A)) (k : K) : bool :=
    match nth_error l (lower cmp l k) with Some e => eqv cmp (fst e) k | None => false end.

  Record INS (s : store) (its : list iter) (bs : list nat) (x : E) (s' : store) (its' : list iter) (bs' : list nat) (fl : bool) : Prop := {
    i_G : G s' bs';
    i_fl : fl = negb (has (C s bs) (fst x));
    i_C : C s' bs' = if fl then lins (C s bs) (lower cmp (C s bs) (fst x)) x else C s bs;
    i_eff : Eff s its bs s' its' bs' (fun n => Some (if fl && (lower cmp (C s bs) (fst x) <=? n) then S n else n));
    i_new : exists it, nth_error its' (length its) = Some it /\ pts (vw s' bs') it (lower cmp (C s bs) (fst x));
    i_len : length its' = S (length its) }.

  Lemma has_mid (a d c : list E) k : (forall e, In e a -> cmp (fst e) k = true) -> (forall e, In e c -> cmp k (fst e) = true) ->
    SS cmp d ->
    lower cmp (a ++ d ++ c) k = length a + lower cmp d k /\ has (a ++ d ++ c) k = has d k.
  Proof.
    intros Ha Hc Hd.
    assert (HL : lower cmp (a ++ d ++ c) k = length a + lower cmp d k).
    { unfold lower. rewrite lead_app_all by now apply Forall_forall. rewrite lead_app_none; [easy|].
      apply Forall_forall. intros e He. apply cmp_as; auto. }
    split; [easy|]. unfold has. rewrite HL. rewrite nth_error_app2 by lia.
    replace (length a + lower cmp d k - length a) with (lower cmp d k) by lia.
    pose proof (lead_le (fun e : E => cmp (fst e) k) d). fold (lower cmp d k) in H.
    destruct (Nat.ltb_spec (lower cmp d k) (length d)).
    - now rewrite nth_error_app1.
    - rewrite nth_error_app2 by lia. replace (nth_error d (lower cmp d k)) with (@None E) by (symmetry; apply nth_error_None; lia).
      destruct (nth_error c (lower cmp d k - length d)) as [e|] eqn:Ee; [|easy].
      apply nth_error_In in Ee. apply Hc in Ee. unfold eqv. rewrite Ee. now rewrite orb_true_r.
  Qed.

  Lemma lower_in_app (a d c : list E) k : SS cmp (a ++ d ++ c) -> (forall e, In e a -> cmp (fst e) k = true) ->
    (forall e, In e c -> cmp k (fst e) = true) -> lower cmp (a ++ d ++ c) k = length a + lower cmp d k.
  Proof. intros H Ha Hc. apply has_mid; auto. apply SS_app in H as (_ & H & _). now apply SS_app in H as (H & _). Qed.

  Lemma SS_lins (l : list E) x : SS cmp l -> has l (fst x) = false ->
    exists a c, l = a ++ c /\ lower cmp l (fst x) = length a /\ (forall e, In e a -> cmp (fst e) (fst x) = true)
      /\ (forall e, In e c -> cmp (fst x) (fst e) = true) /\ SS cmp (a ++ x :: c) /\ lins l (lower cmp l (fst x)) x = a ++ x :: c.
  Proof.
    intros HS HH. destruct (lower_split cmp Hcmp l (fst x) HS) as (a & c & -> & HL & Ha & Hc).
    exists a, c. rewrite HL. unfold has in HH. rewrite HL in HH. apply SS_app in HS as (Sa & Sc & Sac).
    assert (Hc' : forall e, In e c -> cmp (fst x) (fst e) = true).
    { destruct c as [|y c]; [easy|]. rewrite nth_error_mid in HH.
      assert (Hy : cmp (fst x) (fst y) = true).
      { destruct (cmp (fst x) (fst y)) eqn:Ey; [easy|]. exfalso. rewrite <- not_true_iff_false in HH. apply HH.
        apply eqv_spec. split; [apply Hc; now left|easy]. }
      apply SS_cons in Sc as [Sc _]. intros e [<-|He]; [easy|]. eapply cmp_tr; [exact Hcmp|exact Hy|auto]. }
    repeat split; auto.
    - apply SS_app. repeat split; auto.
      + apply SS_cons. auto.
      + intros e e' He [<-|He']; auto.
    - apply lins_mid.
  Qed.

  Hypothesis Hlmax : 4 <= lmax.

  Lemma leaf_insert_ok s its A b B x : G s (A ++ b :: B) -> length (D s b) <= lmax ->
    (forall e, In e (C s A) -> cmp (fst e) (fst x) = true) -> (forall e, In e (C s B) -> cmp (fst x) (fst e) = true) ->
    exists s' its' sp fl M, leaf_insert cmp kmax lmax alloc s its b x = Some (s', its', sp, fl)
      /\ INS s its (A ++ b :: B) x s' its' (A ++ M ++ B) fl /\ (forall y, In y A \/ In y B -> D s' y = D s y)
      /\ ((M = [b] /\ sp = (kmax, None) /\ length (D s b) <= length (D s' b) <= lmax /\ (forall e, In e (D s' b) -> In e (D s b) \/ e = x))
          \/ exists k nb, M = [nb; b] /\ sp = (k, Some nb) /\ lmin lmax <= length (D s' nb) <= lmax /\ lmin lmax <= length (D s' b) <= lmax
              /\ (forall e, In e (D s' nb) -> cmp k (fst e) = false) /\ (forall e, In e (D s' b) -> cmp k (fst e) = true)
              /\ (forall e, In e (D s' nb) \/ In e (D s' b) -> In e (D s b) \/ e = x)
              /\ (exists e, (In e (D s b) \/ e = x) /\ fst e = k)).
  Proof.
    intros HG Hlen HA HB. pose proof (G_at _ _ _ _ _ HG) as Hb.
    destruct (nodup_mid1 _ _ _ (g_nodup _ _ _ HG)) as (NA & NB & NAB).
    pose proof (g_sorted _ _ _ HG) as HS. rewrite C_app, C_cons in HS.
    assert (HSd : SS cmp (D s b)) by (apply SS_app in HS as (_ & X & _); now apply SS_app in X as (X & _)).
    destruct (has_mid (C s A) (D s b) (C s B) (fst x) HA HB HSd) as [HLow HHas].
    assert (Ci : C s (A ++ b :: B) = C s A ++ D s b ++ C s B) by now rewrite C_app, C_cons.
    rewrite <- Ci in HLow, HHas.
    unfold leaf_insert. rewrite Hb. cbn [ld]. apply Nat.leb_le in Hlen as Hlen'. rewrite Hlen'.
    fold (has (D s b) (fst x)).
    destruct (has (D s b) (fst x)) eqn:EH.
    - (* present *)
      eexists s, _, _, false, [b]. split; [reflexivity|]. split; [|split; [easy|left; repeat split; auto; lia]].
      constructor.
      + exact HG.
      + now rewrite HHas.
      + easy.
      + apply Eff_app; [|easy]. intros j it n n' Hj Hp Hf. cbn in Hf. injection Hf as <-. eauto.
      + exists (b, lower cmp (D s b) (fst x)). split; [apply nth_error_mid|].
        cbn [app]. rewrite vw_app. apply pts_app; [easy|]. right. exists (lower cmp (D s b) (fst x)). rewrite vw_cc. split; [|easy].
        apply pts_cons. left. cbn. repeat split. left.
        apply nth_error_Some. unfold has in EH. destruct (nth_error (D s b) (lower cmp (D s b) (fst x))); easy.
      + rewrite app_length; cbn; lia.
    - destruct (SS_lins (D s b) x HSd EH) as (da & dc & Ed & HLd & Hda & Hdc & Sd & Eins).
      rewrite Eins.
      set (d := da ++ x :: dc) in *. set (p := lower cmp (D s b) (fst x)) in *.
      assert (HS1 : SS cmp (C s A ++ d ++ C s B)).
      { apply SS_app in HS as (S1 & S2 & S3). apply SS_app in S2 as (S4 & S5 & S6).
        apply SS_app. split; [easy|]. split.
        - apply SS_app. repeat split; auto. intros e e' He He'. unfold d in He. apply in_app_iff in He as [He|[<-|He]]; [|auto|].
          + apply S6; [rewrite Ed, in_app_iff; auto|easy].
          + apply S6; [rewrite Ed, in_app_iff; auto|easy].
        - intros e e' He He'. apply in_app_iff in He' as [He'|He']; [|apply S3; [easy|rewrite in_app_iff; auto]].
          unfold d in He'. apply in_app_iff in He' as [He'|[<-|He']]; [|auto|].
          + apply S3; [easy|]. rewrite Ed, !in_app_iff; auto.
          + apply S3; [easy|]. rewrite Ed, !in_app_iff; auto. }
      destruct (G_set_data s A b B d HG HS1) as (HG1 & D1 & D2 & D3 & C1); [left; unfold d; now destruct da|].
      unfold set_ld. cbn [lp ln].
      set (s1 := lput s b _) in *.
      set (g := fun it : iter => if (fst it =? b) && (p <=? snd it) && (snd it <=? length (D s b)) then (b, S (snd it)) else it).
      change (fix_its its b p (length (D s b)) (fun q => (b, S q))) with (map g its).
      assert (Ld : length d = S (length (D s b))) by (unfold d; rewrite Ed, !app_length; cbn; lia).
      assert (Lp : p <= length (D s b)) by (rewrite Ed, app_length; lia).
      assert (Hnew : pts (vw s1 (A ++ b :: B)) (b, p) (lower cmp (C s (A ++ b :: B)) (fst x))).
      { rewrite vw_app. apply pts_app; [easy|]. right. exists p. rewrite vw_cc, (C_ext s s1) by auto. split; [|easy].
        apply pts_cons. left. cbn [fst snd]. repeat split. left. rewrite D1. lia. }
      assert (HEff : Eff s its (A ++ b :: B) s1 (map g its ++ [(b, p)]) (A ++ b :: B)
                (fun n => Some (if lower cmp (C s (A ++ b :: B)) (fst x) <=? n then S n else n))).
      { apply Eff_app; [|now rewrite map_length]. apply Eff_map. intros it n n' Hp Hf. injection Hf as <-.
        rewrite HLow.
        apply (pts_other s s1 A [b] B) in Hp; try easy; [|intros; apply D3; auto|intros; apply D3; auto].
        destruct Hp as [(Hi & Hn & Hp)|(m & -> & Hp)].
        - assert (N : fst it <> b) by (intros X; rewrite X in Hi; tauto). unfold g. apply Nat.eqb_neq in N as ->. cbn [andb].
          destruct (Nat.leb_spec (length (C s A) + p) n); [lia|]. rewrite vw_app. now apply Hp.
        - cbn [app] in Hp. change (vw s (b :: B)) with ((b, D s b) :: vw s B) in Hp. apply pts_cons in Hp.
          rewrite vw_app. apply pts_app; [easy|]. right.
          exists (if p <=? m then S m else m). rewrite vw_cc, (C_ext s s1) by auto.
          split; [|destruct (Nat.leb_spec p m), (Nat.leb_spec (length (C s A) + p) (length (C s A) + m)); lia].
          change (vw s1 (b :: B)) with ((b, D s1 b) :: vw s1 B). rewrite D1.
          destruct Hp as [(F & -> & Hlt)|(m' & Hp & ->)].
          + unfold g. rewrite F, Nat.eqb_refl.
            assert (X : snd it <= length (D s b)) by (destruct Hlt as [|[_ ?]]; lia). apply Nat.leb_le in X as ->.
            cbn [andb]. rewrite andb_true_r.
            destruct (Nat.leb_spec p (snd it)).
            * apply pts_cons. left. cbn [fst snd]. repeat split. rewrite Ld. destruct Hlt as [Hlt|[H1 H2]]; [left; lia|right].
              apply vw_nil in H1 as ->. split; [easy|lia].
            * apply pts_cons. left. repeat split; [easy|]. left. lia.
          + assert (N : fst it <> b). { apply pts_In in Hp. rewrite vw_fst in Hp. intros X. rewrite X in Hp. tauto. }
            unfold g. apply Nat.eqb_neq in N as ->. cbn [andb].
            apply pts_cons. right. exists m'. rewrite (vw_ext s s1) by auto. split; [easy|].
            destruct (Nat.leb_spec p (length (D s b) + m')); lia. }
      assert (Hlen1 : length (map g its ++ [(b, p)]) = S (length its)) by (rewrite app_length, map_length; cbn; lia).
      assert (Hin : forall e, In e d -> In e (D s b) \/ e = x).
      { intros e He. unfold d in He. rewrite Ed, in_app_iff. apply in_app_iff in He as [He|[<-|He]]; auto. }
      assert (HCi : C s A ++ d ++ C s B = lins (C s (A ++ b :: B)) (lower cmp (C s (A ++ b :: B)) (fst x)) x).
      { rewrite HLow, Ci, Ed. unfold d. rewrite HLd.
        replace (C s A ++ (da ++ dc) ++ C s B) with ((C s A ++ da) ++ (dc ++ C s B)) by now rewrite <- !app_assoc.
        rewrite <- app_length, lins_mid, <- !app_assoc. easy. }
      destruct (Nat.leb_spec (length d) lmax) as [Hd|Hd].
      + eexists s1, _, _, true, [b]. split; [reflexivity|]. split; [|split; [easy|left; rewrite D1; repeat split; auto; lia]].
        constructor; auto.
        * now rewrite HHas.
        * cbn [app]. rewrite C1. easy.
        * exists (b, p). split; [|easy]. rewrite <- (map_length g its). apply nth_error_mid.
      + destruct (leaf_split_ok s1 (map g its ++ [(b, p)]) A b B HG1) as
          (s2 & its2 & k & nb & Esp & Enb & Nnb & HG2 & Dn & Db & D4 & C2 & Eff2 & L2 & K1 & K2 & K3 & _).
        { rewrite D1, Ld. destruct (length (D s b)); lia. }
        rewrite Esp. eexists s2, its2, _, true, [nb; b]. split; [reflexivity|].
        rewrite D1 in *.
        assert (Hhalf : lmin lmax <= length d / 2 /\ lmin lmax <= length d - length d / 2).
        { unfold lmin. split; [apply Nat.div_le_mono; lia|].
          assert (length d / 2 <= length d - length d / 2).
          { pose proof (Nat.div_mod (length d) 2 ltac:(lia)). pose proof (Nat.mod_upper_bound (length d) 2 ltac:(lia)). lia. }
          assert (lmax / 2 <= length d / 2) by (apply Nat.div_le_mono; lia). lia. }
        assert (Hdl : length d = S lmax) by lia.
        assert (Hh2 : length d / 2 < length d) by (apply Nat.div_lt; lia).
        assert (Hh3 : 1 <= length d / 2) by (apply Nat.div_le_lower_bound; lia).
        split; [|split].
        * constructor; auto.
          -- now rewrite HHas.
          -- cbn [app]. rewrite C2, C1. easy.
          -- eapply Eff_trans; [exact HEff|exact Eff2|]. intros n n' Hn. cbn [andb] in Hn. eauto.
          -- destruct (Eff2 (length its) (b, p) (lower cmp (C s (A ++ b :: B)) (fst x)) (lower cmp (C s (A ++ b :: B)) (fst x))) as (it' & I1 & I2); [|exact Hnew|reflexivity|eauto].
             rewrite <- (map_length g its). apply nth_error_mid.
          -- now rewrite L2.
        * intros y Hy. rewrite D4, D3; auto.
        * right. exists k, nb. rewrite Dn, Db, firstn_length, skipn_length.
          split; [easy|]. split; [easy|]. split; [lia|]. split; [lia|].
          rewrite Dn in K1. rewrite Db in K2. split; [easy|]. split; [easy|]. split.
          -- intros e He. apply Hin. rewrite <- (firstn_skipn (length d / 2) d). now apply in_app_iff.
          -- destruct K3 as (e & He & Ek). exists e. auto.
  Qed.

  (** ** Erasing *)
  Definition era_f (fl : bool) (i n : nat) : option nat :=
    if fl then if n <? i then Some n else if n =? i then None else Some (n - 1) else Some n.
  Record ERA (s : store) (its : list iter) (bs : list nat) (k : K) (s' : store) (its' : list iter) (bs' : list nat) (fl : bool) : Prop := {
    e_G : G s' bs';
    e_fl : fl = has (C s bs) k;
    e_C : C s' bs' = if fl then lrem (C s bs) (lower cmp (C s bs) k) else C s bs;
    e_eff : Eff s its bs s' its' bs' (era_f fl (lower cmp (C s bs) k));
    e_len : length its' = length its }.

  Lemma has_split (l : list E) k : SS cmp l -> has l k = true ->
    exists a x c, l = a ++ x :: c /\ lower cmp l k = length a /\ eqv cmp (fst x) k = true.
  Proof.
    intros HS HH. unfold has in HH. destruct (nth_error l (lower cmp l k)) as [x|] eqn:Ex; [|easy].
    apply nth_error_split in Ex as (a & c & -> & La). now exists a, x, c.
  Qed.

  Lemma leaf_erase_ok s its A b B k : G s (A ++ b :: B) -> 2 <= length (D s b) \/ A = [] /\ B = [] ->
    (forall e, In e (C s A) -> cmp (fst e) k = true) -> (forall e, In e (C s B) -> cmp k (fst e) = true) ->
    exists s' its' fl, leaf_erase cmp keqb s its b k = Some (s', its', fl)
      /\ ERA s its (A ++ b :: B) k s' its' (A ++ b :: B) fl /\ (forall y, In y A \/ In y B -> D s' y = D s y)
      /\ length (D s' b) + (if fl then 1 else 0) = length (D s b) /\ (forall e, In e (D s' b) -> In e (D s b)).
  Proof.
    intros HG Hlen HA HB. pose proof (G_at _ _ _ _ _ HG) as Hb.
    destruct (nodup_mid1 _ _ _ (g_nodup _ _ _ HG)) as (NA & NB & NAB).
    pose proof (g_sorted _ _ _ HG) as HS. rewrite C_app, C_cons in HS.
    assert (HSd : SS cmp (D s b)) by (apply SS_app in HS as (_ & X & _); now apply SS_app in X as (X & _)).
    destruct (has_mid (C s A) (D s b) (C s B) k HA HB HSd) as [HLow HHas].
    assert (Ci : C s (A ++ b :: B) = C s A ++ D s b ++ C s B) by now rewrite C_app, C_cons.
    rewrite <- Ci in HLow, HHas.
    unfold leaf_erase. rewrite Hb. cbn [ld].
    assert (EH0 : match nth_error (D s b) (lower cmp (D s b) k) with Some e => keqb (fst e) k | None => false end = has (D s b) k).
    { unfold has. destruct (nth_error (D s b) (lower cmp (D s b) k)); [apply Hkeq|easy]. }
    rewrite EH0. clear EH0.
    destruct (has (D s b) k) eqn:EH.
    2:{ exists s, its, false. split; [reflexivity|]. split; [|split; [easy|split; [lia|easy]]].
        constructor; auto. intros j it n n' Hj Hp Hf. cbn in Hf. injection Hf as <-. eauto. }
    destruct (has_split _ _ HSd EH) as (da & x & dc & Ed & HLd & Hx).
    set (p := lower cmp (D s b) k) in *.
    assert (Er : lrem (D s b) p = da ++ dc) by (rewrite Ed, HLd; apply lrem_mid).
    rewrite Er. unfold set_ld. cbn [lp ln].
    assert (HS1 : SS cmp (C s A ++ (da ++ dc) ++ C s B)).
    { rewrite Ed in HS. clear -HS. apply SS_app in HS as (S1 & S2 & S3). apply SS_app in S2 as (S4 & S5 & S6).
      apply SS_app in S4 as (S7 & S8 & S9). apply SS_cons in S8 as [S10 S11].
      apply SS_app. split; [easy|]. split.
      - apply SS_app. split; [|split; [easy|]].
        + apply SS_app. repeat split; auto. intros; apply S9; [easy|now right].
        + intros e e' He He'. apply S6; [|easy]. rewrite in_app_iff in *. cbn. tauto.
      - intros e e' He He'. apply S3; [easy|]. rewrite !in_app_iff in *. cbn. tauto. }
    destruct (G_set_data s A b B (da ++ dc) HG HS1) as (HG1 & D1 & D2 & D3 & C1).
    { destruct Hlen as [Hlen|Hlen]; [|auto]. left. rewrite Ed, app_length in Hlen. cbn in Hlen.
      intros X. apply app_eq_nil in X as [-> ->]. cbn in Hlen. lia. }
    set (s1 := lput s b _) in *.
    set (g := fun it : iter => if (fst it =? b) && (p + 1 <=? snd it) && (snd it <=? length (D s b)) then (b, snd it - 1) else it).
    change (fix_its its b (p + 1) (length (D s b)) (fun q => (b, q - 1))) with (map g its).
    assert (Ld : length (D s b) = S (length (da ++ dc))) by (rewrite Ed, !app_length; cbn; lia).
    assert (Lp : p < length (D s b)) by (rewrite Ld, app_length; lia).
    exists s1, (map g its), true. split; [reflexivity|]. split; [|split; [easy|rewrite D1; split; [lia|]]].
    2:{ intros e He. rewrite Ed. rewrite in_app_iff in *. cbn. tauto. }
    constructor; auto.
    - rewrite C1, HLow, Ci, Ed, HLd.
      replace (C s A ++ (da ++ x :: dc) ++ C s B) with ((C s A ++ da) ++ x :: (dc ++ C s B)) by (rewrite <- !app_assoc; easy).
      rewrite <- app_length, lrem_mid, <- !app_assoc. easy.
    - apply Eff_map. intros it n n' Hp Hf. unfold era_f in Hf. rewrite HLow in Hf.
      apply (pts_other s s1 A [b] B) in Hp; try easy; [|intros; apply D3; auto|intros; apply D3; auto].
      destruct Hp as [(Hi & Hn & Hp)|(m & -> & Hp)].
      + assert (N : fst it <> b) by (intros X; rewrite X in Hi; tauto). unfold g. apply Nat.eqb_neq in N as ->. cbn [andb].
        destruct (Nat.ltb_spec n (length (C s A) + p)); [|lia]. injection Hf as <-. rewrite vw_app. now apply Hp.
      + cbn [app] in Hp. change (vw s (b :: B)) with ((b, D s b) :: vw s B) in Hp. apply pts_cons in Hp.
        rewrite vw_app. apply pts_app; [easy|]. right.
        exists (if m <? p then m else m - 1). rewrite vw_cc, (C_ext s s1) by auto.
        change (vw s1 (b :: B)) with ((b, D s1 b) :: vw s1 B). rewrite D1.
        assert (Em : m <> p /\ n' = length (C s A) + (if m <? p then m else m - 1)).
        { destruct (Nat.ltb_spec (length (C s A) + m) (length (C s A) + p)).
          - injection Hf as <-. destruct (Nat.ltb_spec m p); lia.
          - destruct (Nat.eqb_spec (length (C s A) + m) (length (C s A) + p)); [easy|]. injection Hf as <-.
            destruct (Nat.ltb_spec m p); lia. }
        destruct Em as [Em ->]. split; [|easy].
        destruct Hp as [(F & -> & Hlt)|(m' & Hp & ->)].
        * unfold g. rewrite F, Nat.eqb_refl.
          assert (X : snd it <= length (D s b)) by (destruct Hlt as [|[_ ?]]; lia). apply Nat.leb_le in X as ->.
          cbn [andb]. rewrite andb_true_r.
          destruct (Nat.leb_spec (p + 1) (snd it)), (Nat.ltb_spec (snd it) p); try lia.
          -- apply pts_cons. left. cbn [fst snd]. repeat split. destruct Hlt as [Hlt|[H1 H2]]; [left; lia|right].
             apply vw_nil in H1 as ->. split; [easy|lia].
          -- apply pts_cons. left. repeat split; [easy|]. left. lia.
        * assert (N : fst it <> b). { apply pts_In in Hp. rewrite vw_fst in Hp. intros X. rewrite X in Hp. tauto. }
          unfold g. apply Nat.eqb_neq in N as ->. cbn [andb].
          apply pts_cons. right. exists m'. rewrite (vw_ext s s1) by auto. split; [easy|].
          destruct (Nat.ltb_spec (length (D s b) + m') p); lia.
    - apply map_length.
  Qed.

  (** ** Fusing *)
  Lemma G_ne2 (s : store) A l r B : G s (A ++ l :: r :: B) -> D s l <> [] /\ D s r <> [].
  Proof.
    intros HG. assert (X : forall y, A ++ l :: r :: B <> [y]).
    { intros y X. apply (f_equal (@length _)) in X. rewrite app_length in X. cbn in X. lia. }
    split.
    - destruct (g_ne _ _ _ HG l) as [|Y]; [rewrite in_app_iff; cbn; auto|easy|now apply X in Y].
    - destruct (g_ne _ _ _ HG r) as [|Y]; [rewrite in_app_iff; cbn; auto|easy|now apply X in Y].
  Qed.

  Lemma leaf_fuse_ok (s : store) its A l r B : G s (A ++ l :: r :: B) ->
    exists s' its', leaf_fuse cmp s its l r = Some (s', its') /\ G s' (A ++ r :: B) /\ D s' r = D s l ++ D s r
      /\ (forall y, In y A \/ In y B -> D s' y = D s y) /\ C s' (A ++ r :: B) = C s (A ++ l :: r :: B)
      /\ Eff s its (A ++ l :: r :: B) s' its' (A ++ r :: B) Some /\ length its' = length its.
  Proof.
    intros HG. destruct (G_ne2 _ _ _ _ _ HG) as [Nl Nr].
    pose proof (G_at _ _ _ _ _ HG) as Hl.
    assert (HG' := HG). replace (A ++ l :: r :: B) with ((A ++ [l]) ++ r :: B) in HG' by now rewrite <- app_assoc.
    pose proof (G_at _ _ _ _ _ HG') as Hr. rewrite lsto_snoc in Hr. cbn [hdo] in Hl.
    destruct (nodup_mid1 _ _ _ (g_nodup _ _ _ HG)) as (NA & NB & NAB).
    destruct (nodup_mid1 _ _ _ (g_nodup _ _ _ HG')) as (NrA & NrB & NrAB).
    rewrite in_app_iff in NrA. cbn in NrA, NB.
    assert (Nlr : l <> r) by (intros ->; tauto).
    unfold leaf_fuse. rewrite Hl, Hr. cbn [ld lp ln].
    pose proof (g_sorted _ _ _ HG) as HS. rewrite C_app, !C_cons in HS.
    assert (HSd : SS cmp (D s l ++ D s r)).
    { apply SS_app in HS as (_ & X & _). rewrite app_assoc in X. now apply SS_app in X as (X & _). }
    rewrite (in_order_ok (D s l) (D s r) Nl Nr HSd).
    set (s1 := lput s r _).
    assert (S2 : exists s2, match lsto A None with
               | None => Some s1
               | Some p => do pl <- lget s1 p; Some (lput s1 p (set_ln pl (Some r)))
               end = Some s2 /\ (forall x, D s2 x = D s1 x) /\ (forall x, ~ In x A -> lk s2 x = lk s1 x)
               /\ links s2 None A (Some r) /\ (forall x y, lget s2 x = Some y -> In x (A ++ l :: r :: B))).
    { assert (Gd : forall x y, lget s1 x = Some y -> In x (A ++ l :: r :: B)).
      { intros x y Hx. unfold s1 in Hx. rewrite lget_lput in Hx. destruct (Nat.eqb_spec x r) as [->|].
        - rewrite in_app_iff; cbn; auto.
        - eapply g_dom; eassumption. }
      assert (XA : A = [] \/ exists A' a, A = A' ++ [a]).
      { destruct A as [|a0 A0]; [auto|right]. destruct (exists_last (l := a0 :: A0)) as (A' & a & ->); [easy|eauto]. }
      destruct XA as [EA|(A' & a & EA)].
      - rewrite EA. exists s1. repeat split; auto. now rewrite EA in Gd.
      - assert (EL : lsto A None = Some a) by (rewrite EA; apply lsto_snoc). rewrite EL. subst A.
        assert (HG2 := HG). replace ((A' ++ [a]) ++ l :: r :: B) with (A' ++ a :: l :: r :: B) in HG2 by now rewrite <- app_assoc.
        pose proof (G_at _ _ _ _ _ HG2) as Ha.
        assert (Nar : a <> r) by (intros ->; apply NrA; left; rewrite in_app_iff; cbn; auto).
        assert (Ha1 : lget s1 a = lget s a). { unfold s1. rewrite lget_lput. now apply Nat.eqb_neq in Nar as ->. }
        rewrite Ha1, Ha. eexists. split; [reflexivity|].
        assert (Na : ~ In a A') by (destruct (nodup_mid1 A' a (l :: r :: B)) as (X1 & _); [exact (g_nodup _ _ _ HG2)|easy]).
        repeat split.
        + intros x. rewrite D_lput. destruct (Nat.eqb_spec x a) as [->|]; [|easy]. unfold D at 2. rewrite Ha1, Ha. reflexivity.
        + intros x Hx. rewrite lk_lput. destruct (Nat.eqb_spec x a) as [->|]; [|easy]. exfalso. apply Hx, in_app_iff; cbn; auto.
        + pose proof (g_link _ _ _ HG2) as X. apply links_app in X as [X _]. apply links_app. split.
          * eapply links_ext; [|exact X]. intros x Hx. rewrite lk_lput. destruct (Nat.eqb_spec x a) as [->|]; [tauto|].
            unfold s1. rewrite lk_lput. destruct (Nat.eqb_spec x r) as [->|]; [|easy].
            exfalso. apply NrA. left. rewrite in_app_iff; cbn; auto.
          * cbn. rewrite lk_lput, Nat.eqb_refl. cbn. auto.
        + intros x y Hx. rewrite lget_lput in Hx. destruct (Nat.eqb_spec x a) as [->|].
          * rewrite !in_app_iff; cbn; auto.
          * eapply Gd. eassumption. }
    destruct S2 as (s2 & E2 & D2 & L2 & LA & G2). rewrite E2.
    set (s3 := ldel s2 l).
    assert (Dr : D s3 r = D s l ++ D s r).
    { unfold s3. rewrite D_ldel. apply not_eq_sym, Nat.eqb_neq in Nlr as ->. rewrite D2. unfold s1. now rewrite D_lput, Nat.eqb_refl. }
    assert (Dx : forall x, x <> l -> x <> r -> D s3 x = D s x).
    { intros x X1 X2. unfold s3. rewrite D_ldel. apply Nat.eqb_neq in X1 as ->. rewrite D2. unfold s1. rewrite D_lput.
      now apply Nat.eqb_neq in X2 as ->. }
    assert (DAB : forall x, In x A \/ In x B -> D s3 x = D s x) by (intros x Hx; apply Dx; intros ->; tauto).
    assert (CC : C s3 (A ++ r :: B) = C s (A ++ l :: r :: B)).
    { rewrite !C_app, !C_cons, Dr. rewrite !(C_ext s s3) by auto. now rewrite <- app_assoc. }
    eexists s3, _. split; [reflexivity|]. split; [|split; [easy|]; split; [easy|]; split; [easy|]; split].
    - constructor.
      + pose proof (g_nodup _ _ _ HG) as X. apply NoDup_remove_1 in X. easy.
      + intros x y Hx. unfold s3 in Hx. rewrite lget_ldel in Hx. destruct (Nat.eqb_spec x l) as [|N]; [easy|].
        apply G2 in Hx. rewrite in_app_iff in *. cbn in *. intuition congruence.
      + pose proof (g_link _ _ _ HG) as X. apply links_app in X as [_ X]. cbn in X. destruct X as (_ & X1 & X2).
        apply links_app. cbn. repeat split.
        * eapply links_ext; [|exact LA]. intros x Hx. unfold s3. rewrite lk_ldel. destruct (Nat.eqb_spec x l) as [->|]; [tauto|easy].
        * unfold s3. rewrite lk_ldel. apply not_eq_sym, Nat.eqb_neq in Nlr as ->. rewrite L2 by tauto.
          unfold s1. now rewrite lk_lput, Nat.eqb_refl.
        * eapply links_ext; [|exact X2]. intros x Hx. unfold s3. rewrite lk_ldel. destruct (Nat.eqb_spec x l) as [->|]; [tauto|].
          rewrite L2 by (intros XA; apply (NAB x XA); now right). unfold s1. rewrite lk_lput.
          destruct (Nat.eqb_spec x r) as [->|]; [tauto|easy].
      + rewrite CC. exact (g_sorted _ _ _ HG).
      + intros x Hx. left. destruct (Nat.eq_dec x r) as [->|N2].
        * rewrite Dr. intros X. apply app_eq_nil in X. tauto.
        * assert (x <> l). { intros ->. rewrite in_app_iff in Hx. cbn in Hx. intuition. }
          rewrite Dx by easy. destruct (g_ne _ _ _ HG x) as [|Y]; [|easy|].
          { rewrite in_app_iff in *. cbn in *. intuition. }
          apply (f_equal (@length _)) in Y. rewrite app_length in Y. cbn in Y. lia.
    - unfold fix_its. rewrite map_map. apply Eff_map. intros it n n' Hp E0. injection E0 as <-.
      apply (pts_other s s3 A [l; r] B) in Hp; try easy; [|intros; apply DAB; auto|intros; apply DAB; auto].
      destruct Hp as [(Hi & Hn & Hp)|(m & -> & Hp)].
      + assert (N1 : fst it <> l) by (intros X; rewrite X in Hi; tauto).
        assert (N2 : fst it <> r) by (intros X; rewrite X in Hi; tauto).
        apply Nat.eqb_neq in N1, N2. rewrite N2. cbn [andb]. rewrite N1. cbn [andb].
        rewrite vw_app. now apply Hp.
      + cbn [app] in Hp. change (vw s (l :: r :: B)) with ((l, D s l) :: (r, D s r) :: vw s B) in Hp. apply pts_cons in Hp.
        rewrite vw_app. apply pts_app; [easy|]. right. exists m. rewrite vw_cc, (C_ext s s3) by auto. split; [|easy].
        change (vw s3 (r :: B)) with ((r, D s3 r) :: vw s3 B). rewrite Dr.
        destruct Hp as [(F & -> & Hlt)|(m' & Hp & ->)].
        * rewrite F. apply Nat.eqb_neq in Nlr. rewrite Nlr. cbn [andb]. rewrite F, Nat.eqb_refl. cbn [andb Nat.leb].
          destruct Hlt as [Hlt|[Hlt _]]; [|easy].
          assert (X : snd it <= length (D s l)) by lia. apply Nat.leb_le in X as ->.
          apply pts_cons. left. cbn [fst snd]. repeat split. left. rewrite app_length. lia.
        * apply pts_cons in Hp. destruct Hp as [(F & -> & Hlt)|(m2 & Hp & ->)].
          -- rewrite F, Nat.eqb_refl. cbn [andb Nat.leb].
             assert (X : snd it <= length (D s r)) by (destruct Hlt as [|[_ ?]]; lia). apply Nat.leb_le in X as ->.
             cbn [fst snd]. apply not_eq_sym, Nat.eqb_neq in Nlr as ->. cbn [andb].
             apply pts_cons. left. cbn [fst snd]. repeat split; [lia|]. rewrite app_length.
             destruct Hlt as [Hlt|[H1 H2]]; [left; lia|right]. apply vw_nil in H1 as ->. split; [easy|lia].
          -- assert (X := Hp). apply pts_In in X. rewrite vw_fst in X.
             assert (N1 : fst it <> l) by (intros Y; rewrite Y in X; tauto).
             assert (N2 : fst it <> r) by (intros Y; rewrite Y in X; tauto).
             apply Nat.eqb_neq in N1, N2. rewrite N2. cbn [andb]. rewrite N1. cbn [andb].
             apply pts_cons. right. exists m2. rewrite (vw_ext s s3) by auto. split; [easy|]. rewrite app_length. lia.
    - unfold fix_its. now rewrite !map_length.
  Qed.

  (** ** Balancing *)
  Lemma leaf_balance_ok (s : store) its A l r B : G s (A ++ l :: r :: B) ->
    lmax < length (D s l) + length (D s r) -> length (D s l) <= lmax -> length (D s r) <= lmax ->
    length (D s l) < lmin lmax \/ length (D s r) < lmin lmax ->
    exists s' its' k, leaf_balance cmp lmax s its l r = Some (s', its', k) /\ G s' (A ++ l :: r :: B)
      /\ D s' l ++ D s' r = D s l ++ D s r
      /\ lmin lmax <= length (D s' l) <= lmax /\ lmin lmax <= length (D s' r) <= lmax
      /\ (forall y, In y A \/ In y B -> D s' y = D s y) /\ C s' (A ++ l :: r :: B) = C s (A ++ l :: r :: B)
      /\ Eff s its (A ++ l :: r :: B) s' its' (A ++ l :: r :: B) Some /\ length its' = length its
      /\ (forall e, In e (D s' l) -> cmp k (fst e) = false) /\ (forall e, In e (D s' r) -> cmp k (fst e) = true)
      /\ (exists e, In e (D s' l) /\ fst e = k).
  Proof.
    intros HG Hbig Ll Lr Hund. destruct (G_ne2 _ _ _ _ _ HG) as [Nl Nr].
    pose proof (G_at _ _ _ _ _ HG) as Hl.
    assert (HG' := HG). replace (A ++ l :: r :: B) with ((A ++ [l]) ++ r :: B) in HG' by now rewrite <- app_assoc.
    pose proof (G_at _ _ _ _ _ HG') as Hr. rewrite lsto_snoc in Hr. cbn [hdo] in Hl.
    destruct (nodup_mid1 _ _ _ (g_nodup _ _ _ HG)) as (NA & NB & NAB).
    destruct (nodup_mid1 _ _ _ (g_nodup _ _ _ HG')) as (NrA & NrB & NrAB).
    rewrite in_app_iff in NrA. cbn in NrA, NB.
    assert (Nlr : l <> r) by (intros ->; tauto).
    assert (Nlr1 := Nlr). apply Nat.eqb_neq in Nlr1. assert (Nlr2 : (r =? l) = false) by (apply Nat.eqb_neq; congruence).
    unfold leaf_balance. rewrite Hl, Hr. cbn [ld lp ln]. cbv zeta.
    pose proof (g_sorted _ _ _ HG) as HS. rewrite C_app, !C_cons in HS.
    assert (HSd : SS cmp (D s l ++ D s r)).
    { apply SS_app in HS as (_ & X & _). rewrite app_assoc in X. now apply SS_app in X as (X & _). }
    rewrite (in_order_ok (D s l) (D s r) Nl Nr HSd). cbn [orb].
    set (dl := D s l) in *. set (dr := D s r) in *.
    set (nl := (length dl + length dr) / 2). set (nr := length dl + length dr - nl).
    assert (Hnl : lmin lmax <= nl) by (unfold nl, lmin; apply Nat.div_le_mono; lia).
    assert (Hnr : nl <= nr /\ nr <= S nl).
    { unfold nr, nl. pose proof (Nat.div_mod (length dl + length dr) 2 ltac:(lia)).
      pose proof (Nat.mod_upper_bound (length dl + length dr) 2 ltac:(lia)). lia. }
    assert (Htot : nl + nr = length dl + length dr).
    { unfold nr. assert (nl <= length dl + length dr) by (unfold nl; apply Nat.div_le_upper_bound; lia). lia. }
    clearbody nr. assert (Hmin2 : 2 * lmin lmax <= lmax) by (unfold lmin; apply Nat.mul_div_le; lia).
    clearbody nl.
    assert (Cond : (nl <=? lmax) && (lmin lmax <=? nl) && (nr <=? lmax) && (lmin lmax <=? nr) && true = true).
    { rewrite !andb_true_iff, !Nat.leb_le. lia. }
    rewrite Cond. clear Cond.
    assert (Hne : nl <> length dl) by lia.
    (* a common form of both cases *)
    assert (X : exists dl' dr' g, (if nl <? length dl then
                 let mv := length dl - nl in
                 Some (firstn nl dl, skipn nl dl ++ dr,
                       map (fun it => if (fst it =? r) && (snd it <=? length dr) then (r, snd it + mv)
                                      else if (fst it =? l) && (nl <=? snd it) && (snd it <=? length dl) then (r, snd it - nl)
                                      else it) its)
               else if nr <? length dr then
                 let mv := length dr - nr in
                 Some (dl ++ firstn mv dr, skipn mv dr,
                       map (fun it => if (fst it =? r) && (mv <=? snd it) && (snd it <=? length dr) then (r, snd it - mv)
                                      else if (fst it =? r) && (snd it <=? mv - 1) then (l, snd it + length dl)
                                      else it) its)
               else None) = Some (dl', dr', map g its) /\ dl' ++ dr' = dl ++ dr /\ length dl' = nl /\ length dr' = nr
               /\ (forall it, fst it <> l -> fst it <> r -> g it = it)
               /\ (forall q, q < length dl -> g (l, q) = if q <? nl then (l, q) else (r, q - nl))
               /\ (forall q, q <= length dr -> g (r, q) = if length dl + q <? nl then (l, length dl + q) else (r, length dl + q - nl))).
    { destruct (Nat.ltb_spec nl (length dl)) as [H1|H1].
      - eexists _, _, _. cbv zeta. split; [reflexivity|]. split; [now rewrite app_assoc, firstn_skipn|].
        split; [rewrite firstn_length; lia|]. split; [rewrite app_length, skipn_length; lia|]. split; [|split].
        + intros it X1 X2. apply Nat.eqb_neq in X1, X2. now rewrite X2, X1.
        + intros q Hq. cbn [fst snd]. rewrite Nlr1, Nat.eqb_refl. cbn [andb].
          destruct (Nat.leb_spec nl q), (Nat.ltb_spec q nl); try lia; cbn [andb]; [|easy].
          destruct (Nat.leb_spec q (length dl)); [easy|lia].
        + intros q Hq. cbn [fst snd]. rewrite Nat.eqb_refl. cbn [andb]. apply Nat.leb_le in Hq as ->.
          destruct (Nat.ltb_spec (length dl + q) nl); [lia|]. f_equal. lia.
      - destruct (Nat.ltb_spec nr (length dr)) as [H2|H2]; [|lia].
        eexists _, _, _. cbv zeta. split; [reflexivity|]. split; [now rewrite <- app_assoc, firstn_skipn|].
        split; [rewrite app_length, firstn_length; lia|]. split; [rewrite skipn_length; lia|]. split; [|split].
        + intros it X1 X2. apply Nat.eqb_neq in X1, X2. now rewrite X2.
        + intros q Hq. cbn [fst snd]. rewrite Nlr1. cbn [andb]. destruct (Nat.ltb_spec q nl); [easy|lia].
        + intros q Hq. cbn [fst snd]. rewrite Nat.eqb_refl. cbn [andb]. apply Nat.leb_le in Hq as ->.
          rewrite andb_true_r.
          destruct (Nat.leb_spec (length dr - nr) q), (Nat.ltb_spec (length dl + q) nl); try lia; [f_equal; lia|].
          destruct (Nat.leb_spec q (length dr - nr - 1)); [f_equal; lia|lia]. }
    destruct X as (dl' & dr' & g & EX & Ed & Ldl & Ldr & Go & Gl & Gr). cbv zeta in EX. rewrite EX. clear EX.
    assert (Nl' : dl' <> []). { intros X. rewrite X in Ldl. cbn in Ldl. assert (2 <= lmin lmax) by (unfold lmin; apply Nat.div_le_lower_bound; lia). lia. }
    assert (Nr' : dr' <> []). { intros X. rewrite X in Ldr. cbn in Ldr. assert (2 <= lmin lmax) by (unfold lmin; apply Nat.div_le_lower_bound; lia). lia. }
    destruct (exists_last Nl') as (dl0 & e & El).
    assert (LKd : last_key dl' = Some (fst e)) by (rewrite El; apply last_key_app). cbv beta iota zeta. rewrite LKd.
    unfold set_ld. cbn [lp ln].
    set (s' := lput _ r _).
    assert (Dl : D s' l = dl'). { unfold s'. rewrite !D_lput, Nlr1, Nat.eqb_refl. easy. }
    assert (Dr : D s' r = dr'). { unfold s'. rewrite !D_lput, Nat.eqb_refl. easy. }
    assert (Dx : forall x, x <> l -> x <> r -> D s' x = D s x).
    { intros x X1 X2. unfold s'. rewrite !D_lput. apply Nat.eqb_neq in X1, X2. now rewrite X2, X1. }
    assert (DAB : forall x, In x A \/ In x B -> D s' x = D s x) by (intros x Hx; apply Dx; intros ->; tauto).
    assert (CC : C s' (A ++ l :: r :: B) = C s (A ++ l :: r :: B)).
    { rewrite !C_app, !C_cons, Dl, Dr. rewrite !(C_ext s s') by auto. fold dl dr. f_equal. rewrite !app_assoc. now rewrite Ed. }
    assert (LK : forall x, lk s' x = lk s x).
    { intros x. unfold s'. rewrite !lk_lput. cbn. unfold lk. destruct (Nat.eqb_spec x r) as [->|]; [now rewrite Hr|].
      destruct (Nat.eqb_spec x l) as [->|]; [now rewrite Hl|easy]. }
    eexists s', _, (fst e). split; [reflexivity|]. rewrite Dl, Dr.
    split; [|split; [easy|]; split; [lia|]; split; [lia|]; split; [easy|]; split; [easy|]; split; [|split; [apply map_length|split; [|split]]]].
    - constructor.
      + exact (g_nodup _ _ _ HG).
      + intros x y Hx. unfold s' in Hx. rewrite !lget_lput in Hx. destruct (Nat.eqb_spec x r) as [->|]; [rewrite in_app_iff; cbn; auto|].
        destruct (Nat.eqb_spec x l) as [->|]; [rewrite in_app_iff; cbn; auto|]. eapply g_dom; eassumption.
      + eapply links_ext; [|exact (g_link _ _ _ HG)]. auto.
      + rewrite CC. exact (g_sorted _ _ _ HG).
      + intros x Hx. destruct (Nat.eq_dec x l) as [->|N1]; [rewrite Dl; auto|]. destruct (Nat.eq_dec x r) as [->|N2]; [rewrite Dr; auto|].
        rewrite Dx by easy. exact (g_ne _ _ _ HG x Hx).
    - apply Eff_map. intros it n n' Hp E0. injection E0 as <-.
      apply (pts_other s s' A [l; r] B) in Hp; try easy; [|intros; apply DAB; auto|intros; apply DAB; auto].
      destruct Hp as [(Hi & Hn & Hp)|(m & -> & Hp)].
      + rewrite Go by (intros X; rewrite X in Hi; tauto). rewrite vw_app. now apply Hp.
      + cbn [app] in Hp. change (vw s (l :: r :: B)) with ((l, dl) :: (r, dr) :: vw s B) in Hp. apply pts_cons in Hp.
        rewrite vw_app. apply pts_app; [easy|]. right. exists m. rewrite vw_cc, (C_ext s s') by auto. split; [|easy].
        change (vw s' (l :: r :: B)) with ((l, D s' l) :: (r, D s' r) :: vw s' B). rewrite Dl, Dr.
        destruct it as [ib iq]; cbn [fst snd] in *.
        destruct Hp as [(F & -> & Hlt)|(m' & Hp & ->)].
        * subst ib. destruct Hlt as [Hlt|[Hlt _]]; [|easy]. rewrite Gl by easy.
          destruct (Nat.ltb_spec iq nl).
          -- apply pts_cons. left. cbn [fst snd]. repeat split. left. lia.
          -- apply pts_cons. right. exists (iq - nl). split; [|lia]. apply pts_cons. left. cbn [fst snd]. repeat split. left. lia.
        * apply pts_cons in Hp. cbn [fst snd] in Hp. destruct Hp as [(F & -> & Hlt)|(m2 & Hp & ->)].
          -- subst ib. rewrite Gr by (destruct Hlt as [|[_ ?]]; lia).
             destruct (Nat.ltb_spec (length dl + iq) nl).
             ++ apply pts_cons. left. cbn [fst snd]. repeat split. left. lia.
             ++ apply pts_cons. right. exists (length dl + iq - nl). split; [|lia]. apply pts_cons. left. cbn [fst snd]. repeat split.
                destruct Hlt as [Hlt|[H1 H2]]; [left; lia|right]. apply vw_nil in H1 as ->. split; [easy|lia].
          -- assert (X := Hp). apply pts_In in X. rewrite vw_fst in X. cbn [fst] in X.
             rewrite Go by (cbn [fst]; intros ->; tauto).
             apply pts_cons. right. exists (length dr' + m2). split; [|lia]. apply pts_cons. right. exists m2.
             rewrite (vw_ext s s') by auto. easy.
    - rewrite El. rewrite <- Ed, El in HSd. intros x Hx. apply in_app_iff in Hx as [Hx|[<-|[]]]; [|now apply cmp_irr].
      apply SS_app in HSd as (X & _ & _). apply SS_app in X as (_ & _ & X). apply cmp_as; [easy|]. apply X; [easy|now left].
    - rewrite <- Ed, El in HSd. intros x Hx. apply SS_app in HSd as (_ & _ & X). apply X; [apply in_app_iff; cbn; auto|easy].
    - exists e. split; [|easy]. rewrite El, in_app_iff. cbn. auto.
  Qed.
End Leaf.
