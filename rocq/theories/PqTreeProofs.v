(** Proofs about the mergers of the priority queue: the loser tree with linked and unlinked
    sequences. *)
From Coq Require Import List Bool Arith Lia Permutation Sorted.
From Verif Require Import SumLib OrderLib LoserProofs PqTreeModel PqTournProofs PqMergeProofs.
Import ListNotations.

Section TreeProofs.
  Variable A : Type.
  Variable cmp : A -> A -> bool.
  Hypothesis SW : strict_weak cmp.
  Variable mn : A.
  Variable arity nslots : nat.
  Hypothesis HA : 1 <= arity.
  Hypothesis HS : max_arity arity <= nslots.
  Notation ge := (ge A cmp).
  Notation deref := (deref A mn).
  Notation run := (run A cmp mn).
  Notation good := (good A cmp mn).
  Notation content := (content A).
  Notation supp := (supp A).
  Notation emits := (emits A cmp mn).
  Notation real := (real A cmp mn).
  Notation tree := (tree A).
  Notation vals arr := (fun j => deref (arr j)).

  Record shape (t : tree) : Prop := {
    sh_k : t_k t = 2 ^ t_log t;
    sh_mx : t_k t <= max_arity arity;
    sh_good : good (t_arr t);
    sh_al : forall j, t_alloc t j = true -> j < t_k t /\ j < arity;
    sh_ne : forall j, t_arr t j <> [] -> t_alloc t j = true;
    sh_nd : NoDup (t_free t);
    sh_fr : forall j, In j (t_free t) <-> j < t_k t /\ j < arity /\ t_alloc t j = false }.
  Definition tight (t : tree) : Prop := forall j, t_alloc t j = true -> t_arr t j <> [].
  Definition tourn (t : tree) : Prop :=
    wins A cmp (t_k t) (t_log t) 1 (snd (t_entry t 0)) (t_entry t) (vals (t_arr t)) /\
    fst (t_entry t 0) = deref (t_arr t (snd (t_entry t 0))).
  Definition tcontent (t : tree) : list A := content (t_k t) (t_arr t).
  Definition wf0 (t : tree) : Prop := shape t /\ tight t /\ tourn t.
  Definition wf (t : tree) : Prop := wf0 t /\ t_size t = length (tcontent t).

  Lemma pow2_pos l : 0 < 2 ^ l.
  Proof. apply Nat.neq_0_lt_0, Nat.pow_nonzero. lia. Qed.
  Lemma shape_supp t : shape t -> supp (t_k t) (t_arr t).
  Proof.
    intros H j Hj. destruct (t_arr t j) as [|x r] eqn:E; [reflexivity|].
    assert (Q : t_alloc t j = true) by (apply (sh_ne _ H); rewrite E; discriminate).
    apply (sh_al _ H) in Q. lia.
  Qed.
  Lemma not_under0 l : ~ under l 1 0.
  Proof. intro Q. apply under_big in Q; lia. Qed.
  Lemma tourn_ext t t' : tourn t -> t_k t' = t_k t -> t_log t' = t_log t -> t_entry t' = t_entry t ->
    (forall j, t_arr t' j = t_arr t j) -> tourn t'.
  Proof.
    intros [H1 H2] Ek El Ee Ea. unfold tourn. rewrite Ek, El, Ee. split.
    - eapply wins_ext; [exact H1|reflexivity|]. intros j d _ _. cbv beta. rewrite Ea. reflexivity.
    - rewrite Ea. exact H2.
  Qed.
  Lemma tourn_best t : shape t -> tourn t -> snd (t_entry t 0) < t_k t /\
    forall j, ge (deref (t_arr t (snd (t_entry t 0)))) (deref (t_arr t j)).
  Proof.
    intros H [W _]. pose proof (sh_k _ H) as K.
    destruct (wins_sub _ _ _ _ _ _ _ _ W) as (d & D & E). split; [lia|].
    intro j. destruct (Nat.lt_ge_cases j (t_k t)) as [L|L].
    - apply (wins_max _ _ SW _ _ _ _ _ _ W j j); lia.
    - rewrite (shape_supp _ H j L). apply (deref_ge _ _ SW), (sh_good _ H).
  Qed.

  Lemma push_ok f i : NoDup (i :: f) -> (forall j, In j (i :: f) -> j < arity) ->
    push_slot arity f i = Some (i :: f).
  Proof.
    intros ND B. unfold push_slot.
    assert (L : length (i :: f) <= length (seq 0 arity)).
    { apply NoDup_incl_length; [exact ND|]. intros j Hj. apply in_seq. specialize (B j Hj). lia. }
    rewrite seq_length in L. cbn in L. destruct (Nat.ltb_spec (length f) arity); [reflexivity|lia].
  Qed.

  Lemma rebuild_ok t : t_k t = 2 ^ t_log t -> t_k t <= max_arity arity ->
    exists e, rebuild A cmp mn arity t = Some (with_entry t e) /\ tourn (with_entry t e).
  Proof.
    intros K M. unfold rebuild.
    destruct (init_winner_ok A cmp SW mn arity (t_k t) (t_log t) K (t_arr t) (t_log t) (S (t_log t)) 1 (t_entry t) M)
      as (w & e & -> & W & _); try lia.
    { rewrite Nat.sub_diag. cbn. lia. }
    exists (upd e 0 (deref (t_arr t w), w)). split; [reflexivity|].
    unfold tourn. cbn [with_entry t_k t_log t_entry t_arr]. rewrite upd_same. cbn [fst snd]. split; [|reflexivity].
    eapply wins_ext; [exact W| |reflexivity]. intros n Hn. apply upd_other. intros ->. apply not_under0 in Hn. exact Hn.
  Qed.

  Lemma free_array_ok t i : shape t -> t_alloc t i = true -> t_arr t i = [] ->
    exists t', free_array A arity t i = Some t' /\ shape t' /\
      t_k t' = t_k t /\ t_log t' = t_log t /\ t_entry t' = t_entry t /\ t_size t' = t_size t /\
      (forall j, t_arr t' j = t_arr t j) /\ (forall j, t_alloc t' j = if Nat.eqb j i then false else t_alloc t j).
  Proof.
    intros H Al E. unfold free_array. rewrite Al.
    pose proof (sh_al _ H i Al) as [B1 B2].
    assert (NI : ~ In i (t_free t)).
    { intro Q. apply (sh_fr _ H) in Q. destruct Q as (_ & _ & Q). congruence. }
    rewrite push_ok.
    - eexists. split; [reflexivity|]. cbn [with_free with_alloc with_arr t_k t_log t_entry t_size t_arr t_alloc].
      assert (Ea : forall j, upd (t_arr t) i [] j = t_arr t j).
      { intro j. unfold upd. destruct (Nat.eqb_spec j i) as [->|]; [symmetry; exact E|reflexivity]. }
      split; [|repeat split; auto].
      constructor; cbn [with_free with_alloc with_arr t_k t_log t_entry t_size t_arr t_alloc t_free]; try apply H.
      + intro j. rewrite Ea. apply (sh_good _ H).
      + intros j Hj. unfold upd in Hj. destruct (Nat.eqb j i); [discriminate|]. apply (sh_al _ H), Hj.
      + intros j Hj. rewrite Ea in Hj. unfold upd. destruct (Nat.eqb_spec j i) as [->|]; [contradiction|]. apply (sh_ne _ H), Hj.
      + constructor; [exact NI|apply (sh_nd _ H)].
      + intro j. cbn [In]. unfold upd. rewrite (sh_fr _ H). destruct (Nat.eqb_spec j i) as [->|N].
        * split; [auto|auto].
        * split; [intros [Q|Q]; [congruence|exact Q]|auto].
    - constructor; [exact NI|apply (sh_nd _ H)].
    - intros j [<-|Hj]; [exact B2|]. apply (sh_fr _ H) in Hj. lia.
  Qed.

  Lemma free_empties_ok n : forall i t, shape t ->
    exists t', free_empties A cmp mn arity n i t = Some t' /\ shape t' /\
      t_k t' = t_k t /\ t_log t' = t_log t /\ t_entry t' = t_entry t /\ t_size t' = t_size t /\
      (forall j, t_arr t' j = t_arr t j) /\ (forall j, t_alloc t' j = true -> t_alloc t j = true) /\
      (forall j, i <= j < i + n -> t_alloc t' j = true -> t_arr t' j <> []).
  Proof.
    induction n as [|n IH]; intros i t H.
    - exists t. repeat (split; [solve [auto]|]). intros j Hj. lia.
    - cbn [free_empties]. unfold free_if_empty, is_array_empty.
      rewrite (sentinel_run _ _ SW) by apply (sh_good _ H).
      destruct (match t_arr t i with [] => true | _ => false end && t_alloc t i) eqn:C.
      + apply andb_prop in C. destruct C as [C1 C2].
        assert (E : t_arr t i = []) by (destruct (t_arr t i); [reflexivity|discriminate]).
        destruct (free_array_ok t i H C2 E) as (t1 & -> & H1 & K1 & L1 & E1 & S1 & A1 & B1).
        destruct (IH (S i) t1 H1) as (t2 & -> & H2 & K2 & L2 & E2 & S2 & A2 & B2 & C2').
        exists t2. split; [reflexivity|]. split; [exact H2|]. do 4 (split; [congruence|]).
        split; [intro j; rewrite A2; apply A1|]. split.
        * intros j Hj. apply B2 in Hj. rewrite B1 in Hj. destruct (Nat.eqb j i); [discriminate|exact Hj].
        * intros j Hj Q. destruct (Nat.eq_dec j i) as [->|N]; [|apply C2'; [lia|exact Q]].
          apply B2 in Q. rewrite B1, Nat.eqb_refl in Q. discriminate.
      + destruct (IH (S i) t H) as (t2 & -> & H2 & K2 & L2 & E2 & S2 & A2 & B2 & C2').
        exists t2. split; [reflexivity|]. split; [exact H2|]. do 4 (split; [congruence|]).
        split; [exact A2|]. split; [exact B2|].
        intros j Hj Q. destruct (Nat.eq_dec j i) as [->|N]; [|apply C2'; [lia|exact Q]].
        apply B2 in Q. rewrite Q, andb_true_r in C. rewrite A2. destruct (t_arr t i); [discriminate|discriminate].
  Qed.

  Lemma emits_shape n t out arr : shape t -> emits n (t_arr t) out arr -> shape (with_arr t arr).
  Proof.
    intros H E. destruct (emits_facts _ _ SW _ _ _ _ _ (t_k t) E (sh_good _ H) (shape_supp _ H)) as (G & _ & _ & _ & _ & _ & I).
    constructor; cbn [with_arr t_k t_log t_arr t_alloc t_free]; try apply H; try exact G.
    intros j Hj. apply (sh_ne _ H). destruct (arr j) as [|x r] eqn:Ea; [contradiction|].
    assert (Q : In x (t_arr t j)) by (apply I; rewrite Ea; left; reflexivity).
    intro Z. rewrite Z in Q. contradiction.
  Qed.

  Lemma settle_free n t out arr : shape t -> emits n (t_arr t) out arr -> tourn (with_arr t arr) ->
    exists t', free_empties A cmp mn arity (t_k t) 0 (with_arr t arr) = Some t' /\ wf0 t' /\
      t_k t' = t_k t /\ t_log t' = t_log t /\ t_size t' = t_size t /\ (forall j, t_arr t' j = arr j).
  Proof.
    intros H E T. pose proof (emits_shape _ _ _ _ H E) as H1.
    destruct (free_empties_ok (t_k t) 0 (with_arr t arr) H1) as (t2 & -> & H2 & K2 & L2 & E2 & S2 & A2 & B2 & C2).
    exists t2. split; [reflexivity|].
    cbn [with_arr t_k t_log t_entry t_size t_arr t_alloc] in *. split; [|auto].
    split; [exact H2|]. split.
    - intros j Hj. apply C2; [|exact Hj]. apply (sh_al _ H2) in Hj. lia.
    - eapply tourn_ext; [exact T| | | |]; assumption.
  Qed.

  Lemma path_ok t x : shape t -> tourn t -> exists w e,
    path A cmp t (x, snd (t_entry t 0)) = Some (w, e) /\
    wins A cmp (t_k t) (t_log t) 1 (snd w) e (upd (vals (t_arr t)) (snd (t_entry t 0)) x) /\
    fst w = upd (vals (t_arr t)) (snd (t_entry t 0)) x (snd w).
  Proof.
    intros H T. destruct (tourn_best t H T) as [B _]. destruct T as [W _].
    set (w0 := snd (t_entry t 0)) in *.
    destruct (climbs A cmp (t_k t) (t_log t) w0 x (t_entry t)) as [w e] eqn:C.
    destruct (climbs_ok A cmp SW _ _ 1 w0 _ _ x ltac:(lia) W _ _ C) as (Q1 & Q2 & _).
    exists w, e. split; [|split; assumption]. unfold path. destruct (Nat.leb (t_log t) 10).
    - f_equal. rewrite <- C. eapply (path_f_climbs A cmp SW _ _ (sh_k _ H) w0 x (t_entry t) _ B W (t_log t) 0); [lia|lia|reflexivity].
    - cbn [fst snd]. replace ((w0 + t_k t) / 2) with ((w0 + t_k t) / 2 ^ 1) by (f_equal; reflexivity).
      rewrite (path_k_climbs A cmp _ _ (sh_k _ H) w0 x (t_entry t) B (t_log t) 0 _ _ (t_entry t)); [rewrite C; reflexivity|lia|lia|lia|reflexivity].
  Qed.

  Lemma merge_loop_ok n : forall t, wf0 t -> n <= length (tcontent t) ->
    exists out t', merge_loop A cmp mn arity n t = Some (out, t') /\ wf0 t' /\ emits n (t_arr t) out (t_arr t') /\
      t_k t' = t_k t /\ t_log t' = t_log t /\ t_size t' = t_size t.
  Proof.
    induction n as [|n IH]; intros t W Hn.
    - exists [], t. split; [reflexivity|]. split; [exact W|]. split; [constructor; reflexivity|auto].
    - pose proof W as (H & Ti & T). destruct (tourn_best t H T) as [B Best].
      destruct (step_best A cmp SW mn n (t_k t) (t_arr t) _ (sh_good _ H) (shape_supp _ H) Hn Best)
        as (x & r & E1 & E2 & Hb & Hg & Hs & Hn').
      cbn [merge_loop]. set (w := snd (t_entry t 0)) in *. rewrite E2, E1. cbn [next].
      assert (Emit1 : emits 1 (t_arr t) [x] (upd (t_arr t) w r)).
      { apply (em_cons _ _ _ _ _ w x r); [exact E1|exact Hb|]. constructor. reflexivity. }
      pose proof (emits_shape _ _ _ _ H Emit1) as H1.
      set (t1 := with_arr t (upd (t_arr t) w r)) in *.
      assert (Rr : run r).
      { pose proof (Hg w) as Q. rewrite upd_same in Q. exact Q. }
      assert (Step : exists t2, (if is_sentinel A cmp mn (deref r) then free_array A arity t1 w else Some t1) = Some t2 /\
        shape t2 /\ t_k t2 = t_k t /\ t_log t2 = t_log t /\ t_entry t2 = t_entry t /\ t_size t2 = t_size t /\
        (forall j, t_arr t2 j = upd (t_arr t) w r j) /\ tight t2).
      { rewrite (sentinel_run _ _ SW) by exact Rr. destruct r as [|y r'].
        - assert (Al : t_alloc t1 w = true) by (apply (sh_ne _ H); rewrite E1; discriminate).
          assert (Ae : t_arr t1 w = []) by apply upd_same.
          destruct (free_array_ok t1 w H1 Al Ae) as (t2 & -> & H2 & K2 & L2 & E2' & S2 & A2 & B2).
          exists t2. split; [reflexivity|]. split; [exact H2|]. do 4 (split; [assumption|]). split; [exact A2|].
          intros j Hj. rewrite B2 in Hj. destruct (Nat.eqb_spec j w) as [Q|N]; [discriminate|].
          rewrite A2. unfold t1. cbn [with_arr t_arr]. rewrite upd_other by exact N. apply Ti, Hj.
        - exists t1. split; [reflexivity|]. split; [exact H1|]. do 4 (split; [reflexivity|]). split; [reflexivity|].
          intros j Hj. unfold t1. cbn [with_arr t_arr]. unfold upd. destruct (Nat.eqb j w); [discriminate|]. apply Ti, Hj. }
      destruct Step as (t2 & -> & H2 & K2 & L2 & En2 & S2 & A2 & Ti2).
      assert (Hpath : path A cmp t2 (deref r, w) = path A cmp t (deref r, w)).
      { unfold path. rewrite K2, L2, En2. reflexivity. }
      rewrite Hpath. destruct (path_ok t (deref r) H T) as (w' & e & Q0 & Q1 & Q2).
      fold w in Q0, Q1, Q2. rewrite Q0.
      set (t3 := with_entry t2 (upd e 0 w')).
      assert (V : forall j, deref (t_arr t2 j) = upd (vals (t_arr t)) w (deref r) j).
      { intro j. rewrite A2. unfold upd. destruct (Nat.eqb j w); reflexivity. }
      assert (T3 : tourn t3).
      { unfold tourn, t3. cbn [with_entry t_k t_log t_entry t_arr]. rewrite upd_same, K2, L2. split.
        - eapply wins_ext; [exact Q1| |].
          + intros m Hm. apply upd_other. intros ->. apply not_under0 in Hm. exact Hm.
          + intros j d _ _. apply V.
        - rewrite V. exact Q2. }
      assert (W3 : wf0 t3).
      { split; [|split; [exact Ti2|exact T3]]. unfold t3. constructor; cbn; apply H2. }
      destruct (IH t3 W3) as (out & t' & -> & W' & Em & K' & L' & S').
      { unfold tcontent, t3. cbn [with_entry t_k t_arr]. rewrite K2.
        rewrite (content_ext _ _ (t_arr t2) (upd (t_arr t) w r)) by (intros; apply A2). exact Hn'. }
      exists (x :: out), t'. split; [reflexivity|]. split; [exact W'|].
      unfold t3 in *. cbn [with_entry t_k t_log t_size t_arr] in *. split; [|repeat split; congruence].
      apply (em_cons _ _ _ _ _ w x r); [exact E1|exact Hb|]. eapply emits_ext; [exact Em|intro; symmetry; apply A2|reflexivity].
  Qed.

  (** ** compaction *)
  Lemma perm_swap_content k arr i j : i < k -> j < k -> i <> j -> arr i = [] ->
    Permutation (content k arr) (content k (upd (upd arr i (arr j)) j [])).
  Proof.
    intros Hi Hj N E.
    eapply Permutation_trans; [apply (content_take A k arr j Hj)|].
    apply Permutation_sym.
    rewrite (content_ext A k _ (upd (upd arr j []) i (arr j))).
    - eapply Permutation_trans; [apply content_upd, Hi|]. apply Permutation_app_head.
      rewrite (content_ext A k _ (upd arr j [])); [apply Permutation_refl|].
      intros m _. unfold upd. destruct (Nat.eqb_spec m i) as [->|]; [|reflexivity].
      destruct (Nat.eqb_spec i j); [reflexivity|symmetry; exact E].
    - intros m _. unfold upd. destruct (Nat.eqb_spec m j) as [->|]; [|reflexivity].
      destruct (Nat.eqb_spec j i); [congruence|reflexivity].
  Qed.
  Lemma compact_loop_ok n : forall k pos last arr al, pos + n = k -> last <= pos ->
    (forall j, j < last -> arr j <> []) -> (forall j, last <= j < pos -> arr j = []) ->
    (forall j, al j = true <-> arr j <> []) -> good arr -> (forall j, arr j <> [] -> j < k /\ j < arity) ->
    exists last' arr' al', compact_loop A cmp mn n pos last arr al = Some (last', arr', al') /\
      last' <= k /\ (forall j, j < last' -> arr' j <> [] /\ j < arity) /\ (forall j, last' <= j -> arr' j = []) /\
      (forall j, al' j = true <-> arr' j <> []) /\ good arr' /\
      Permutation (content k arr) (content k arr').
  Proof.
    induction n as [|n IH]; intros k pos last arr al Hk Hl Ne Em Al G B.
    - exists last, arr, al. split; [reflexivity|]. split; [lia|]. split; [|split; [|auto]].
      + intros j Hj. split; [auto|]. apply B. auto.
      + intros j Hj. destruct (Nat.lt_ge_cases j pos); [apply Em; lia|].
        destruct (arr j) as [|x r] eqn:E; [reflexivity|].
        assert (Q : j < k /\ j < arity) by (apply B; rewrite E; discriminate). lia.
    - cbn [compact_loop]. rewrite (sentinel_run _ _ SW) by apply G.
      destruct (arr pos) as [|x r] eqn:E.
      + apply IH; auto; try lia. intros j Hj. destruct (Nat.eq_dec j pos) as [->|N]; [exact E|apply Em; lia].
      + assert (Alp : al pos = true) by (apply Al; rewrite E; discriminate). rewrite Alp. cbn [negb].
        destruct (Nat.eqb_spec pos last) as [->|N].
        * apply IH; auto; try lia.
          -- intros j Hj. destruct (Nat.eq_dec j last) as [->|M]; [rewrite E; discriminate|apply Ne; lia].
        * assert (El : arr last = []) by (apply Em; lia).
          assert (All : al last = false).
          { destruct (al last) eqn:Q; [|reflexivity]. apply Al in Q. contradiction. }
          rewrite All, El.
          assert (Bp : pos < k /\ pos < arity) by (apply B; rewrite E; discriminate).
          set (arr1 := upd (upd arr last (x :: r)) pos []).
          set (al1 := upd (upd al last true) pos false).
          destruct (IH k (S pos) (S last) arr1 al1) as (l' & arr' & al' & Q & R1 & R2 & R3 & R4 & R5 & R6); try lia.
          -- intros j Hj. unfold arr1, upd. destruct (Nat.eqb_spec j pos); [lia|]. destruct (Nat.eqb_spec j last); [discriminate|]. apply Ne. lia.
          -- intros j Hj. unfold arr1, upd. destruct (Nat.eqb_spec j pos); [reflexivity|]. destruct (Nat.eqb_spec j last); [lia|]. apply Em. lia.
          -- intro j. unfold arr1, al1, upd. destruct (Nat.eqb_spec j pos); [split; [discriminate|intro Q; exfalso; apply Q; reflexivity]|].
             destruct (Nat.eqb_spec j last); [split; [discriminate|reflexivity]|]. apply Al.
          -- intro j. unfold arr1, upd. destruct (Nat.eqb j pos); [apply run_nil|]. destruct (Nat.eqb j last); [rewrite <- E; apply G|apply G].
          -- intros j Hj. unfold arr1, upd in Hj. destruct (Nat.eqb_spec j pos) as [Q|]; [rewrite Q; exact Bp|].
             destruct (Nat.eqb_spec j last) as [Q|]; [lia|]. apply B, Hj.
          -- exists l', arr', al'. split; [exact Q|]. do 5 (split; [assumption|]).
             eapply Permutation_trans; [|exact R6]. unfold arr1. rewrite <- E. apply perm_swap_content; auto; lia.
  Qed.
  Lemma halve_ok l : forall last, last <= 2 ^ l ->
    exists k' l', halve l last (2 ^ l) l = Some (k', l') /\ k' = 2 ^ l' /\ last <= k' /\ k' <= 2 ^ l.
  Proof.
    induction l as [|l IH]; intros last Hl.
    - exists 1, 0. cbn. cbn in Hl. auto.
    - cbn [halve]. replace (2 ^ S l / 2) with (2 ^ l) by (rewrite Nat.pow_succ_r', Nat.mul_comm, Nat.div_mul; lia).
      replace (S l - 1) with l by lia.
      destruct (Nat.ltb 1 (2 ^ S l) && Nat.leb last (2 ^ l)) eqn:C.
      + apply andb_prop in C. destruct C as [_ C]. apply Nat.leb_le in C.
        destruct (IH last C) as (k' & l' & -> & Q1 & Q2 & Q3). exists k', l'. split; [reflexivity|].
        rewrite Nat.pow_succ_r'. repeat split; auto. lia.
      + exists (2 ^ S l), (S l). auto.
  Qed.
  Lemma refree_ok n : forall i t last, t_k t = i + n -> t_k t <= max_arity arity -> last <= i ->
    (forall j, t_alloc t j = true <-> j < last) -> (forall j, last <= j -> t_arr t j = []) ->
    NoDup (t_free t) -> (forall j, In j (t_free t) <-> last <= j < i /\ j < arity) ->
    exists t', refree A arity nslots n i t = Some t' /\
      t_k t' = t_k t /\ t_log t' = t_log t /\ t_entry t' = t_entry t /\ t_size t' = t_size t /\
      (forall j, t_arr t' j = t_arr t j) /\ (forall j, t_alloc t' j = t_alloc t j) /\
      NoDup (t_free t') /\ (forall j, In j (t_free t') <-> last <= j < t_k t /\ j < arity).
  Proof.
    induction n as [|n IH]; intros i t last Hk Hm Hl Al Em ND Fr.
    - exists t. split; [reflexivity|]. do 6 (split; [reflexivity|]). split; [exact ND|].
      intro j. rewrite Fr, Hk, Nat.add_0_r. reflexivity.
    - cbn [refree].
      assert (Ai : t_alloc t i = false).
      { destruct (t_alloc t i) eqn:Q; [|reflexivity]. apply Al in Q. lia. }
      rewrite Ai. unfold make_array_sentinel. destruct (Nat.ltb_spec i nslots) as [_|Q]; [|lia].
      set (t1 := with_alloc (with_arr t (upd (t_arr t) i [])) (upd (t_alloc t) i false)).
      assert (Ea : forall j, t_arr t1 j = t_arr t j).
      { intro j. unfold t1. cbn. unfold upd. destruct (Nat.eqb_spec j i) as [->|]; [symmetry; apply Em; lia|reflexivity]. }
      assert (El : forall j, t_alloc t1 j = t_alloc t j).
      { intro j. unfold t1. cbn. unfold upd. destruct (Nat.eqb_spec j i) as [->|]; [auto|reflexivity]. }
      change (t_free t1) with (t_free t).
      destruct (Nat.ltb_spec i arity) as [L|L].
      + rewrite push_ok.
        * destruct (IH (S i) (with_free t1 (i :: t_free t)) last) as (t' & -> & K' & L' & E' & S' & A' & B' & N' & F'); cbn [with_free t_k t_alloc t_arr t_free].
          -- change (t_k t1) with (t_k t). lia.
          -- exact Hm.
          -- lia.
          -- intro j. rewrite El. apply Al.
          -- intros j Hj. rewrite Ea. apply Em, Hj.
          -- constructor; [rewrite Fr; lia|exact ND].
          -- intro j. cbn [In]. rewrite Fr. lia.
          -- exists t'. split; [reflexivity|]. do 4 (split; [assumption|]).
             split; [intro j; rewrite A'; apply Ea|]. split; [intro j; rewrite B'; apply El|]. split; [exact N'|exact F'].
        * constructor; [rewrite Fr; lia|exact ND].
        * intros j [<-|Hj]; [exact L|]. apply Fr in Hj. lia.
      + destruct (IH (S i) t1 last) as (t' & -> & K' & L' & E' & S' & A' & B' & N' & F').
        * change (t_k t1) with (t_k t). lia.
        * exact Hm.
        * lia.
        * intro j. rewrite El. apply Al.
        * intros j Hj. rewrite Ea. apply Em, Hj.
        * exact ND.
        * intro j. change (t_free t1) with (t_free t). rewrite Fr. lia.
        * exists t'. split; [reflexivity|]. do 4 (split; [assumption|]).
          split; [intro j; rewrite A'; apply Ea|]. split; [intro j; rewrite B'; apply El|]. split; [exact N'|exact F'].
  Qed.
  Lemma compact_tree_ok t : shape t -> tight t -> t_log t <> 0 ->
    exists t', compact_tree A cmp mn arity nslots t = Some t' /\ wf0 t' /\ t_size t' = t_size t /\
      Permutation (tcontent t) (tcontent t').
  Proof.
    intros H Ti Hl. unfold compact_tree. destruct (Nat.eqb_spec (t_log t) 0) as [Q|_]; [contradiction|].
    destruct (compact_loop_ok (t_k t) (t_k t) 0 0 (t_arr t) (t_alloc t)) as (last & arr & al & -> & R1 & R2 & R3 & R4 & R5 & R6); try lia.
    { intro j. split; [apply Ti|apply (sh_ne _ H)]. }
    { apply (sh_good _ H). }
    { intros j Hj. apply (sh_al _ H), (sh_ne _ H), Hj. }
    pose proof (sh_k _ H) as K.
    destruct (halve_ok (t_log t) last) as (k' & l' & E & K' & B1 & B2); [rewrite <- K; exact R1|].
    rewrite <- K in E, B2. rewrite E.
    pose proof (sh_mx _ H) as Mx.
    assert (Al' : forall j, al j = true <-> j < last).
    { intro j. rewrite R4. split.
      - intro Q. destruct (Nat.lt_ge_cases j last) as [L|L]; [exact L|]. rewrite (R3 j L) in Q. contradiction.
      - intro Q. apply R2, Q. }
    destruct (refree_ok (k' - last) last (mk k' l' (t_entry t) [] arr al (t_size t)) last)
      as (t1 & -> & K1 & L1 & E1 & S1 & A1 & C1 & N1 & F1); cbn [t_k t_log t_alloc t_arr t_free t_entry t_size]; try lia.
    { exact Al'. }
    { exact R3. }
    { constructor. }
    { intro j. cbn. lia. }
    cbn [t_k t_log t_alloc t_arr t_free t_entry t_size] in *.
    destruct (rebuild_ok t1) as (e & -> & T); [congruence|lia|].
    exists (with_entry t1 e). split; [reflexivity|].
    assert (SH : shape (with_entry t1 e)).
    { constructor; cbn [with_entry t_k t_log t_alloc t_arr t_free t_entry t_size].
      - congruence.
      - lia.
      - intro j. rewrite A1. apply R5.
      - intros j Hj. rewrite C1 in Hj. pose proof (proj1 (Al' j) Hj) as Q. pose proof (R2 j Q). lia.
      - intros j Hj. rewrite C1. rewrite A1 in Hj. apply R4, Hj.
      - exact N1.
      - intro j. rewrite F1, K1, C1. pose proof (Al' j) as Q. destruct (al j).
        + pose proof (proj1 Q eq_refl). split; [lia|intros (? & ? & ?); discriminate].
        + assert (Z : last <= j) by (destruct (Nat.lt_ge_cases j last) as [Z|Z]; [apply Q in Z; discriminate|exact Z]).
          split; [intros ?|intros (? & ? & ?)]; repeat split; lia. }
    split; [|split; [exact S1|]].
    - split; [exact SH|]. split; [|exact T].
      intros j Hj. cbn [with_entry t_alloc t_arr] in *. rewrite C1 in Hj. rewrite A1. apply R4, Hj.
    - unfold tcontent. cbn [with_entry t_k t_arr]. rewrite K1.
      rewrite (content_ext A k' (t_arr t1) arr) by (intros; apply A1).
      rewrite <- (content_supp A k' (t_k t) arr); [exact R6| |exact B2].
      intros j Hj. apply R3. lia.
  Qed.
  Lemma maybe_compact_ok t : wf0 t ->
    exists t', maybe_compact A cmp mn arity nslots t = Some t' /\ wf0 t' /\ t_size t' = t_size t /\
      Permutation (tcontent t) (tcontent t').
  Proof.
    intros (H & Ti & T). unfold maybe_compact.
    match goal with |- context [if ?b then _ else _] => destruct b eqn:C end.
    - apply compact_tree_ok; auto. intro Q. apply andb_prop in C. destruct C as [C _].
      apply Nat.ltb_lt in C. rewrite (sh_k _ H), Q in C. cbn in C. lia.
    - exists t. split; [reflexivity|]. split; [split; auto|]. auto.
  Qed.

  (** ** taking elements out *)
  Lemma emits_tree n t t' out : shape t -> n <= length (tcontent t) -> emits n (t_arr t) out (t_arr t') ->
    t_k t' = t_k t ->
    run out /\ length out = n /\ Permutation (tcontent t) (out ++ tcontent t') /\
    (forall x y, In x out -> In y (tcontent t') -> ge x y).
  Proof.
    intros H Hn E K. destruct (emits_facts _ _ SW _ _ _ _ _ (t_k t) E (sh_good _ H) (shape_supp _ H)) as (_ & _ & R & L & P & O & _).
    unfold tcontent. rewrite K. auto.
  Qed.
  Lemma tree_merge_ok n t : wf t -> n <= t_size t ->
    exists out t', tree_merge A cmp mn arity nslots n t = Some (out, t') /\ wf0 t' /\ t_size t' = t_size t /\
      run out /\ length out = n /\ Permutation (tcontent t) (out ++ tcontent t') /\
      (forall x y, In x out -> In y (tcontent t') -> ge x y).
  Proof.
    intros [W Sz] Hn. rewrite Sz in Hn. pose proof W as (H & Ti & T). unfold tree_merge.
    destruct (Nat.eqb_spec n 0) as [->|Hn0].
    { exists [], t. split; [reflexivity|]. split; [exact W|]. split; [reflexivity|]. split; [apply run_nil|].
      split; [reflexivity|]. split; [apply Permutation_refl|contradiction]. }
    pose proof (sh_k _ H) as K. pose proof (sh_mx _ H) as Mx.
    assert (Core : exists out t',
      match t_log t with
      | 0 =>
          if Nat.eqb (t_k t) 1 && Nat.eqb (snd (t_entry t 0)) 0 &&
             match t_free t with [] => true | _ => false end then
            match copy_n A mn n (t_arr t 0) with
            | None => None
            | Some (out, r) =>
                let t := with_arr t (upd (t_arr t) 0 r) in
                let t := with_entry t (upd (t_entry t) 0 (deref r, snd (t_entry t 0))) in
                match free_empties A cmp mn arity 1 0 t with None => None | Some t => Some (out, t) end
            end
          else None
      | 1 =>
          if Nat.eqb (t_k t) 2 then
            match merge2 A cmp mn n (t_arr t 0) (t_arr t 1) with
            | None => None
            | Some (out, (r0, r1)) =>
                match rebuild A cmp mn arity (with_arr t (upd (upd (t_arr t) 0 r0) 1 r1)) with
                | None => None
                | Some t => match free_empties A cmp mn arity 2 0 t with None => None | Some t => Some (out, t) end
                end
            end
          else None
      | 2 =>
          if Nat.eqb (t_k t) 4 then
            match (if is_array_empty A cmp mn t 3 then merge3 A cmp mn n (t_arr t) else merge4 A cmp mn n (t_arr t)) with
            | None => None
            | Some (out, arr) =>
                match rebuild A cmp mn arity (with_arr t arr) with
                | None => None
                | Some t => match free_empties A cmp mn arity 4 0 t with None => None | Some t => Some (out, t) end
                end
            end
          else None
      | _ => merge_loop A cmp mn arity n t
      end = Some (out, t') /\ wf0 t' /\ emits n (t_arr t) out (t_arr t') /\ t_k t' = t_k t /\ t_size t' = t_size t).
    { pose proof (shape_supp _ H) as Sp.
      assert (Reb : forall out arr, emits n (t_arr t) out arr -> exists t1 t2,
        rebuild A cmp mn arity (with_arr t arr) = Some t1 /\ free_empties A cmp mn arity (t_k t) 0 t1 = Some t2 /\
        wf0 t2 /\ emits n (t_arr t) out (t_arr t2) /\ t_k t2 = t_k t /\ t_size t2 = t_size t).
      { intros out arr E. pose proof (emits_shape _ _ _ _ H E) as H1.
        destruct (rebuild_ok (with_arr t arr) (sh_k _ H1) (sh_mx _ H1)) as (e & -> & T1).
        assert (H2 : shape (with_entry t e)) by (constructor; cbn; apply H).
        destruct (settle_free n (with_entry t e) out arr H2 E T1) as (t2 & E2 & W2 & K2 & L2 & S2 & A2).
        exists (with_entry (with_arr t arr) e), t2. split; [reflexivity|]. split; [exact E2|]. split; [exact W2|].
        split; [|auto]. eapply emits_ext; [exact E|reflexivity|exact A2]. }
      destruct (t_log t) as [|[|[|l]]] eqn:L.
      - cbn in K. rewrite K in *. cbn [Nat.eqb andb].
        destruct (tourn_best t H T) as [B0 _]. rewrite K in B0.
        assert (W0 : snd (t_entry t 0) = 0) by lia. rewrite W0. cbn [Nat.eqb andb].
        assert (L0 : tcontent t = t_arr t 0).
        { unfold tcontent, PqMergeProofs.content. rewrite K. cbn. apply app_nil_r. }
        rewrite L0 in Hn.
        assert (F0 : t_free t = []).
        { destruct (t_free t) as [|j f] eqn:Ef; [reflexivity|]. exfalso.
          assert (Q : In j (t_free t)) by (rewrite Ef; left; reflexivity). apply (sh_fr _ H) in Q. rewrite K in Q.
          destruct Q as (Q1 & _ & Q2). replace j with 0 in Q2 by lia.
          assert (Z : t_alloc t 0 = true). { apply (sh_ne _ H). intro Z. rewrite Z in Hn. cbn in Hn. lia. } congruence. }
        rewrite F0, copy_n_ok by exact Hn. cbv zeta.
        assert (Em : emits n (t_arr t) (firstn n (t_arr t 0)) (upd (t_arr t) 0 (skipn n (t_arr t 0)))).
        { apply (copy_emits _ _ SW); [apply (sh_good _ H)|intros j Hj; apply Sp; lia|exact Hn]. }
        set (arr := upd (t_arr t) 0 (skipn n (t_arr t 0))) in *.
        set (e := upd (t_entry t) 0 (deref (skipn n (t_arr t 0)), 0)).
        assert (H2 : shape (with_entry t e)) by (constructor; cbn; rewrite ?L; try apply H; exact K).
        destruct (settle_free n (with_entry t e) _ arr H2 Em) as (t2 & E2 & W2 & K2 & L2 & S2 & A2).
        { unfold tourn, e, arr. cbn [with_arr with_entry t_k t_log t_entry t_arr]. rewrite upd_same, L, K. cbn [fst snd].
          rewrite upd_same. split; reflexivity. }
        cbn [with_entry t_k t_log t_size] in E2, K2, S2. rewrite K in E2, K2.
        exists (firstn n (t_arr t 0)), t2.
        change (with_entry (with_arr t arr) (upd (t_entry (with_arr t arr)) 0 (deref (skipn n (t_arr t 0)), snd (t_entry (with_arr t arr) 0))))
          with (with_entry (with_arr t arr) (upd (t_entry t) 0 (deref (skipn n (t_arr t 0)), snd (t_entry t 0)))).
        rewrite W0.
        change (with_entry (with_arr t arr) (upd (t_entry t) 0 (deref (skipn n (t_arr t 0)), 0))) with (with_arr (with_entry t e) arr).
        rewrite E2. split; [reflexivity|]. split; [exact W2|]. split; [|auto].
        eapply emits_ext; [exact Em|reflexivity|exact A2].
      - cbn in K. rewrite K. cbn [Nat.eqb].
        destruct (merge2_ok A cmp SW mn n (t_arr t) (t_k t) (sh_good _ H) Sp) as (out & r0 & r1 & -> & Em).
        { intros j Hj. apply Sp. lia. }
        { exact Hn. }
        destruct (Reb _ _ Em) as (t1 & t2 & -> & E2 & Q). rewrite K in E2, Q. rewrite E2. exists out, t2. split; [reflexivity|exact Q].
      - cbn in K. rewrite K. cbn [Nat.eqb]. unfold is_array_empty.
        rewrite (sentinel_run _ _ SW) by apply (sh_good _ H).
        assert (M : exists out arr, (if match t_arr t 3 with [] => true | _ => false end then merge3 A cmp mn n (t_arr t) else merge4 A cmp mn n (t_arr t)) = Some (out, arr) /\
          emits n (t_arr t) out arr).
        { destruct (t_arr t 3) as [|x3 r3] eqn:E3.
          - apply (merge3_ok A cmp SW mn n (t_arr t) (t_k t)); [apply H|exact Sp| |exact Hn].
            intros j Hj. destruct (Nat.eq_dec j 3) as [->|N]; [exact E3|apply Sp; lia].
          - apply (merge4_ok A cmp SW mn n (t_arr t) (t_k t)); [apply H|exact Sp| |exact Hn].
            intros j Hj. apply Sp. lia. }
        destruct M as (out & arr & -> & Em).
        destruct (Reb _ _ Em) as (t1 & t2 & -> & E2 & Q). rewrite K in E2, Q. rewrite E2. exists out, t2. split; [reflexivity|exact Q].
      - destruct (merge_loop_ok n t W Hn) as (out & t' & -> & W' & Em & K' & _ & S').
        exists out, t'. auto. }
    destruct Core as (out & t1 & Ec & W1 & Em & K1 & S1). cbv zeta in Ec |- *. rewrite Ec.
    destruct (emits_tree n t t1 out H Hn Em K1) as (R & Len & P & O).
    destruct (maybe_compact_ok t1 W1) as (t2 & -> & W2 & S2 & P2).
    exists out, t2. split; [reflexivity|]. split; [exact W2|]. split; [congruence|]. split; [exact R|]. split; [exact Len|].
    split.
    - eapply Permutation_trans; [exact P|]. apply Permutation_app_head, P2.
    - intros x y Hx Hy. apply O; [exact Hx|]. apply (Permutation_in _ (Permutation_sym P2)), Hy.
  Qed.
  Theorem multi_merge_ok n t : wf t -> n <= t_size t ->
    exists out t', multi_merge A cmp mn arity nslots n t = Some (out, t') /\ wf t' /\
      run out /\ length out = n /\ Permutation (tcontent t) (out ++ tcontent t') /\
      (forall x y, In x out -> In y (tcontent t') -> ge x y).
  Proof.
    intros W Hn. destruct (tree_merge_ok n t W Hn) as (out & t' & E & W' & S' & R & L & P & O).
    unfold multi_merge. destruct (Nat.ltb_spec (t_size t) n) as [Q|_]; [lia|]. rewrite E.
    exists out, (with_size t' (t_size t' - n)). split; [reflexivity|]. split; [|auto].
    destruct W as [_ Sz]. split.
    - destruct W' as (H & Ti & T). split; [constructor; cbn; apply H|]. split; [exact Ti|exact T].
    - cbn [with_size t_size]. change (tcontent (with_size t' (t_size t' - n))) with (tcontent t').
      apply Permutation_length in P. rewrite app_length in P. lia.
  Qed.

  (** ** putting sequences in *)
  Definition used (t : tree) : nat := length (filter (t_alloc t) (seq 0 arity)).

  Lemma new_tree_ok : exists t, new_tree A cmp mn arity = Some t /\ wf t /\ tcontent t = [] /\ used t = 0.
  Proof.
    unfold new_tree, push_slot. cbn [length]. destruct (Nat.ltb_spec 0 arity) as [_|Q]; [|lia].
    set (t0 := mk 1 0 _ _ _ _ _).
    assert (M1 : 1 <= max_arity arity) by apply pow2_pos.
    destruct (rebuild_ok t0) as (e & -> & T); [reflexivity|exact M1|].
    exists (with_entry t0 e). split; [reflexivity|]. split; [|split].
    - split; [|reflexivity]. split; [|split; [|exact T]].
      + constructor; cbn.
        * reflexivity.
        * exact M1.
        * intro j. apply run_nil.
        * discriminate.
        * intros j Q. contradiction.
        * repeat constructor. intros [].
        * intro j. lia.
      + intros j Q. discriminate.
    - reflexivity.
    - unfold used. cbn. induction (seq 0 arity); [reflexivity|exact IHl].
  Qed.
  Lemma filter_all {X} (f : X -> bool) l : (forall x, In x l -> f x = true) -> length (filter f l) = length l.
  Proof.
    induction l as [|x l IH]; intro H; [reflexivity|]. cbn. rewrite (H x) by (left; reflexivity). cbn. f_equal.
    apply IH. intros y Hy. apply H. right. exact Hy.
  Qed.
  Lemma filter_le {X} (f : X -> bool) l : length (filter f l) <= length l.
  Proof. induction l as [|x l IH]; cbn; [lia|]. destruct (f x); cbn; lia. Qed.
  Lemma filter_some {X} (f : X -> bool) l x : In x l -> f x = false -> length (filter f l) < length l.
  Proof.
    induction l as [|y l IH]; intros Hx E; [contradiction|]. cbn. destruct Hx as [->|Hx].
    - rewrite E. pose proof (filter_le f l). lia.
    - specialize (IH Hx E). destruct (f y); cbn; lia.
  Qed.
  Lemma filter_none {X} (f : X -> bool) l : (forall x, In x l -> f x = false) -> length (filter f l) = 0.
  Proof.
    induction l as [|x l IH]; intro H; [reflexivity|]. cbn. rewrite (H x) by (left; reflexivity).
    apply IH. intros y Hy. apply H. right. exact Hy.
  Qed.
  Lemma filter_upd f i l : NoDup l -> In i l -> f i = false ->
    length (filter (upd f i true) l) = S (length (filter f l)).
  Proof.
    induction l as [|y l IH]; intros ND Hi E; [contradiction|]. inversion ND as [|? ? N1 N2]; subst. cbn.
    destruct (Nat.eq_dec y i) as [->|N].
    - rewrite upd_same, E. cbn. f_equal. f_equal. apply filter_ext_in. intros a Ha. apply upd_other. intros ->. contradiction.
    - rewrite upd_other by exact N. destruct Hi as [Q|Hi]; [congruence|].
      specialize (IH N2 Hi E). destruct (f y); cbn; lia.
  Qed.
  Lemma space_iff t : shape t -> space_available A arity t = true <-> used t < arity.
  Proof.
    intro H. unfold space_available, used. rewrite <- (seq_length arity 0) at 3.
    split.
    - intro C. apply orb_prop in C. destruct C as [C|C].
      + apply Nat.ltb_lt in C. apply (filter_some _ _ (t_k t)); [apply in_seq; lia|].
        destruct (t_alloc t (t_k t)) eqn:Q; [|reflexivity]. apply (sh_al _ H) in Q. lia.
      + destruct (t_free t) as [|j f] eqn:E; [discriminate|].
        assert (Q : In j (t_free t)) by (rewrite E; left; reflexivity). apply (sh_fr _ H) in Q.
        apply (filter_some _ _ j); [apply in_seq; lia|apply Q].
    - intro C. destruct (Nat.ltb_spec (t_k t) arity) as [L|L]; [reflexivity|]. cbn [orb].
      destruct (t_free t) as [|j f] eqn:E; [exfalso|reflexivity].
      rewrite filter_all in C; [lia|]. intros j Hj. apply in_seq in Hj.
      destruct (t_alloc t j) eqn:Q; [reflexivity|]. exfalso.
      assert (Z : In j (t_free t)) by (apply (sh_fr _ H); repeat split; [lia|lia|exact Q]). rewrite E in Z. contradiction.
  Qed.
  Lemma used_empty t : wf t -> tcontent t = [] -> used t = 0.
  Proof.
    intros [(H & Ti & _) _] E. unfold used. apply filter_none. intros j _.
    destruct (t_alloc t j) eqn:Q; [|reflexivity]. exfalso. pose proof (sh_al _ H j Q) as [B _].
    apply (Ti j Q). apply (proj1 (content_nil A (t_k t) (t_arr t)) E j B).
  Qed.

  Lemma add_slots_ok n : forall t, n <= t_k t -> 2 * t_k t <= max_arity arity ->
    (forall j, t_alloc t j = true -> j < t_k t) -> (forall j, t_k t <= j -> t_arr t j = []) ->
    NoDup (t_free t) -> (forall j, In j (t_free t) <-> t_k t + n <= j < 2 * t_k t /\ j < arity) ->
    exists t', add_slots A arity nslots n t = Some t' /\
      t_k t' = t_k t /\ t_log t' = t_log t /\ t_entry t' = t_entry t /\ t_size t' = t_size t /\
      (forall j, t_arr t' j = t_arr t j) /\ (forall j, t_alloc t' j = t_alloc t j) /\
      NoDup (t_free t') /\ (forall j, In j (t_free t') <-> t_k t <= j < 2 * t_k t /\ j < arity).
  Proof.
    induction n as [|n IH]; intros t Hn Hm Al Em ND Fr.
    - exists t. split; [reflexivity|]. do 6 (split; [reflexivity|]). split; [exact ND|].
      intro j. rewrite Fr, Nat.add_0_r. reflexivity.
    - cbn [add_slots]. unfold make_array_sentinel. destruct (Nat.ltb_spec (t_k t + n) nslots) as [_|Q]; [|lia].
      set (i := t_k t + n) in *.
      set (t1 := with_alloc (with_arr t (upd (t_arr t) i [])) (upd (t_alloc t) i false)).
      assert (Ea : forall j, t_arr t1 j = t_arr t j).
      { intro j. unfold t1. cbn. unfold upd. destruct (Nat.eqb_spec j i) as [->|]; [symmetry; apply Em; lia|reflexivity]. }
      assert (El : forall j, t_alloc t1 j = t_alloc t j).
      { intro j. unfold t1. cbn. unfold upd. destruct (Nat.eqb_spec j i) as [->|]; [|reflexivity].
        destruct (t_alloc t i) eqn:Q; [|reflexivity]. apply Al in Q. lia. }
      change (t_free t1) with (t_free t).
      destruct (Nat.ltb_spec i arity) as [L|L].
      + rewrite push_ok.
        * destruct (IH (with_free t1 (i :: t_free t))) as (t' & -> & K' & L' & E' & S' & A' & B' & N' & F');
            cbn [with_free t_k t_alloc t_arr t_free]; try (change (t_k t1) with (t_k t)).
          -- lia.
          -- exact Hm.
          -- intros j. rewrite El. apply Al.
          -- intros j Hj. rewrite Ea. apply Em, Hj.
          -- constructor; [rewrite Fr; lia|exact ND].
          -- intro j. cbn [In]. rewrite Fr. lia.
          -- exists t'. split; [reflexivity|]. do 4 (split; [assumption|]).
             split; [intro j; rewrite A'; apply Ea|]. split; [intro j; rewrite B'; apply El|]. split; [exact N'|exact F'].
        * constructor; [rewrite Fr; lia|exact ND].
        * intros j [<-|Hj]; [exact L|]. apply Fr in Hj. lia.
      + destruct (IH t1) as (t' & -> & K' & L' & E' & S' & A' & B' & N' & F'); try (change (t_k t1) with (t_k t)).
        * lia.
        * exact Hm.
        * intros j. rewrite El. apply Al.
        * intros j Hj. rewrite Ea. apply Em, Hj.
        * exact ND.
        * intro j. change (t_free t1) with (t_free t). rewrite Fr. lia.
        * exists t'. split; [reflexivity|]. do 4 (split; [assumption|]).
          split; [intro j; rewrite A'; apply Ea|]. split; [intro j; rewrite B'; apply El|]. split; [exact N'|exact F'].
  Qed.
  Lemma double_k_ok t : shape t -> tight t -> t_k t < arity -> t_free t = [] ->
    exists t', double_k A cmp mn arity nslots t = Some t' /\ wf0 t' /\ t_size t' = t_size t /\
      t_k t < t_k t' /\ (forall j, t_arr t' j = t_arr t j) /\ (forall j, t_alloc t' j = t_alloc t j) /\ t_free t' <> [].
  Proof.
    intros H Ti Hk Hf. unfold double_k. rewrite Hf. pose proof (sh_k _ H) as K. pose proof (pow2_pos (t_log t)) as P0.
    destruct (Nat.ltb_spec 0 (t_k t)); [|lia]. destruct (Nat.ltb_spec (t_k t) arity); [|lia]. cbn [andb].
    assert (Mx : 2 * t_k t <= max_arity arity).
    { unfold max_arity. rewrite K, <- Nat.pow_succ_r'. apply Nat.pow_le_mono_r; [lia|].
      assert (Q : 2 ^ t_log t < 2 ^ Nat.log2_up arity).
      { rewrite <- K. pose proof (Nat.log2_up_spec arity) as Z. lia. }
      apply Nat.pow_lt_mono_r_iff in Q; lia. }
    destruct (add_slots_ok (t_k t) t) as (t1 & -> & K1 & L1 & E1 & S1 & A1 & B1 & N1 & F1); try lia.
    { intros j Hj. apply (sh_al _ H), Hj. }
    { apply (shape_supp _ H). }
    { rewrite Hf. constructor. }
    { intro j. rewrite Hf. cbn. lia. }
    cbn [t_k t_free]. rewrite K1. destruct (Nat.leb_spec (t_k t * 2) (max_arity arity)); [|lia].
    assert (Ne : t_free t1 <> []).
    { intro Q. assert (Z : In (t_k t) (t_free t1)) by (apply F1; lia). rewrite Q in Z. contradiction. }
    assert (NeB : match t_free t1 with [] => true | _ => false end = false) by (destruct (t_free t1); [contradiction|reflexivity]).
    rewrite NeB. cbn [negb andb].
    set (t2 := mk (t_k t * 2) (S (t_log t1)) (t_entry t1) (t_free t1) (t_arr t1) (t_alloc t1) (t_size t1)).
    destruct (rebuild_ok t2) as (e & -> & T).
    { unfold t2. cbn [t_k t_log]. rewrite L1, Nat.pow_succ_r', <- K. lia. }
    { unfold t2. cbn [t_k]. lia. }
    exists (with_entry t2 e). split; [reflexivity|]. split; [|].
    - split; [|split; [|exact T]].
      + constructor; unfold t2; cbn [with_entry t_k t_log t_arr t_alloc t_free].
        * rewrite L1, Nat.pow_succ_r', <- K. lia.
        * lia.
        * intro j. rewrite A1. apply (sh_good _ H).
        * intros j Hj. rewrite B1 in Hj. apply (sh_al _ H) in Hj. lia.
        * intros j Hj. rewrite A1 in Hj. rewrite B1. apply (sh_ne _ H), Hj.
        * exact N1.
        * intro j. rewrite F1, B1. split.
          -- intros (Q1 & Q2). repeat split; try lia. destruct (t_alloc t j) eqn:Q; [|reflexivity]. apply (sh_al _ H) in Q. lia.
          -- intros (Q1 & Q2 & Q3). split; [|exact Q2]. split; [|lia].
             destruct (Nat.lt_ge_cases j (t_k t)) as [Z|Z]; [|exact Z]. exfalso.
             assert (X : In j (t_free t)) by (apply (sh_fr _ H); auto). rewrite Hf in X. contradiction.
      + intros j Hj. unfold t2 in *. cbn [with_entry t_alloc t_arr] in *. rewrite A1. rewrite B1 in Hj. apply Ti, Hj.
    - unfold t2. cbn [with_entry t_size t_k t_arr t_alloc t_free]. repeat split; auto. lia.
  Qed.

  Lemma last_real x r : Forall real (x :: r) -> real (last r x).
  Proof.
    intro H. assert (Q : In (last r x) (x :: r)).
    { clear H. revert x. induction r as [|y r IH]; intro x; [left; reflexivity|]. right.
      destruct r as [|z r']; [left; reflexivity|]. change (last (y :: z :: r') x) with (last (z :: r') x).
      specialize (IH y). destruct IH as [Z|Z].
      - left. rewrite Z. clear. revert z. induction r' as [|u r' IH]; intro z; [reflexivity|]. change (last (z :: u :: r') y) with (last (u :: r') y). change (last (z :: u :: r') x) with (last (u :: r') x). apply IH.
      - right. assert (X : last (z :: r') x = last (z :: r') y).
        { clear. revert z. induction r' as [|u r' IH]; intro z; [reflexivity|]. change (last (z :: u :: r') y) with (last (u :: r') y). change (last (z :: u :: r') x) with (last (u :: r') x). apply IH. }
        rewrite X. exact Z. }
    rewrite Forall_forall in H. apply H, Q.
  Qed.
  Theorem append_ok t l : wf t -> run l -> l <> [] -> used t < arity ->
    exists t', append_array A cmp mn arity nslots t l = Some t' /\ wf t' /\
      Permutation (tcontent t') (l ++ tcontent t) /\ used t' = S (used t) /\ t_size t' = t_size t + length l.
  Proof.
    intros [W Sz] Hl Hne Hu. pose proof W as (H & Ti & T).
    destruct l as [|x r]; [contradiction|]. unfold append_array.
    destruct Hl as [Srt Rl]. pose proof (last_real _ _ Rl) as Lr. inversion Rl as [|? ? Rx Rr]; subst.
    unfold is_sentinel at 1 2. rewrite Rx, Lr. cbn [negb orb].
    assert (NP : exists t1, match t_free t with [] => double_k A cmp mn arity nslots t | _ => Some t end = Some t1 /\
      wf0 t1 /\ t_size t1 = t_size t /\ t_k t <= t_k t1 /\ (forall j, t_arr t1 j = t_arr t j) /\ (forall j, t_alloc t1 j = t_alloc t j) /\ t_free t1 <> []).
    { destruct (t_free t) as [|j f] eqn:E.
      - assert (Hk : t_k t < arity).
        { pose proof (proj2 (space_iff t H) Hu) as Q. unfold space_available in Q. rewrite E in Q. cbn in Q.
          rewrite orb_false_r in Q. apply Nat.ltb_lt, Q. }
        destruct (double_k_ok t H Ti Hk E) as (t1 & -> & W1 & S1 & K1 & A1 & B1 & F1). exists t1. split; [reflexivity|]. split; [exact W1|]. split; [exact S1|]. split; [lia|]. auto.
      - exists t. split; [reflexivity|]. split; [exact W|]. rewrite E. repeat split; auto. discriminate. }
    unfold new_player. destruct NP as (t1 & -> & W1 & S1 & K1 & A1 & B1 & F1).
    destruct (t_free t1) as [|i f] eqn:E; [contradiction|]. clear F1.
    destruct W1 as (H1 & Ti1 & T1).
    assert (Qi : In i (t_free t1)) by (rewrite E; left; reflexivity).
    apply (sh_fr _ H1) in Qi. destruct Qi as (Q1 & Q2 & Q3).
    unfold link. cbn [with_free t_alloc]. rewrite Q3.
    cbn [with_free with_size with_alloc with_arr t_log t_k t_entry t_arr t_alloc t_size].
    destruct T1 as [Wn Ke].
    assert (E0 : t_arr t1 i = []).
    { destruct (t_arr t1 i) as [|y s] eqn:Z; [reflexivity|]. exfalso.
      assert (X : t_alloc t1 i = true) by (apply (sh_ne _ H1); rewrite Z; discriminate). congruence. }
    destruct (insert_ok A cmp SW (t_k t1) (t_log t1) (sh_k _ H1) x i (t_entry t1) (vals (t_arr t1)) Q1 Wn Ke) as (e & w & m & I1 & I2 & I3).
    { cbv beta. rewrite E0. exact Rx. }
    cbn [PqTreeModel.deref hd]. rewrite I1.
    set (t2 := with_entry _ e).
    assert (V : forall j, deref (t_arr t2 j) = upd (vals (t_arr t1)) i x j).
    { intro j. unfold t2. cbn [with_entry with_size with_alloc with_arr with_free t_arr]. unfold upd. destruct (Nat.eqb j i); reflexivity. }
    assert (Pm : Permutation (tcontent t2) ((x :: r) ++ tcontent t)).
    { unfold tcontent, t2. cbn [with_entry with_size with_alloc with_arr with_free t_k t_arr]. eapply Permutation_trans; [apply content_upd, Q1|].
      apply Permutation_app_head. rewrite (content_ext A (t_k t1) (upd (t_arr t1) i []) (t_arr t)).
      - rewrite (content_supp A (t_k t) (t_k t1)); [apply Permutation_refl|apply (shape_supp _ H)|exact K1].
      - intros j _. unfold upd. destruct (Nat.eqb_spec j i) as [->|]; [rewrite <- A1; symmetry; exact E0|apply A1]. }
    exists t2. split; [reflexivity|]. split; [|split; [exact Pm|split]].
    - split.
      + split; [|split].
        * constructor; unfold t2; cbn [with_entry with_size with_alloc with_arr with_free t_k t_log t_arr t_alloc t_free]; try apply H1.
          -- apply good_upd; [apply H1|split; assumption].
          -- intros j Hj. unfold upd in Hj. destruct (Nat.eqb_spec j i) as [Q|]; [lia|apply (sh_al _ H1), Hj].
          -- intros j Hj. unfold upd in *. destruct (Nat.eqb j i); [reflexivity|apply (sh_ne _ H1), Hj].
          -- pose proof (sh_nd _ H1) as Z. rewrite E in Z. inversion Z. assumption.
          -- intro j. pose proof (sh_fr _ H1 j) as Z. rewrite E in Z. cbn [In] in Z.
             pose proof (sh_nd _ H1) as X. rewrite E in X. inversion X as [|? ? X1 X2]; subst.
             unfold upd. destruct (Nat.eqb_spec j i) as [->|N].
             ++ split; [intro; contradiction|intros (_ & _ & ?); discriminate].
             ++ rewrite <- Z. split; [auto|intros [Y|Y]; [congruence|exact Y]].
        * intros j Hj. unfold t2 in *. cbn [with_entry with_size with_alloc with_arr with_free t_arr t_alloc] in *. unfold upd in *.
          destruct (Nat.eqb j i); [discriminate|apply Ti1, Hj].
        * split.
          -- unfold t2. cbn [with_entry with_size with_alloc with_arr with_free t_k t_log t_entry]. eapply wins_ext; [exact I2|reflexivity|]. intros j d _ _. apply V.
          -- rewrite V. exact I3.
      + apply Permutation_length in Pm. rewrite app_length in Pm. rewrite Pm. unfold t2. cbn [with_entry with_size with_alloc with_arr with_free t_size]. lia.
    - unfold used, t2. cbn [with_entry with_size with_alloc with_arr with_free t_alloc]. rewrite filter_upd.
      + f_equal. f_equal. apply filter_ext. exact B1.
      + apply seq_NoDup.
      + apply in_seq. lia.
      + exact Q3.
    - unfold t2. cbn [with_entry with_size with_alloc with_arr with_free t_size]. lia.
  Qed.
End TreeProofs.
