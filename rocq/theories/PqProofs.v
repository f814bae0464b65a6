(** Proofs about the external priority queue. *)
From Coq Require Import List Bool Arith Lia Permutation Sorted.
From Verif Require Import SumLib OrderLib PqTreeModel PqTournProofs PqMergeProofs PqTreeProofs PqModel PqSpec PqListProofs.
Import ListNotations.

Section PqProofs.
  Variable A : Type.
  Variable cmp : A -> A -> bool.
  Hypothesis SW : strict_weak cmp.
  Variable mn : A.
  Variable c : config.
  Variable push_heap pop_heap sortf : list A -> list A.
  Hypothesis PH : push_heap_ok A cmp push_heap.
  Hypothesis PP : pop_heap_ok A cmp pop_heap.
  Hypothesis SF : sorts cmp sortf.
  Hypothesis CO : config_ok c.

  Notation ge := (ge A cmp).
  Notation deref := (deref A mn).
  Notation run := (run A cmp mn).
  Notation real := (real A cmp mn).
  Notation good := (good A cmp mn).
  Notation content := (content A).
  Notation supp := (supp A).
  Notation emits := (emits A cmp mn).
  Notation ar := (ar c).
  Notation ns := (ns c).
  Notation T := (c_T c).
  Notation N := (c_N c).
  Notation dbs := (c_dbs c).
  Notation wfl i t := (wf A cmp mn (ar i) t).
  Notation tcontent := (tcontent A).
  Notation used := (used A).

  Lemma cfg_facts : 1 <= dbs /\ dbs <= N /\ 1 <= c_NI c /\ 2 <= T /\ T <= 4 /\ T + 1 <= c_IK c /\ 2 <= c_EK c /\
    1 <= c_block c /\ 1 <= c_wpool c /\ c_NI c < T.
  Proof. unfold c_T. destruct CO as ((? & ?) & ? & ? & ? & _ & ? & ? & ? & ?). lia. Qed.
  Lemma max_IK : max_arity (c_IK c) = c_IK c.
  Proof.
    destruct CO as (_ & _ & _ & _ & (p & ->) & _). unfold max_arity. rewrite Nat.log2_up_pow2 by lia. reflexivity.
  Qed.
  Lemma ar_pos i : 1 <= ar i.
  Proof. pose proof cfg_facts. unfold PqModel.ar. destruct (Nat.ltb i (c_NI c)); lia. Qed.
  Lemma ns_ok i : max_arity (ar i) <= ns i.
  Proof. unfold PqModel.ar, PqModel.ns. destruct (Nat.ltb i (c_NI c)); [rewrite max_IK; lia|lia]. Qed.

  Definition allG (s : pq A) : list A := content T (q_G s).
  Definition allM (s : pq A) : list A := content T (fun i => tcontent (q_M s i)).

  Record ginv (s : pq A) : Prop := {
    g_wf : forall i, i < T -> wfl i (q_M s i);
    g_run : forall i, run (q_G s i);
    g_len : forall i, length (q_G s i) <= N;
    g_ge : forall i x y, i < T -> In x (q_G s i) -> In y (tcontent (q_M s i)) -> ge x y;
    g_act : q_act s <= T;
    g_dryG : forall i, q_act s <= i -> q_G s i = [];
    g_dryM : forall i, q_act s <= i -> i < T -> tcontent (q_M s i) = [];
    g_size : q_size s = length (allG s) + length (allM s) }.

  Lemma ginv_supp s : ginv s -> supp T (q_G s).
  Proof. intros H i Hi. apply (g_dryG _ H). pose proof (g_act _ H). lia. Qed.
  Lemma in_allM s x : In x (allM s) <-> exists i, i < T /\ In x (tcontent (q_M s i)).
  Proof. apply in_content. Qed.

  (** ** refilling *)
  Lemma refill_group_ok s i : ginv s -> i < T ->
    exists s', refill_group A cmp mn c s i = Some (length (q_G s' i), s') /\ ginv s' /\
      q_D s' = q_D s /\ q_heap s' = q_heap s /\ q_act s' = q_act s /\ q_size s' = q_size s /\
      (forall j, j <> i -> q_G s' j = q_G s j /\ q_M s' j = q_M s j) /\
      Permutation (allG s' ++ allM s') (allG s ++ allM s) /\
      (length (q_G s' i) < N -> tcontent (q_M s' i) = []) /\
      (q_act s <= i -> q_G s' i = []).
  Proof.
    intros H Hi. unfold refill_group.
    pose proof (g_wf _ H i Hi) as W. pose proof W as [_ Sz]. pose proof (g_len _ H i) as Ln.
    destruct (Nat.ltb_spec N (length (q_G s i))) as [Q|_]; [lia|].
    set (len := if Nat.leb N (t_size (q_M s i) + length (q_G s i)) then N - length (q_G s i) else t_size (q_M s i)).
    assert (Lle : len <= t_size (q_M s i) /\ len + length (q_G s i) <= N /\
                  (len + length (q_G s i) < N -> len = t_size (q_M s i))).
    { unfold len. destruct (Nat.leb_spec N (t_size (q_M s i) + length (q_G s i))); lia. }
    destruct Lle as (L1 & L2 & L3). destruct (Nat.eqb_spec len 0) as [E|NE].
    - exists s. rewrite E. split; [reflexivity|]. split; [exact H|]. do 4 (split; [reflexivity|]). split; [auto|].
      split; [apply Permutation_refl|]. split; [|apply (g_dryG _ H)].
      intro Q. assert (Z : len = t_size (q_M s i)) by (apply L3; lia).
      apply length_zero_iff_nil. lia.
    - destruct (multi_merge_ok A cmp SW mn (ar i) (ns i) (ar_pos i) (ns_ok i) len (q_M s i) W L1)
        as (out & t & -> & W' & Ro & Lo & P & O).
      assert (Gi : run (q_G s i ++ out)).
      { apply run_app; [apply (g_run _ H)|exact Ro|]. intros x y Hx Hy. apply (g_ge _ H i); auto.
        apply (Permutation_in _ (Permutation_sym P)), in_or_app. left. exact Hy. }
      assert (Na : q_act s <= i -> False).
      { intro Q. pose proof (g_dryM _ H i Q Hi) as Z. rewrite Z in Sz. cbn in Sz. lia. }
      set (s' := with_G (with_M s (upd (q_M s) i t)) (upd (q_G s) i (q_G s i ++ out))).
      assert (PA : Permutation (allG s' ++ allM s') (allG s ++ allM s)).
      { unfold allG, allM, s'. cbn [with_G with_M q_G q_M].
        assert (PG : Permutation (content T (upd (q_G s) i (q_G s i ++ out))) (out ++ content T (q_G s))).
        { eapply Permutation_trans; [apply content_upd, Hi|].
          eapply Permutation_trans; [apply Permutation_app_tail, Permutation_app_comm|]. rewrite <- app_assoc.
          apply Permutation_app_head, Permutation_sym, content_take, Hi. }
        assert (PM : Permutation (content T (fun j => tcontent (q_M s j))) (out ++ content T (fun j => tcontent (upd (q_M s) i t j)))).
        { eapply Permutation_trans; [apply (content_take A T _ i Hi)|].
          eapply Permutation_trans; [apply Permutation_app_tail, P|]. rewrite <- app_assoc. apply Permutation_app_head.
          rewrite (content_ext A T (fun j => tcontent (upd (q_M s) i t j)) (upd (fun j => tcontent (q_M s j)) i (tcontent t))).
          - apply Permutation_sym, content_upd, Hi.
          - intros j _. unfold upd. destruct (Nat.eqb j i); reflexivity. }
        eapply Permutation_trans; [apply Permutation_app_tail, PG|].
        eapply Permutation_trans; [|apply Permutation_app_head, Permutation_sym, PM].
        rewrite !app_assoc. apply Permutation_app_tail, Permutation_app_comm. }
      assert (GL : length (q_G s' i) = len + length (q_G s i)).
      { unfold s'. cbn [with_G q_G]. rewrite upd_same, app_length. lia. }
      exists s'. split; [rewrite GL; reflexivity|]. split.
      + constructor; unfold s'; cbn [with_G with_M q_G q_M q_act q_size].
        * intros j Hj. unfold upd. destruct (Nat.eqb_spec j i) as [E|]; [subst j; exact W'|apply (g_wf _ H), Hj].
        * intros j. unfold upd. destruct (Nat.eqb j i); [exact Gi|apply (g_run _ H)].
        * intros j. unfold upd. destruct (Nat.eqb j i); [rewrite app_length; lia|apply (g_len _ H)].
        * intros j x y Hj. unfold upd. destruct (Nat.eqb_spec j i) as [E|]; [|apply (g_ge _ H), Hj].
          intros Hx Hy. apply in_app_or in Hx. destruct Hx as [Hx|Hx]; [|apply O; assumption].
          apply (g_ge _ H i); auto. apply (Permutation_in _ (Permutation_sym P)), in_or_app. right. exact Hy.
        * apply (g_act _ H).
        * intros j Hj. rewrite upd_other; [apply (g_dryG _ H), Hj|]. intros ->. apply Na, Hj.
        * intros j Hj Hj'. rewrite upd_other; [apply (g_dryM _ H); assumption|]. intros ->. apply Na, Hj.
        * apply Permutation_length in PA. rewrite !app_length in PA. unfold s' in PA. rewrite (g_size _ H). symmetry. exact PA.
      + do 4 (split; [reflexivity|]). split.
        { intros j Hj. unfold s'. cbn [with_G with_M q_G q_M]. rewrite !upd_other by exact Hj. auto. }
        split; [exact PA|]. split; [|intro Q; destruct (Na Q)].
        rewrite GL. intro Q. unfold s'. cbn [with_G with_M q_M]. rewrite upd_same.
        apply length_zero_iff_nil. apply Permutation_length in P. rewrite app_length in P. specialize (L3 Q). lia.
  Qed.

  Lemma ginv_act s i : ginv s -> S i = q_act s -> q_G s i = [] -> tcontent (q_M s i) = [] -> ginv (with_act s i).
  Proof.
    intros H E G0 M0. constructor; cbn [with_act q_G q_M q_act q_size]; try apply H.
    - pose proof (g_act _ H). lia.
    - intros j Hj. destruct (Nat.eq_dec j i) as [->|]; [exact G0|apply (g_dryG _ H); lia].
    - intros j Hj Hj'. destruct (Nat.eq_dec j i) as [->|]; [exact M0|apply (g_dryM _ H); lia].
  Qed.

  Lemma refill_loop_ok i : forall total s, ginv s -> i <= T ->
    exists total' s', refill_loop A cmp mn c i total s = Some (total', s') /\ ginv s' /\
      q_D s' = q_D s /\ q_heap s' = q_heap s /\ q_size s' = q_size s /\ q_act s' <= q_act s /\
      Permutation (allG s' ++ allM s') (allG s ++ allM s) /\
      (forall j, j < i -> dbs <= length (q_G s' j) \/ tcontent (q_M s' j) = []) /\
      (forall j, i <= j -> q_G s' j = q_G s j /\ q_M s' j = q_M s j) /\
      (total' = total + length (content i (q_G s')) \/
       (total + dbs <= total' /\ dbs <= length (content i (q_G s')))).
  Proof.
    pose proof cfg_facts as CF.
    induction i as [|i IH]; intros total s H Hi.
    - exists total, s. split; [reflexivity|]. split; [exact H|]. do 3 (split; [reflexivity|]). split; [lia|].
      split; [apply Permutation_refl|]. split; [lia|]. split; [auto|]. left. unfold PqMergeProofs.content. cbn. lia.
    - assert (CS : forall g, length (content (S i) g) = length (content i g) + length (g i)).
      { intro g. unfold PqMergeProofs.content. rewrite seq_S, map_app, concat_app, app_length. cbn. rewrite app_nil_r. reflexivity. }
      cbn [refill_loop]. destruct (Nat.ltb_spec (length (q_G s i)) dbs) as [L|L].
      + destruct (refill_group_ok s i H ltac:(lia)) as (s1 & -> & H1 & D1 & He1 & A1 & S1 & O1 & P1 & E1 & Dr1).
        set (s2 := if Nat.eqb (length (q_G s1 i)) 0 && Nat.eqb (S i) (q_act s1) then with_act s1 (q_act s1 - 1) else s1).
        assert (F2 : ginv s2 /\ q_D s2 = q_D s1 /\ q_heap s2 = q_heap s1 /\ q_size s2 = q_size s1 /\ q_act s2 <= q_act s1 /\
          q_G s2 = q_G s1 /\ q_M s2 = q_M s1).
        { unfold s2. destruct (Nat.eqb_spec (length (q_G s1 i)) 0) as [Z|Z]; [|cbn [andb]; auto 10].
          destruct (Nat.eqb_spec (S i) (q_act s1)) as [Y|Y]; [|cbn [andb]; auto 10]. cbn [andb].
          replace (q_act s1 - 1) with i by lia. split; [|repeat split; cbn; lia].
          apply ginv_act; auto; [apply length_zero_iff_nil, Z|apply E1; lia]. }
        destruct F2 as (H2 & D2 & He2 & S2 & A2 & G2 & M2).
        destruct (IH (total + length (q_G s1 i)) s2 H2 ltac:(lia)) as (tt & s3 & -> & H3 & D3 & He3 & S3 & A3 & P3 & Pr3 & O3 & T3).
        destruct (O3 i (le_n i)) as [Gi Mi]. rewrite G2 in Gi. rewrite M2 in Mi.
        exists tt, s3. split; [reflexivity|]. split; [exact H3|]. do 3 (split; [congruence|]). split; [lia|].
        split. { eapply Permutation_trans; [exact P3|]. unfold allG, allM. rewrite G2, M2. exact P1. }
        split. { intros j Hj. destruct (Nat.eq_dec j i) as [->|]; [|apply Pr3; lia]. rewrite Gi, Mi.
                 destruct (Nat.lt_ge_cases (length (q_G s1 i)) N); [right; auto|left; lia]. }
        split. { intros j Hj. destruct (O3 j ltac:(lia)) as [Q1 Q2]. rewrite Q1, Q2, G2, M2. apply O1. lia. }
        rewrite CS, Gi. destruct T3 as [T3|[T3 T4]]; [left; lia|right; lia].
      + destruct (IH (total + dbs) s H ltac:(lia)) as (tt & s3 & -> & H3 & D3 & He3 & S3 & A3 & P3 & Pr3 & O3 & T3).
        destruct (O3 i (le_n i)) as [Gi Mi].
        exists tt, s3. split; [reflexivity|]. split; [exact H3|]. do 3 (split; [congruence|]). split; [lia|].
        split; [exact P3|].
        split. { intros j Hj. destruct (Nat.eq_dec j i) as [->|]; [left; rewrite Gi; exact L|apply Pr3; lia]. }
        split. { intros j Hj. apply O3. lia. }
        right. rewrite CS, Gi. destruct T3 as [T3|[T3 T4]]; lia.
  Qed.

  Lemma merge_groups_ok len s : ginv s -> len <= length (allG s) ->
    exists out g, merge_groups A cmp mn len s = Some (with_D (with_G s g) out) /\ emits len (q_G s) out g.
  Proof.
    intros H Hl. pose proof cfg_facts as CF. pose proof (g_act _ H) as Ha. pose proof (ginv_supp _ H) as Sp.
    assert (Dry : forall k, q_act s <= k -> forall j, k <= j -> q_G s j = []) by (intros k Hk j Hj; apply (g_dryG _ H); lia).
    unfold merge_groups. destruct (q_act s) as [|[|[|[|[|a]]]]] eqn:Ea.
    - assert (Z : allG s = []) by (apply content_nil; intros j _; apply (Dry 0 ltac:(lia)); lia).
      rewrite Z in Hl. cbn in Hl. replace len with 0 by lia. cbn [Nat.eqb].
      exists [], (q_G s). split; [destruct s; reflexivity|]. constructor. reflexivity.
    - assert (Z : length (allG s) = length (q_G s 0)).
      { unfold allG. rewrite (content_supp A 1 T); [|intros j Hj; apply (Dry 1); lia|lia].
        unfold PqMergeProofs.content. cbn. rewrite app_nil_r. reflexivity. }
      rewrite Z in Hl. rewrite copy_n_ok by exact Hl.
      eexists _, _. split; [reflexivity|]. apply (copy_emits A cmp SW); [exact (g_run _ H)|intros j Hj; apply (Dry 1); lia|exact Hl].
    - destruct (merge2_ok A cmp SW mn len (q_G s) T (g_run _ H) Sp (Dry 2 ltac:(lia)) Hl) as (out & r0 & r1 & -> & Em).
      eexists _, _. split; [reflexivity|exact Em].
    - destruct (merge3_ok A cmp SW mn len (q_G s) T (g_run _ H) Sp (Dry 3 ltac:(lia)) Hl) as (out & g & -> & Em).
      eexists _, _. split; [reflexivity|exact Em].
    - destruct (merge4_ok A cmp SW mn len (q_G s) T (g_run _ H) Sp (Dry 4 ltac:(lia)) Hl) as (out & g & -> & Em).
      eexists _, _. split; [reflexivity|exact Em].
    - lia.
  Qed.

  Definition dinv (s : pq A) : Prop :=
    run (q_D s) /\ length (q_D s) <= dbs /\ (forall x y, In x (q_D s) -> In y (allG s ++ allM s) -> ge x y) /\
    (q_D s = [] -> q_size s = 0).

  Lemma refill_delete_ok s : ginv s ->
    exists s', refill_delete_buffer A cmp mn c s = Some s' /\ ginv s' /\ dinv s' /\ q_heap s' = q_heap s /\
      Permutation (q_D s' ++ allG s' ++ allM s') (allG s ++ allM s).
  Proof.
    intros H. pose proof cfg_facts as CF. unfold refill_delete_buffer.
    destruct (refill_loop_ok (q_act s) 0 s H (g_act _ H)) as (total & s1 & -> & H1 & D1 & He1 & S1 & A1 & P1 & Pr1 & O1 & T1).
    assert (CA : content (q_act s) (q_G s1) = allG s1).
    { symmetry. apply content_supp; [|apply (g_act _ H)]. intros j Hj. rewrite (proj1 (O1 j Hj)). apply (g_dryG _ H), Hj. }
    rewrite CA in T1. cbn [plus] in T1.
    assert (Full : forall j, j < T -> dbs <= length (q_G s1 j) \/ tcontent (q_M s1 j) = []).
    { intros j Hj. destruct (Nat.lt_ge_cases j (q_act s)) as [L|L]; [apply Pr1, L|right].
      rewrite (proj2 (O1 j L)). apply (g_dryM _ H); assumption. }
    (* the merge itself *)
    assert (Fin : forall len sz, len <= dbs -> len <= length (allG s1) -> sz = q_size s1 - len -> (len = 0 -> sz = 0) ->
      exists s', merge_groups A cmp mn len (with_qsize s1 sz) = Some s' /\ ginv s' /\ dinv s' /\ q_heap s' = q_heap s /\
        Permutation (q_D s' ++ allG s' ++ allM s') (allG s ++ allM s)).
    { intros len sz Lb Lg Esz Z0.
      assert (MG : exists out g, merge_groups A cmp mn len (with_qsize s1 sz) = Some (with_D (with_G (with_qsize s1 sz) g) out) /\ emits len (q_G s1) out g).
      { destruct (merge_groups_ok len s1 H1 Lg) as (out & g & E & Em). exists out, g. split; [|exact Em].
        unfold merge_groups in E |- *. cbn [with_qsize q_act q_G] in *. clear - E.
        destruct (q_act s1) as [|[|[|[|[|a]]]]].
        - destruct (Nat.eqb len 0); [|discriminate]. injection E as E1 E2. unfold with_D, with_G, with_qsize. cbn. congruence.
        - destruct (copy_n A mn len (q_G s1 0)) as [[o r]|]; [|discriminate]. injection E as E1 E2. unfold with_D, with_G, with_qsize. cbn. congruence.
        - destruct (merge2 A cmp mn len (q_G s1 0) (q_G s1 1)) as [[o [r0 r1]]|]; [|discriminate]. injection E as E1 E2. unfold with_D, with_G, with_qsize. cbn. congruence.
        - destruct (merge3 A cmp mn len (q_G s1)) as [[o r]|]; [|discriminate]. injection E as E1 E2. unfold with_D, with_G, with_qsize. cbn. congruence.
        - destruct (merge4 A cmp mn len (q_G s1)) as [[o r]|]; [|discriminate]. injection E as E1 E2. unfold with_D, with_G, with_qsize. cbn. congruence.
        - discriminate. }
      destruct MG as (out & g & -> & Em).
      destruct (emits_facts A cmp SW mn len (q_G s1) out g T Em (g_run _ H1) (ginv_supp _ H1)) as (Gg & Gs & Ro & Lo & P & O & I).
      set (s' := with_D (with_G (with_qsize s1 sz) g) out).
      assert (EmF := emits_from A cmp mn len (q_G s1) out g).
      exists s'. split; [reflexivity|].
      assert (PA : Permutation (allG s1 ++ allM s1) (q_D s' ++ allG s' ++ allM s')).
      { unfold s', allG, allM. cbn [with_D with_G with_qsize q_D q_G q_M]. rewrite app_assoc. apply Permutation_app_tail, P. }
      split; [|split; [|split; [exact He1|eapply Permutation_trans; [apply Permutation_sym, PA|exact P1]]]].
      - constructor; unfold s'; cbn [with_D with_G with_qsize q_D q_G q_M q_act q_size]; try apply H1.
        + exact Gg.
        + intros j. destruct (EmF j Em) as [Q _]. pose proof (g_len _ H1 j) as Q2.
          assert (Sub : length (g j) <= length (q_G s1 j)); [|lia].
          { clear - Em. remember (q_G s1) as arr. clear Heqarr. induction Em as [arr arr' E|n arr w x r out arr' E1 E2 E3 IH]; [rewrite E; lia|].
            unfold upd in IH. destruct (Nat.eqb_spec j w) as [Q|]; [subst j; rewrite E1; cbn [length]; lia|exact IH]. }
        + intros j x y Hj Hx Hy. apply (g_ge _ H1 j); auto.
        + intros j Hj. destruct (g j) as [|x r] eqn:E; [reflexivity|]. exfalso.
          assert (Q : In x (q_G s1 j)) by (apply I; rewrite E; left; reflexivity).
          rewrite (g_dryG _ H1 j Hj) in Q. contradiction.
        + apply Permutation_length in PA. rewrite !app_length in PA. unfold s' in PA. cbn [with_D with_G with_qsize q_D] in PA.
          rewrite (g_size _ H1) in Esz. lia.
      - split; [exact Ro|]. split; [unfold s'; cbn [with_D q_D]; lia|]. split.
        + intros x y Hx Hy. unfold s' in Hx. cbn [with_D q_D] in Hx. apply in_app_or in Hy. destruct Hy as [Hy|Hy]; [apply O; assumption|].
          apply in_allM in Hy. destruct Hy as (j & Hj & Hy). unfold s' in Hy. cbn [with_D with_G with_qsize q_M] in Hy.
          destruct (Full j Hj) as [F|F]; [|rewrite F in Hy; contradiction].
          destruct (EmF j Em) as [Q1 Q2]. destruct (g j) as [|u r] eqn:E.
          * cbn in Q1, Q2. apply (g_ge _ H1 j); auto. apply Q2; [lia|exact Hx].
          * assert (Hu : In u (g j)) by (rewrite E; left; reflexivity).
            eapply (ge_trans _ _ SW).
            -- apply (O x u Hx). apply in_content. exists j. auto.
            -- apply (g_ge _ H1 j); auto.
        + intro Z. unfold s' in *. cbn [with_D with_G with_qsize q_D q_size] in *. apply Z0. rewrite Z in Lo. cbn in Lo. lia. }
    assert (Sz1 : q_size s1 = length (allG s1) + length (allM s1)) by apply (g_size _ H1).
    destruct (Nat.leb_spec dbs total) as [L|L].
    - destruct (Nat.ltb_spec (q_size s1) dbs) as [Q|Q]; [destruct T1; lia|].
      apply Fin; lia.
    - assert (E : total = length (allG s1)) by (destruct T1; lia).
      assert (M0 : allM s1 = []).
      { apply content_nil. intros j Hj. destruct (Full j Hj) as [F|F]; [exfalso|exact F].
        assert (length (q_G s1 j) <= length (allG s1)).
        { pose proof (Permutation_length (content_take A T (q_G s1) j Hj)) as Z. rewrite app_length in Z. unfold allG. lia. }
        lia. }
      rewrite M0 in Sz1. cbn [length] in Sz1.
      destruct (Nat.eqb_spec (q_size s1) total) as [_|Q]; [|lia]. apply Fin; lia.
  Qed.

  (** ** moving segments to higher levels *)
  Lemma append_parts a n t l t' : 1 <= a -> max_arity a <= n -> wf A cmp mn a t -> run l -> l <> [] ->
    append_array A cmp mn a n t l = Some t' ->
    exists i t1, new_player A cmp mn a n t = Some (i, t1) /\ link A cmp mn t1 i l = Some t'.
  Proof.
    intros Ha Hn W [Srt R] Ne E. destruct l as [|x r]; [contradiction|]. unfold append_array in E.
    destruct (is_sentinel A cmp mn x || is_sentinel A cmp mn (last r x)); [discriminate|].
    destruct (new_player A cmp mn a n t) as [[i t1]|]; [|discriminate]. exists i, t1. auto.
  Qed.
  Lemma merge_pieces_ok a n sizes : 1 <= a -> max_arity a <= n -> forall t, wf A cmp mn a t ->
    (forall k, In k sizes -> 1 <= k) -> list_sum sizes <= t_size t ->
    exists out t', merge_pieces A cmp mn a n sizes t = Some (out, t') /\ wf A cmp mn a t' /\
      run out /\ length out = list_sum sizes /\ Permutation (tcontent t) (out ++ tcontent t') /\
      (forall x y, In x out -> In y (tcontent t') -> ge x y).
  Proof.
    intros Ha Hn. induction sizes as [|k sizes IH]; intros t W Hk Hs.
    - exists [], t. split; [reflexivity|]. split; [exact W|]. split; [apply run_nil|]. split; [reflexivity|].
      split; [apply Permutation_refl|contradiction].
    - cbn [list_sum] in Hs. change (list_sum (k :: sizes)) with (k + list_sum sizes) in *.
      destruct (multi_merge_ok A cmp SW mn a n Ha Hn k t W ltac:(lia)) as (o & t1 & E & W1 & R1 & L1 & P1 & O1).
      cbn [merge_pieces]. rewrite E.
      assert (B : match o with [] => true | x :: o => cmp x (last o x) end = false).
      { pose proof (Hk k (or_introl eq_refl)). destruct o as [|x o]; [cbn in L1; lia|].
        destruct o as [|y o]; [apply (sw_irrefl _ SW)|].
        apply (run_tl _ _ _ _ _ R1). clear. revert y. induction o as [|z o IH]; intro y; [left; reflexivity|]. right. exact (IH z). }
      rewrite B.
      assert (Sz : t_size t1 = t_size t - k).
      { destruct W as [_ S0], W1 as [_ S1]. apply Permutation_length in P1. rewrite app_length in P1. lia. }
      destruct (IH t1 W1) as (o2 & t2 & -> & W2 & R2 & L2 & P2 & O2).
      { intros j Hj. apply Hk. right. exact Hj. }
      { lia. }
      exists (o ++ o2), t2. split; [reflexivity|]. split; [exact W2|]. split.
      { apply run_app; auto. intros x y Hx Hy. apply O1; [exact Hx|].
        apply (Permutation_in _ (Permutation_sym P2)), in_or_app. left. exact Hy. }
      split; [rewrite app_length; lia|]. split.
      { rewrite <- app_assoc. eapply Permutation_trans; [exact P1|]. apply Permutation_app_head, P2. }
      intros x y Hx Hy. apply in_app_or in Hx. destruct Hx as [Hx|Hx]; [|apply O2; assumption].
      apply O1; [exact Hx|]. apply (Permutation_in _ (Permutation_sym P2)), in_or_app. right. exact Hy.
  Qed.
  Lemma append_merger_ok dst a n src : 1 <= a -> max_arity a <= n -> wf A cmp mn (c_EK c) dst -> wf A cmp mn a src ->
    used (c_EK c) dst < c_EK c ->
    exists dst' src', append_merger A cmp mn c dst a n src (t_size src) = Some (dst', src') /\
      wf A cmp mn (c_EK c) dst' /\ wf A cmp mn a src' /\ tcontent src' = [] /\
      Permutation (tcontent dst') (tcontent src ++ tcontent dst) /\ used (c_EK c) dst' <= S (used (c_EK c) dst).
  Proof.
    intros Ha Hn Wd Ws Hu. pose proof cfg_facts as CF. unfold append_merger.
    destruct (Nat.eqb_spec (t_size src) 0) as [Z|Z].
    - assert (E : tcontent src = []) by (destruct Ws as [_ Sz]; apply length_zero_iff_nil; lia).
      exists dst, src. split; [reflexivity|]. split; [exact Wd|]. split; [exact Ws|]. split; [exact E|]. rewrite E. split; [apply Permutation_refl|lia].
    - set (B := c_block c) in *. set (seg := t_size src) in *. cbv zeta.
      set (first := if Nat.eqb (seg mod B) 0 then B else seg mod B).
      set (nb := if Nat.eqb (seg mod B) 0 then seg / B - 1 else seg / B).
      assert (Sum : list_sum (first :: repeat B nb) = seg /\ 1 <= first).
      { assert (LS : list_sum (repeat B nb) = nb * B).
        { clear. induction nb as [|m IH]; [reflexivity|]. cbn. rewrite <- IH. reflexivity. }
        change (list_sum (first :: repeat B nb)) with (first + list_sum (repeat B nb)). rewrite LS.
        assert (BN : B <> 0) by lia. pose proof (Nat.div_mod seg B BN) as DM. unfold first, nb.
        destruct (Nat.eqb_spec (seg mod B) 0) as [E|E]; [|rewrite Nat.mul_comm in DM; lia].
        rewrite E in DM. assert (D1 : 1 <= seg / B). { destruct (seg / B); lia. }
        rewrite Nat.mul_sub_distr_r, (Nat.mul_comm (seg / B)). assert (B * 1 <= B * (seg / B)) by (apply Nat.mul_le_mono_l; exact D1). lia. }
      destruct Sum as [Sum F1].
      destruct (merge_pieces_ok a n (first :: repeat B nb) Ha Hn src Ws) as (l & src' & Em & Ws' & Rl & Ll & P & O).
      { intros k [<-|Hk]; [exact F1|]. apply repeat_spec in Hk. lia. }
      { rewrite Sum. unfold seg. lia. }
      rewrite Sum in Ll.
      assert (Ne : l <> []) by (intros ->; cbn in Ll; lia).
      destruct (append_ok A cmp SW mn (c_EK c) (max_arity (c_EK c)) ltac:(lia) (le_n _) dst l Wd Rl Ne Hu) as (d' & Ea & Wd' & Pd & Ud & _).
      destruct (append_parts (c_EK c) (max_arity (c_EK c)) dst l d' ltac:(lia) (le_n _) Wd Rl Ne Ea) as (i & t1 & En & El).
      rewrite En, Em. destruct (Nat.eqb_spec (c_wpool c) 0) as [Q|_]; [lia|]. rewrite El.
      assert (E0 : tcontent src' = []).
      { apply length_zero_iff_nil. apply Permutation_length in P. rewrite app_length in P. destruct Ws as [_ Sz]. fold seg in Sz. lia. }
      exists d', src'. split; [reflexivity|]. split; [exact Wd'|]. split; [exact Ws'|]. split; [exact E0|].
      rewrite E0, app_nil_r in P. split; [|lia].
      eapply Permutation_trans; [exact Pd|]. apply Permutation_app_tail, Permutation_sym, P.
  Qed.

  (** the part of the invariant that make_space_available needs *)
  Record minv (s : pq A) : Prop := {
    m_wf : forall i, i < T -> wfl i (q_M s i);
    m_act : q_act s <= T;
    m_dry : forall i, q_act s <= i -> i < T -> tcontent (q_M s i) = [] }.

  Lemma make_space_ok fuel : forall level s, fuel + level = T -> level < T -> level <= q_act s -> minv s ->
    exists fl s', make_space A cmp mn c fuel level s = Some (fl, s') /\ minv s' /\
      level <= fl < T /\ fl < q_act s' /\ q_act s <= q_act s' /\ level < q_act s' /\
      q_D s' = q_D s /\ q_G s' = q_G s /\ q_heap s' = q_heap s /\ q_size s' = q_size s /\
      (forall i, i < level -> q_M s' i = q_M s i) /\ (forall i, fl < i -> q_M s' i = q_M s i) /\
      used (ar level) (q_M s' level) < ar level /\
      (level < fl -> tcontent (q_M s' level) = []) /\
      (fl = level -> Permutation (tcontent (q_M s' level)) (tcontent (q_M s level))) /\
      Permutation (allM s') (allM s).
  Proof.
    pose proof cfg_facts as CF.
    induction fuel as [|fuel IH]; intros level s Hf Hl Ha H; [lia|].
    cbn [make_space]. destruct (Nat.ltb_spec level T) as [_|Q]; [|lia]. destruct (Nat.ltb_spec (q_act s) level) as [Q|_]; [lia|].
    cbn [negb orb].
    set (s0 := if Nat.eqb level (q_act s) then with_act s (S (q_act s)) else s).
    assert (F0 : minv s0 /\ q_D s0 = q_D s /\ q_G s0 = q_G s /\ q_heap s0 = q_heap s /\ q_size s0 = q_size s /\ q_M s0 = q_M s /\
      q_act s <= q_act s0 /\ level < q_act s0 /\ q_act s0 <= T).
    { unfold s0. destruct (Nat.eqb_spec level (q_act s)) as [E|NE].
      - cbn. repeat (split; [reflexivity || lia|]). split; [|repeat split; lia].
        constructor; cbn; [apply H|lia|]. intros i Hi. apply (m_dry _ H). lia.
      - pose proof (m_act _ H). repeat (split; [exact H || reflexivity || lia|]). lia. }
    destruct F0 as (H0 & D0 & G0 & He0 & S0 & M0 & A0 & A0' & A0'').
    clearbody s0. rewrite <- D0, <- G0, <- He0, <- S0, <- M0. unfold allM. rewrite <- M0.
    pose proof (m_wf _ H0 level Hl) as W. pose proof W as [(Sh & _ & _) _].
    pose proof (space_iff A cmp mn (ar level) (ns level) (ar_pos level) (ns_ok level) (q_M s0 level) Sh) as SI.
    destruct (space_available A (ar level) (q_M s0 level)) eqn:Esp.
    - exists level, s0. split; [reflexivity|]. split; [exact H0|].
      split; [lia|]. split; [lia|]. split; [lia|]. split; [lia|]. do 4 (split; [reflexivity|]).
      split; [reflexivity|]. split; [reflexivity|]. split; [apply SI; reflexivity|]. split; [intro; lia|].
      split; [intro; apply Permutation_refl|apply Permutation_refl].
    - destruct (Nat.eqb_spec level (T - 1)) as [EL|NL].
      + (* overflow *)
        destruct (Nat.ltb_spec level (c_NI c)) as [Q|Q]; [lia|].
        destruct (new_tree_ok A cmp SW mn (c_EK c) (max_arity (c_EK c)) ltac:(lia) (le_n _)) as (ov & -> & Wo & Co & Uo).
        destruct (append_merger_ok ov (ar level) (ns level) (q_M s0 level) (ar_pos level) (ns_ok level) Wo W ltac:(lia))
          as (ov' & src' & -> & Wo' & _ & _ & Po & Uo').
        rewrite Co, app_nil_r in Po.
        assert (Ea : ar level = c_EK c) by (unfold PqModel.ar; destruct (Nat.ltb_spec level (c_NI c)); [lia|reflexivity]).
        exists level, (with_M s0 (upd (q_M s0) level ov')). split; [reflexivity|].
        split. { constructor; cbn [with_M q_M q_act].
          - intros i Hi. unfold upd. destruct (Nat.eqb_spec i level) as [E|]; [rewrite E, Ea; exact Wo'|apply (m_wf _ H0), Hi].
          - apply H0.
          - intros i Hi Hi'. rewrite upd_other by lia. apply (m_dry _ H0); assumption. }
        cbn [with_M q_M q_act q_D q_G q_heap q_size].
        split; [lia|]. split; [lia|]. split; [lia|]. split; [lia|]. do 4 (split; [reflexivity|]).
        split; [intros i Hi; apply upd_other; lia|].
        split; [intros i Hi; apply upd_other; lia|]. rewrite upd_same, Ea. split; [lia|]. split; [intro; lia|].
        split; [intros _; exact Po|].
          rewrite (content_ext A T (fun i => tcontent (upd (q_M s0) level ov' i)) (upd (fun i => tcontent (q_M s0 i)) level (tcontent ov'))) by
            (intros j _; unfold upd; destruct (Nat.eqb j level); reflexivity).
          eapply Permutation_trans; [apply content_upd, Hl|]. eapply Permutation_trans; [apply Permutation_app_tail, Po|].
          apply Permutation_sym, (content_take A T (fun i => tcontent (q_M s0 i))), Hl.
      + destruct (IH (S level) s0 ltac:(lia) ltac:(lia) ltac:(lia) H0)
          as (fl & s1 & -> & H1 & F1 & F2 & F3 & F4 & D1 & G1 & He1 & S1 & Lo1 & Hi1 & U1 & _ & _ & P1).
        pose proof (m_wf _ H1 level Hl) as W1. pose proof (m_wf _ H1 (S level) ltac:(lia)) as W1'.
        assert (Step : exists t t',
          (if Nat.ltb (S level) (c_NI c) then
             match multi_merge A cmp mn (ar level) (ns level) (t_size (q_M s1 level)) (q_M s1 level) with
             | None => None
             | Some (l, t) => match append_array A cmp mn (ar (S level)) (ns (S level)) (q_M s1 (S level)) l with
                 | None => None | Some t' => Some (fl, with_M s1 (upd (upd (q_M s1) level t) (S level) t')) end
             end
           else match append_merger A cmp mn c (q_M s1 (S level)) (ar level) (ns level) (q_M s1 level) (t_size (q_M s1 level)) with
                | None => None | Some (t', t) => Some (fl, with_M s1 (upd (upd (q_M s1) level t) (S level) t')) end)
          = Some (fl, with_M s1 (upd (upd (q_M s1) level t) (S level) t')) /\
          wfl level t /\ wfl (S level) t' /\ tcontent t = [] /\
          Permutation (tcontent t') (tcontent (q_M s1 level) ++ tcontent (q_M s1 (S level)))).
        { destruct (Nat.ltb_spec (S level) (c_NI c)) as [L|L].
          - destruct (multi_merge_ok A cmp SW mn (ar level) (ns level) (ar_pos level) (ns_ok level) (t_size (q_M s1 level)) (q_M s1 level) W1 (le_n _))
              as (l & t & -> & Wt & Rl & Ll & P & _).
            assert (E0 : tcontent t = []).
            { apply length_zero_iff_nil. apply Permutation_length in P. rewrite app_length in P. destruct W1 as [_ Sz]. lia. }
            rewrite E0, app_nil_r in P. destruct l as [|x r].
            + cbn [append_array]. exists t, (q_M s1 (S level)). split; [reflexivity|]. split; [exact Wt|]. split; [exact W1'|]. split; [exact E0|].
              apply Permutation_sym, Permutation_nil in P. rewrite P. apply Permutation_refl.
            + destruct (append_ok A cmp SW mn (ar (S level)) (ns (S level)) (ar_pos (S level)) (ns_ok (S level)) (q_M s1 (S level)) (x :: r) W1' Rl ltac:(discriminate) U1)
                as (t' & -> & Wt' & Pt & _ & _).
              exists t, t'. split; [reflexivity|]. split; [exact Wt|]. split; [exact Wt'|]. split; [exact E0|].
              eapply Permutation_trans; [exact Pt|]. apply Permutation_app_tail, Permutation_sym, P.
          - assert (Ea : ar (S level) = c_EK c) by (unfold PqModel.ar; destruct (Nat.ltb_spec (S level) (c_NI c)); [lia|reflexivity]).
            rewrite Ea in *.
            destruct (append_merger_ok (q_M s1 (S level)) (ar level) (ns level) (q_M s1 level) (ar_pos level) (ns_ok level) W1' W1 U1)
              as (t' & t & -> & Wt' & Wt & E0 & Pt & _).
            exists t, t'. split; [reflexivity|]. auto. }
        destruct Step as (t & t' & Es & Wt & Wt' & E0 & Pt). cbv zeta. rewrite Es. clear Es.
        exists fl, (with_M s1 (upd (upd (q_M s1) level t) (S level) t')). split; [reflexivity|].
        assert (Ml : forall i, upd (upd (q_M s1) level t) (S level) t' i = if Nat.eqb i (S level) then t' else if Nat.eqb i level then t else q_M s1 i) by reflexivity.
        split. { constructor; cbn [with_M q_M q_act].
          - intros i Hi. rewrite Ml. destruct (Nat.eqb_spec i (S level)) as [E|]; [rewrite E; exact Wt'|].
            destruct (Nat.eqb_spec i level) as [E|]; [rewrite E; exact Wt|apply (m_wf _ H1), Hi].
          - apply H1.
          - intros i Hi Hi'. rewrite Ml. destruct (Nat.eqb_spec i (S level)) as [E|]; [lia|].
            destruct (Nat.eqb_spec i level) as [E|]; [lia|apply (m_dry _ H1); assumption]. }
        cbn [with_M q_M q_act q_D q_G q_heap q_size].
        split; [lia|]. split; [lia|]. split; [lia|]. split; [lia|]. do 4 (split; [congruence|]).
        split. { intros i Hi. rewrite Ml. destruct (Nat.eqb_spec i (S level)); [lia|]. destruct (Nat.eqb_spec i level); [lia|]. apply Lo1. lia. }
        split. { intros i Hi. rewrite Ml. destruct (Nat.eqb_spec i (S level)); [lia|]. destruct (Nat.eqb_spec i level); [lia|]. apply Hi1. lia. }
        assert (Tl : upd (upd (q_M s1) level t) (S level) t' level = t).
        { rewrite Ml. destruct (Nat.eqb_spec level (S level)); [lia|]. rewrite Nat.eqb_refl. reflexivity. }
        rewrite Tl. split. { rewrite (used_empty A cmp mn (ar level) t Wt E0). pose proof (ar_pos level). lia. }
        split; [intros _; exact E0|]. split; [intro; lia|].
        eapply Permutation_trans; [|exact P1]. unfold allM.
        set (g := fun i => tcontent (q_M s1 i)).
        rewrite (content_ext A T (fun i => tcontent (upd (upd (q_M s1) level t) (S level) t' i)) (upd (upd g level []) (S level) (tcontent t'))).
        2:{ intros j _. rewrite Ml. unfold upd, g. destruct (Nat.eqb j (S level)); [reflexivity|]. destruct (Nat.eqb j level); [exact E0|reflexivity]. }
        eapply Permutation_trans; [apply content_upd; lia|].
        eapply Permutation_trans; [apply Permutation_app_tail, Pt|]. rewrite <- app_assoc.
        apply Permutation_sym. eapply Permutation_trans; [apply (content_take A T g level Hl)|]. apply Permutation_app_head.
        eapply Permutation_trans; [apply (content_take A T (upd g level []) (S level)); lia|].
        rewrite upd_other by lia. apply Permutation_refl.
  Qed.

  (** ** emptying the insertion heap *)
  Definition bag (s : pq A) (H : list A) : list A := H ++ q_D s ++ allG s ++ allM s.
  Definition hinv (h H : list A) : Prop :=
    is_heap A cmp h /\ Permutation h (mn :: H) /\ Forall real H /\ length H <= N.
  Definition inv (s : pq A) (H : list A) : Prop := ginv s /\ dinv s /\ hinv (q_heap s) H.

  Lemma hinv_ne h H : hinv h H -> length h = S (length H).
  Proof. intros (_ & P & _). apply Permutation_length in P. exact P. Qed.
  Lemma heap_init : exists h, heap_push A c push_heap [] mn = Some h /\ hinv h [].
  Proof.
    unfold heap_push. cbn [length app]. destruct (Nat.ltb_spec 0 (N + 2)) as [_|Q]; [|lia].
    destruct (PH [] mn) as [H1 H2].
    { intros i x y Hx _. destruct (i / 2); discriminate. }
    cbn [app] in *. eexists. split; [reflexivity|]. split; [exact H1|]. split; [exact H2|]. split; [constructor|cbn; lia].
  Qed.

  Lemma sorted_rev l : sorted cmp l -> sorted (gt A cmp) (rev l).
  Proof.
    induction l as [|x l IH]; intro S; [constructor|]. inversion S as [|? ? S1 S2]; subst. cbn [rev].
    apply sorted_app; [exact (IH S1)|repeat constructor|].
    intros a b Ha [<-|[]]. apply in_rev in Ha. rewrite Forall_forall in S2. exact (S2 a Ha).
  Qed.
  Lemma sort_to_ok h H : Permutation h (mn :: H) -> Forall real H -> length H = N ->
    exists seg, sort_to A sortf h = seg ++ [mn] /\ run seg /\ Permutation seg H /\ length seg = N.
  Proof.
    intros P R L. destruct (SF h) as [Q1 Q2].
    assert (S : sorted (gt A cmp) (sort_to A sortf h) /\ Permutation (sort_to A sortf h) (mn :: H)).
    { unfold sort_to. split; [apply sorted_rev; assumption|].
      eapply Permutation_trans; [apply Permutation_sym, Permutation_rev|]. eapply Permutation_trans; [|exact P]. (exact Q1 || exact Q2 || (apply Permutation_sym; (exact Q1 || exact Q2))). }
    destruct S as [S SP]. set (so := sort_to A sortf h) in *. clearbody so. clear Q1 Q2.
    destruct (rev so) as [|z r] eqn:E.
    { apply (f_equal (@rev A)) in E. rewrite rev_involutive in E. cbn in E. subst so. apply Permutation_nil in SP. discriminate. }
    apply (f_equal (@rev A)) in E. rewrite rev_involutive in E. cbn in E. subst so. set (seg := rev r) in *. clearbody seg. clear r.
    destruct (sorted_app_inv A (gt A cmp) _ _ S) as (S1 & _ & S3).
    assert (Z : z = mn).
    { assert (Hz : In z (mn :: H)) by (apply (Permutation_in _ SP), in_or_app; right; left; reflexivity).
      destruct Hz as [<-|Hz]; [reflexivity|].
      assert (Hm : In mn (seg ++ [z])) by (apply (Permutation_in _ (Permutation_sym SP)); left; reflexivity).
      apply in_app_or in Hm. destruct Hm as [Hm|[Hm|[]]]; [|exact Hm]. exfalso.
      rewrite Forall_forall in R. specialize (R z Hz). unfold PqMergeProofs.real in R.
      specialize (S3 mn z Hm (or_introl eq_refl)). unfold le, gt in S3. congruence. }
    subst z. exists seg. split; [reflexivity|].
    assert (PH2 : Permutation seg H).
    { apply (Permutation_cons_inv (a := mn)). eapply Permutation_trans; [apply Permutation_cons_append|exact SP]. }
    split; [|split; [exact PH2|rewrite (Permutation_length PH2); exact L]].
    split; [exact S1|]. apply Forall_forall. intros x Hx. rewrite Forall_forall in R. apply R, (Permutation_in _ PH2), Hx.
  Qed.

  Lemma flush_ok i : forall s, wfl 0 (q_M s 0) -> (forall j, run (q_G s j)) -> used (ar 0) (q_M s 0) + i <= ar 0 ->
    exists s', flush_groups A cmp mn c i s = Some s' /\
      q_D s' = q_D s /\ q_heap s' = q_heap s /\ q_act s' = q_act s /\ q_size s' = q_size s /\
      (forall j, j <> 0 -> q_M s' j = q_M s j) /\ (forall j, q_G s' j = if Nat.ltb j i then [] else q_G s j) /\
      wfl 0 (q_M s' 0) /\ Permutation (tcontent (q_M s' 0)) (content i (q_G s) ++ tcontent (q_M s 0)).
  Proof.
    induction i as [|i IH]; intros s W R U.
    - exists s. split; [reflexivity|]. do 6 (split; [reflexivity|]). split; [exact W|apply Permutation_refl].
    - cbn [flush_groups].
      assert (AA : exists t, append_array A cmp mn (ar 0) (ns 0) (q_M s 0) (q_G s i) = Some t /\ wfl 0 t /\
        Permutation (tcontent t) (q_G s i ++ tcontent (q_M s 0)) /\ used (ar 0) t <= S (used (ar 0) (q_M s 0))).
      { destruct (q_G s i) as [|x r] eqn:E.
        - exists (q_M s 0). split; [reflexivity|]. split; [exact W|]. split; [apply Permutation_refl|lia].
        - rewrite <- E.
          destruct (append_ok A cmp SW mn (ar 0) (ns 0) (ar_pos 0) (ns_ok 0) (q_M s 0) (q_G s i) W (R i)) as (t & -> & W' & P & U' & _).
          + rewrite E. discriminate.
          + lia.
          + exists t. split; [reflexivity|]. split; [exact W'|]. split; [exact P|lia]. }
      destruct AA as (t & -> & Wt & Pt & Ut).
      set (s1 := with_G (with_M s (upd (q_M s) 0 t)) (upd (q_G s) i [])).
      assert (M0 : q_M s1 0 = t) by apply upd_same.
      destruct (IH s1) as (s' & -> & D' & H' & A' & S' & M' & G' & W' & P').
      + rewrite M0. exact Wt.
      + intro j. unfold s1. cbn [with_G q_G]. unfold upd. destruct (Nat.eqb j i); [apply run_nil|apply R].
      + rewrite M0. lia.
      + exists s'. split; [reflexivity|]. do 4 (split; [assumption|]).
        split. { intros j Hj. rewrite M' by exact Hj. unfold s1. cbn. apply upd_other. exact Hj. }
        split. { intro j. rewrite G'. unfold s1. cbn [with_G q_G]. unfold upd.
                 destruct (Nat.ltb_spec j i), (Nat.eqb_spec j i), (Nat.ltb_spec j (S i)); reflexivity || lia. }
        split; [exact W'|]. eapply Permutation_trans; [exact P'|]. rewrite M0.
        assert (E : content i (q_G s1) = content i (q_G s)).
        { apply content_ext. intros j Hj. unfold s1. cbn [with_G q_G]. apply upd_other. lia. }
        rewrite E. eapply Permutation_trans; [apply Permutation_app_head, Pt|].
        assert (E2 : content (S i) (q_G s) = content i (q_G s) ++ q_G s i).
        { unfold PqMergeProofs.content. rewrite seq_S, map_app, concat_app. cbn. rewrite app_nil_r. reflexivity. }
        rewrite E2, <- app_assoc. apply Permutation_refl.
  Qed.

  Lemma allM_upd0 s t : Permutation (allM (with_M s (upd (q_M s) 0 t))) (tcontent t ++ content T (upd (fun i => tcontent (q_M s i)) 0 [])).
  Proof.
    pose proof cfg_facts as CF. unfold allM. cbn [with_M q_M].
    rewrite (content_ext A T (fun i => tcontent (upd (q_M s) 0 t i)) (upd (fun i => tcontent (q_M s i)) 0 (tcontent t))) by
      (intros j _; unfold upd; destruct (Nat.eqb j 0); reflexivity).
    apply content_upd. lia.
  Qed.
  Lemma allM_take0 s : Permutation (allM s) (tcontent (q_M s 0) ++ content T (upd (fun i => tcontent (q_M s i)) 0 [])).
  Proof. pose proof cfg_facts as CF. apply (content_take A T (fun i => tcontent (q_M s i)) 0). lia. Qed.

  Lemma empty_ok s H : inv s H -> length H = N ->
    exists s', empty_insert_heap A cmp mn c push_heap sortf s = Some s' /\ inv s' [] /\
      Permutation (bag s' []) (bag s H).
  Proof.
    intros (GI & (RD & LD & DG & DE) & HI) LH. pose proof cfg_facts as CF.
    pose proof (hinv_ne _ _ HI) as LHp. destruct HI as (HH & HP & HR & _).
    unfold empty_insert_heap. destruct (Nat.eqb_spec (length (q_heap s)) (N + 1)) as [_|Q]; [|lia]. cbn [negb].
    destruct (sort_to_ok _ _ HP HR LH) as (seg & -> & Rs & Ps & Ls).
    assert (Nth : nth N (seg ++ [mn]) mn = mn) by (rewrite <- Ls; rewrite nth_app_hd; reflexivity).
    cbv zeta. rewrite Nth. destruct heap_init as (h & -> & Hh).
    assert (Fst : firstn N (seg ++ [mn]) = seg).
    { rewrite <- Ls, firstn_app, Nat.sub_diag, firstn_all. cbn. apply app_nil_r. }
    rewrite Fst.
    (* the three merges *)
    assert (T0 : 0 < T) by lia.
    assert (InG0 : forall y, In y (q_G s 0) -> In y (allG s)) by (intros y Hy; apply in_content; exists 0; auto).
    assert (Rtemp : run (q_D s ++ q_G s 0)).
    { apply run_app; [exact RD|apply (g_run _ GI)|]. intros x y Hx Hy. apply DG; [exact Hx|]. apply in_or_app. left. apply InG0, Hy. }
    destruct (merge2_list A cmp SW mn (length (q_D s)) (q_D s ++ q_G s 0) seg Rtemp Rs) as (d & p1 & n1 & E1 & Rd & Ld & Rp1 & Rn1 & P1 & O1 & _ & (l1 & X1)).
    { rewrite app_length. lia. }
    rewrite E1.
    assert (L1 : length p1 + length n1 = length (q_G s 0) + N).
    { apply Permutation_length in P1. rewrite !app_length in P1. lia. }
    destruct (merge2_list A cmp SW mn (length (q_G s 0)) p1 n1 Rp1 Rn1) as (g0 & p2 & n2 & E2 & Rg & Lg & Rp2 & Rn2 & P2 & O2 & _ & (l2 & X2)).
    { lia. }
    rewrite E2.
    assert (L2 : length p2 + length n2 = N).
    { apply Permutation_length in P2. rewrite !app_length in P2. lia. }
    destruct (merge2_list A cmp SW mn N p2 n2 Rp2 Rn2) as (seg' & p3 & n3 & E3 & Rs' & Ls' & _ & _ & P3 & _).
    { lia. }
    assert (P3' : Permutation seg' (p2 ++ n2)).
    { assert (Z : p3 ++ n3 = []).
      { apply length_zero_iff_nil. apply Permutation_length in P3. rewrite !app_length in P3. rewrite app_length. lia. }
      rewrite Z, app_nil_r in P3. apply Permutation_sym, P3. }
    assert (IP : merge2_in_place A cmp mn N p2 (seg ++ [mn]) 0 (length seg - length n2) = Some (seg' ++ [mn])).
    { assert (Sp : seg = (l1 ++ l2) ++ n2) by (rewrite X1, X2, app_assoc; reflexivity).
      assert (Lg1 : length (l1 ++ l2) = length p2). { apply (f_equal (@length A)) in Sp. rewrite app_length in Sp. lia. }
      rewrite Sp at 1. rewrite <- app_assoc.
      replace (length seg - length n2) with (0 + length (l1 ++ l2)) by lia.
      apply (in_place_ok A cmp mn N p2 [] (l1 ++ l2) n2 seg' (p3, n3)); [exact Lg1|lia|exact E3]. }
    rewrite IP. clear IP.
    set (s1 := with_heap (with_G (with_D s d) (upd (q_G s) 0 g0)) h).
    (* what the new pieces satisfy *)
    assert (PA : Permutation (q_D s ++ q_G s 0 ++ seg) (d ++ g0 ++ seg')).
    { rewrite app_assoc. eapply Permutation_trans; [exact P1|]. apply Permutation_app_head.
      eapply Permutation_trans; [exact P2|]. apply Permutation_app_head, Permutation_sym, P3'. }
    assert (Od : forall x y, In x d -> In y (g0 ++ seg') -> ge x y).
    { intros x y Hx Hy. apply O1; [exact Hx|]. apply (Permutation_in _ (Permutation_sym P2)).
      apply in_app_or in Hy. apply in_or_app. destruct Hy as [Hy|Hy]; [left; exact Hy|right; apply (Permutation_in _ P3'), Hy]. }
    assert (Og : forall x y, In x g0 -> In y seg' -> ge x y).
    { intros x y Hx Hy. apply O2; [exact Hx|]. apply (Permutation_in _ P3'), Hy. }
    assert (DomD : forall x z, In x d -> (forall u, In u (q_D s) -> ge u z) -> ge x z).
    { intros x z Hx Hz. apply (top_dom A cmp SW (q_D s ++ q_G s 0 ++ seg) d (g0 ++ seg') (q_D s) (q_G s 0 ++ seg) z PA (Permutation_refl _)); auto. lia. }
    assert (DomG : forall x z, In x g0 -> (forall u, In u (q_D s ++ q_G s 0) -> ge u z) -> ge x z).
    { intros x z Hx Hz.
      apply (top_dom A cmp SW (q_D s ++ q_G s 0 ++ seg) (d ++ g0) seg' (q_D s ++ q_G s 0) seg z); auto.
      - rewrite <- app_assoc. exact PA.
      - rewrite <- app_assoc. apply Permutation_refl.
      - rewrite !app_length. lia.
      - intros a b Ha Hb. apply in_app_or in Ha. destruct Ha as [Ha|Ha]; [apply Od; [exact Ha|apply in_or_app; right; exact Hb]|apply Og; assumption].
      - apply in_or_app. right. exact Hx. }
    (* make_space_available *)
    assert (MI : minv s1) by (constructor; unfold s1; cbn; apply GI).
    destruct (make_space_ok T 0 s1 ltac:(lia) ltac:(lia) ltac:(lia) MI)
      as (fl & s2 & -> & H2 & F1 & F2 & F3 & _ & D2 & G2 & He2 & S2 & _ & Hi2 & U2 & Em2 & Eq2 & PM2).
    unfold s1 in D2, G2, He2, S2, Hi2, Eq2, PM2, F3. cbn [with_heap with_G with_D q_D q_G q_heap q_size q_M q_act] in *.
    change (allM (with_heap (with_G (with_D s d) (upd (q_G s) 0 g0)) h)) with (allM s) in PM2.
    pose proof (m_wf _ H2 0 T0) as W2.
    assert (Chk : negb (Nat.eqb fl 0) && negb (Nat.eqb (t_size (q_M s2 0)) 0) = false).
    { destruct (Nat.eqb_spec fl 0) as [Z|Z]; [reflexivity|]. cbn [negb andb].
      destruct W2 as [_ Sz]. rewrite (Em2 ltac:(lia)) in Sz. cbn in Sz. rewrite Sz. reflexivity. }
    rewrite Chk. clear Chk.
    assert (Fst' : firstn N (seg' ++ [mn]) = seg').
    { rewrite <- Ls', firstn_app, Nat.sub_diag, firstn_all. cbn. apply app_nil_r. }
    rewrite Fst'.
    assert (Ne' : seg' <> []) by (intros ->; cbn in Ls'; lia).
    destruct (append_ok A cmp SW mn (ar 0) (ns 0) (ar_pos 0) (ns_ok 0) (q_M s2 0) seg' W2 Rs' Ne' U2) as (t & -> & Wt & Pt & Ut & _).
    (* flushing the invalid buffers *)
    set (s3 := with_M s2 (upd (q_M s2) 0 t)).
    assert (Fl : exists s4, (if Nat.ltb 0 fl then flush_groups A cmp mn c (S fl) s3 else Some s3) = Some s4 /\
      q_D s4 = d /\ q_heap s4 = h /\ q_act s4 = q_act s2 /\ q_size s4 = q_size s /\
      (forall j, j <> 0 -> q_M s4 j = q_M s2 j) /\
      (forall j, q_G s4 j = if Nat.ltb 0 fl && Nat.ltb j (S fl) then [] else upd (q_G s) 0 g0 j) /\
      (fl = 0 -> q_M s4 0 = t) /\ wfl 0 (q_M s4 0) /\
      Permutation (allG s4 ++ tcontent (q_M s4 0)) (content T (upd (q_G s) 0 g0) ++ seg' ++ tcontent (q_M s2 0))).
    { destruct (Nat.ltb_spec 0 fl) as [Lf|Lf].
      - assert (M3 : q_M s3 0 = t) by apply upd_same.
        destruct (flush_ok (S fl) s3) as (s4 & -> & D4 & H4 & A4 & S4 & M4 & G4 & W4 & P4).
        + rewrite M3. exact Wt.
        + intro j. unfold s3. cbn [with_M q_G]. rewrite G2. unfold upd. destruct (Nat.eqb j 0); [exact Rg|apply (g_run _ GI)].
        + rewrite M3, Ut. rewrite (used_empty A cmp mn (ar 0) _ W2 (Em2 Lf)).
          unfold PqModel.ar. destruct (Nat.ltb_spec 0 (c_NI c)); lia.
        + exists s4. split; [reflexivity|]. split; [rewrite D4; exact D2|]. split; [rewrite H4; exact He2|]. split; [exact A4|].
          split; [rewrite S4; exact S2|]. split.
          { intros j Hj. rewrite M4 by exact Hj. unfold s3. cbn. apply upd_other. exact Hj. }
          split. { intro j. rewrite G4. unfold s3. cbn [with_M q_G]. rewrite G2. reflexivity. }
          split; [intro; lia|]. split; [exact W4|]. rewrite M3 in P4.
          assert (SG : content T (upd (q_G s) 0 g0) = content (S fl) (upd (q_G s) 0 g0) ++ allG s4).
          { unfold PqMergeProofs.content, allG, PqMergeProofs.content. replace T with (S fl + (T - S fl)) at 1 2 by lia.
            rewrite !seq_app, !map_app, !concat_app.
            assert (Z1 : map (q_G s4) (seq 0 (S fl)) = map (fun _ => []) (seq 0 (S fl))).
            { apply map_ext_in. intros j Hj. apply in_seq in Hj. rewrite G4. destruct (Nat.ltb_spec j (S fl)); [reflexivity|lia]. }
            assert (Z2 : forall (l : list nat), concat (map (fun _ => @nil A) l) = []) by (induction l; [reflexivity|assumption]).
            rewrite Z1, Z2. cbn [app]. f_equal. f_equal. apply map_ext_in. intros j Hj. apply in_seq in Hj. rewrite G4.
            destruct (Nat.ltb_spec j (S fl)); [lia|]. unfold s3. cbn [with_M q_G]. rewrite G2. reflexivity. }
          assert (E3' : content (S fl) (q_G s3) = content (S fl) (upd (q_G s) 0 g0)) by (unfold s3; cbn [with_M q_G]; rewrite G2; reflexivity).
          rewrite E3' in P4. rewrite SG.
          eapply Permutation_trans; [apply Permutation_app_head, P4|].
          eapply Permutation_trans; [apply Permutation_app_head, Permutation_app_head, Pt|].
          rewrite !app_assoc. do 2 apply Permutation_app_tail. apply Permutation_app_comm.
      - exists s3. split; [reflexivity|]. unfold s3. cbn [with_M q_D q_G q_M q_act q_size q_heap andb].
        split; [exact D2|]. split; [exact He2|]. split; [reflexivity|]. split; [exact S2|].
        split; [intros j Hj; apply upd_other; exact Hj|]. split; [intro j; rewrite G2; reflexivity|].
        rewrite upd_same. split; [reflexivity|]. split; [exact Wt|]. unfold allG. cbn [with_M q_G]. rewrite G2. apply Permutation_app_head, Pt. }
    destruct Fl as (s4 & -> & D4 & He4 & A4 & S4 & M4 & G4 & T4 & W4 & P4).
    set (s5 := with_qsize s4 (q_size s4 + N)).
    assert (PG0 : Permutation (content T (upd (q_G s) 0 g0)) (g0 ++ content T (upd (q_G s) 0 []))) by (apply content_upd; exact T0).
    assert (PG1 : Permutation (allG s) (q_G s 0 ++ content T (upd (q_G s) 0 []))) by (apply content_take; exact T0).
    (* all elements *)
    set (restM := content T (upd (fun i => tcontent (q_M s2 i)) 0 [])).
    assert (PM4 : Permutation (allM s4) (tcontent (q_M s4 0) ++ restM)).
    { eapply Permutation_trans; [apply allM_take0|]. apply Permutation_app_head. unfold restM.
      rewrite (content_ext A T (upd (fun i => tcontent (q_M s4 i)) 0 []) (upd (fun i => tcontent (q_M s2 i)) 0 [])); [apply Permutation_refl|].
      intros j _. unfold upd. destruct (Nat.eqb_spec j 0); [reflexivity|]. rewrite M4; auto. }
    assert (PM2' : Permutation (allM s) (tcontent (q_M s2 0) ++ restM)).
    { eapply Permutation_trans; [apply Permutation_sym, PM2|]. apply allM_take0. }
    assert (PGM : Permutation (allG s4 ++ allM s4) (content T (upd (q_G s) 0 g0) ++ seg' ++ allM s)).
    { eapply Permutation_trans; [apply Permutation_app_head, PM4|]. rewrite app_assoc.
      eapply Permutation_trans; [apply Permutation_app_tail, P4|]. rewrite <- !app_assoc. do 2 apply Permutation_app_head.
      apply Permutation_sym, PM2'. }
    assert (PB : Permutation (d ++ allG s4 ++ allM s4) (bag s H)).
    { unfold bag.
      eapply Permutation_trans; [apply Permutation_app_head, PGM|].
      eapply Permutation_trans; [apply Permutation_app_head, Permutation_app_tail, PG0|].
      eapply Permutation_trans with ((d ++ g0 ++ seg') ++ content T (upd (q_G s) 0 []) ++ allM s).
      { rewrite <- !app_assoc. do 2 apply Permutation_app_head. rewrite !app_assoc. apply Permutation_app_tail, Permutation_app_comm. }
      eapply Permutation_trans; [apply Permutation_app_tail, Permutation_sym, PA|].
      eapply Permutation_trans; [|apply Permutation_app_tail, Ps].
      eapply Permutation_trans with (seg ++ (q_D s ++ q_G s 0) ++ content T (upd (q_G s) 0 []) ++ allM s).
      { rewrite !app_assoc. do 2 apply Permutation_app_tail. rewrite <- !app_assoc. rewrite (app_assoc (q_D s) (q_G s 0) seg). apply Permutation_app_comm. }
      apply Permutation_app_head. rewrite <- app_assoc. apply Permutation_app_head. rewrite app_assoc. apply Permutation_app_tail, Permutation_sym, PG1. }
    assert (GI5 : ginv s5).
    { constructor; unfold s5; cbn [with_qsize q_D q_G q_M q_act q_size].
      - intros j Hj. destruct (Nat.eq_dec j 0) as [->|Nj]; [exact W4|]. rewrite M4 by exact Nj. apply (m_wf _ H2), Hj.
      - intro j. rewrite G4. destruct (_ && _); [apply run_nil|]. unfold upd. destruct (Nat.eqb j 0); [exact Rg|apply (g_run _ GI)].
      - intro j. rewrite G4. destruct (_ && _); [cbn; lia|]. unfold upd. destruct (Nat.eqb j 0); [rewrite Lg; apply (g_len _ GI)|apply (g_len _ GI)].
      - intros j x y Hj Hx Hy. rewrite G4 in Hx.
        destruct (Nat.ltb_spec 0 fl) as [Lf|Lf]; cbn [andb] in Hx.
        + destruct (Nat.ltb_spec j (S fl)) as [Lj|Lj]; [contradiction|].
          rewrite upd_other in Hx by lia. rewrite M4 in Hy by lia. rewrite Hi2 in Hy by lia. apply (g_ge _ GI j); assumption.
        + assert (F0 : fl = 0) by lia. destruct (Nat.eq_dec j 0) as [->|Nj].
          * rewrite upd_same in Hx.
            assert (Hy' : In y (seg' ++ tcontent (q_M s 0))).
            { rewrite (T4 F0) in Hy. apply (Permutation_in _ Pt) in Hy. apply in_app_or in Hy. apply in_or_app.
              destruct Hy as [Hy|Hy]; [left; exact Hy|right]. apply (Permutation_in _ (Eq2 F0)), Hy. }
            apply in_app_or in Hy'. destruct Hy' as [Hy'|Hy']; [apply Og; assumption|].
            apply DomG; [exact Hx|]. intros u Hu. apply in_app_or in Hu. destruct Hu as [Hu|Hu].
            -- apply DG; [exact Hu|]. apply in_or_app. right. apply in_allM. exists 0. auto.
            -- apply (g_ge _ GI 0); auto.
          * rewrite upd_other in Hx by exact Nj. rewrite M4 in Hy by exact Nj. rewrite Hi2 in Hy by lia. apply (g_ge _ GI j); assumption.
      - rewrite A4. apply (m_act _ H2).
      - intros j Hj. rewrite A4 in Hj. rewrite G4. destruct (_ && _); [reflexivity|]. rewrite upd_other by lia. apply (g_dryG _ GI). lia.
      - intros j Hj Hj'. rewrite A4 in Hj. rewrite M4 by lia. apply (m_dry _ H2); assumption.
      - change (allG (with_qsize s4 (q_size s4 + N))) with (allG s4). change (allM (with_qsize s4 (q_size s4 + N))) with (allM s4).
        rewrite S4, (g_size _ GI). apply Permutation_length in PGM, PG0, PG1. repeat rewrite app_length in PGM. rewrite app_length in PG0, PG1. lia. }
    assert (HI5 : hinv (q_heap s5) []) by (unfold s5; cbn [with_qsize q_heap]; rewrite He4; exact Hh).
    assert (D5 : q_D s5 = d) by exact D4.
    change (allG s4) with (allG s5) in *. change (allM s4) with (allM s5) in *.
    destruct (q_D s5) as [|x0 r0] eqn:Ed.
    - destruct (refill_delete_ok s5 GI5) as (s6 & -> & G6 & D6 & He6 & P6).
      exists s6. split; [reflexivity|]. split.
      + split; [exact G6|]. split; [exact D6|]. rewrite He6. exact HI5.
      + unfold bag at 1. cbn [app]. eapply Permutation_trans; [exact P6|]. rewrite <- D5 in PB. exact PB.
    - exists s5. split; [reflexivity|]. split.
      + split; [exact GI5|]. split; [|exact HI5]. unfold dinv. rewrite Ed. split; [rewrite D5; exact Rd|].
        split; [rewrite D5; lia|]. split; [|discriminate].
        intros x y Hx Hy. rewrite D5 in Hx. apply (Permutation_in _ PGM) in Hy.
        apply in_app_or in Hy. destruct Hy as [Hy|Hy].
        * apply (Permutation_in _ PG0) in Hy. apply in_app_or in Hy. destruct Hy as [Hy|Hy].
          -- apply Od; [exact Hx|]. apply in_or_app. left. exact Hy.
          -- apply DomD; [exact Hx|]. intros u Hu. apply DG; [exact Hu|]. apply in_or_app. left.
             apply (Permutation_in _ (Permutation_sym PG1)), in_or_app. right. exact Hy.
        * apply in_app_or in Hy. destruct Hy as [Hy|Hy].
          -- apply Od; [exact Hx|]. apply in_or_app. right. exact Hy.
          -- apply DomD; [exact Hx|]. intros u Hu. apply DG; [exact Hu|]. apply in_or_app. right. exact Hy.
      + unfold bag at 1. cbn [app]. rewrite Ed, D5. exact PB.
  Qed.

  (** ** the operations *)
  Lemma real_mn : real mn -> False.
  Proof. unfold PqMergeProofs.real. intro H. rewrite (sw_irrefl _ SW) in H. discriminate. Qed.

  Lemma init_ok : exists s, init A cmp mn c push_heap = Some s /\ inv s [] /\ bag s [] = [].
  Proof.
    pose proof cfg_facts as CF. unfold init. rewrite (sw_irrefl _ SW).
    assert (PI : 1 <= c_IK c) by lia. assert (PE : 1 <= c_EK c) by lia.
    assert (MI : max_arity (c_IK c) <= c_IK c) by (rewrite max_IK; lia).
    destruct (new_tree_ok A cmp SW mn (c_IK c) (c_IK c) PI MI) as (ti & -> & Wi & Ci & _).
    destruct (new_tree_ok A cmp SW mn (c_EK c) (max_arity (c_EK c)) PE (Nat.le_refl _)) as (te & -> & We & Ce & _).
    destruct heap_init as (h & -> & Hh).
    assert (CM : content T (fun i => tcontent (if Nat.ltb i (c_NI c) then ti else te)) = []).
    { apply content_nil. intros j _. destruct (Nat.ltb j (c_NI c)); assumption. }
    assert (CG : content T (fun _ : nat => @nil A) = []) by (apply content_nil; auto).
    eexists. split; [reflexivity|]. split; [split; [|split; [|exact Hh]]|].
    - constructor; cbn [q_D q_G q_M q_act q_size].
      + intros i _. unfold PqModel.ar. destruct (Nat.ltb i (c_NI c)); assumption.
      + intro. apply run_nil.
      + intro. cbn. lia.
      + contradiction.
      + lia.
      + reflexivity.
      + intros i _ _. destruct (Nat.ltb i (c_NI c)); assumption.
      + unfold allG, allM. cbn [q_G q_M]. rewrite CM, CG. reflexivity.
    - split; [apply run_nil|]. split; [cbn; lia|]. split; [contradiction|reflexivity].
    - unfold bag, allG, allM. cbn [q_D q_G q_M]. rewrite CM, CG. reflexivity.
  Qed.

  Lemma push_ok s H x : inv s H -> real x ->
    exists s' H', push A cmp mn c push_heap sortf s x = Some s' /\ inv s' H' /\ Permutation (bag s' H') (x :: bag s H).
  Proof.
    intros I Rx. unfold push, is_sentinel. unfold PqMergeProofs.real in Rx. rewrite Rx. cbn [negb].
    assert (Pre : exists s1 H1, (if Nat.eqb (length (q_heap s)) (N + 1) then empty_insert_heap A cmp mn c push_heap sortf s else Some s) = Some s1 /\
      inv s1 H1 /\ length H1 < N /\ Permutation (bag s1 H1) (bag s H)).
    { pose proof I as (GI & DI & HI). pose proof (hinv_ne _ _ HI) as Lh. pose proof HI as (_ & _ & _ & Ln).
      destruct (Nat.eqb_spec (length (q_heap s)) (N + 1)) as [E|NE].
      - destruct (empty_ok s H I ltac:(lia)) as (s1 & E1 & I1 & P1). exists s1, []. split; [exact E1|]. split; [exact I1|].
        split; [pose proof cfg_facts; cbn; lia|exact P1].
      - exists s, H. split; [reflexivity|]. split; [exact I|]. split; [lia|apply Permutation_refl]. }
    destruct Pre as (s1 & H1 & -> & (GI & DI & HI) & Ln & P1).
    pose proof (hinv_ne _ _ HI) as Lh. destruct HI as (Hh & Hp & Hr & _).
    assert (HP : heap_push A c push_heap (q_heap s1) x = Some (push_heap (q_heap s1 ++ [x]))).
    { unfold heap_push. destruct (Nat.ltb_spec (length (q_heap s1)) (N + 2)); [reflexivity|lia]. }
    destruct (PH (q_heap s1) x Hh) as [Q1 Q2].
    exists (with_heap s1 (push_heap (q_heap s1 ++ [x]))), (x :: H1). split; [|split].
    - rewrite HP. destruct (q_heap s1); [discriminate|reflexivity].
    - split; [|split].
      + constructor; cbn [with_heap q_D q_G q_M q_act q_size]; apply GI.
      + exact DI.
      + cbn [with_heap q_heap]. split; [exact Q1|]. split.
        * eapply Permutation_trans; [exact Q2|]. eapply Permutation_trans; [apply Permutation_sym, Permutation_cons_append|].
          eapply Permutation_trans; [constructor; exact Hp|]. constructor.
        * split; [constructor; assumption|cbn [length]; lia].
    - unfold bag in *. cbn [with_heap q_D app]. change (allG (with_heap s1 _)) with (allG s1). change (allM (with_heap s1 _)) with (allM s1).
      constructor. exact P1.
  Qed.

  (** which of the two candidates is shown, and what the heap and the delete buffer are then *)
  Lemma cases s H : inv s H -> bag s H <> [] ->
    exists t hl, q_heap s = t :: hl /\
      ((cmp (deref (q_D s)) t = true /\ best A cmp t (bag s H) /\ exists H', Permutation H (t :: H') /\ Permutation hl (mn :: H')) \/
       (cmp (deref (q_D s)) t = false /\ exists d0 d, q_D s = d0 :: d /\ best A cmp d0 (bag s H))).
  Proof.
    intros (GI & (RD & LD & DG & DE) & HI) NE. destruct HI as (Hh & Hp & Hr & _).
    destruct (q_heap s) as [|t hl] eqn:Eh; [apply Permutation_nil in Hp; discriminate|].
    exists t, hl. split; [reflexivity|].
    assert (Bt : forall y, In y H -> ge t y).
    { intros y Hy. apply (heap_top_best A cmp SW hl t Hh). apply (Permutation_in _ (Permutation_sym Hp)). right. exact Hy. }
    assert (Btm : ge t mn).
    { apply (heap_top_best A cmp SW hl t Hh). apply (Permutation_in _ (Permutation_sym Hp)). left. reflexivity. }
    assert (InH : t <> mn -> exists H', Permutation H (t :: H') /\ Permutation hl (mn :: H')).
    { intro Nt. assert (I : In t (mn :: H)) by (apply (Permutation_in _ Hp); left; reflexivity).
      destruct I as [Q|I]; [congruence|]. apply in_split in I. destruct I as (a & b & ->).
      exists (a ++ b). split; [apply Permutation_sym, Permutation_middle|].
      apply (Permutation_cons_inv (a := t)). eapply Permutation_trans; [exact Hp|].
      eapply Permutation_trans; [constructor; apply Permutation_sym, Permutation_middle|]. constructor. }
    destruct (q_D s) as [|d0 d] eqn:Ed.
    - cbn [PqTreeModel.deref]. left.
      assert (Z : allG s ++ allM s = []).
      { apply length_zero_iff_nil. rewrite app_length, <- (g_size _ GI). apply DE. reflexivity. }
      assert (BE : bag s H = H) by (unfold bag; rewrite Ed; cbn [app]; rewrite Z; apply app_nil_r).
      rewrite BE in *. destruct H as [|h0 H]; [congruence|].
      assert (Mt : cmp mn t = true).
      { inversion Hr as [|? ? R0 _]; subst. destruct (sw_incomp _ SW mn t h0 R0) as [Q|Q]; [exact Q|].
        specialize (Bt h0 (or_introl eq_refl)). unfold PqTournProofs.ge in Bt. congruence. }
      split; [exact Mt|]. split; [exact Bt|]. apply InH. intros ->. exact (real_mn Mt).
    - cbn [PqTreeModel.deref hd].
      assert (Rd0 : cmp mn d0 = true) by (destruct RD as [_ F]; inversion F; assumption).
      assert (Dd : forall y, In y (d0 :: d) -> ge d0 y).
      { intros y [<-|Hy]; [apply ge_refl, SW|]. destruct RD as [S _]. inversion S as [|? ? _ F]; subst. rewrite Forall_forall in F. exact (F y Hy). }
      destruct (cmp d0 t) eqn:E.
      + left. split; [reflexivity|]. split.
        * assert (L : forall y, ge d0 y -> ge t y).
          { intros y Hy. unfold PqTournProofs.ge in *. destruct (cmp t y) eqn:Q; [|reflexivity].
            rewrite (sw_trans _ SW d0 t y E Q) in Hy. discriminate. }
          intros y Hy. unfold bag in Hy. apply in_app_or in Hy. destruct Hy as [Hy|Hy]; [apply Bt, Hy|]. apply L.
          rewrite Ed in Hy. apply in_app_or in Hy. destruct Hy as [Hy|Hy]; [apply Dd, Hy|]. apply DG; [left; reflexivity|exact Hy].
        * apply InH. intros ->. apply real_mn. unfold PqMergeProofs.real. exact (sw_trans _ SW mn d0 mn Rd0 E).
      + right. split; [reflexivity|]. exists d0, d. split; [reflexivity|].
        intros y Hy. unfold bag in Hy. rewrite Ed in Hy. apply in_app_or in Hy. destruct Hy as [Hy|Hy].
        * apply (ge_trans _ _ SW d0 t y); [exact E|apply Bt, Hy].
        * apply in_app_or in Hy. destruct Hy as [Hy|Hy]; [apply Dd, Hy|]. apply DG; [left; reflexivity|exact Hy].
  Qed.

  Lemma pop_ok s H : inv s H -> bag s H <> [] ->
    exists v s' H', top A cmp mn s = Some v /\ pop A cmp mn c pop_heap s = Some s' /\ inv s' H' /\
      best A cmp v (bag s H) /\ Permutation (bag s H) (v :: bag s' H').
  Proof.
    intros I NE. destruct (cases s H I NE) as (t & hl & Eh & C). unfold top, pop. rewrite Eh.
    destruct I as (GI & DI & HI). destruct C as [(E & B & H' & P1 & P2)|(E & d0 & d & Ed & B)]; rewrite E.
    - destruct HI as (Hh & Hp & Hr & Ln). rewrite Eh in Hh. destruct (PP t hl Hh) as (l' & E' & Hh' & P').
      assert (HP : heap_pop A pop_heap (t :: hl) = Some l') by (unfold heap_pop; rewrite E', removelast_last; reflexivity).
      rewrite HP. exists t, (with_heap s l'), H'. split; [reflexivity|]. split; [reflexivity|]. split; [|split; [exact B|]].
      + split; [|split].
        * constructor; cbn [with_heap q_D q_G q_M q_act q_size]; apply GI.
        * exact DI.
        * cbn [with_heap q_heap]. split; [exact Hh'|]. split; [eapply Permutation_trans; [exact P'|exact P2]|].
          split.
          -- apply Forall_forall. intros y Hy. rewrite Forall_forall in Hr. apply Hr, (Permutation_in _ (Permutation_sym P1)). right. exact Hy.
          -- apply Permutation_length in P1. cbn in P1. lia.
      + unfold bag. cbn [with_heap q_D]. change (allG (with_heap s _)) with (allG s). change (allM (with_heap s _)) with (allM s).
        apply (Permutation_app_tail _ P1).
    - rewrite Ed. cbn [PqTreeModel.deref hd].
      assert (GI' : ginv (with_D s d)) by (constructor; cbn [with_D q_D q_G q_M q_act q_size]; apply GI).
      destruct DI as (RD & LD & DG & DE). rewrite Ed in RD, LD, DG.
      assert (BP : forall rest, Permutation rest (allG s ++ allM s) -> Permutation (bag s H) (d0 :: H ++ d ++ rest)).
      { intros rest Pr. unfold bag. rewrite Ed. cbn [app]. eapply Permutation_trans; [apply Permutation_sym, Permutation_middle|].
        constructor. do 2 apply Permutation_app_head. apply Permutation_sym, Pr. }
      destruct d as [|d1 d].
      + cbv zeta. destruct (refill_delete_ok (with_D s []) GI') as (s' & -> & G' & D' & H' & P').
        exists d0, s', H. split; [reflexivity|]. split; [reflexivity|]. split; [split; [exact G'|split; [exact D'|rewrite H'; exact HI]]|].
        split; [exact B|]. apply (BP _ P').
      + cbv zeta. exists d0, (with_D s (d1 :: d)), H. split; [reflexivity|]. split; [reflexivity|]. split.
        * split; [exact GI'|]. split; [|exact HI]. unfold dinv. cbn [with_D q_D]. split; [exact (proj1 (run_tl _ _ _ _ _ RD))|].
          split; [cbn in LD |- *; lia|]. split; [|discriminate]. intros x y Hx Hy. apply DG; [right; exact Hx|exact Hy].
        * split; [exact B|]. apply (BP _ (Permutation_refl _)).
  Qed.

  Lemma size_ok s H : inv s H -> size A s = length (bag s H).
  Proof.
    intros (GI & _ & HI). unfold size, bag. rewrite (hinv_ne _ _ HI), (g_size _ GI), !app_length. lia.
  Qed.

  Lemma best_perm v l l' : Permutation l l' -> best A cmp v l -> best A cmp v l'.
  Proof. intros P B y Hy. apply B, (Permutation_in _ (Permutation_sym P)), Hy. Qed.

  Lemma runs_ok os : forall s H l, inv s H -> Permutation l (bag s H) -> allowed A cmp mn (length l) os ->
    exists rs s' l', runs A cmp mn c push_heap pop_heap sortf s os = Some (rs, s') /\ spec_run A cmp l os rs l'.
  Proof.
    induction os as [|o os IH]; intros s H l I P Al.
    - exists [], s, l. split; [reflexivity|constructor].
    - pose proof (Permutation_length P) as LP. cbn [runs]. destruct o as [x| | | |]; cbn [allowed step] in *.
      + destruct Al as [Rx Al]. destruct (push_ok s H x I Rx) as (s1 & H1 & -> & I1 & P1).
        destruct (IH s1 H1 (x :: l) I1) as (rs & s' & l' & -> & R).
        * eapply Permutation_trans; [constructor; exact P|]. apply Permutation_sym, P1.
        * exact Al.
        * exists (RUnit :: rs), s', l'. split; [reflexivity|]. econstructor; [constructor|exact R].
      + destruct Al as [Ln Al]. destruct (pop_ok s H I) as (v & s1 & H1 & E1 & E2 & I1 & B & P1).
        { intro Q. rewrite Q in LP. cbn in LP. lia. }
        rewrite E1. destruct (IH s H l I P Al) as (rs & s' & l' & -> & R).
        exists (RVal v :: rs), s', l'. split; [reflexivity|]. econstructor; [|exact R]. constructor.
        * apply (Permutation_in _ (Permutation_sym (Permutation_trans P P1))). left. reflexivity.
        * apply (best_perm v _ _ (Permutation_sym P)), B.
      + destruct Al as [Ln Al]. destruct (pop_ok s H I) as (v & s1 & H1 & -> & -> & I1 & B & P1).
        { intro Q. rewrite Q in LP. cbn in LP. lia. }
        pose proof (Permutation_length P1) as L1. cbn [length] in L1.
        destruct (IH s1 H1 (bag s1 H1) I1 (Permutation_refl _)) as (rs & s' & l' & -> & R).
        { replace (length (bag s1 H1)) with (length l - 1) by lia. exact Al. }
        exists (RVal v :: rs), s', l'. split; [reflexivity|]. econstructor; [|exact R]. constructor.
        * eapply Permutation_trans; [exact P|exact P1].
        * apply (best_perm v _ _ (Permutation_sym P)), B.
      + destruct (IH s H l I P Al) as (rs & s' & l' & -> & R).
        exists (RNat (size A s) :: rs), s', l'. split; [reflexivity|]. econstructor; [|exact R].
        rewrite (size_ok s H I), <- LP. constructor.
      + destruct (IH s H l I P Al) as (rs & s' & l' & -> & R).
        exists (RBool (empty A s) :: rs), s', l'. split; [reflexivity|]. econstructor; [|exact R]. constructor.
        unfold empty. rewrite (size_ok s H I), <- LP, Nat.eqb_eq. apply length_zero_iff_nil.
  Qed.

  Theorem exec_ok os : allowed A cmp mn 0 os ->
    exists rs s l, exec A cmp mn c push_heap pop_heap sortf os = Some (rs, s) /\ spec_run A cmp [] os rs l.
  Proof.
    intro Al. unfold exec. destruct init_ok as (s & -> & I & B).
    destruct (runs_ok os s [] [] I) as (rs & s' & l' & -> & R); [rewrite B; apply Permutation_refl|exact Al|].
    exists rs, s', l'. split; [reflexivity|exact R].
  Qed.
End PqProofs.
