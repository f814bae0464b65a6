(** Proofs about merging for the priority queue: the best elements of several sequences. *)
From Coq Require Import List Bool Arith Lia Permutation Sorted.
From Verif Require Import SumLib OrderLib PqTreeModel PqTournProofs PqMergeProofs PqModel PqSpec.
Import ListNotations.

Section ListProofs.
  Variable A : Type.
  Variable cmp : A -> A -> bool.
  Hypothesis SW : strict_weak cmp.
  Variable mn : A.
  Notation ge := (ge A cmp).
  Notation deref := (deref A mn).
  Notation run := (run A cmp mn).
  Notation real := (real A cmp mn).
  Notation good := (good A cmp mn).
  Notation content := (content A).
  Notation supp := (supp A).
  Notation emits := (emits A cmp mn).

  Lemma run_app l1 l2 : run l1 -> run l2 -> (forall x y, In x l1 -> In y l2 -> ge x y) -> run (l1 ++ l2).
  Proof.
    intros [S1 R1] [S2 R2] H. split; [|apply Forall_app; split; assumption].
    induction l1 as [|x l1 IH]; [exact S2|]. inversion S1 as [|? ? S3 S4]; subst. inversion R1; subst. cbn. constructor.
    - apply IH; auto. intros a b Ha Hb. apply H; [right; exact Ha|exact Hb].
    - apply Forall_app. split; [exact S4|]. apply Forall_forall. intros y Hy. apply H; [left; reflexivity|exact Hy].
  Qed.
  Lemma run_app_inv l1 l2 : run (l1 ++ l2) -> run l1 /\ run l2 /\ (forall x y, In x l1 -> In y l2 -> ge x y).
  Proof.
    induction l1 as [|x l1 IH]; intros [S R]; cbn in *.
    - split; [apply run_nil|]. split; [split; assumption|contradiction].
    - inversion S as [|? ? S1 S2]; subst. inversion R as [|? ? R1 R2]; subst.
      destruct (IH (conj S1 R2)) as ([Q1 Q2] & Q3 & Q4). apply Forall_app in S2. destruct S2 as [S3 S4].
      split; [split; constructor; assumption|]. split; [exact Q3|].
      intros a b [<-|Ha] Hb; [|apply Q4; assumption]. rewrite Forall_forall in S4. apply S4, Hb.
  Qed.

  (** the first n of a merge that did not use up a sequence do not contain it *)
  Lemma emits_from n : forall arr out arr' j, emits n arr out arr' ->
    length (arr j) <= n + length (arr' j) /\
    (length (arr j) = n + length (arr' j) -> forall x, In x out -> In x (arr j)).
  Proof.
    induction n as [|n IH]; intros arr out arr' j H; inversion H as [? ? H0|? ? w x r out0 ? H1 H2 H5]; subst.
    - rewrite H0. split; [lia|contradiction].
    - destruct (IH _ _ _ j H5) as [Q1 Q2]. unfold upd in Q1, Q2. destruct (Nat.eqb_spec j w) as [E|N].
      + subst j. rewrite H1. cbn [length]. split; [lia|]. intros E y [<-|Hy]; [left; reflexivity|].
        right. apply Q2; [lia|exact Hy].
      + split; [lia|]. intro E. lia.
  Qed.

  Lemma merge2_list n s0 s1 : run s0 -> run s1 -> n <= length s0 + length s1 ->
    exists out r0 r1, merge2 A cmp mn n s0 s1 = Some (out, (r0, r1)) /\ run out /\ length out = n /\
      run r0 /\ run r1 /\ Permutation (s0 ++ s1) (out ++ r0 ++ r1) /\
      (forall x y, In x out -> In y (r0 ++ r1) -> ge x y) /\
      (exists l0, s0 = l0 ++ r0) /\ (exists l1, s1 = l1 ++ r1).
  Proof.
    intros R0 R1 Hn.
    set (arr := fun j => match j with 0 => s0 | 1 => s1 | _ => [] end).
    assert (Hg : good arr) by (intros [|[|j]]; [exact R0|exact R1|apply run_nil]).
    assert (Hs : supp 2 arr) by (intros [|[|j]] Hj; [lia|lia|reflexivity]).
    assert (C : content 2 arr = s0 ++ s1) by (unfold PqMergeProofs.content; cbn; rewrite app_nil_r; reflexivity).
    destruct (merge2_ok A cmp SW mn n arr 2 Hg Hs) as (out & r0 & r1 & E & Em).
    { intros j Hj. apply Hs, Hj. }
    { rewrite C, app_length. exact Hn. }
    destruct (emits_facts A cmp SW mn n arr out _ 2 Em Hg Hs) as (G' & _ & Ro & Lo & P & O & _).
    rewrite C in P. unfold PqMergeProofs.content in P, O. cbn in P, O. rewrite app_nil_r in P, O.
    exists out, r0, r1. split; [exact E|]. split; [exact Ro|]. split; [exact Lo|].
    split; [apply (G' 0)|]. split; [apply (G' 1)|]. split; [exact P|]. split; [exact O|].
    assert (Sfx : forall n s0 s1 out r0 r1, merge2 A cmp mn n s0 s1 = Some (out, (r0, r1)) ->
      (exists l0, s0 = l0 ++ r0) /\ (exists l1, s1 = l1 ++ r1)).
    { clear. induction n as [|n IH]; intros s0 s1 out r0 r1 E; cbn [merge2] in E.
      - injection E as <- <- <-. split; exists []; reflexivity.
      - destruct (cmp _ _).
        + destruct s1 as [|x s1]; [discriminate|]. cbn [next] in E.
          destruct (merge2 A cmp mn n s0 s1) as [[o [a b]]|] eqn:E1; [|discriminate].
          injection E as _ <- <-. destruct (IH _ _ _ _ _ E1) as [Q [l ->]]. split; [exact Q|]. exists (x :: l). reflexivity.
        + destruct s0 as [|x s0]; [discriminate|]. cbn [next] in E.
          destruct (merge2 A cmp mn n s0 s1) as [[o [a b]]|] eqn:E1; [|discriminate].
          injection E as _ <- <-. destruct (IH _ _ _ _ _ E1) as [[l ->] Q]. split; [|exact Q]. exists (x :: l). reflexivity. }
    apply (Sfx _ _ _ _ _ _ E).
  Qed.

  (** the best |O| elements are at least as good as any bound on |O| elements *)
  Lemma top_dom S O R D Q z : Permutation S (O ++ R) -> Permutation S (D ++ Q) -> length O <= length D ->
    (forall x y, In x O -> In y R -> ge x y) -> (forall x, In x D -> ge x z) -> forall x, In x O -> ge x z.
  Proof.
    intros P1 P2 L HO HD x Hx. unfold PqTournProofs.ge. destruct (cmp x z) eqn:E; [exfalso|reflexivity].
    set (f := fun y => negb (cmp y z)).
    assert (Fx : f x = false) by (unfold f; rewrite E; reflexivity).
    assert (FR : forall y, In y R -> f y = false).
    { intros y Hy. unfold f. specialize (HO x y Hx Hy). unfold PqTournProofs.ge in HO.
      destruct (sw_incomp _ SW x y z E) as [Z|Z]; [congruence|rewrite Z; reflexivity]. }
    assert (FD : forall y, In y D -> f y = true).
    { intros y Hy. unfold f. specialize (HD y Hy). unfold PqTournProofs.ge in HD. rewrite HD. reflexivity. }
    assert (C : forall (l : list A), length (filter f l) <= length l) by (induction l as [|a l IH]; cbn; [lia|destruct (f a); cbn; lia]).
    assert (CS : forall (l : list A), In x l -> length (filter f l) < length l).
    { induction l as [|a l IH]; intro Hl; [contradiction|]. cbn. pose proof (C l). destruct Hl as [->|Hl].
      - rewrite Fx. lia.
      - specialize (IH Hl). destruct (f a); cbn; lia. }
    assert (CN : forall (l : list A), (forall y, In y l -> f y = false) -> filter f l = []).
    { induction l as [|a l IH]; intro Hl; [reflexivity|]. cbn. rewrite (Hl a) by (left; reflexivity).
      apply IH. intros y Hy. apply Hl. right. exact Hy. }
    assert (CA : forall (l : list A), (forall y, In y l -> f y = true) -> filter f l = l).
    { induction l as [|a l IH]; intro Hl; [reflexivity|]. cbn. rewrite (Hl a) by (left; reflexivity).
      f_equal. apply IH. intros y Hy. apply Hl. right. exact Hy. }
    assert (PF : forall l l', Permutation l l' -> length (filter f l) = length (filter f l')).
    { intros l l' HP. induction HP; cbn; auto; try congruence.
      - destruct (f x0); cbn; congruence.
      - destruct (f x0), (f y); reflexivity. }
    pose proof (PF _ _ (Permutation_trans (Permutation_sym P1) P2)) as Z.
    rewrite !filter_app, !app_length, (CN R FR), (CA D FD) in Z. cbn [length] in Z.
    pose proof (CS O Hx). lia.
  Qed.

  (** ** merging into the place of the second input *)
  Lemma store_app l1 l2 y x : store A (l1 ++ y :: l2) (length l1) x = l1 ++ x :: l2.
  Proof. induction l1 as [|a l1 IH]; [reflexivity|]. cbn. rewrite IH. reflexivity. Qed.
  Lemma nth_app_hd (l1 l2 : list A) : nth (length l1) (l1 ++ l2) mn = hd mn l2.
  Proof. induction l1 as [|a l1 IH]; [destruct l2; reflexivity|exact IH]. Qed.
  Lemma in_place_ok n : forall s0 done gap rest out r, length gap = length s0 -> n = length s0 + length rest ->
    merge2 A cmp mn n s0 rest = Some (out, r) ->
    merge2_in_place A cmp mn n s0 (done ++ gap ++ rest ++ [mn]) (length done) (length done + length gap)
      = Some (done ++ out ++ [mn]).
  Proof.
    induction n as [|n IH]; intros s0 done gap rest out r Hg Hn E.
    - destruct s0; [|discriminate]. destruct rest; [|discriminate]. destruct gap; [|discriminate].
      cbn in E. injection E as <- _. reflexivity.
    - cbn [merge2_in_place]. cbn [merge2] in E.
      assert (Rd : nth (length done + length gap) (done ++ gap ++ rest ++ [mn]) mn = deref rest).
      { rewrite app_assoc, <- app_length, nth_app_hd. destruct rest; reflexivity. }
      rewrite Rd. destruct (cmp (deref s0) (deref rest)).
      + destruct rest as [|x rest]; [discriminate|]. cbn [next PqTreeModel.deref hd] in *.
        destruct (merge2 A cmp mn n s0 rest) as [[o q]|] eqn:E1; [|discriminate]. injection E as <- _.
        destruct (Nat.ltb_spec (S (length done + length gap)) (length (done ++ gap ++ (x :: rest) ++ [mn]))) as [_|Q].
        2:{ rewrite !app_length in Q. cbn in Q. lia. }
        destruct gap as [|g gap].
        * cbn [app length] in *. rewrite Nat.add_0_r. rewrite store_app.
          specialize (IH s0 (done ++ [x]) [] rest o q Hg ltac:(cbn in Hn; lia) E1).
          rewrite app_length in IH. cbn [app length] in IH. rewrite Nat.add_0_r, <- !app_assoc in IH. cbn [app] in IH.
          replace (length done + 1) with (S (length done)) in IH by lia. exact IH.
        * cbn [app]. rewrite store_app.
          specialize (IH s0 (done ++ [x]) (gap ++ [x]) rest o q).
          rewrite !app_length in IH. cbn [length] in IH. rewrite <- !app_assoc in IH. cbn [app] in IH.
          replace (length done + 1) with (S (length done)) in IH by lia.
          replace (S (length done) + (length gap + 1)) with (S (length done + length (g :: gap))) in IH by (cbn [length]; lia).
          apply IH; [cbn in Hg |- *; lia|cbn in Hn; lia|exact E1].
      + destruct s0 as [|x s0]; [discriminate|]. cbn [next PqTreeModel.deref hd] in *.
        destruct (merge2 A cmp mn n s0 rest) as [[o q]|] eqn:E1; [|discriminate]. injection E as <- _.
        destruct gap as [|g gap]; [discriminate|]. cbn [app]. rewrite store_app.
        specialize (IH s0 (done ++ [x]) gap rest o q).
        rewrite !app_length in IH. cbn [length] in IH. rewrite <- !app_assoc in IH. cbn [app] in IH.
        replace (length done + 1) with (S (length done)) in IH by lia.
        replace (S (length done) + length gap) with (length done + length (g :: gap)) in IH by (cbn [length]; lia).
        apply IH; [cbn in Hg |- *; lia|cbn in Hn; lia|exact E1].
  Qed.

  (** ** heaps *)
  Lemma heap_top_best l x : is_heap A cmp (x :: l) -> forall y, In y (x :: l) -> ge x y.
  Proof.
    intros H y Hy. apply In_nth_error in Hy. destruct Hy as (i & Hi). revert y Hi.
    induction i as [i IH] using (well_founded_induction lt_wf). intros y Hi.
    destruct i as [|i]; [cbn in Hi; injection Hi as <-; apply ge_refl, SW|].
    assert (D : i / 2 < S i) by (apply Nat.div_lt_upper_bound; lia).
    destruct (nth_error (x :: l) (i / 2)) as [z|] eqn:Ez.
    - eapply (ge_trans _ _ SW); [apply (IH (i / 2) D z Ez)|]. apply (H i z y Ez Hi).
    - exfalso. apply nth_error_None in Ez. assert (Q : S i < length (x :: l)) by (apply nth_error_Some; congruence). lia.
  Qed.
  Lemma desc_heap l : sorted (gt A cmp) l -> is_heap A cmp l.
  Proof.
    intros S i x y Hx Hy.
    assert (G : forall (l : list A) i j x y, sorted (gt A cmp) l -> i < j -> nth_error l i = Some x -> nth_error l j = Some y -> cmp x y = false).
    { clear. induction l as [|a l IH]; intros i j x y S Hij Hx Hy; [destruct i; discriminate|].
      inversion S as [|? ? S1 S2]; subst. destruct j as [|j]; [lia|]. destruct i as [|i].
      - cbn in Hx. injection Hx as <-. cbn in Hy. apply nth_error_In in Hy. rewrite Forall_forall in S2. apply (S2 y Hy).
      - cbn in Hx, Hy. apply (IH i j); auto. lia. }
    apply (G l (i / 2) (Datatypes.S i) x y S); auto. pose proof (Nat.div_le_upper_bound i 2 i). lia.
  Qed.
End ListProofs.
