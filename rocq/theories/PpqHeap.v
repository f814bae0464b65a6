(** Insertion heaps as arrays: proofs. *)
From Coq Require Import List Bool Arith Lia Permutation.
From Verif Require Import OrderLib PpqModel PpqHeapModel PpqHeapSpec.
Import ListNotations.

Lemma set_len {X} (l : list X) : forall n x, length (set_nth n x l) = length l.
Proof. induction l as [|y l IH]; intros [|n] x; cbn; auto. Qed.
Lemma set_get {X} (l : list X) : forall n x m, nth_error (set_nth n x l) m = if Nat.eqb m n then match nth_error l n with Some _ => Some x | None => None end else nth_error l m.
Proof.
  induction l as [|y l IH]; intros [|n] x [|m]; cbn; auto.
  - now destruct (Nat.eqb m n).
Qed.
Lemma set_set {X} (l : list X) : forall n x y, set_nth n x (set_nth n y l) = set_nth n x l.
Proof. induction l as [|z l IH]; intros [|n] x y; cbn; auto. now rewrite IH. Qed.
Lemma set_self {X} (l : list X) : forall n x, nth_error l n = Some x -> set_nth n x l = l.
Proof. induction l as [|z l IH]; intros [|n] x H; cbn in *; try discriminate; [congruence|now rewrite IH]. Qed.
Lemma set_perm {X} (l : list X) : forall n x y, nth_error l n = Some y -> Permutation (y :: set_nth n x l) (x :: l).
Proof.
  induction l as [|z l IH]; intros [|n] x y H; cbn in *; try discriminate.
  - injection H as ->. apply perm_swap.
  - etransitivity; [apply perm_swap|]. etransitivity; [apply perm_skip, (IH n x y H)|]. apply perm_swap.
Qed.
Lemma par_lt i : 0 < i -> (i - 1) / 2 < i.
Proof. intro H. apply Nat.div_lt_upper_bound; lia. Qed.

Section Sift.
  Variable A : Type.
  Variable lt : A -> A -> bool.
  Notation par i := ((i - 1) / 2).

  Lemma heapb_ok l : heapb A lt l = true <-> heap lt l.
  Proof.
    unfold heapb. rewrite forallb_forall. split.
    - intros H i x y Hi Hx Hy. assert (L : i < length l) by (apply nth_error_Some; congruence).
      specialize (H i). rewrite in_seq in H. specialize (H ltac:(lia)). rewrite Hx, Hy in H. now apply negb_true_iff.
    - intros H i Hi. rewrite in_seq in Hi. destruct (nth_error l i) eqn:E1; auto. destruct (nth_error l (par i)) eqn:E2; auto.
      apply negb_true_iff. apply (H i); [lia|auto|auto].
  Qed.

  Hypothesis SW : strict_weak lt.
  Lemma lefalse x y z : lt x y = false -> lt y z = false -> lt x z = false.
  Proof. intros H1 H2. destruct (lt x z) eqn:E; auto. destruct (sw_incomp _ SW x y z E); congruence. Qed.

  (** a heap but for position [i] *)
  Definition almost (i : nat) (l : list A) : Prop :=
    (forall j x y, 0 < j -> j <> i -> nth_error l j = Some x -> nth_error l (par j) = Some y -> lt x y = false) /\
    (forall j x y, 0 < i -> 0 < j -> par j = i -> nth_error l j = Some x -> nth_error l (par i) = Some y -> lt x y = false).

  Lemma sift_ok fuel : forall l i v, i < length l -> i < fuel -> almost i (set_nth i v l) ->
    exists l' k, sift A lt fuel l i v = Some (l', k) /\ heap lt l' /\ Permutation l' (set_nth i v l) /\
      k <= i /\ nth_error l' k = Some v /\ (forall j, j < k -> nth_error l' j = nth_error l j).
  Proof.
    induction fuel as [|fuel IH]; intros l i v Hi Hf (H1 & H2); [lia|]. cbn [sift]. cbv zeta.
    assert (G : exists z, nth_error l i = Some z) by (destruct (nth_error l i) eqn:E; [eauto|apply nth_error_None in E; lia]).
    destruct G as (z & Hz).
    destruct (Nat.ltb_spec 0 i) as [P|P].
    2:{ exists (set_nth i v l), i. split; [auto|]. split.
        - intros j x y Hj. apply H1; auto. lia.
        - split; [auto|]. split; [lia|]. split; [rewrite set_get, Nat.eqb_refl, Hz; auto|].
          intros j Hj. rewrite set_get. destruct (Nat.eqb_spec j i); [lia|auto]. }
    pose proof (par_lt i P) as Q. set (p := par i) in *.
    assert (G : exists y, nth_error l p = Some y) by (destruct (nth_error l p) eqn:E; [eauto|apply nth_error_None in E; lia]).
    destruct G as (y & Hy). rewrite Hy.
    assert (Gi : nth_error (set_nth i v l) i = Some v) by (rewrite set_get, Nat.eqb_refl, Hz; auto).
    assert (Gp : nth_error (set_nth i v l) p = Some y) by (rewrite set_get; destruct (Nat.eqb_spec p i); [lia|auto]).
    destruct (lt v y) eqn:E.
    - set (l2 := set_nth p v (set_nth i y l)).
      assert (K : forall j, nth_error l2 j = if Nat.eqb j p then Some v else if Nat.eqb j i then Some y else nth_error (set_nth i v l) j).
      { intro j. unfold l2. rewrite !set_get. destruct (Nat.eqb_spec j p) as [->|N1].
        - destruct (Nat.eqb_spec p i); [lia|]. now rewrite Hy.
        - destruct (Nat.eqb_spec j i); [now rewrite Hz|auto]. }
      destruct (IH (set_nth i y l) p v) as (l' & k & R1 & R2 & R3 & R4 & R5 & R6).
      + rewrite set_len. lia.
      + lia.
      + change (almost p l2). split.
        * intros j a b Hj Hn. rewrite !K. destruct (Nat.eqb_spec j p); [lia|]. destruct (Nat.eqb_spec j i) as [->|N].
          -- fold p. rewrite Nat.eqb_refl. intros [= <-] [= <-]. now apply (sw_asym _ _ SW).
          -- intros Ha. destruct (Nat.eqb_spec (par j) p) as [Ep|Np].
             ++ intros [= <-]. apply (lefalse a y v); [|now apply (sw_asym _ _ SW)]. apply (H1 j); auto. now rewrite Ep.
             ++ destruct (Nat.eqb_spec (par j) i) as [Ei|Ni]; [intros [= <-]; now apply (H2 j)|]. intros Hb. now apply (H1 j).
        * intros j a b Hp0 Hj Ej. pose proof (par_lt p Hp0). pose proof (par_lt j Hj). rewrite !K.
          destruct (Nat.eqb_spec j p); [lia|]. destruct (Nat.eqb_spec (par p) p); [lia|]. destruct (Nat.eqb_spec (par p) i); [lia|].
          intros Ha Hb. assert (W : lt y b = false) by (apply (H1 p); auto; lia).
          destruct (Nat.eqb_spec j i) as [->|N]; [injection Ha as <-; auto|].
          apply (lefalse a y b); auto. apply (H1 j); auto. now rewrite Ej.
      + exists l', k. split; [auto|]. split; [auto|]. split.
        * etransitivity; [apply R3|]. fold l2.
          assert (T : nth_error (set_nth i y l) p = Some y) by (rewrite set_get; destruct (Nat.eqb_spec p i); [lia|auto]).
          apply (Permutation_cons_inv (a := y)). etransitivity; [apply (set_perm _ p v y T)|].
          apply (Permutation_cons_inv (a := z)). etransitivity; [apply perm_swap|]. etransitivity; [apply perm_skip, (set_perm l i y z Hz)|].
          etransitivity; [apply perm_swap|]. etransitivity; [|apply perm_swap]. apply perm_skip. symmetry. now apply set_perm.
        * split; [lia|]. split; [auto|]. intros j Hj. rewrite R6 by auto. rewrite set_get. destruct (Nat.eqb_spec j i); [lia|auto].
    - exists (set_nth i v l), i. split; [auto|]. split.
      + intros j a b Hj Ha Hb. destruct (Nat.eq_dec j i) as [->|N]; [fold p in Hb; congruence|]. now apply (H1 j).
      + split; [auto|]. split; [lia|]. split; [auto|]. intros j Hj. rewrite set_get. destruct (Nat.eqb_spec j i); [lia|auto].
  Qed.

  Lemma push_heap_ok l x : heap lt l -> exists l' k, push_heap A lt (l ++ [x]) = Some (l', k) /\ heap lt l' /\ Permutation l' (x :: l) /\
    nth_error l' k = Some x /\ (forall j, j < k -> nth_error l' j = nth_error l j).
  Proof.
    intro H. unfold push_heap. rewrite app_length. cbn [length]. replace (length l + 1 - 1) with (length l) by lia.
    assert (E : nth_error (l ++ [x]) (length l) = Some x) by (rewrite nth_error_app2, Nat.sub_diag; auto). rewrite E.
    destruct (sift_ok (length l + 1) (l ++ [x]) (length l) x) as (l' & k & R1 & R2 & R3 & R4 & R5 & R6).
    - rewrite app_length. cbn. lia.
    - lia.
    - rewrite set_self by auto. split.
      + intros j a b Hj Hn Ha Hb. assert (J : j < length (l ++ [x])) by (apply nth_error_Some; congruence). rewrite app_length in J. cbn [length] in J.
        pose proof (par_lt j Hj). rewrite nth_error_app1 in Ha, Hb by lia. now apply (H j).
      + intros j a b _ Hj Ej Ha _. assert (J : j < length (l ++ [x])) by (apply nth_error_Some; congruence). rewrite app_length in J. cbn [length] in J.
        pose proof (par_lt j Hj). lia.
    - exists l', k. rewrite set_self in R3 by auto. split; [auto|]. split; [auto|]. split; [etransitivity; [apply R3|]; symmetry; apply Permutation_cons_append|].
      split; [auto|]. intros j Hj. rewrite R6 by auto. apply nth_error_app1. lia.
  Qed.

  Lemma resift_ok n : forall l, n <= length l -> heap lt (firstn (length l - n) l) ->
    exists l', resift A lt n l = Some l' /\ heap lt l' /\ Permutation l' l.
  Proof.
    induction n as [|n IH]; intros l Hn H; cbn [resift].
    - exists l. rewrite Nat.sub_0_r, firstn_all in H. auto.
    - destruct (Nat.ltb_spec (length l) n); [lia|].
      remember (length l - S n) as m eqn:Dm. replace (length l - n) with (S m) by lia.
      assert (G : exists x, nth_error l m = Some x) by (destruct (nth_error l m) eqn:E; [eauto|apply nth_error_None in E; lia]).
      destruct G as (x & Hx). destruct (nth_error_split _ _ Hx) as (l1 & l2 & El & L1).
      assert (Em : S m = length (l1 ++ [x])) by (rewrite app_length; cbn; lia).
      assert (El2 : l = (l1 ++ [x]) ++ l2) by (rewrite <- app_assoc; exact El).
      assert (F : firstn (S m) l = l1 ++ [x]) by (rewrite Em, El2; rewrite firstn_app, Nat.sub_diag, firstn_all; apply app_nil_r).
      assert (F1 : firstn m l = l1) by (rewrite <- L1, El; rewrite firstn_app, Nat.sub_diag, firstn_all; apply app_nil_r).
      assert (S1 : skipn (S m) l = l2) by (rewrite Em, El2; rewrite skipn_app, Nat.sub_diag, skipn_all; reflexivity).
      rewrite F, S1. rewrite F1 in H. unfold std_push_heap.
      replace (firstn (length (l1 ++ [x]) - 1) (l1 ++ [x])) with l1 by (rewrite app_length; cbn; replace (length l1 + 1 - 1) with (length l1) by lia; rewrite firstn_app, Nat.sub_diag, firstn_all; cbn; now rewrite app_nil_r).
      rewrite (proj2 (heapb_ok l1) H). destruct (push_heap_ok l1 x H) as (l' & k & R1 & R2 & R3 & _). rewrite R1. cbn [fst].
      pose proof (Permutation_length R3) as L. cbn in L.
      assert (Ln : length l = length l1 + S (length l2)) by (rewrite El, app_length; reflexivity).
      destruct (IH (l' ++ l2)) as (q & Q1 & Q2 & Q3).
      + rewrite app_length. lia.
      + rewrite app_length. replace (length l' + length l2 - n) with (length l') by lia. now rewrite firstn_app, Nat.sub_diag, firstn_all, app_nil_r.
      + exists q. split; [auto|]. split; [auto|]. rewrite Q3, El, R3. cbn. apply Permutation_middle.
  Qed.
End Sift.
