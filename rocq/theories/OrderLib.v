(** Strict weak orders, sortedness and stable insertion sort, shared by the
    sorting and merging components.  Nothing here models code of /repo except
    that [ssort] stands for std::stable_sort, whose result is determined by its
    specification ([ssort_sorted], [ssort_perm], [ssort_stable]). *)
From Coq Require Import List Bool Arith Lia Permutation Sorted.
Import ListNotations.

(** The C++ requirement on comparators (irreflexive, transitive, incomparability transitive). *)
Record strict_weak {A} (lt : A -> A -> bool) : Prop := {
  sw_irrefl : forall x, lt x x = false;
  sw_trans : forall x y z, lt x y = true -> lt y z = true -> lt x z = true;
  sw_incomp : forall x y z, lt x z = true -> lt x y = true \/ lt y z = true }.

Definition le {A} (lt : A -> A -> bool) (x y : A) : Prop := lt y x = false.
Definition sorted {A} (lt : A -> A -> bool) (l : list A) : Prop := StronglySorted (le lt) l.

(** Any correct sorting function (std::sort). *)
Definition sorts {A} (lt : A -> A -> bool) (f : list A -> list A) : Prop :=
  forall l, Permutation (f l) l /\ sorted lt (f l).

Fixpoint insert {A} (lt : A -> A -> bool) (x : A) (l : list A) : list A :=
  match l with
  | [] => [x]
  | y :: l' => if lt y x then y :: insert lt x l' else x :: l
  end.
Fixpoint ssort {A} (lt : A -> A -> bool) (l : list A) : list A :=
  match l with [] => [] | x :: l' => insert lt x (ssort lt l') end.

Section Order.
  Variable A : Type.
  Variable lt : A -> A -> bool.
  Hypothesis SW : strict_weak lt.

  Lemma sw_asym x y : lt x y = true -> lt y x = false.
  Proof.
    intro H. destruct (lt y x) eqn:E; [|reflexivity].
    pose proof (sw_trans _ SW _ _ _ H E). rewrite (sw_irrefl _ SW) in H0. discriminate.
  Qed.
  Lemma le_refl x : le lt x x.
  Proof. apply (sw_irrefl _ SW). Qed.
  Lemma le_trans x y z : le lt x y -> le lt y z -> le lt x z.
  Proof.
    unfold le. intros H1 H2. destruct (lt z x) eqn:E; [|reflexivity].
    destruct (sw_incomp _ SW z y x E); congruence.
  Qed.
  Lemma lt_le x y : lt x y = true -> le lt x y.
  Proof. intro H. apply sw_asym. exact H. Qed.
  Lemma le_total x y : le lt x y \/ le lt y x.
  Proof. destruct (lt x y) eqn:E; [left; apply lt_le; exact E|right; exact E]. Qed.

  Lemma insert_perm x l : Permutation (insert lt x l) (x :: l).
  Proof.
    induction l as [|y l IH]; simpl; [apply Permutation_refl|].
    destruct (lt y x); [|apply Permutation_refl].
    eapply Permutation_trans; [apply perm_skip, IH|apply perm_swap].
  Qed.
  Lemma ssort_perm l : Permutation (ssort lt l) l.
  Proof.
    induction l as [|x l IH]; simpl; [constructor|].
    eapply Permutation_trans; [apply insert_perm|]. constructor. exact IH.
  Qed.
  Lemma insert_sorted x l : sorted lt l -> sorted lt (insert lt x l).
  Proof.
    induction 1 as [|y l Hs IH Hf]; simpl; [repeat constructor|].
    destruct (lt y x) eqn:E.
    - constructor; [exact IH|]. rewrite Forall_forall in *. intros z Hz.
      apply (Permutation_in _ (insert_perm x l)) in Hz. destruct Hz as [<-|Hz]; [apply lt_le, E|auto].
    - constructor; [constructor; assumption|]. constructor; [exact E|].
      rewrite Forall_forall in *. intros z Hz. eapply le_trans; [exact E|]. auto.
  Qed.
  Lemma ssort_sorted l : sorted lt (ssort lt l).
  Proof. induction l as [|x l IH]; simpl; [constructor|apply insert_sorted, IH]. Qed.

  (** Stability: elements equivalent to any given one keep their order. *)
  Definition equiv x y := negb (lt x y) && negb (lt y x).
  Lemma insert_filter p x l : (forall y, p x = true -> p y = true -> lt y x = false) ->
    filter p (insert lt x l) = filter p (x :: l).
  Proof.
    intros Hp. induction l as [|y l IH]; [reflexivity|]. cbn [insert].
    destruct (lt y x) eqn:E; [|reflexivity].
    cbn [filter] in *. rewrite IH. destruct (p y) eqn:Ey, (p x) eqn:Ex; try reflexivity.
    rewrite (Hp y eq_refl Ey) in E. discriminate.
  Qed.
  Lemma ssort_stable z l : filter (equiv z) (ssort lt l) = filter (equiv z) l.
  Proof.
    induction l as [|x l IH]; [reflexivity|]. cbn [ssort].
    rewrite insert_filter.
    - cbn [filter]. rewrite IH. reflexivity.
    - unfold equiv. intros y Hx Hy. apply andb_prop in Hx, Hy. destruct Hx as [X1 X2], Hy as [Y1 Y2].
      apply negb_true_iff in X1, X2, Y1, Y2.
      destruct (lt y x) eqn:E; [|reflexivity]. destruct (sw_incomp _ SW y z x E); congruence.
  Qed.

  Lemma sorted_app l1 l2 : sorted lt l1 -> sorted lt l2 ->
    (forall x y, In x l1 -> In y l2 -> le lt x y) -> sorted lt (l1 ++ l2).
  Proof.
    intros H1 H2 H. induction H1 as [|x l1 Hs IH Hf]; [exact H2|]. simpl. constructor.
    - apply IH. intros; apply H; [right|]; assumption.
    - rewrite Forall_forall in *. intros y Hy. apply in_app_or in Hy. destruct Hy; [auto|].
      apply H; [left; reflexivity|assumption].
  Qed.
  Lemma sorted_app_inv l1 l2 : sorted lt (l1 ++ l2) ->
    sorted lt l1 /\ sorted lt l2 /\ (forall x y, In x l1 -> In y l2 -> le lt x y).
  Proof.
    induction l1 as [|x l1 IH]; simpl; intro H; [split; [constructor|split; [exact H|contradiction]]|].
    inversion H as [|? ? Hs Hf]; subst. destruct (IH Hs) as (A1 & A2 & A3).
    rewrite Forall_forall in Hf. split; [|split; [exact A2|]].
    - constructor; [exact A1|]. rewrite Forall_forall. intros; apply Hf, in_or_app; auto.
    - intros a b [<-|Ha] Hb; [apply Hf, in_or_app; auto|auto].
  Qed.
  Lemma sorted_hd x l y : sorted lt (x :: l) -> In y (x :: l) -> le lt x y.
  Proof.
    intros H [<-|Hy]; [apply le_refl|]. inversion H as [|? ? Hs Hf]; subst. rewrite Forall_forall in Hf. auto.
  Qed.
End Order.

Lemma insert_pairs {A} (lt : A -> A -> bool) (R : A -> A -> Prop) x l :
  strict_weak lt ->
  (forall y, In y l -> lt y x = true -> R y x) ->
  (forall y, In y l -> lt y x = false -> R x y) ->
  sorted lt l -> ForallOrdPairs R l -> ForallOrdPairs R (insert lt x l).
Proof.
  intros SW. induction l as [|y l IH]; intros H1 H2 Hs HR; simpl; [repeat constructor|].
  inversion HR as [|? ? HF HP]; subst. inversion Hs as [|? ? Hs' Hf]; subst.
  destruct (lt y x) eqn:E.
  - constructor; [|apply IH; auto; intros; [apply H1|apply H2]; try assumption; right; assumption].
    rewrite Forall_forall in *. intros z Hz. apply (Permutation_in _ (insert_perm _ _ x l)) in Hz.
    destruct Hz as [<-|Hz]; [apply H1; [left; reflexivity|exact E]|auto].
  - constructor; [|exact HR]. rewrite Forall_forall in *. intros z [<-|Hz]; [apply H2; [left; reflexivity|exact E]|].
    apply H2; [right; exact Hz|]. destruct (lt z x) eqn:E2; [|reflexivity].
    destruct (sw_incomp _ SW z y x E2) as [E3|E3]; [|congruence]. specialize (Hf z Hz). unfold le in Hf. congruence.
Qed.
