(** Finite sums over 0..n-1 and function update, used by the concurrency models. *)
From Coq Require Import ZArith List Bool Arith Lia.
Import ListNotations.
Local Open Scope Z_scope.

Definition upd {A} (f : nat -> A) (i : nat) (v : A) : nat -> A :=
  fun j => if Nat.eqb j i then v else f j.

Lemma upd_same {A} (f : nat -> A) i v : upd f i v i = v.
Proof. unfold upd. rewrite Nat.eqb_refl. reflexivity. Qed.
Lemma upd_other {A} (f : nat -> A) i v j : j <> i -> upd f i v j = f j.
Proof. unfold upd. intro H. destruct (Nat.eqb_spec j i); congruence. Qed.

Fixpoint sumf (n : nat) (f : nat -> Z) : Z :=
  match n with O => 0 | S k => sumf k f + f k end.

Lemma sumf_ext n f g : (forall i, (i < n)%nat -> f i = g i) -> sumf n f = sumf n g.
Proof.
  induction n as [|n IH]; intro H; simpl; [reflexivity|].
  rewrite IH, (H n) by (intros; try apply H; lia); reflexivity.
Qed.
Lemma sumf_change n f g i : (i < n)%nat -> (forall j, j <> i -> f j = g j) ->
  sumf n g = sumf n f - f i + g i.
Proof.
  induction n as [|n IH]; intros Hi H; [lia|]. simpl.
  destruct (Nat.eq_dec i n) as [->|Hn].
  - rewrite (sumf_ext n g f) by (intros j Hj; symmetry; apply H; lia). lia.
  - rewrite IH by (try exact H; lia). rewrite (H n) by lia. lia.
Qed.
Lemma sumf_upd {A} n (f : A -> Z) (g : nat -> A) i v : (i < n)%nat ->
  sumf n (fun j => f (upd g i v j)) = sumf n (fun j => f (g j)) - f (g i) + f v.
Proof.
  intro Hi. rewrite (sumf_change n (fun j => f (g j)) _ i Hi).
  - rewrite upd_same. reflexivity.
  - intros j Hj. rewrite upd_other by exact Hj. reflexivity.
Qed.
Lemma sumf_nonneg n f : (forall i, (i < n)%nat -> 0 <= f i) -> 0 <= sumf n f.
Proof. induction n as [|n IH]; intro H; simpl; [lia|]. specialize (H n) as H1. pose proof (IH ltac:(intros; apply H; lia)). lia. Qed.
Lemma sumf_zero n f : (forall i, (i < n)%nat -> f i = 0) -> sumf n f = 0.
Proof. induction n as [|n IH]; intro H; simpl; [lia|]. rewrite H by lia. rewrite IH; [lia|]. intros; apply H; lia. Qed.
Lemma sumf_ge_one n f i : (i < n)%nat -> (forall j, (j < n)%nat -> 0 <= f j) -> f i <= sumf n f.
Proof.
  induction n as [|n IH]; intros Hi H; [lia|]. simpl.
  destruct (Nat.eq_dec i n) as [->|Hn].
  - pose proof (sumf_nonneg n f ltac:(intros; apply H; lia)). lia.
  - pose proof (IH ltac:(lia) ltac:(intros; apply H; lia)). specialize (H n). lia.
Qed.
Lemma sumf_ge_two n f i j : (i < n)%nat -> (j < n)%nat -> i <> j ->
  (forall k, (k < n)%nat -> 0 <= f k) -> f i + f j <= sumf n f.
Proof.
  intros Hi Hj Hn H.
  pose proof (sumf_ge_one n (fun k => if Nat.eqb k i then 0 else f k) j Hj) as H1.
  rewrite (sumf_change n f (fun k => if Nat.eqb k i then 0 else f k) i Hi) in H1
    by (intros k Hk; destruct (Nat.eqb_spec k i); congruence).
  rewrite Nat.eqb_refl in H1. destruct (Nat.eqb_spec j i); [congruence|].
  assert (Hq : forall k, (k < n)%nat -> 0 <= (if Nat.eqb k i then 0 else f k)).
  { intros k Hk. destruct (Nat.eqb k i); [lia|auto]. }
  specialize (H1 Hq). cbv beta in H1. lia.
Qed.
Lemma sumf_pos_ex n f : (forall j, (j < n)%nat -> 0 <= f j) -> 0 < sumf n f -> exists i, (i < n)%nat /\ 0 < f i.
Proof.
  induction n as [|n IH]; simpl; intros H Hp; [lia|].
  destruct (Z_lt_dec 0 (f n)) as [Hf|Hf]; [exists n; auto with arith|].
  destruct IH as (i & Hi & Hfi); [intros; apply H; lia|lia|exists i; auto with arith].
Qed.
