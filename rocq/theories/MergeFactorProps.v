(** C72: optimal_merge_factor *)
From Coq Require Import List Arith Lia.
From Verif Require Import MergeFactorModel.
Import ListNotations.

(** Independent view: in a pass over n runs every f runs are merged into one. *)
Definition pass (f n : nat) : nat := (n + f - 1) / f.
Fixpoint after (k f n : nat) : nat := match k with 0 => n | S k => after k f (pass f n) end.

Lemma least_ok p fuel i : (exists j, i <= j <= i + fuel /\ p j = true) -> p (least p fuel i) = true /\ forall j, i <= j < least p fuel i -> p j = false.
Proof.
  revert i. induction fuel as [|f IH]; intros i (j & H & Hp).
  - cbn. replace j with i in Hp by lia. split; [exact Hp|lia].
  - cbn. destruct (p i) eqn:E; [split; [exact E|lia]|]. destruct (IH (S i)) as [A B].
    + exists j. split; [|exact Hp]. destruct (Nat.eq_dec i j); [congruence|lia].
    + split; [exact A|]. intros k Hk. destruct (Nat.eq_dec k i); [congruence|]. apply B. lia.
Qed.
Lemma pow_big m n : 2 <= m -> n <= m ^ n.
Proof. intro H. pose proof (Nat.pow_gt_lin_r m n ltac:(lia)). lia. Qed.
Lemma passes_ok n m : 2 <= m -> n <= m ^ passes n m /\ forall k, k < passes n m -> m ^ k < n.
Proof.
  intro H. destruct (least_ok (fun k => Nat.leb n (m ^ k)) n 0) as [A B].
  - exists n. split; [lia|]. apply Nat.leb_le, pow_big, H.
  - split; [apply Nat.leb_le, A|]. intros k Hk. specialize (B k ltac:(unfold passes in Hk; lia)). apply Nat.leb_gt in B. exact B.
Qed.
Lemma factor_spec n m : 2 <= m -> 1 < n -> n <= merge_factor n m ^ passes n m /\ forall f, f < merge_factor n m -> f ^ passes n m < n.
Proof.
  intros H Hn. assert (passes n m <> 0) as Hp by (intro E; destruct (passes_ok n m H) as [X _]; rewrite E in X; cbn in X; lia).
  destruct (least_ok (fun f => Nat.leb n (f ^ passes n m)) n 0) as [A B].
  - exists n. split; [lia|]. apply Nat.leb_le. destruct (passes n m) as [|k]; [contradiction|]. cbn. pose proof (Nat.pow_nonzero n k ltac:(lia)). nia.
  - split; [apply Nat.leb_le, A|]. intros f Hf. specialize (B f ltac:(unfold merge_factor in Hf; lia)). apply Nat.leb_gt in B. exact B.
Qed.
Lemma pass_le f n c : 0 < f -> n <= f * c -> pass f n <= c.
Proof. intros H1 H2. unfold pass. apply Nat.lt_succ_r, Nat.div_lt_upper_bound; nia. Qed.
Lemma pass_ge f n c : 0 < f -> f * c < n -> c < pass f n.
Proof. intros H1 H2. unfold pass. apply Nat.div_le_lower_bound; nia. Qed.
Lemma after_le k : forall f n, 0 < f -> n <= f ^ k -> after k f n <= 1.
Proof. induction k as [|k IH]; intros f n Hf H; [exact H|]. cbn [after]. apply IH; [exact Hf|]. apply pass_le; [exact Hf|exact H]. Qed.
Lemma after_gt k : forall f n, 0 < f -> f ^ k < n -> 1 < after k f n.
Proof. induction k as [|k IH]; intros f n Hf H; [exact H|]. cbn [after]. apply IH; [exact Hf|]. apply pass_ge; [exact Hf|exact H]. Qed.

(** The factor is at least two and at most the largest possible arity; it needs the least number of passes that is possible with this
    arity; no smaller factor does. *)
Theorem C72_merge_factor n m : 2 <= m -> m < n ->
  2 <= merge_factor n m <= m /\
  exists k, after k (merge_factor n m) n <= 1 /\ (forall f j, 0 < f <= m -> j < k -> 1 < after j f n) /\ (forall f, 0 < f < merge_factor n m -> 1 < after k f n).
Proof.
  intros H Hn. destruct (passes_ok n m H) as [P1 P2]. destruct (factor_spec n m H ltac:(lia)) as [F1 F2]. split.
  - split.
    + destruct (merge_factor n m) as [|[|f]]; [|rewrite Nat.pow_1_l in F1; lia|lia].
      destruct (passes n m) as [|k]; [cbn in F1; lia|]. rewrite Nat.pow_0_l in F1 by lia. lia.
    + destruct (Nat.le_gt_cases (merge_factor n m) m) as [X|X]; [exact X|]. specialize (F2 m X). lia.
  - exists (passes n m). assert (0 < merge_factor n m) as Fp.
    { destruct (merge_factor n m) as [|f]; [|lia]. destruct (passes n m); [cbn in F1; lia|]. cbn in F1. lia. }
    split; [apply after_le; assumption|]. split.
    + intros f j [Hf Hf'] Hj. apply after_gt; [exact Hf|]. pose proof (Nat.pow_le_mono_l f m j Hf'). specialize (P2 j Hj). lia.
    + intros f [Hf Hf']. apply after_gt; [exact Hf|apply F2, Hf'].
Qed.
Example C72_example : map (fun nm => merge_factor (fst nm) (snd nm)) [(100, 50); (100, 10); (100, 9); (101, 10); (7, 2); (3, 2)] = [10; 10; 5; 5; 2; 2].
Proof. vm_compute. reflexivity. Qed.
Print Assumptions C72_merge_factor.
