(** C119-C121: parallel multiway merging. *)
From Coq Require Import List Bool Arith Lia Permutation Sorted ZArith.
From Verif Require Import OrderLib MultiseqModel MultiseqSpec MultiseqProps MwmergeModel MwmergeSpec Mwmerge MwmergeProps ParMergeModel ParMergeSpec ParMerge ParMergeAll ParMergeSplit.
Import ListNotations.
Open Scope nat_scope.

Section C.
  Variable A : Type.
  Variable lt : A -> A -> bool.
  Hypothesis SW : strict_weak lt.
  Notation seqs := (list (list A * list A)).
  Notation nonempty s := (filter (fun r => negb (Nat.eqb (length (fst r)) 0)) s).

  Lemma total_nonempty (s : seqs) : total (nonempty s) = length (concat (map fst s)).
  Proof.
    induction s as [|([|x l], b) s IH]; [reflexivity|exact IH|]. cbn [filter fst length Nat.eqb negb map concat app]. unfold total in *. cbn [map list_sum fold_right fst length].
    change (fold_right Nat.add 0) with list_sum. rewrite IH, app_length. reflexivity.
  Qed.
  Lemma nonempty_length (s : seqs) : length (nonempty s) <= length s.
  Proof. induction s as [|r s IH]; [reflexivity|]. cbn [filter]. destruct (negb (length (fst r) =? 0)); cbn [length]; lia. Qed.
  Lemma nonempty_all (P : list A -> Prop) (s : seqs) : Forall P (map fst s) -> Forall (fun l => P l /\ 0 < length l) (map fst (nonempty s)).
  Proof.
    rewrite !Forall_forall. intros H l Hl. apply in_map_iff in Hl. destruct Hl as (r & <- & Hr). apply filter_In in Hr. destruct Hr as (Hr & Hn).
    split; [apply H; apply in_map; exact Hr|]. destruct (Nat.eqb_spec (length (fst r)) 0); [discriminate|lia].
  Qed.
  Lemma no_ties_nonempty (s : seqs) : no_ties lt (map fst s) -> no_ties lt (map fst (nonempty s)).
  Proof.
    intro H. set (R := fun r q : list A * list A => forall x y, In x (fst r) -> In y (fst q) -> lt x y = true \/ lt y x = true).
    assert (F : ForallOrdPairs R s).
    { apply (fop_of_nth R s ([], [])). intros i j Hij x y Hx Hy. apply (H i j x y ltac:(lia)).
      - change (@nil A) with (fst (@nil A, @nil A)). rewrite map_nth. exact Hx.
      - change (@nil A) with (fst (@nil A, @nil A)). rewrite map_nth. exact Hy. }
    apply (fop_filter R (fun r => negb (length (fst r) =? 0))) in F. intros i j x y Hij Hx Hy.
    change (@nil A) with (fst (@nil A, @nil A)) in Hx, Hy. rewrite map_nth in Hx, Hy.
    assert (Hb : forall k z, In z (fst (nth k (nonempty s) ([], []))) -> k < length (nonempty s)).
    { intros k z Hz. destruct (Nat.lt_ge_cases k (length (nonempty s))) as [|Hge]; [assumption|]. rewrite nth_overflow in Hz by exact Hge. contradiction. }
    pose proof (Hb i x Hx). pose proof (Hb j y Hy). destruct (Nat.lt_gt_cases i j) as [Hc _]. destruct (Hc Hij) as [C|C].
    - exact (fop_nth R _ ([], []) F i j ltac:(lia) x y Hx Hy).
    - destruct (fop_nth R _ ([], []) F j i ltac:(lia) y x Hy Hx); auto.
  Qed.

  (** C119, C120: exact splitting.
      Missing: equivalent elements in different sequences (except two threads, all elements, not stable), one thread and not all elements,
      parts without elements for a loser tree.  All are refuted below. *)
  Theorem C119_exact_partial stable copy alg threads s len : alg = BUBBLE \/ alg = LOSER_TREE ->
    Forall (sorted lt) (map fst s) -> Forall (fun l => (Z.of_nat (length l) < 2 ^ 62)%Z) (map fst s) ->
    1 <= threads -> len <= length (concat (map fst s)) ->
    no_ties lt (map fst s) \/ (stable = false /\ len = length (concat (map fst s)) /\ threads <= 2) ->
    len = length (concat (map fst s)) \/ (2 <= threads /\ 2 <= length (concat (map fst s))) ->
    (alg = LOSER_TREE -> 5 <= length s -> Nat.min threads (length (concat (map fst s))) <= len) ->
    par_ok lt stable s len (parallel A lt stable copy alg (exact_splitting A lt) threads s len).
  Proof.
    intros Ha Hs Hfit Hth Hlen Hties Htight Hparts. rewrite <- total_nonempty in *.
    destruct (Nat.eq_dec (total (nonempty s)) 0) as [E0|E0].
    { assert (len = 0) by lia. subst len. apply nothing_ok. exact E0. }
    pose proof (nonempty_length s) as Hl. pose proof (nonempty_all _ s Hs) as Hs'. pose proof (nonempty_all _ s Hfit) as Hf'.
    destruct (exact_rows A lt SW stable (alg = LOSER_TREE /\ 5 <= length (nonempty s)) (nonempty s) len (Nat.min threads (total (nonempty s)))) as (rows & E & G & Su & Ch & La).
    - rewrite Forall_forall in *. intros l Hl'. apply (Hs' l Hl').
    - unfold lengths_fit. rewrite Forall_forall in *. intros l Hl'. specialize (Hf' l Hl'). split; apply Hf'.
    - exact Hlen.
    - lia.
    - intro Hst. destruct Hties as [Hn|(C & _)]; [apply no_ties_nonempty; exact Hn|congruence].
    - intros (H1 & H2). apply Hparts; [exact H1|lia].
    - destruct Htight as [H|(H1 & H2)]; [now left|right; lia].
    - destruct Hties as [Hn|(_ & H1 & H2)]; [left; apply no_ties_nonempty; exact Hn|right; lia].
    - apply (parallel_ok A lt SW stable copy alg _ threads s len (origin (nonempty s)) rows); try assumption. apply (good_origin A lt false).
  Qed.
  Corollary C120_stable_partial copy alg threads s len : alg = BUBBLE \/ alg = LOSER_TREE ->
    Forall (sorted lt) (map fst s) -> Forall (fun l => (Z.of_nat (length l) < 2 ^ 62)%Z) (map fst s) ->
    2 <= threads -> len <= length (concat (map fst s)) -> 2 <= length (concat (map fst s)) -> no_ties lt (map fst s) ->
    (alg = LOSER_TREE -> 5 <= length s -> Nat.min threads (length (concat (map fst s))) <= len) ->
    par_ok lt true s len (parallel A lt true copy alg (exact_splitting A lt) threads s len).
  Proof. intros Ha Hs Hf Ht Hl H2 Hn Hp. apply C119_exact_partial; auto. lia. Qed.

  (** C121: sampling, when all elements are merged; [pick] may be any choice of samples inside the sequences.
      Missing: not all elements, loser trees with parts without elements.  Both are refuted below. *)
  Theorem C121_sampling_partial stable copy alg pick threads s : alg = BUBBLE \/ (alg = LOSER_TREE /\ length s <= 4) ->
    Forall (sorted lt) (map fst s) -> 1 <= threads ->
    (forall n i, 0 < n -> i < Nat.min threads (length (concat (map fst s))) * 10 -> pick n i < n) ->
    par_ok lt stable s (length (concat (map fst s))) (parallel A lt stable copy alg (sampling_splitting A lt pick) threads s (length (concat (map fst s)))).
  Proof.
    intros Ha Hs Hth Hpick. rewrite <- total_nonempty in *. destruct (Nat.eq_dec (total (nonempty s)) 0) as [E0|E0].
    { rewrite E0. apply nothing_ok. exact E0. }
    pose proof (nonempty_length s) as Hl. pose proof (nonempty_all _ s Hs) as Hs'.
    destruct (sampling_rows A lt SW stable pick (nonempty s) (Nat.min threads (total (nonempty s)))) as (rows & E & G & Su & Ch & La).
    - rewrite Forall_forall in *. intros l Hl'. apply (Hs' l Hl').
    - rewrite Forall_forall in *. intros l Hl'. apply (Hs' l Hl').
    - lia.
    - exact Hpick.
    - intro C. rewrite C in E0. apply E0. reflexivity.
    - apply (parallel_ok A lt SW stable copy alg _ threads s _ (origin (nonempty s)) rows); try assumption.
      + destruct Ha as [->|(-> & _)]; auto.
      + assert (Hw : forall rows b, chain False b rows -> chain (alg = LOSER_TREE /\ 5 <= length (nonempty s)) b rows).
        { clear -Ha Hl. induction rows as [|b' rows IH]; intros b H; [exact I|]. destruct H as (H1 & H2 & H3). split; [exact H1|]. split; [|exact (IH b' H3)].
          intros (C1 & C2). destruct Ha as [C|(_ & C)]; [congruence|lia]. }
        apply Hw. exact Ch.
      + apply (good_origin A lt false).
  Qed.
End C.

(** the rows for equal elements cross: the end of a part lies before its beginning *)
Theorem C119_ties_refuted : exists s : list (list nat * list nat), Forall (sorted Nat.ltb) (map fst s) /\
  (exists threads len, len = length (concat (map fst s)) /\ 1 <= threads <= len /\
     forall stable copy alg, parallel nat Nat.ltb stable copy alg (exact_splitting nat Nat.ltb) threads s len = None) /\
  (exists len, 2 <= len <= length (concat (map fst s)) /\
     forall stable copy alg, parallel nat Nat.ltb stable copy alg (exact_splitting nat Nat.ltb) 2 s len = None).
Proof.
  exists (plain [[7]; [7; 7; 7; 7]]). split; [repeat constructor|]. split.
  - exists 4, 5. split; [reflexivity|]. split; [lia|]. intros [] [] []; vm_compute; reflexivity.
  - exists 2. split; [cbn; lia|]. intros [] [] []; vm_compute; reflexivity.
Qed.
(** the rows themselves: three threads, all elements *)
Theorem C119_crossing_refuted : exists (s : list (list nat * list nat)) rows k i, Forall (sorted Nat.ltb) (map fst s) /\
  exact_splitting nat Nat.ltb s (total s) (total s) 3 = Some rows /\ S k < length rows /\ i < length s /\ nth i (nth (S k) rows []) 0 < nth i (nth k rows []) 0.
Proof.
  exists (plain [[7; 7; 7]; [7; 7; 7; 7; 7]]), [[0; 0]; [3; 0]; [2; 4]; [3; 5]], 1, 0. split; [repeat constructor|]. split; [vm_compute; reflexivity|]. cbn. lia.
Qed.
(** one thread, some elements: the ends of its part are never computed *)
Theorem C119_one_thread_refuted : exists (s : list (list nat * list nat)) len, Forall (sorted Nat.ltb) (map fst s) /\ no_ties Nat.ltb (map fst s) /\
  1 <= len <= length (concat (map fst s)) /\ forall stable copy alg, parallel nat Nat.ltb stable copy alg (exact_splitting nat Nat.ltb) 1 s len = None.
Proof.
  exists (plain [[1; 3]; [2; 4]]), 2. split; [repeat constructor|]. split.
  { intros i j x y Hij Hx Hy. destruct i as [|[|[|i]]], j as [|[|[|j]]]; cbn in Hx, Hy; try lia; repeat (destruct Hx as [<-|Hx]; [repeat (destruct Hy as [<-|Hy]; [cbn; auto|]); try contradiction|]); contradiction. }
  split; [cbn; lia|]. intros [] [] []; vm_compute; reflexivity.
Qed.
(** more threads than elements asked for: a part of five empty sequences *)
Theorem C119_empty_part_refuted : exists (s : list (list nat * list nat)) len threads, Forall (sorted Nat.ltb) (map fst s) /\ NoDup (concat (map fst s)) /\
  2 <= threads /\ 1 <= len <= length (concat (map fst s)) /\ forall stable copy, parallel nat Nat.ltb stable copy LOSER_TREE (exact_splitting nat Nat.ltb) threads s len = None.
Proof.
  exists (plain [[1]; [2]; [3]; [4]; [5]]), 2, 3. split; [repeat constructor|]. split.
  { cbn. repeat (constructor; [cbn; lia|]). constructor. }
  split; [lia|]. split; [cbn; lia|]. intros [] []; vm_compute; reflexivity.
Qed.
(** stable merging by two threads: elements of the second sequence come before an equivalent one of the first *)
Definition by_key (a b : nat * nat) : bool := Nat.ltb (fst a) (fst b).
Theorem C120_stable_refuted : exists (s : list (list (nat * nat) * list (nat * nat))) works s' len out, Forall (sorted by_key) (map fst s) /\
  len = length (concat (map fst s)) /\
  (forall copy, parallel (nat * nat) by_key true copy LOSER_TREE (exact_splitting (nat * nat) by_key) 2 s len = Some (works, s', len)) /\
  target_holds works out /\ ~ merged by_key true (map fst s) len out (map fst s').
Proof.
  exists [([(7, 0)], []); ([(7, 1); (7, 2); (7, 3); (7, 4); (7, 5); (7, 6)], [])], [(0, [(7, 1); (7, 2); (7, 3); (7, 4)]); (4, [(7, 0); (7, 5); (7, 6)])], [([], []); ([], [])], 7.
  exists [(7, 1); (7, 2); (7, 3); (7, 4); (7, 0); (7, 5); (7, 6)]. split; [repeat constructor|]. split; [reflexivity|]. split; [intros []; vm_compute; reflexivity|].
  split; [exact (target_ok [(0, [(7, 1); (7, 2); (7, 3); (7, 4)]); (4, [(7, 0); (7, 5); (7, 6)])] (conj eq_refl (conj eq_refl I)))|].
  intros (_ & taken & (H1 & H2 & H3 & _) & Hst). destruct (Hst eq_refl) as (Hf & _).
  destruct taken as [|t0 [|t1 [|t2 taken]]]; try discriminate H1. pose proof (H3 0) as E0. pose proof (H3 1) as E1. cbn in E0, E1. rewrite app_nil_r in E0, E1. subst t0 t1.
  specialize (Hf (7, 0)). vm_compute in Hf. discriminate Hf.
Qed.
(** sampling: exact arithmetic for the index of a sample *)
Definition scaled (p len tot n i : nat) : nat := n * (i + 1) * len / ((p * 10 + 1) * tot).
Lemma scaled_inside p len tot n i : len <= tot -> 0 < tot -> 0 < n -> i < p * 10 -> scaled p len tot n i < n.
Proof.
  intros H1 H2 H3 H4. unfold scaled. apply Nat.div_lt_upper_bound; [apply Nat.neq_mul_0; lia|].
  apply Nat.le_lt_trans with (n * (i + 1) * tot); [apply Nat.mul_le_mono_l; lia|].
  replace ((p * 10 + 1) * tot * n) with (n * (p * 10 + 1) * tot) by lia. apply Nat.mul_lt_mono_pos_r; [lia|]. apply Nat.mul_lt_mono_pos_l; lia.
Qed.
(** equal elements in five sequences: the second thread gets five empty sequences *)
Theorem C121_equal_refuted : exists s : list (list nat * list nat), Forall (sorted Nat.ltb) (map fst s) /\
  forall stable copy, parallel nat Nat.ltb stable copy LOSER_TREE (sampling_splitting nat Nat.ltb (scaled 2 5 5)) 2 s (length (concat (map fst s))) = None.
Proof. exists (plain [[7]; [7]; [7]; [7]; [7]]). split; [repeat constructor|]. intros [] []; vm_compute; reflexivity. Qed.
(** not all elements: the sequences are taken for used up *)
Theorem C121_short_refuted : exists (s : list (list nat * list nat)) len works s', Forall (sorted Nat.ltb) (map fst s) /\ NoDup (concat (map fst s)) /\ len <= length (concat (map fst s)) /\
  (forall stable copy, parallel nat Nat.ltb stable copy LOSER_TREE (sampling_splitting nat Nat.ltb (scaled 2 len 8)) 2 s len = Some (works, s', len)) /\
  forall stable out, ~ merged Nat.ltb stable (map fst s) len out (map fst s').
Proof.
  exists (plain [[1; 3; 5; 7]; [2; 4; 6; 8]]), 4. eexists. eexists. split; [repeat constructor|]. split.
  { cbn. repeat (constructor; [cbn; lia|]). constructor. }
  split; [cbn; lia|]. split; [intros [] []; vm_compute; reflexivity|].
  intros stable out (Hl & taken & (H1 & H2 & H3 & _ & H5 & _) & _).
  destruct taken as [|t0 [|t1 [|t2 taken]]]; try discriminate H1. pose proof (H3 0) as E0. pose proof (H3 1) as E1. cbn in E0, E1. rewrite app_nil_r in E0, E1. subst t0 t1.
  apply Permutation_length in H5. rewrite Hl in H5. discriminate H5.
Qed.

(** Examples *)
Example C119_example : parallel nat Nat.ltb false true LOSER_TREE (exact_splitting nat Nat.ltb) 3 (plain [[1; 4; 8]; []; [2; 3; 5; 6; 7]]) 6 =
  Some ([(0, [1; 2]); (2, [3; 4]); (4, [5; 6])], plain [[8]; []; [7]], 6).
Proof. vm_compute. reflexivity. Qed.
Example C119_example_ties : no_ties Nat.ltb (map fst (plain [[1; 4; 8]; []; [2; 3; 5; 6; 7]])).
Proof.
  intros i j x y Hij Hx Hy. destruct i as [|[|[|[|i]]]], j as [|[|[|[|j]]]]; cbn in Hx, Hy; try lia; try contradiction;
    repeat (destruct Hx as [<-|Hx]; [repeat (destruct Hy as [<-|Hy]; [cbn; auto|]); try contradiction|]); contradiction.
Qed.
Example C119_example_two : parallel nat Nat.ltb false true LOSER_TREE (exact_splitting nat Nat.ltb) 2 (plain [[7]; [7; 7; 7; 7]]) 5 = Some ([(0, [7; 7; 7]); (3, [7; 7])], plain [[]; []], 5).
Proof. vm_compute. reflexivity. Qed.
Example C120_example : parallel nat Nat.ltb true true LOSER_TREE (exact_splitting nat Nat.ltb) 2 (plain [[1; 1; 8]; [2]; [3; 3]; [4]; [0]]) 6 =
  Some ([(0, [0; 1; 1]); (3, [2; 3; 3])], plain [[8]; []; []; [4]; []], 6).
Proof. vm_compute. reflexivity. Qed.
Example C121_example : parallel nat Nat.ltb true true LOSER_TREE (sampling_splitting nat Nat.ltb (scaled 2 8 8)) 2 (plain [[1; 4; 8]; []; [2; 3; 5; 5; 7]]) 8 =
  Some ([(0, [1; 2; 3; 4]); (4, [5; 5; 7; 8])], plain [[]; []; []], 8).
Proof. vm_compute. reflexivity. Qed.

Print Assumptions C119_exact_partial.
Print Assumptions C119_ties_refuted.
Print Assumptions C119_crossing_refuted.
Print Assumptions C119_one_thread_refuted.
Print Assumptions C119_empty_part_refuted.
Print Assumptions C120_stable_partial.
Print Assumptions C120_stable_refuted.
Print Assumptions C121_sampling_partial.
Print Assumptions C121_equal_refuted.
Print Assumptions C121_short_refuted.
