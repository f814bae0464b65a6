(** C116-C118: sequential multiway merging. *)
From Coq Require Import List Bool Arith Lia Permutation Sorted.
From Verif Require Import OrderLib MwmergeModel MwmergeSpec Mwmerge MwTree MwVariants MwComb MwBubble.
Import ListNotations.

(** up to four sequences are merged in a stable way whatever is asked for *)
Definition kept (stable : bool) (k : nat) : bool := stable || Nat.leb k 4.

Section C.
  Variable A : Type.
  Variable lt : A -> A -> bool.
  Hypothesis SW : strict_weak lt.
  Notation seqs := (list (list A * list A)).
  (** merging [len] elements of [s] succeeded: the output, the iterators moved, the ends untouched *)
  Definition succeeds (stable : bool) (s : seqs) (len : nat) (r : option (list A * seqs)) : Prop :=
    exists out s', r = Some (out, s') /\ merged lt (kept stable (length s)) (map fst s) len out (map fst s') /\ map snd s' = map snd s.

  Lemma small_case stable s len r : Forall (sorted lt) (map fst s) -> length s <= 4 -> takes A lt true s len r -> succeeds stable s len r.
  Proof.
    intros Hs Hl Ht. unfold succeeds, kept. destruct (Nat.leb_spec (length s) 4); [|lia]. rewrite orb_true_r. exact (takes_merged A lt SW true s len r Hs Ht).
  Qed.
  Lemma large_case stable s len r : Forall (sorted lt) (map fst s) -> 5 <= length s -> takes A lt stable s len r -> succeeds stable s len r.
  Proof.
    intros Hs Hl Ht. unfold succeeds, kept. destruct (Nat.leb_spec (length s) 4); [lia|]. rewrite orb_false_r. exact (takes_merged A lt SW stable s len r Hs Ht).
  Qed.
  Lemma fenced_sentinelled s : fenced lt s -> sentinelled A lt s.
  Proof.
    unfold fenced, sentinelled. rewrite !Forall_forall. intros H r Hr. destruct (H r Hr) as (z & b & E & Hz). exists z, b. split; [exact E|]. split; [|exact Hz].
    intros x Hx. apply in_concat. exists (fst r). split; [apply in_map; exact Hr|exact Hx].
  Qed.

  (** C116: the algorithms that test for the end *)
  Theorem C116_sequential_merge stable sentinels copy alg s len : alg = BUBBLE \/ alg = LOSER_TREE ->
    Forall (sorted lt) (map fst s) -> len <= length (concat (map fst s)) ->
    (alg = LOSER_TREE -> 5 <= length s -> concat (map fst s) <> []) ->
    succeeds stable s len (sequential A lt stable sentinels copy alg s len).
  Proof.
    intros Ha Hs Hlen Hne. rewrite <- total_concat in Hlen.
    destruct (Nat.le_gt_cases (length s) 2) as [L|L].
    { apply small_case; [exact Hs|lia|]. apply (few_takes A lt SW); [exact L|exact Hlen]. }
    assert (Hred : match alg with LOSER_TREE_SENTINEL => if sentinels then alg else LOSER_TREE_COMBINED | _ => alg end = alg) by (destruct Ha as [-> | ->]; reflexivity).
    unfold sequential. rewrite Hred. cbv zeta.
    destruct (length s) as [|[|[|[|[|k]]]]] eqn:El; try lia.
    - apply small_case; [exact Hs|lia|]. destruct Ha as [-> | ->]; apply (merge3_guarded A lt SW); assumption.
    - apply small_case; [exact Hs|lia|]. destruct Ha as [-> | ->]; apply (merge4_guarded A lt SW); assumption.
    - apply large_case; [exact Hs|lia|]. destruct Ha as [-> | ->]; [apply (bubble_takes A lt SW); exact Hlen|].
      assert (H0 : 0 < total s) by (rewrite total_concat; specialize (Hne eq_refl ltac:(lia)); destruct (concat (map fst s)); [congruence|cbn; lia]).
      replace len with (Nat.min (total s) len) at 1 by lia. exact (tree_takes A lt SW stable s len H0).
  Qed.
  (** five or more sequences in a loser tree: asking for more than there is gives all there is *)
  Theorem C116_clamped stable sentinels copy s len : 5 <= length s -> Forall (sorted lt) (map fst s) -> concat (map fst s) <> [] ->
    succeeds stable s (Nat.min (length (concat (map fst s))) len) (sequential A lt stable sentinels copy LOSER_TREE s len).
  Proof.
    intros Hl Hs Hne. apply large_case; [exact Hs|exact Hl|]. unfold sequential. cbv zeta.
    destruct (length s) as [|[|[|[|[|k]]]]] eqn:El; try lia. rewrite <- total_concat.
    apply (tree_takes A lt SW). rewrite total_concat. destruct (concat (map fst s)); [congruence|cbn; lia].
  Qed.

  (** C117: merging without tests up to where the first sequence ends.
      Missing: four sequences with nothing readable behind, five or more in stable mode; both are refuted below. *)
  Theorem C117_combined_partial stable sentinels copy alg s len :
    alg = LOSER_TREE_COMBINED \/ (alg = LOSER_TREE_SENTINEL /\ sentinels = false) ->
    Forall (sorted lt) (map fst s) -> len <= length (concat (map fst s)) ->
    (length s = 4 -> Forall (fun r => snd r <> []) s) -> (5 <= length s -> stable = false /\ concat (map fst s) <> []) ->
    succeeds stable s len (sequential A lt stable sentinels copy alg s len).
  Proof.
    intros Ha Hs Hlen H4 H5. rewrite <- total_concat in Hlen.
    destruct (Nat.le_gt_cases (length s) 2) as [L|L].
    { apply small_case; [exact Hs|lia|]. apply (few_takes A lt SW); [exact L|exact Hlen]. }
    assert (Hred : match alg with LOSER_TREE_SENTINEL => if sentinels then alg else LOSER_TREE_COMBINED | _ => alg end = LOSER_TREE_COMBINED) by (destruct Ha as [-> | (-> & ->)]; reflexivity).
    unfold sequential. rewrite Hred. cbv zeta.
    destruct (length s) as [|[|[|[|[|k]]]]] eqn:El; try lia.
    - apply small_case; [exact Hs|lia|]. apply (merge3_combined_takes A lt SW); assumption.
    - apply small_case; [exact Hs|lia|]. apply (merge4_combined_takes A lt SW); auto.
    - apply large_case; [exact Hs|lia|]. destruct (H5 ltac:(lia)) as (-> & Hne). apply (tree_combined_takes A lt SW); [exact Hs| |exact Hlen].
      rewrite total_concat. destruct (concat (map fst s)); [congruence|cbn; lia].
  Qed.

  (** C118: merging with a greater element behind each sequence.
      Missing: five or more sequences of one of the types that are copied into the tree, stable; refuted below. *)
  Theorem C118_sentinels_partial stable copy s len : Forall (sorted lt) (map fst s) -> len <= length (concat (map fst s)) -> fenced lt s ->
    (5 <= length s -> stable && copy = false) ->
    succeeds stable s len (sequential A lt stable true copy LOSER_TREE_SENTINEL s len).
  Proof.
    intros Hs Hlen Hf H5. rewrite <- total_concat in Hlen. apply fenced_sentinelled in Hf.
    destruct (Nat.le_gt_cases (length s) 2) as [L|L].
    { apply small_case; [exact Hs|lia|]. apply (few_takes A lt SW); [exact L|exact Hlen]. }
    unfold sequential. cbv zeta. destruct (length s) as [|[|[|[|[|k]]]]] eqn:El; try lia.
    - apply small_case; [exact Hs|lia|]. apply (merge3_sentinel A lt SW); assumption.
    - apply small_case; [exact Hs|lia|]. apply (merge4_sentinel A lt SW); assumption.
    - apply large_case; [exact Hs|lia|]. apply (sentinel_takes A lt SW); [apply H5; lia|lia|exact Hlen|exact Hf].
  Qed.
End C.

(** the other side of each *)
Definition plain (l : list (list nat)) : list (list nat * list nat) := map (fun x => (x, [])) l.
Definition ended (l : list (list nat)) : list (list nat * list nat) := map (fun x => (x, [99])) l.

(** nothing to do in five empty sequences: the null pointer is dereferenced *)
Theorem C116_all_empty_refuted : exists s : list (list nat * list nat),
  Forall (sorted Nat.ltb) (map fst s) /\ concat (map fst s) = [] /\
  forall stable sentinels copy, sequential nat Nat.ltb stable sentinels copy LOSER_TREE s 0 = None.
Proof. exists (plain [[]; []; []; []; []]). split; [repeat constructor|]. split; [reflexivity|]. intros [] [] []; reflexivity. Qed.
(** a length beyond the elements: one to four sequences are read past their ends *)
Theorem C116_too_long_refuted k : 1 <= k <= 4 -> exists s : list (list nat * list nat),
  length s = k /\ Forall (sorted Nat.ltb) (map fst s) /\ exists len, forall stable, sequential nat Nat.ltb stable false false LOSER_TREE s len = None.
Proof.
  intro H. exists (plain (firstn k [[1]; [2]; [3]; [4]])). destruct k as [|[|[|[|[|k]]]]]; try lia;
    (split; [reflexivity|]); (split; [repeat constructor|]); exists 5; intros []; reflexivity.
Qed.
(** four sequences: one more comparison after the last element *)
Theorem C117_four_refuted : exists (s : list (list nat * list nat)) len,
  length s = 4 /\ Forall (sorted Nat.ltb) (map fst s) /\ len <= length (concat (map fst s)) /\
  forall stable copy, sequential nat Nat.ltb stable false copy LOSER_TREE_COMBINED s len = None.
Proof. exists (plain [[0; 1]; [2]; [2]; [2]]), 3. split; [reflexivity|]. split; [repeat constructor|]. split; [cbn; lia|]. intros [] []; reflexivity. Qed.
(** five sequences, stable: the player of no sequence wins the tie *)
Theorem C117_stable_tree_refuted : exists (s : list (list nat * list nat)) len,
  length s = 5 /\ Forall (sorted Nat.ltb) (map fst s) /\ len <= length (concat (map fst s)) /\ Forall (fun r => snd r <> []) s /\
  forall copy, sequential nat Nat.ltb true false copy LOSER_TREE_COMBINED s len = None.
Proof.
  exists (ended [[0; 1]; [2]; [2]; [2]; [2]]), 3. split; [reflexivity|]. split; [repeat constructor|]. split; [cbn; lia|]. split; [repeat constructor; discriminate|]. intros []; reflexivity.
Qed.
(** eight sequences, so that there is no such player: the element behind a used up sequence is read *)
Theorem C117_stable_eight_refuted : exists (s : list (list nat * list nat)) len,
  length s = 8 /\ Forall (sorted Nat.ltb) (map fst s) /\ len <= length (concat (map fst s)) /\
  forall copy, sequential nat Nat.ltb true false copy LOSER_TREE_COMBINED s len = None.
Proof. exists (plain [[0; 1]; [2]; [2]; [2]; [2]; [2]; [2]; [2]]), 3. split; [reflexivity|]. split; [repeat constructor|]. split; [cbn; lia|]. intros []; reflexivity. Qed.
(** stable merging of integers in the sentinel variant: 3 stays behind although 4 and 5 are output *)
Theorem C118_copied_stable_refuted : exists (s : list (list nat * list nat)) len out s',
  Forall (sorted Nat.ltb) (map fst s) /\ len <= length (concat (map fst s)) /\ fenced Nat.ltb s /\
  sequential nat Nat.ltb true true true LOSER_TREE_SENTINEL s len = Some (out, s') /\ forall b, ~ merged Nat.ltb b (map fst s) len out (map fst s').
Proof.
  exists (ended [[5]; [4; 6]; [2]; [3]; [1; 7]]), 4, [1; 2; 4; 5], (ended [[]; [6]; []; [3]; [7]]).
  split; [repeat constructor|]. split; [cbn; lia|]. split.
  { assert (F : forall x, In x [5; 4; 6; 2; 3; 1; 7] -> Nat.ltb x 99 = true) by (intros x Hx; repeat (destruct Hx as [<-|Hx]; [reflexivity|]); contradiction).
    repeat constructor; exists 99, []; (split; [reflexivity|exact F]). }
  split; [reflexivity|]. intros b (_ & taken & (H1 & H2 & H3 & H4 & H5 & H6) & _).
  assert (Hin : In 5 (concat taken)) by (apply (Permutation_in _ H5); cbn; tauto).
  specialize (H6 5 3 Hin ltac:(cbn; tauto)). discriminate.
Qed.

(** Examples *)
Lemma nat_sw : strict_weak Nat.ltb.
Proof.
  split.
  - intro x. apply Nat.ltb_irrefl.
  - intros x y z H1 H2. apply Nat.ltb_lt in H1, H2. apply Nat.ltb_lt. lia.
  - intros x y z H. apply Nat.ltb_lt in H. destruct (Nat.ltb_spec x y); [now left|right]. apply Nat.ltb_lt. lia.
Qed.
Example C116_example_three : sequential nat Nat.ltb false false true LOSER_TREE (plain [[1; 4]; [2; 4]; [3; 3]]) 4 =
  Some ([1; 2; 3; 3], plain [[4]; [4]; []]).
Proof. reflexivity. Qed.
Example C116_example_tree : sequential nat Nat.ltb true false true LOSER_TREE (plain [[1; 4]; [2; 4]; [3; 3]; []; [0; 4]; [4]]) 7 =
  Some ([0; 1; 2; 3; 3; 4; 4], plain [[]; []; []; []; [4]; [4]]).
Proof. reflexivity. Qed.
Example C116_example_bubble : sequential nat Nat.ltb true false true BUBBLE (plain [[1; 4]; [2; 4]; [3; 3]; []; [0; 4]; [4]]) 7 =
  Some ([0; 1; 2; 3; 3; 4; 4], plain [[]; []; []; []; [4]; [4]]).
Proof. reflexivity. Qed.
Example C116_example_meets : succeeds nat Nat.ltb true (plain [[1; 4]; [2; 4]; [3; 3]; []; [0; 4]; [4]]) 7
  (sequential nat Nat.ltb true false true LOSER_TREE (plain [[1; 4]; [2; 4]; [3; 3]; []; [0; 4]; [4]]) 7).
Proof. apply C116_sequential_merge; [exact nat_sw|now right|repeat constructor|cbn; lia|discriminate]. Qed.
Example C117_example_meets : succeeds nat Nat.ltb false (ended [[1; 4]; [2; 5]; [3; 3]; [0; 6]]) 5
  (sequential nat Nat.ltb false false true LOSER_TREE_COMBINED (ended [[1; 4]; [2; 5]; [3; 3]; [0; 6]]) 5).
Proof. apply C117_combined_partial; [exact nat_sw|now left|repeat constructor|cbn; lia|intros _; repeat constructor; discriminate|cbn; lia]. Qed.
Example C117_example_tree : sequential nat Nat.ltb false false true LOSER_TREE_COMBINED (plain [[1; 4]; [2; 5]; [3; 3]; [0; 6]; [7; 8]]) 6 =
  Some ([0; 1; 2; 3; 3; 4], plain [[]; [5]; []; [6]; [7; 8]]).
Proof. reflexivity. Qed.
Example C118_example : sequential nat Nat.ltb true true false LOSER_TREE_SENTINEL (ended [[5]; [4; 6]; [2]; [3]; [1; 7]]) 4 =
  Some ([1; 2; 3; 4], ended [[5]; [6]; []; []; [7]]).
Proof. reflexivity. Qed.

Print Assumptions C116_sequential_merge.
Print Assumptions C116_clamped.
Print Assumptions C116_all_empty_refuted.
Print Assumptions C116_too_long_refuted.
Print Assumptions C117_combined_partial.
Print Assumptions C117_four_refuted.
Print Assumptions C117_stable_tree_refuted.
Print Assumptions C117_stable_eight_refuted.
Print Assumptions C118_sentinels_partial.
Print Assumptions C118_copied_stable_refuted.
