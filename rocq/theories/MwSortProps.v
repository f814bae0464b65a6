(** C122, C123: parallel multiway mergesort. *)
From Coq Require Import List Bool Arith Lia Permutation Sorted ZArith.
From Verif Require Import OrderLib MultiseqModel MultiseqSpec MultiseqProps MwmergeModel MwmergeSpec Mwmerge MwmergeProps ParMergeModel ParMergeSpec ParMerge ParMergeAll ParMergeSplit ParMergeProps MwSortModel MwSortSpec MwSort.
Import ListNotations.
Open Scope nat_scope.

Section C.
  Variable A : Type.
  Variable lt : A -> A -> bool.
  Hypothesis SW : strict_weak lt.
  Variable srt : list A -> list A.
  Hypothesis Hsrt : sorts lt srt.

  Lemma short_sorted stable (l : list A) : length l <= 1 -> sorts_array lt stable l (Some []).
  Proof.
    intro H. exists [], l. split; [reflexivity|]. split; [destruct l as [|x [|y l]]; [constructor|repeat constructor|cbn in H; lia]|]. split; [apply Permutation_refl|].
    split; [reflexivity|]. intros w Hw i. cbn in Hw. apply Permutation_sym, Permutation_nil in Hw. subst w. reflexivity.
  Qed.
  Lemma chain_weaken (P Q : Prop) rows : (Q -> P) -> forall a, chain P a rows -> chain Q a rows.
  Proof. intro H. induction rows as [|b rows IH]; intros a Hc; [exact I|]. destruct Hc as (H1 & H2 & H3). split; [exact H1|]. split; [intro q; exact (H2 (H q))|exact (IH b H3)]. Qed.

  (** C122: exact splitting.
      Missing: equivalent elements, except for two threads and not stable.  Refuted below. *)
  Theorem C122_exact_partial stable copy alg threads l : alg = BUBBLE \/ alg = LOSER_TREE -> 1 <= threads -> (Z.of_nat (length l) < 2 ^ 62)%Z ->
    all_different lt l \/ (stable = false /\ threads <= 2) ->
    sorts_array lt stable l (mwms A lt srt stable copy alg (exact_pieces A lt) threads l).
  Proof.
    intros Ha Ht Hfit Hd. unfold mwms. destruct (Nat.leb_spec (length l) 1) as [|Hl]; [apply short_sorted; assumption|]. cbv zeta.
    set (p := Nat.min threads (length l)). assert (Hp : 1 <= p <= length l) by (unfold p; lia). set (s := sorting_places A lt srt stable l p).
    pose proof (places_total A lt SW srt Hsrt stable l p Hp) as Htot. fold s in Htot.
    destruct (exact_rows A lt SW stable (alg = LOSER_TREE /\ 5 <= length s) s (length l) p) as (rows & E & G & Su & Ch & _).
    - exact (places_sorted A lt SW srt Hsrt stable l p).
    - unfold lengths_fit. rewrite Forall_forall. intros c Hc. pose proof (places_sizes A lt SW srt Hsrt stable l p Hp c Hc). lia.
    - rewrite Htot. lia.
    - lia.
    - intro Hst. destruct Hd as [Hd|(C & _)]; [|congruence]. apply (places_no_ties A lt SW srt Hsrt stable l p Hp Hd).
    - intros _. lia.
    - left. symmetry. exact Htot.
    - destruct Hd as [Hd|(_ & Hd)]; [left; apply (places_no_ties A lt SW srt Hsrt stable l p Hp Hd)|right]. split; [symmetry; exact Htot|unfold p; lia].
    - assert (E2 : exact_pieces A lt l s p = Some (origin s :: rows)).
      { unfold s. rewrite (exact_pieces_eq A lt SW srt Hsrt stable l p Hp). exact E. }
      rewrite E2. cbn [bind]. apply (rows_sort A lt SW srt Hsrt stable l p Hp copy alg rows Ha G Su Ch). exact (exact_pieces_last A lt srt stable l p rows E2).
  Qed.

  (** C123: sampling, equivalent elements included.
      Missing: arrays too short for the samples, five or more threads with loser trees.  Both are refuted below. *)
  Theorem C123_sampling_partial stable copy alg threads l : alg = BUBBLE \/ (alg = LOSER_TREE /\ threads <= 4) -> 1 <= threads ->
    10 * threads * threads <= length l ->
    sorts_array lt stable l (mwms A lt srt stable copy alg (sampling_pieces A lt srt) threads l).
  Proof.
    intros Ha Ht Hlen. unfold mwms. destruct (Nat.leb_spec (length l) 1) as [|Hl]; [apply short_sorted; assumption|]. cbv zeta.
    assert (Ep : Nat.min threads (length l) = threads) by (apply Nat.min_l; nia). rewrite Ep. assert (Hp : 1 <= threads <= length l) by lia.
    set (s := sorting_places A lt srt stable l threads).
    destruct (sampling_pieces_ok A lt SW srt Hsrt stable l threads Hp) as (rows & E & G & Su & Ch & La).
    { apply Nat.div_le_lower_bound; nia. }
    fold s in E, G, Ch, La. rewrite E. cbn [bind].
    apply (rows_sort A lt SW srt Hsrt stable l threads Hp copy alg rows); [destruct Ha as [|(? & _)]; auto|exact G|exact Su| |exact La].
    apply (chain_weaken False); [|exact Ch]. intros (Hlt & H5). fold s in H5. unfold s in H5. rewrite (places_length A lt srt stable l threads Hp) in H5. destruct Ha as [|(_ & Ha)]; [congruence|lia].
  Qed.
End C.

Example C122_example : sorts_array Nat.ltb true [8; 3; 9; 1; 7; 0; 5; 2; 6; 4] (mwms nat Nat.ltb (ssort Nat.ltb) true false LOSER_TREE (exact_pieces nat Nat.ltb) 3 [8; 3; 9; 1; 7; 0; 5; 2; 6; 4]) /\
  mwms nat Nat.ltb (ssort Nat.ltb) true false LOSER_TREE (exact_pieces nat Nat.ltb) 3 [8; 3; 9; 1; 7; 0; 5; 2; 6; 4] = Some [(0, [0; 1; 2; 3]); (4, [4; 5; 6]); (7, [7; 8; 9])].
Proof.
  split; [|vm_compute; reflexivity].
  apply C122_exact_partial; [exact nat_sw| |now right|lia|reflexivity|left; unfold all_different; repeat first [apply FOP_cons | apply FOP_nil | apply Forall_cons | apply Forall_nil | left; reflexivity | right; reflexivity]].
  intro l. split; [apply ssort_perm|apply (ssort_sorted nat Nat.ltb nat_sw)].
Qed.
Example C123_example : let l := repeat 7 20 ++ rev (seq 0 20) in
  sorts_array Nat.ltb true l (mwms nat Nat.ltb (ssort Nat.ltb) true false LOSER_TREE (sampling_pieces nat Nat.ltb (ssort Nat.ltb)) 2 l) /\
  exists a b, mwms nat Nat.ltb (ssort Nat.ltb) true false LOSER_TREE (sampling_pieces nat Nat.ltb (ssort Nat.ltb)) 2 l = Some [(0, a); (7, b)].
Proof.
  intro l. split; [|eexists; eexists; vm_compute; reflexivity].
  apply C123_sampling_partial; [exact nat_sw| |right; split; [reflexivity|lia]|lia|cbn; lia].
  intro c. split; [apply ssort_perm|apply (ssort_sorted nat Nat.ltb nat_sw)].
Qed.

(** equal elements: a thread gets a part whose end lies before its beginning *)
Theorem C122_ties_refuted : exists (l : list nat) threads, forall srt stable copy alg, (forall x k, srt (repeat x k) = repeat x k) ->
  mwms nat Nat.ltb srt stable copy alg (exact_pieces nat Nat.ltb) threads l = None.
Proof.
  exists (repeat 7 14), 3. intros srt stable copy alg H. unfold mwms. change (length (repeat 7 14) <=? 1) with false. cbv iota zeta. change (Nat.min 3 (length (repeat 7 14))) with 3.
  assert (E : sorting_places nat Nat.ltb srt stable (repeat 7 14) 3 = [(repeat 7 5, []); (repeat 7 5, []); (repeat 7 4, [])]).
  { unfold sorting_places, local_sort. change (slices nat (repeat 7 14) 3) with [repeat 7 5; repeat 7 5; repeat 7 4]. cbn [map]. destruct stable; [reflexivity|]. rewrite !H. reflexivity. }
  rewrite E. set (r := exact_pieces _ _ _ _ _). vm_compute in r. subst r. cbn [bind]. destruct stable, copy, alg; vm_compute; reflexivity.
Qed.
Lemma same_cells {X} (a : list X) : forall b, (forall i, nth_error a i = nth_error b i) -> a = b.
Proof.
  induction a as [|x a IH]; intros [|y b] H; [reflexivity|specialize (H 0); discriminate|specialize (H 0); discriminate|].
  pose proof (H 0) as H0. injection H0 as <-. f_equal. apply IH. intro i. exact (H (S i)).
Qed.
(** two threads, stable: equivalent elements change their order *)
Theorem C122_stable_refuted : exists (l : list (nat * nat)) works threads, forall srt copy,
  mwms (nat * nat) by_key srt true copy LOSER_TREE (exact_pieces (nat * nat) by_key) threads l = Some works /\
  ~ sorts_array by_key true l (Some works).
Proof.
  exists [(0, 0); (0, 1); (0, 2); (1, 3); (0, 4); (0, 5); (0, 6)]. eexists. exists 2. intros srt copy. split; [destruct copy; vm_compute; reflexivity|].
  intros (works & out & E & _ & _ & Hst & Hw). injection E as <-. specialize (Hst eq_refl (0, 0)). specialize (Hw _ (Permutation_refl _)).
  assert (Eo : out = [(0, 0); (0, 1); (0, 4); (0, 5); (0, 2); (0, 6); (1, 3)]).
  { apply same_cells. intro i. rewrite <- Hw. do 7 (destruct i as [|i]; [vm_compute; reflexivity|]). cbn. destruct i; reflexivity. }
  rewrite Eo in Hst. vm_compute in Hst. discriminate Hst.
Qed.
(** an array too short for the samples: they are read past its end *)
Theorem C123_short_refuted : exists (l : list nat) threads, forall srt stable copy alg,
  mwms nat Nat.ltb srt stable copy alg (sampling_pieces nat Nat.ltb srt) threads l = None.
Proof.
  exists [3; 2; 1; 0], 2. intros srt stable copy alg. unfold mwms. change (length [3; 2; 1; 0] <=? 1) with false. cbv iota zeta.
  unfold sampling_pieces. cbv zeta. set (r := map_all (determine_samples nat _ _) _). vm_compute in r. subst r. reflexivity.
Qed.
(** equal elements and five threads: a loser tree of empty sequences *)
Theorem C123_equal_refuted : exists (l : list nat) threads, 10 * threads * threads <= length l /\ forall srt stable, (forall x k, srt (repeat x k) = repeat x k) ->
  mwms nat Nat.ltb srt stable false LOSER_TREE (sampling_pieces nat Nat.ltb srt) threads l = None.
Proof.
  exists (repeat 7 250), 5. split; [apply Nat.leb_le; vm_compute; reflexivity|]. intros srt stable H. unfold mwms.
  assert (Hl : length (repeat 7 250) = 250) by apply repeat_length. rewrite Hl. change (250 <=? 1) with false. cbv iota zeta. change (Nat.min 5 250) with 5.
  assert (E : sorting_places nat Nat.ltb srt stable (repeat 7 250) 5 = repeat (repeat 7 50, []) 5).
  { unfold sorting_places, local_sort. assert (Es : slices nat (repeat 7 250) 5 = repeat (repeat 7 50) 5) by (vm_compute; reflexivity). rewrite Es. cbn [repeat map].
    destruct stable; [vm_compute; reflexivity|]. change (srt [7; 7; 7; 7; 7; 7; 7; 7; 7; 7; 7; 7; 7; 7; 7; 7; 7; 7; 7; 7; 7; 7; 7; 7; 7; 7; 7; 7; 7; 7; 7; 7; 7; 7; 7; 7; 7; 7; 7; 7; 7; 7; 7; 7; 7; 7; 7; 7; 7; 7]) with (srt (repeat 7 50)).
    rewrite !H. reflexivity. }
  rewrite E. unfold sampling_pieces. cbv zeta. rewrite Hl.
  assert (Em : map_all (determine_samples nat (repeat 7 250) (10 * 5 - 1)) (neighbours (equally_split 250 5)) = Some (repeat (repeat 7 49) 5)) by (vm_compute; reflexivity).
  rewrite Em. cbn [bind]. replace (concat (repeat (repeat 7 49) 5)) with (repeat 7 245) by (vm_compute; reflexivity). rewrite H. destruct stable; vm_compute; reflexivity.
Qed.

Print Assumptions C122_exact_partial.
Print Assumptions C122_ties_refuted.
Print Assumptions C122_stable_refuted.
Print Assumptions C123_sampling_partial.
Print Assumptions C123_short_refuted.
Print Assumptions C123_equal_refuted.
