(** Slices, samples and rows of the parallel multiway mergesort. *)
From Coq Require Import List Bool Arith Lia Permutation Sorted ZArith.
From Verif Require Import OrderLib MultiseqModel MultiseqSpec MultiseqProps MwmergeModel MwmergeSpec Mwmerge ParMergeModel ParMergeSpec ParMerge ParMergeAll ParMergeSplit MwSortModel MwSortSpec.
Import ListNotations.
Open Scope nat_scope.

Lemma skipn_more {X} (l : list X) a b : a <= b -> skipn (b - a) (skipn a l) = skipn b l.
Proof.
  intro H. replace b with (a + (b - a)) at 2 by lia. generalize (b - a) as k. intro k. revert l. induction a as [|a IH]; intro l; [reflexivity|].
  destruct l as [|x l]; [cbn; now rewrite skipn_nil|]. cbn [skipn plus]. apply IH. lia.
Qed.
Fixpoint gaps (c a : nat) (l : list nat) : Prop := match l with [] => True | b :: l => a + c <= b /\ gaps c b l end.
Lemma starts_gaps c s k : forall i start a, start = i * c + Nat.min i s -> a + c <= start + (if Nat.eqb k 0 then 0 else 0) ->
  gaps c a (starts k i c s start ++ [(i + k) * c + Nat.min (i + k) s]).
Proof.
  induction k as [|k IH]; intros i start a Hst Ha; cbn [starts app gaps].
  - rewrite Nat.add_0_r, <- Hst. cbn in Ha. split; [lia|exact I].
  - cbn in Ha. split; [lia|]. replace (i + S k) with (S i + k) by lia. apply IH.
    + destruct (Nat.ltb_spec i s); subst start; cbn [Nat.mul]; lia.
    + destruct (Nat.ltb_spec i s), (Nat.eqb k 0); lia.
Qed.
Lemma equally_split_gaps n k : exists rs, equally_split n (S k) = 0 :: rs /\ gaps (n / S k) 0 rs /\ last rs 0 = n /\ length rs = S k.
Proof.
  unfold equally_split. set (c := n / S k). set (s := n mod S k). cbn [starts app]. eexists. split; [reflexivity|].
  assert (Hn : n = (1 + k) * c + Nat.min (1 + k) s).
  { pose proof (Nat.mod_upper_bound n (S k) ltac:(lia)) as Hu. pose proof (Nat.div_mod n (S k) ltac:(lia)) as E. fold c s in Hu, E. change (1 + k) with (S k). lia. }
  split; [|split; [apply last_last|rewrite app_length, starts_length; cbn; lia]].
  replace [n] with [(1 + k) * c + Nat.min (1 + k) s] by (now rewrite <- Hn). apply starts_gaps; destruct (Nat.ltb_spec 0 s); cbn [Nat.mul]; try lia; destruct (Nat.eqb k 0); lia.
Qed.
Lemma last_cons {X} (l : list X) : forall b a, last (b :: l) a = last l b.
Proof. induction l as [|c l IH]; intros b a; [reflexivity|]. change (last (b :: c :: l) a) with (last (c :: l) a). rewrite !IH. reflexivity. Qed.
Lemma gaps_pairs c l : forall a, gaps c a l -> a <= last l a /\ forall p, In p (combine (a :: l) l) -> fst p + c <= snd p /\ snd p <= last l a.
Proof.
  induction l as [|b l IH]; intros a H; [split; [reflexivity|intros p []]|]. destruct H as (Hb & H). rewrite last_cons. destruct (IH b H) as (H1 & H2).
  split; [lia|]. intros p Hp. change (combine (a :: b :: l) (b :: l)) with ((a, b) :: combine (b :: l) l) in Hp. destruct Hp as [<-|Hp]; [cbn; lia|exact (H2 p Hp)].
Qed.
Lemma fop_app {X} (R : X -> X -> Prop) l1 l2 : ForallOrdPairs R (l1 ++ l2) -> ForallOrdPairs R l2 /\ forall x y, In x l1 -> In y l2 -> R x y.
Proof.
  induction l1 as [|a l1 IH]; intro H; [split; [exact H|intros x y []]|]. cbn [app] in H. inversion H as [|? ? Hall Hrest]; subst. destruct (IH Hrest) as (H1 & H2).
  split; [exact H1|]. intros x y [<-|Hx] Hy; [|exact (H2 x y Hx Hy)]. rewrite Forall_forall in Hall. apply Hall. apply in_app_iff. now right.
Qed.
Lemma fop_concat {X} (R : X -> X -> Prop) ls : ForallOrdPairs R (concat ls) -> forall i j x y, i < j -> In x (nth i ls []) -> In y (nth j ls []) -> R x y.
Proof.
  induction ls as [|l ls IH]; intros H i j x y Hij Hx Hy; [destruct i; contradiction|]. cbn [concat] in H. destruct (fop_app R _ _ H) as (H1 & H2).
  destruct j as [|j]; [lia|]. destruct i as [|i].
  - apply (H2 x y Hx). cbn [nth] in Hy. apply in_concat. exists (nth j ls []). split; [|exact Hy].
    destruct (Nat.lt_ge_cases j (length ls)) as [|Hge]; [apply nth_In; assumption|rewrite nth_overflow in Hy by exact Hge; contradiction].
  - exact (IH H1 i j x y ltac:(lia) Hx Hy).
Qed.

Section Sort.
  Variable A : Type.
  Variable lt : A -> A -> bool.
  Hypothesis SW : strict_weak lt.
  Variable srt : list A -> list A.
  Hypothesis Hsrt : sorts lt srt.
  Notation seqs := (list (list A * list A)).

  Lemma slices_from (l : list A) c rs : forall a, gaps c a rs -> concat (map (slice A l) (combine (a :: rs) rs)) = firstn (last rs a - a) (skipn a l).
  Proof.
    induction rs as [|b rs IH]; intros a H; [cbn; now rewrite Nat.sub_diag|]. destruct H as (Hb & H). rewrite last_cons.
    change (combine (a :: b :: rs) (b :: rs)) with ((a, b) :: combine (b :: rs) rs). cbn [map concat]. rewrite (IH b H). unfold slice. cbn [fst snd].
    destruct (gaps_pairs c rs b H) as (Hlast & _). rewrite (firstn_mid (skipn a l) (b - a) (last rs b - a)) by lia.
    f_equal. rewrite skipn_more by lia. f_equal. lia.
  Qed.
  Lemma slices_ok (l : list A) p : 1 <= p -> concat (slices A l p) = l /\ length (slices A l p) = p /\
    (forall q, In q (neighbours (equally_split (length l) p)) -> fst q + length l / p <= snd q /\ snd q <= length l) /\
    (forall c, In c (slices A l p) -> length l / p <= length c /\ length c <= length l) /\ length (neighbours (equally_split (length l) p)) = p.
  Proof.
    intro Hp. destruct p as [|k]; [lia|]. destruct (equally_split_gaps (length l) k) as (rs & E & G & La & Hlen).
    assert (Hc : concat (slices A l (S k)) = l).
    { unfold slices, neighbours. rewrite E. cbn [tl]. rewrite (slices_from l _ rs 0 G), La, Nat.sub_0_r. cbn [skipn]. apply firstn_all. }
    destruct (gaps_pairs _ _ _ G) as (_ & HP). rewrite La in HP.
    assert (Hn : length (neighbours (equally_split (length l) (S k))) = S k) by (unfold neighbours; rewrite E; cbn [tl]; rewrite combine_length; cbn [length]; lia).
    split; [exact Hc|]. split; [unfold slices; rewrite map_length; exact Hn|]. split; [unfold neighbours; rewrite E; exact HP|]. split; [|exact Hn].
    intros c Hin. unfold slices, neighbours in Hin. rewrite E in Hin. cbn [tl] in Hin. apply in_map_iff in Hin. destruct Hin as ((a, b) & <- & Hin).
    specialize (HP (a, b) Hin). unfold slice. cbn [fst snd] in *. rewrite firstn_length, skipn_length. lia.
  Qed.

  Lemma local_sort_ok stable c : sorted lt (local_sort A lt srt stable c) /\ Permutation (local_sort A lt srt stable c) c /\
    (stable = true -> forall z, filter (equiv A lt z) (local_sort A lt srt stable c) = filter (equiv A lt z) c).
  Proof.
    unfold local_sort. destruct stable.
    - split; [apply (ssort_sorted A lt SW)|]. split; [apply ssort_perm|]. intros _ z. apply (ssort_stable A lt SW).
    - destruct (Hsrt c) as (H1 & H2). split; [exact H2|]. split; [exact H1|]. discriminate.
  Qed.
  Lemma places_fst stable l p : map fst (sorting_places A lt srt stable l p) = map (local_sort A lt srt stable) (slices A l p).
  Proof. unfold sorting_places. rewrite map_map. reflexivity. Qed.
  Lemma concat_sorted stable ls : Permutation (concat (map (local_sort A lt srt stable) ls)) (concat ls) /\
    (stable = true -> forall z, filter (equiv A lt z) (concat (map (local_sort A lt srt stable) ls)) = filter (equiv A lt z) (concat ls)).
  Proof.
    induction ls as [|c ls (IH1 & IH2)]; [split; [constructor|reflexivity]|]. cbn [map concat]. destruct (local_sort_ok stable c) as (_ & H1 & H2). split.
    - apply Permutation_app; assumption.
    - intros Hst z. rewrite !filter_app, (H2 Hst), (IH2 Hst). reflexivity.
  Qed.

    (** sampling *)
    Lemma lower_before v c x : In x (firstn (lower A lt v c) c) -> lt x v = true.
    Proof. induction c as [|y c IH]; cbn [lower]; [intros []|]. destruct (lt y v) eqn:E; [|intros []]. cbn [firstn]. intros [<-|H]; [exact E|exact (IH H)]. Qed.
    Lemma lower_behind v c x : sorted lt c -> In x (skipn (lower A lt v c) c) -> lt x v = false.
    Proof.
      induction c as [|y c IH]; intros Hs; cbn [lower]; [intros []|]. inversion Hs as [|? ? Hs' Hall]; subst. destruct (lt y v) eqn:E.
      - cbn [skipn]. exact (IH Hs').
      - cbn [skipn]. intros [<-|H]; [exact E|]. rewrite Forall_forall in Hall. specialize (Hall x H). unfold le in Hall.
        destruct (lt x v) eqn:Ex; [|reflexivity]. destruct (sw_incomp _ SW x y v Ex); congruence.
    Qed.
    Lemma lower_mono v v' c : le lt v v' -> lower A lt v c <= lower A lt v' c.
    Proof.
      intro H. induction c as [|y c IH]; cbn [lower]; [lia|]. destruct (lt y v) eqn:E; [|lia]. destruct (lt y v') eqn:E'; [lia|].
      unfold le in H. destruct (sw_incomp _ SW y v' v E); congruence.
    Qed.
    Lemma lower_inside v c : lower A lt v c <= length c.
    Proof. induction c as [|y c IH]; cbn [lower length]; [lia|]. destruct (lt y v); lia. Qed.
    Definition lowers (ne : seqs) (v : A) : list nat := map (fun r => lower A lt v (fst r)) ne.
    Lemma lowers_in (ne : seqs) v q : In q (parts (map fst ne) (lowers ne v)) -> exists r, In r ne /\ q = (firstn (lower A lt v (fst r)) (fst r), skipn (lower A lt v (fst r)) (fst r)).
    Proof.
      unfold lowers. induction ne as [|r ne IH]; [intros []|]. cbn [map]. intros [<-|H]; [exists r; split; [now left|reflexivity]|]. destruct (IH H) as (r' & H1 & H2). exists r'. split; [now right|exact H2].
    Qed.
    Lemma good_lowers st (ne : seqs) v : Forall (sorted lt) (map fst ne) -> good A lt st (map fst ne) (lowers ne v).
    Proof.
      intro Hs. rewrite Forall_forall in Hs.
      assert (Hlt : forall q r x y, In q (parts (map fst ne) (lowers ne v)) -> In r (parts (map fst ne) (lowers ne v)) -> In x (fst q) -> In y (snd r) -> lt x y = true).
      { intros q r x y Hq Hr Hx Hy. apply lowers_in in Hq, Hr. destruct Hq as (a & Ha & ->), Hr as (b & Hb & ->). cbn [fst snd] in *.
        apply lower_before in Hx. apply lower_behind in Hy; [|apply Hs; apply in_map; exact Hb]. destruct (sw_incomp _ SW x y v Hx); [assumption|congruence]. }
      split; [|split].
      - unfold lowers. clear. induction ne as [|r ne IH]; cbn [map]; [constructor|]. constructor; [apply lower_inside|exact IH].
      - intros x y Hx Hy. apply in_concat in Hx, Hy. destruct Hx as (c & Hl & Hx), Hy as (c' & Hl' & Hy). apply in_map_iff in Hl, Hl'.
        destruct Hl as (q & <- & Hq), Hl' as (r & <- & Hr). apply (lt_le A lt SW). exact (Hlt q r x y Hq Hr Hx Hy).
      - intros _. apply (fop_of_nth _ _ ([], [])). intros i j Hij x y Hx Hy.
        exact (Hlt _ _ y x (nth_In _ _ (proj2 Hij)) (nth_In _ _ (Nat.lt_trans _ _ _ (proj1 Hij) (proj2 Hij))) Hy Hx).
    Qed.
  Section Places.
    Variables (stable : bool) (l : list A) (p : nat).
    Hypothesis Hp : 1 <= p <= length l.
    Let s := sorting_places A lt srt stable l p.
    Lemma places_length : length s = p.
    Proof. unfold s, sorting_places. rewrite map_length. apply (slices_ok l p ltac:(lia)). Qed.
    Lemma places_sorted : Forall (sorted lt) (map fst s).
    Proof. unfold s. rewrite places_fst. rewrite Forall_forall. intros c Hc. apply in_map_iff in Hc. destruct Hc as (d & <- & _). apply local_sort_ok. Qed.
    Lemma places_total : total s = length l.
    Proof.
      rewrite total_concat. unfold s. rewrite places_fst. rewrite (Permutation_length (proj1 (concat_sorted stable (slices A l p)))).
      now rewrite (proj1 (slices_ok l p ltac:(lia))).
    Qed.
    Lemma places_sizes c : In c (map fst s) -> 0 < length c <= length l.
    Proof.
      unfold s. rewrite places_fst. intro Hc. apply in_map_iff in Hc. destruct Hc as (d & <- & Hd). rewrite (Permutation_length (proj1 (proj2 (local_sort_ok stable d)))).
      destruct (slices_ok l p ltac:(lia)) as (_ & _ & _ & H & _). specialize (H d Hd). assert (1 <= length l / p) by (apply Nat.div_le_lower_bound; lia). lia.
    Qed.
    Lemma places_no_ties : all_different lt l -> no_ties lt (map fst s).
    Proof.
      intro H. unfold all_different in H. rewrite <- (proj1 (slices_ok l p ltac:(lia))) in H.
      assert (Hin : forall i x, In x (nth i (map fst s) []) -> In x (nth i (slices A l p) [])).
      { intros i x Hx. unfold s in Hx. rewrite places_fst in Hx. destruct (Nat.lt_ge_cases i (length (slices A l p))) as [Hi|Hi].
        - rewrite (nth_indep _ [] (local_sort A lt srt stable [])) in Hx by (rewrite map_length; exact Hi). rewrite map_nth in Hx.
          apply (Permutation_in _ (proj1 (proj2 (local_sort_ok stable _))) Hx).
        - rewrite nth_overflow in Hx by (rewrite map_length; exact Hi). contradiction. }
      intros i j x y Hij Hx Hy. apply Hin in Hx, Hy. destruct (Nat.lt_gt_cases i j) as [Hc _]. destruct (Hc Hij) as [C|C].
      - exact (fop_concat _ _ H i j x y C Hx Hy).
      - destruct (fop_concat _ _ H j i y x C Hy Hx); auto.
    Qed.

    (** from rows to the sorted array *)
    Lemma cut_total (ne : seqs) : forall lo hi c, cut ne lo hi = Some c -> total c + list_sum lo <= list_sum hi.
    Proof.
      induction ne as [|(a, b) ne IH]; intros [|o lo] [|o' hi] c H; try discriminate; cbn [cut] in H.
      { injection H as <-. reflexivity. }
      destruct (Nat.leb_spec o o'); [|discriminate]. destruct (cut ne lo hi) as [r|] eqn:E; [|discriminate]. cbn [bind] in H. injection H as <-.
      specialize (IH lo hi r E). unfold total in *. cbn [map fst list_sum fold_right] in *. change (fold_right Nat.add 0) with list_sum in *. rewrite firstn_length. lia.
    Qed.
    Lemma merge_parts copy alg len prs : Forall (fun q => list_sum (snd q) <= len) prs -> forall works,
      map_all (thread A lt stable copy alg s len) prs = Some works -> map_all (merge_part A lt stable copy alg s) prs = Some works.
    Proof.
      induction 1 as [|(lo, hi) prs Hq _ IH]; intros works H; [exact H|]. cbn [map_all] in *. cbn [snd] in Hq.
      destruct (thread A lt stable copy alg s len (lo, hi)) as [y|] eqn:E; [|discriminate]. cbn [bind] in H.
      destruct (map_all (thread A lt stable copy alg s len) prs) as [r|] eqn:Er; [|discriminate]. rewrite (IH r eq_refl).
      enough (E2 : merge_part A lt stable copy alg s (lo, hi) = Some y) by (rewrite E2; exact H).
      unfold thread in E. cbv zeta in E. unfold merge_part. cbn [fst snd] in *. destruct (cut s lo hi) as [c|] eqn:Ec; [|discriminate]. cbn [bind] in *.
      pose proof (cut_total s lo hi c Ec). destruct (Nat.ltb_spec len (list_sum lo)); [discriminate|].
      rewrite Nat.min_l in E by lia. destruct (sequential A lt stable false copy alg c (total c)) as [(o, s')|]; [|discriminate]. cbn [bind] in *. exact E.
    Qed.
    Lemma rows_sort copy alg rows : alg = BUBBLE \/ alg = LOSER_TREE ->
      Forall (good A lt stable (map fst s)) (origin s :: rows) -> Forall (fun b => list_sum b <= length l) rows ->
      chain (alg = LOSER_TREE /\ 5 <= length s) (origin s) rows -> last rows (origin s) = sizes s ->
      sorts_array lt stable l (map_all (merge_part A lt stable copy alg s) (neighbours (origin s :: rows))).
    Proof.
      intros Ha Hg Hsum Hc Hlast. inversion Hg as [|? ? G0 Gr]; subst. destruct (good_origin A lt stable s) as (_ & S0).
      assert (H0 : holds A lt stable (map fst (parts (map fst s) (origin s))) []).
      { pose proof (sum_pre _ _ (proj1 G0)) as E. rewrite S0 in E. unfold holds. destruct (concat (map fst (parts (map fst s) (origin s)))); [|discriminate].
        split; [constructor|]. split; [reflexivity|]. reflexivity. }
      destruct (threads_ok A lt SW stable copy alg s (length l) rows Ha places_sorted (origin s) [] G0 Gr Hsum Hc H0) as (works & Ew & Cw & (W1 & W2 & W3)).
      rewrite Hlast in W2, W3. cbn [app] in *.
      assert (Hall : map fst (parts (map fst s) (sizes s)) = map fst s).
      { unfold parts, sizes. clear. induction s as [|r s' IH]; [reflexivity|]. cbn [map combine fst snd]. rewrite firstn_all. f_equal. exact IH. }
      rewrite Hall in W2, W3.
      assert (Hcc : map fst s = map (local_sort A lt srt stable) (slices A l p)) by (apply places_fst).
      destruct (concat_sorted stable (slices A l p)) as (P1 & P2). rewrite (proj1 (slices_ok l p ltac:(lia))) in P1, P2.
      assert (Hperm : Permutation (concat (map snd works)) l) by (rewrite W2, Hcc; exact P1).
      exists works, (concat (map snd works)). split.
      { apply (merge_parts copy alg (length l)); [|exact Ew]. rewrite Forall_forall in *. intros (lo, hi) Hin. apply in_combine_r in Hin. cbn [snd]. apply Hsum. exact Hin. }
      split; [exact W1|]. split; [exact Hperm|]. split; [intros Hst z; rewrite (W3 Hst), Hcc; apply P2; exact Hst|].
      intros w Hw i. rewrite S0 in Cw. rewrite (target_ok works Cw w Hw (nth_error l) i). destruct (Nat.ltb_spec i (length (concat (map snd works)))) as [|Hi]; [reflexivity|].
      assert (E1 : nth_error l i = None) by (apply nth_error_None; rewrite <- (Permutation_length Hperm); exact Hi). rewrite E1. symmetry. apply nth_error_None. exact Hi.
    Qed.
    Lemma last_end {X} (inner : list X) e a : last (inner ++ [e]) a = e.
    Proof. apply last_last. Qed.

    Lemma exact_pieces_eq : exact_pieces A lt l s p = exact_splitting A lt s (length l) (total s) p.
    Proof. unfold exact_pieces, exact_splitting. rewrite places_total, Nat.eqb_refl. cbv zeta. reflexivity. Qed.
    Lemma exact_pieces_last rows : exact_pieces A lt l s p = Some (origin s :: rows) -> last rows (origin s) = sizes s.
    Proof. unfold exact_pieces. destruct (map_all _ _) as [inner|]; [|discriminate]. cbn [bind]. intro H. injection H as <-. apply last_last. Qed.

    Lemma samples_ok q : In q (neighbours (equally_split (length l) p)) -> 10 * p <= length l / p ->
      exists sm, determine_samples A l (10 * p - 1) q = Some sm /\ length sm = 10 * p - 1.
    Proof.
      intros Hq Hn. destruct (slices_ok l p ltac:(lia)) as (_ & _ & H & _). destruct (H q Hq) as (H1 & H2).
      destruct q as (a, b). cbn [fst snd] in *. unfold determine_samples. cbn [fst snd]. replace (10 * p - 1 + 1) with (S (10 * p - 1)) by lia.
      destruct (equally_split_ok (b - a) (10 * p - 1) True) as (inner & E & Hk & Hasc); [lia|]. rewrite E. cbn [tl].
      rewrite firstn_app, Hk, Nat.sub_diag. cbn [firstn]. rewrite app_nil_r. rewrite (firstn_all2 inner) by lia.
      assert (Hin : forall e, In e inner -> e < b - a).
      { clear -Hasc. assert (G : forall inner0 a0, asc True a0 (inner0 ++ [b - a]) -> a0 < b - a /\ forall e, In e inner0 -> e < b - a).
        { induction inner0 as [|x inner0 IH]; intros a0 H; cbn [app asc] in H; destruct H as (_ & Hs & H).
          - split; [exact (Hs I)|intros e []].
          - destruct (IH x H) as (Hx & He). split; [specialize (Hs I); lia|]. intros e [<-|Hin]; [exact Hx|exact (He e Hin)]. }
        exact (proj2 (G inner 0 Hasc)). }
      destruct (map_all_ok (fun e => nth_error l (a + e)) (fun _ _ => True) inner) as (sm & Es & Fs).
      { intros e He. specialize (Hin e He). destruct (nth_error l (a + e)) as [x|] eqn:Ex; [exists x; auto|apply nth_error_None in Ex; lia]. }
      exists sm. split; [exact Es|]. rewrite <- Hk. clear -Fs. induction Fs; cbn; congruence.
    Qed.
    Lemma sampling_pieces_ok : 10 * p <= length l / p ->
      exists rows, sampling_pieces A lt srt l s p = Some (origin s :: rows) /\ Forall (good A lt stable (map fst s)) (origin s :: rows) /\
        Forall (fun b => list_sum b <= length l) rows /\ chain False (origin s) rows /\ last rows (origin s) = sizes s.
    Proof.
      intro Hn. unfold sampling_pieces. cbv zeta. destruct (slices_ok l p ltac:(lia)) as (_ & _ & _ & _ & Hnb).
      destruct (map_all_ok (determine_samples A l (10 * p - 1)) (fun _ sm => length sm = 10 * p - 1) (neighbours (equally_split (length l) p))) as (sm & Es & Fs).
      { intros q Hq. exact (samples_ok q Hq Hn). }
      rewrite Es. cbn [bind]. set (sa := srt (concat sm)). destruct (Hsrt (concat sm)) as (Pa & Sa). fold sa in Pa, Sa.
      assert (Hlen : length sa = (10 * p - 1) * p).
      { rewrite (Permutation_length Pa). rewrite <- Hnb at 2. clear -Fs. induction Fs as [|q c qs cs H _ IH]; [cbn; lia|]. cbn [concat length]. rewrite app_length, IH, H. lia. }
      destruct (map_all_ok (fun slab => v <- nth_error sa ((10 * p - 1) * slab) ;; Some (map (fun r => lower A lt v (fst r)) s))
        (fun slab b => exists v, nth_error sa ((10 * p - 1) * slab) = Some v /\ b = lowers s v) (seq 1 (p - 1))) as (inner & Ei & Fi).
      { intros slab Hsl. apply in_seq in Hsl. assert (Hidx : (10 * p - 1) * slab < length sa) by (rewrite Hlen; apply Nat.mul_lt_mono_pos_l; lia).
        destruct (nth_error sa ((10 * p - 1) * slab)) as [v|] eqn:E; [|apply nth_error_None in E; lia]. exists (lowers s v). split; [reflexivity|]. exists v. split; reflexivity. }
      rewrite Ei. cbn [bind]. exists (inner ++ [sizes s]). split; [reflexivity|].
      destruct (good_origin A lt stable s) as (G0 & S0). destruct (good_sizes A lt stable s) as (G1 & S1). pose proof places_sorted as Hs.
      assert (Hup : forall b, inside (map fst s) b -> Forall2 Nat.le b (sizes s)).
      { unfold sizes. clear. induction s as [|r ne IH]; intros b Hb; inversion Hb; subst; cbn [map]; [constructor|]. constructor; [assumption|auto]. }
      assert (Hz : forall b, inside (map fst s) b -> Forall2 Nat.le (origin s) b).
      { unfold origin. clear. induction s as [|r ne IH]; intros b Hb; inversion Hb; subst; cbn [map]; [constructor|]. constructor; [apply Nat.le_0_l|auto]. }
      assert (Hgi : Forall (good A lt stable (map fst s)) inner).
      { rewrite Forall_forall. intros b Hb. clear -Fi Hs SW Hb. induction Fi as [|k b' ks bs (v & _ & ->) _ IH]; [contradiction|]. destruct Hb as [<-|Hb]; [apply good_lowers; exact Hs|exact (IH Hb)]. }
      assert (Hg : Forall (good A lt stable (map fst s)) (inner ++ [sizes s])) by (apply Forall_app; split; [exact Hgi|constructor; [exact G1|constructor]]).
      split; [constructor; assumption|]. split.
      { rewrite Forall_forall in *. intros b Hb. rewrite <- places_total, <- S1. apply sum_le. apply Hup. apply (Hg b Hb). }
      split; [|apply last_last].
      assert (Hch : forall n a inner b, Forall2 (fun slab b => exists v, nth_error sa ((10 * p - 1) * slab) = Some v /\ b = lowers s v) (seq a n) inner ->
        inside (map fst s) b -> (forall v, nth_error sa ((10 * p - 1) * a) = Some v -> Forall2 Nat.le b (lowers s v)) -> chain False b (inner ++ [sizes s])).
      { induction n as [|n IH]; intros a inn b F Hb Hnext; cbn [seq] in F; inversion F as [|? b' ? inn' (v & Ev & Eb) F']; subst; cbn [app chain].
        - split; [apply Hup; exact Hb|]. split; [intros []|exact I].
        - split; [apply Hnext; exact Ev|]. split; [intros []|]. apply (IH (S a)); [exact F'|apply (good_lowers false s v Hs)|].
          intros v' Ev'. assert (Hvv : le lt v v') by (apply (sorted_nth_le A lt SW sa Sa ((10 * p - 1) * a) ((10 * p - 1) * S a)); [apply Nat.mul_le_mono_l; lia|exact Ev|exact Ev']).
          unfold lowers. clear -Hvv SW. induction s as [|r ne IH]; cbn [map]; [constructor|]. constructor; [apply lower_mono; exact Hvv|exact IH]. }
      apply (Hch (p - 1) 1); [exact Fi|apply G0|]. intros v _. apply Hz. apply (good_lowers false s v Hs).
    Qed.
  End Places.
End Sort.
