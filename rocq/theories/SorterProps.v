(** C50, C71: stxxl::sorter.  C69: stream::sort.  C70: merging of presorted sequences (runs_creator<from_sorted_sequences>, runs_merger). *)
From Coq Require Import List Bool Arith Lia Permutation Sorted.
From Verif Require Import SumLib OrderLib SortModel SortSpec SortProofs SortProps SorterModel SorterSpec SorterProofs MergeFactorModel MergeFactorProps.
Import ListNotations.

Section Theorems.
  Variable A : Type.
  Variable cmp : A -> A -> bool.
  Variable maxv : A.
  Variable srt : list A -> list A.
  Variable B : nat.
  Variable fresh : nat -> list nat -> nat -> list nat.
  Variable mf : nat -> nat -> nat.
  Variable D raw : nat.

  (** a strict weak order, std::sort, the block manager, and optimal_merge_factor(n, m) between 2 and m for n > m *)
  Definition environment : Prop :=
    strict_weak cmp /\ sorts cmp srt /\ 0 < B /\ allocates managed fresh /\ 0 < raw /\ (forall n m, 2 <= m -> m < n -> 2 <= mf n m <= m).
  (** the requirement on max_value() *)
  Definition no_greater (x : A) : Prop := cmp x maxv = true \/ x = maxv.
  Notation enough fac mem1 := (2 * raw * fac <= mem1).

  Lemma half fac mem1 : 0 < raw -> 0 < fac -> enough fac mem1 -> 0 < blocks_per_half raw fac mem1.
  Proof.
    intros H1 H2 H3. unfold blocks_per_half. rewrite !Nat.div_div by lia. apply Nat.div_str_pos. nia.
  Qed.

  (** Every sequence of operations shows what the bag shows, except for size() after finish() and finish_clear() before sort();
      the sorter frees its blocks and does not touch the blocks of others. *)
  Theorem C50_sorter fac mem1 mem2 os s : environment -> 0 < fac -> enough fac mem1 -> NoDup (s_live s) -> (forall x, In (Push x) os -> no_greater x) ->
    shows cmp D raw deviates (tidy s) (mkb [] Filling mem2) os (use_sorter A cmp maxv srt B fresh mf D raw fac mem1 mem2 os s).
  Proof.
    intros (E1 & E2 & E3 & E4 & E5 & E6) F1 F2 N H. unfold use_sorter. rewrite (proj2 (Nat.leb_le _ _) F2).
    apply run_ops_ok; try assumption.
    - apply half; assumption.
    - split.
      + split; [reflexivity|]. split; [reflexivity|]. split; [cbn; lia|]. split; [constructor|]. split; [reflexivity|].
        exists []. split; [apply sr_ok_empty|]. split; [constructor|reflexivity].
      + split; [exact (live_inv A s N)|]. split; reflexivity.
    - intros b _. reflexivity.
  Qed.

  (** the usual case: push everything, sort, read everything *)
  Theorem C50_push_sort_read fac mem1 mem2 l s : environment -> 0 < fac -> enough fac mem1 -> (4 * D + 3) * raw <= mem2 -> NoDup (s_live s) -> Forall no_greater l ->
    exists out t s', Permutation l out /\ sorted cmp out /\ tidy s t s' /\
      use_sorter A cmp maxv srt B fresh mf D raw fac mem1 mem2 (map Push l ++ [Size; Sort] ++ flat_map (fun _ => [Empty; Get; Next]) l ++ [Empty]) s =
      (map (fun _ => Nothing) l ++ [Number (length l); Nothing] ++ flat_map (fun x => [Yes_no false; Item x; Nothing]) out ++ [Yes_no true], Ends t s').
  Proof.
    intros E F1 F2 F3 N H. set (tail := [Size; Sort] ++ flat_map (fun _ : A => [Empty; Get; Next]) l ++ [Empty]).
    assert (forall x, In (Push x) (map Push l ++ tail) -> no_greater x) as HP.
    { intros x Hx. apply in_app_or in Hx. destruct Hx as [Hx|Hx].
      - apply in_map_iff in Hx. destruct Hx as (y & Ey & Hy). injection Ey as ->. rewrite Forall_forall in H. apply H, Hy.
      - exfalso. unfold tail in Hx. apply in_app_or in Hx. destruct Hx as [[Hx|[Hx|[]]]|Hx]; try discriminate.
        apply in_app_or in Hx. destruct Hx as [Hx|[Hx|[]]]; [|discriminate]. apply in_flat_map in Hx. destruct Hx as (y & _ & [X|[X|[X|[]]]]); discriminate. }
    pose proof (C50_sorter fac mem1 mem2 (map Push l ++ tail) s E F1 F2 N HP) as S. clear HP.
    destruct (use_sorter A cmp maxv srt B fresh mf D raw fac mem1 mem2 (map Push l ++ tail) s) as [vs e].
    assert (forall l0 l1 vs, shows cmp D raw deviates (tidy s) (mkb l0 Filling mem2) (map Push l1 ++ tail) (vs, e) ->
              exists vs', vs = map (fun _ => Nothing) l1 ++ vs' /\ shows cmp D raw deviates (tidy s) (mkb (l0 ++ l1) Filling mem2) tail (vs', e)) as W.
    { clear S vs. intros l0 l1. revert l0. induction l1 as [|x l1 IH]; intros l0 vs S; [exists vs; rewrite app_nil_r; auto|].
      cbn [map app] in S. inversion S as [|? ? v b' ? vs1 ? X Y|? ? ? [X|[X|X]] ?|? ? ? ? X|? ? ? ? ? ? ? X Y]; subst; try discriminate.
      - inversion X; subst. destruct (IH _ _ Y) as (vs' & -> & Z). exists vs'. rewrite <- app_assoc in Z. auto.
      - exfalso. eapply X, n_push.
      - inversion X. }
    destruct (W [] l vs S) as (vs' & -> & S1). clear W S. cbn [app] in S1. unfold tail in S1. cbn [app] in S1.
    inversion S1 as [|? ? v b' ? vs1 ? X Y|? ? ? [X|[X|X]] ?|? ? ? ? X|? ? ? ? ? ? ? X Y]; subst; try discriminate.
    2: { exfalso. eapply X, n_size_in. auto. }
    2: inversion X.
    inversion X; subst. clear X S1. clear tail.
    inversion Y as [|? ? v b' ? vs2 ? X Z|? ? ? X Hl|? ? ? ? X|? ? ? ? ? ? ? X Z]; subst; try discriminate.
    2: { unfold little in Hl. cbn in Hl. lia. }
    2: { exfalso. apply (X Nothing (mkb l (Reading (srt l)) mem2)), n_sort. destruct E as (E1 & E2 & _). split; [apply Permutation_sym, E2|apply E2]. }
    2: inversion X.
    inversion X; subst. clear X Y. match goal with H : is_sorted_of cmp l _ |- _ => destruct H as [P So] end. rename l0 into out.
    assert (forall l1 l2 vs, length l2 = length l1 -> shows cmp D raw deviates (tidy s) (mkb l (Reading l2) mem2) (flat_map (fun _ : A => [Empty; Get; Next]) l1 ++ [Empty]) (vs, e) ->
              exists t s', tidy s t s' /\ e = Ends t s' /\ vs = flat_map (fun x => [Yes_no false; Item x; Nothing]) l2 ++ [Yes_no true]) as W.
    { clear. induction l1 as [|x l1 IH]; intros [|y l2] vs Hl S; try discriminate; cbn [flat_map app] in *.
      - inversion S as [|? ? v b' ? vs1 ? X Y|? ? ? [X|[X|X]] ?|? ? ? ? X|? ? ? ? ? ? ? X Y]; subst; try discriminate.
        + inversion X; subst. inversion Y; subst. eexists _, _. split; [eassumption|]. split; reflexivity.
        + exfalso. eapply X, n_empty.
        + inversion X.
      - inversion S as [|? ? v b' ? vs1 ? X Y|? ? ? [X|[X|X]] ?|? ? ? ? X|? ? ? ? ? ? ? X Y]; subst; try discriminate;
          [|exfalso; eapply X, n_empty|inversion X]. inversion X; subst. clear X S. rename Y into S.
        inversion S as [|? ? v b' ? vs2 ? X Y|? ? ? [X|[X|X]] ?|? ? ? ? X|? ? ? ? ? ? ? X Y]; subst; try discriminate;
          [|exfalso; eapply X, n_get|inversion X]. inversion X; subst. clear X S. rename Y into S.
        inversion S as [|? ? v b' ? vs3 ? X Y|? ? ? [X|[X|X]] ?|? ? ? ? X|? ? ? ? ? ? ? X Y]; subst; try discriminate;
          [|exfalso; eapply X, n_next|inversion X]. inversion X; subst. clear X S.
        injection Hl as Hl. destruct (IH l2 vs3 Hl Y) as (t & s' & W1 & W2 & ->). exists t, s'. auto. }
    destruct (W l out vs2) as (t & s' & W1 & -> & ->); [symmetry; apply Permutation_length, P|exact Z|].
    exists out, t, s'. auto.
  Qed.

  (** stream::sort delivers the sorted input and frees what it allocated *)
  Theorem C69_stream_sort m2 mem l s : environment -> 0 < m2 -> (4 * D + 3) * raw <= mem -> NoDup (s_live s) -> Forall no_greater l ->
    exists out s', stream_sort A cmp maxv srt B fresh mf D raw m2 mem l s = Val (out, s') /\ Permutation l out /\ sorted cmp out /\
      Permutation (s_live s) (s_live s') /\ forall b, In b (s_live s) -> s_disk s' b = s_disk s b.
  Proof.
    intros (E1 & E2 & E3 & E4 & E5 & E6) Hm F N H.
    destruct (stream_sort_ok A cmp maxv srt B fresh mf D raw E1 E2 E3 E4 E5 m2 Hm l s mem E6 N H) as [(_ & X)|(out & s' & X & [P So] & Y & Z)]; [unfold little in X; lia|].
    exists out, s'. auto.
  Qed.
  (** presorted sequences (empty ones too) are merged *)
  Theorem C70_merge_sequences mem ls s : environment -> (4 * D + 3) * raw <= mem -> NoDup (s_live s) -> Forall (fun l => Forall no_greater l /\ sorted cmp l) ls ->
    exists out s', merge_sequences A cmp maxv B fresh mf D raw mem ls s = Val (out, s') /\ Permutation (concat ls) out /\ sorted cmp out /\
      Permutation (s_live s) (s_live s') /\ forall b, In b (s_live s) -> s_disk s' b = s_disk s b.
  Proof.
    intros (E1 & E2 & E3 & E4 & E5 & E6) F N H.
    destruct (merge_sequences_ok A cmp maxv B fresh mf D raw E1 E3 E4 E5 1 Nat.lt_0_1 ls s mem E6 N H) as [(_ & X)|(out & s' & X & [P So] & Y & Z)]; [unfold little in X; lia|].
    exists out, s'. auto.
  Qed.
End Theorems.

(** * Examples: blocks of two numbers, one disk *)
Lemma ex_senv : environment nat Nat.ltb ex_srt 2 ex_fresh merge_factor 2.
Proof.
  destruct ex_env as (E1 & E2 & E3 & E4 & E5). split; [exact E1|]. split; [exact E2|]. split; [exact E3|]. split; [|split; [lia|intros n m H1 H2; apply C72_merge_factor; assumption]].
  intros c live n. destruct (E4 c live n) as (F1 & F2 & F3). split; [exact F1|]. split; [exact F2|]. intros b Hb. split; [apply F3, Hb|reflexivity].
Qed.
Definition ex_use (mem2 : nat) := use_sorter nat Nat.ltb 99 ex_srt 2 ex_fresh merge_factor 1 2 1 4 mem2.
Definition ex_s0 : st nat := mks ex_disk [7; 101] 0.
Definition ex_nine := [8; 3; 9; 1; 7; 99; 2; 5; 3].
(** five runs, merged with arity two: three rounds *)
Definition ex_ops := map Push ex_nine ++ [Size; Sort; Get; Next; Get; Next; Size; Rewind; Get; Finish; Rewind; Next; Get; Clear; Size; Push 4; Sort_reuse; Get; Next; Empty].
Example C50_example : fst (ex_use 14 ex_ops ex_s0) =
  map (fun _ => Nothing) ex_nine ++ [Number 9; Nothing; Item 1; Nothing; Item 2; Nothing; Number 7; Nothing; Item 1; Nothing; Nothing; Nothing; Item 2; Nothing;
    Number 0; Nothing; Nothing; Item 4; Nothing; Yes_no true].
Proof. vm_compute. reflexivity. Qed.
Example C50_example_meets : 2 * 2 * 1 <= 4 /\ NoDup (s_live ex_s0) /\ forall x, In (Push x) ex_ops -> no_greater nat Nat.ltb 99 x.
Proof.
  split; [lia|]. split; [repeat constructor; cbn; intuition lia|]. intros x H. cbn in H.
  repeat (destruct H as [H|H]; [try discriminate; injection H as <-; unfold no_greater; cbn; auto|]). destruct H.
Qed.
(** too little memory for merging five runs *)
Example C50_example_throws : ex_use 13 (map Push ex_nine ++ [Sort]) ex_s0 = (map (fun _ => Nothing) ex_nine, Throws).
Proof. vm_compute. reflexivity. Qed.
Example C69_example :
  match stream_sort nat Nat.ltb 99 ex_srt 2 ex_fresh merge_factor 1 2 1 14 ex_nine ex_s0 with
  | Val (out, s) => out = [1; 2; 3; 3; 5; 7; 8; 9; 99] /\ s_live s = [7; 101] | _ => False end.
Proof. vm_compute. auto. Qed.
Example C70_example :
  match merge_sequences nat Nat.ltb 99 2 ex_fresh merge_factor 1 2 14 [[1; 5; 7]; []; [2; 4]; [6]; [0; 3; 8; 99; 99]] ex_s0 with
  | Val (out, s) => out = [0; 1; 2; 3; 4; 5; 6; 7; 8; 99; 99] /\ s_live s = [7; 101] | _ => False end.
Proof. vm_compute. auto. Qed.

(** * The exceptions are there *)
(** push, finish(), size(): the last run is counted twice *)
Theorem C71_size_refuted : exists os, (forall x, In (Push x) os -> no_greater nat Nat.ltb 99 x) /\
  ~ shows Nat.ltb 1 2 exactly (tidy ex_s0) (mkb [] Filling 14) os (ex_use 14 os ex_s0).
Proof.
  exists [Push 5; Finish; Size]. split.
  - intros x [H|[H|[H|[]]]]; try discriminate. injection H as <-. left. reflexivity.
  - intro S. match type of S with shows _ _ _ _ _ _ _ (?vs, ?e) => idtac | _ => destruct (ex_use 14 [Push 5; Finish; Size] ex_s0) as [vs e] eqn:E end.
    assert (vs = [Nothing; Nothing; Number 2]) as -> by (transitivity (fst (vs, e)); [reflexivity|]; rewrite <- E; vm_compute; reflexivity). clear E.
    inversion S as [|? ? v b' ? vs1 ? X Y| |? ? ? ? X|? ? ? ? ? ? ? X Y]; subst; [|exfalso; eapply X, n_push|destruct X]. inversion X; subst. clear X S.
    inversion Y as [|? ? v b' ? vs1 ? X Z| |? ? ? ? X|? ? ? ? ? ? ? X Z]; subst; [|exfalso; eapply X, n_finish_in; auto|destruct X].
    inversion X; subst; [|congruence]. clear X Y.
    inversion Z as [|? ? v b' ? vs1 ? X Y| |? ? ? ? X|? ? ? ? ? ? ? X Y]; subst; [|exfalso; eapply X, n_size_in; auto|destruct X]. inversion X.
Qed.
(** push, finish_clear(), sort(), empty(): the item is still there *)
Theorem C71_finish_clear_refuted : exists os, (forall x, In (Push x) os -> no_greater nat Nat.ltb 99 x) /\
  ~ shows Nat.ltb 1 2 exactly (tidy ex_s0) (mkb [] Filling 14) os (ex_use 14 os ex_s0).
Proof.
  exists [Push 5; Finish_clear; Sort; Empty]. split.
  - intros x [H|[H|[H|[H|[]]]]]; try discriminate. injection H as <-. left. reflexivity.
  - intro S. destruct (ex_use 14 [Push 5; Finish_clear; Sort; Empty] ex_s0) as [vs e] eqn:E.
    assert (vs = [Nothing; Nothing; Nothing; Yes_no false]) as -> by (transitivity (fst (vs, e)); [reflexivity|]; rewrite <- E; vm_compute; reflexivity). clear E.
    inversion S as [|? ? v b' ? vs1 ? X Y| |? ? ? ? X|? ? ? ? ? ? ? X Y]; subst; [|exfalso; eapply X, n_push|destruct X]. inversion X; subst. clear X S.
    inversion Y as [|? ? v b' ? vs1 ? X Z| |? ? ? ? X|? ? ? ? ? ? ? X Z]; subst; [|exfalso; eapply X, n_finish_clear_in; auto|destruct X].
    inversion X; subst; [|congruence]. clear X Y. rename Z into Y.
    inversion Y as [|? ? v b' ? vs1 ? X Z| |? ? ? ? X|? ? ? ? ? ? ? X Z]; subst; [|exfalso; apply (X Nothing (mkb [] (Reading []) 14)), n_sort; split; constructor|destruct X].
    inversion X as [|? ? ? l [P _]| | | | | | | | | | | | |]; subst. apply Permutation_nil in P. subst l. clear X Y.
    inversion Z as [|? ? v b' ? vs1 ? X Y| |? ? ? ? X|? ? ? ? ? ? ? X Y]; subst; [|exfalso; eapply X, n_empty|destruct X]. inversion X.
Qed.

Print Assumptions C50_sorter.
Print Assumptions C50_push_sort_read.
Print Assumptions C69_stream_sort.
Print Assumptions C70_merge_sequences.
Print Assumptions C71_size_refuted.
Print Assumptions C71_finish_clear_refuted.
