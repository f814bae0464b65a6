(** The parallel region as a whole, and the two ways of splitting. *)
From Coq Require Import List Bool Arith Lia Permutation Sorted ZArith.
From Verif Require Import OrderLib MultiseqModel MultiseqSpec MultiseqProps MwmergeModel MwmergeSpec Mwmerge MwmergeProps ParMergeModel ParMergeSpec ParMerge.
Import ListNotations.
Open Scope nat_scope.

(** writes to consecutive cells, in any order *)
Lemma combine_seq_app {A} (l1 l2 : list A) : forall a,
  combine (seq a (length l1)) l1 ++ combine (seq (a + length l1) (length l2)) l2 = combine (seq a (length (l1 ++ l2))) (l1 ++ l2).
Proof.
  induction l1 as [|x l1 IH]; intro a; [cbn; now rewrite Nat.add_0_r|]. cbn [length seq combine app]. f_equal.
  replace (a + S (length l1)) with (S a + length l1) by lia. apply IH.
Qed.
Lemma cells_consecutive {A} (works : list (nat * list A)) : forall pos, consecutive A pos works ->
  concat (map cells works) = combine (seq pos (length (concat (map snd works)))) (concat (map snd works)).
Proof.
  induction works as [|(a, o) works IH]; intros pos H; [reflexivity|]. destruct H as (-> & H). cbn [map concat snd]. rewrite (IH _ H). unfold cells. cbn [fst snd]. apply combine_seq_app.
Qed.
Lemma after_out {A} (w : list (nat * A)) : forall mem i, ~ In i (map fst w) -> after w mem i = mem i.
Proof.
  induction w as [|(a, v) w IH]; intros mem i H; [reflexivity|]. cbn [after]. rewrite IH; [|intro Hi; apply H; now right].
  destruct (Nat.eqb_spec i a) as [->|]; [exfalso; apply H; now left|reflexivity].
Qed.
Lemma after_in {A} (w : list (nat * A)) : forall mem i v, NoDup (map fst w) -> In (i, v) w -> after w mem i = Some v.
Proof.
  induction w as [|(a, u) w IH]; intros mem i v Hn Hi; [contradiction|]. cbn [after]. cbn [map fst] in Hn. inversion Hn as [|? ? Hna Hn']; subst. destruct Hi as [Hi|Hi].
  - injection Hi as -> ->. rewrite after_out by exact Hna. now rewrite Nat.eqb_refl.
  - apply IH; assumption.
Qed.
Lemma fst_combine_seq {A} (l : list A) : forall a, map fst (combine (seq a (length l)) l) = seq a (length l).
Proof. induction l as [|x l IH]; intro a; [reflexivity|]. cbn [length seq combine map fst]. now rewrite IH. Qed.
Lemma in_combine_seq {A} (l : list A) : forall a i v, nth_error l i = Some v -> In (a + i, v) (combine (seq a (length l)) l).
Proof.
  induction l as [|x l IH]; intros a [|i] v H; try discriminate; cbn [length seq combine].
  - injection H as ->. left. now rewrite Nat.add_0_r.
  - right. replace (a + S i) with (S a + i) by lia. apply IH. exact H.
Qed.
Lemma target_ok {A} (works : list (nat * list A)) : consecutive A 0 works -> target_holds works (concat (map snd works)).
Proof.
  intros H w Hw mem i. rewrite (cells_consecutive works 0 H) in Hw. set (O := concat (map snd works)) in *.
  assert (Hk : Permutation (map fst w) (seq 0 (length O))) by (rewrite <- fst_combine_seq; apply Permutation_map; exact Hw).
  destruct (Nat.ltb_spec i (length O)) as [Hi|Hi].
  - destruct (nth_error O i) as [v|] eqn:E; [|apply nth_error_None in E; lia]. apply after_in.
    + apply (Permutation_NoDup (Permutation_sym Hk)). apply seq_NoDup.
    + apply (Permutation_in _ (Permutation_sym Hw)). exact (in_combine_seq O 0 i v E).
  - apply after_out. intro Hin. apply (Permutation_in _ Hk) in Hin. apply in_seq in Hin. lia.
Qed.

Section All.
  Variable A : Type.
  Variable lt : A -> A -> bool.
  Hypothesis SW : strict_weak lt.
  Notation seqs := (list (list A * list A)).
  Notation nonempty s := (filter (fun r => negb (Nat.eqb (length (fst r)) 0)) s).

  (** all sequences again: the empty ones are put back *)
  Fixpoint full (s : seqs) (e : list nat) : list (list A * list A) :=
    match s with
    | [] => []
    | ([], b) :: s => ([], []) :: full s e
    | (l, b) :: s => match e with [] => [] | o :: e => (firstn o l, skipn o l) :: full s e end
    end.
  Lemma full_ok (s : seqs) : forall e, inside (map fst (nonempty s)) e ->
    map snd (full s e) = map fst (moved s e) /\ map snd (moved s e) = map snd s /\ length (full s e) = length s /\
    (forall i, nth i (map fst s) [] = nth i (map fst (full s e)) [] ++ nth i (map snd (full s e)) []) /\
    concat (map fst (full s e)) = concat (map fst (parts (map fst (nonempty s)) e)) /\
    concat (map snd (full s e)) = concat (map snd (parts (map fst (nonempty s)) e)) /\
    (forall q, In q (full s e) -> q = ([], []) \/ In q (parts (map fst (nonempty s)) e)) /\
    (front A lt (parts (map fst (nonempty s)) e) -> front A lt (full s e)).
  Proof.
    induction s as [|([|x l], b) s IH]; intros e He.
    - repeat split. { intros [|i]; reflexivity. } { intros q []. } { intro; constructor. }
      all: cbn in He; inversion He; subst; reflexivity.
    - cbn [filter fst length Nat.eqb negb] in *. destruct (IH e He) as (E1 & E2 & E3 & E4 & E5 & E6 & E7 & E8). cbn [full moved map fst snd length concat app].
      split; [now rewrite E1|]. split; [now rewrite E2|]. split; [now rewrite E3|]. split; [intros [|i]; [reflexivity|cbn [nth]; apply E4]|]. split; [exact E5|]. split; [exact E6|].
      split; [intros q [<-|Hq]; [now left|exact (E7 q Hq)]|]. intro Hf. constructor; [|exact (E8 Hf)]. rewrite Forall_forall. intros q _ u v [].
    - cbn [filter fst length Nat.eqb negb map] in *. inversion He as [|? o ? e' Ho He']; subst. destruct (IH e' He') as (E1 & E2 & E3 & E4 & E5 & E6 & E7 & E8).
      cbn [full moved map fst snd length concat parts combine]. fold (parts (map fst (nonempty s)) e').
      split; [now rewrite E1|]. split; [now rewrite E2|]. split; [now rewrite E3|].
      split; [intros [|i]; [cbn [nth]; symmetry; apply firstn_skipn|cbn [nth]; apply E4]|]. split; [now rewrite E5|]. split; [now rewrite E6|].
      split; [intros q [<-|Hq]; [right; now left|destruct (E7 q Hq); [now left|right; now right]]|].
      intro Hf. inversion Hf as [|? ? Hall Hrest]; subst. constructor; [|exact (E8 Hrest)]. rewrite Forall_forall in *. intros q Hq.
      destruct (E7 q Hq) as [->|Hq']; [intros u v _ []|]. exact (Hall q Hq').
  Qed.

  Lemma nothing_ok stable copy alg splitting threads (s : seqs) : total (nonempty s) = 0 -> par_ok lt stable s 0 (parallel A lt stable copy alg splitting threads s 0).
  Proof.
    intro H. unfold parallel. cbv zeta. rewrite H. cbn [Nat.eqb]. exists [], s, []. split; [reflexivity|].
    assert (Hs : forall r, In r s -> fst r = []).
    { intros r Hr. destruct (fst r) as [|x l] eqn:E; [reflexivity|]. exfalso.
      assert (Hin : In r (nonempty s)) by (apply filter_In; split; [exact Hr|rewrite E; reflexivity]).
      unfold total in H. clear -Hin H E. induction (nonempty s) as [|q n IH]; [contradiction|]. cbn [map list_sum fold_right] in H. change (fold_right Nat.add 0) with list_sum in H.
      destruct Hin as [->|Hin]; [rewrite E in H; cbn in H; lia|apply IH; [lia|exact Hin]]. }
    split; [|split; [reflexivity|]].
    - split; [reflexivity|]. exists (map (fun _ => []) s).
      assert (Hc : concat (map (fun _ : list A * list A => @nil A) s) = []) by (clear; induction s; [reflexivity|exact IHs]).
      split; [|intros _; split].
      + split; [now rewrite !map_length|]. split; [reflexivity|]. split.
        { intro i. assert (E : nth i (map (fun _ : list A * list A => @nil A) s) [] = []); [|now rewrite E].
          clear. revert i. induction s as [|r s IH]; intros [|i]; try reflexivity. cbn [map nth]. apply IH. }
        split; [constructor|]. rewrite Hc. split; [reflexivity|]. intros x y [].
      + intro z. now rewrite Hc.
      + intros i j x y _ Hx _. destruct (Nat.lt_ge_cases i (length s)) as [Hi|Hi]; [|rewrite nth_overflow in Hx by (now rewrite map_length); contradiction].
        pose proof (nth_In (map fst s) [] (n := i) ltac:(now rewrite map_length)) as Hin. apply in_map_iff in Hin. destruct Hin as (r & Er & Hr). rewrite <- Er, (Hs r Hr) in Hx. contradiction.
    - exact (target_ok [] I).
  Qed.

  Lemma parallel_ok stable copy alg splitting threads (s : seqs) len b rows : alg = BUBBLE \/ alg = LOSER_TREE -> Forall (sorted lt) (map fst s) ->
    total (nonempty s) <> 0 ->
    splitting (nonempty s) len (total (nonempty s)) (Nat.min threads (total (nonempty s))) = Some (b :: rows) ->
    Forall (good A lt stable (map fst (nonempty s))) (b :: rows) -> Forall (fun b => list_sum b <= len) rows ->
    chain (alg = LOSER_TREE /\ 5 <= length (nonempty s)) b rows -> list_sum b = 0 -> list_sum (last (b :: rows) []) = len ->
    par_ok lt stable s len (parallel A lt stable copy alg splitting threads s len).
  Proof.
    intros Ha Hs Ht Esp Hg Hsum Hc Hb Hlast. inversion Hg as [|? ? Gb Gr]; subst.
    assert (Hs' : Forall (sorted lt) (map fst (nonempty s))).
    { rewrite Forall_forall in *. intros l Hl. apply in_map_iff in Hl. destruct Hl as (r & <- & Hr). apply filter_In in Hr. apply Hs. apply in_map. apply Hr. }
    assert (H0 : holds A lt stable (map fst (parts (map fst (nonempty s)) b)) []).
    { pose proof (sum_pre _ _ (proj1 Gb)) as E. rewrite Hb in E. unfold holds. destruct (concat (map fst (parts (map fst (nonempty s)) b))); [|discriminate].
      split; [constructor|]. split; [reflexivity|]. reflexivity. }
    destruct (threads_ok A lt SW stable copy alg (nonempty s) _ rows Ha Hs' b [] Gb Gr Hsum Hc H0) as (works & Ew & Cw & Hw).
    unfold parallel. cbv zeta. destruct (Nat.eqb_spec (total (nonempty s)) 0) as [E0|_]; [contradiction|]. rewrite Esp. cbn [bind tl].
    match goal with |- par_ok _ _ _ _ (bind ?m _) => replace m with (Some works) by (symmetry; exact Ew) end. cbn [bind].
    assert (El : last (b :: rows) [] = last rows b).
    { clear. destruct rows as [|c rows]; [reflexivity|]. revert c. induction rows as [|d rows IH]; intro c; [reflexivity|]. cbn [last] in *. apply IH. }
    rewrite El in *. set (e := last rows b) in *. cbn [app] in Hw.
    assert (Ge : good A lt stable (map fst (nonempty s)) e).
    { unfold e. destruct rows as [|c rows']; [exact Gb|]. rewrite Forall_forall in Gr. apply Gr. clear. revert c. induction rows' as [|d rows' IH]; intro c; [now left|].
      right. cbn [last] in *. exact (IH d). }
    destruct (full_ok s e (proj1 Ge)) as (E1 & E2 & E3 & E4 & E5 & E6 & E7 & E8). destruct Hw as (W1 & W2 & W3).
    exists works, (moved s e), (concat (map snd works)). split; [reflexivity|]. split; [|split; [exact E2|apply target_ok; rewrite <- Hb; exact Cw]].
    split. { rewrite (Permutation_length W2). apply sum_pre. apply Ge. }
    exists (map fst (full s e)). split.
    - split; [now rewrite !map_length|]. split; [rewrite <- E1; now rewrite !map_length|]. rewrite <- E1. split; [exact E4|]. split; [exact W1|].
      rewrite E5, E6. split; [exact W2|]. apply Ge.
    - intro Hst. split; [intro z; rewrite E5; apply W3; exact Hst|]. intros i j x y Hij Hx Hy. rewrite <- E1 in Hx.
      pose proof (E8 (proj2 (proj2 Ge) Hst)) as Hf. destruct (Nat.lt_ge_cases j (length (full s e))) as [Hj|Hj].
      + pose proof (fop_nth _ _ ([], []) Hf i j ltac:(lia)) as R. apply R.
        * change (@nil A) with (snd (@nil A, @nil A)) in Hx. rewrite map_nth in Hx. exact Hx.
        * change (@nil A) with (fst (@nil A, @nil A)) in Hy. rewrite map_nth in Hy. exact Hy.
      + rewrite nth_overflow in Hy by (now rewrite map_length). contradiction.
  Qed.
End All.
