(** Rows of a splitting and what the threads make of the parts between them. *)
From Coq Require Import List Bool Arith Lia Permutation Sorted.
From Verif Require Import OrderLib MwmergeModel MwmergeSpec Mwmerge MwmergeProps ParMergeModel ParMergeSpec.
Import ListNotations.

(** the elements before and behind a row *)
Definition parts {A} (L : list (list A)) (b : list nat) : list (list A * list A) :=
  map (fun p => (firstn (snd p) (fst p), skipn (snd p) (fst p))) (combine L b).
Fixpoint mid {A} (L : list (list A)) (b b' : list nat) : list (list A) :=
  match L, b, b' with l :: L, o :: b, o' :: b' => firstn (o' - o) (skipn o l) :: mid L b b' | _, _, _ => [] end.
Notation inside L b := (Forall2 (fun l o => o <= length l) L b).

Lemma fop_nth {X} (R : X -> X -> Prop) l d : ForallOrdPairs R l -> forall i j, i < j < length l -> R (nth i l d) (nth j l d).
Proof.
  induction 1 as [|x l Hf _ IH]; intros i j H; [cbn in H; lia|]. cbn [length] in H. destruct j as [|j]; [lia|]. destruct i as [|i].
  - cbn [nth]. rewrite Forall_forall in Hf. apply Hf. apply nth_In. lia.
  - cbn [nth]. apply IH. lia.
Qed.
Lemma fop_of_nth {X} (R : X -> X -> Prop) l d : (forall i j, i < j < length l -> R (nth i l d) (nth j l d)) -> ForallOrdPairs R l.
Proof.
  induction l as [|x l IH]; intro H; constructor.
  - rewrite Forall_forall. intros y Hy. destruct (In_nth l y d Hy) as (j & Hj & <-). exact (H 0 (S j) ltac:(cbn; lia)).
  - apply IH. intros i j Hij. exact (H (S i) (S j) ltac:(cbn; lia)).
Qed.
Lemma fop_filter {X} (R : X -> X -> Prop) f l : ForallOrdPairs R l -> ForallOrdPairs R (filter f l).
Proof.
  induction 1 as [|x l Hf _ IH]; cbn [filter]; [constructor|]. destruct (f x); [|exact IH]. constructor; [|exact IH].
  rewrite Forall_forall in *. intros y Hy. apply filter_In in Hy. apply Hf. apply Hy.
Qed.
Lemma inside_length {A} (L : list (list A)) b : inside L b -> length b = length L.
Proof. induction 1; cbn; congruence. Qed.
Lemma sum_pre {A} (L : list (list A)) b : inside L b -> length (concat (map fst (parts L b))) = list_sum b.
Proof.
  induction 1 as [|l o L b H _ IH]; [reflexivity|]. cbn [parts combine map concat fst snd]. rewrite app_length, firstn_length.
  fold (parts L b). rewrite IH. cbn [list_sum fold_right]. change (fold_right Nat.add 0 b) with (list_sum b). lia.
Qed.
Lemma firstn_mid {A} (l : list A) o o' : o <= o' -> firstn o' l = firstn o l ++ firstn (o' - o) (skipn o l).
Proof.
  intro H. replace o' with (o + (o' - o)) at 1 by lia. generalize (o' - o) as k. intro k. revert l.
  induction o as [|o IH]; intro l; [reflexivity|]. destruct l as [|x l]; [cbn; now rewrite firstn_nil|]. cbn [plus firstn skipn app]. now rewrite <- IH by lia.
Qed.
Lemma mid_pre {A} (L : list (list A)) : forall b b', length b = length L -> Forall2 Nat.le b b' ->
  Permutation (concat (map fst (parts L b)) ++ concat (mid L b b')) (concat (map fst (parts L b'))).
Proof.
  induction L as [|l L IH]; intros b b' Hl Hb; [reflexivity|]. destruct b as [|o b]; [discriminate|]. inversion Hb as [|? o' ? b'' Ho Hb']; subst.
  cbn [parts combine map concat fst snd mid]. fold (parts L b) (parts L b''). rewrite (firstn_mid l o o' Ho).
  rewrite <- !app_assoc. apply Permutation_app_head. rewrite <- (IH b b'' ltac:(now injection Hl) Hb').
  rewrite !app_assoc. apply Permutation_app_tail. apply Permutation_app_comm.
Qed.
Lemma mid_post {A} (L : list (list A)) : forall b b' x, In x (concat (mid L b b')) -> In x (concat (map snd (parts L b))).
Proof.
  induction L as [|l L IH]; intros [|o b] [|o' b'] x H; try contradiction. cbn [parts combine map concat fst snd mid] in *. fold (parts L b).
  apply in_app_iff in H. apply in_app_iff. destruct H as [H|H]; [left|right; exact (IH b b' x H)].
  rewrite <- (firstn_skipn (o' - o) (skipn o l)). apply in_app_iff. now left.
Qed.

Section Par.
  Variable A : Type.
  Variable lt : A -> A -> bool.
  Hypothesis SW : strict_weak lt.
  Notation seqs := (list (list A * list A)).

  (** equivalent elements: what is behind a row is greater than what is before it in later sequences *)
  Definition front (P : list (list A * list A)) : Prop :=
    ForallOrdPairs (fun p q => forall x y, In x (snd p) -> In y (fst q) -> lt y x = true) P.
  Definition good (st : bool) (L : list (list A)) (b : list nat) : Prop :=
    inside L b /\ (forall x y, In x (concat (map fst (parts L b))) -> In y (concat (map snd (parts L b))) -> le lt x y) /\ (st = true -> front (parts L b)).
  Definition holds (st : bool) (ls : list (list A)) (out : list A) : Prop :=
    sorted lt out /\ Permutation out (concat ls) /\ (st = true -> forall z, filter (equiv A lt z) out = filter (equiv A lt z) (concat ls)).

  Lemma filter_none (f : A -> bool) l : (forall x, In x l -> f x = false) -> filter f l = [].
  Proof. induction l as [|x l IH]; intro H; [reflexivity|]. cbn [filter]. rewrite (H x (or_introl eq_refl)). apply IH. intros y Hy. apply H. now right. Qed.
  Lemma mid_filter z (L : list (list A)) : forall b b', length b = length L -> Forall2 Nat.le b b' -> front (parts L b) ->
    filter (equiv A lt z) (concat (map fst (parts L b))) ++ filter (equiv A lt z) (concat (mid L b b')) = filter (equiv A lt z) (concat (map fst (parts L b'))).
  Proof.
    induction L as [|l L IH]; intros b b' Hl Hb Hf; [reflexivity|]. destruct b as [|o b]; [discriminate|]. inversion Hb as [|? o' ? b'' Ho Hb']; subst.
    cbn [parts combine map concat fst snd mid] in *. fold (parts L b) (parts L b'') in *. inversion Hf as [|? ? Hall Hrest]; subst.
    rewrite (firstn_mid l o o' Ho). rewrite !filter_app. rewrite <- (IH b b'' ltac:(now injection Hl) Hb' Hrest).
    rewrite <- !app_assoc. f_equal. rewrite !app_assoc. f_equal.
    destruct (filter (equiv A lt z) (firstn (o' - o) (skipn o l))) as [|x r] eqn:E; [now rewrite app_nil_r|].
    assert (Hx : In x (filter (equiv A lt z) (firstn (o' - o) (skipn o l)))) by (rewrite E; now left). apply filter_In in Hx. destruct Hx as (Hx & Ex).
    rewrite (filter_none _ (concat (map fst (parts L b)))); [now rewrite app_nil_r|]. intros y Hy. apply in_concat in Hy. destruct Hy as (f & Hf' & Hy).
    apply in_map_iff in Hf'. destruct Hf' as (q & <- & Hq). rewrite Forall_forall in Hall.
    assert (Hlt : lt y x = true).
    { apply (Hall q Hq); [|exact Hy]. cbn [snd]. rewrite <- (firstn_skipn (o' - o) (skipn o l)). apply in_app_iff. now left. }
    destruct (equiv A lt z y) eqn:Ey; [|reflexivity]. unfold equiv in Ex, Ey. apply andb_prop in Ex, Ey. destruct Ex as (X1 & X2), Ey as (Y1 & Y2).
    apply negb_true_iff in X1, X2, Y1, Y2. destruct (sw_incomp _ SW y z x Hlt); congruence.
  Qed.
  Lemma holds_step st L b b' out o2 : good st L b -> Forall2 Nat.le b b' -> holds st (map fst (parts L b)) out -> holds st (mid L b b') o2 ->
    holds st (map fst (parts L b')) (out ++ o2).
  Proof.
    intros (Gi & Gle & Gf) Hb (S1 & P1 & F1) (S2 & P2 & F2). pose proof (inside_length _ _ Gi) as Hl. split; [|split].
    - apply (sorted_app A lt); [exact S1|exact S2|]. intros x y Hx Hy. apply Gle; [apply (Permutation_in _ P1 Hx)|]. apply (mid_post L b b'). apply (Permutation_in _ P2 Hy).
    - rewrite P1, P2. apply mid_pre; assumption.
    - intros Hst z. rewrite filter_app, (F1 Hst), (F2 Hst). apply mid_filter; auto.
  Qed.

  (** one thread *)
  Lemma cut_ok (ne : seqs) : forall lo hi, inside (map fst ne) lo -> inside (map fst ne) hi -> Forall2 Nat.le lo hi ->
    exists c, cut ne lo hi = Some c /\ map fst c = mid (map fst ne) lo hi /\ length c = length ne /\ total c + list_sum lo = list_sum hi.
  Proof.
    induction ne as [|(l, b) ne IH]; intros lo hi H1 H2 H3; cbn [map fst] in H1, H2.
    { inversion H1; inversion H2; subst. exists []. repeat split. }
    inversion H1 as [|? o ? lo' Ho H1']; inversion H2 as [|? o' ? hi' Ho' H2']; subst. inversion H3 as [|? ? ? ? Hoo H3']; subst.
    destruct (IH lo' hi' H1' H2' H3') as (c & E & Em & El & Et). cbn [cut]. destruct (Nat.leb_spec o o'); [|exfalso; unfold Nat.le in *; lia].
    rewrite E. cbn [bind]. eexists. split; [reflexivity|]. split; [cbn [map fst mid]; now rewrite Em|]. split; [cbn; now rewrite El|].
    unfold total in *. cbn [map fst list_sum fold_right]. change (fold_right Nat.add 0) with list_sum. rewrite firstn_length, skipn_length. cbn [fst] in *. lia.
  Qed.
  Lemma sorted_part (l : list A) a k : sorted lt l -> sorted lt (firstn k (skipn a l)).
  Proof.
    intro H. rewrite <- (firstn_skipn a l) in H. apply (sorted_app_inv A lt) in H. destruct H as (_ & H & _).
    rewrite <- (firstn_skipn k (skipn a l)) in H. apply (sorted_app_inv A lt) in H. apply H.
  Qed.
  Lemma sorted_mid L : Forall (sorted lt) L -> forall b b', Forall (sorted lt) (mid L b b').
  Proof. induction 1 as [|l L Hl _ IH]; intros [|o b] [|o' b']; cbn [mid]; constructor; [apply sorted_part; exact Hl|apply IH]. Qed.
  Lemma all_taken (ls taken rests : list (list A)) : length taken = length ls -> length rests = length ls ->
    (forall i, nth i ls [] = nth i taken [] ++ nth i rests []) -> length (concat taken) = length (concat ls) -> taken = ls.
  Proof.
    revert taken rests. induction ls as [|l ls IH]; intros [|t taken] [|r rests] H1 H2 H3 H4; try discriminate; [reflexivity|].
    pose proof (H3 0) as H0. cbn [nth] in H0. cbn [concat] in H4. rewrite !app_length in H4.
    assert (Hsub : length (concat taken) <= length (concat ls)).
    { clear IH H4 H0. injection H1 as H1. injection H2 as H2. assert (H : forall i, nth i ls [] = nth i taken [] ++ nth i rests []) by (intro i; exact (H3 (S i))).
      clear H3. revert taken rests H1 H2 H. induction ls as [|l' ls IH]; intros [|t' taken] [|r' rests] H1 H2 H; try discriminate; [cbn; lia|].
      pose proof (H 0) as E. cbn [nth] in E. subst l'. cbn [concat]. rewrite !app_length.
      specialize (IH taken rests ltac:(now injection H1) ltac:(now injection H2) (fun i => H (S i))). lia. }
    assert (Er : r = []). { apply (f_equal (@length A)) in H0. rewrite app_length in H0. destruct r; [reflexivity|cbn in H0; lia]. }
    subst r. rewrite app_nil_r in H0. subst t. f_equal. apply (IH taken rests); [now injection H1|now injection H2|intro i; exact (H3 (S i))|lia].
  Qed.
  Lemma thread_ok stable copy alg (ne : seqs) len lo hi : alg = BUBBLE \/ alg = LOSER_TREE -> Forall (sorted lt) (map fst ne) ->
    inside (map fst ne) lo -> inside (map fst ne) hi -> Forall2 Nat.le lo hi -> list_sum hi <= len ->
    (alg = LOSER_TREE -> 5 <= length ne -> list_sum lo < list_sum hi) ->
    exists out, thread A lt stable copy alg ne len (lo, hi) = Some (list_sum lo, out) /\ holds stable (mid (map fst ne) lo hi) out.
  Proof.
    intros Ha Hs H1 H2 H3 Hlen Hne. destruct (cut_ok ne lo hi H1 H2 H3) as (c & Ec & Em & El & Et). unfold thread. cbv zeta. cbn [fst snd]. rewrite Ec. cbn [bind].
    destruct (Nat.ltb_spec len (list_sum lo)); [lia|]. replace (Nat.min (total c) (len - list_sum lo)) with (total c) by lia.
    assert (Hsc : Forall (sorted lt) (map fst c)) by (rewrite Em; apply sorted_mid; exact Hs).
    destruct (C116_sequential_merge A lt SW stable false copy alg c (total c) Ha Hsc) as (out & s' & E & (Hlo & taken & (T1 & T2 & T3 & T4 & T5 & T6) & Hst) & Hsnd).
    { rewrite total_concat. lia. }
    { intros E5 Hc Habs. rewrite El in Hc. specialize (Hne E5 Hc). assert (total c = 0) by (rewrite total_concat, Habs; reflexivity). lia. }
    rewrite E. cbn [bind]. exists out. split; [reflexivity|].
    assert (Htk : taken = map fst c).
    { apply (all_taken (map fst c) taken (map fst s')); [exact T1|exact T2|exact T3|]. rewrite <- (Permutation_length T5), Hlo. apply total_concat. }
    rewrite <- Em, <- Htk. split; [exact T4|]. split; [exact T5|]. intros Hs'. apply Hst. unfold kept. rewrite Hs'. reflexivity.
  Qed.

  (** all threads *)
  Fixpoint chain (strict : Prop) (b : list nat) (rows : list (list nat)) : Prop :=
    match rows with [] => True | b' :: rows => Forall2 Nat.le b b' /\ (strict -> list_sum b < list_sum b') /\ chain strict b' rows end.
  Fixpoint consecutive (pos : nat) (works : list (nat * list A)) : Prop :=
    match works with [] => True | (a, o) :: works => a = pos /\ consecutive (pos + length o) works end.
  Lemma threads_ok stable copy alg (ne : seqs) len rows : alg = BUBBLE \/ alg = LOSER_TREE -> Forall (sorted lt) (map fst ne) ->
    forall b out, good stable (map fst ne) b -> Forall (good stable (map fst ne)) rows -> Forall (fun b => list_sum b <= len) rows ->
    chain (alg = LOSER_TREE /\ 5 <= length ne) b rows -> holds stable (map fst (parts (map fst ne) b)) out ->
    exists works, map_all (thread A lt stable copy alg ne len) (combine (b :: rows) rows) = Some works /\ consecutive (list_sum b) works /\
      holds stable (map fst (parts (map fst ne) (last rows b))) (out ++ concat (map snd works)).
  Proof.
    intros Ha Hs. induction rows as [|b' rows IH]; intros b out Gb Gr Hsum Hc Hout.
    { exists []. cbn [combine map_all last map concat]. split; [reflexivity|]. split; [exact I|]. now rewrite app_nil_r. }
    inversion Gr as [|? ? Gb' Gr']; subst. inversion Hsum as [|? ? Hb' Hsum']; subst. destruct Hc as (Hbb & Hst & Hc).
    destruct (thread_ok stable copy alg ne len b b' Ha Hs (proj1 Gb) (proj1 Gb') Hbb Hb' (fun e h => Hst (conj e h))) as (o & E & Ho).
    destruct (IH b' (out ++ o) Gb' Gr' Hsum' Hc (holds_step stable _ b b' out o Gb Hbb Hout Ho)) as (works & Ew & Cw & Hw).
    exists ((list_sum b, o) :: works). split; [|split].
    - change (combine (b :: b' :: rows) (b' :: rows)) with ((b, b') :: combine (b' :: rows) rows). cbn [map_all]. rewrite E. cbn [bind]. rewrite Ew. reflexivity.
    - cbn [consecutive]. split; [reflexivity|]. replace (list_sum b + length o) with (list_sum b'); [exact Cw|].
      destruct Ho as (_ & P & _). rewrite (Permutation_length P).
      pose proof (Permutation_length (mid_pre (map fst ne) b b' (inside_length _ _ (proj1 Gb)) Hbb)) as Hp.
      rewrite app_length, !sum_pre in Hp by (apply Gb || apply Gb'). lia.
    - cbn [map snd concat]. rewrite app_assoc. replace (last (b' :: rows) b) with (last rows b'); [exact Hw|].
      clear. revert b'. induction rows as [|c rows IH]; intro b'; [reflexivity|]. cbn [last] in *. destruct rows; [reflexivity|apply IH].
  Qed.
End Par.
