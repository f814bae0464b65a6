(** Bulk-limit sessions: what is in the extract buffer is the smallest, and below the limit. *)
From Coq Require Import List Bool Arith Lia Permutation Sorted.
From Verif Require Import OrderLib MwmergeSpec MwSortModel MwSort PpqModel PpqSpec Ppq PpqTake PpqOps PpqLimitModel PpqLimitSpec.
Import ListNotations.
Open Scope nat_scope.

Section Limit.
  Variable A : Type.
  Variable lt : A -> A -> bool.
  Hypothesis SW : strict_weak lt.
  Variable mm : list (list A) -> nat -> list A * list (list A).
  Hypothesis Hmm : forall seqs n, Forall (sorted lt) seqs -> n <= length (concat seqs) -> merged lt false seqs n (fst (mm seqs n)) (snd (mm seqs n)).
  Variable srt : list A -> list A.
  Hypothesis Hsrt : sorts lt srt.
  Variables (cap bs ebl lsz maxl : nat).
  Hypothesis Hbs : 0 < bs.
  Notation st := (st A). Notation session := (session A). Notation queue := (queue A). Notation mark := (mark A). Notation whole := (whole A).
  Notation heaps := (heaps A). Notation eb := (eb A). Notation ias := (ias A). Notation eas := (eas A).
  Notation ints := (ints A). Notation exts := (exts A). Notation inner := (inner A). Notation elements := (elements A). Notation Inv := (Inv A lt).
  (** everything but the extract buffer *)
  Definition rest (s : st) : list A := concat (heaps s) ++ ints (ias s) ++ exts (eas s).
  Lemma elements_rest s : Permutation (elements s) (eb s ++ rest s).
  Proof. rewrite elements_inner. unfold Ppq.inner, rest. perm. Qed.
  Definition SInv (z : session) : Prop :=
    Inv (queue z) /\ (forall x, In x (eb (queue z)) -> lt x (mark z) = true) /\
    (forall x y, In x (eb (queue z)) -> In y (rest (queue z)) -> le lt x y) /\
    (whole z = true -> forall y, In y (rest (queue z)) -> lt y (mark z) = false).

  Lemma push_buffer d p x s s' : Inv s -> push A lt mm srt cap bs lsz maxl d p x s = Some s' -> eb s' = eb s \/ eb s' = [].
  Proof.
    intros Hi H. unfold push in H. destruct (nth_error (heaps s) p) as [h|]; [|discriminate].
    set (r := if cap <=? length h then _ else _) in H. assert (Hr : forall s1, r = Some s1 -> eb s1 = eb s \/ eb s1 = []).
    { intros s1 E. unfold r in E. destruct (cap <=? length h); [|injection E as <-; now left]. unfold flush_heap in E.
      destruct (free_memory A mm bs lsz maxl d s) as [s2|] eqn:E2; [|discriminate]. destruct (add_array _ _ _ _ _ _ _ _) as [l|]; [|discriminate]. injection E as <-. cbn [PpqModel.eb].
      unfold free_memory in E2. destruct (enough d); [injection E2 as <-; now left|]. destruct (0 <? _); [|injection E2 as <-; now left].
      right. exact (proj1 (proj2 (flush_ias_ok A lt mm Hmm bs lsz maxl Hbs d s s2 (proj2 Hi) E2))). }
    destruct r as [s1|]; [|discriminate]. destruct (nth_error (heaps s1) p); [|discriminate]. injection H as <-. exact (Hr s1 eq_refl).
  Qed.
  Lemma bulk_pop_limit_reg d1 d2 waits limit n s out full s' : Inv s -> bulk_pop_limit A lt mm srt bs lsz maxl d1 d2 waits limit n s = Some (out, full, s') -> eb s' = [] /\ reg A (ias s').
  Proof.
    intros (Hh & Hi) H. unfold bulk_pop_limit in H. destruct (convert_eb A mm bs lsz maxl d1 s) as [s1|] eqn:E1; [|discriminate].
    destruct (convert_eb_ok A lt mm Hmm bs lsz maxl Hbs d1 s s1 Hi E1) as (C1 & C2 & C3 & C4).
    assert (Hi1 : Inv s1) by (split; [rewrite C3; exact Hh|exact C1]).
    set (r := if 0 <? total A (heaps s1) then _ else _) in H.
    assert (Hr : forall s2, r = Some s2 -> Inv s2 /\ eb s2 = []).
    { intros s2 E. unfold r in E. destruct (0 <? total A (heaps s1)); [|injection E as <-; split; assumption].
      destruct (flush_limit_ok A lt SW mm Hmm srt Hsrt bs lsz maxl Hbs d2 limit s1 s2 Hi1 C2 E) as (F1 & F2 & _). auto. }
    destruct r as [s2|]; [|discriminate]. destruct (Hr s2 eq_refl) as ((G1 & G2 & G3 & G4 & _) & B1).
    destruct (reach A lt waits limit (eas s2)) as ((es, v), fl) eqn:Er. destruct (reach_ok A lt SW limit waits _ _ _ _ G4 Er) as (W1 & W2 & W3 & W4 & W5). cbv zeta in H.
    set (t := total A (map (below A lt (Some v)) (arrays A es (ias s2)))) in *.
    destruct (take A lt mm (Some v) (Nat.min t n) es (ias s2)) as ((out', l'), es') eqn:Et. injection H as <- <- <-.
    destruct (take_ok A lt SW mm Hmm (Some v) _ es _ out' l' es' W1 G3 W3 (Nat.le_min_l t n) Et) as (_ & _ & _ & _ & _ & T6 & _). split; [exact B1|exact T6].
  Qed.
  Lemma fetch_ok d1 d2 waits limit s z : Inv s -> fetch A lt mm srt bs ebl lsz maxl d1 d2 waits limit s = Some z ->
    SInv z /\ mark z = limit /\ Permutation (elements (queue z)) (elements s).
  Proof.
    intros Hi H. unfold fetch in H. destruct (bulk_pop_limit A lt mm srt bs lsz maxl d1 d2 waits limit ebl s) as [((out, full), s')|] eqn:E; [|discriminate]. cbn [fst snd] in H. injection H as <-.
    destruct (bulk_pop_limit_ok A lt SW mm Hmm srt Hsrt bs lsz maxl Hbs d1 d2 waits limit ebl s out full s' Hi E) as ((G1 & _ & G3 & G4 & _) & (R1 & R2 & R3) & _ & B1 & B2).
    destruct (bulk_pop_limit_reg d1 d2 waits limit ebl s out full s' Hi E) as (N & Rg).
    assert (Er : Permutation (elements s') (rest s')) by (rewrite elements_rest, N; reflexivity).
    assert (Hrest : rest (St A (heaps s') out (ias s') (eas s')) = rest s') by reflexivity.
    assert (Hin : forall y, In y (rest s') -> In y (elements s')) by (intros y Hy; apply (Permutation_in _ (Permutation_sym Er)); exact Hy).
    split; [|split; [reflexivity|]].
    - unfold SInv. cbn [PpqLimitModel.queue PpqLimitModel.mark PpqLimitModel.whole PpqModel.eb]. rewrite Hrest. split; [split; [exact G1|]|].
      + split; [exact R1|]. split; [exact G3|]. split; [exact G4|]. intros _. split; [exact Rg|]. intros x y Hx Hy. apply (R3 x y Hx), Hin. unfold rest. apply in_app_iff. right. apply in_app_iff. now right.
      + split; [exact B1|]. split; [intros x y Hx Hy; exact (R3 x y Hx (Hin y Hy))|intros Hf y Hy; exact (B2 Hf y (Hin y Hy))].
    - cbn [PpqLimitModel.queue]. rewrite elements_rest, Hrest. cbn [PpqModel.eb]. rewrite <- Er. symmetry. exact R2.
  Qed.
  Lemma limit_push_ok d p x z z' : SInv z -> limit_push A lt mm srt cap bs lsz maxl d p x z = Some z' ->
    SInv z' /\ mark z' = mark z /\ Permutation (elements (queue z')) (x :: elements (queue z)).
  Proof.
    intros (Hi & S1 & S2 & S3) H. unfold limit_push in H. destruct (lt x (mark z)) eqn:Ex; [discriminate|].
    destruct (push A lt mm srt cap bs lsz maxl d p x (queue z)) as [s|] eqn:E; [|discriminate]. injection H as <-.
    destruct (push_ok A lt SW mm Hmm srt Hsrt cap bs lsz maxl Hbs d p x _ s Hi E) as (P1 & P2). split; [|split; [reflexivity|exact P2]].
    unfold SInv. cbn [PpqLimitModel.queue PpqLimitModel.mark PpqLimitModel.whole]. split; [exact P1|].
    destruct (push_buffer d p x _ s Hi E) as [Eb|Eb].
    - assert (Er : Permutation (rest s) (x :: rest (queue z))).
      { apply (Permutation_app_inv_l (eb s)). rewrite <- elements_rest, P2, Eb, <- Permutation_middle. constructor. apply elements_rest. }
      assert (Hlow : forall a, lt a (mark z) = true -> le lt a x).
      { intros a Ha. unfold le. destruct (lt x a) eqn:C; [|reflexivity]. rewrite (sw_trans _ SW x a (mark z) C Ha) in Ex. discriminate. }
      rewrite Eb. split; [exact S1|]. split.
      + intros a y Ha Hy. apply (Permutation_in _ Er) in Hy. destruct Hy as [<-|Hy]; [exact (Hlow a (S1 a Ha))|exact (S2 a y Ha Hy)].
      + intros Hw y Hy. apply andb_true_iff in Hw. destruct Hw as (Hw & _). apply (Permutation_in _ Er) in Hy. destruct Hy as [<-|Hy]; [exact Ex|exact (S3 Hw y Hy)].
    - rewrite Eb. split; [intros a []|]. split; [intros a y []|]. intros Hw y Hy. apply andb_true_iff in Hw. destruct Hw as (Hw & Hn). cbn [is_nil negb] in Hn. rewrite orb_false_r in Hn. apply is_nil_true in Hn.
      assert (Hy' : In y (x :: rest (queue z))).
      { assert (Hq : In y (elements s)) by (apply (Permutation_in _ (Permutation_sym (elements_rest s))), in_app_iff; now right).
        apply (Permutation_in _ P2) in Hq. destruct Hq as [Hq|Hq]; [now left|right]. apply (Permutation_in _ (elements_rest _)) in Hq. rewrite Hn in Hq. exact Hq. }
      destruct Hy' as [<-|Hy']; [exact Ex|exact (S3 Hw y Hy')].
  Qed.
  Lemma hd_minimal z x b : SInv z -> eb (queue z) = x :: b -> minimal lt x (elements (queue z)) /\ lt x (mark z) = true.
  Proof.
    intros ((_ & H1 & _) & S1 & S2 & _) E. split; [|apply S1; rewrite E; now left]. split.
    - apply (Permutation_in _ (Permutation_sym (elements_rest _))). rewrite E. now left.
    - intros y Hy. apply (Permutation_in _ (elements_rest _)) in Hy. apply in_app_iff in Hy. destruct Hy as [Hy|Hy]; [|apply (S2 x y); [rewrite E; now left|exact Hy]].
      rewrite E in H1, Hy. exact (sorted_hd A lt SW x b y H1 Hy).
  Qed.
  Lemma limit_top_ok d1 d2 waits z x z' : SInv z -> limit_top A lt mm srt bs ebl lsz maxl d1 d2 waits z = Some (x, z') ->
    SInv z' /\ mark z' = mark z /\ lallowed lt (mark z) (elements (queue z)) LTop (LElem x) (elements (queue z')).
  Proof.
    intros Hz H. unfold limit_top in H. destruct (is_nil (eb (queue z)) && whole z) eqn:En.
    - injection H as <- <-. split; [exact Hz|]. split; [reflexivity|]. split; [reflexivity|]. right. split; [reflexivity|]. apply andb_true_iff in En. destruct En as (En & Hw). apply is_nil_true in En.
      intros y Hy. apply (Permutation_in _ (elements_rest _)) in Hy. rewrite En in Hy. destruct Hz as (_ & _ & _ & S3). exact (S3 Hw y Hy).
    - set (r := if is_nil (eb (queue z)) then _ else _) in H.
      assert (Hr : forall z1, r = Some z1 -> SInv z1 /\ mark z1 = mark z /\ Permutation (elements (queue z1)) (elements (queue z))).
      { intros z1 E. unfold r in E. destruct (is_nil (eb (queue z))); [exact (fetch_ok d1 d2 waits _ _ z1 (proj1 Hz) E)|]. injection E as <-. split; [exact Hz|]. split; reflexivity. }
      destruct r as [z1|]; [|discriminate]. destruct (Hr z1 eq_refl) as (Z1 & Z2 & Z3). destruct (eb (queue z1)) as [|a b] eqn:Eb; [discriminate|]. cbn [hd_error] in H. injection H as <- <-.
      split; [exact Z1|]. split; [exact Z2|]. split; [exact Z3|]. left. rewrite <- Z2. destruct (hd_minimal z1 a b Z1 Eb) as (M1 & M2). split; [|exact M2]. exact (minimal_perm A lt a _ _ Z3 M1).
  Qed.
  Lemma limit_pop_ok d1 d2 waits z z' : SInv z -> limit_pop A lt mm srt bs ebl lsz maxl d1 d2 waits z = Some z' ->
    SInv z' /\ mark z' = mark z /\ lallowed lt (mark z) (elements (queue z)) LPop LNothing (elements (queue z')).
  Proof.
    intros Hz H. unfold limit_pop in H. destruct (eb (queue z)) as [|x b] eqn:Eb; [discriminate|]. destruct (hd_minimal z x b Hz Eb) as (M1 & M2). cbv zeta in H.
    set (s := St A (heaps (queue z)) b (ias (queue z)) (eas (queue z))) in *. destruct Hz as ((Hh & H1 & H2 & H3 & H4) & S1 & S2 & S3). rewrite Eb in H1, H4, S1, S2.
    assert (Hs : Inv s).
    { split; [exact Hh|]. split; [inversion H1; assumption|]. split; [exact H2|]. split; [exact H3|]. intro Hb. destruct (H4 ltac:(discriminate)) as (R & Q). split; [exact R|]. intros a y Ha. apply (Q a y). now right. }
    assert (Hp : Permutation (elements (queue z)) (x :: elements s)) by (rewrite (elements_rest s), (elements_rest (queue z)), Eb; reflexivity).
    destruct (is_nil b && negb (whole z)).
    - destruct (fetch_ok d1 d2 waits _ s z' Hs H) as (F1 & F2 & F3). split; [exact F1|]. split; [exact F2|]. exists x. split; [exact M1|]. split; [exact M2|]. rewrite F3. exact Hp.
    - injection H as <-. split; [|split; [reflexivity|exists x; auto]]. split; [exact Hs|]. split; [intros a Ha; apply S1; now right|]. split; [intros a y Ha; apply S2; now right|exact S3].
  Qed.
End Limit.
