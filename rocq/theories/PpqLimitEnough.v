(** Bulk-limit sessions: limit_top completes when hinted blocks arrive. *)
From Coq Require Import List Bool Arith Lia Permutation Sorted.
From Verif Require Import OrderLib MwmergeSpec MwSortModel MwSort PpqModel PpqSpec Ppq PpqTake PpqOps PpqEnough PpqLimitModel PpqLimitSpec PpqLimit.
Import ListNotations.
Open Scope nat_scope.

Section Limit.
  Variable A : Type.
  Variable lt : A -> A -> bool.
  Notation st := (st A). Notation session := (session A). Notation queue := (queue A). Notation mark := (mark A). Notation whole := (whole A).
  Notation heaps := (heaps A). Notation eb := (eb A). Notation ias := (ias A). Notation eas := (eas A).
  Notation ints := (ints A). Notation exts := (exts A). Notation elements := (elements A). Notation Inv := (Inv A lt).
  Definition has_below (limit : A) (l : list A) : Prop := exists y, In y l /\ lt y limit = true.
  Lemma below_all v l : Forall (fun y => lt y v = true) (below A lt (Some v) l).
  Proof. cbn [below]. induction l as [|x l IH]; cbn [lower firstn]; [constructor|]. destruct (lt x v) eqn:E; [|constructor]. cbn [firstn]. constructor; [exact E|exact IH]. Qed.
  Lemma below_prefix v l : exists r, l = below A lt (Some v) l ++ r.
  Proof. eexists. cbn [below]. symmetry. apply firstn_skipn. Qed.
  Definition count (v : A) (l : list A) : nat := length (filter (fun y => lt y v) l).
  Lemma count_app v a b : count v (a ++ b) = count v a + count v b.
  Proof. unfold count. rewrite filter_app, app_length. reflexivity. Qed.
  Lemma count_le v l : count v l <= length l.
  Proof. unfold count. induction l as [|x l IH]; cbn [filter length]; [lia|]. destruct (lt x v); cbn [length]; lia. Qed.
  Lemma count_all v l : Forall (fun y => lt y v = true) l -> count v l = length l.
  Proof. unfold count. induction 1 as [|x l Hx _ IH]; [reflexivity|]. cbn [filter]. rewrite Hx. cbn [length]. now rewrite IH. Qed.
  Lemma count_perm v a b : Permutation a b -> count v a = count v b.
  Proof. unfold count. induction 1; cbn [filter]; [reflexivity|destruct (lt x v); cbn [length]; lia|destruct (lt y v), (lt x v); reflexivity|lia]. Qed.
  Lemma count_pos v l : 0 < count v l -> has_below v l.
  Proof.
    unfold count. destruct (filter (fun y => lt y v) l) as [|y r] eqn:E; [cbn; lia|]. intros _. exists y. apply (filter_In (fun y => lt y v)). rewrite E. now left.
  Qed.
  Lemma count_below v ls : total A (map (below A lt (Some v)) ls) <= count v (concat ls).
  Proof.
    unfold total. induction ls as [|l ls IH]; [cbn; lia|]. cbn [map concat]. rewrite app_length, count_app. destruct (below_prefix v l) as (r & E). rewrite E at 2. rewrite count_app, (count_all _ _ (below_all v l)). lia.
  Qed.

  Hypothesis SW : strict_weak lt.
  Variable mm : list (list A) -> nat -> list A * list (list A).
  Hypothesis Hmm : forall seqs n, Forall (sorted lt) seqs -> n <= length (concat seqs) -> merged lt false seqs n (fst (mm seqs n)) (snd (mm seqs n)).
  Variable srt : list A -> list A.
  Hypothesis Hsrt : sorts lt srt.
  Variables (cap bs ebl lsz maxl : nat).
  Hypothesis Hbs : 0 < bs.
  Definition arrives (n : nat) (waits : list nat) : Prop := Forall (fun k => 0 < k) waits /\ n <= length waits.

  Lemma fetch_below d1 d2 waits limit s z : Inv s -> arrives (length (elements s)) waits -> 0 < ebl -> fetch A lt mm srt bs ebl lsz maxl d1 d2 waits limit s = Some z ->
    (forall y, In y (concat (heaps (queue z))) -> lt y limit = false) /\
    (whole z = false -> has_below limit (elements (queue z))) /\ (has_below limit (elements s) -> eb (queue z) <> []).
  Proof.
    intros (Hh & Hi) (Hw & Hl) He H. unfold fetch in H. destruct (bulk_pop_limit A lt mm srt bs lsz maxl d1 d2 waits limit ebl s) as [((out, full), s')|] eqn:E; [|discriminate]. cbn [fst snd] in H. injection H as <-.
    destruct (bulk_pop_limit_reg A lt SW mm Hmm srt Hsrt bs lsz maxl Hbs _ _ _ _ _ _ _ _ _ (conj Hh Hi) E) as (N & _). rename E into H.
    unfold bulk_pop_limit in H. destruct (convert_eb A mm bs lsz maxl d1 s) as [s1|] eqn:E1; [|discriminate].
    destruct (convert_eb_ok A lt mm Hmm bs lsz maxl Hbs d1 s s1 Hi E1) as (C1 & C2 & C3 & C4).
    assert (Hi1 : Inv s1) by (split; [rewrite C3; exact Hh|exact C1]).
    assert (P1 : Permutation (elements s1) (elements s)) by (rewrite !elements_inner, C3, C4; reflexivity).
    set (r := if 0 <? total A (heaps s1) then _ else _) in H.
    assert (Hr : forall s2, r = Some s2 -> Inv s2 /\ eb s2 = [] /\ Permutation (elements s2) (elements s1) /\ forall y, In y (concat (heaps s2)) -> lt y limit = false).
    { intros s2 E. unfold r in E. destruct (0 <? total A (heaps s1)) eqn:Et; [exact (flush_limit_ok A lt SW mm Hmm srt Hsrt bs lsz maxl Hbs d2 limit s1 s2 Hi1 C2 E)|]. injection E as <-. split; [exact Hi1|]. split; [exact C2|]. split; [reflexivity|].
      intros y Hy. rewrite (total_zero _ _ Et) in Hy. contradiction. }
    destruct r as [s2|]; [|discriminate]. destruct (Hr s2 eq_refl) as ((G1 & G2 & G3 & G4 & _) & B1 & B2 & B3).
    destruct (reach A lt waits limit (eas s2)) as ((es, v), fl) eqn:Er. destruct (reach_ok A lt SW limit waits _ _ _ _ G4 Er) as (W1 & W2 & W3 & W4 & W5). cbv zeta in H.
    assert (P2 : Permutation (elements s) (concat (heaps s2) ++ ints (ias s2) ++ exts es)).
    { rewrite <- P1, <- B2, elements_inner. unfold Ppq.inner. rewrite B1. unfold Ppq.exts. rewrite W2. reflexivity. }
    assert (Hf : fl = true).
    { apply (reach_enough A lt limit waits Hw (eas s2) es v fl); [|exact Er]. pose proof (nblocks_le A lt _ G4) as Hb. rewrite <- P1, <- B2 in Hl || rewrite <- (Permutation_length P1), <- (Permutation_length B2) in Hl.
      rewrite elements_inner in Hl. unfold Ppq.inner in Hl. rewrite !app_length in Hl. lia. }
    pose proof (W5 Hf) as Ev. subst v. set (t := total A (map (below A lt (Some limit)) (arrays A es (ias s2)))) in *.
    destruct (take A lt mm (Some limit) (Nat.min t ebl) es (ias s2)) as ((out', l'), es') eqn:Et. injection H as <- <- <-.
    destruct (take_ok A lt SW mm Hmm (Some limit) _ es _ out' l' es' W1 G3 W3 (Nat.le_min_l t ebl) Et) as (T1 & _ & T3 & _ & _ & _ & _ & T8 & T9).
    cbn [PpqLimitModel.queue PpqLimitModel.whole PpqModel.heaps PpqModel.eb PpqModel.ias PpqModel.eas] in *. split; [exact B3|]. split.
    - intro Hfull. rewrite Hf in Hfull. cbn [andb] in Hfull. apply Nat.leb_gt in Hfull.
      assert (Hb : has_below limit (ints l' ++ exts es')).
      { apply count_pos. pose proof (count_perm limit _ _ T3) as Q. rewrite count_app in Q. pose proof (count_le limit out') as Q1. rewrite T1, (Nat.min_r t ebl) in Q1 by (apply Nat.lt_le_incl; exact Hfull).
        pose proof (count_below limit (arrays A es (ias s2))) as Q2. fold t in Q2.
        assert (Q3 : count limit (concat (arrays A es (ias s2))) <= count limit (ints (ias s2) ++ exts es)).
        { unfold arrays. rewrite concat_app, !count_app. unfold Ppq.ints.
          assert (Q4 : count limit (concat (map (eram A) es)) <= count limit (exts es)); [|lia]. unfold Ppq.exts. clear. induction es as [|e es IH]; [cbn; lia|]. cbn [map concat]. unfold eall at 1. rewrite !count_app. lia. }
        assert (Q5 : ebl < count limit (ints (ias s2) ++ exts es)) by (eapply Nat.lt_le_trans; [exact Hfull|]; eapply Nat.le_trans; [exact Q2|exact Q3]). lia. }
      destruct Hb as (y & Hy & Hlt). exists y. split; [|exact Hlt]. rewrite elements_inner. unfold Ppq.inner. cbn [PpqModel.heaps PpqModel.eb PpqModel.ias PpqModel.eas]. apply in_app_iff. right. apply in_app_iff. now right.
    - intros (y & Hy & Hlt) Hn. rewrite Hn in *. cbn [length] in T1. assert (Ht : Nat.min t ebl = t).
      { destruct (Nat.min_spec t ebl) as [(_ & ->)|(_ & Em)]; [reflexivity|]. rewrite Em in T1. lia. }
      apply (Permutation_in _ P2) in Hy. apply in_app_iff in Hy. destruct Hy as [Hy|Hy]; [rewrite (B3 y Hy) in Hlt; discriminate|].
      apply (Permutation_in _ (Permutation_sym T3)) in Hy. cbn [app] in Hy. rewrite (T9 Ht y Hy) in Hlt. discriminate.
  Qed.
  Lemma fetch_some d1 d2 waits limit s : Forall (sorted lt) (heaps s) -> eb s = [] -> (forall y, In y (concat (heaps s)) -> lt y limit = false) -> fetch A lt mm srt bs ebl lsz maxl d1 d2 waits limit s <> None.
  Proof.
    intros Hs Hb Hh. unfold fetch, bulk_pop_limit, convert_eb. rewrite Hb. cbn [is_nil].
    assert (E : flush_limit A lt mm srt bs lsz maxl d2 limit s = Some s).
    { unfold flush_limit. assert (Ev : concat (map (below A lt (Some limit)) (heaps s)) = []).
      { clear Hs. induction (heaps s) as [|h l IH]; [reflexivity|]. cbn [map concat]. rewrite IH by (intros y Hy; apply Hh; cbn [concat]; apply in_app_iff; now right). rewrite app_nil_r.
        destruct h as [|x h]; [reflexivity|]. cbn [below lower]. rewrite (Hh x) by (now left). reflexivity. }
      rewrite Ev. reflexivity. }
    rewrite E. destruct (if 0 <? total A (heaps s) then Some s else Some s) as [s2|] eqn:E2; [|destruct (0 <? total A (heaps s)); discriminate].
    destruct (reach A lt waits limit (eas s2)) as ((es, v), fl). cbv zeta. destruct (take _ _ _ _ _ _ _) as ((out, l), es'). discriminate.
  Qed.

  Definition PInv (z : session) : Prop :=
    SInv A lt z /\ (forall y, In y (concat (heaps (queue z))) -> lt y (mark z) = false) /\ (whole z = false -> has_below (mark z) (elements (queue z))).
  Lemma push_heaps d p x s s' y : push A lt mm srt cap bs lsz maxl d p x s = Some s' -> Inv s -> In y (concat (heaps s')) -> y = x \/ In y (concat (heaps s)).
  Proof.
    intros H Hi Hy. unfold push in H. destruct (nth_error (heaps s) p) as [h|] eqn:Eh; [|discriminate].
    set (r := if cap <=? length h then _ else _) in H. assert (Hr : forall s1, r = Some s1 -> forall w, In w (concat (heaps s1)) -> In w (concat (heaps s))).
    { intros s1 E. unfold r in E. destruct (cap <=? length h); [|injection E as <-; auto]. unfold flush_heap in E.
      destruct (free_memory A mm bs lsz maxl d s) as [s2|] eqn:E2; [|discriminate]. destruct (add_array _ _ _ _ _ _ _ _) as [l|]; [|discriminate]. injection E as <-. cbn [PpqModel.heaps].
      destruct (free_memory_ok A lt mm Hmm bs lsz maxl Hbs d s s2 (proj2 Hi) E2) as (_ & F2 & _). rewrite F2. destruct (set_nth_split (heaps s) p h [] Eh) as (l1 & l2 & -> & ->).
      intro w. rewrite !concat_app. cbn [concat]. rewrite !in_app_iff. cbn [In]. tauto. }
    destruct r as [s1|]; [|discriminate]. destruct (nth_error (heaps s1) p) as [h1|] eqn:E1; [|discriminate]. injection H as <-. cbn [PpqModel.heaps] in Hy.
    destruct (set_nth_split (heaps s1) p h1 (insert lt x h1) E1) as (l1 & l2 & El & Es). rewrite Es in Hy. rewrite concat_app in Hy. cbn [concat] in Hy.
    assert (Hq : y = x \/ In y (concat (heaps s1))).
    { rewrite El, concat_app. cbn [concat]. rewrite !in_app_iff in *. destruct Hy as [Hy|[Hy|Hy]]; auto. apply (Permutation_in _ (insert_perm A lt x h1)) in Hy. destruct Hy as [->|Hy]; auto. }
    destruct Hq as [->|Hq]; [now left|right]. exact (Hr s1 eq_refl y Hq).
  Qed.
  Lemma has_below_perm v a b : Permutation a b -> has_below v a -> has_below v b.
  Proof. intros P (y & Hy & Hlt). exists y. split; [exact (Permutation_in _ P Hy)|exact Hlt]. Qed.
  Lemma fetch_PInv d1 d2 waits limit s z : Inv s -> arrives (length (elements s)) waits -> 0 < ebl -> fetch A lt mm srt bs ebl lsz maxl d1 d2 waits limit s = Some z -> PInv z.
  Proof.
    intros Hi Ha He H. destruct (fetch_ok A lt SW mm Hmm srt Hsrt bs ebl lsz maxl Hbs d1 d2 waits limit s z Hi H) as (F1 & F2 & _). destruct (fetch_below d1 d2 waits limit s z Hi Ha He H) as (B1 & B2 & _).
    split; [exact F1|]. rewrite F2. auto.
  Qed.
  Lemma push_PInv d p x z z' : PInv z -> limit_push A lt mm srt cap bs lsz maxl d p x z = Some z' -> PInv z'.
  Proof.
    intros (Hz & Hh & Hn) H. destruct (limit_push_ok A lt SW mm Hmm srt Hsrt cap bs lsz maxl Hbs d p x z z' Hz H) as (F1 & F2 & F3). split; [exact F1|]. rewrite F2.
    unfold limit_push in H. destruct (lt x (mark z)) eqn:Ex; [discriminate|]. destruct (push A lt mm srt cap bs lsz maxl d p x (queue z)) as [s|] eqn:E; [|discriminate]. injection H as <-.
    cbn [PpqLimitModel.queue PpqLimitModel.whole] in *. split.
    - intros y Hy. destruct (push_heaps d p x _ s y E (proj1 Hz) Hy) as [->|Hy']; [exact Ex|exact (Hh y Hy')].
    - intro Hw. apply (has_below_perm _ _ _ (Permutation_sym F3)). apply andb_false_iff in Hw. destruct Hw as [Hw|Hw].
      + destruct (Hn Hw) as (y & Hy & Hlt). exists y. split; [now right|exact Hlt].
      + apply orb_false_iff in Hw. destruct Hw as (Hw & _). destruct (eb (queue z)) as [|y b] eqn:Eb; [discriminate|]. exists y. destruct (hd_minimal A lt SW z y b Hz Eb) as ((M & _) & Hlt). split; [now right|exact Hlt].
  Qed.
  Lemma top_PInv d1 d2 waits z x z' : PInv z -> arrives (length (elements (queue z))) waits -> 0 < ebl -> limit_top A lt mm srt bs ebl lsz maxl d1 d2 waits z = Some (x, z') -> PInv z'.
  Proof.
    intros Hz Ha He H. unfold limit_top in H. destruct (is_nil (eb (queue z)) && whole z); [injection H as <- <-; exact Hz|].
    destruct (is_nil (eb (queue z))).
    - destruct (fetch A lt mm srt bs ebl lsz maxl d1 d2 waits (mark z) (queue z)) as [z1|] eqn:E; [|discriminate]. destruct (hd_error (eb (queue z1))); [|discriminate]. injection H as <- <-. exact (fetch_PInv _ _ _ _ _ _ (proj1 (proj1 Hz)) Ha He E).
    - destruct (hd_error (eb (queue z))); [|discriminate]. injection H as <- <-. exact Hz.
  Qed.
  Lemma popped z x b : PInv z -> eb (queue z) = x :: b -> let s := St A (heaps (queue z)) b (ias (queue z)) (eas (queue z)) in Inv s /\ Permutation (elements (queue z)) (x :: elements s).
  Proof.
    intros (((Hh & H1 & H2 & H3 & H4) & _) & _) Eb s. rewrite Eb in H1, H4. split.
    - split; [exact Hh|]. split; [inversion H1; assumption|]. split; [exact H2|]. split; [exact H3|]. intro Hb. destruct (H4 ltac:(discriminate)) as (R & Q). split; [exact R|]. intros a y Ha. apply (Q a y). now right.
    - rewrite (elements_rest A s), (elements_rest A (queue z)), Eb. reflexivity.
  Qed.
  Lemma pop_PInv d1 d2 waits z z' : PInv z -> arrives (length (elements (queue z))) waits -> 0 < ebl -> limit_pop A lt mm srt bs ebl lsz maxl d1 d2 waits z = Some z' -> PInv z'.
  Proof.
    intros Hz (Hw & Hl) He H. destruct (limit_pop_ok A lt SW mm Hmm srt Hsrt bs ebl lsz maxl Hbs d1 d2 waits z z' (proj1 Hz) H) as (F1 & F2 & _).
    unfold limit_pop in H. destruct (eb (queue z)) as [|x b] eqn:Eb; [discriminate|]. cbv zeta in H. destruct (popped z x b Hz Eb) as (P1 & P2). set (s := St A (heaps (queue z)) b (ias (queue z)) (eas (queue z))) in *.
    destruct (is_nil b && negb (whole z)) eqn:En.
    - apply (fetch_PInv d1 d2 waits (mark z) s z' P1); [|exact He|exact H]. split; [exact Hw|]. rewrite (Permutation_length P2) in Hl. cbn [length] in Hl. lia.
    - injection H as <-. split; [exact F1|]. destruct Hz as (Hz & Hh & Hn). cbn [PpqLimitModel.queue PpqLimitModel.mark PpqLimitModel.whole]. split; [exact Hh|]. intro Hf. rewrite Hf in En. cbn [negb] in En. rewrite andb_true_r in En.
      destruct b as [|y b]; [discriminate|]. exists y. split; [|destruct Hz as (_ & S1 & _); apply S1; rewrite Eb; right; now left].
      apply (Permutation_in _ (Permutation_sym (elements_rest A s))). now left.
  Qed.
  Lemma top_some d1 d2 waits z : PInv z -> arrives (length (elements (queue z))) waits -> 0 < ebl -> limit_top A lt mm srt bs ebl lsz maxl d1 d2 waits z <> None.
  Proof.
    intros Hz Ha He. destruct Hz as (Hz & Hh & Hn). unfold limit_top. destruct (eb (queue z)) as [|x b] eqn:Eb; cbn [is_nil andb]; [|rewrite Eb; discriminate].
    destruct (whole z) eqn:Ew; [discriminate|]. destruct (fetch A lt mm srt bs ebl lsz maxl d1 d2 waits (mark z) (queue z)) as [z1|] eqn:E; [|contradiction (fetch_some d1 d2 waits _ _ (proj1 (proj1 Hz)) Eb Hh E)].
    destruct (fetch_below d1 d2 waits _ _ z1 (proj1 Hz) Ha He E) as (_ & _ & B3). specialize (B3 (Hn eq_refl)). destruct (eb (queue z1)); [congruence|]. discriminate.
  Qed.
  Lemma pop_some d1 d2 waits z : PInv z -> eb (queue z) <> [] -> limit_pop A lt mm srt bs ebl lsz maxl d1 d2 waits z <> None.
  Proof.
    intros Hz Hb. unfold limit_pop. destruct (eb (queue z)) as [|x b] eqn:Eb; [congruence|]. cbv zeta. destruct (popped z x b Hz Eb) as ((P0 & _) & _). destruct b as [|y b]; cbn [is_nil andb]; [|discriminate]. destruct (whole z); cbn [negb]; [discriminate|].
    apply fetch_some; [exact P0|reflexivity|]. exact (proj1 (proj2 Hz)).
  Qed.
  Lemma top_buffer d1 d2 waits z x z' : PInv z -> limit_top A lt mm srt bs ebl lsz maxl d1 d2 waits z = Some (x, z') -> has_below (mark z) (elements (queue z)) -> eb (queue z') <> [].
  Proof.
    intros Hz H (y & Hy & Hlt). unfold limit_top in H. destruct (is_nil (eb (queue z)) && whole z) eqn:En.
    - apply andb_true_iff in En. destruct En as (En & Ew). apply is_nil_true in En. destruct Hz as ((_ & _ & _ & S3) & _). apply (Permutation_in _ (elements_rest A _)) in Hy. rewrite En in Hy. cbn [app] in Hy. rewrite (S3 Ew y Hy) in Hlt. discriminate.
    - destruct (if is_nil (eb (queue z)) then _ else _) as [z1|]; [|discriminate]. destruct (eb (queue z1)) as [|a b] eqn:Eb; [discriminate|]. cbn [hd_error] in H. injection H as <- <-. rewrite Eb. discriminate.
  Qed.
End Limit.
