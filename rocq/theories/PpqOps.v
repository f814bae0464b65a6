(** The operations of the parallel priority queue, one by one. *)
From Coq Require Import List Bool Arith Lia Permutation Sorted.
From Verif Require Import OrderLib MwmergeSpec MwSortModel MwSort PpqModel PpqSpec Ppq PpqTake.
Import ListNotations.
Open Scope nat_scope.

Section Ppq.
  Variable A : Type.
  Variable lt : A -> A -> bool.
  Hypothesis SW : strict_weak lt.
  Variable mm : list (list A) -> nat -> list A * list (list A).
  Hypothesis Hmm : forall seqs n, Forall (sorted lt) seqs -> n <= length (concat seqs) -> merged lt false seqs n (fst (mm seqs n)) (snd (mm seqs n)).
  Variable srt : list A -> list A.
  Hypothesis Hsrt : sorts lt srt.
  Variables (cap bs ebl lsz maxl : nat).
  Notation iarr := (iarr A). Notation earr := (earr A). Notation st := (st A).
  Notation ivals := (ivals A). Notation eall := (eall A). Notation itree := (itree A).
  Notation heaps := (heaps A). Notation eb := (eb A). Notation ias := (ias A). Notation eas := (eas A).
  Notation eok := (eok A lt). Notation iok := (iok A lt). Notation reg := (reg A). Notation ints := (ints A). Notation exts := (exts A).
  Notation Inn := (Inn A lt). Notation inner := (inner A). Notation elements := (elements A).
  Notation free_memory := (free_memory A mm bs lsz maxl). Notation add_array := (add_array A mm lsz maxl).

  Definition Inv (s : st) : Prop := Forall (sorted lt) (heaps s) /\ Inn s.
  Lemma middle3 (a : A) x y z w : Permutation (x ++ y ++ z ++ a :: w) (a :: x ++ y ++ z ++ w).
  Proof. rewrite !app_assoc. symmetry. apply Permutation_middle. Qed.
  Lemma candidates_in {X} (f : X -> option A) mk l : forall i a c, In (a, c) (candidates A f mk i l) -> exists j x, nth_error l j = Some x /\ f x = Some a /\ c = mk (i + j).
  Proof.
    induction l as [|x l IH]; intros i a c H; [contradiction|]. cbn [candidates] in H.
    assert (Hrec : In (a, c) (candidates A f mk (S i) l) -> exists j y, nth_error (x :: l) j = Some y /\ f y = Some a /\ c = mk (i + j)).
    { intro Hin. destruct (IH _ _ _ Hin) as (j & y & H1 & H2 & H3). exists (S j), y. replace (i + S j) with (S i + j) by lia. auto. }
    destruct (f x) as [b|] eqn:E; [|auto]. destruct H as [H|H]; [|auto]. injection H as <- <-. exists 0, x. rewrite Nat.add_0_r. auto.
  Qed.
  Lemma candidates_has {X} (f : X -> option A) mk l : forall i x a, In x l -> f x = Some a -> exists c, In (a, c) (candidates A f mk i l).
  Proof.
    induction l as [|y l IH]; intros i x a H E; [contradiction|]. cbn [candidates]. destruct H as [->|H].
    - rewrite E. eexists. left. reflexivity.
    - destruct (IH (S i) x a H E) as (c & Hc). exists c. destruct (f y); [right|]; exact Hc.
  Qed.
  Lemma least_ok l : forall c, least A lt l = Some c -> In c l /\ forall c', In c' l -> le lt (fst c) (fst c').
  Proof.
    induction l as [|b l IH]; intros c H; [discriminate|]. cbn [least] in H. destruct (least A lt l) as [d|] eqn:E.
    - destruct (IH d eq_refl) as (H1 & H2). destruct (lt (fst d) (fst b)) eqn:El; injection H as <-.
      + split; [now right|]. intros c' [<-|Hc]; [apply (lt_le A lt SW); exact El|auto].
      + split; [now left|]. intros c' [<-|Hc]; [apply (le_refl A lt SW)|]. apply (le_trans A lt SW _ (fst d)); [exact El|auto].
    - injection H as <-. split; [now left|]. intros c' [<-|Hc]; [apply (le_refl A lt SW)|]. destruct l as [|z l]; [contradiction|]. cbn [least] in E. destruct (least A lt l); [destruct (lt _ _)|]; discriminate.
  Qed.
  Lemma hd_least (l : list A) y : sorted lt l -> In y l -> exists a r, l = a :: r /\ le lt a y.
  Proof. destruct l as [|a r]; intros Hs Hy; [contradiction|]. exists a, r. split; [reflexivity|exact (sorted_hd A lt SW a r y Hs Hy)]. Qed.
  Lemma players_cover s y : Inv s -> (eb s = [] -> inner s = []) -> In y (elements s) -> exists c, In c (players A s) /\ le lt (fst c) y.
  Proof.
    intros (Hh & H1 & H2 & H3 & H4) Hne Hy. rewrite elements_inner in Hy. unfold players. apply in_app_iff in Hy. destruct Hy as [Hy|Hy].
    - apply in_concat in Hy. destruct Hy as (h & Hin & Hy). rewrite Forall_forall in Hh. destruct (hd_least h y (Hh h Hin) Hy) as (a & r & -> & Hle).
      destruct (candidates_has (@hd_error A) Heap _ 0 _ a Hin eq_refl) as (c & Hc). exists (a, c). split; [apply in_app_iff; now left|exact Hle].
    - assert (Hb : eb s <> []) by (intro E; rewrite (Hne E) in Hy; contradiction). destruct (H4 Hb) as (R & Q). unfold Ppq.inner in Hy.
      destruct (eb s) as [|b r] eqn:Eb; [congruence|].
      assert (Hbuf : forall z, le lt b z -> exists c, In c (players A s) /\ le lt (fst c) z).
      { intros z Hz. exists (b, Buf). split; [|exact Hz]. unfold players. rewrite Eb. cbn [candidates hd_error]. apply in_app_iff. right. apply in_app_iff. right. left. reflexivity. }
      unfold players in Hbuf. rewrite Eb in Hbuf. apply in_app_iff in Hy. destruct Hy as [Hy|Hy]; [apply Hbuf; exact (sorted_hd A lt SW b r y H1 Hy)|].
      apply in_app_iff in Hy. destruct Hy as [Hy|Hy]; [|apply Hbuf; apply (Q b y); [now left|exact Hy]].
      apply in_concat in Hy. destruct Hy as (v & Hin & Hy). apply in_map_iff in Hin. destruct Hin as (i & <- & Hin). unfold Ppq.iok in H2. unfold Ppq.reg in R. rewrite Forall_forall in H2, R.
      destruct (hd_least _ y (H2 i Hin) Hy) as (a & t & Ea & Hle). destruct (R i Hin) as [C|Ht]; [rewrite Ea in C; discriminate|].
      destruct (candidates_has (fun i => if itree i then hd_error (ivals i) else None) Int (ias s) 0 i a Hin) as (c & Hc); [rewrite Ht, Ea; reflexivity|].
      exists (a, c). split; [|exact Hle]. apply in_app_iff. right. apply in_app_iff. now left.
  Qed.

  Lemma ensure_ok waits s s' : Inv s -> ensure A lt mm ebl waits s = Some s' -> Inv s' /\ Permutation (elements s') (elements s) /\ (eb s' = [] -> inner s' = []).
  Proof.
    intros (Hh & Hi) H. unfold ensure in H. destruct (is_nil (eb s)) eqn:En.
    - apply is_nil_true in En. destruct (refill_ok A lt SW mm Hmm ebl waits _ _ s s' Hi En H) as (R1 & R2 & R3 & R4 & _).
      split; [split; [rewrite R2; exact Hh|exact R1]|]. split; [rewrite !elements_inner, R2, R3; reflexivity|exact R4].
    - injection H as <-. split; [split; assumption|]. split; [reflexivity|]. intro E. rewrite E in En. discriminate.
  Qed.
  Lemma removal s c : Inv s -> In c (players A s) -> exists s', Inv s' /\ Permutation (elements s) (fst c :: elements s') /\
    (match snd c with
     | Heap p => match nth_error (heaps s) p with Some h => Some (St A (set_nth p (tl h) (heaps s)) (eb s) (ias s) (eas s)) | None => None end
     | Int i => match nth_error (ias s) i with Some a => Some (St A (heaps s) (eb s) (set_nth i (IA A (ilevel A a) (tl (ivals a)) (itree a)) (ias s)) (eas s)) | None => None end
     | Buf => Some (St A (heaps s) (tl (eb s)) (ias s) (eas s))
     end) = Some s'.
  Proof.
    intros (Hh & H1 & H2 & H3 & H4) Hc. destruct c as (a, c). cbn [fst snd]. unfold players in Hc. apply in_app_iff in Hc. destruct Hc as [Hc|Hc]; [|apply in_app_iff in Hc; destruct Hc as [Hc|Hc]].
    - destruct (candidates_in _ _ _ _ _ _ Hc) as (p & h & E1 & E2 & ->). cbn [Nat.add]. rewrite E1. eexists. split; [|split; [|reflexivity]].
      + destruct (set_nth_split (heaps s) p h (tl h) E1) as (l1 & l2 & El & Es). split; [|split; [exact H1|split; [exact H2|split; [exact H3|exact H4]]]].
        cbn [PpqModel.heaps]. rewrite Es. rewrite El in Hh. apply Forall_app in Hh. destruct Hh as (G1 & G2). inversion G2 as [|? ? G3 G4]; subst. apply Forall_app. split; [exact G1|].
        constructor; [|exact G4]. destruct h; [constructor|inversion G3; assumption].
      + destruct (set_nth_split (heaps s) p h (tl h) E1) as (l1 & l2 & El & Es). unfold PpqModel.elements. cbn [PpqModel.heaps PpqModel.eb PpqModel.ias PpqModel.eas]. rewrite Es, El.
        destruct h as [|b r]; [discriminate|]. injection E2 as ->. cbn [tl]. rewrite !concat_app. cbn [concat app]. rewrite <- !app_assoc. cbn [app]. rewrite <- ?app_assoc. symmetry. apply Permutation_middle.
    - destruct (candidates_in _ _ _ _ _ _ Hc) as (p & i & E1 & E2 & ->). cbn [Nat.add]. rewrite E1. destruct (itree i) eqn:Et; [|discriminate].
      set (i' := IA A (ilevel A i) (tl (ivals i)) true). destruct (set_nth_split (ias s) p i i' E1) as (l1 & l2 & El & Es). eexists. split; [|split; [|reflexivity]]; fold i'.
      + split; [exact Hh|]. split; [exact H1|]. cbn [PpqModel.ias PpqModel.eas PpqModel.eb]. rewrite Es. split; [|split; [exact H3|]].
        * rewrite El in H2. apply Forall_app in H2. destruct H2 as (G1 & G2). inversion G2 as [|? ? G3 G4]; subst. apply Forall_app. split; [exact G1|].
          constructor; [|exact G4]. unfold i'. cbn [PpqModel.ivals]. destruct (ivals i); [constructor|inversion G3; assumption].
        * intro Hb. destruct (H4 Hb) as (R & Q). split; [|exact Q]. rewrite El in R. apply Forall_app in R. destruct R as (G1 & G2). inversion G2 as [|? ? G3 G4]; subst. apply Forall_app. split; [exact G1|].
          constructor; [right; reflexivity|exact G4].
      + unfold PpqModel.elements. cbn [PpqModel.heaps PpqModel.eb PpqModel.ias PpqModel.eas]. rewrite Es, El.
        rewrite !map_app, !concat_app. cbn [map concat]. unfold i'. cbn [PpqModel.ivals]. destruct (ivals i) as [|b r]; [discriminate|]. injection E2 as ->. cbn [tl app].
        rewrite <- !app_assoc. cbn [app]. rewrite <- ?app_assoc. apply middle3.
    - destruct (candidates_in _ _ _ _ _ _ Hc) as (p & h & E1 & E2 & ->). destruct p as [|p]; [|destruct p; discriminate]. injection E1 as <-. destruct (eb s) as [|b r] eqn:Eb; [discriminate|]. injection E2 as ->.
      eexists. split; [|split; [|reflexivity]]; cbn [tl].
      + split; [exact Hh|]. split; [inversion H1; assumption|]. split; [exact H2|]. split; [exact H3|]. cbn [PpqModel.eb PpqModel.ias PpqModel.eas]. intro Hb. destruct (H4 ltac:(discriminate)) as (R & Q).
        split; [exact R|]. intros x y Hx Hy. apply (Q x y); [now right|exact Hy].
      + unfold PpqModel.elements. cbn [PpqModel.heaps PpqModel.eb PpqModel.ias PpqModel.eas]. rewrite Eb. cbn [app]. symmetry. apply Permutation_middle.
  Qed.
  Lemma least_minimal s c : Inv s -> (eb s = [] -> inner s = []) -> least A lt (players A s) = Some c -> minimal lt (fst c) (elements s).
  Proof.
    intros Hi Hne H. destruct (least_ok _ c H) as (H1 & H2). split.
    - destruct (removal s c Hi H1) as (s' & _ & P & _). apply (Permutation_in _ (Permutation_sym P)). now left.
    - intros y Hy. destruct (players_cover s y Hi Hne Hy) as (c' & Hc & Hle). exact (le_trans A lt SW _ _ _ (H2 c' Hc) Hle).
  Qed.
  Lemma minimal_perm x l l' : Permutation l l' -> minimal lt x l -> minimal lt x l'.
  Proof. intros P (H1 & H2). split; [exact (Permutation_in _ P H1)|]. intros y Hy. apply H2. exact (Permutation_in _ (Permutation_sym P) Hy). Qed.
  Lemma top_ok waits s x s' : Inv s -> top A lt mm ebl waits s = Some (x, s') -> Inv s' /\ minimal lt x (elements s) /\ Permutation (elements s') (elements s).
  Proof.
    intros Hi H. unfold top in H. destruct (ensure A lt mm ebl waits s) as [s1|] eqn:E; [|discriminate]. destruct (ensure_ok waits s s1 Hi E) as (E1 & E2 & E3).
    destruct (least A lt (players A s1)) as [c|] eqn:El; [|discriminate]. injection H as <- <-. split; [exact E1|]. split; [|exact E2].
    exact (minimal_perm _ _ _ E2 (least_minimal s1 c E1 E3 El)).
  Qed.
  Lemma pop_ok waits s s' : Inv s -> pop A lt mm ebl waits s = Some s' -> Inv s' /\ exists x, minimal lt x (elements s) /\ Permutation (elements s) (x :: elements s').
  Proof.
    intros Hi H. unfold pop in H. destruct (ensure A lt mm ebl waits s) as [s1|] eqn:E; [|discriminate]. destruct (ensure_ok waits s s1 Hi E) as (E1 & E2 & E3).
    destruct (least A lt (players A s1)) as [c|] eqn:El; [|discriminate]. destruct (removal s1 c E1 (proj1 (least_ok _ c El))) as (s2 & R1 & R2 & R3).
    rewrite R3 in H. injection H as <-. split; [exact R1|]. exists (fst c). split; [exact (minimal_perm _ _ _ E2 (least_minimal s1 c E1 E3 El))|]. rewrite <- E2. exact R2.
  Qed.

  Lemma total_zero (l : list (list A)) : (0 <? total A l) = false -> concat l = [].
  Proof. unfold total. intro H. apply Nat.ltb_ge in H. destruct (concat l); [reflexivity|cbn in H; lia]. Qed.
  Hypothesis Hbs : 0 < bs.
  Lemma push_ok d p x s s' : Inv s -> push A lt mm srt cap bs lsz maxl d p x s = Some s' -> Inv s' /\ Permutation (elements s') (x :: elements s).
  Proof.
    intros (Hh & Hi) H. unfold push in H. destruct (nth_error (heaps s) p) as [h|] eqn:Eh; [|discriminate].
    set (r := if cap <=? length h then _ else _) in H.
    assert (Hr : forall s1, r = Some s1 -> Inv s1 /\ Permutation (elements s1) (elements s)).
    { intros s1 E. unfold r in E. destruct (cap <=? length h); [|injection E as <-; split; [split; assumption|reflexivity]]. unfold flush_heap in E.
      destruct (free_memory d s) as [s2|] eqn:E2; [|discriminate]. destruct (free_memory_ok A lt mm Hmm bs lsz maxl Hbs d s s2 Hi E2) as (F1 & F2 & F3).
      destruct (add_array d (eb s2) (ias s2) (srt h)) as [l|] eqn:El; [|discriminate]. injection E as <-. destruct (Hsrt h) as (S1 & S2).
      destruct (add_array_ok A lt mm Hmm lsz maxl d s2 (srt h) l (set_nth p [] (heaps s2)) F1 S2 El) as (A1 & A2).
      destruct (set_nth_split (heaps s) p h [] Eh) as (l1 & l2 & Eq & Es). split.
      - split; [|exact A1]. cbn [PpqModel.heaps]. rewrite F2, Es. rewrite Eq in Hh. apply Forall_app in Hh. destruct Hh as (G1 & G2). inversion G2; subst. apply Forall_app. split; [assumption|]. constructor; [constructor|assumption].
      - rewrite !elements_inner. cbn [PpqModel.heaps]. rewrite A2, F3, S1, F2, Es, Eq, !concat_app. cbn [concat]. perm. }
    destruct r as [s1|]; [|discriminate]. destruct (Hr s1 eq_refl) as ((Hh1 & Hi1) & P1). destruct (nth_error (heaps s1) p) as [h1|] eqn:Eh1; [|discriminate]. injection H as <-.
    destruct (set_nth_split (heaps s1) p h1 (insert lt x h1) Eh1) as (l1 & l2 & Eq & Es). split.
    - split; [|exact Hi1]. cbn [PpqModel.heaps]. rewrite Es. rewrite Eq in Hh1. apply Forall_app in Hh1. destruct Hh1 as (G1 & G2). inversion G2; subst. apply Forall_app. split; [assumption|].
      constructor; [apply (insert_sorted A lt SW); assumption|assumption].
    - rewrite <- P1. unfold PpqModel.elements. cbn [PpqModel.heaps PpqModel.eb PpqModel.ias PpqModel.eas]. rewrite Es, Eq, !concat_app. cbn [concat]. rewrite (insert_perm A lt x h1). rewrite <- !app_assoc. cbn [app]. rewrite <- ?app_assoc. symmetry. apply Permutation_middle.
  Qed.

  Lemma flush_heaps_ok d s s' : Inv s -> flush_heaps A mm srt bs lsz maxl d s = Some s' -> Inv s' /\ concat (heaps s') = [] /\ Permutation (elements s') (elements s).
  Proof.
    intros (Hh & Hi) E. unfold flush_heaps in E. destruct (free_memory d s) as [s2|] eqn:E2; [|discriminate]. destruct (free_memory_ok A lt mm Hmm bs lsz maxl Hbs d s s2 Hi E2) as (F1 & F2 & F3).
    cbv zeta in E. destruct (mm_all A lt mm Hmm (map srt (heaps s2))) as (S1 & S2).
    { apply Forall_map. rewrite Forall_forall. intros h _. apply Hsrt. }
    destruct (add_array d (eb s2) (ias s2) _) as [l|] eqn:El; [|discriminate]. injection E as <-.
    destruct (add_array_ok A lt mm Hmm lsz maxl d s2 _ l (map (fun _ => []) (heaps s2)) F1 S1 El) as (A1 & A2).
    assert (En : concat (map (fun _ : list A => @nil A) (heaps s2)) = []) by (clear; induction (heaps s2) as [|? ? IH]; [reflexivity|exact IH]).
    split; [split; [cbn [PpqModel.heaps]; apply Forall_map; rewrite Forall_forall; intros h _; constructor|exact A1]|]. split; [exact En|].
    rewrite !elements_inner. cbn [PpqModel.heaps]. rewrite En, A2, F3, S2, F2. cbn [app]. apply Permutation_app_tail. clear -Hsrt.
    induction (heaps s) as [|h l IH]; [constructor|]. cbn [map concat]. apply Permutation_app; [apply Hsrt|exact IH].
  Qed.
  Lemma bulk_pop_ok d1 d2 waits n s out s' : Inv s -> 0 < n -> bulk_pop A lt mm srt bs ebl lsz maxl d1 d2 waits n s = Some (out, s') ->
    Inv s' /\ removes lt out (elements s) (elements s') /\ length out <= n.
  Proof.
    intros Hi Hn H. unfold bulk_pop in H. cbv zeta in H. set (k := Nat.min n (length (elements s))) in *.
    set (r := if 0 <? total A (heaps s) then _ else _) in H.
    assert (Hr : forall s1, r = Some s1 -> Inv s1 /\ concat (heaps s1) = [] /\ Permutation (elements s1) (elements s)).
    { intros s1 E. unfold r in E. destruct (0 <? total A (heaps s)) eqn:Et; [exact (flush_heaps_ok d1 s s1 Hi E)|]. injection E as <-. split; [exact Hi|]. split; [exact (total_zero _ Et)|reflexivity]. }
    destruct r as [s1|]; [|discriminate]. destruct (Hr s1 eq_refl) as ((H1 & H2) & H3 & H4).
    destruct (convert_eb A mm bs lsz maxl d2 s1) as [s2|] eqn:E2; [|discriminate]. destruct (convert_eb_ok A lt mm Hmm bs lsz maxl Hbs d2 s1 s2 H2 E2) as (C1 & C2 & C3 & C4).
    destruct (refill A lt mm ebl waits k k s2) as [s3|] eqn:E3; [|discriminate]. injection H as <- <-.
    destruct (refill_ok A lt SW mm Hmm ebl waits k k s2 s3 C1 C2 E3) as ((R1a & R1b & R1c & _) & R2 & R3 & R4 & R5 & R6).
    assert (Hin : Permutation (elements s) (inner s3)) by (rewrite <- H4, elements_inner, H3; cbn [app]; rewrite R3, C4; reflexivity).
    assert (Hh : concat (heaps s3) = []) by (now rewrite R2, C3).
    split; [split; [cbn [PpqModel.heaps]; rewrite R2, C3; exact H1|apply Inn_nil; assumption]|]. split; [split; [exact R1a|split]|].
    - rewrite Hin, elements_inner. cbn [PpqModel.heaps]. rewrite Hh. reflexivity.
    - intros x y Hx Hy. rewrite elements_inner in Hy. cbn [PpqModel.heaps] in Hy. rewrite Hh in Hy. apply (R5 x y Hx). exact Hy.
    - destruct (Nat.eqb_spec k 0) as [E0|E0]; [|unfold k in R6; lia].
      assert (El : length (elements s) = 0) by (unfold k in E0; lia). rewrite (Permutation_length Hin) in El. unfold Ppq.inner in El. rewrite app_length in El. lia.
  Qed.

  Lemma free_memory_nil d s s' : free_memory d s = Some s' -> eb s = [] -> eb s' = [].
  Proof.
    unfold PpqModel.free_memory. intros H E. destruct (enough d); [injection H as <-; exact E|]. destruct (_ <? _); [|injection H as <-; exact E].
    unfold flush_ias in H. destruct (if is_nil (eb s) then _ else _); [|discriminate]. cbv zeta in H. destruct (small d); [injection H as <-; reflexivity|]. destruct (check_level _ _ _ _ _ _ _ _); [injection H as <-; reflexivity|discriminate].
  Qed.
  Lemma heaps_split limit (l : list (list A)) : Forall (sorted lt) l ->
    Permutation (concat l) (concat (map (below A lt (Some limit)) l) ++ concat (map (fun h => skipn (lower A lt limit h) h) l)) /\
    Forall (sorted lt) (map (fun h => skipn (lower A lt limit h) h) l) /\
    (forall y, In y (concat (map (fun h => skipn (lower A lt limit h) h) l)) -> lt y limit = false).
  Proof.
    induction 1 as [|h l Hh Hl (H1 & H2 & H3)]; [split; [constructor|split; [constructor|intros y []]]|]. cbn [map concat]. split; [|split].
    - rewrite H1. cbn [below]. rewrite <- (firstn_skipn (lower A lt limit h) h) at 1. perm.
    - constructor; [|exact H2]. rewrite <- (firstn_skipn (lower A lt limit h) h) in Hh. apply (sorted_app_inv A lt) in Hh. apply Hh.
    - intros y Hy. apply in_app_iff in Hy. destruct Hy as [Hy|Hy]; [exact (lower_behind A lt SW limit h y Hh Hy)|exact (H3 y Hy)].
  Qed.
  Lemma flush_limit_ok d limit s s' : Inv s -> eb s = [] -> flush_limit A lt mm srt bs lsz maxl d limit s = Some s' ->
    Inv s' /\ eb s' = [] /\ Permutation (elements s') (elements s) /\ forall y, In y (concat (heaps s')) -> lt y limit = false.
  Proof.
    intros (Hh & Hi) Hb H. unfold flush_limit in H. cbv zeta in H. destruct (heaps_split limit (heaps s) Hh) as (P & Q & R).
    set (values := concat (map (below A lt (Some limit)) (heaps s))) in *. destruct (is_nil values) eqn:En.
    - injection H as <-. apply is_nil_true in En. split; [split; assumption|]. split; [exact Hb|]. split; [reflexivity|]. intros y Hy. apply R. apply (Permutation_in _ P) in Hy. rewrite En in Hy. exact Hy.
    - destruct (free_memory d s) as [s2|] eqn:E2; [|discriminate]. destruct (free_memory_ok A lt mm Hmm bs lsz maxl Hbs d s s2 Hi E2) as (F1 & F2 & F3).
      destruct (add_array d (eb s2) (ias s2) (srt values)) as [l|] eqn:El; [|discriminate]. injection H as <-. destruct (Hsrt values) as (S1 & S2).
      destruct (add_array_ok A lt mm Hmm lsz maxl d s2 (srt values) l (map (fun h => skipn (lower A lt limit h) h) (heaps s)) F1 S2 El) as (A1 & A2).
      split; [split; [exact Q|exact A1]|]. split; [exact (free_memory_nil d s s2 E2 Hb)|]. split; [|exact R].
      rewrite !elements_inner. cbn [PpqModel.heaps]. rewrite A2, F3, S1, P. perm.
  Qed.
  Lemma bulk_pop_limit_ok d1 d2 waits limit n s out full s' : Inv s -> bulk_pop_limit A lt mm srt bs lsz maxl d1 d2 waits limit n s = Some (out, full, s') ->
    Inv s' /\ removes lt out (elements s) (elements s') /\ length out <= n /\ (forall x, In x out -> lt x limit = true) /\ (full = true -> forall y, In y (elements s') -> lt y limit = false).
  Proof.
    intros (Hh & Hi) H. unfold bulk_pop_limit in H. destruct (convert_eb A mm bs lsz maxl d1 s) as [s1|] eqn:E1; [|discriminate].
    destruct (convert_eb_ok A lt mm Hmm bs lsz maxl Hbs d1 s s1 Hi E1) as (C1 & C2 & C3 & C4).
    assert (Hi1 : Inv s1) by (split; [rewrite C3; exact Hh|exact C1]).
    set (r := if 0 <? total A (heaps s1) then _ else _) in H.
    assert (Hr : forall s2, r = Some s2 -> Inv s2 /\ eb s2 = [] /\ Permutation (elements s2) (elements s1) /\ forall y, In y (concat (heaps s2)) -> lt y limit = false).
    { intros s2 E. unfold r in E. destruct (0 <? total A (heaps s1)) eqn:Et; [exact (flush_limit_ok d2 limit s1 s2 Hi1 C2 E)|]. injection E as <-. split; [exact Hi1|]. split; [exact C2|]. split; [reflexivity|].
      intros y Hy. rewrite (total_zero _ Et) in Hy. contradiction. }
    destruct r as [s2|]; [|discriminate]. destruct (Hr s2 eq_refl) as ((G1 & G2 & G3 & G4 & _) & B1 & B2 & B3).
    destruct (reach A lt waits limit (eas s2)) as ((es, v), fl) eqn:Er. destruct (reach_ok A lt SW limit waits _ _ _ _ G4 Er) as (W1 & W2 & W3 & W4 & W5). cbv zeta in H.
    set (t := total A (map (below A lt (Some v)) (arrays A es (ias s2)))) in *.
    destruct (take A lt mm (Some v) (Nat.min t n) es (ias s2)) as ((out', l'), es') eqn:Et. injection H as <- <- <-.
    destruct (take_ok A lt SW mm Hmm (Some v) _ es _ out' l' es' W1 G3 W3 (Nat.le_min_l t n) Et) as (T1 & T2 & T3 & T4 & T5 & T6 & T7 & T8 & T9).
    assert (Hlow : forall x, In x out' -> lt x limit = true).
    { intros x Hx. destruct (sw_incomp _ SW x limit v (T8 v eq_refl x Hx)) as [|C]; [assumption|]. unfold le in W4. congruence. }
    assert (Ein : elements (St A (heaps s2) (eb s2) l' es') = concat (heaps s2) ++ ints l' ++ exts es') by (rewrite elements_inner; unfold Ppq.inner; cbn [PpqModel.heaps PpqModel.eb PpqModel.ias PpqModel.eas]; rewrite B1; reflexivity).
    split; [split; [exact G1|rewrite B1; apply Inn_nil; assumption]|]. rewrite Ein. split; [split; [exact T2|split]|split; [|split; [exact Hlow|]]].
    - transitivity (elements s1); [rewrite !elements_inner, C3, C4; reflexivity|]. rewrite <- B2, elements_inner. unfold Ppq.inner. rewrite B1. cbn [app].
      unfold Ppq.exts in T3 |- *. rewrite <- W2, <- T3. perm.
    - intros x y Hx Hy. apply in_app_iff in Hy. destruct Hy as [Hy|Hy]; [|exact (T7 x y Hx Hy)]. specialize (B3 y Hy). unfold le. destruct (lt y x) eqn:E; [|reflexivity].
      rewrite (sw_trans _ SW y x limit E (Hlow x Hx)) in B3. discriminate.
    - rewrite T1. apply Nat.le_min_r.
    - intros Hf y Hy. apply andb_true_iff in Hf. destruct Hf as (Hf & Hle). apply Nat.leb_le in Hle. apply in_app_iff in Hy. destruct Hy as [Hy|Hy]; [exact (B3 y Hy)|].
      pose proof (T9 (Nat.min_l _ _ Hle) y Hy) as Hlt. rewrite <- (W5 Hf). exact Hlt.
  Qed.
End Ppq.
