(** The arrays of the parallel priority queue: merging, adding, flushing, taking. *)
From Coq Require Import List Bool Arith Lia Permutation Sorted.
From Verif Require Import OrderLib MwmergeSpec MwSortModel MwSort PpqModel PpqSpec.
Import ListNotations.
Open Scope nat_scope.

Ltac rot := match goal with |- Permutation ?l (?b ++ ?Y) => apply Permutation_trans with (Y ++ b); [|apply Permutation_app_comm]; rewrite <- ?app_assoc end.
Ltac perm := rewrite ?app_nil_r, <- ?app_assoc; cbn [app]; try reflexivity;
  repeat first [reflexivity | apply Permutation_app_head | progress (do 1 rot; first [reflexivity | apply Permutation_app_head]) | progress (do 2 rot; first [reflexivity | apply Permutation_app_head]) | progress (do 3 rot; first [reflexivity | apply Permutation_app_head]) | progress (do 4 rot; first [reflexivity | apply Permutation_app_head]) | progress (do 5 rot; first [reflexivity | apply Permutation_app_head])].

Section L.
  Context {A : Type}.
  Lemma concat_filter_split {X} (g : X -> list A) f l : Permutation (concat (map g l)) (concat (map g (filter f l)) ++ concat (map g (filter (fun x => negb (f x)) l))).
  Proof.
    induction l as [|x l IH]; [constructor|]. cbn [map concat filter]. rewrite IH. destruct (f x); cbn [negb map concat]; perm.
  Qed.
  Lemma concat_nonempty {X} (g : X -> list A) f l : concat (map g (filter (fun x => f x && negb (is_nil (g x))) l)) = concat (map g (filter f l)).
  Proof.
    induction l as [|x l IH]; [reflexivity|]. cbn [filter]. destruct (f x); cbn [andb]; [|exact IH].
    destruct (g x) as [|a r] eqn:E; cbn [is_nil negb map concat]; rewrite ?E; [exact IH|]. cbn [map concat]. rewrite ?E, IH. reflexivity.
  Qed.
  Lemma concat_nonempty' {X} (g : X -> list A) l : concat (map g (filter (fun x => negb (is_nil (g x))) l)) = concat (map g l).
  Proof. induction l as [|x l IH]; [reflexivity|]. cbn [filter map concat]. destruct (g x) as [|a r] eqn:E; cbn [is_nil negb map concat app]; [exact IH|]. rewrite E, IH. reflexivity. Qed.
  Lemma is_nil_true (l : list A) : is_nil l = true -> l = [].
  Proof. destruct l; [reflexivity|discriminate]. Qed.
  Lemma set_nth_split {X} (l : list X) : forall n x y, nth_error l n = Some x -> exists l1 l2, l = l1 ++ x :: l2 /\ set_nth n y l = l1 ++ y :: l2.
  Proof.
    induction l as [|z l IH]; intros [|n] x y H; try discriminate; cbn in H.
    - injection H as ->. exists [], l. auto.
    - destruct (IH n x y H) as (l1 & l2 & -> & E). exists (z :: l1), l2. cbn. now rewrite E.
  Qed.
End L.

Section Ppq.
  Variable A : Type.
  Variable lt : A -> A -> bool.
  Hypothesis SW : strict_weak lt.
  Variable mm : list (list A) -> nat -> list A * list (list A).
  Hypothesis Hmm : forall seqs n, Forall (sorted lt) seqs -> n <= length (concat seqs) -> merged lt false seqs n (fst (mm seqs n)) (snd (mm seqs n)).
  Variable srt : list A -> list A.
  Hypothesis Hsrt : sorts lt srt.
  Notation iarr := (iarr A). Notation earr := (earr A). Notation st := (st A).
  Notation ivals := (ivals A). Notation eall := (eall A). Notation eem := (eem A). Notation eram := (eram A). Notation itree := (itree A).
  Notation heaps := (heaps A). Notation eb := (eb A). Notation ias := (ias A). Notation eas := (eas A).

  Definition suffix (s r : list A) : Prop := exists t, s = t ++ r.
  Lemma merges_perm seqs : forall taken rests, length taken = length seqs -> length rests = length seqs -> (forall i, nth i seqs [] = nth i taken [] ++ nth i rests []) ->
    Permutation (concat seqs) (concat taken ++ concat rests) /\ Forall2 suffix seqs rests.
  Proof.
    induction seqs as [|s seqs IH]; intros [|t taken] [|r rests] H1 H2 H; try discriminate; [split; constructor|].
    destruct (IH taken rests ltac:(cbn in *; lia) ltac:(cbn in *; lia) (fun i => H (S i))) as (P & F). pose proof (H 0) as E. cbn in E. subst s. cbn [concat].
    split; [rewrite P; perm|]. constructor; [exists t; reflexivity|exact F].
  Qed.
  Lemma mm_split seqs n : Forall (sorted lt) seqs -> n <= total A seqs -> let r := mm seqs n in
    length (fst r) = n /\ sorted lt (fst r) /\ Permutation (concat seqs) (fst r ++ concat (snd r)) /\ Forall2 suffix seqs (snd r) /\
    (forall x y, In x (fst r) -> In y (concat (snd r)) -> le lt x y).
  Proof.
    intros Hs Hn. cbv zeta. destruct (Hmm seqs n Hs Hn) as (Hl & taken & (H1 & H2 & H3 & H4 & H5 & H6) & _).
    destruct (merges_perm seqs taken (snd (mm seqs n)) H1 H2 H3) as (P & F). split; [exact Hl|]. split; [exact H4|]. split; [rewrite P, H5; reflexivity|]. split; [exact F|].
    intros x y Hx Hy. apply H6; [exact (Permutation_in _ H5 Hx)|exact Hy].
  Qed.
  Lemma mm_all seqs : Forall (sorted lt) seqs -> sorted lt (fst (mm seqs (total A seqs))) /\ Permutation (fst (mm seqs (total A seqs))) (concat seqs).
  Proof.
    intro Hs. destruct (mm_split seqs (total A seqs) Hs ltac:(lia)) as (H1 & H2 & H3 & _). split; [exact H2|].
    pose proof (Permutation_length H3) as E. rewrite app_length, H1 in E. change (length (concat seqs)) with (total A seqs) in E. destruct (concat (snd (mm seqs (total A seqs)))); [|cbn in E; lia].
    rewrite app_nil_r in H3. symmetry. exact H3.
  Qed.

  Variables (cap bs ebl lsz maxl : nat).
  Hypothesis Hbs : 0 < bs.

  Lemma blocks_ok fuel : forall l, length l <= fuel -> concat (blocks A bs fuel l) = l /\ Forall (fun b => b <> []) (blocks A bs fuel l).
  Proof.
    induction fuel as [|fuel IH]; intros [|x l] H; cbn [blocks concat]; try (split; [reflexivity|constructor]); [cbn in H; lia|].
    destruct (IH (skipn bs (x :: l))) as (H1 & H2); [rewrite skipn_length; cbn [length] in *; lia|]. split.
    - rewrite H1. apply firstn_skipn.
    - constructor; [|exact H2]. destruct bs; [lia|discriminate].
  Qed.
  Definition eok (e : earr) : Prop := sorted lt (eall e) /\ Forall (fun b => b <> []) (eem e).
  Definition iok (l : list iarr) : Prop := Forall (fun i => sorted lt (ivals i)) l.
  Definition reg (l : list iarr) : Prop := Forall (fun i => ivals i = [] \/ itree i = true) l.
  Definition ints (l : list iarr) : list A := concat (map ivals l).
  Definition exts (l : list earr) : list A := concat (map eall l).
  Lemma new_ea_ok level l : sorted lt l -> eok (new_ea A bs level l) /\ eall (new_ea A bs level l) = l.
  Proof.
    intro H. destruct (blocks_ok (length l) l ltac:(lia)) as (H1 & H2). unfold eok, PpqModel.eall, new_ea. cbn [PpqModel.eram PpqModel.eem app]. rewrite H1. auto.
  Qed.
  Lemma clean_ias_ok l : iok l -> iok (clean_ias A l) /\ reg (clean_ias A l) /\ ints (clean_ias A l) = ints l.
  Proof.
    intro H. unfold clean_ias, iok, reg, ints in *. split; [|split].
    - rewrite Forall_forall in *. intros i Hi. apply in_map_iff in Hi. destruct Hi as (j & <- & Hj). apply filter_In in Hj. apply (H j (proj1 Hj)).
    - rewrite Forall_forall. intros i Hi. apply in_map_iff in Hi. destruct Hi as (j & <- & _). right. reflexivity.
    - rewrite map_map. cbn [PpqModel.ivals]. apply concat_nonempty'.
  Qed.
  Lemma clean_eas_ok l : Forall eok l -> Forall eok (clean_eas A l) /\ exts (clean_eas A l) = exts l.
  Proof. intro H. split; [apply (incl_Forall (incl_filter _ _) H)|apply concat_nonempty']. Qed.
  Lemma sorted_map {X} (g : X -> list A) f l : Forall (fun x => sorted lt (g x)) l -> Forall (sorted lt) (map g (filter f l)).
  Proof. intro H. apply Forall_map. apply (incl_Forall (incl_filter _ _) H). Qed.

  Lemma add_ia_ok d b fuel : forall l values level l', iok l -> sorted lt values -> (b <> [] -> reg l) -> add_ia A mm lsz fuel d b l values level = Some l' ->
    iok l' /\ (b <> [] -> reg l') /\ Permutation (ints l') (values ++ ints l).
  Proof.
    induction fuel as [|fuel IH]; intros l values level l' Hi Hv Hr H; [discriminate|]. cbn [add_ia] in H. destruct (is_nil values); [discriminate|]. cbv zeta in H.
    set (l1 := l ++ [IA A level values (negb (is_nil b))]) in H.
    assert (I1 : iok l1) by (apply Forall_app; split; [exact Hi|constructor; [exact Hv|constructor]]).
    assert (R1 : b <> [] -> reg l1). { intro Hb. apply Forall_app. split; [exact (Hr Hb)|]. constructor; [right; destruct b; [congruence|reflexivity]|constructor]. }
    assert (P1 : Permutation (ints l1) (values ++ ints l)). { unfold ints, l1. rewrite map_app, concat_app. cbn [map concat PpqModel.ivals]. perm. }
    destruct (_ <? _); [injection H as <-; auto|]. destruct (negb (int_ok d level)); [injection H as <-; auto|].
    set (f := fun i : iarr => ilevel A i =? level) in H.
    destruct (mm_all (map ivals (filter (fun i => f i && negb (is_nil (ivals i))) l1)) (sorted_map ivals _ _ I1)) as (S1 & S2).
    assert (I2 : iok (filter (fun i => negb (f i)) l1)) by (apply (incl_Forall (incl_filter _ _) I1)).
    destruct (clean_ias_ok _ I2) as (I3 & R3 & E3).
    destruct (IH _ _ _ _ I3 S1 (fun _ => R3) H) as (I4 & R4 & P4). split; [exact I4|]. split; [exact R4|].
    rewrite P4, E3, <- P1, S2. unfold ints. rewrite concat_nonempty. symmetry. apply concat_filter_split.
  Qed.
  Lemma check_level_ok d fuel : forall l level l', Forall eok l -> check_level A mm bs lsz fuel d l level = Some l' -> Forall eok l' /\ Permutation (exts l') (exts l).
  Proof.
    induction fuel as [|fuel IH]; intros l level l' He H; [discriminate|]. cbn [check_level] in H. cbv zeta in H.
    destruct (_ <? _); [injection H as <-; auto|]. destruct (negb (ext_ok d level)); [injection H as <-; auto|]. destruct (negb (_ =? _)); [discriminate|].
    set (f := fun e : earr => elevel A e =? level) in H.
    assert (Hs : Forall (fun e => sorted lt (eall e)) l) by (rewrite Forall_forall in *; intros e Hin; apply (He e Hin)).
    destruct (mm_all (map eall (filter (fun e => f e && negb (is_nil (eall e))) l)) (sorted_map eall _ _ Hs)) as (S1 & S2).
    destruct (clean_eas_ok (filter (fun e => negb (f e)) l) (incl_Forall (incl_filter _ _) He)) as (C1 & C2).
    destruct (new_ea_ok (S level) _ S1) as (N1 & N2).
    destruct (IH _ _ _ ltac:(apply Forall_app; split; [exact C1|constructor; [exact N1|constructor]]) H) as (I4 & P4). split; [exact I4|].
    rewrite P4. unfold exts in *. rewrite map_app, concat_app. cbn [map concat]. rewrite N2, C2, S2, concat_nonempty, app_nil_r. rewrite (concat_filter_split eall f l). perm.
  Qed.
  Lemma merge_external_ok l : Forall eok l -> Forall eok (merge_external A mm bs maxl l) /\ Permutation (exts (merge_external A mm bs maxl l)) (exts l).
  Proof.
    intro He. unfold merge_external. cbv zeta. destruct (clean_eas_ok l He) as (C1 & C2).
    destruct (mm_all (map eall (clean_eas A l))) as (S1 & S2); [apply Forall_map; rewrite Forall_forall in *; intros e Hin; apply (C1 e Hin)|].
    destruct (new_ea_ok (maxl - 1) _ S1) as (N1 & N2). split; [constructor; [exact N1|constructor]|]. unfold exts in *. cbn [map concat]. rewrite N2, app_nil_r, S2, C2. reflexivity.
  Qed.

  Definition inner (s : st) : list A := eb s ++ ints (ias s) ++ exts (eas s).
  Lemma elements_inner s : elements A s = concat (heaps s) ++ inner s.
  Proof. reflexivity. Qed.
  (** everything but the heaps *)
  Definition Inn (s : st) : Prop := sorted lt (eb s) /\ iok (ias s) /\ Forall eok (eas s) /\
    (eb s <> [] -> reg (ias s) /\ forall x y, In x (eb s) -> In y (exts (eas s)) -> le lt x y).
  Lemma Inn_nil h i e : iok i -> Forall eok e -> Inn (St A h [] i e).
  Proof. intros H1 H2. split; [constructor|]. split; [exact H1|]. split; [exact H2|]. cbn. congruence. Qed.
  Lemma clear_tree_ok l : iok l -> iok (clear_tree A l) /\ ints (clear_tree A l) = ints l.
  Proof. unfold iok, ints, clear_tree. intro H. rewrite map_map, Forall_map. split; [exact H|reflexivity]. Qed.
  Lemma add_values d b l values level fuel l' : iok l -> sorted lt values -> add_ia A mm lsz fuel d b l values level = Some l' -> iok l' /\ Permutation (ints l') (values ++ ints l).
  Proof.
    revert l values level l'. induction fuel as [|fuel IH]; intros l values level l' Hi Hv H; [discriminate|]. cbn [add_ia] in H. destruct (is_nil values); [discriminate|]. cbv zeta in H.
    set (l1 := l ++ [IA A level values (negb (is_nil b))]) in H.
    assert (I1 : iok l1) by (apply Forall_app; split; [exact Hi|constructor; [exact Hv|constructor]]).
    assert (P1 : Permutation (ints l1) (values ++ ints l)). { unfold ints, l1. rewrite map_app, concat_app. cbn [map concat PpqModel.ivals]. perm. }
    destruct (_ <? _); [injection H as <-; auto|]. destruct (negb (int_ok d level)); [injection H as <-; auto|].
    set (f := fun i : iarr => ilevel A i =? level) in H.
    destruct (mm_all (map ivals (filter (fun i => f i && negb (is_nil (ivals i))) l1)) (sorted_map ivals _ _ I1)) as (S1 & S2).
    destruct (clean_ias_ok _ (incl_Forall (incl_filter (fun i => negb (f i)) l1) I1 : iok _)) as (I3 & R3 & E3).
    destruct (IH _ _ _ _ I3 S1 H) as (I4 & P4). split; [exact I4|].
    rewrite P4, E3, <- P1, S2. unfold ints. rewrite concat_nonempty. symmetry. apply concat_filter_split.
  Qed.
  Lemma flush_ias_ok d s s' : Inn s -> flush_ias A mm bs lsz maxl d s = Some s' -> Inn s' /\ eb s' = [] /\ heaps s' = heaps s /\ Permutation (inner s') (inner s).
  Proof.
    intros (H1 & H2 & H3 & _) H. unfold flush_ias in H. destruct (clear_tree_ok _ H2) as (C1 & C2).
    set (l0 := if is_nil (eb s) then _ else _) in H.
    assert (H0 : forall l, l0 = Some l -> iok l /\ Permutation (ints l) (eb s ++ ints (ias s))).
    { intros l El. unfold l0 in El. destruct (is_nil (eb s)) eqn:En.
      - injection El as <-. apply is_nil_true in En. rewrite En, C2. auto.
      - rewrite <- C2. apply (add_values d (eb s) _ _ 0 maxl); [exact C1|exact H1|exact El]. }
    destruct l0 as [l|]; [|discriminate]. destruct (H0 l eq_refl) as (L1 & L2). destruct (clean_ias_ok l L1) as (K1 & K2 & K3). cbv zeta in H. destruct (small d).
    - injection H as <-. destruct (merge_external_ok _ H3) as (M1 & M2). split; [apply Inn_nil; assumption|]. split; [reflexivity|]. split; [reflexivity|].
      unfold inner. cbn [PpqModel.eb PpqModel.ias PpqModel.eas app]. rewrite K3, L2, M2. perm.
    - destruct (mm_all (map ivals (clean_ias A l))) as (S1 & S2); [apply Forall_map; exact K1|]. destruct (new_ea_ok 0 _ S1) as (N1 & N2).
      destruct (check_level A mm bs lsz maxl d _ 0) as [es|] eqn:E; [|discriminate]. injection H as <-.
      destruct (check_level_ok d maxl _ _ _ ltac:(apply Forall_app; split; [exact H3|constructor; [exact N1|constructor]]) E) as (M1 & M2).
      split; [apply Inn_nil; [constructor|exact M1]|]. split; [reflexivity|]. split; [reflexivity|]. unfold inner. cbn [PpqModel.eb PpqModel.ias PpqModel.eas app ints map concat].
      rewrite M2. unfold exts at 1. rewrite map_app, concat_app. cbn [map concat]. rewrite N2, S2, app_nil_r. fold (ints (clean_ias A l)) (exts (eas s)). rewrite K3, L2. perm.
  Qed.
  Lemma free_memory_ok d s s' : Inn s -> free_memory A mm bs lsz maxl d s = Some s' -> Inn s' /\ heaps s' = heaps s /\ Permutation (inner s') (inner s).
  Proof.
    intros Hi H. unfold free_memory in H. destruct (enough d); [injection H as <-; auto|]. destruct (_ <? _).
    - destruct (flush_ias_ok d s s' Hi H) as (F1 & _ & F3 & F4). auto.
    - injection H as <-. destruct Hi as (H1 & H2 & H3 & H4). destruct (merge_external_ok _ H3) as (M1 & M2). split; [|split; [reflexivity|]].
      + split; [exact H1|]. split; [exact H2|]. split; [exact M1|]. cbn [PpqModel.eb PpqModel.ias PpqModel.eas]. intro Hb. destruct (H4 Hb) as (R & Q). split; [exact R|].
        intros x y Hx Hy. apply (Q x y Hx). exact (Permutation_in _ M2 Hy).
      + unfold inner. cbn [PpqModel.eb PpqModel.ias PpqModel.eas]. rewrite M2. reflexivity.
  Qed.
  Lemma add_array_ok d s values l h : Inn s -> sorted lt values -> add_array A mm lsz maxl d (eb s) (ias s) values = Some l ->
    Inn (St A h (eb s) l (eas s)) /\ Permutation (inner (St A h (eb s) l (eas s))) (values ++ inner s).
  Proof.
    intros (H1 & H2 & H3 & H4) Hv H. destruct (add_ia_ok d (eb s) maxl _ _ _ _ H2 Hv (fun b => proj1 (H4 b)) H) as (I1 & R1 & P1). split.
    - split; [exact H1|]. split; [exact I1|]. split; [exact H3|]. cbn [PpqModel.eb PpqModel.ias PpqModel.eas]. intro Hb. split; [exact (R1 Hb)|exact (proj2 (H4 Hb))].
    - unfold inner. cbn [PpqModel.eb PpqModel.ias PpqModel.eas]. rewrite P1. perm.
  Qed.
  Lemma convert_eb_ok d s s' : Inn s -> convert_eb A mm bs lsz maxl d s = Some s' -> Inn s' /\ eb s' = [] /\ heaps s' = heaps s /\ Permutation (inner s') (inner s).
  Proof.
    intros Hi H. unfold convert_eb in H. destruct (is_nil (eb s)) eqn:En; [injection H as <-; apply is_nil_true in En; auto|].
    destruct (free_memory A mm bs lsz maxl d s) as [s1|] eqn:E; [|discriminate]. destruct (free_memory_ok d s s1 Hi E) as (F1 & F2 & F3).
    destruct (is_nil (eb s1)) eqn:En1; [injection H as <-; apply is_nil_true in En1; auto|].
    destruct (add_array A mm lsz maxl d (eb s1) (ias s1) (eb s1)) as [l|] eqn:El; [|discriminate]. injection H as <-.
    destruct F1 as (G1 & G2 & G3 & G4). destruct (add_values d (eb s1) _ _ 0 maxl l G2 G1 El) as (I1 & P1).
    split; [apply Inn_nil; assumption|]. split; [reflexivity|]. split; [exact F2|]. rewrite <- F3. unfold inner. cbn [PpqModel.eb PpqModel.ias PpqModel.eas app]. rewrite P1. perm.
  Qed.
End Ppq.
