(** Proofs about IntKsortModel. *)
From Coq Require Import List Bool Arith NArith ZArith Lia Permutation Sorted.
From Verif Require Import SumLib OrderLib IntKsortModel.
Import ListNotations.

Ltac perm_find :=
  lazymatch goal with
  | |- Permutation [] [] => constructor
  | |- Permutation (?x :: ?l) ?r =>
      let rec go pre suf :=
        lazymatch suf with
        | x :: ?s => change (Permutation (x :: l) (pre ++ x :: s)); apply (Permutation_cons_app pre s); cbn [app]; perm_find
        | ?y :: ?s => let p := eval cbn [app] in (pre ++ [y]) in go p s
        end in
      lazymatch type of r with list ?T => go (@nil T) r end
  end.

Section P.
  Variable A : Type.
  Variable w : N.
  Notation entry := (N * A)%type.
  Variable std_sort : list entry -> list entry.
  Hypothesis Hstd : sorts (klt A) std_sort.

  Lemma klt_sw : strict_weak (klt A).
  Proof.
    unfold klt. constructor.
    - intro x. apply N.ltb_irrefl.
    - intros x y z. rewrite !N.ltb_lt. lia.
    - intros x y z. rewrite !N.ltb_lt. lia.
  Qed.
  (** ** small sorts *)
  Ltac cmp := unfold sort4, sort3, sort2, klt;
    repeat match goal with |- context[N.ltb ?x ?y] => destruct (N.ltb_spec x y) end.
  Ltac sorted_by_lia := unfold sorted; repeat first [apply SSorted_nil | apply SSorted_cons]; unfold le, klt; repeat first [apply Forall_nil | apply Forall_cons; [apply N.ltb_ge; lia|]].
  Lemma sort2_ok a b : let (x, y) := sort2 A a b in Permutation [x; y] [a; b] /\ sorted (klt A) [x; y].
  Proof. cmp; (split; [perm_find|sorted_by_lia]). Qed.
  Lemma sort3_ok a b c : match sort3 A a b c with (x, y, z) => Permutation [x; y; z] [a; b; c] /\ sorted (klt A) [x; y; z] end.
  Proof. cmp; (split; [perm_find|sorted_by_lia]). Qed.
  Lemma sort4_ok a b c d : match sort4 A a b c d with (x, y, z, u) => Permutation [x; y; z; u] [a; b; c; d] /\ sorted (klt A) [x; y; z; u] end.
  Proof. cmp; try (exfalso; lia); (split; [perm_find|sorted_by_lia]). Qed.

  Lemma move_right_ok (t : entry) rs x : (forall d, klt A t (last (rs ++ [x]) d) = false) -> sorted (klt A) (rev (rs ++ [x])) ->
    exists r, move_right A t (rs ++ [x]) = Some r /\ Permutation r (t :: rs ++ [x]) /\ sorted (klt A) (rev r) /\ r <> [].
  Proof.
    induction rs as [|y rs IH]; intros Hl HS; cbn [app move_right].
    - specialize (Hl x). cbn [last app] in Hl. rewrite Hl. exists [t; x]. split; [reflexivity|]. split; [reflexivity|]. split; [|discriminate].
      cbn [rev app]. repeat constructor. exact Hl.
    - destruct (klt A t y) eqn:E.
      + cbn [app rev] in HS. destruct (sorted_app_inv entry (klt A) _ _ HS) as (S1 & S2 & S3).
        destruct (IH) as (r & E1 & P1 & S & N); [|exact S1|].
        { intro d. specialize (Hl d). destruct rs; exact Hl. }
        rewrite E1. exists (y :: r). split; [reflexivity|]. split; [rewrite P1; constructor|]. split; [|discriminate].
        cbn [rev]. apply sorted_app; [exact S|exact S2|]. intros a b Ha [<-|[]]. rewrite <- in_rev in Ha.
        apply (Permutation_in _ P1) in Ha. destruct Ha as [<-|Ha]; [apply lt_le; [apply klt_sw|exact E]|].
        apply S3; [rewrite <- in_rev; exact Ha|left; reflexivity].
      + exists (t :: y :: rs ++ [x]). split; [reflexivity|]. split; [reflexivity|]. split; [|discriminate].
        change (rev (t :: y :: rs ++ [x])) with (rev (y :: rs ++ [x]) ++ [t]). apply sorted_app; [exact HS|repeat constructor|].
        intros a b Ha [<-|[]]. cbn [app rev] in HS. destruct (sorted_app_inv entry (klt A) _ _ HS) as (S1 & S2 & S3).
        cbn [rev] in Ha. apply in_app_iff in Ha. destruct Ha as [Ha|[<-|[]]]; [|exact E].
        apply (le_trans _ _ klt_sw _ y); [apply S3; [exact Ha|left; reflexivity]|exact E].
  Qed.
  Lemma last_app_one {X} (l : list X) x d : last (l ++ [x]) d = x.
  Proof. induction l as [|y l IH]; [reflexivity|]. cbn [app]. destruct (l ++ [x]) eqn:E; [destruct l; discriminate|]. rewrite <- E in *. cbn [last]. rewrite E. rewrite <- E. exact IH. Qed.
  Lemma insertion_loop_ok todo : forall rs, rs <> [] -> sorted (klt A) (rev rs) ->
    exists l, insertion_loop A rs todo = Some l /\ Permutation l (rs ++ todo) /\ sorted (klt A) l.
  Proof.
    induction todo as [|t todo IH]; intros rs N S; cbn [insertion_loop].
    - exists (rev rs). split; [reflexivity|]. split; [rewrite app_nil_r; symmetry; apply Permutation_rev|exact S].
    - destruct (exists_last N) as (r0 & x & ->). rewrite last_app_one. destruct (klt A t x) eqn:E.
      + destruct (IH ((r0 ++ [x]) ++ [t])) as (l & E1 & P & SS).
        * destruct r0; discriminate.
        * rewrite rev_app_distr. cbn [rev app]. constructor; [exact S|]. rewrite Forall_forall. intros y Hy.
          rewrite rev_app_distr in Hy, S. cbn [rev app] in Hy, S. apply (le_trans _ _ klt_sw _ x); [apply lt_le; [apply klt_sw|exact E]|].
          apply (sorted_hd _ _ klt_sw x (rev r0)); assumption.
        * exists l. split; [exact E1|]. split; [|exact SS]. rewrite P, <- !app_assoc. reflexivity.
      + destruct (move_right_ok t r0 x) as (r & E1 & P & SS & N'); [intro d; rewrite last_app_one; exact E|exact S|]. rewrite E1.
        destruct (IH r N' SS) as (l & E2 & P2 & S2). exists l. split; [exact E2|]. split; [|exact S2].
        rewrite P2, P. cbn [app]. apply Permutation_middle.
  Qed.
  Lemma small_sort_ok l : exists l', small_sort A std_sort l = Some l' /\ Permutation l' l /\ sorted (klt A) l'.
  Proof.
    assert (exists l', (if Nat.leb (length l) 16 then insertion_sort A l else Some (std_sort l)) = Some l' /\ Permutation l' l /\ sorted (klt A) l') as D.
    { destruct (Nat.leb (length l) 16).
      - destruct l as [|x r]; [exists []; repeat constructor|]. cbn [insertion_sort]. destruct (insertion_loop_ok r [x]) as (l & E & P & S); [discriminate|repeat constructor|].
        exists l. exact (conj E (conj P S)).
      - exists (std_sort l). split; [reflexivity|apply Hstd]. }
    destruct l as [|a [|b [|c [|d [|e l]]]]]; try exact D; cbn [small_sort].
    - pose proof (sort2_ok a b) as H. destruct (sort2 A a b). exists [p; p0]. auto.
    - pose proof (sort3_ok a b c) as H. destruct (sort3 A a b c) as [[x y] z]. exists [x; y; z]. auto.
    - pose proof (sort4_ok a b c d) as H. destruct (sort4 A a b c d) as [[[x y] z] u]. exists [x; y; z; u]. auto.
  Qed.

  (** ** counting *)
  Variable idx : entry -> nat.
  Definition group (a : list entry) (i : nat) : list entry := filter (fun e => Nat.eqb (idx e) i) a.
  Fixpoint starts (a : list entry) (i : nat) : nat := match i with 0 => 0 | S i => starts a i + length (group a i) end.
  Definition groups (a : list entry) (K : nat) : list entry := concat (map (group a) (seq 0 K)).

  Lemma group_cons_same e a i : idx e = i -> group (e :: a) i = e :: group a i.
  Proof. intro H. unfold group. cbn [filter]. rewrite H, Nat.eqb_refl. reflexivity. Qed.
  Lemma group_cons_other e a i : idx e <> i -> group (e :: a) i = group a i.
  Proof. intro H. unfold group. cbn [filter]. destruct (Nat.eqb_spec (idx e) i); [contradiction|reflexivity]. Qed.
  Lemma group_app a b i : group (a ++ b) i = group a i ++ group b i.
  Proof. apply filter_app. Qed.
  Lemma groups_perm a K : (forall e, In e a -> idx e < K) -> Permutation (groups a K) a.
  Proof.
    induction a as [|e a IH]; intro H.
    - unfold groups. generalize (seq 0 K) as s. induction s as [|i s IHs]; [constructor|exact IHs].
    - pose proof (H e (or_introl eq_refl)) as He. rewrite <- (IH (fun x Hx => H x (or_intror Hx))) at 2. unfold groups.
      assert (seq 0 K = seq 0 (idx e) ++ idx e :: seq (S (idx e)) (K - idx e - 1)) as ->.
      { replace K with (idx e + S (K - idx e - 1)) at 1 by lia. rewrite seq_app. reflexivity. }
      rewrite !map_app, !concat_app. cbn [map concat]. rewrite group_cons_same by reflexivity.
      assert (forall s, ~ In (idx e) s -> map (group (e :: a)) s = map (group a) s) as HM.
      { intros s Hs. apply map_ext_in. intros i Hi. apply group_cons_other. intro Hx. apply Hs. rewrite Hx. exact Hi. }
      rewrite !HM by (rewrite in_seq; lia). cbn [app]. symmetry. apply Permutation_middle.
  Qed.
  Lemma starts_length a i : starts a i = length (groups a i).
  Proof.
    unfold groups. induction i as [|i IH]; [reflexivity|]. cbn [starts]. rewrite seq_S, map_app, concat_app, app_length. cbn [map concat plus].
    rewrite app_nil_r, IH. reflexivity.
  Qed.
  Lemma starts_mono a i j : i <= j -> starts a i <= starts a j.
  Proof. induction 1; [lia|]. cbn [starts]. lia. Qed.
  Lemma starts_total a K : (forall e, In e a -> idx e < K) -> starts a K = length a.
  Proof. intro H. rewrite starts_length. apply Permutation_length, groups_perm, H. Qed.
  Lemma group_length_app a b i : length (group a i) <= length (group (a ++ b) i).
  Proof. rewrite group_app, app_length. lia. Qed.

  Variables (offset : N) (shift : Z) (K : nat).
  Definition classified (a : list entry) : Prop := forall e, In e a -> bucket_of w offset shift (fst e) = Some (idx e) /\ idx e < K.

  Lemma count_loop_ok a : forall bucket, classified a ->
    exists b, count_loop A w a bucket K offset shift = Some b /\ forall i, b i = bucket i + length (group a i).
  Proof.
    induction a as [|e a IH]; intros bucket C; cbn [count_loop].
    - exists bucket. split; [reflexivity|]. intro i. cbn. lia.
    - destruct (C e (or_introl eq_refl)) as [E HK]. rewrite E. unfold incr. apply Nat.ltb_lt in HK. rewrite HK.
      destruct (IH (upd bucket (idx e) (bucket (idx e) + 1))) as (b & Eb & H); [intros x Hx; apply C; right; exact Hx|].
      exists b. split; [exact Eb|]. intro i. rewrite H. destruct (Nat.eq_dec i (idx e)) as [->|N].
      + rewrite upd_same, group_cons_same by reflexivity. cbn [length]. lia.
      + rewrite upd_other by exact N. rewrite group_cons_other by congruence. reflexivity.
  Qed.
  Lemma prefix_loop_ok a n : forall i bucket, (forall j, i <= j -> bucket j = length (group a j)) ->
    forall j, prefix_loop n i (starts a i) bucket j = if andb (Nat.leb i j) (Nat.ltb j (i + n)) then starts a j else bucket j.
  Proof.
    induction n as [|n IH]; intros i bucket H j; cbn [prefix_loop].
    - destruct (Nat.leb_spec i j), (Nat.ltb_spec j (i + 0)); try lia; reflexivity.
    - rewrite H by lia. change (starts a i + length (group a i)) with (starts a (S i)).
      rewrite (IH (S i)) by (intros k Hk; rewrite upd_other by lia; apply H; lia).
      destruct (Nat.eq_dec j i) as [->|N].
      + rewrite upd_same. destruct (Nat.leb_spec (S i) i), (Nat.leb_spec i i), (Nat.ltb_spec i (i + S n)); try lia; reflexivity.
      + rewrite upd_other by exact N. destruct (Nat.leb_spec (S i) j), (Nat.leb_spec i j), (Nat.ltb_spec j (S i + n)), (Nat.ltb_spec j (i + S n)); try lia; reflexivity.
  Qed.
  Lemma slice_upd_other b s n i (e : entry) : i < s \/ s + n <= i -> slice A (upd b i e) s n = slice A b s n.
  Proof. intro H. unfold slice. apply map_ext_in. intros j Hj. apply in_seq in Hj. apply upd_other. lia. Qed.
  Lemma slice_app b s n m : slice A b s (n + m) = slice A b s n ++ slice A b (s + n) m.
  Proof. unfold slice. rewrite seq_app, map_app. reflexivity. Qed.
  Lemma slice_length b s n : length (slice A b s n) = n.
  Proof. unfold slice. rewrite map_length. apply seq_length. Qed.

  Lemma classify_ok base cap todo : forall done b bucket, classified (done ++ todo) ->
    base + length (done ++ todo) <= cap ->
    (forall i, i < K -> bucket i = starts (done ++ todo) i + length (group done i)) ->
    (forall i, i < K -> slice A b (base + starts (done ++ todo) i) (length (group done i)) = group done i) ->
    exists b' bucket', classify A w todo b base cap bucket K offset shift = Some (b', bucket') /\
      (forall i, i < K -> bucket' i = starts (done ++ todo) (S i)) /\
      (forall i, i < K -> slice A b' (base + starts (done ++ todo) i) (length (group (done ++ todo) i)) = group (done ++ todo) i) /\
      (forall j, j < base \/ base + length (done ++ todo) <= j -> b' j = b j).
  Proof.
    induction todo as [|e todo IH]; intros done b bucket C HC HB HS; cbn [classify].
    - exists b, bucket. split; [reflexivity|]. rewrite app_nil_r in *. split; [exact HB|]. split; [exact HS|]. auto.
    - destruct (C e) as [E HK]; [apply in_or_app; right; left; reflexivity|]. rewrite E, HB by exact HK. set (j := idx e) in *. set (a := done ++ e :: todo) in *.
      assert (a = (done ++ [e]) ++ todo) as Ea by (unfold a; rewrite <- app_assoc; reflexivity).
      assert (length (group done j) + 1 <= length (group a j)) as HL.
      { unfold a. rewrite group_app, app_length, group_cons_same by reflexivity. cbn [length]. lia. }
      assert (starts a K = length a) as HT by (apply starts_total; intros x Hx; apply C, Hx).
      assert (starts a (S j) <= length a) as HJ by (rewrite <- HT; apply starts_mono; lia).
      cbn [starts] in HJ.
      replace (Nat.ltb j K) with true by (symmetry; apply Nat.ltb_lt; exact HK).
      replace (Nat.ltb (base + (starts a j + length (group done j))) cap) with true by (symmetry; apply Nat.ltb_lt; lia).
      cbn [andb].
      destruct (IH (done ++ [e]) (upd b (base + (starts a j + length (group done j))) e) (upd bucket j (starts a j + length (group done j) + 1))) as (b' & bk' & E' & F1 & F2 & F3);
        rewrite <- ?Ea; try assumption.
      + intros i Hi. rewrite group_app. destruct (Nat.eq_dec i j) as [->|N].
        * rewrite upd_same, app_length, group_cons_same by reflexivity. cbn [length group filter]. lia.
        * rewrite upd_other by exact N. rewrite group_cons_other by (intro Hq; apply N; symmetry; exact Hq). cbn [group filter]. rewrite app_nil_r. apply HB, Hi.
      + intros i Hi. rewrite group_app. destruct (Nat.eq_dec i j) as [->|N].
        * rewrite group_cons_same by reflexivity. cbn [group filter]. rewrite app_length. cbn [length]. rewrite slice_app, slice_upd_other by lia.
          rewrite HS by exact HK. f_equal. unfold slice. cbn [seq map]. replace (base + starts a j + length (group done j)) with (base + (starts a j + length (group done j))) by lia.
          rewrite upd_same. reflexivity.
        * rewrite group_cons_other by (intro Hq; apply N; symmetry; exact Hq). cbn [group filter]. rewrite app_nil_r. rewrite slice_upd_other; [apply HS, Hi|].
          destruct (Nat.lt_ge_cases i j) as [L|L].
          -- right. pose proof (starts_mono a (S i) j L) as M. cbn [starts] in M. pose proof (group_length_app done (e :: todo) i) as G. fold a in G. lia.
          -- left. pose proof (starts_mono a (S j) i ltac:(lia)) as M. cbn [starts] in M. lia.
      + rewrite <- Ea in *. exists b', bk'. split; [exact E'|]. split; [exact F1|]. split; [exact F2|].
        intros k Hk. rewrite F3 by exact Hk. apply upd_other. lia.
  Qed.
  Lemma slices_groups b base a n : (forall i, i < n -> slice A b (base + starts a i) (length (group a i)) = group a i) ->
    slice A b base (starts a n) = groups a n.
  Proof.
    intro H. induction n as [|n IH]; [reflexivity|]. cbn [starts]. rewrite slice_app, IH by (intros i Hi; apply H; lia).
    unfold groups. rewrite seq_S, map_app, concat_app. cbn [map concat plus]. rewrite app_nil_r, H by lia. reflexivity.
  Qed.

  Lemma store_other b s l i : i < s \/ s + length l <= i -> store A b s l i = b i.
  Proof.
    revert b s. induction l as [|e l IH]; intros b s H; [reflexivity|]. cbn [store length] in *. rewrite IH by lia. apply upd_other. lia.
  Qed.
  Lemma store_slice b s l : slice A (store A b s l) s (length l) = l.
  Proof.
    revert b s. induction l as [|e l IH]; intros b s; [reflexivity|]. cbn [store length]. unfold slice. cbn [seq map].
    rewrite store_other by lia. rewrite upd_same. f_equal. apply IH.
  Qed.
  Lemma slice_ext b b' s n : (forall i, s <= i < s + n -> b' i = b i) -> slice A b' s n = slice A b s n.
  Proof. intro H. unfold slice. apply map_ext_in. intros i Hi. apply in_seq in Hi. apply H. lia. Qed.

  (** sorted groups in order *)
  Definition sorted_groups (a : list entry) (from n : nat) (out : list entry) : Prop :=
    exists ls, length ls = n /\ out = concat ls /\ forall k l, nth_error ls k = Some l -> Permutation l (group a (from + k)) /\ sorted (klt A) l.
  Lemma sorted_groups_cons a i n l out : Permutation l (group a i) -> sorted (klt A) l -> sorted_groups a (S i) n out -> sorted_groups a i (S n) (l ++ out).
  Proof.
    intros P SO (ls & L & -> & H). exists (l :: ls). split; [cbn; congruence|]. split; [reflexivity|]. intros k l' Hk. destruct k as [|k].
    - injection Hk as <-. rewrite Nat.add_0_r. auto.
    - replace (i + S k) with (S i + k) by lia. apply H, Hk.
  Qed.
  Lemma cleanup_loop_ok a base bucket n : forall i b,
    (forall k, i <= k < i + n -> bucket k = starts a (S k)) ->
    (forall k, i <= k < i + n -> slice A b (base + starts a k) (length (group a k)) = group a k) ->
    exists b', cleanup_loop A std_sort n i b base (base + starts a i) bucket = Some b' /\
      sorted_groups a i n (slice A b' (base + starts a i) (starts a (i + n) - starts a i)) /\
      (forall j, j < base + starts a i \/ base + starts a (i + n) <= j -> b' j = b j).
  Proof.
    induction n as [|n IH]; intros i b HB HS; cbn [cleanup_loop].
    - exists b. split; [reflexivity|]. split; [|auto]. rewrite Nat.add_0_r, Nat.sub_diag. exists []. split; [reflexivity|]. split; [reflexivity|]. intros [|k] l Hk; discriminate.
    - rewrite HB by lia. cbn [starts]. replace (base + (starts a i + length (group a i)) - (base + starts a i)) with (length (group a i)) by lia.
      rewrite HS by lia. destruct (small_sort_ok (group a i)) as (l & E & P & SO). rewrite E.
      pose proof (Permutation_length P) as PL.
      destruct (IH (S i) (store A b (base + starts a i) l)) as (b' & E' & F1 & F2).
      + intros k Hk. apply HB. lia.
      + intros k Hk. etransitivity; [|apply (HS k); lia]. apply slice_ext. intros j Hj. apply store_other. right.
        pose proof (starts_mono a (S i) k ltac:(lia)) as M. cbn [starts] in M. lia.
      + change (starts a i + length (group a i)) with (starts a (S i)). exists b'. split; [exact E'|]. split.
        * pose proof (starts_mono a (S i) (S i + n) ltac:(lia)) as M. replace (i + S n) with (S i + n) by lia.
          assert (starts a (S i) = starts a i + length (group a i)) as ES by reflexivity.
          replace (starts a (S i + n) - starts a i) with (length (group a i) + (starts a (S i + n) - starts a (S i))) by lia.
          rewrite slice_app. replace (base + starts a i + length (group a i)) with (base + starts a (S i)) by lia.
          assert (slice A b' (base + starts a i) (length (group a i)) = l) as ->.
          { rewrite <- PL. rewrite <- (store_slice b (base + starts a i) l) at 2. apply slice_ext. intros j Hj. apply F2. left. lia. }
          apply sorted_groups_cons; assumption.
        * intros j Hj. replace (i + S n) with (S i + n) in Hj by lia. assert (starts a (S i) = starts a i + length (group a i)) as ES by reflexivity.
          pose proof (starts_mono a (S i) (S i + n) ltac:(lia)) as M.
          rewrite F2 by lia. apply store_other. lia.
  Qed.

  Lemma l1sort_groups a b base cap : classified a -> base + length a <= cap ->
    exists b', l1sort A w std_sort a b base cap K offset shift = Some b' /\ sorted_groups a 0 K (slice A b' base (length a)) /\
      (forall j, j < base \/ base + length a <= j -> b' j = b j).
  Proof.
    intros C HC. unfold l1sort, count. destruct (count_loop_ok a (fun _ => 0) C) as (bk & E1 & H1). rewrite E1.
    assert (forall i, i < K -> exclusive_prefix_sum bk K i = starts a i) as HP.
    { intros i Hi. unfold exclusive_prefix_sum. change 0 with (starts a 0) at 2. rewrite (prefix_loop_ok a K 0 bk) by (intros; apply H1).
      destruct (Nat.leb_spec 0 i), (Nat.ltb_spec i (0 + K)); try lia. reflexivity. }
    destruct (classify_ok base cap a [] b (exclusive_prefix_sum bk K)) as (b1 & bk1 & E2 & F1 & F2 & F3); cbn [app] in *.
    - exact C.
    - exact HC.
    - intros i Hi. rewrite HP by exact Hi. cbn. lia.
    - intros i Hi. reflexivity.
    - rewrite E2. unfold cleanup. destruct (cleanup_loop_ok a base bk1 K 0 b1) as (b2 & E3 & G1 & G2).
      + intros k Hk. apply F1. lia.
      + intros k Hk. apply F2. lia.
      + cbn [starts plus] in E3, G1, G2. rewrite Nat.add_0_r in E3, G1, G2. rewrite Nat.sub_0_r in G1.
        rewrite starts_total in G1, G2 by (intros e He; apply C, He).
        exists b2. split; [exact E3|]. split; [exact G1|]. intros j Hj. rewrite G2 by lia. apply F3, Hj.
  Qed.
  Lemma sorted_groups_perm a n : forall i out, sorted_groups a i n out -> Permutation out (concat (map (group a) (seq i n))).
  Proof.
    induction n as [|n IH]; intros i out (ls & L & -> & H).
    - destruct ls; [constructor|discriminate].
    - destruct ls as [|l ls]; [discriminate|]. cbn [concat seq map]. apply Permutation_app.
      + rewrite <- (Nat.add_0_r i). apply (H 0 l eq_refl).
      + apply (IH (S i)). exists ls. split; [cbn in L; congruence|]. split; [reflexivity|]. intros k l' Hk. replace (S i + k) with (i + S k) by lia. apply (H (S k)), Hk.
  Qed.
  Lemma sorted_groups_sorted a n : (forall x y, In x a -> In y a -> idx x < idx y -> klt A y x = false) ->
    forall i out, sorted_groups a i n out -> sorted (klt A) out.
  Proof.
    intro M. induction n as [|n IH]; intros i out SG; pose proof SG as (ls & L & -> & H).
    - destruct ls; [constructor|discriminate].
    - destruct ls as [|l ls]; [discriminate|]. cbn [concat]. destruct (H 0 l eq_refl) as [P SO]. rewrite Nat.add_0_r in P.
      assert (sorted_groups a (S i) n (concat ls)) as SG'.
      { exists ls. split; [cbn in L; congruence|]. split; [reflexivity|]. intros k l' Hk. replace (S i + k) with (i + S k) by lia. apply (H (S k)), Hk. }
      apply sorted_app; [exact SO|apply (IH (S i)), SG'|].
      intros x y Hx Hy. apply (Permutation_in _ P) in Hx. apply filter_In in Hx. destruct Hx as [Hx Ex]. apply Nat.eqb_eq in Ex.
      apply (Permutation_in _ (sorted_groups_perm _ _ _ _ SG')) in Hy. apply in_concat in Hy. destruct Hy as (g & Hg & Hy).
      apply in_map_iff in Hg. destruct Hg as (j & <- & Hj). apply in_seq in Hj. apply filter_In in Hy. destruct Hy as [Hy Ey]. apply Nat.eqb_eq in Ey.
      apply M; auto. lia.
  Qed.
  Theorem l1sort_ok a b base cap : classified a -> base + length a <= cap ->
    (forall x y, In x a -> In y a -> idx x < idx y -> klt A y x = false) ->
    exists b', l1sort A w std_sort a b base cap K offset shift = Some b' /\
      Permutation (slice A b' base (length a)) a /\ sorted (klt A) (slice A b' base (length a)) /\
      (forall j, j < base \/ base + length a <= j -> b' j = b j).
  Proof.
    intros C HC M. destruct (l1sort_groups a b base cap C HC) as (b' & E & SG & O). exists b'. split; [exact E|]. split; [|split; [|exact O]].
    - rewrite (sorted_groups_perm _ _ _ _ SG). apply groups_perm. intros e He. apply C, He.
    - apply (sorted_groups_sorted a K M 0 _ SG).
  Qed.
End P.
