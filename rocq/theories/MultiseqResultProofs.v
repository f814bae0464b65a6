(** From the arrays of the search to the statements about lists. *)
From Coq Require Import List Bool Arith ZArith Lia Permutation Sorted.
From Verif Require Import SumLib OrderLib MultiseqModel MultiseqSpec MultiseqProofs.
Import ListNotations.
Open Scope Z_scope.

Lemma combine_index {X} (d : X) (a : nat -> Z) : forall l k, combine l (map a (seq k (length l))) = map (fun i => (nth (i - k) l d, a i)) (seq k (length l)).
Proof.
  induction l as [|x l IH]; intro k; cbn [length seq map combine]; [reflexivity|]. rewrite Nat.sub_diag. cbn [nth]. f_equal. rewrite IH. apply map_ext_in. intros i Hi. apply in_seq in Hi.
  replace (i - k)%nat with (S (i - S k)) by lia. reflexivity.
Qed.
Lemma list_index {X} (d : X) : forall l k, map (fun i => nth (i - k) l d) (seq k (length l)) = l.
Proof.
  induction l as [|x l IH]; intro k; cbn [length seq map]; [reflexivity|]. rewrite Nat.sub_diag. cbn [nth]. f_equal. rewrite <- (IH (S k)) at 2. apply map_ext_in. intros i Hi. apply in_seq in Hi.
  replace (i - k)%nat with (S (i - S k)) by lia. reflexivity.
Qed.
Lemma concat_length {X} (F : nat -> list X) n : Z.of_nat (length (concat (map F (seq 0 n)))) = sumf n (fun i => Z.of_nat (length (F i))).
Proof. induction n as [|n IH]; [reflexivity|]. rewrite seq_S, map_app, concat_app, app_length, Nat2Z.inj_add, IH. cbn. rewrite app_nil_r. reflexivity. Qed.
Lemma concat_filter {X} (p : X -> bool) l : filter p (concat l) = concat (map (filter p) l).
Proof. induction l as [|x l IH]; [reflexivity|]. cbn [concat map]. rewrite <- IH. apply filter_app. Qed.

Section P.
  Variable A : Type.
  Variable lt : A -> A -> bool.
  Hypothesis SW : strict_weak lt.
  Variable seqs : list (list A).
  Hypothesis Hsorted : Forall (sorted lt) seqs.
  Notation m := (m A seqs). Notation seqlen := (seqlen A seqs). Notation at_ := (at_ A seqs).

  Lemma before_eq a : before seqs (map a (seq 0 m)) = concat (map (fun i => firstn (Z.to_nat (a i)) (nth i seqs [])) (seq 0 m)).
  Proof. unfold before, MultiseqModel.m. rewrite (combine_index []), map_map. f_equal. apply map_ext. intro i. cbn [fst snd]. rewrite Nat.sub_0_r. reflexivity. Qed.
  Lemma behind_eq a : behind seqs (map a (seq 0 m)) = concat (map (fun i => skipn (Z.to_nat (a i)) (nth i seqs [])) (seq 0 m)).
  Proof. unfold behind, MultiseqModel.m. rewrite (combine_index []), map_map. f_equal. apply map_ext. intro i. cbn [fst snd]. rewrite Nat.sub_0_r. reflexivity. Qed.
  Lemma seqs_eq : map (fun i => nth i seqs []) (seq 0 m) = seqs.
  Proof. rewrite <- (list_index [] seqs 0) at 2. apply map_ext. intro i. rewrite Nat.sub_0_r. reflexivity. Qed.
  Lemma in_firstn_at i k x : 0 <= k -> In x (firstn (Z.to_nat k) (nth i seqs [])) -> exists j, 0 <= j < k /\ at_ i j = Some x.
  Proof.
    intros Hk H. apply In_nth_error in H. destruct H as [j Hj]. assert (j < length (firstn (Z.to_nat k) (nth i seqs [])))%nat as L by (apply nth_error_Some; congruence).
    rewrite firstn_length in L. exists (Z.of_nat j). split; [lia|]. unfold MultiseqModel.at_. destruct (Z.ltb_spec (Z.of_nat j) 0); [lia|]. rewrite Nat2Z.id.
    rewrite <- (firstn_skipn (Z.to_nat k) (nth i seqs [])). rewrite nth_error_app1; [exact Hj|]. rewrite firstn_length. lia.
  Qed.
  Lemma in_skipn_at i k x : 0 <= k -> In x (skipn (Z.to_nat k) (nth i seqs [])) -> exists j, k <= j /\ at_ i j = Some x.
  Proof.
    intros Hk H. apply In_nth_error in H. destruct H as [j Hj]. assert (j < length (skipn (Z.to_nat k) (nth i seqs [])))%nat as L by (apply nth_error_Some; congruence).
    rewrite skipn_length in L. exists (k + Z.of_nat j). split; [lia|]. unfold MultiseqModel.at_. destruct (Z.ltb_spec (k + Z.of_nat j) 0); [lia|].
    rewrite <- (firstn_skipn (Z.to_nat k) (nth i seqs [])). rewrite nth_error_app2; rewrite firstn_length; [|lia]. rewrite <- Hj. f_equal. lia.
  Qed.

  (** any position before the split against any position behind it *)
  Lemma valid_all a b i j p q x y : inv A seqs 0 a b -> valid A lt seqs a b -> (i < m)%nat -> (j < m)%nat -> p < a i -> a j <= q -> at_ i p = Some x -> at_ j q = Some y -> le lt x y.
  Proof.
    intros HI HV Hi Hj Hp Hq Hx Hy. destruct (HI i Hi) as (_ & HL & _). destruct (HI j Hj) as ((k & Hk & Ek) & _ & EB).
    pose proof (at_inv A seqs _ _ _ Hx). pose proof (at_inv A seqs _ _ _ Hy).
    destruct (at_some A seqs i (a i - 1) ltac:(lia)) as [x1 Hx1]. destruct (at_some A seqs j (b j) ltac:(lia)) as [y1 Hy1].
    apply (le_trans _ _ SW _ x1); [apply (at_le A lt SW seqs Hsorted i p (a i - 1)); [assumption|assumption|lia]|].
    apply (le_trans _ _ SW _ y1); [apply (HV i j); assumption|]. apply (at_le A lt SW seqs Hsorted j (b j) q); [assumption|assumption|lia].
  Qed.

  Theorem split_splits a b rank : inv A seqs 0 a b -> valid A lt seqs a b -> sumf m a = rank -> splits_at lt seqs rank (map a (seq 0 m)).
  Proof.
    intros HI HV HS. assert (forall i, (i < m)%nat -> 0 <= a i <= seqlen i) as HB.
    { intros i Hi. pose proof (inv_nonneg A seqs 0 a b i ltac:(lia) HI Hi). destruct (HI i Hi) as (_ & HL & _). lia. }
    split; [|split].
    - rewrite <- seqs_eq at 1. clear - HB. unfold MultiseqModel.seqlen in HB. assert (forall i, In i (seq 0 m) -> 0 <= a i <= Z.of_nat (length (nth i seqs []))) as H by (intros i Hi; apply HB; apply in_seq in Hi; lia).
      induction (seq 0 m) as [|i is IH]; cbn [map]; constructor; [apply H; left; reflexivity|apply IH; intros; apply H; right; assumption].
    - rewrite before_eq, concat_length. rewrite <- HS. apply sumf_ext. intros i Hi. specialize (HB i Hi). unfold MultiseqModel.seqlen in HB. rewrite firstn_length. lia.
    - intros x y Hx Hy. rewrite before_eq in Hx. rewrite behind_eq in Hy. apply in_concat in Hx, Hy. destruct Hx as (lx & Hlx & Hx). destruct Hy as (ly & Hly & Hy).
      apply in_map_iff in Hlx, Hly. destruct Hlx as (i & <- & Hi). destruct Hly as (j & <- & Hj). apply in_seq in Hi, Hj.
      pose proof (HB i ltac:(lia)). pose proof (HB j ltac:(lia)).
      apply in_firstn_at in Hx; [|lia]. apply in_skipn_at in Hy; [|lia]. destruct Hx as (p & Hp & Hx). destruct Hy as (q & Hq & Hy).
      apply (valid_all a b i j p q x y HI HV); (assumption || lia).
  Qed.

  Lemma lengths_ok : Forall (fun s => (0 < length s)%nat /\ Z.of_nat (length s) < 2 ^ 62) seqs -> forall i, (i < m)%nat -> 0 < seqlen i < 2 ^ 62.
  Proof.
    intros H i Hi. unfold MultiseqModel.seqlen. rewrite Forall_forall in H. specialize (H (nth i seqs []) (nth_In seqs [] Hi)). lia.
  Qed.
  Lemma total_ok : sumf m seqlen = Z.of_nat (length (concat seqs)).
  Proof. transitivity (Z.of_nat (length (concat (map (fun i => nth i seqs []) (seq 0 m))))); [rewrite concat_length; reflexivity|rewrite seqs_eq; reflexivity]. Qed.

  Theorem partition_ok rank : Forall (fun s => (0 < length s)%nat /\ Z.of_nat (length s) < 2 ^ 62) seqs -> 0 <= rank <= Z.of_nat (length (concat seqs)) ->
    exists offs, multiseq_partition A lt seqs rank = Some offs /\ splits_at lt seqs rank offs.
  Proof.
    intros HL HR. unfold multiseq_partition. rewrite total_ok.
    assert (existsb (fun s : list A => Nat.eqb (length s) 0) seqs = false) as ->.
    { destruct (existsb _ seqs) eqn:E; [|reflexivity]. apply existsb_exists in E. destruct E as (s & Hs & E). apply Nat.eqb_eq in E. rewrite Forall_forall in HL. specialize (HL s Hs). lia. }
    destruct (Z.eqb_spec rank (Z.of_nat (length (concat seqs)))) as [E|N].
    - exists (map seqlen (seq 0 m)). split; [reflexivity|].
      assert (forall i, (i < m)%nat -> at_ i (seqlen i) = None) as AN by (intros i Hi; destruct (at_ i (seqlen i)) eqn:EA; [apply at_inv in EA; lia|reflexivity]).
      apply (split_splits seqlen seqlen).
      + intros i Hi. split; [exists (seqlen i); pose proof (seqlen_nonneg A seqs i); lia|]. lia.
      + intros i j x y Hi Hj _ Hy. rewrite AN in Hy by exact Hj. discriminate.
      + rewrite total_ok. symmetry. exact E.
    - replace (negb ((0 <=? rank) && (rank <? Z.of_nat (length (concat seqs))))) with false by (destruct (Z.leb_spec 0 rank), (Z.ltb_spec rank (Z.of_nat (length (concat seqs)))); cbn; lia || reflexivity).
      destruct (split_ok A lt SW seqs Hsorted true rank (lengths_ok HL)) as (a & b & E & HI & HV & HS); [rewrite total_ok; lia|]. rewrite E. cbn [mbind fst].
      eexists. split; [reflexivity|]. apply (split_splits a b); assumption.
  Qed.

  (** * Selection *)
  Lemma count_concat p : count p (concat seqs) = sumf m (fun i => count p (nth i seqs [])).
  Proof.
    unfold count. rewrite concat_filter. transitivity (Z.of_nat (length (concat (map (filter p) (map (fun i => nth i seqs []) (seq 0 m)))))); [rewrite seqs_eq; reflexivity|]. rewrite map_map. rewrite (concat_length (fun i => filter p (nth i seqs []))). reflexivity.
  Qed.
  Lemma lower_bound_count l v : sorted lt l -> lower_bound A lt l v = count (fun x => lt x v) l.
  Proof.
    unfold count. induction 1 as [|x l Hs IH Hf]; [reflexivity|]. cbn [lower_bound filter]. destruct (lt x v) eqn:E.
    - cbn [length]. lia.
    - assert (filter (fun x => lt x v) l = []) as ->; [|reflexivity]. rewrite Forall_forall in Hf. clear Hs IH. induction l as [|y l IH]; [reflexivity|]. cbn [filter].
      rewrite IH by (intros; apply Hf; right; assumption). assert (lt y v = false) as ->; [|reflexivity]. pose proof (Hf y (or_introl eq_refl)) as L. apply (le_trans _ _ SW v x y); [exact E|exact L].
  Qed.
  Lemma sorted_seq i : sorted lt (nth i seqs []).
  Proof. destruct (nth_in_or_default i seqs []) as [H| ->]; [|constructor]. rewrite Forall_forall in Hsorted. apply Hsorted. exact H. Qed.
  Lemma count_at_least (p : A -> bool) l k : (k <= length l)%nat -> (forall j x, (j < k)%nat -> nth_error l j = Some x -> p x = true) -> Z.of_nat k <= count p l.
  Proof.
    revert k. unfold count. induction l as [|x l IH]; intros [|k] HK H; cbn [length filter] in *; try lia.
    rewrite (H 0%nat x ltac:(lia) eq_refl). cbn [length]. specialize (IH k ltac:(lia) ltac:(intros j y Hj Hy; apply (H (S j) y); [lia|exact Hy])). lia.
  Qed.
  Lemma count_at_most (p : A -> bool) l k : 0 <= k -> (forall j x, k <= Z.of_nat j -> nth_error l j = Some x -> p x = false) -> count p l <= k.
  Proof.
    revert k. unfold count. induction l as [|x l IH]; intros k HK H; cbn [length filter] in *; [lia|].
    assert (0 < k \/ k = 0) as [P| ->] by lia.
    - specialize (IH (k - 1) ltac:(lia) ltac:(intros j y Hj Hy; apply (H (S j) y); [lia|exact Hy])). destruct (p x); cbn [length]; lia.
    - rewrite (H 0%nat x ltac:(lia) eq_refl). apply IH; [lia|]. intros j y Hj Hy. apply (H (S j) y); [lia|exact Hy].
  Qed.
  Lemma count_split (p q r : A -> bool) l : (forall x, p x = orb (q x) (r x) /\ andb (q x) (r x) = false) -> count p l = count q l + count r l.
  Proof.
    intro H. unfold count. induction l as [|x l IH]; [reflexivity|]. cbn [filter]. destruct (H x) as [-> HN]. destruct (q x), (r x); cbn [andb] in HN; try discriminate; cbn [orb length]; lia.
  Qed.
  Definition is_min (b : nat -> Z) (i : nat) (mr : option A) : Prop :=
    (forall j x, (j < i)%nat -> at_ j (b j) = Some x -> exists y, mr = Some y /\ le lt y x) /\
    (forall y, mr = Some y -> exists j, (j < i)%nat /\ at_ j (b j) = Some y).
  Lemma right_min_ok n a b : 0 <= n -> inv A seqs n a b -> exists mr, iter (seq 0 m) (right_min A lt seqs b) None = Some mr /\ is_min b m mr.
  Proof.
    intros Hn HI. apply (iter_seq (is_min b)).
    - split; [intros; lia|discriminate].
    - intros i mr Hi [H1 H2]. unfold right_min. destruct (HI i ltac:(lia)) as (_ & HL & EB). pose proof (inv_nonneg A seqs n a b i Hn HI ltac:(lia)) as NA. destruct (Z.ltb_spec (b i) (seqlen i)) as [P|P].
      + destruct (at_some A seqs i (b i) ltac:(lia)) as [x Hx]. rewrite Hx. cbn [mbind]. eexists. split; [reflexivity|].
        set (w := match mr with None => x | Some y => if lt x y then x else y end).
        assert (le lt w x /\ (forall y, mr = Some y -> le lt w y) /\ (w = x \/ mr = Some w)) as (W1 & W2 & W3).
        { unfold w. destruct mr as [y|].
          - destruct (lt x y) eqn:E.
            + split; [apply le_refl; exact SW|]. split; [|auto]. intros y0 E0. injection E0 as <-. apply lt_le; assumption.
            + split; [exact E|]. split; [|auto]. intros y0 E0. injection E0 as <-. apply le_refl. exact SW.
          - split; [apply le_refl; exact SW|]. split; [discriminate|auto]. }
        clearbody w. split.
        * intros j z Hj Hz. exists w. split; [reflexivity|]. destruct (Nat.eq_dec j i) as [->|Nj].
          -- assert (z = x) as -> by congruence. exact W1.
          -- destruct (H1 j z ltac:(lia) Hz) as (y & Ey & Ly). apply (le_trans _ _ SW _ y); [apply W2; exact Ey|exact Ly].
        * intros y Ey. injection Ey as <-. destruct W3 as [->|W3]; [exists i; split; [lia|exact Hx]|]. destruct (H2 w W3) as (j & Hj & Hjw). exists j. split; [lia|exact Hjw].
      + eexists. split; [reflexivity|]. split.
        * intros j z Hj Hz. apply (H1 j z); [|exact Hz]. destruct (Nat.eq_dec j i) as [->|]; [|lia]. apply at_inv in Hz. lia.
        * intros y Ey. destruct (H2 y Ey) as (j & Hj & Hjw). exists j. split; [lia|exact Hjw].
  Qed.
  Lemma at_nth i k x : at_ i k = Some x <-> 0 <= k /\ nth_error (nth i seqs []) (Z.to_nat k) = Some x.
  Proof. unfold MultiseqModel.at_. destruct (Z.ltb_spec k 0); [split; [discriminate|lia]|]. split; [auto|tauto]. Qed.

  Theorem selection_ok rank : Forall (fun s => (0 < length s)%nat /\ Z.of_nat (length s) < 2 ^ 62) seqs -> 0 <= rank < Z.of_nat (length (concat seqs)) ->
    exists v offset, multiseq_selection A lt seqs rank = Some (v, offset) /\ selects lt seqs rank v offset.
  Proof.
    intros HL HR. unfold multiseq_selection. rewrite total_ok.
    replace (negb ((0 <=? rank) && (rank <? Z.of_nat (length (concat seqs))))) with false by (destruct (Z.leb_spec 0 rank), (Z.ltb_spec rank (Z.of_nat (length (concat seqs)))); cbn; lia || reflexivity).
    destruct (split_ok A lt SW seqs Hsorted false rank (lengths_ok HL)) as (a & b & E & HI & HV & HS); [rewrite total_ok; lia|]. rewrite E. cbn [mbind fst snd].
    destruct (left_max_ok A lt SW seqs false 0 a b ltac:(lia) HI) as (lm & EL & HM1 & HM2). rewrite EL. cbn [mbind].
    destruct (right_min_ok 0 a b ltac:(lia) HI) as (mr & ER & HN1 & HN2). rewrite ER. cbn [mbind].
    assert (forall i, (i < m)%nat -> 0 <= a i <= seqlen i /\ b i = a i) as HB.
    { intros i Hi. pose proof (inv_nonneg A seqs 0 a b i ltac:(lia) HI Hi). destruct (HI i Hi) as (_ & HLi & EB). lia. }
    destruct mr as [v|].
    2:{ exfalso. destruct (sumf_lt_ex m a seqlen) as (i & Hi & L); [rewrite total_ok; lia|]. destruct (HB i Hi) as [H1 H2]. destruct (at_some A seqs i (b i) ltac:(lia)) as [x Hx]. destruct (HN1 i x Hi Hx) as (y & Hy & _). discriminate. }
    cbn [mbind]. destruct (HN2 v eq_refl) as (i0 & Hi0 & Hv). pose proof (at_inv A seqs _ _ _ Hv) as Hv'.
    (* elements before the split are at most v, those behind at least v *)
    assert (forall i j x, (i < m)%nat -> j < a i -> at_ i j = Some x -> le lt x v) as LE1.
    { intros i j x Hi Hj Hx. apply (valid_all a b i i0 j (b i0) x v HI HV); try assumption. destruct (HB i0 Hi0). lia. }
    assert (forall i j x, (i < m)%nat -> a i <= j -> at_ i j = Some x -> le lt v x) as GE1.
    { intros i j x Hi Hj Hx. destruct (HB i Hi) as [H1 H2]. pose proof (at_inv A seqs _ _ _ Hx). destruct (at_some A seqs i (b i) ltac:(lia)) as [z Hz]. destruct (HN1 i z Hi Hz) as (y & Ey & Ly). injection Ey as <-.
      apply (le_trans _ _ SW _ z); [exact Ly|]. apply (at_le A lt SW seqs Hsorted i (b i) j); [assumption|assumption|lia]. }
    assert (forall i, (i < m)%nat -> 0 <= lower_bound A lt (nth i seqs []) v <= a i) as LB.
    { intros i Hi. rewrite lower_bound_count by apply sorted_seq. destruct (HB i Hi) as [H1 H2]. split; [unfold count; lia|]. apply count_at_most; [lia|]. intros j x Hj Hx.
      apply (GE1 i (Z.of_nat j) x Hi Hj). apply at_nth. rewrite Nat2Z.id. split; [lia|exact Hx]. }
    assert (sumf m (fun i => lower_bound A lt (nth i seqs []) v) = count (fun x => lt x v) (concat seqs)) as ELB.
    { rewrite count_concat. apply sumf_ext. intros i Hi. apply lower_bound_count. apply sorted_seq. }
    set (offset := sumf m (fun i => a i - lower_bound A lt (nth i seqs []) v)).
    assert (rank = count (fun x => lt x v) (concat seqs) + offset) as EO by (unfold offset; rewrite sumf_sub, HS, ELB; lia).
    assert (0 <= offset) as PO by (apply sumf_nonneg; intros i Hi; specialize (LB i Hi); lia).
    assert ((if match lm with None => true | Some x => lt v x end then Some (v, 0) else Some (v, offset)) = Some (v, offset)) as ->.
    { destruct lm as [x|].
      - destruct (HM2 x eq_refl) as (i1 & Hi1 & Hx). rewrite (LE1 i1 (a i1 - 1) x Hi1 ltac:(lia) Hx). reflexivity.
      - assert (offset = 0) as ->; [|reflexivity]. unfold offset. apply sumf_zero. intros i Hi. specialize (LB i Hi). destruct (HB i Hi) as [H1 H2].
        assert (a i = 0) as A0; [|lia]. destruct (Z.eq_dec (a i) 0) as [|N0]; [assumption|]. destruct (at_some A seqs i (a i - 1) ltac:(lia)) as [x Hx]. destruct (HM1 i x Hi Hx) as (y & Ey & _). discriminate. }
    exists v, offset. split; [reflexivity|]. split; [|split; [|exact EO]].
    - apply in_concat. exists (nth i0 seqs []). split; [apply nth_In; exact Hi0|]. apply at_nth in Hv. destruct Hv as [_ Hv]. apply nth_error_In in Hv. exact Hv.
    - split; [exact PO|].
      assert (rank < count (fun x => negb (lt v x)) (concat seqs)) as UB.
      { rewrite count_concat. rewrite <- HS. apply (sumf_lt m _ _ i0 Hi0).
        - destruct (HB i0 Hi0) as [H1 H2]. rewrite H2 in Hv, Hv'. assert (Z.of_nat (S (Z.to_nat (a i0))) <= count (fun x => negb (lt v x)) (nth i0 seqs [])); [|lia].
          unfold MultiseqModel.seqlen in Hv'. apply count_at_least; [lia|]. intros j x Hj Hx. apply negb_true_iff.
          destruct (Nat.eq_dec j (Z.to_nat (a i0))) as [->|N].
          + apply at_nth in Hv. assert (x = v) as -> by (destruct Hv; congruence). apply (sw_irrefl _ SW).
          + apply (LE1 i0 (Z.of_nat j) x Hi0 ltac:(lia)). apply at_nth. rewrite Nat2Z.id. split; [lia|exact Hx].
        - intros i Hi. destruct (HB i Hi) as [H1 H2]. unfold MultiseqModel.seqlen in H1. rewrite <- (Z2Nat.id (a i)) by lia. apply count_at_least; [lia|]. intros j x Hj Hx. apply negb_true_iff.
          apply (LE1 i (Z.of_nat j) x Hi ltac:(lia)). apply at_nth. rewrite Nat2Z.id. split; [lia|exact Hx]. }
      rewrite (count_split (fun x => negb (lt v x)) (fun x => lt x v) (fun x => negb (lt x v) && negb (lt v x))) in UB; [lia|].
      intro x. destruct (lt x v) eqn:E1; cbn; [rewrite (sw_asym _ _ SW _ _ E1)|]; cbn; auto.
  Qed.
End P.
