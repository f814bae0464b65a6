(** Proofs about multiway merging, part five: multiway_merge_bubble and the choice of the variant. *)
From Coq Require Import List Bool Arith ZArith Lia Permutation Sorted.
From Verif Require Import SumLib OrderLib MwmergeModel MwmergeSpec Mwmerge MwTree MwVariants MwComb.
Import ListNotations.

Section Bubble.
  Variable A : Type.
  Variable lt : A -> A -> bool.
  Hypothesis SW : strict_weak lt.
  Variable stable : bool.
  Notation seqs := (list (list A * list A)).
  Notation queue := (list (A * nat)).

  Definition brel (a b : A * nat) : Prop := le lt (fst a) (fst b) /\ (stable = true -> lt (fst a) (fst b) = true \/ snd a <= snd b).
  Lemma brel_trans a b c : brel a b -> brel b c -> brel a c.
  Proof.
    intros (H1 & H2) (H3 & H4). split; [exact (le_trans _ _ SW _ _ _ H1 H3)|]. intro S. destruct (H2 S) as [Q|Q]; [left; exact (lt_then_le lt SW _ _ _ Q H3)|].
    destruct (H4 S) as [R|R]; [left; exact (le_then_lt lt SW _ _ _ H1 R)|right; lia].
  Qed.
  Lemma sooner_brel a b : if sooner A lt stable b a then brel b a else brel a b.
  Proof.
    unfold brel. destruct (sooner A lt stable b a) eqn:E; unfold sooner in E.
    - apply orb_true_iff in E. destruct E as [E|E]; [split; [exact (sw_asym _ _ SW _ _ E)|auto]|].
      apply andb_true_iff in E. destruct E as [_ E]. apply andb_true_iff in E. destruct E as [E1 E2]. apply negb_true_iff in E1. apply Nat.ltb_lt in E2.
      split; [exact E1|]. intros _. right. lia.
    - apply orb_false_iff in E. destruct E as [E1 E2]. split; [exact E1|]. intro S. rewrite S in E2. cbn [andb] in E2. apply andb_false_iff in E2.
      destruct E2 as [E2|E2]; [apply negb_false_iff in E2; now left|]. apply Nat.ltb_ge in E2. now right.
  Qed.
  Notation fop := (ForallOrdPairs brel).

  (** the queue holds the heads of the sequences *)
  Definition holds (q : queue) (s : seqs) : Prop :=
    NoDup (map snd q) /\ forall i x, In (x, i) q <-> hd_error (fst (get s i)) = Some x.
  Lemma holds_perm q q' s : Permutation q q' -> holds q s -> holds q' s.
  Proof.
    intros P (H1 & H2). split; [exact (Permutation_NoDup (Permutation_map snd P) H1)|]. intros i x. rewrite <- H2. split; apply Permutation_in; [symmetry|]; exact P.
  Qed.
  Lemma heads_in : forall s i x j, In (x, j) (heads A i s) <-> i <= j /\ hd_error (fst (get s (j - i))) = Some x.
  Proof.
    induction s as [|[[|y l] b] s IH]; intros i x j; cbn [heads].
    - split; [contradiction|]. intros (_ & Q). unfold get in Q. destruct (j - i); discriminate.
    - rewrite IH. destruct (Nat.eq_dec i j) as [->|D]; [split; [lia|rewrite Nat.sub_diag; intros (_ & Q); discriminate]|].
      split; intros (H1 & H2); (split; [lia|]); replace (j - i) with (S (j - S i)) in * by lia; exact H2.
    - cbn [In]. rewrite IH. destruct (Nat.eq_dec i j) as [->|D].
      + rewrite Nat.sub_diag. cbn. split; [intros [Q|Q]; [injection Q as ->; auto|lia]|intros (_ & Q); injection Q as ->; now left].
      + split.
        * intros [Q|(H1 & H2)]; [congruence|]. split; [lia|]. replace (j - i) with (S (j - S i)) by lia. exact H2.
        * intros (H1 & H2). right. split; [lia|]. replace (j - i) with (S (j - S i)) in H2 by lia. exact H2.
  Qed.
  Lemma heads_holds s : holds (heads A 0 s) s.
  Proof.
    split; [|intros i x; rewrite heads_in, Nat.sub_0_r; split; [tauto|split; [lia|assumption]]].
    assert (Q : forall i, NoDup (map snd (heads A i s))); [|apply Q]. induction s as [|[[|y l] b] s IH]; intro i; cbn; [constructor|apply IH|]. constructor; [|apply IH].
    intro H. apply in_map_iff in H. destruct H as ([z j] & E & Hin). cbn in E. subst j. apply heads_in in Hin. lia.
  Qed.

  Lemma pass_ok : forall q, Permutation (pass A lt stable q) q /\ match pass A lt stable q with a :: r => Forall (brel a) r | [] => True end.
  Proof.
    induction q as [|a q (IH1 & IH2)]; [split; constructor|]. cbn [pass]. destruct (pass A lt stable q) as [|b r] eqn:E.
    - apply Permutation_nil in IH1. subst q. split; [apply Permutation_refl|constructor].
    - pose proof (sooner_brel a b) as Hs. destruct (sooner A lt stable b a).
      + split; [|constructor; [exact Hs|exact IH2]]. rewrite <- IH1. apply perm_swap.
      + split; [rewrite <- IH1; apply Permutation_refl|]. constructor; [exact Hs|]. apply (Forall_impl _ (fun c => brel_trans _ _ c Hs)). exact IH2.
  Qed.
  Lemma bubble_sort_ok : forall n q, length q <= n -> Permutation (bubble_sort A lt stable n q) q /\ fop (bubble_sort A lt stable n q).
  Proof.
    induction n as [|n IH]; intros q Hl; cbn [bubble_sort].
    - destruct q; [split; constructor|cbn in Hl; lia].
    - destruct (pass_ok q) as (P & F). destruct (pass A lt stable q) as [|a r] eqn:E; [split; [exact P|constructor]|].
      pose proof (Permutation_length P) as Q. cbn [length] in Q. destruct (IH r ltac:(lia)) as (P2 & F2). split; [rewrite P2; exact P|].
      constructor; [|exact F2]. rewrite Forall_forall in *. intros c Hc. apply F. apply (Permutation_in _ P2). exact Hc.
  Qed.
  Lemma sink_ok a : forall q, fop q -> Permutation (sink A lt stable a q) (a :: q) /\ fop (sink A lt stable a q).
  Proof.
    induction q as [|b q IH]; intro F; cbn [sink]; [split; [apply Permutation_refl|repeat constructor]|].
    inversion F as [|? ? F1 F2]; subst. pose proof (sooner_brel a b) as Hs. destruct (sooner A lt stable b a).
    - destruct (IH F2) as (P & F3). split; [rewrite P; apply perm_swap|]. constructor; [|exact F3].
      apply Forall_forall. intros c Hc. apply (Permutation_in _ P) in Hc. destruct Hc as [<-|Hc]; [exact Hs|]. rewrite Forall_forall in F1. exact (F1 c Hc).
    - split; [apply Permutation_refl|]. constructor; [|exact F]. constructor; [exact Hs|]. apply (Forall_impl _ (fun c => brel_trans _ _ c Hs)). exact F1.
  Qed.
  Lemma sinks_ok q : fop (tl q) -> Permutation (sinks A lt stable q) q /\ fop (sinks A lt stable q).
  Proof. destruct q as [|a q]; cbn [tl sinks]; [intro; split; constructor|apply sink_ok]. Qed.

  Lemma head_ok x i q s : holds ((x, i) :: q) s -> Forall (brel (x, i)) q -> head_min lt stable (map fst s) i x /\ exists r b, get s i = (x :: r, b).
  Proof.
    intros (H1 & H2) F. split.
    - intros j y r Ej. rewrite get_map in Ej. assert (Q : In (y, j) ((x, i) :: q)) by (apply H2; rewrite Ej; reflexivity).
      destruct Q as [Q|Q]; [injection Q as -> ->; split; [apply (le_refl _ _ SW)|lia]|].
      rewrite Forall_forall in F. destruct (F _ Q) as (B1 & B2). cbn in B1, B2. split; [exact B1|]. intros S L. destruct (B2 S); [assumption|lia].
    - assert (Q : hd_error (fst (get s i)) = Some x) by (apply H2; now left). destruct (get s i) as [[|z r] b]; cbn in Q; [discriminate|]. injection Q as ->. eauto.
  Qed.
  Lemma holds_take x i q s r b : holds ((x, i) :: q) s -> get s i = (x :: r, b) ->
    match r with [] => holds q (setn i (r, b) s) | y :: _ => holds ((y, i) :: q) (setn i (r, b) s) end.
  Proof.
    intros (H1 & H2) G. pose proof (in_range _ _ _ _ _ _ G) as Hi. cbn [map snd] in H1. inversion H1 as [|? ? N1 N2]; subst.
    assert (Hq : forall j z, In (z, j) q <-> j <> i /\ hd_error (fst (get s j)) = Some z).
    { intros j z. split.
      - intro Q. split; [intros ->; apply N1; apply in_map_iff; exists (z, i); auto|]. apply H2. now right.
      - intros (D & Q). apply H2 in Q. destruct Q as [Q|Q]; [congruence|exact Q]. }
    assert (Hg : forall j, get (setn i (r, b) s) j = if Nat.eq_dec j i then (r, b) else get s j).
    { intro j. unfold get. destruct (Nat.eq_dec j i) as [->|D]; [apply setn_same, Hi|apply setn_other, D]. }
    destruct r as [|y r].
    - split; [exact N2|]. intros j z. rewrite Hq, Hg. destruct (Nat.eq_dec j i); cbn; [split; [tauto|discriminate]|tauto].
    - split; [constructor; assumption|]. intros j z. cbn [In]. rewrite Hq, Hg. destruct (Nat.eq_dec j i) as [->|D]; cbn.
      + split; [intros [Q|Q]; [injection Q as ->; reflexivity|tauto]|intro Q; injection Q as ->; now left].
      + split; [intros [Q|Q]; [congruence|tauto]|tauto].
  Qed.

  Lemma goes_on_brel a q : fop q -> goes_on A lt stable (a :: q) = true -> Forall (brel a) q.
  Proof.
    destruct q as [|b q]; intros F E; [constructor|]. inversion F as [|? ? F1 F2]; subst.
    assert (Hab : brel a b).
    { cbn [goes_on] in E. unfold brel. destruct stable; cbn [andb] in E.
      - destruct (Nat.ltb_spec (snd a) (snd b)); cbn [negb] in E; [apply negb_true_iff in E; split; [exact E|intros _; right; lia]|].
        split; [exact (sw_asym _ _ SW _ _ E)|auto].
      - apply negb_true_iff in E. split; [exact E|discriminate]. }
    constructor; [exact Hab|]. apply (Forall_impl _ (fun c => brel_trans _ _ c Hab)). exact F1.
  Qed.
  Lemma brel_goes_on a q : NoDup (map snd (a :: q)) -> Forall (brel a) q -> goes_on A lt stable (a :: q) = true.
  Proof.
    destruct q as [|b q]; intros N F; [reflexivity|]. inversion F as [|? ? (B1 & B2) _]; subst. cbn [goes_on].
    assert (D : snd a <> snd b) by (cbn in N; inversion N as [|? ? N1 _]; subst; intro Q; apply N1; left; auto).
    destruct stable; cbn [andb]; [|apply negb_true_iff; exact B1].
    destruct (Nat.ltb_spec (snd a) (snd b)); cbn [negb]; [apply negb_true_iff; exact B1|]. destruct (B2 eq_refl); [assumption|lia].
  Qed.

  Lemma inner_ok : forall len q s, holds q s -> fop (tl q) ->
    exists out q' s' n, bubble_inner A lt stable len q s = Some (out, q', s', n) /\ steps lt stable (map fst s) out (map fst s') /\
      map snd s' = map snd s /\ length out + n = len /\ holds q' s' /\ fop (tl q') /\ (0 < len -> q <> [] -> fop q -> out <> []).
  Proof.
    induction len as [|len IH]; intros q s Hh F.
    { exists [], q, s, 0. cbn. repeat split; try apply Hh; auto; [constructor|lia]. }
    destruct q as [|[x i] q]; cbn [bubble_inner].
    { exists [], [], s, (S len). split; [reflexivity|]. split; [constructor|]. split; [reflexivity|]. split; [reflexivity|]. split; [exact Hh|]. split; [exact F|congruence]. }
    cbn [tl] in F. destruct (goes_on A lt stable ((x, i) :: q)) eqn:G.
    - pose proof (goes_on_brel _ _ F G) as Fb. destruct (head_ok x i q s Hh Fb) as (Hm & r & b & Gi).
      rewrite (take_some _ _ _ _ _ _ Gi). cbn [bind]. pose proof (in_range _ _ _ _ _ _ Gi) as Hi.
      assert (Gi' : get (setn i (r, b) s) i = (r, b)) by (unfold get; apply setn_same, Hi). rewrite Gi'. cbn [fst].
      pose proof (holds_take x i q s r b Hh Gi) as Hh'.
      assert (St : forall (o : list A) (s' : seqs), steps lt stable (map fst (setn i (r, b) s)) o (map fst s') -> steps lt stable (map fst s) (x :: o) (map fst s')).
      { intros o s' Q. rewrite set_fst in Q. apply (steps_cons _ _ _ _ i x r); [rewrite get_map, Gi; reflexivity|exact Hm|exact Q]. }
      destruct r as [|y r].
      + exists [x], q, (setn i ([], b) s), len. split; [reflexivity|]. split; [apply St; constructor|]. split; [exact (set_snd _ _ _ _ _ _ Gi)|].
        split; [reflexivity|]. split; [exact Hh'|]. split; [|discriminate]. destruct q; [constructor|inversion F; assumption].
      + destruct (IH ((y, i) :: q) _ Hh' F) as (out & q' & s' & n & -> & Hs & Hb & Hl & Hq & Ht & _). cbn [bind].
        exists (x :: out), q', s', n. split; [reflexivity|]. split; [apply St, Hs|]. split; [rewrite Hb; exact (set_snd _ _ _ _ _ _ Gi)|].
        split; [cbn; lia|]. split; [exact Hq|]. split; [exact Ht|discriminate].
    - exists [], ((x, i) :: q), s, (S len). split; [reflexivity|]. split; [constructor|]. split; [reflexivity|]. split; [reflexivity|]. split; [exact Hh|]. split; [exact F|].
      intros _ _ F2. inversion F2; subst. rewrite brel_goes_on in G; [discriminate|apply Hh|assumption].
  Qed.

  Lemma outer_ok : forall fuel len q s, len <= fuel -> holds q s -> fop q -> len <= total s -> takes A lt stable s len (bubble_outer A lt stable fuel len q s).
  Proof.
    induction fuel as [|f IH]; intros len q s Hf Hh F Ht.
    { replace len with 0 by lia. exists [], s. cbn. repeat split; constructor. }
    destruct len as [|len]; [exists [], s; cbn; repeat split; constructor|].
    destruct q as [|a q].
    { exfalso. destruct (total_ex _ s) as (j & y & r & _ & Ej); [lia|]. assert (Q : In (y, j) []) by (apply Hh; rewrite Ej; reflexivity). contradiction. }
    cbn [bubble_outer]. assert (Ft : fop (tl (a :: q))) by (inversion F; assumption).
    destruct (inner_ok (S len) (a :: q) s Hh Ft) as (out & q' & s' & n & -> & Hs & Hb & Hl & Hq & Ft' & Hne). cbn [bind].
    specialize (Hne ltac:(lia) ltac:(discriminate) F). destruct (sinks_ok q' Ft') as (P & F'). destruct (sum_steps A lt _ _ _ _ Hs) as (Hsum & _).
    assert (0 < length out) by (destruct out; [congruence|cbn; lia]).
    destruct (IH n (sinks A lt stable q') s' ltac:(lia) (holds_perm _ _ _ (Permutation_sym P) Hq) F' ltac:(lia)) as (out2 & s2 & -> & Hs2 & Hl2 & Hb2). cbn [bind].
    exists (out ++ out2), s2. split; [reflexivity|]. split; [exact (steps_app _ _ _ _ _ _ _ _ Hs Hs2)|]. split; [rewrite app_length; lia|congruence].
  Qed.
  Theorem bubble_takes s len : len <= total s -> takes A lt stable s len (merge_bubble A lt stable s len).
  Proof.
    intro Ht. unfold merge_bubble. cbv zeta. destruct (bubble_sort_ok (length (heads A 0 s)) (heads A 0 s) (Nat.le_refl _)) as (P & F).
    apply outer_ok; [lia|apply (holds_perm _ _ _ (Permutation_sym P)), heads_holds|exact F|exact Ht].
  Qed.
End Bubble.

Section Seq.
  Variable A : Type.
  Variable lt : A -> A -> bool.
  Hypothesis SW : strict_weak lt.
  Notation seqs := (list (list A * list A)).

  Lemma takes_weaken b s len r : takes A lt true s len r -> takes A lt b s len r.
  Proof. intros (out & s' & E & H & R). exists out, s'. split; [exact E|]. split; [exact (steps_weaken lt b _ _ _ H)|exact R]. Qed.
  Lemma takes_merged b s len r : Forall (sorted lt) (map fst s) -> takes A lt b s len r ->
    exists out s', r = Some (out, s') /\ merged lt b (map fst s) len out (map fst s') /\ map snd s' = map snd s.
  Proof. intros Hs (out & s' & E & H & <- & Hb). exists out, s'. split; [exact E|]. split; [exact (steps_merged A lt SW b _ _ _ Hs H)|exact Hb]. Qed.

  (** at most two sequences *)
  Lemma few_takes st se cp alg s len : length s <= 2 -> len <= total s -> takes A lt true s len (sequential A lt st se cp alg s len).
  Proof.
    intros Hl Ht. unfold sequential. cbv zeta. destruct s as [|a [|b [|c s]]]; cbn [length] in *; [| | |lia].
    - unfold total in Ht. cbn in Ht. replace len with 0 by lia. exists [], []. repeat split; constructor.
    - assert (Hta : len <= length (fst a)) by (unfold total in Ht; cbn in Ht; lia).
      unfold copyn, get. cbn [nth]. destruct (Nat.leb_spec len (length (fst a))); [|lia]. cbn [bind]. eexists _, _. split; [reflexivity|].
      split; [|split; [apply firstn_length_le; lia|reflexivity]].
      apply (copy_steps A lt SW true 0 len [fst a] (fst a)); [reflexivity|lia|]. right. intros [|[|j]] D; [congruence|reflexivity|reflexivity].
    - apply (advance_takes A lt SW); [lia|unfold total in Ht; cbn in *; lia|]. right. intros [|[|[|h]]] D1 D2; try congruence; reflexivity.
  Qed.
  Lemma few_merged st se cp alg s len : length s <= 2 -> len <= total s -> Forall (sorted lt) (map fst s) ->
    exists out s', sequential A lt st se cp alg s len = Some (out, s') /\ merged lt true (map fst s) len out (map fst s') /\ map snd s' = map snd s.
  Proof. intros Hl Ht Hs. apply (takes_merged true); [exact Hs|]. apply few_takes; assumption. Qed.
End Seq.
