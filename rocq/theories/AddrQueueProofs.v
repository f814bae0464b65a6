(** Proofs for AddrQueueModel. *)
From Coq Require Import List Bool Arith Lia Permutation Sorting.Sorted.
From Verif Require Import AddrQueueModel AddrQueueSpec.
Import ListNotations.

Section Proofs.
Variables K P : Type.
Variable keq : forall a b : K, {a = b} + {a <> b}.
Variable klt : K -> K -> bool.
Hypothesis Hk : strict_total klt.
Variable c : P -> P -> bool.
Hypothesis Hc : strict_weak c.

Lemma keqv_spec a b : keqv K klt a b = true <-> a = b.
Proof.
  destruct Hk as (Hi & _ & Ht). unfold keqv. rewrite andb_true_iff, !negb_true_iff.
  split; [intros (H1 & H2); auto|intros ->; auto].
Qed.
Lemma keqv_refl a : keqv K klt a a = true.
Proof. apply keqv_spec. reflexivity. Qed.
Lemma keqv_neq a b : a <> b -> keqv K klt a b = false.
Proof. intro H. apply not_true_is_false. rewrite keqv_spec. exact H. Qed.

(** * The cross-linked containers, for any payload carrying a key *)
Section Cross.
Variable V : Type.
Variable key : V -> K.
Notation link := (fun e : nat * V => (key (snd e), fst e)).

Record linked (vals : list (nat * V)) (meta : list (K * nat)) (next : nat) : Prop := {
  l_ids : NoDup (map fst vals);
  l_keys : NoDup (map (fun e => key (snd e)) vals);
  l_new : forall i v, In (i, v) vals -> i < next;
  l_meta : Permutation meta (map link vals) }.

Lemma linked_meta vals meta next k i : linked vals meta next ->
  (In (k, i) meta <-> exists v, In (i, v) vals /\ key v = k).
Proof.
  intro L.
  split.
  - intro H. apply (Permutation_in _ (l_meta _ _ _ L)) in H.
    apply in_map_iff in H as ((j & v) & He & Hin). simpl in He. injection He as <- <-. eauto.
  - intros (v & Hin & <-). apply (Permutation_in _ (Permutation_sym (l_meta _ _ _ L))).
    apply in_map_iff. exists (i, v). auto.
Qed.

Lemma meta_keys vals meta next : linked vals meta next -> NoDup (map fst meta).
Proof.
  intro L. apply (Permutation_NoDup (l := map fst (map link vals))).
  - apply Permutation_map, Permutation_sym, (l_meta _ _ _ L).
  - rewrite map_map. simpl. apply (l_keys _ _ _ L).
Qed.

Lemma find_some vals meta next k i : linked vals meta next ->
  (meta_find K klt meta k = Some i <-> exists v, In (i, v) vals /\ key v = k).
Proof.
  intro L. rewrite <- (linked_meta vals meta next k i L).
  pose proof (meta_keys _ _ _ L) as Hnd. clear L.
  unfold meta_find. induction meta as [|[k' i'] m IH]; simpl; [split; [discriminate|tauto]|].
  inversion Hnd as [|? ? Hn Hnd']; subst.
  destruct (keqv K klt k' k) eqn:E; simpl.
  - apply keqv_spec in E. subst. split; [intro H; injection H as <-; auto|].
    intros [H|H]; [injection H as <-; reflexivity|].
    destruct Hn. apply in_map_iff. exists (k, i). auto.
  - rewrite (IH Hnd'). split; [auto|]. intros [H|H]; [|exact H].
    injection H as -> ->. rewrite keqv_refl in E. discriminate.
Qed.

Lemma find_none vals meta next k : linked vals meta next ->
  (meta_find K klt meta k = None <-> ~ In k (map (fun e => key (snd e)) vals)).
Proof.
  intro L. destruct (meta_find K klt meta k) as [i|] eqn:E.
  - apply (find_some _ _ _ _ _ L) in E as (v & Hin & <-). split; [discriminate|].
    intro H. destruct H. apply in_map_iff. exists (i, v). auto.
  - split; [intros _ H|reflexivity]. apply in_map_iff in H as ((i & v) & <- & Hin).
    assert (meta_find K klt meta (key v) = Some i) by (apply (find_some _ _ _ _ _ L); eauto).
    simpl in E. congruence.
Qed.

Lemma node_erase_some (vals : list (nat * V)) i v : In (i, v) vals ->
  node_erase vals i = Some (filter (fun e => negb (Nat.eqb (fst e) i)) vals).
Proof.
  intro H. unfold node_erase. assert (existsb (fun e => Nat.eqb (fst e) i) vals = true) as ->; [|reflexivity].
  apply existsb_exists. exists (i, v). split; [exact H|apply Nat.eqb_refl].
Qed.

Lemma NoDup_map_filter {A B} (f : A -> B) (g : A -> bool) l : NoDup (map f l) -> NoDup (map f (filter g l)).
Proof.
  induction l as [|a l IH]; simpl; intro H; [constructor|]. inversion H as [|? ? Hn Hnd]; subst.
  destruct (g a); simpl; auto. constructor; auto. intro Hi. apply Hn.
  apply in_map_iff in Hi as (b & Hb & Hin). apply filter_In in Hin as (Hin & _). apply in_map_iff. eauto.
Qed.

(** filtering by node identity and by key agree on linked containers *)
Lemma filter_id_key vals i v : NoDup (map fst vals) -> NoDup (map (fun e => key (snd e)) vals) ->
  In (i, v) vals ->
  filter (fun e : nat * V => negb (Nat.eqb (fst e) i)) vals =
  filter (fun e : nat * V => negb (keqv K klt (key (snd e)) (key v))) vals.
Proof.
  intros H1 H2 Hin. apply filter_ext_in. intros (j & w) Hj. simpl. f_equal.
  destruct (Nat.eqb_spec j i) as [->|Hn].
  - assert (w = v) as ->; [|symmetry; apply keqv_refl].
    clear H2. induction vals as [|[a b] l IH]; simpl in *; [tauto|].
    inversion H1 as [|? ? Hn Hnd]; subst.
    destruct Hj as [Hj|Hj]; destruct Hin as [Hin|Hin]; try congruence.
    + injection Hj as -> ->. destruct Hn. apply in_map_iff. exists (i, v). auto.
    + injection Hin as -> ->. destruct Hn. apply in_map_iff. exists (i, w). auto.
    + auto.
  - symmetry. apply keqv_neq. intro He. apply Hn. clear H1 Hn.
    induction vals as [|[a b] l IH]; simpl in *; [tauto|].
    inversion H2 as [|? ? Hn Hnd]; subst.
    destruct Hj as [Hj|Hj]; destruct Hin as [Hin|Hin]; try congruence.
    + injection Hj as -> ->. destruct Hn. apply in_map_iff. exists (i, v). auto.
    + injection Hin as -> ->. destruct Hn. apply in_map_iff. exists (j, w). auto.
    + auto.
Qed.

Lemma perm_filter {A} (g : A -> bool) l l' : Permutation l l' -> Permutation (filter g l) (filter g l').
Proof.
  induction 1; simpl; auto.
  - destruct (g x); auto.
  - destruct (g x), (g y); auto. apply perm_swap.
  - eapply Permutation_trans; eauto.
Qed.

Lemma filter_map {A B} (f : A -> B) (g : B -> bool) l : filter g (map f l) = map f (filter (fun x => g (f x)) l).
Proof. induction l as [|a l IH]; simpl; [reflexivity|]. destruct (g (f a)); simpl; rewrite IH; reflexivity. Qed.

Lemma linked_erase vals meta next i v : linked vals meta next -> In (i, v) vals ->
  linked (filter (fun e => negb (Nat.eqb (fst e) i)) vals) (meta_erase K klt meta (key v)) next.
Proof.
  intros L Hin. constructor.
  - apply NoDup_map_filter, (l_ids _ _ _ L).
  - apply NoDup_map_filter, (l_keys _ _ _ L).
  - intros j w H. apply filter_In in H as (H & _). apply (l_new _ _ _ L j w H).
  - rewrite (filter_id_key vals i v (l_ids _ _ _ L) (l_keys _ _ _ L) Hin).
    unfold meta_erase. eapply Permutation_trans; [apply perm_filter, (l_meta _ _ _ L)|].
    rewrite filter_map. simpl. apply Permutation_refl.
Qed.

(** a fresh key gets a fresh node, anywhere in the order *)
Lemma linked_add vals vals' meta next v : linked vals meta next ->
  Permutation vals' ((next, v) :: vals) ->
  ~ In (key v) (map (fun e => key (snd e)) vals) ->
  linked vals' (meta ++ [(key v, next)]) (S next).
Proof.
  intros L Hp Hn. constructor.
  - apply (Permutation_NoDup (l := map fst ((next, v) :: vals))); [apply Permutation_map, Permutation_sym, Hp|].
    simpl. constructor; [|apply (l_ids _ _ _ L)]. intro H. apply in_map_iff in H as ((i & w) & He & H).
    simpl in He. subst. apply (l_new _ _ _ L) in H. lia.
  - apply (Permutation_NoDup (l := map (fun e => key (snd e)) ((next, v) :: vals)));
      [apply Permutation_map, Permutation_sym, Hp|].
    simpl. constructor; [exact Hn|apply (l_keys _ _ _ L)].
  - intros i w H. apply (Permutation_in _ Hp) in H as [H|H]; [injection H as <- _; lia|].
    apply (l_new _ _ _ L) in H. lia.
  - eapply Permutation_trans; [|apply Permutation_map, Permutation_sym, Hp]. simpl.
    eapply Permutation_trans; [apply Permutation_app_comm|]. simpl. apply perm_skip, (l_meta _ _ _ L).
Qed.

(** replacing the node of a present key by a fresh one *)
Lemma linked_move vals vals' meta next old w v : linked vals meta next ->
  In (old, w) vals -> key w = key v ->
  Permutation vals' ((next, v) :: vals) ->
  linked (filter (fun e => negb (Nat.eqb (fst e) old)) vals') (meta_assign K klt meta (key v) next) (S next) /\
  Permutation (filter (fun e => negb (Nat.eqb (fst e) old)) vals')
              ((next, v) :: filter (fun e => negb (Nat.eqb (fst e) old)) vals).
Proof.
  intros L Hin Hkw Hp.
  assert (Hlt : old < next) by (apply (l_new _ _ _ L old w Hin)).
  assert (Hp' : Permutation (filter (fun e => negb (Nat.eqb (fst e) old)) vals')
              ((next, v) :: filter (fun e => negb (Nat.eqb (fst e) old)) vals)).
  { eapply Permutation_trans; [apply perm_filter, Hp|]. simpl.
    destruct (Nat.eqb_spec next old); [lia|]. apply Permutation_refl. }
  split; [|exact Hp'].
  pose proof (linked_erase vals meta next old w L Hin) as L'. rewrite Hkw in L'.
  assert (Hnk : ~ In (key v) (map (fun e => key (snd e)) (filter (fun e => negb (Nat.eqb (fst e) old)) vals))).
  { rewrite (filter_id_key vals old w (l_ids _ _ _ L) (l_keys _ _ _ L) Hin), Hkw.
    intro H. apply in_map_iff in H as ((i & u) & He & Hf). apply filter_In in Hf as (_ & Hf).
    simpl in *. rewrite He, keqv_refl in Hf. discriminate. }
  pose proof (linked_add _ _ _ next v L' Hp' Hnk) as L2.
  constructor; try apply L2.
  eapply Permutation_trans; [|apply (l_meta _ _ _ L2)].
  (* meta_assign is a permutation of erase + append *)
  pose proof (meta_keys _ _ _ L) as Hnd.
  assert (Hm : In (key v, old) meta) by (apply (linked_meta _ _ _ _ _ L); eauto).
  clear - Hk Hnd Hm. unfold meta_assign, meta_erase.
  induction meta as [|[k i] m IH]; simpl in *; [tauto|].
  inversion Hnd as [|? ? Hn Hnd']; subst.
  destruct (keqv K klt k (key v)) eqn:E; simpl.
  - apply keqv_spec in E. subst.
    assert (Hno : forall e, In e m -> keqv K klt (fst e) (key v) = false).
    { intros e He. apply keqv_neq. intro H. apply Hn. rewrite <- H. apply in_map, He. }
    rewrite (map_ext_in _ (fun e => e)) by (intros e He; rewrite (Hno e He); reflexivity).
    rewrite map_id.
    assert (filter (fun e : K * nat => negb (keqv K klt (fst e) (key v))) m = m) as ->.
    { clear - Hno. induction m as [|e m IH]; simpl; [reflexivity|].
      rewrite (Hno e) by (simpl; auto). simpl. f_equal. apply IH. intros; apply Hno; simpl; auto. }
    apply Permutation_cons_append.
  - apply perm_skip, IH; auto. destruct Hm as [Hm|Hm]; [|exact Hm].
    injection Hm as -> ->. rewrite keqv_refl in E. discriminate.
Qed.

Lemma linked_pop i v vals meta next : linked ((i, v) :: vals) meta next ->
  linked vals (meta_erase K klt meta (key v)) next.
Proof.
  intro L. pose proof (linked_erase _ _ _ i v L (or_introl eq_refl)) as L'. simpl in L'.
  rewrite Nat.eqb_refl in L'. simpl in L'.
  assert (E : filter (fun e : nat * V => negb (Nat.eqb (fst e) i)) vals = vals); [|rewrite E in L'; exact L'].
  pose proof (l_ids _ _ _ L) as H. simpl in H. inversion H as [|? ? Hn _]; subst. clear - Hn.
  induction vals as [|[j w] l IH]; simpl in *; [reflexivity|].
  destruct (Nat.eqb_spec j i); [subst; tauto|]. simpl. f_equal. apply IH. tauto.
Qed.
End Cross.

(** * FIFO *)
Notation flinked q := (linked K (fun k : K => k) (f_vals K q) (f_meta K q) (f_next K q)).
Definition fabs (q : fifo K) : list K := map snd (f_vals K q).

Lemma drop_filter k l : drop K keq k l = filter (fun e => negb (keqv K klt e k)) l.
Proof.
  unfold drop. induction l as [|a l IH]; simpl; [reflexivity|].
  destruct (keq k a) as [->|Hn].
  - rewrite keqv_refl. simpl. exact IH.
  - rewrite keqv_neq by congruence. simpl. f_equal. exact IH.
Qed.

Lemma map_filter_snd (l : list (nat * K)) k :
  map snd (filter (fun e => negb (keqv K klt (snd e) k)) l) = drop K keq k (map snd l).
Proof. rewrite drop_filter, (filter_map snd). reflexivity. Qed.

Lemma drop_notin k l : ~ In k l -> drop K keq k l = l.
Proof. intro H. apply notin_remove. exact H. Qed.

(** no reference step exists *)
Definition f_stuck (l : list K) (a : op K P) : Prop := forall l' o, ~ fifo_ref K P keq l a l' o.

Lemma f_step_ok q a : flinked q ->
  match f_step K klt P q a with
  | Ok (q', o) => flinked q' /\ fifo_ref K P keq (fabs q) a (fabs q') o
  | UB => False
  | Misuse => f_stuck (fabs q) a
  end.
Proof.
  intro L. destruct a as [k p|k|k| | |]; simpl.
  - unfold f_insert. destruct (meta_find K klt (f_meta K q) k) as [old|] eqn:E.
    + apply (find_some K (fun k => k) _ _ _ _ _ L) in E as (w & Hin & ->).
      rewrite (node_erase_some K (f_vals K q ++ [(f_next K q, k)]) old k) by (apply in_or_app; auto).
      destruct (linked_move K (fun k => k) _ (f_vals K q ++ [(f_next K q, k)]) _ _ old k k L Hin eq_refl) as (L' & _).
      { apply Permutation_sym, Permutation_cons_append. }
      split; [exact L'|]. split.
      * unfold fabs. simpl. rewrite filter_app, map_app. simpl.
        destruct (Nat.eqb_spec (f_next K q) old) as [He|_].
        { pose proof (l_new _ _ _ _ _ L old k Hin). lia. }
        simpl. f_equal.
        rewrite (filter_id_key K (fun k => k) (f_vals K q) old k (l_ids _ _ _ _ _ L) (l_keys _ _ _ _ _ L) Hin).
        apply map_filter_snd.
      * exists false. split; [reflexivity|]. split; [discriminate|]. intro H. destruct H.
        unfold fabs. apply in_map_iff. exists (old, k). auto.
    + apply (find_none K (fun k => k) _ _ _ _ L) in E.
      split.
      * apply (linked_add K (fun k => k) _ _ _ _ k L); [apply Permutation_sym, Permutation_cons_append|exact E].
      * split.
        -- unfold fabs. simpl. rewrite map_app. simpl. rewrite drop_notin; [reflexivity|exact E].
        -- exists true. split; [reflexivity|]. split; auto.
  - unfold f_erase. destruct (meta_find K klt (f_meta K q) k) as [i|] eqn:E.
    + apply (find_some K (fun k => k) _ _ _ _ _ L) in E as (w & Hin & ->).
      rewrite (node_erase_some K _ i k Hin).
      split; [apply (linked_erase K (fun k => k) _ _ _ i k L Hin)|]. split.
      * unfold fabs. simpl.
        rewrite (filter_id_key K (fun k => k) (f_vals K q) i k (l_ids _ _ _ _ _ L) (l_keys _ _ _ _ _ L) Hin).
        apply map_filter_snd.
      * exists true. split; [reflexivity|]. split; [|reflexivity]. intros _.
        unfold fabs. apply in_map_iff. exists (i, k). auto.
    + apply (find_none K (fun k => k) _ _ _ _ L) in E. split; [exact L|].
      split; [symmetry; apply drop_notin; exact E|].
      exists false. split; [reflexivity|]. split; [discriminate|]. intro H. destruct (E H).
  - unfold f_erase_handle. destruct (meta_find K klt (f_meta K q) k) as [i|] eqn:E.
    + apply (find_some K (fun k => k) _ _ _ _ _ L) in E as (w & Hin & ->).
      rewrite (node_erase_some K _ i k Hin).
      split; [apply (linked_erase K (fun k => k) _ _ _ i k L Hin)|].
      split; [|split; [|reflexivity]].
      * unfold fabs. apply in_map_iff. exists (i, k). auto.
      * unfold fabs. simpl.
        rewrite (filter_id_key K (fun k => k) (f_vals K q) i k (l_ids _ _ _ _ _ L) (l_keys _ _ _ _ _ L) Hin).
        apply map_filter_snd.
    + apply (find_none K (fun k => k) _ _ _ _ L) in E. intros l' o (H & _). exact (E H).
  - unfold f_top, fabs. destruct (f_vals K q) as [|[i k] r] eqn:E; simpl.
    + intros l' o (_ & k & r & H & _). discriminate.
    + split; [rewrite E; exact L|]. simpl. rewrite E. split; [reflexivity|]. exists k, (map snd r). auto.
  - unfold f_pop, fabs. destruct (f_vals K q) as [|[i k] r] eqn:E; simpl.
    + intros l' o (k & H & _). discriminate.
    + split; [apply (linked_pop K (fun k => k) i k _ _ _ L)|]. exists k. auto.
  - split; [exact L|]. split; [reflexivity|]. exists (f_empty K q). split; [reflexivity|].
    unfold f_empty, fabs. destruct (f_vals K q) as [|[i k] r]; simpl; split; auto; discriminate.
Qed.

Lemma f_run_ok h : forall q, flinked q ->
  match run K P (f_step K klt P) q h with
  | Ok (q', os) => flinked q' /\ fifo_hist K P keq (fabs q) h os (fabs q')
  | UB => False
  | Misuse => exists h1 a h2 os l, h = h1 ++ a :: h2 /\ fifo_hist K P keq (fabs q) h1 os l /\ f_stuck l a
  end.
Proof.
  induction h as [|a h IH]; intros q L; simpl.
  - split; [exact L|constructor].
  - pose proof (f_step_ok q a L) as S. destruct (f_step K klt P q a) as [[q' o]| |].
    + destruct S as (L' & R). specialize (IH q' L').
      destruct (run K P (f_step K klt P) q' h) as [[q'' os]| |].
      * destruct IH as (L'' & H). split; [exact L''|]. econstructor; eauto.
      * exact IH.
      * destruct IH as (h1 & b & h2 & os & l & -> & H & Hs).
        exists (a :: h1), b, h2, (o :: os), l. split; [reflexivity|]. split; [econstructor; eauto|exact Hs].
    + exact S.
    + exists [], a, h, [], (fabs q). split; [reflexivity|]. split; [constructor|exact S].
Qed.

Lemma f_ref_nodup l a l' o : fifo_ref K P keq l a l' o -> NoDup l -> NoDup l'.
Proof.
  intros R H. assert (Hd : forall k, NoDup (drop K keq k l)).
  { intro k. rewrite drop_filter. apply NoDup_filter, H. }
  destruct a as [k p|k|k| | |]; simpl in R.
  - destruct R as (-> & _). apply (Permutation_NoDup (Permutation_cons_append _ _)).
    constructor; [apply remove_In|apply Hd].
  - destruct R as (-> & _). apply Hd.
  - destruct R as (_ & -> & _). apply Hd.
  - destruct R as (-> & _). exact H.
  - destruct R as (k & -> & _). inversion H; assumption.
  - destruct R as (-> & _). exact H.
Qed.

Lemma f_hist_nodup l h os l' : fifo_hist K P keq l h os l' -> NoDup l -> NoDup l'.
Proof. induction 1; auto. intro Hn. apply IHfifo_hist. eapply f_ref_nodup; eauto. Qed.

(** * Priority queue *)
Notation node := (nat * (P * K))%type.
Notation plinked q := (linked (P * K) (fun x => snd x) (p_vals K P q) (p_meta K P q) (p_next K P q)).
Definition nlt (a b : node) : Prop := pcmp K klt P c (snd a) (snd b) = true.

Lemma pcmp_trans a b d : pcmp K klt P c a b = true -> pcmp K klt P c b d = true -> pcmp K klt P c a d = true.
Proof.
  destruct Hk as (Ki & Kt & Kto). destruct Hc as (Ci & Ct & Cn). unfold pcmp.
  destruct a as [p k], b as [p' k'], d as [p'' k'']; simpl.
  rewrite !orb_true_iff, !andb_true_iff, !negb_true_iff. intros [H1|(H1 & H2)] [H3|(H3 & H4)].
  - left. eauto.
  - left. destruct (c p p'') eqn:E; [reflexivity|]. rewrite (Cn p p'' p' E H3) in H1. discriminate.
  - left. destruct (c p p'') eqn:E; [reflexivity|].
    (* p' < p'', not p' < p *) rewrite (Cn p' p p'' H1 E) in H3. discriminate.
  - right. split; [|eauto]. apply (Cn p'' p' p); assumption.
Qed.

Lemma pcmp_asym_key a b : pcmp K klt P c a b = false -> pcmp K klt P c b a = false -> snd a = snd b /\ equiv P c (fst a) (fst b).
Proof.
  destruct Hk as (Ki & Kt & Kto). unfold pcmp, equiv. destruct a as [p k], b as [p' k']; simpl.
  rewrite !orb_false_iff, !andb_false_iff, !negb_false_iff.
  intros (H1 & [H2|H2]) (H3 & [H4|H4]); try congruence. auto.
Qed.

Lemma set_insert_spec l i x : StronglySorted nlt l ->
  let '(l', it, b) := set_insert K klt P c l i x in
  StronglySorted nlt l' /\
  if b then it = i /\ Permutation l' ((i, x) :: l)
  else l' = l /\ exists y, In (it, y) l /\ snd y = snd x /\ equiv P c (fst y) (fst x).
Proof.
  induction 1 as [|[j y] l Hs IH Hall]; simpl.
  - split; [repeat constructor|]. split; auto.
  - destruct (pcmp K klt P c x y) eqn:E1.
    + split; [|split; auto]. constructor; [constructor; assumption|].
      constructor; [exact E1|]. rewrite Forall_forall in *. intros z Hz. unfold nlt. simpl.
      apply pcmp_trans with (b := y); [exact E1|]. apply (Hall z Hz).
    + destruct (pcmp K klt P c y x) eqn:E2.
      * destruct (set_insert K klt P c l i x) as [[l' it] b]. destruct IH as (IHs & IHb).
        assert (Hall' : Forall (nlt (j, y)) l').
        { rewrite Forall_forall in *. intros z Hz. destruct b.
          - destruct IHb as (_ & Hp). apply (Permutation_in _ Hp) in Hz as [<-|Hz]; [exact E2|auto].
          - destruct IHb as (-> & _). auto. }
        split; [constructor; assumption|]. destruct b.
        -- destruct IHb as (-> & Hp). split; [reflexivity|].
           eapply Permutation_trans; [apply perm_skip, Hp|]. apply perm_swap.
        -- destruct IHb as (-> & w & Hw & He). split; [reflexivity|]. exists w. simpl. auto.
      * split; [constructor; assumption|]. split; [reflexivity|]. exists y. split; [simpl; auto|].
        apply pcmp_asym_key; assumption.
Qed.

Lemma sorted_filter (g : node -> bool) l : StronglySorted nlt l -> StronglySorted nlt (filter g l).
Proof.
  induction 1 as [|a l Hs IH Hall]; simpl; [constructor|]. destruct (g a); [|exact IH].
  constructor; [exact IH|]. rewrite Forall_forall in *. intros z Hz. apply filter_In in Hz as (Hz & _). auto.
Qed.

Definition pabs (q : pq K P) : pmap K P := fun k =>
  match find (fun e : node => keqv K klt (snd (snd e)) k) (p_vals K P q) with
  | Some e => Some (fst (snd e)) | None => None end.

Lemma pabs_in q k p : plinked q -> (pabs q k = Some p <-> exists i, In (i, (p, k)) (p_vals K P q)).
Proof.
  intro L. pose proof (l_keys _ _ _ _ _ L) as Hnd. unfold pabs. clear L.
  induction (p_vals K P q) as [|[j [p' k']] l IH]; simpl.
  - split; [discriminate|intros (i & [])].
  - simpl in Hnd. inversion Hnd as [|? ? Hn Hnd']; subst. specialize (IH Hnd').
    destruct (keqv K klt k' k) eqn:E; simpl.
    + apply keqv_spec in E. subst. split; [intro H; injection H as <-; exists j; auto|].
      intros (i & [H|H]); [injection H as _ <-; reflexivity|].
      destruct Hn. apply in_map_iff. exists (i, (p, k)). auto.
    + rewrite IH. split; [intros (i & H); exists i; auto|].
      intros (i & [H|H]); [|exists i; auto]. injection H as _ _ ->. rewrite keqv_refl in E. discriminate.
Qed.

Lemma pabs_none q k : plinked q -> (pabs q k = None <-> ~ In k (map (fun e : node => snd (snd e)) (p_vals K P q))).
Proof.
  intro L. destruct (pabs q k) as [p|] eqn:E.
  - apply (pabs_in q k p L) in E as (i & H). split; [discriminate|]. intro Hn. destruct Hn.
    apply in_map_iff. exists (i, (p, k)). auto.
  - split; [|reflexivity]. intros _ H. apply in_map_iff in H as ((i & (p & k')) & He & H). simpl in He. subst.
    assert (pabs q k = Some p) by (apply pabs_in; eauto). congruence.
Qed.

Lemma pabs_ext q q' k : plinked q -> plinked q' ->
  (forall p, (exists i, In (i, (p, k)) (p_vals K P q')) <-> (exists i, In (i, (p, k)) (p_vals K P q))) ->
  pabs q' k = pabs q k.
Proof.
  intros L L' H. destruct (pabs q k) as [p|] eqn:E.
  - apply pabs_in; [exact L'|]. apply H. apply pabs_in; assumption.
  - destruct (pabs q' k) as [p|] eqn:E'; [|reflexivity].
    apply pabs_in in E'; [|exact L']. apply H in E'. apply pabs_in in E'; [|exact L]. congruence.
Qed.

Definition pgood (q : pq K P) : Prop := plinked q /\ StronglySorted nlt (p_vals K P q).
Definition p_stuck (m : pmap K P) (a : op K P) : Prop := forall m' o, ~ pq_ref K P klt c m a m' o.

Lemma pabs_erased q i p k vals' meta' next' : plinked q -> In (i, (p, k)) (p_vals K P q) ->
  vals' = filter (fun e : node => negb (Nat.eqb (fst e) i)) (p_vals K P q) ->
  plinked (mk_pq K P vals' meta' next') ->
  same_except K P k (pabs q) (pabs (mk_pq K P vals' meta' next')) /\
  pabs (mk_pq K P vals' meta' next') k = None.
Proof.
  intros L Hin -> L'.
  pose proof (filter_id_key _ (fun x : P * K => snd x) (p_vals K P q) i (p, k) (l_ids _ _ _ _ _ L) (l_keys _ _ _ _ _ L) Hin) as Hf.
  split.
  - intros k' Hn. apply pabs_ext; [exact L|exact L'|]. intro p'. simpl. rewrite Hf. simpl.
    split; intros (j & H); exists j.
    + apply filter_In in H as (H & _). exact H.
    + apply filter_In. split; [exact H|]. simpl. rewrite keqv_neq by exact Hn. reflexivity.
  - apply pabs_none; [exact L'|]. simpl. rewrite Hf. simpl.
    intro H. apply in_map_iff in H as ((j & (p' & k')) & He & H). simpl in He. subst.
    apply filter_In in H as (_ & H). simpl in H. rewrite keqv_refl in H. discriminate.
Qed.

Lemma head_first q i p k r : pgood q -> p_vals K P q = (i, (p, k)) :: r -> first K P klt c (pabs q) k.
Proof.
  intros (L & S) E. exists p. split.
  - apply pabs_in; [exact L|]. exists i. rewrite E. simpl. auto.
  - intros k' p' H Hn. apply pabs_in in H as (j & H); [|exact L]. rewrite E in *.
    destruct H as [H|H]; [injection H as _ _ <-; congruence|].
    inversion S as [|? ? _ Hall]; subst. rewrite Forall_forall in Hall. specialize (Hall _ H).
    unfold nlt, pcmp in Hall. simpl in Hall. apply orb_true_iff in Hall as [Hl|Hl]; [auto|].
    apply andb_true_iff in Hl as (Hl & Hkl). apply negb_true_iff in Hl.
    destruct (c p p') eqn:Ec; [auto|]. right. split; [split; assumption|exact Hkl].
Qed.

Lemma p_step_ok q a : pgood q ->
  match p_step K klt P c q a with
  | Ok (q', o) => pgood q' /\ pq_ref K P klt c (pabs q) a (pabs q') o
  | UB => False
  | Misuse => p_stuck (pabs q) a
  end.
Proof.
  intros (L & S). destruct a as [k p|k|k| | |]; simpl.
  - unfold p_insert. pose proof (set_insert_spec (p_vals K P q) (p_next K P q) (p, k) S) as HI.
    destruct (set_insert K klt P c (p_vals K P q) (p_next K P q) (p, k)) as [[vals it] b].
    destruct HI as (S' & HI).
    destruct (meta_find K klt (p_meta K P q) k) as [old|] eqn:E.
    + apply (find_some _ (fun x : P * K => snd x) _ _ _ _ _ L) in E as ((po & k') & Hin & Hkk).
      simpl in Hkk. subst k'.
      destruct b.
      * destruct HI as (-> & Hp).
        rewrite (node_erase_some _ vals old (po, k)).
        2:{ apply (Permutation_in _ (Permutation_sym Hp)). simpl. auto. }
        destruct (linked_move _ (fun x : P * K => snd x) _ vals _ _ old (po, k) (p, k) L Hin eq_refl Hp) as (L' & Hp').
        set (q' := mk_pq _ _ _ _ _).
        assert (Lq : plinked q') by exact L'.
        assert (Hf := filter_id_key _ (fun x : P * K => snd x) (p_vals K P q) old (po, k) (l_ids _ _ _ _ _ L) (l_keys _ _ _ _ _ L) Hin).
        split; [split; [exact L'|apply sorted_filter, S']|].
        split; [|split].
        -- intros k' Hn. apply pabs_ext; [exact L|exact Lq|]. intro p'. split; intros (j & H).
           ++ apply (Permutation_in _ Hp') in H as [H|H]; [injection H as _ _ <-; congruence|].
              apply filter_In in H as (H & _). eauto.
           ++ exists j. apply (Permutation_in _ (Permutation_sym Hp')). right. rewrite Hf.
              apply filter_In. split; [exact H|]. simpl. rewrite keqv_neq by exact Hn. reflexivity.
        -- exists p. split; [|auto]. apply pabs_in; [exact Lq|]. exists (p_next K P q).
           apply (Permutation_in _ (Permutation_sym Hp')). simpl. auto.
        -- exists false. split; [reflexivity|]. split; [discriminate|]. intro H.
           assert (pabs q k = Some po) by (apply pabs_in; eauto). congruence.
      * destruct HI as (-> & (p' & k') & Hy & Hky & Heq). simpl in Hky, Heq. subst k'.
        split; [split; [|exact S]|].
        { constructor; try apply L. intros i v H. apply (l_new _ _ _ _ _ L) in H. simpl. lia. }
        split; [|split].
        -- intros k' _. reflexivity.
        -- exists p'. assert (pabs q k = Some p') as Ep by (apply pabs_in; eauto). split; [exact Ep|].
           right. split; [exact Heq|exact Ep].
        -- exists false. split; [reflexivity|]. split; [discriminate|]. intro H.
           assert (pabs q k = Some po) by (apply pabs_in; eauto). congruence.
    + apply (find_none _ (fun x : P * K => snd x) _ _ _ _ L) in E.
      destruct b.
      2:{ destruct HI as (_ & (p' & k') & Hy & Hky & _). simpl in Hky. subst. destruct E.
          apply in_map_iff. exists (it, (p', k)). auto. }
      destruct HI as (-> & Hp).
      pose proof (linked_add _ (fun x : P * K => snd x) _ vals _ _ (p, k) L Hp E) as L'.
      set (q' := mk_pq _ _ _ _ _). assert (Lq : plinked q') by exact L'.
      split; [split; [exact L'|exact S']|]. split; [|split].
      * intros k' Hn. apply pabs_ext; [exact L|exact Lq|]. intro p'. split; intros (j & H).
        -- apply (Permutation_in _ Hp) in H as [H|H]; [injection H as _ _ <-; congruence|eauto].
        -- exists j. apply (Permutation_in _ (Permutation_sym Hp)). simpl. auto.
      * exists p. split; [|auto]. apply pabs_in; [exact Lq|]. exists (p_next K P q).
        apply (Permutation_in _ (Permutation_sym Hp)). simpl. auto.
      * exists true. split; [reflexivity|]. split; [|reflexivity]. intros _. apply pabs_none; assumption.
  - unfold p_erase. destruct (meta_find K klt (p_meta K P q) k) as [i|] eqn:E.
    + apply (find_some _ (fun x : P * K => snd x) _ _ _ _ _ L) in E as ((p & k') & Hin & Hkk). simpl in Hkk. subst k'.
      rewrite (node_erase_some _ _ i (p, k) Hin).
      pose proof (linked_erase _ (fun x : P * K => snd x) _ _ _ i (p, k) L Hin) as L'.
      destruct (pabs_erased q i p k _ (meta_erase K klt (p_meta K P q) k) (p_next K P q) L Hin eq_refl L') as (H1 & H2).
      split; [split; [exact L'|apply sorted_filter, S]|]. split; [exact H1|]. split; [exact H2|].
      exists true. split; [reflexivity|]. split; [|reflexivity]. intros _ H.
      assert (pabs q k = Some p) by (apply pabs_in; eauto). congruence.
    + apply (find_none _ (fun x : P * K => snd x) _ _ _ _ L) in E. split; [split; assumption|].
      apply (pabs_none q k L) in E. split; [intros k' _; reflexivity|]. split; [exact E|].
      exists false. split; [reflexivity|]. split; [discriminate|]. intro H. congruence.
  - unfold p_erase_handle. destruct (meta_find K klt (p_meta K P q) k) as [i|] eqn:E.
    + apply (find_some _ (fun x : P * K => snd x) _ _ _ _ _ L) in E as ((p & k') & Hin & Hkk). simpl in Hkk. subst k'.
      rewrite (node_erase_some _ _ i (p, k) Hin).
      pose proof (linked_erase _ (fun x : P * K => snd x) _ _ _ i (p, k) L Hin) as L'.
      destruct (pabs_erased q i p k _ (meta_erase K klt (p_meta K P q) k) (p_next K P q) L Hin eq_refl L') as (H1 & H2).
      split; [split; [exact L'|apply sorted_filter, S]|]. split; [|split; [exact H1|split; [exact H2|reflexivity]]].
      assert (pabs q k = Some p) by (apply pabs_in; eauto). congruence.
    + apply (find_none _ (fun x : P * K => snd x) _ _ _ _ L) in E.
      apply (pabs_none q k L) in E. intros m' o (H & _). congruence.
  - assert (G : pgood q) by (split; assumption). clear L S. unfold p_top.
    destruct (p_vals K P q) as [|[i [p k]] r] eqn:E.
    + intros m' o (_ & k & (p & H & _) & _). apply pabs_in in H as (i & H); [|apply G]. rewrite E in H. exact H.
    + split; [exact G|]. split; [reflexivity|]. exists k. split; [|reflexivity].
      apply (head_first q i p k r); [exact G|exact E].
  - assert (G : pgood q) by (split; assumption). unfold p_pop.
    destruct (p_vals K P q) as [|[i [p k]] r] eqn:E.
    + intros m' o (k & (p & H & _) & _). apply pabs_in in H as (i & H); [|apply G]. rewrite E in H. exact H.
    + pose proof (linked_pop _ (fun x : P * K => snd x) i (p, k) _ _ _ L) as L'.
      split; [split; [exact L'|inversion S; assumption]|]. exists k.
      assert (Hr : r = filter (fun e : node => negb (Nat.eqb (fst e) i)) (p_vals K P q)).
      { rewrite E. simpl. rewrite Nat.eqb_refl. simpl.
        pose proof (l_ids _ _ _ _ _ L) as H. simpl in H. inversion H as [|? ? Hn _]; subst. clear - Hn.
        induction r as [|[j w] l IH]; simpl in *; [reflexivity|].
        destruct (Nat.eqb_spec j i); [subst; tauto|]. simpl. f_equal. apply IH. tauto. }
      destruct (pabs_erased q i p k r (meta_erase K klt (p_meta K P q) k) (p_next K P q) (proj1 G)) as (H1 & H2).
      { rewrite E. simpl. auto. } { exact Hr. } { exact L'. }
      split; [|split; [reflexivity|split; [exact H1|exact H2]]].
      apply (head_first q i p k r); [exact G|exact E].
  - assert (G : pgood q) by (split; assumption). clear L S.
    split; [exact G|]. split; [reflexivity|]. exists (p_empty K P q). split; [reflexivity|].
    unfold p_empty. destruct (p_vals K P q) as [|[i [p k]] r] eqn:E; split; auto; try discriminate.
    + intros _ k. apply pabs_none; [apply G|]. rewrite E. simpl. auto.
    + intro H. assert (pabs q k = Some p) by (apply pabs_in; [apply G|]; exists i; rewrite E; simpl; auto).
      rewrite H in *. discriminate.
Qed.

Lemma p_run_ok h : forall q, pgood q ->
  match run K P (p_step K klt P c) q h with
  | Ok (q', os) => pgood q' /\ pq_hist K P klt c (pabs q) h os (pabs q')
  | UB => False
  | Misuse => exists h1 a h2 os m, h = h1 ++ a :: h2 /\ pq_hist K P klt c (pabs q) h1 os m /\ p_stuck m a
  end.
Proof.
  induction h as [|a h IH]; intros q L; simpl.
  - split; [exact L|constructor].
  - pose proof (p_step_ok q a L) as S. destruct (p_step K klt P c q a) as [[q' o]| |].
    + destruct S as (L' & R). specialize (IH q' L').
      destruct (run K P (p_step K klt P c) q' h) as [[q'' os]| |].
      * destruct IH as (L'' & H). split; [exact L''|]. econstructor; eauto.
      * exact IH.
      * destruct IH as (h1 & b & h2 & os & m & -> & H & Hs).
        exists (a :: h1), b, h2, (o :: os), m. split; [reflexivity|]. split; [econstructor; eauto|exact Hs].
    + exact S.
    + exists [], a, h, [], (pabs q). split; [reflexivity|]. split; [constructor|exact S].
Qed.

Lemma C46_f h :
  match run K P (f_step K klt P) (f_new K) h with
  | Ok (_, os) => exists l, fifo_hist K P keq [] h os l /\ NoDup l
  | UB => False
  | Misuse => exists h1 a h2 os l, h = h1 ++ a :: h2 /\ fifo_hist K P keq [] h1 os l /\
                (forall l' o, ~ fifo_ref K P keq l a l' o)
  end.
Proof.
  pose proof (f_run_ok h (f_new K)) as H. unfold f_new in *. simpl in H.
  assert (L : linked K (fun k : K => k) [] [] 0) by (constructor; simpl; auto; try constructor; tauto).
  specialize (H L). destruct (run K P (f_step K klt P) _ h) as [[q os]| |].
  - destruct H as (_ & H). exists (fabs q). split; [exact H|]. eapply f_hist_nodup; [exact H|constructor].
  - exact H.
  - exact H.
Qed.

Lemma C46_p h :
  match run K P (p_step K klt P c) (p_new K P) h with
  | Ok (_, os) => exists m, pq_hist K P klt c (fun _ => None) h os m
  | UB => False
  | Misuse => exists h1 a h2 os m, h = h1 ++ a :: h2 /\ pq_hist K P klt c (fun _ => None) h1 os m /\
                (forall m' o, ~ pq_ref K P klt c m a m' o)
  end.
Proof.
  pose proof (p_run_ok h (p_new K P)) as H. unfold p_new in *. simpl in H.
  assert (L : pgood (mk_pq K P [] [] 0)).
  { split; [constructor; simpl; auto; try constructor; tauto|constructor]. }
  specialize (H L). destruct (run K P (p_step K klt P c) _ h) as [[q os]| |].
  - destruct H as (_ & H). exists (pabs q). exact H.
  - exact H.
  - exact H.
Qed.
End Proofs.
