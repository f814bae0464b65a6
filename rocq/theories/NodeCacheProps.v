(** Properties of the B+-tree's cache: C78, C79, C80. *)
From Coq Require Import List Bool Arith Lia Permutation.
From Verif Require Import NodeCacheModel NodeCacheSpec NodeCacheProofs.
Import ListNotations.

Definition start {D} (c : cache D) : state D := {| ca := c; di := []; ptrs := [] |}.

(** ** C78 *)
Theorem C78_transparent (D : Type) (dinit : D) n c os s rs : init D dinit n = Some c -> srun D dinit n (sempty D) os = Some (s, rs) ->
  exists t, run D dinit (start c) os = Some (t, rs)
    /\ exists d, destroy D (ca D t) (di D t) = Some d
         /\ forall b, aget d b = match getd D (sm D s) b with Some v => Some (Some (b, v)) | None => None end.
Proof.
  intros Hi Hs. destruct (run_ok D dinit n os _ _ _ _ (init_ok D dinit n c Hi) Hs) as (t & E & HR).
  exists t. split; [exact E|]. now apply (destroy_ok D n).
Qed.
Theorem C78_too_small (D : Type) (dinit : D) n : (exists c, init D dinit n = Some c) <-> 3 <= n.
Proof. unfold init. destruct (Nat.ltb_spec n 3); split; try lia; [now intros []|eauto]. Qed.
Theorem C78_statistics (D : Type) (dinit : D) n c os t rs : init D dinit n = Some c -> run D dinit (start c) os = Some (t, rs) ->
  st D (ca D t) NRead = reads D os /\ st D (ca D t) NFound + st D (ca D t) NNotFound = reads D os.
Proof.
  intros Hi Hr. apply run_st in Hr. unfold init in Hi. destruct (n <? 3); [easy|]. injection Hi as <-. exact Hr.
Qed.

(** Five nodes in a cache of three: nodes 1 and 2 are fixed, all others share one place. *)
Definition demo : list (op nat) :=
  [ONew _ 1; OWrite _ 0 10; OGet _ 1 true; ONew _ 2; OWrite _ 2 20; OGet _ 2 true; ONew _ 3; OWrite _ 4 30; ONew _ 4; OWrite _ 5 40;
   OGetConst _ 3 false; ORead _ 6; ORead _ 1; ORead _ 3; OUnfix _ 1; OPrefetch _ 4; OGet _ 4 false; ORead _ 7; ODelete _ 3; ONew _ 3;
   ORead _ 8; OGetConst _ 1 false; ORead _ 9].
Example demo_spec : option_map snd (srun nat 0 3 (sempty nat) demo) =
  Some [RUnit _; RUnit _; RUnit _; RUnit _; RUnit _; RUnit _; RUnit _; RUnit _; RUnit _; RUnit _; RUnit _; RNode _ (3, 30); RNode _ (1, 10);
        RNode _ (2, 20); RUnit _; RUnit _; RUnit _; RNode _ (4, 40); RUnit _; RUnit _; RNode _ (3, 0); RUnit _; RNode _ (1, 10)].
Proof. vm_compute. reflexivity. Qed.
Example demo_model : exists c, init nat 0 3 = Some c /\ option_map snd (run nat 0 (start c) demo) = option_map snd (srun nat 0 3 (sempty nat) demo).
Proof. eexists. split; [reflexivity|]. vm_compute. reflexivity. Qed.
(** With three other nodes requested, a pointer is not good any more: it points to another node. *)
Example demo_lost : exists c t rs, init nat 0 3 = Some c /\ run nat 0 (start c) [ONew _ 1; ONew _ 2; ONew _ 3; ONew _ 4; ORead _ 0] = Some (t, rs)
  /\ rs = [RUnit _; RUnit _; RUnit _; RUnit _; RNode _ (4, 0)] /\ srun nat 0 3 (sempty nat) [ONew _ 1; ONew _ 2; ONew _ 3; ONew _ 4; ORead _ 0] = None.
Proof. eexists _, _, _. vm_compute. repeat split; reflexivity. Qed.

(** ** C79: exchanging two caches *)
(** The cache [a] of the first pair, after the exchange, is the second cache. *)
Definition swapped {D} (ta tb : state D) : state D * state D :=
  let p := swap D (ca D ta) (ca D tb) in
  ({| ca := fst p; di := di D tb; ptrs := ptrs D tb |}, {| ca := snd p; di := di D ta; ptrs := ptrs D ta |}).
Theorem C79_swap_partial (D : Type) (dinit : D) n c osa ta ra sa osb tb rb sb :
  init D dinit n = Some c ->
  srun D dinit n (sempty D) osa = Some (sa, ra) -> run D dinit (start c) osa = Some (ta, ra) ->
  srun D dinit n (sempty D) osb = Some (sb, rb) -> run D dinit (start c) osb = Some (tb, rb) ->
  dirty D (ca D ta) = dirty D (ca D tb) ->
  forall os, (forall s rs, srun D dinit n sb os = Some (s, rs) -> exists t, run D dinit (fst (swapped ta tb)) os = Some (t, rs))
    /\ (forall s rs, srun D dinit n sa os = Some (s, rs) -> exists t, run D dinit (snd (swapped ta tb)) os = Some (t, rs)).
Proof.
  intros Hi Sa Ra Sb Rb Hd os.
  destruct (run_ok D dinit n osa _ _ _ _ (init_ok D dinit n c Hi) Sa) as (ta' & Ea & Ha). change (run D dinit (start c) osa = Some (ta', ra)) in Ea.
  destruct (run_ok D dinit n osb _ _ _ _ (init_ok D dinit n c Hi) Sb) as (tb' & Eb & Hb). change (run D dinit (start c) osb = Some (tb', rb)) in Eb.
  assert (ta' = ta) by congruence. assert (tb' = tb) by congruence. subst ta' tb'.
  assert (G : forall (s : sstate D) (t t' : state D), Rel D n s t -> di D t' = di D t -> ptrs D t' = ptrs D t -> dirty D (ca D t') = dirty D (ca D t) ->
    nodes D (ca D t') = nodes D (ca D t) -> fixed D (ca D t') = fixed D (ca D t) -> freel D (ca D t') = freel D (ca D t) -> b2n D (ca D t') = b2n D (ca D t) ->
    hist D (ca D t') = hist D (ca D t) -> Rel D n s t').
  { intros s t t' [H1 H2] E1 E2 E3 E4 E5 E6 E7 E8. constructor.
    - rewrite E1. destruct H1. constructor; rewrite ?E3, ?E4, ?E5, ?E6, ?E7, ?E8; auto.
    - rewrite E2. clear - H2 E3 E4 E5 E6 E7 E8. induction H2 as [|p k l1 l2 Hp _ IH]; constructor; [|exact IH]. destruct p as [b w o|]; [|easy].
      cbn [PR] in *. unfold PO in *. rewrite E3, E5, E7, E8. exact Hp. }
  split; intros s rs Hs.
  - destruct (run_ok D dinit n os sb (fst (swapped ta tb)) s rs) as (t & Et & _); [|exact Hs|eauto].
    eapply G; [exact Hb|..]; cbn [swapped swap fst snd ca di ptrs dirty nodes fixed freel b2n hist]; easy.
  - destruct (run_ok D dinit n os sa (snd (swapped ta tb)) s rs) as (t & Et & _); [|exact Hs|eauto].
    eapply G; [exact Ha|..]; cbn [swapped swap fst snd ca di ptrs dirty nodes fixed freel b2n hist]; easy.
Qed.
(** A cache that read a node back for reading only has a place which is not dirty; after the exchange
    the other cache's new node is in this place, and is never written. *)
Definition swap_a : list (op nat) := [ONew _ 1; ONew _ 2; ONew _ 3; ONew _ 4; OGetConst _ 1 false].
Definition swap_b : list (op nat) := [ONew _ 1; OWrite _ 0 10; ONew _ 2; OWrite _ 1 20; ONew _ 3; OWrite _ 2 30].
Definition swap_use : list (op nat) := [ONew _ 4; ONew _ 5; ONew _ 6; OGetConst _ 1 false; OGetConst _ 2 false; OGetConst _ 3 false].
Theorem C79_swap_refuted : exists n c ta ra sa tb rb sb s rs,
  init nat 0 n = Some c
  /\ srun nat 0 n (sempty nat) swap_a = Some (sa, ra) /\ run nat 0 (start c) swap_a = Some (ta, ra)
  /\ srun nat 0 n (sempty nat) swap_b = Some (sb, rb) /\ run nat 0 (start c) swap_b = Some (tb, rb)
  /\ srun nat 0 n sb swap_use = Some (s, rs)
  /\ run nat 0 (fst (swapped ta tb)) swap_use = None.
Proof. exists 3. eexists _, _, _, _, _, _, _, _, _. vm_compute. repeat split; reflexivity. Qed.
Theorem C79_swap_statistics_refuted : exists n c osa osb ta ra tb rb,
  init nat 0 n = Some c /\ run nat 0 (start c) osa = Some (ta, ra) /\ run nat 0 (start c) osb = Some (tb, rb)
  /\ let a := st nat (ca nat (fst (swapped ta tb))) in
     a NRead = reads nat osb /\ a NFound + a NNotFound <> reads nat osb.
Proof.
  exists 3. eexists. exists [ONew _ 1; OGet _ 1 false], [ONew _ 1]. eexists _, _, _, _. vm_compute. repeat split; try reflexivity. discriminate.
Qed.
(** Two caches without reading back: nothing is lost. *)
Example swap_good : exists c ta ra tb rb,
  init nat 0 3 = Some c /\ run nat 0 (start c) [ONew _ 1; ONew _ 2; ONew _ 3; ONew _ 4] = Some (ta, ra) /\ run nat 0 (start c) swap_b = Some (tb, rb)
  /\ dirty nat (ca nat ta) = dirty nat (ca nat tb)
  /\ option_map snd (run nat 0 (fst (swapped ta tb)) (swap_use ++ [ORead _ 8])) = Some [RUnit _; RUnit _; RUnit _; RUnit _; RUnit _; RUnit _; RNode _ (3, 30)].
Proof. eexists _, _, _, _, _. vm_compute. repeat split; reflexivity. Qed.

(** ** C80: fixing *)
(** The operations that end the fixing of [b]. *)
Definition ends {D} (b : nat) (o : op D) : bool :=
  match o with
  | OGet _ b' fx | OGetConst _ b' fx => (b' =? b) && negb fx
  | OUnfix _ b' | ODelete _ b' => b' =? b
  | _ => false
  end.
Lemma sstep_keeps (D : Type) (dinit : D) n s o s' r b i w os : sstep D dinit n s o = Some (s', r) -> ends b o = false ->
  In b (fx D s) -> NoDup (fx D s) -> (exists v, getd D (sm D s) b = Some v) -> nth_error (sp D s) i = Some (P b w os) ->
  In b (fx D s') /\ (exists v, getd D (sm D s') b = Some v) /\ exists w' os', nth_error (sp D s') i = Some (P b w' os').
Proof.
  intros E He Hb ND (v & Hv) Hi.
  assert (T : forall f b0 own l, f = fx D s -> (b0 = b -> exists w' os', own b w os = P b w' os') ->
    exists w' os', nth_error (map (touch n f b0 own) (sp D s) ++ l) i = Some (P b w' os')).
  { intros f b0 own l -> Hown. rewrite nth_error_app1 by (rewrite map_length; apply nth_error_Some; congruence).
    rewrite (map_nth_error _ _ _ Hi). cbn [touch]. destruct (Nat.eqb_spec b b0) as [->|Nb].
    - destruct (Hown eq_refl) as (w' & os' & ->). eauto.
    - apply mem_In in Hb. rewrite Hb. cbn. eauto. }
  assert (G : forall b0 fxv w0, (b0 =? b) && negb fxv = false -> s_get D n s b0 fxv w0 = Some (s', r) ->
     In b (fx D s') /\ (exists v, getd D (sm D s') b = Some v) /\ exists w' os', nth_error (sp D s') i = Some (P b w' os')).
  { intros b0 fxv w0 Hf. unfold s_get. destruct (getd D (sm D s) b0); [|easy]. destruct (length _ <? n); [|easy]. intros [= <- <-]. cbn [sm fx sp].
    split; [|split; [eauto|]].
    - destruct (Nat.eqb_spec b0 b) as [->|Nb]; cbn in Hf; [|].
      + destruct fxv; [now left|easy].
      + assert (X : In b (del b0 (fx D s))) by (apply del_In; split; [congruence|easy]). destruct fxv; [now right|easy].
    - apply T; [easy|]. intros ->. unfold renew. eauto. }
  destruct o as [b0|b0 fxv|b0 fxv|j|j x|b0|b0|b0]; cbn [sstep ends] in *.
  - destruct (getd D (sm D s) b0) eqn:E0; [easy|]. destruct (_ <? n); [|easy]. injection E as <- <-. cbn [sm fx sp]. split; [easy|].
    assert (Nb : b <> b0) by congruence. split.
    + exists v. unfold getd. cbn [find fst]. rewrite Nat.eqb_sym. apply Nat.eqb_neq in Nb as ->. exact Hv.
    + apply T; [easy|]. intros ->. easy.
  - eapply G; eauto.
  - eapply G; eauto.
  - destruct (nth_error (sp D s) j) as [[b1 w1 o1|]|]; try easy. destruct (getd D (sm D s) b1); [|easy]. injection E as <- <-. eauto 6.
  - destruct (nth_error (sp D s) j) as [[b1 [|] o1|]|]; try easy. injection E as <- <-. cbn [sm fx sp]. split; [easy|]. split; [|eauto].
    rewrite getd_setd. destruct (Nat.eqb_spec b b1) as [<-|]; [rewrite Hv|]; eauto.
  - destruct (getd D (sm D s) b0); [|easy]. injection E as <- <-. cbn [sm fx sp]. split; [apply del_In; split; [|easy]; intros ->; now rewrite Nat.eqb_refl in He|].
    rewrite getd_del, (map_nth_error _ _ _ Hi), (Nat.eqb_sym b b0), He. eauto.
  - destruct (getd D (sm D s) b0); [|easy]. injection E as <- <-. cbn [sm fx sp]. split; [easy|]. split; [eauto|].
    destruct (T (fx D s) b0 P [] eq_refl) as (w' & os' & X); [intros ->; eauto|]. rewrite app_nil_r in X. eauto.
  - destruct (mem b0 (fx D s)); [|easy]. injection E as <- <-. cbn [sm fx sp]. split; [apply del_In; split; [|easy]; intros ->; now rewrite Nat.eqb_refl in He|]. eauto.
Qed.
(** A node fixed stays at its place until an operation ends this. *)
Theorem C80_fixed_stays_partial (D : Type) (dinit : D) n c os1 s1 rs1 os2 s2 rs2 b i w o :
  init D dinit n = Some c ->
  srun D dinit n (sempty D) os1 = Some (s1, rs1) -> In b (fx D s1) -> nth_error (sp D s1) i = Some (P b w o) ->
  srun D dinit n s1 os2 = Some (s2, rs2) -> forallb (fun x => negb (ends b x)) os2 = true ->
  exists t1 t2 v, run D dinit (start c) os1 = Some (t1, rs1) /\ run D dinit t1 os2 = Some (t2, rs2)
    /\ getd D (sm D s2) b = Some v /\ step D dinit t2 (ORead D i) = Some (t2, RNode D (b, v)).
Proof.
  intros Hi S1 Hb Hp S2 He.
  destruct (run_ok D dinit n os1 _ _ _ _ (init_ok D dinit n c Hi) S1) as (t1 & E1 & H1).
  destruct (run_ok D dinit n os2 _ _ _ _ H1 S2) as (t2 & E2 & H2).
  assert (Hm : exists v, getd D (sm D s1) b = Some v).
  { destruct (ci_xf _ _ _ _ _ _ _ (rl_ci _ _ _ _ H1) b Hb) as (k & K & _). destruct (ci_in _ _ _ _ _ _ _ (rl_ci _ _ _ _ H1) b k K) as (v & V & _). eauto. }
  assert (X : exists w' o', nth_error (sp D s2) i = Some (P b w' o') /\ exists v, getd D (sm D s2) b = Some v).
  { clear E1 E2 S1 H2. revert s1 t1 rs2 w o Hb Hp S2 H1 Hm. induction os2 as [|x os2 IH]; intros s1 t1 rs2 w o Hb Hp S2 H1 Hm; cbn [srun forallb] in *.
    - injection S2 as <- <-. eauto.
    - apply andb_true_iff in He as [Hx He]. apply negb_true_iff in Hx.
      destruct (sstep D dinit n s1 x) as [[s3 r3]|] eqn:Ex; [|easy]. cbn [fst snd] in S2.
      destruct (srun D dinit n s3 os2) as [[s4 r4]|] eqn:E4; [|easy]. cbn [fst snd] in S2. injection S2 as <- <-.
      destruct (sstep_keeps D dinit n s1 x s3 r3 b i w o Ex Hx Hb (ci_fnd _ _ _ _ _ _ _ (rl_ci _ _ _ _ H1)) Hm Hp) as (K1 & K2 & w' & o' & K3).
      destruct (step_ok D dinit n _ _ _ _ _ H1 Ex) as (t3 & _ & H3). eapply IH; eauto. }
  destruct X as (w' & o' & X1 & v & X2). exists t1, t2, v. split; [exact E1|]. split; [exact E2|]. split; [exact X2|].
  assert (Y : sstep D dinit n s2 (ORead D i) = Some (s2, RNode D (b, v))) by (cbn [sstep]; rewrite X1, X2; easy).
  destruct (step_ok D dinit n _ _ _ _ _ H2 Y) as (t3 & E3 & _). cbn [step] in *.
  destruct (nth_error (ptrs D t2) i) as [k|]; [|easy]. destruct (nth_error (nodes D (ca D t2)) k) as [y|]; [|easy]. congruence.
Qed.
(** Nothing counts how often a node was fixed: another request without fixing lets the node go. *)
Theorem C80_fixed_stays_refuted : exists n c t rs,
  init nat 0 n = Some c
  /\ run nat 0 (start c) [ONew _ 1; OWrite _ 0 10; OGet _ 1 true; OGetConst _ 1 false; ONew _ 2; ONew _ 3; ONew _ 4; ORead _ 1] = Some (t, rs)
  /\ rs = [RUnit _; RUnit _; RUnit _; RUnit _; RUnit _; RUnit _; RUnit _; RNode _ (4, 0)].
Proof. exists 3. eexists _, _, _. vm_compute. repeat split; reflexivity. Qed.
Example fixed_example : exists s1 rs1 s2 rs2 w o, srun nat 0 3 (sempty nat) [ONew _ 1; OWrite _ 0 10; OGet _ 1 true] = Some (s1, rs1) /\ In 1 (fx nat s1)
  /\ nth_error (sp nat s1) 1 = Some (P 1 w o) /\ srun nat 0 3 s1 [ONew _ 2; ONew _ 3; ONew _ 4; ONew _ 5] = Some (s2, rs2).
Proof. eexists _, _, _, _, _, _. vm_compute. repeat split; try reflexivity. now left. Qed.

Print Assumptions C78_transparent.
Print Assumptions C78_statistics.
Print Assumptions C79_swap_partial.
Print Assumptions C79_swap_refuted.
Print Assumptions C79_swap_statistics_refuted.
Print Assumptions C80_fixed_stays_partial.
Print Assumptions C80_fixed_stays_refuted.
