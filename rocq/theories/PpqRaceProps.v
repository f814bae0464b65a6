(** C129: flushes of insertion heaps by several threads. *)
From Coq Require Import List Bool Arith Lia.
From Verif Require Import SumLib OrderLib WinnerModel WinnerSpec WinnerProofs WinnerProps PpqRaceModel.
Import ListNotations.
Open Scope nat_scope.

Section C.
  Variable A : Type.
  Variable lt : A -> A -> bool.

  (** fewer values: the same result if there is one *)
  Definition below (v v' : nat -> option A) : Prop := forall i a, v i = Some a -> v' i = Some a.
  Lemma game_mono v v' l r g : below v v' -> game A lt v l r = Some g -> game A lt v' l r = Some g.
  Proof.
    intros B. unfold game, less. destruct l as [i|], r as [j|]; auto.
    destruct (v i) eqn:E1; [|discriminate]. destruct (v j) eqn:E2; [|discriminate]. now rewrite (B _ _ E1), (B _ _ E2).
  Qed.
  Lemma replay_mono v v' fuel : below v v' -> forall p o t r, replay A lt fuel v p o t = Some r -> replay A lt fuel v' p o t = Some r.
  Proof.
    intros B. induction fuel as [|f IH]; intros p o t r; cbn [replay]; destruct (Nat.eqb p 0); auto. cbv zeta.
    destruct (game A lt v _ _) eqn:G; [|discriminate]. rewrite (game_mono v v' _ _ _ B G). apply IH.
  Qed.
  Lemma deactivate_mono v v' p t r : below v v' -> deactivate_player A lt v p t = Some r -> deactivate_player A lt v' p t = Some r.
  Proof.
    intro B. unfold deactivate_player, replay_on_change. destruct (Nat.ltb p (slots t)); auto. destruct (Nat.ltb _ _); auto.
    destruct (replay A lt _ v _ _ _) eqn:R; [|discriminate]. now rewrite (replay_mono v v' _ B _ _ _ _ R).
  Qed.
  Lemma deactivate_bound v p t r : deactivate_player A lt v p t = Some r -> p < slots t.
  Proof. unfold deactivate_player. destruct (Nat.ltb_spec p (slots t)); [auto|discriminate]. Qed.


  Notation tree := (nat -> option nat).
  Lemma pending_change h (val : nat -> option A) (t : tree) (P : nat -> Prop) q o : almost A lt h val t P -> contiguous h t -> q <= h -> P q ->
    almost A lt h (upd val q o) t P.
  Proof.
    intros [A1 A2 A3 A4 A5] C Hq HP.
    assert (NP : forall i w, (forall j, P j -> ~ anc (h + j) i) -> t i = Some w -> w <> q).
    { intros i w Hi Hw ->. apply (Hi q HP). apply (contiguous_path h t C (h + q) i q); [lia|exact Hw]. }
    constructor.
    - intros j Hj. rewrite upd_other by lia. auto.
    - intros j Hj Hn. rewrite upd_other by congruence. auto.
    - intros i Hi Hp. unfold played. rewrite <- (A3 i Hi Hp).
      assert (HW : forall c, c = 2 * i + 1 \/ c = 2 * i + 2 -> forall w, t c = Some w -> upd val q o w = val w).
      { intros c Hc w Hw. apply upd_other. apply (NP c w); [|exact Hw]. intros j Hj Ha. apply (Hp j Hj).
        assert (i = par c) as -> by (destruct Hc as [->| ->]; rewrite ?par_left, ?par_right; reflexivity). apply anc_parent; [exact Ha|lia]. }
      unfold game. destruct (t (2 * i + 1)) as [l|] eqn:El; [|reflexivity]. destruct (t (2 * i + 2)) as [r|] eqn:Er; [|reflexivity].
      unfold less. rewrite (HW _ (or_introl eq_refl) l El), (HW _ (or_intror eq_refl) r Er). reflexivity.
    - exact A4.
    - intros i w Hi Hw. rewrite upd_other by (apply (NP i w Hi Hw)). apply (A5 i w Hi Hw).
  Qed.

  Definition busy (s : rst A) (q : nat) : Prop := ph s q <> Pushing.
  Definition RInv (s : rst A) : Prop :=
    let h := inner (wt s) in
    almost A lt h (roots s) (w_tree (wt s)) (busy s) /\ contiguous h (w_tree (wt s)) /\ sane A (roots s) (w_tree (wt s)).

  Lemma critical_ok s p : RInv s -> p < slots (wt s) -> busy s p ->
    exists t, deactivate_player A lt (upd (roots s) p None) p (wt s) = Some t /\ w_log t = w_log (wt s) /\
      RInv (RS (upd (roots s) p None) t (upd (ph s) p Pushing)).
  Proof.
    intros (AL & C & S) Hp B. set (h := inner (wt s)) in *. pose proof Hp as Hp'. rewrite slots_inner in Hp'. fold h in Hp'.
    set (v := upd (roots s) p None).
    assert (ALv : almost A lt h v (w_tree (wt s)) (busy s)) by (apply pending_change; auto; lia).
    assert (HS : forall i w, ~ anc (h + p) i -> w_tree (wt s) i = Some w -> v w <> None).
    { intros i w Hi Hw. unfold v. rewrite upd_other; [apply (S i w Hw)|]. intros ->. apply Hi.
      apply (contiguous_path h _ C (h + p) i p); [lia|exact Hw]. }
    assert (Vp : v p = None) by (unfold v; apply upd_same).
    destruct (replay_almost A lt h v _ _ p ALv ltac:(lia) B HS) as (t' & E & AL' & S'). rewrite Vp in E.
    destruct (replay_ok A lt (h + p) v (h + p) None (w_tree (wt s)) (le_n _) HS ltac:(discriminate)) as (t2 & E2 & F1 & F2 & F3 & _).
    rewrite E in E2. injection E2 as <-.
    exists (mkw (w_log (wt s)) t'). unfold deactivate_player, replay_on_change. apply Nat.ltb_lt in Hp. rewrite Hp, leaf_inner, size_inner.
    fold h. destruct (Nat.ltb_spec (h + p) (2 * h + 1)); [|lia]. fold v. rewrite E. split; [reflexivity|]. split; [reflexivity|].
    unfold RInv. cbn [roots wt w_tree]. change (inner (mkw (w_log (wt s)) t')) with h. split; [|split; [|exact S']].
    - apply almost_weaken with (1 := AL'). intros j (Hj & Hn). unfold busy. cbn [ph]. rewrite upd_other by exact Hn. exact Hj.
    - intros i w Hw. destruct (anc_dec (h + p) i) as [Y|Y].
      + destruct (Nat.eq_dec i (h + p)) as [->|N]; [congruence|]. right.
        pose proof (F3 i Y N) as G. destruct (game_result A lt _ _ _ _ G) as (Hg & _).
        split; [|rewrite Hw in Hg; destruct Hg; auto].
        destruct (anc_inv _ _ Y) as [?|(H1 & H2)]; [congruence|]. apply anc_le in H2. destruct (par_spec (h + p) H1) as [_ [Z|Z]]; lia.
      + rewrite F2 in Hw by exact Y. destruct (C i w Hw) as [?|(L & Hc)]; [auto|]. right. split; [exact L|]. rewrite !F2; [exact Hc| |].
        * intro X. apply Y. rewrite <- (par_right i). apply anc_parent; [exact X|lia].
        * intro X. apply Y. rewrite <- (par_left i). apply anc_parent; [exact X|lia].
  Qed.

  Lemma rstep_inv e s s' : RInv s -> rstep A lt e s = Some s' -> RInv s'.
  Proof.
    intros I S. destruct e as [p|p a|p]; cbn [rstep] in S.
    - injection S as <-. destruct (ph s p) eqn:P; try exact I. destruct I as (AL & C & Sa). split; [|split; [exact C|exact Sa]].
      apply almost_weaken with (1 := AL). intros j Hj. unfold busy in *. cbn [ph]. destruct (Nat.eq_dec j p) as [->|N]; [rewrite upd_same; discriminate|now rewrite upd_other].
    - injection S as <-. destruct (ph s p) eqn:P; try exact I. destruct I as (AL & C & Sa). unfold RInv. cbn [roots wt].
      assert (W : forall v, almost A lt (inner (wt s)) v (w_tree (wt s)) (busy s) -> almost A lt (inner (wt s)) v (w_tree (wt s)) (busy (RS v (wt s) (upd (ph s) p Waiting)))).
      { intros v H. apply almost_weaken with (1 := H). intros j Hj. unfold busy in *. cbn [ph]. destruct (Nat.eq_dec j p) as [->|N]; [rewrite upd_same; discriminate|now rewrite upd_other]. }
      destruct (roots s p) as [b|] eqn:Rp; [|split; [exact (W _ AL)|split; [exact C|exact Sa]]].
      split; [|split; [exact C|]].
      + apply (W (upd (roots s) p (Some a))). apply pending_change; auto; [|unfold busy; congruence].
        destruct (Nat.le_gt_cases p (inner (wt s))) as [H|H]; [exact H|]. rewrite (a_dom _ _ _ _ _ _ AL p H) in Rp. discriminate.
      + intros i w Hw. destruct (Nat.eq_dec w p) as [->|N]; [rewrite upd_same; discriminate|]. rewrite upd_other by exact N. apply (Sa i w Hw).
    - destruct (ph s p) eqn:P; try (injection S as <-; exact I). cbv zeta in S.
      destruct (deactivate_player A lt _ p (wt s)) as [t|] eqn:D; [|discriminate]. injection S as <-.
      pose proof (deactivate_bound _ _ _ _ D) as Hp.
      apply (deactivate_mono _ (upd (roots s) p None)) in D; [|intros i a; destruct (sorting (ph s i)); [discriminate|auto]].
      destruct (critical_ok s p I Hp) as (t2 & D2 & _ & I2); [unfold busy; congruence|]. rewrite D in D2. injection D2 as <-. exact I2.
  Qed.
  Lemma rrun_inv l : forall s s', RInv s -> rrun A lt l s = Some s' -> RInv s'.
  Proof.
    induction l as [|e l IH]; intros s s' R E; cbn [rrun] in E; [now injection E as <-|].
    destruct (rstep A lt e s) as [s1|] eqn:S; [|discriminate]. apply (IH s1); [|exact E]. exact (rstep_inv e s s1 R S).
  Qed.

  (** C129: (1) whatever the schedule, if no comparison reads a heap that another thread sorts, then once no thread is flushing the
      tree names a least root of the heaps left in it; (2) a thread entering the critical section while nobody sorts never meets
      such a heap.  Missing: the claim itself, that no schedule does (refuted below); the head tree. *)
  Theorem C129_no_race_partial l s s' : strict_weak lt -> reachable A lt (roots s) (wt s) -> rrun A lt l s = Some s' ->
    ((forall q, ph s' q = Pushing) -> smallest lt (roots s') (top (wt s'))) /\
    (forall p, p < slots (wt s') -> (forall q, ph s' q <> Sorting) -> rstep A lt (Critical p) s' <> None).
  Proof.
    intros SW R E. pose proof (reachable_ok A lt _ _ SW R) as V.
    assert (I : RInv s).
    { split; [|split; [exact (valid_contiguous A lt _ _ _ V)|exact (valid_sane A lt _ _ _ V)]].
      apply almost_weaken with (1 := valid_almost A lt _ _ _ V). intros j []. }
    pose proof (rrun_inv l s s' I E) as I'. split.
    - intro Q. apply (ok_smallest A lt SW). apply almost_valid. apply almost_weaken with (1 := proj1 I'). intros j Hj. apply Hj, Q.
    - intros p Hp N. cbn [rstep]. destruct (ph s' p) eqn:P; try discriminate. cbv zeta.
      destruct (critical_ok s' p I' Hp) as (t & D & _); [unfold busy; congruence|].
      apply (deactivate_mono _ (fun q => if sorting (ph s' q) then None else upd (roots s') p None q)) in D; [now rewrite D|].
      intros i a Hi. destruct (ph s' i) eqn:P'; cbn; auto. now destruct (N i).
  Qed.
End C.

(** Four heaps in the tree, with roots 4, 3, 1, 2. *)
Definition c129_ops : list (op nat) := [Change 0 4; Change 1 3; Change 2 1; Change 3 2].
Definition c129_start : option (rst nat) :=
  match new_wtree 4 with None => None | Some t =>
  match run nat Nat.ltb c129_ops (fun _ => None, t) with Some (v, t) => Some (RS v t (fun _ => Pushing)) | None => None end end.

Lemma run_reach A lt ops : forall v t v' t', reachable A lt v t -> (forall o, In o ops -> exists i a, o = Change i a /\ i < slots t) ->
  run A lt ops (v, t) = Some (v', t') -> reachable A lt v' t'.
Proof.
  induction ops as [|o ops IH]; intros v t v' t' R H E; cbn [run] in E; [injection E as <- <-; exact R|].
  destruct (step A lt o (v, t)) as [[v1 t1]|] eqn:S; [|discriminate].
  destruct (H o (or_introl eq_refl)) as (i & a & -> & Hi).
  assert (slots t1 = slots t) as L.
  { cbn [step] in S. unfold activate_player, replay_on_change in S. destruct (Nat.ltb i (slots t)) eqn:B; [|apply Nat.ltb_ge in B; lia].
    destruct (Nat.ltb (leaf t i) (size t)); [|discriminate S]. destruct (replay _ _ _ _ _ _ _) as [tr|]; [|discriminate S]. inversion S; subst. reflexivity. }
  apply (IH v1 t1 v' t'); [|intros o Ho; rewrite L; apply H; now right|exact E].
  apply (reach_step A lt v t (Change i a) v1 t1 R Hi S).
Qed.

(** FALSE: flushes by different threads do not interfere. From a reachable tree of four heaps, the first thread has sorted its
    heap and enters the critical section while the third thread sorts: the tree compares with the root of the third heap.
    The same flushes one after the other complete. *)
Theorem C129_race_refuted : exists s : rst nat, reachable nat Nat.ltb (roots s) (wt s) /\ (forall p, ph s p = Pushing) /\
  rrun nat Nat.ltb [Sort 0; Sorted 0 4; Sort 2; Critical 0] s = None /\
  rrun nat Nat.ltb [Sort 0; Sorted 0 4; Critical 0; Sort 2; Sorted 2 1; Critical 2] s <> None.
Proof.
  destruct c129_start as [s|] eqn:E; [|vm_compute in E; discriminate].
  exists s. assert (R : reachable nat Nat.ltb (roots s) (wt s) /\ forall p, ph s p = Pushing).
  { unfold c129_start in E. destruct (new_wtree 4) as [t|] eqn:N; [|discriminate].
    destruct (run nat Nat.ltb c129_ops (fun _ => None, t)) as [[v u]|] eqn:Q; [|discriminate]. injection E as <-. split; [|auto]. cbn [roots wt].
    apply (run_reach nat Nat.ltb c129_ops (fun _ => None) t v u); [apply (reach_new nat Nat.ltb 4); [lia|exact N]| |exact Q].
    injection N as <-. intros o [<-|[<-|[<-|[<-|[]]]]]; eexists; eexists; (split; [reflexivity|]); vm_compute; lia. }
  destruct R as (R1 & R2). split; [exact R1|]. split; [exact R2|].
  assert (s = match c129_start with Some s => s | None => s end) as -> by now rewrite E.
  clear. split; [vm_compute; reflexivity|vm_compute; discriminate].
Qed.

(** A schedule with two threads sorting at the same time that meets the hypotheses of the theorem; sorting brings 0 to the root of
    heap 0, which heap 1 is then compared with. Heaps 0 and 1 leave, 2 wins. *)
Example C129_meets : match c129_start with None => False | Some s =>
  match rrun nat Nat.ltb [Sort 0; Sort 1; Sorted 1 3; Sorted 0 0; Critical 1; Critical 0] s with
  | Some s' => top (wt s') = Some 2 /\ map (roots s') [0; 1; 2; 3] = [None; None; Some 1; Some 2] /\ map (ph s') [0; 1; 2; 3] = repeat Pushing 4
  | None => False end end.
Proof. vm_compute. auto. Qed.
(** while a thread still waits, the tree names its heap *)
Example C129_waiting : match c129_start with None => False | Some s =>
  match rrun nat Nat.ltb [Sort 0; Sort 1; Sorted 1 3; Sorted 0 0; Critical 1] s with Some s' => top (wt s') = Some 0 | None => False end end.
Proof. vm_compute. auto. Qed.

Print Assumptions C129_no_race_partial.
Print Assumptions C129_race_refuted.
