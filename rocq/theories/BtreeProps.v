(** Properties C39 (stxxl::map is a sorted map) and C76 (its iterators stay on their elements).
    The model is BtreeModel.v, the sorted map is BtreeSpec.v. *)
From Coq Require Import List Bool Arith Lia Sorting.Sorted.
From Verif Require Import OrderLib BtreeModel BtreeSpec BtreeBase BtreeLeaf BtreeTree BtreeRoot BtreeIter BtreeProofs.
Import ListNotations.

(** Number of elements which a tree with these node sizes holds in any case before its height
    needs more than [ncap] nodes in the cache. *)
Definition limit (lmax nmax ncap : nat) : nat := S nmax * ((lmax / 2) * (nmax / 2) ^ (ncap - 1)).

Lemma fresh_get {K V : Type} (alloc : list (nat * @leaf K V) -> nat) :
  (forall s b l, In (b, l) s -> b <> alloc s) -> forall s, lget s (alloc s) = None.
Proof.
  intros H3 s. assert (X : forall s' b, (forall b' l, In (b', l) s' -> b' <> b) -> @lget K V s' b = None).
  { induction s' as [|[b' l] s2 IH]; intros b Hb; [easy|]. cbn. destruct (Nat.eqb_spec b b') as [->|_].
    - exfalso. apply (Hb b' l); [now left|easy].
    - apply IH. intros b2 l2 Hin. apply (Hb b2 l2). now right. }
  apply X. intros b' l. apply H3.
Qed.

(** C39: whatever program runs on an empty map, if it is correct for a sorted map (uses valid
    iterators only, no keys above [kmax], not too many elements), then the B+-tree
    runs without failed assertions and gives the same results. *)
Theorem C39_map : forall {K V : Type} (cmp keqb : K -> K -> bool) (kmax : K) (vdef : V) (lmax nmax ncap : nat) (alloc : list (nat * leaf) -> nat),
  strict_weak cmp ->
  (forall a b, keqb a b = negb (cmp a b || cmp b a)) ->
  (forall s b l, In (b, l) s -> b <> alloc s) ->
  4 <= lmax -> 4 <= nmax ->
  forall os s' rs, srun cmp kmax vdef (limit lmax nmax ncap) sempty os = Some (s', rs) ->
  exists c', run cmp keqb kmax vdef lmax nmax ncap alloc (empty kmax alloc) os = Some (c', rs).
Proof.
  intros K V cmp keqb kmax vdef lmax nmax ncap alloc H1 H2 H3 H4 H5 os s' rs Hs.
  assert (H3' : forall s, lget s (alloc s) = None) by (apply fresh_get, H3).
  destruct (run_Rel cmp keqb kmax vdef lmax nmax ncap alloc H1 H2 H3' H4 H5 os (empty kmax alloc) sempty s' rs) as (c' & E & _).
  - apply empty_Rel; auto.
  - exact Hs.
  - eauto.
Qed.

(** The sorted map really is one: its elements are in strictly ascending order. *)
Theorem C39_spec_sorted : forall {K V : Type} (cmp : K -> K -> bool) (kmax : K) (vdef : V) (lim : nat),
  strict_weak cmp ->
  forall os s' rs, srun cmp kmax vdef lim sempty os = Some (s', rs) ->
  StronglySorted (fun a b => cmp (fst a) (fst b) = true) (sm s').
Proof.
  intros K V cmp kmax vdef lim Hc.
  assert (PF : forall (p : K * V -> bool) m, SS cmp m -> SS cmp (filter p m)).
  { intros p. induction m as [|x m IH]; intros H; [exact H|]. apply SS_cons in H as [H1 H2]. cbn [filter].
    destruct (p x); [|auto]. apply SS_cons. split; [|auto]. intros b Hb. apply filter_In in Hb. apply H1. tauto. }
  assert (PP : forall (m : list (K * V)) x, SS cmp m -> SS cmp (s_put cmp m x)).
  { intros m x H. unfold s_put. destruct (s_has cmp m (fst x)); [exact H|]. apply SS_app. split; [auto|]. split.
    - apply SS_cons. split; [|auto]. intros b Hb. apply filter_In in Hb. tauto.
    - intros a b Ha Hb. apply filter_In in Ha. destruct Ha as [_ Ha]. destruct Hb as [<-|Hb]; [exact Ha|].
      apply filter_In in Hb. destruct Hb as [_ Hb]. eapply cmp_tr; eauto. }
  assert (PS : forall (m : list (K * V)) k v, SS cmp m -> SS cmp (s_set cmp m k v)).
  { intros m k v. unfold s_set. induction m as [|x m IH]; intros H; [exact H|]. apply SS_cons in H as [H1 H2]. cbn [map]. apply SS_cons.
    split; [|auto]. intros b Hb. apply in_map_iff in Hb as (y & <- & Hy). specialize (H1 y Hy).
    destruct (same cmp (fst x) k), (same cmp (fst y) k); exact H1. }
  assert (PA : forall (s : @sstate K V) x s', s_add cmp kmax lim s x = Some s' -> SS cmp (sm s) -> SS cmp (sm s')).
  { intros s x s' H Hs. unfold s_add in H. cbv zeta in H. destruct (_ && _) in H; [|easy]. injection H as <-. apply PP, Hs. }
  assert (PL : forall l (s : @sstate K V) s', s_add_all cmp kmax lim s l = Some s' -> SS cmp (sm s) -> SS cmp (sm s')).
  { induction l as [|x l IH]; intros s s' H Hs; cbn [s_add_all] in H; [now injection H as <-|].
    destruct (s_add cmp kmax lim s x) as [s1|] eqn:E; [|easy]. eapply IH; eauto. }
  assert (PT : forall (s : @sstate K V) o s' r, sstep cmp kmax vdef lim s o = Some (s', r) -> SS cmp (sm s) -> SS cmp (sm s')).
  { intros s o s' r H Hs.
    destruct o as [k v|k|k v|l|k|k|k| | |k|k|i|i|i|i v|i j|k|i|i j| |]; cbn [sstep] in H;
    repeat match type of H with
           | context [match nth_error ?l ?i with _ => _ end] => destruct (nth_error l i); [|easy]
           | context [match s_add ?a ?b ?c ?d ?e with _ => _ end] => destruct (s_add a b c d e) eqn:?; [|easy]
           | context [match s_add_all ?a ?b ?c ?d ?e with _ => _ end] => destruct (s_add_all a b c d e) eqn:?; [|easy]
           | context [match ?x with _ => _ end] => destruct x; [|easy] || destruct x; try easy
           end;
    injection H as <- <-; cbn [sm s_new s_put_it s_remove s_clear]; eauto; try apply SS_nil. }
  assert (PR : forall os (s : @sstate K V) s' rs, srun cmp kmax vdef lim s os = Some (s', rs) -> SS cmp (sm s) -> SS cmp (sm s')).
  { induction os as [|o os IH]; intros s s' rs H Hs; cbn [srun] in H; [now injection H as <- <-|].
    destruct (sstep cmp kmax vdef lim s o) as [[s1 r]|] eqn:E; [|easy]. cbn [fst snd] in H.
    destruct (srun cmp kmax vdef lim s1 os) as [[s2 r2]|] eqn:E2; [|easy]. injection H as <- <-. eapply IH; eauto. }
  intros os s' rs H. apply (PR os _ _ _ H). apply SS_nil.
Qed.

(** C76: an iterator which a program got anywhere in its history, and whose element was
    not erased since, gives that element with its current value. *)
Theorem C76_iterators : forall {K V : Type} (cmp keqb : K -> K -> bool) (kmax : K) (vdef : V) (lmax nmax ncap : nat) (alloc : list (nat * leaf) -> nat),
  strict_weak cmp ->
  (forall a b, keqb a b = negb (cmp a b || cmp b a)) ->
  (forall s b l, In (b, l) s -> b <> alloc s) ->
  4 <= lmax -> 4 <= nmax ->
  forall os s' rs, srun cmp kmax vdef (limit lmax nmax ncap) sempty os = Some (s', rs) ->
  forall i k, nth_error (si s') i = Some (At k) ->
  exists c' v, run cmp keqb kmax vdef lmax nmax ncap alloc (empty kmax alloc) os = Some (c', rs)
    /\ In (k, v) (sm s') /\ exec cmp keqb kmax vdef lmax nmax ncap alloc c' (OGet i) = Some (c', RElem (k, v)).
Proof.
  intros K V cmp keqb kmax vdef lmax nmax ncap alloc H1 H2 H3 H4 H5 os s' rs Hs i k Hi.
  assert (H3' : forall s, lget s (alloc s) = None) by (apply fresh_get, H3).
  destruct (run_Rel cmp keqb kmax vdef lmax nmax ncap alloc H1 H2 H3' H4 H5 os (empty kmax alloc) sempty s' rs) as (c' & E & HR).
  - apply empty_Rel; auto.
  - exact Hs.
  - destruct (R_it _ _ _ _ _ _ HR _ _ Hi) as (it & X1 & n & v & X2 & X3). pose proof (R_sm _ _ _ _ _ _ HR) as X4.
    exists c', v. split; [exact E|]. rewrite <- X4. split; [eapply nth_error_In; eassumption|].
    cbn [exec]. unfold user_it. rewrite X1. rewrite (deref_ok cmp kmax lmax nmax H4 H5 c' it n (R_inv _ _ _ _ _ _ HR) X3).
    + now rewrite X2.
    + apply nth_error_Some. congruence.
Qed.

(** ** Example: leaves and nodes of four elements *)
Definition ex_alloc (s : list (nat * @leaf nat nat)) : nat := S (list_max (map fst s)).
Lemma ex_alloc_fresh : forall s b l, In (b, l) s -> b <> ex_alloc s.
Proof.
  intros s b l H E. assert (X : list_max (map fst s) <= list_max (map fst s)) by easy.
  apply list_max_le in X. rewrite Forall_forall in X. specialize (X b (in_map fst _ _ H)). unfold ex_alloc in E. lia.
Qed.
Lemma ex_sw : strict_weak Nat.ltb.
Proof.
  constructor.
  - intros x. apply Nat.ltb_irrefl.
  - intros x y z. rewrite !Nat.ltb_lt. lia.
  - intros x y z. rewrite !Nat.ltb_lt. lia.
Qed.
Lemma ex_eqb : forall a b, (a =? b) = negb ((a <? b) || (b <? a)).
Proof. intros a b. destruct (Nat.eqb_spec a b), (Nat.ltb_spec a b), (Nat.ltb_spec b a); cbn; lia || easy. Qed.

Definition ex_os : list (@op nat nat) :=
  OInsertRange (map (fun i => (7 * i mod 43, i)) (seq 1 30)) ::
  [OFind 21; OFind 19; OLower 41; OBegin; OEnd; OEqualRange 15; OUpper 99; OIndex 3; OIndexSet 3 33; OIndex 3;
   OInsert 44 1; OInsert 44 2; OSize] ++
  map (fun i => OErase (5 * i mod 43)) (seq 1 20) ++
  [OGet 0; OInc 0; OGet 0; ODec 0; OGet 0; OSet 0 77; OGet 0; OEq 0 1; OCount 7; OCount 8; OSize;
   OLower 22; OLower 30; OEraseRange 10 11; OGet 0; ODec 4; OGet 4; OGet 8; OSize; OEraseIt 0; OSize;
   OBegin; OEnd; OEraseRange 12 13; OSize; OInsert 5 5; OClear; OIndex 5].
Definition ex_rs : list (@res nat nat) :=
  [RUnit; RUnit; RUnit; RUnit; RUnit; RUnit; RUnit; RUnit; RElem (3, 25); RUnit; RElem (3, 33); RBool true; RBool false; RNum 31;
   RNum 1; RNum 1; RNum 0; RNum 1; RNum 1; RNum 0; RNum 1; RNum 1; RNum 0; RNum 1; RNum 1; RNum 1; RNum 0; RNum 1; RNum 1; RNum 0;
   RNum 1; RNum 1; RNum 0; RNum 1; RElem (21, 3); RUnit; RElem (24, 28); RUnit; RElem (21, 3); RUnit; RElem (21, 77); RBool false;
   RNum 0; RNum 0; RNum 17; RUnit; RUnit; RUnit; RElem (21, 77); RUnit; RElem (44, 1); RElem (44, 1); RNum 14; RUnit; RNum 13;
   RUnit; RUnit; RUnit; RNum 0; RBool true; RUnit; RElem (5, 0)].
Example C39_ex_spec : option_map snd (srun Nat.ltb 100 0 (limit 4 4 4) sempty ex_os) = Some ex_rs.
Proof. vm_compute. reflexivity. Qed.
Example C39_ex_tree : option_map snd (run Nat.ltb Nat.eqb 100 0 4 4 4 ex_alloc (empty 100 ex_alloc) ex_os) = Some ex_rs.
Proof. vm_compute. reflexivity. Qed.
(** The tree in the middle of this history has inner nodes below the root. *)
Example C39_ex_height : option_map (fun x => ht (fst x)) (run Nat.ltb Nat.eqb 100 0 4 4 4 ex_alloc (empty 100 ex_alloc) (firstn 14 ex_os)) = Some 1.
Proof. vm_compute. reflexivity. Qed.
Example C39_ex_hyps : exists c', run Nat.ltb Nat.eqb 100 0 4 4 4 ex_alloc (empty 100 ex_alloc) ex_os = Some (c', ex_rs).
Proof.
  destruct (srun Nat.ltb 100 0 (limit 4 4 4) sempty ex_os) as [[s rs]|] eqn:E.
  - pose proof C39_ex_spec as X. rewrite E in X. injection X as ->.
    eapply (C39_map Nat.ltb Nat.eqb 100 0 4 4 4 ex_alloc ex_sw ex_eqb ex_alloc_fresh); eauto.
  - pose proof C39_ex_spec as X. rewrite E in X. discriminate X.
Qed.

(** C76: iterators 0 and 3 on the elements 21 and 3 after eighteen operations, ten of them erasures. *)
Example C76_ex : exists s rs, srun Nat.ltb 100 0 (limit 4 4 4) sempty (firstn 24 ex_os) = Some (s, rs)
  /\ nth_error (si s) 0 = Some (At 21) /\ nth_error (si s) 3 = Some (At 3) /\ In (3, 33) (sm s).
Proof. eexists _, _. split; [vm_compute; reflexivity|]. cbn. tauto. Qed.

(** A map can hold no more elements than the height permitted by its node cache: there is a
    program, correct for a sorted map, which the tree aborts with an exception (with
    three nodes in the cache, the smallest allowed number). *)
Theorem C39_node_cache_refuted : exists (os : list (@op nat nat)) s rs,
  srun Nat.ltb 100 0 100 sempty os = Some (s, rs)
  /\ run Nat.ltb Nat.eqb 100 0 4 4 3 ex_alloc (empty 100 ex_alloc) os = None.
Proof.
  exists [OInsertRange (map (fun i => (i, i)) (seq 1 50))]. eexists _, _. split; vm_compute; reflexivity.
Qed.

(** C76 for [end()]: in a std::map it stays valid when the map is cleared; here [end()] from before
    and after differ. *)
Theorem C76_end_after_clear_refuted :
  exists c', run Nat.ltb Nat.eqb 100 0 4 4 4 ex_alloc (empty 100 ex_alloc) [OInsert 1 1; OEnd; OClear; OEnd; OEq 1 2]
    = Some (c', [RBool true; RUnit; RUnit; RUnit; RBool false]).
Proof. eexists. vm_compute. reflexivity. Qed.
(** The same when all elements are erased as a range, ... *)
Theorem C76_end_after_erase_refuted :
  exists c', run Nat.ltb Nat.eqb 100 0 4 4 4 ex_alloc (empty 100 ex_alloc) [OInsert 1 1; OBegin; OEnd; OEraseRange 1 2; OEnd; OEq 2 3]
    = Some (c', [RBool true; RUnit; RUnit; RUnit; RUnit; RBool false]).
Proof. eexists. vm_compute. reflexivity. Qed.
(** ... but not when they are erased one by one. *)
Example C76_end_ex :
  exists c', run Nat.ltb Nat.eqb 100 0 4 4 4 ex_alloc (empty 100 ex_alloc) [OInsert 1 1; OEnd; OErase 1; OEnd; OEq 1 2]
    = Some (c', [RBool true; RUnit; RNum 1; RUnit; RBool true]).
Proof. eexists. vm_compute. reflexivity. Qed.

Print Assumptions C39_map.
Print Assumptions C39_spec_sorted.
Print Assumptions C39_node_cache_refuted.
Print Assumptions C76_iterators.
Print Assumptions C76_end_after_clear_refuted.
Print Assumptions C76_end_after_erase_refuted.
