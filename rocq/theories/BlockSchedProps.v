(** C52: swappable blocks keep their content. *)
From Coq Require Import List Bool Arith NArith Lia Permutation.
From Verif Require Import SumLib AsyncIoModel AsyncIoProofs AsyncIoRules BlockSchedModel BlockSchedSpec BlockSchedProofs.
Import ListNotations.

(** [maxb]: internal blocks, [batch]: allocated at once (128 in the code), [S]: elements of a block, [fdef]: what fill_default
    does.  [os]: any history of calls within their preconditions (BlockSchedSpec), with any changes between the online,
    simulation and offline algorithms.  [o]: when which request is served; [c], [d]: what memory and disk hold at first. *)
Lemma hist_ok A S fdef maxb batch (os : list (op A)) x ys : 0 < batch -> spec_ops A S fdef maxb os (spec_init A) = Some (x, ys) ->
  forall al, ok (run_ops A S fdef maxb batch os bs_init) (sinit al) (fun r s => inv A S maxb (fst r) x s /\ snd r = ys).
Proof. intros Hb E al. exact (run_ops_ok A S fdef maxb batch Hb os _ _ _ _ _ (init_inv A S maxb batch Hb al) E). Qed.
Theorem C52_content : forall A S fdef maxb batch, 0 < batch -> forall (os : list (op A)) x ys, spec_ops A S fdef maxb os (spec_init A) = Some (x, ys) ->
  forall c d al o, match arun (run_ops A S fdef maxb batch os bs_init) (ainit c d al) o with
                   | Done r _ => snd r = ys | Error => False | Stuck => True end.
Proof.
  intros A S fdef maxb batch Hb os x ys E. apply (ok_async A _ _ (fun r => snd r = ys)). intro al.
  eapply ok_imp; [apply (hist_ok _ _ _ _ _ _ _ _ Hb E)|]. cbv beta. tauto.
Qed.
Theorem C52_progress : forall A S fdef maxb batch, 0 < batch -> forall (os : list (op A)) x ys, spec_ops A S fdef maxb os (spec_init A) = Some (x, ys) ->
  forall c d, exists al o r a, arun (run_ops A S fdef maxb batch os bs_init) (ainit c d al) o = Done r (a, []) /\ snd r = ys.
Proof.
  intros A S fdef maxb batch Hb os x ys E. apply (ok_async_progress A _ _ (fun r => snd r = ys)). intro al.
  eapply ok_imp; [apply (hist_ok _ _ _ _ _ _ _ _ Hb E)|]. cbv beta. tauto.
Qed.
(** never more internal blocks than allowed *)
Theorem C52_memory : forall A S fdef maxb batch, 0 < batch -> forall (os : list (op A)) x ys, spec_ops A S fdef maxb os (spec_init A) = Some (x, ys) ->
  forall c d al o, match arun (run_ops A S fdef maxb batch os bs_init) (ainit c d al) o with
                   | Done r _ => b_made (fst r) <= maxb | Error => False | Stuck => True end.
Proof.
  intros A S fdef maxb batch Hb os x ys E. apply (ok_async A _ _ (fun r => b_made (fst r) <= maxb)). intro al.
  eapply ok_imp; [apply (hist_ok _ _ _ _ _ _ _ _ Hb E)|]. cbv beta. intros r s (V & _). exact (c_max _ _ _ _ _ _ _ _ _ _ _ (v_core _ _ _ _ _ _ V)).
Qed.

(** The property as in its title: what is read before the block is released as dirty is read again after it is acquired
    again, whatever happens with the other blocks in between. *)
Definition names {A} (i : nat) (o : op A) : bool :=
  match o with
  | BFree j | BAcquire j _ | BRelease j _ | BDeinit j | BInit j _ | BExtract j | BSet j _ _ => Nat.eqb j i
  | _ => false
  end.
Section Kept.
Variable A : Type.
Variable S : nat.
Variable fdef : option A.
Variable maxb : nat.
Notation spec_op := (spec_op A S fdef maxb).
Notation spec_ops := (spec_ops A S fdef maxb).
Definition holds (x : spec A) (i : nat) (k : blk A) : Prop := ~ In i (s_free x) /\ nth_error (s_blk x) i = Some k.
Lemma upd_holds x x' i j k k' : holds x i k -> j <> i -> upd_at A x j k' = Some x' -> holds x' i k.
Proof.
  intros (H1 & H2) D. unfold upd_at. destruct k'; [|discriminate]. intro E. injection E as <-. unfold with_now, now, holds. destruct (s_sim x); cbn; [auto|].
  rewrite mark_other by congruence. auto.
Qed.
Lemma op_holds o x x' y i k : names i o = false -> holds x i k -> spec_op o x = Some (x', y) -> holds x' i k.
Proof.
  intros Nm H E. unfold spec_op in E. destruct o; cbn [names] in Nm; try (apply Nat.eqb_neq in Nm).
  - destruct (s_free x) as [|a l] eqn:Ef.
    + injection E as <- <-. destruct H as (H1 & H2). split; cbn; [tauto|]. rewrite nth_error_app1; [exact H2|]. apply nth_error_Some. congruence.
    + assert (Ex : x' = mk_spec (s_blk x) (take_out (smallest a l) (a :: l)) (s_sim x) (s_user x)) by congruence. subst x'. destruct H as (H1 & H2). split; [|exact H2].
      cbn [s_free]. intro I. apply H1. rewrite Ef. exact (take_sub _ _ _ I).
  - destruct (blk_at A x i0); [|discriminate]. destruct (nth_error (s_blk x) i0); [|discriminate]. destruct (simulating A x && _); [discriminate|].
    destruct (upd_at A x i0 (blk_drop A S b)) as [x1|] eqn:E1; [|discriminate]. injection E as <- <-. pose proof (upd_holds _ _ _ _ _ _ H Nm E1) as (H1 & H2). split; [|exact H2]. cbn. intros [Q|Q]; [congruence|contradiction].
  - destruct (blk_at A x i0); [|discriminate]. destruct (negb _ && _ && _); [discriminate|]. destruct (upd_at A x i0 _) as [x1|] eqn:E1; [|discriminate]. injection E as <- <-. eapply upd_holds; eauto.
  - destruct (blk_at A x i0); [|discriminate]. destruct (upd_at A x i0 _) as [x1|] eqn:E1; [|discriminate]. injection E as <- <-. eapply upd_holds; eauto.
  - destruct (blk_at A x i0); [|discriminate]. destruct (upd_at A x i0 _) as [x1|] eqn:E1; [|discriminate]. injection E as <- <-. eapply upd_holds; eauto.
  - destruct (blk_at A x i0); [|discriminate]. destruct (simulating A x).
    + destruct (upd_at A x i0 _) as [x1|] eqn:E1; [|discriminate]. injection E as <- <-. eapply upd_holds; eauto.
    + destruct (nth_error (s_user x) slot) as [[c|]|]; try discriminate. destruct (upd_at A x i0 _) as [x1|] eqn:E1; [|discriminate]. injection E as <- <-. exact (upd_holds _ _ _ _ _ _ H Nm E1).
  - destruct (blk_at A x i0); [|discriminate]. destruct (negb _); [discriminate|]. destruct (upd_at A x i0 _) as [x1|] eqn:E1; [|discriminate]. injection E as <- <-. exact (upd_holds _ _ _ _ _ _ H Nm E1).
  - destruct (blk_at A x i0); [|discriminate]. injection E as <- <-. exact H.
  - destruct (blk_at A x i0); [|discriminate]. destruct (_ || _); [discriminate|]. destruct (nth_error _ j) as [[v|]|]; try discriminate. injection E as <- <-. exact H.
  - destruct (blk_at A x i0); [|discriminate]. destruct (_ || _ || _); [discriminate|]. destruct (upd_at A x i0 _) as [x1|] eqn:E1; [|discriminate]. injection E as <- <-. eapply upd_holds; eauto.
  - injection E as <- <-. exact H.
  - injection E as <- <-. exact H.
  - injection E as <- <-. exact H.
  - destruct (Nat.eqb _ _); [|discriminate]. injection E as <- <-. exact H.
  - injection E as <- <-. exact H.
  - destruct (Nat.eqb _ _); [|discriminate]. injection E as <- <-. exact H.
  - destruct (nth_error (s_user x) slot) as [[c|]|]; try discriminate. destruct (nth_error c j) as [[v|]|]; try discriminate. injection E as <- <-. exact H.
Qed.
Lemma ops_holds os : forall x x' ys i k, existsb (names i) os = false -> holds x i k -> spec_ops os x = Some (x', ys) -> holds x' i k.
Proof.
  induction os as [|o os IH]; intros x x' ys i k Nm H E; cbn [BlockSchedSpec.spec_ops existsb] in *.
  - injection E as <- <-. exact H.
  - apply orb_false_iff in Nm. destruct Nm as (N1 & N2). destruct (spec_op o x) as [[x1 y]|] eqn:E1; [|discriminate]. destruct (spec_ops os x1) as [[x2 zs]|] eqn:E2; [|discriminate]. injection E as <- <-.
    eapply IH; [exact N2| |exact E2]. eapply op_holds; eauto.
Qed.
Lemma ops_app os : forall os' x x' ys, spec_ops (os ++ os') x = Some (x', ys) ->
  exists x1 ys1 ys2, spec_ops os x = Some (x1, ys1) /\ spec_ops os' x1 = Some (x', ys2) /\ ys = ys1 ++ ys2 /\ length ys1 = length os.
Proof.
  induction os as [|o os IH]; intros os' x x' ys E; cbn [BlockSchedSpec.spec_ops app] in *.
  - exists x, [], ys. auto.
  - destruct (spec_op o x) as [[x1 y]|]; [|discriminate]. destruct (spec_ops (os ++ os') x1) as [[x2 zs]|] eqn:E2; [|discriminate]. injection E as <- <-.
    destruct (IH _ _ _ _ E2) as (x3 & ys1 & ys2 & Q1 & Q2 & -> & L). rewrite Q1. exists x3, (y :: ys1), ys2. cbn. auto.
Qed.
Lemma get_inv i j x x' y : spec_op (BGet i j) x = Some (x', y) ->
  exists k v, x' = x /\ holds x i k /\ simulating A x = false /\ k_refs k <> 0 /\ nth_error (k_cont k) j = Some (Some v) /\ y = OVal v.
Proof.
  cbn [BlockSchedSpec.spec_op]. destruct (blk_at A x i) as [k|] eqn:Eb; [|discriminate]. apply blk_at_spec in Eb. destruct Eb as (NF & Hn).
  destruct (simulating A x || _) eqn:Ec; [discriminate|]. apply orb_false_iff in Ec. destruct Ec as (E1 & E2). destruct (nth_error (k_cont k) j) as [[v|]|] eqn:Ej; try discriminate.
  intro E. injection E as <- <-. exists k, v. unfold holds, now, simulating in *. destruct (s_sim x); [discriminate|]. apply Nat.eqb_neq in E2. auto 8.
Qed.
Lemma kept_spec pre mid i j x ys : existsb (names i) mid = false ->
  spec_ops (pre ++ [BGet i j; BRelease i true] ++ mid ++ [BAcquire i false; BGet i j]) (spec_init A) = Some (x, ys) ->
  exists v, nth_error ys (length pre) = Some (OVal v) /\ last ys OUnit = OVal v.
Proof.
  intros Nm E. apply ops_app in E. destruct E as (x1 & y1 & y2 & E1 & E & -> & L1). apply ops_app in E. destruct E as (x2 & z1 & z2 & E2 & E & -> & L2).
  apply ops_app in E. destruct E as (x3 & w1 & w2 & E3 & E4 & -> & L3).
  cbn [BlockSchedSpec.spec_ops] in E2. destruct (spec_op (BGet i j) x1) as [[xa ya]|] eqn:Ga; [|discriminate]. apply get_inv in Ga. destruct Ga as (k & v & -> & H1 & Sm & Kr & Kj & ->).
  destruct (spec_op (BRelease i true) x1) as [[xb yb]|] eqn:Gb; [|discriminate]. injection E2 as <- <-.
  assert (H2 : exists k2, holds xb i k2 /\ nth_error (k_cont k2) j = Some (Some v) /\ k_valid k2 = true).
  { destruct H1 as (NF & Hn). cbn [BlockSchedSpec.spec_op] in Gb. unfold blk_at, upd_at, with_now, now, simulating in *. destruct (s_sim x1); [discriminate|].
    destruct (among i (s_free x1)) eqn:Ea; [discriminate|]. rewrite Hn in Gb. unfold blk_release in Gb. destruct (k_refs k) as [|[|n]] eqn:Kn; [congruence| |]; injection Gb as <- <-.
    - eexists. split; [split; [exact NF|cbn [s_blk]; apply (mark_same _ _ _ k); exact Hn]|]. cbn. rewrite orb_true_r. auto.
    - eexists. split; [split; [exact NF|cbn [s_blk]; apply (mark_same _ _ _ k); exact Hn]|]. cbn. rewrite orb_true_r. auto. }
  destruct H2 as (k2 & H2 & Kj2 & Kv2). pose proof (ops_holds _ _ _ _ _ _ Nm H2 E3) as H3.
  cbn [BlockSchedSpec.spec_ops] in E4. destruct (spec_op (BAcquire i false) x3) as [[xc yc]|] eqn:Gc; [|discriminate]. destruct (spec_op (BGet i j) xc) as [[xd yd]|] eqn:Gd; [|discriminate]. injection E4 as <- <-.
  apply get_inv in Gd. destruct Gd as (k4 & v4 & -> & H4 & Sm4 & Kr4 & Kj4 & ->).
  assert (v4 = v).
  { destruct H3 as (NF & Hn). cbn [BlockSchedSpec.spec_op] in Gc. destruct (blk_at A x3 i) as [k3|] eqn:Eb; [|discriminate]. apply blk_at_spec in Eb. destruct Eb as (_ & Eb).
    destruct (negb _ && _ && _); [discriminate|]. unfold upd_at, with_now, now, simulating in *. destruct (s_sim x3) as [sh|] eqn:Es.
    - cbn in Gc. injection Gc as <- <-. cbn in Sm4. discriminate.
    - injection Gc as <- <-. assert (k3 = k2) by congruence. subst k3. destruct H4 as (_ & H4). cbn [s_blk] in H4. rewrite (mark_same _ _ _ k2 Hn) in H4. injection H4 as <-.
      unfold blk_acquire in Kj4. rewrite Kv2 in Kj4. destruct (k_refs k2); cbn [k_cont] in Kj4; congruence. }
  subst v4. exists v. split; [rewrite nth_error_app2 by lia; rewrite L1, Nat.sub_diag; reflexivity|].
  change (y1 ++ [OVal v; yb] ++ w1 ++ [yc; OVal v]) with (y1 ++ ([OVal v; yb] ++ w1 ++ [yc; OVal v])).
  replace (y1 ++ [OVal v; yb] ++ w1 ++ [yc; OVal v]) with ((y1 ++ [OVal v; yb] ++ w1 ++ [yc]) ++ [OVal v]); [apply last_last|]. rewrite <- !app_assoc. reflexivity.
Qed.
End Kept.
Theorem C52_kept : forall A S fdef maxb batch, 0 < batch -> forall (pre mid : list (op A)) i j x ys, existsb (names i) mid = false ->
  let os := pre ++ [BGet i j; BRelease i true] ++ mid ++ [BAcquire i false; BGet i j] in
  spec_ops A S fdef maxb os (spec_init A) = Some (x, ys) ->
  forall c d al o, match arun (run_ops A S fdef maxb batch os bs_init) (ainit c d al) o with
                   | Done r _ => exists v, nth_error (snd r) (length pre) = Some (OVal v) /\ last (snd r) OUnit = OVal v
                   | Error => False | Stuck => True end.
Proof.
  intros A S fdef maxb batch Hb pre mid i j x ys Nm os E c d al o. pose proof (C52_content A S fdef maxb batch Hb os x ys E c d al o) as H.
  destruct (arun _ _ o) as [r ?| |]; auto. rewrite H. apply (kept_spec A S fdef maxb pre mid i j x ys Nm E).
Qed.

(** The destructor, if no block is acquired: only the external blocks that the user has are left, and no internal block
    is lost (line 376). *)
Theorem C52_no_leak : forall A S fdef maxb batch, 0 < batch -> forall (os : list (op A)) x ys, spec_ops A S fdef maxb os (spec_init A) = Some (x, ys) -> in_use A (s_blk x) = 0 ->
  forall c d al o, match arun (bind (run_ops A S fdef maxb batch os bs_init) (fun r => destroy A (fst r))) (ainit c d al) o with
                   | Done t (a, _) => (forall e, In e (aown a) <-> In (Some e) (b_user t)) /\ Permutation (b_free t) (seq 1 (b_made t))
                   | Error => False | Stuck => True end.
Proof.
  intros A S fdef maxb batch Hb os x ys E U c d al o.
  pose proof (ok_async_sim A _ (bind (run_ops A S fdef maxb batch os bs_init) (fun r => destroy A (fst r)))
    (fun t s => (forall e, In e (sown s) <-> In (Some e) (b_user t)) /\ Permutation (b_free t) (seq 1 (b_made t)))) as H.
  assert (G : forall al, ok (bind (run_ops A S fdef maxb batch os bs_init) (fun r => destroy A (fst r))) (sinit al)
     (fun t s => (forall e, In e (sown s) <-> In (Some e) (b_user t)) /\ Permutation (b_free t) (seq 1 (b_made t)))).
  { intro al'. apply ok_bind. eapply ok_imp; [apply (hist_ok _ _ _ _ _ _ _ _ Hb E)|]. intros r s (V & _).
    eapply ok_imp; [apply (destroy_ok A S maxb batch Hb _ _ _ V U)|]. intros t s' (H1 & H2 & H3 & H4 & _). split; [|exact H4]. intro e. rewrite H1, H3. unfold users. rewrite in_flat_map. split.
    - intros (u & Iu & Ie). destruct u as [e'|]; [|destruct Ie]. destruct Ie as [->|[]]. exact Iu.
    - intro I. exists (Some e). split; [exact I|left; reflexivity]. }
  specialize (H G c d al o). destruct (arun _ _ o) as [t (a & o')| |]; auto. destruct H as (s & (H1 & H2) & M). split; [|exact H2]. intro e. rewrite (m_own _ _ _ M). apply H1.
Qed.

(** C74: a simulation leaves the data alone; the calls may name any block, but a block is not freed. *)
Definition quiet {A} (i : nat) (o : op A) : bool := match o with BFree j => negb (Nat.eqb j i) | BLru | BLfd => false | _ => true end.
Section Simulated.
Variable A : Type.
Variable S : nat.
Variable fdef : option A.
Variable maxb : nat.
Notation spec_op := (spec_op A S fdef maxb).
Notation spec_ops := (spec_ops A S fdef maxb).
Notation holds := (holds A).
Lemma upd_sim x x' i j k k' : holds x i k -> simulating A x = true -> upd_at A x j k' = Some x' -> holds x' i k /\ simulating A x' = true.
Proof.
  intros H Sm. unfold upd_at. destruct k'; [|discriminate]. intro E. injection E as <-. unfold with_now, now, holds, simulating in *. destruct (s_sim x); [|discriminate]. split; [exact H|reflexivity].
Qed.
Lemma op_sim o x x' y i k : quiet i o = true -> holds x i k -> simulating A x = true -> spec_op o x = Some (x', y) -> holds x' i k /\ simulating A x' = true.
Proof.
  intros Nm H Sm E. destruct (names i o) eqn:Nn.
  - unfold spec_op in E. destruct o; cbn [names quiet] in Nm, Nn; try discriminate Nn.
    + rewrite Nn in Nm. discriminate.
    + destruct (blk_at A x i0); [|discriminate]. destruct (negb _ && _ && _); [discriminate|]. destruct (upd_at A x i0 _) as [x1|] eqn:E1; [|discriminate]. injection E as <- <-. eapply upd_sim; eauto.
    + destruct (blk_at A x i0); [|discriminate]. destruct (upd_at A x i0 _) as [x1|] eqn:E1; [|discriminate]. injection E as <- <-. eapply upd_sim; eauto.
    + destruct (blk_at A x i0); [|discriminate]. destruct (upd_at A x i0 _) as [x1|] eqn:E1; [|discriminate]. injection E as <- <-. eapply upd_sim; eauto.
    + destruct (blk_at A x i0); [|discriminate]. rewrite Sm in E. destruct (upd_at A x i0 _) as [x1|] eqn:E1; [|discriminate]. injection E as <- <-. eapply upd_sim; eauto.
    + destruct (blk_at A x i0); [|discriminate]. destruct (negb _); [discriminate|]. destruct (upd_at A x i0 _) as [x1|] eqn:E1; [|discriminate]. injection E as <- <-. exact (upd_sim _ _ _ _ _ _ H Sm E1).
    + destruct (blk_at A x i0); [|discriminate]. rewrite Sm in E. discriminate.
  - split; [exact (op_holds A S fdef maxb o x x' y i k Nn H E)|]. unfold spec_op in E. destruct o; cbn [quiet] in Nm; try discriminate Nm.
    + unfold simulating in *. destruct (s_sim x); [|discriminate]. destruct (s_free x); injection E as <- <-; reflexivity.
    + destruct (blk_at A x i0); [|discriminate]. destruct (nth_error (s_blk x) i0); [|discriminate]. destruct (simulating A x && _); [discriminate|].
      destruct (upd_at A x i0 (blk_drop A S b)) as [x1|] eqn:E1; [|discriminate]. injection E as <- <-. pose proof (upd_sim _ _ _ _ _ _ H Sm E1) as (_ & Q). exact Q.
    + destruct (blk_at A x i0); [|discriminate]. destruct (negb _ && _ && _); [discriminate|]. destruct (upd_at A x i0 _) as [x1|] eqn:E1; [|discriminate]. injection E as <- <-. apply (upd_sim _ _ _ _ _ _ H Sm E1).
    + destruct (blk_at A x i0); [|discriminate]. destruct (upd_at A x i0 _) as [x1|] eqn:E1; [|discriminate]. injection E as <- <-. apply (upd_sim _ _ _ _ _ _ H Sm E1).
    + destruct (blk_at A x i0); [|discriminate]. destruct (upd_at A x i0 _) as [x1|] eqn:E1; [|discriminate]. injection E as <- <-. apply (upd_sim _ _ _ _ _ _ H Sm E1).
    + destruct (blk_at A x i0); [|discriminate]. rewrite Sm in E. destruct (upd_at A x i0 _) as [x1|] eqn:E1; [|discriminate]. injection E as <- <-. apply (upd_sim _ _ _ _ _ _ H Sm E1).
    + destruct (blk_at A x i0); [|discriminate]. destruct (negb _); [discriminate|]. destruct (upd_at A x i0 _) as [x1|] eqn:E1; [|discriminate]. injection E as <- <-. apply (upd_sim _ _ _ _ _ _ H Sm E1).
    + destruct (blk_at A x i0); [|discriminate]. injection E as <- <-. exact Sm.
    + destruct (blk_at A x i0); [|discriminate]. rewrite Sm in E. discriminate.
    + destruct (blk_at A x i0); [|discriminate]. rewrite Sm in E. discriminate.
    + injection E as <- <-. exact Sm.
    + destruct (Nat.eqb _ _); [|discriminate]. injection E as <- <-. reflexivity.
    + injection E as <- <-. exact Sm.
    + destruct (Nat.eqb _ _); [|discriminate]. injection E as <- <-. exact Sm.
    + destruct (nth_error (s_user x) slot) as [[c|]|]; try discriminate. destruct (nth_error c j) as [[v|]|]; try discriminate. injection E as <- <-. exact Sm.
Qed.
Lemma ops_sim os : forall x x' ys i k, forallb (quiet i) os = true -> holds x i k -> simulating A x = true -> spec_ops os x = Some (x', ys) -> holds x' i k.
Proof.
  induction os as [|o os IH]; intros x x' ys i k Nm H Sm E; cbn [BlockSchedSpec.spec_ops forallb] in *.
  - injection E as <- <-. exact H.
  - apply andb_true_iff in Nm. destruct Nm as (N1 & N2). destruct (spec_op o x) as [[x1 y]|] eqn:E1; [|discriminate]. destruct (spec_ops os x1) as [[x2 zs]|] eqn:E2; [|discriminate]. injection E as <- <-.
    destruct (op_sim _ _ _ _ _ _ N1 H Sm E1) as (H1 & S1). eapply IH; [exact N2|exact H1|exact S1|exact E2].
Qed.
Lemma sim_spec pre mid back i j x ys : forallb (quiet i) mid = true -> back = BLru \/ back = BLfd ->
  spec_ops (pre ++ [BGet i j; BRelease i true; BSim] ++ mid ++ [back; BAcquire i false; BGet i j]) (spec_init A) = Some (x, ys) ->
  exists v, nth_error ys (length pre) = Some (OVal v) /\ last ys OUnit = OVal v.
Proof.
  intros Nm Bk E. apply ops_app in E. destruct E as (x1 & y1 & y2 & E1 & E & -> & L1). apply ops_app in E. destruct E as (x2 & z1 & z2 & E2 & E & -> & L2).
  apply ops_app in E. destruct E as (x3 & w1 & w2 & E3 & E4 & -> & L3).
  cbn [BlockSchedSpec.spec_ops] in E2. destruct (spec_op (BGet i j) x1) as [[xa ya]|] eqn:Ga; [|discriminate]. apply get_inv in Ga. destruct Ga as (k & v & -> & H1 & Sm & Kr & Kj & ->).
  destruct (spec_op (BRelease i true) x1) as [[xb yb]|] eqn:Gb; [|discriminate]. destruct (spec_op BSim xb) as [[xs yc]|] eqn:Gs; [|discriminate]. injection E2 as <- <-.
  assert (H2 : exists k2, holds xb i k2 /\ nth_error (k_cont k2) j = Some (Some v) /\ k_valid k2 = true).
  { destruct H1 as (NF & Hn). cbn [BlockSchedSpec.spec_op] in Gb. unfold blk_at, upd_at, with_now, now, simulating in *. destruct (s_sim x1); [discriminate|].
    destruct (among i (s_free x1)) eqn:Ea; [discriminate|]. rewrite Hn in Gb. unfold blk_release in Gb. destruct (k_refs k) as [|[|n]] eqn:Kn; [congruence| |]; injection Gb as <- <-.
    - eexists. split; [split; [exact NF|cbn [s_blk]; apply (mark_same _ _ _ k); exact Hn]|]. cbn. rewrite orb_true_r. auto.
    - eexists. split; [split; [exact NF|cbn [s_blk]; apply (mark_same _ _ _ k); exact Hn]|]. cbn. rewrite orb_true_r. auto. }
  destruct H2 as (k2 & H2 & Kj2 & Kv2).
  assert (Hs : holds xs i k2 /\ simulating A xs = true). { cbn in Gs. destruct (Nat.eqb _ _); [|discriminate]. injection Gs as <- <-. split; [exact H2|reflexivity]. }
  destruct Hs as (Hs & Ss). pose proof (ops_sim _ _ _ _ _ _ Nm Hs Ss E3) as H3.
  cbn [BlockSchedSpec.spec_ops] in E4. destruct (spec_op back x3) as [[x4 yd]|] eqn:Gk; [|discriminate].
  assert (H4 : holds x4 i k2 /\ s_sim x4 = None) by (destruct Bk as [-> | ->]; cbn in Gk; injection Gk as <- <-; (split; [exact H3|reflexivity])). destruct H4 as (H4 & S4).
  destruct (spec_op (BAcquire i false) x4) as [[xc ye]|] eqn:Gc; [|discriminate]. destruct (spec_op (BGet i j) xc) as [[xd yf]|] eqn:Gd; [|discriminate]. injection E4 as <- <-.
  apply get_inv in Gd. destruct Gd as (k5 & v5 & -> & H5 & Sm5 & Kr5 & Kj5 & ->).
  assert (v5 = v).
  { destruct H4 as (NF & Hn). cbn [BlockSchedSpec.spec_op] in Gc. destruct (blk_at A x4 i) as [k3|] eqn:Eb; [|discriminate]. apply blk_at_spec in Eb. destruct Eb as (_ & Eb).
    destruct (negb _ && _ && _); [discriminate|]. unfold upd_at, with_now, now, simulating in *. rewrite S4 in *.
    injection Gc as <- <-. assert (k3 = k2) by congruence. subst k3. destruct H5 as (_ & H5). cbn [s_blk] in H5. rewrite (mark_same _ _ _ k2 Hn) in H5. injection H5 as <-.
    unfold blk_acquire in Kj5. rewrite Kv2 in Kj5. destruct (k_refs k2); cbn [k_cont] in Kj5; congruence. }
  subst v5. exists v. split; [rewrite nth_error_app2 by lia; rewrite L1, Nat.sub_diag; reflexivity|].
  replace (y1 ++ [OVal v; yb; yc] ++ w1 ++ [yd; ye; OVal v]) with ((y1 ++ [OVal v; yb; yc] ++ w1 ++ [yd; ye]) ++ [OVal v]); [apply last_last|]. rewrite <- !app_assoc. reflexivity.
Qed.
End Simulated.
Theorem C74_simulation_partial : forall A S fdef maxb batch, 0 < batch -> forall (pre mid : list (op A)) back i j x ys, forallb (quiet i) mid = true -> back = BLru \/ back = BLfd ->
  let os := pre ++ [BGet i j; BRelease i true; BSim] ++ mid ++ [back; BAcquire i false; BGet i j] in
  spec_ops A S fdef maxb os (spec_init A) = Some (x, ys) ->
  forall c d al o, match arun (run_ops A S fdef maxb batch os bs_init) (ainit c d al) o with
                   | Done r _ => exists v, nth_error (snd r) (length pre) = Some (OVal v) /\ last (snd r) OUnit = OVal v
                   | Error => False | Stuck => True end.
Proof.
  intros A S fdef maxb batch Hb pre mid back i j x ys Nm Bk os E c d al o. pose proof (C52_content A S fdef maxb batch Hb os x ys E c d al o) as H.
  destruct (arun _ _ o) as [r ?| |]; auto. rewrite H. apply (sim_spec A S fdef maxb pre mid back i j x ys Nm Bk E).
Qed.

(** Examples: blocks of 2 elements, 2 internal blocks, 4 swappable blocks.  Evictions, nested acquires, an initialized and an
    extracted block, a flush, a simulation and its replay with the offline algorithm. *)
Definition wr (i v w : nat) : list (op nat) := [BAcquire i false; BSet i 0 v; BSet i 1 w; BRelease i true].
Definition rd (i : nat) : list (op nat) := [BAcquire i false; BGet i 0; BGet i 1; BRelease i false].
Definition ex_os : list (op nat) :=
  repeat BAlloc 4 ++ wr 0 10 11 ++ wr 1 20 21 ++ wr 2 30 31 ++ rd 0 ++ [BAcquire 1 false; BAcquire 1 false; BSet 1 0 25; BRelease 1 true] ++ rd 2 ++ [BGet 1 0; BRelease 1 false] ++
  rd 0 ++ rd 1 ++ [BFlush; BIsInit 3; BNewExt [7; 8]; BInit 3 0; BIsInit 3] ++ rd 3 ++ [BExtract 2; BReadExt 1 1; BIsInit 2] ++
  [BSim] ++ [BAcquire 0 false; BRelease 0 false; BAcquire 2 true; BRelease 2 true; BStep; BAcquire 1 false; BRelease 1 false] ++ [BIsInit 2; BLfd; BIsInit 2] ++
  rd 0 ++ [BAcquire 2 true; BSet 2 0 40; BSet 2 1 41; BRelease 2 true] ++ rd 1 ++ rd 0 ++ rd 2 ++ [BDeinit 1; BFree 0; BAlloc; BAcquire 0 true; BSet 0 0 5; BGet 0 0; BRelease 0 true] ++ rd 2 ++ rd 3.
Definition vals (l : list (out nat)) : list nat := flat_map (fun y => match y with OVal v => [v] | _ => [] end) l.
Definition sp (maxb : nat) (os : list (op nat)) := spec_ops nat 2 (Some 0) maxb os (spec_init nat).
Definition bsrun (maxb : nat) (os : list (op nat)) := run_ops nat 2 (Some 0) maxb 128 os bs_init.
Definition zeros : nat -> nat -> nat := fun _ _ => 0.
Definition outs {T B S} (x : result (T * list B) S) : option (list B) := match x with Done r _ => Some (snd r) | _ => None end.
Definition singles (n : nat) : list (list nat) := map (fun i => [i]) (seq 1 n).
Definition eagerly maxb os n := arun (bsrun maxb os) (ainit zeros zeros (singles n)) (eager (bsrun maxb os) (ainit zeros zeros (singles n))).
Example ex_spec : option_map (fun r => vals (snd r)) (sp 2 ex_os) =
  Some [10; 11; 30; 31; 25; 10; 11; 25; 21; 7; 8; 31; 10; 11; 25; 21; 10; 11; 40; 41; 5; 40; 41; 7; 8].
Proof. vm_compute. reflexivity. Qed.
Example ex_run : outs (eagerly 2 ex_os 8) = option_map snd (sp 2 ex_os).
Proof. vm_compute. reflexivity. Qed.
Example ex_kept : exists pre mid x ys, existsb (names 0) mid = false /\ 20 <= length mid /\
  sp 1 (pre ++ [BGet 0 1; BRelease 0 true] ++ mid ++ [BAcquire 0 false; BGet 0 1]) = Some (x, ys) /\ nth_error ys (length pre) = Some (OVal 11).
Proof.
  exists (repeat BAlloc 3 ++ [BAcquire 0 false; BSet 0 1 11]), (wr 1 20 21 ++ wr 2 30 31 ++ rd 1 ++ [BFlush] ++ rd 2 ++ wr 1 5 6).
  do 2 eexists. split; [reflexivity|]. split; [vm_compute; lia|]. split; vm_compute; reflexivity.
Qed.
Example ex_end : exists x ys, sp 2 ex_os = Some (x, ys) /\ in_use nat (s_blk x) = 0.
Proof. do 2 eexists. split; vm_compute; reflexivity. Qed.
Example ex_destroy : match arun (bind (bsrun 2 ex_os) (fun r => destroy nat (fst r))) (ainit zeros zeros (singles 8)) (eager (bind (bsrun 2 ex_os) (fun r => destroy nat (fst r))) (ainit zeros zeros (singles 8))) with
  | Done t (a, _) => aown a = [3] /\ b_user t = [None; Some 3] | _ => False end.
Proof. vm_compute. split; reflexivity. Qed.

Example ex_sim : exists pre mid x ys, forallb (quiet 0) mid = true /\ existsb (names 0) mid = true /\
  sp 2 (pre ++ [BGet 0 1; BRelease 0 true; BSim] ++ mid ++ [BLfd; BAcquire 0 false; BGet 0 1]) = Some (x, ys) /\ nth_error ys (length pre) = Some (OVal 11).
Proof.
  exists (repeat BAlloc 3 ++ wr 1 1 2 ++ [BAcquire 0 false; BSet 0 1 11]), [BAcquire 0 true; BRelease 0 true; BDeinit 0; BAcquire 1 false; BRelease 1 false; BAcquire 2 false; BRelease 2 true; BFree 2; BAcquire 0 false].
  do 2 eexists. split; [reflexivity|]. split; [reflexivity|]. split; vm_compute; reflexivity.
Qed.

(** Limits.  acquire with uninitialized = true, then release as not changed: without eviction the block keeps its content,
    with eviction the next one who acquires it finds the content of another block. *)
Definition untouched (maxb : nat) : list (op nat) :=
  [BAlloc; BAlloc] ++ wr 0 10 11 ++ wr 1 20 21 ++ [BAcquire 0 true; BRelease 0 false; BAcquire 0 false; BGet 0 0].
Theorem C52_uninitialized_refuted : exists n, option_map vals (outs (eagerly 2 (untouched 2) n)) = Some [10] /\ option_map vals (outs (eagerly 1 (untouched 1) n)) = Some [20].
Proof. exists 8. vm_compute. split; reflexivity. Qed.
(** free_swappable_block in a simulation: the block goes to the list of free blocks (line 468), and again when the
    simulated calls are carried out.  Two calls of allocate_swappable_block return the same block. *)
Theorem C74_free_refuted : exists n, option_map (@rev (out nat)) (outs (eagerly 2 [BAlloc; BSim; BFree 0; BLru; BFree 0; BAlloc; BAlloc] n)) =
  Some [ONum 0; ONum 0; OUnit; OUnit; OUnit; OUnit; ONum 0].
Proof. exists 0. vm_compute. reflexivity. Qed.
(** and a block that is freed in the simulation only is handed out with the data that it holds *)
Theorem C74_free_data_refuted : exists n, option_map vals (outs (eagerly 2 ([BAlloc] ++ wr 0 10 11 ++ [BSim; BFree 0; BLru; BAlloc; BAcquire 0 false; BGet 0 0]) n)) = Some [10].
Proof. exists 4. vm_compute. reflexivity. Qed.
Print Assumptions C52_content.
Print Assumptions C52_progress.
Print Assumptions C52_memory.
Print Assumptions C52_kept.
Print Assumptions C52_no_leak.
Print Assumptions C52_uninitialized_refuted.
Print Assumptions C74_simulation_partial.
Print Assumptions C74_free_refuted.
Print Assumptions C74_free_data_refuted.
