(** Proofs for CountPtrModel: a counting invariant over all interleavings. *)
From Coq Require Import ZArith List Bool Arith Lia.
From Verif Require Import CountPtrModel CountPtrSpec.
Import ListNotations.
Local Open Scope Z_scope.

(** * Sums over [0 .. n-1] *)
Fixpoint sumf (n : nat) (f : nat -> Z) : Z :=
  match n with O => 0 | S k => sumf k f + f k end.

Lemma sumf_ext n f g : (forall i, (i < n)%nat -> f i = g i) -> sumf n f = sumf n g.
Proof.
  induction n as [|n IH]; intro H; simpl; [reflexivity|].
  rewrite IH, (H n) by (intros; try apply H; lia); reflexivity.
Qed.

Lemma sumf_change n f g i : (i < n)%nat -> (forall j, j <> i -> f j = g j) ->
  sumf n g = sumf n f - f i + g i.
Proof.
  induction n as [|n IH]; intros Hi H; [lia|]. simpl.
  destruct (Nat.eq_dec i n) as [->|Hn].
  - rewrite (sumf_ext n g f) by (intros j Hj; symmetry; apply H; lia). lia.
  - rewrite IH by (try exact H; lia). rewrite (H n) by lia. lia.
Qed.

Lemma sumf_nonneg n f : (forall i, (i < n)%nat -> 0 <= f i) -> 0 <= sumf n f.
Proof. induction n as [|n IH]; intro H; simpl; [lia|]. specialize (H n) as H1. pose proof (IH ltac:(intros; apply H; lia)). lia. Qed.

Lemma sumf_le n f g : (forall i, (i < n)%nat -> f i <= g i) -> sumf n f <= sumf n g.
Proof. induction n as [|n IH]; intro H; simpl; [lia|]. specialize (H n) as H1. pose proof (IH ltac:(intros; apply H; lia)). lia. Qed.

Lemma sumf_bound n f : (forall i, (i < n)%nat -> f i <= 1) -> sumf n f <= Z.of_nat n.
Proof. induction n as [|n IH]; intro H; simpl sumf; [lia|]. specialize (H n) as H1. pose proof (IH ltac:(intros; apply H; lia)). lia. Qed.

Lemma sumf_ge_one n f i : (i < n)%nat -> (forall j, (j < n)%nat -> 0 <= f j) -> f i <= sumf n f.
Proof.
  induction n as [|n IH]; intros Hi H; [lia|]. simpl.
  destruct (Nat.eq_dec i n) as [->|Hn].
  - pose proof (sumf_nonneg n f ltac:(intros; apply H; lia)). lia.
  - pose proof (IH ltac:(lia) ltac:(intros; apply H; lia)). specialize (H n). lia.
Qed.

Lemma sumf_pos_ex n f : (forall j, (j < n)%nat -> 0 <= f j) -> 0 < sumf n f -> exists i, (i < n)%nat /\ 0 < f i.
Proof.
  induction n as [|n IH]; simpl; intros H Hp; [lia|].
  destruct (Z_lt_dec 0 (f n)) as [Hf|Hf]; [exists n; auto with arith|].
  destruct IH as (i & Hi & Hfi); [intros; apply H; lia|lia|exists i; auto with arith].
Qed.

(** an injection from threads into slots: the image's weight is at most the total *)
Lemma sumf_inject n m (f : nat -> option nat) (g : nat -> Z) :
  (forall s, 0 <= g s) ->
  (forall t s, (t < n)%nat -> f t = Some s -> (s < m)%nat) ->
  (forall t t' s, (t < n)%nat -> (t' < n)%nat -> f t = Some s -> f t' = Some s -> t = t') ->
  sumf n (fun t => match f t with Some s => g s | None => 0 end) <= sumf m g.
Proof.
  revert g. induction n as [|n IH]; intros g Hg Hb Hi; simpl.
  - apply sumf_nonneg; auto.
  - destruct (f n) as [s|] eqn:E.
    + set (g' := fun j => if Nat.eqb j s then 0 else g j).
      assert (Hs : (s < m)%nat) by (apply (Hb n s); auto).
      assert (H1 : sumf n (fun t => match f t with Some s => g s | None => 0 end) =
                   sumf n (fun t => match f t with Some s => g' s | None => 0 end)).
      { apply sumf_ext. intros t Ht. destruct (f t) as [s'|] eqn:E'; [|reflexivity].
        unfold g'. destruct (Nat.eqb_spec s' s) as [->|]; [|reflexivity].
        assert (t = n) by (apply (Hi t n s); auto). lia. }
      rewrite H1.
      pose proof (IH g' ltac:(intro j; unfold g'; destruct (Nat.eqb j s); auto; lia)
                     ltac:(intros t1 s1 ? ?; apply (Hb t1 s1); auto) ltac:(intros t1 t2 s1 ? ? ? ?; apply (Hi t1 t2 s1); auto)) as H2.
      rewrite (sumf_change m g g' s Hs) in H2
        by (intros j Hj; unfold g'; destruct (Nat.eqb_spec j s); [congruence|reflexivity]).
      unfold g' at 2 in H2. rewrite Nat.eqb_refl in H2. lia.
    + pose proof (IH g Hg ltac:(intros t1 s1 ? ?; apply (Hb t1 s1); auto) ltac:(intros t1 t2 s1 ? ? ? ?; apply (Hi t1 t2 s1); auto)). lia.
Qed.

(** * The invariant *)
Definition pt (v : slotv) (o : nat) : Z :=
  match v with Ptr (Some o') => if Nat.eqb o' o then 1 else 0 | _ => 0 end.
Notation ptr_is r o := (pt (Ptr r) o).

(** a counted reference held in a local variable *)
Definition hold (p : pc) (o : nat) : Z :=
  match p with
  | PDec _ r | PDel _ r _ | PStore _ r | PSwap _ _ r => ptr_is r o
  | _ => 0
  end.
(** a slot whose pointer is not (yet / any more) counted *)
Definition mark (p : pc) : option nat :=
  match p with
  | PDel d _ _ | PStore d _ | PCtor d _ _ | PDDel d _ | PDEnd d => Some d
  | PSwap _ b _ => Some b
  | _ => None
  end.
(** an object of count zero in the hands of one thread: fresh, or about to be deleted *)
Definition token (p : pc) (o : nat) : Z :=
  match p with
  | PInc _ None r | PCtor _ None r => ptr_is r o
  | PDel _ _ x | PDDel _ x => ptr_is (Some x) o
  | _ => 0
  end.
Definition markc (sl : nat -> slotv) (p : pc) (o : nat) : Z :=
  match mark p with Some s => pt (sl s) o | None => 0 end.

Definition refs (NT NS : nat) (st : state) (o : nat) : Z :=
  sumf NS (fun s => pt (slots st s) o) +
  sumf NT (fun t => hold (pcs st t) o - markc (slots st) (pcs st t) o).
Definition toks (NT : nat) (st : state) (o : nat) : Z :=
  sumf NT (fun t => token (pcs st t) o).

Definition constructed (st : state) (d : nat) : Prop := exists r, slots st d = Ptr r.

Definition pc_ok (st : state) (p : pc) : Prop :=
  match p with
  | Idle => True
  | PInc d src r => constructed st d /\ (forall s, src = Some s -> slots st s = Ptr r)
  | PCtor d src r => slots st d = Ptr r /\ (forall s, src = Some s -> slots st s = Ptr r /\ s <> d)
  | PDec d _ | PDel d _ _ | PStore d _ | PDDel d _ | PDEnd d => constructed st d
  | PSwap a b _ => constructed st a /\ constructed st b
  end.

Definition heap_ok (c : cell) (r k : Z) : Prop :=
  match c with
  | Alive n => n = r /\ (r = 0 -> k = 1) /\ (0 < r -> k = 0)
  | _ => r = 0 /\ k = 0
  end.

Record inv (NT NS : nat) (st : state) : Prop := mk_inv {
  i_out : forall t, (NT <= t)%nat -> pcs st t = Idle;
  i_raw : forall s, (NS <= s)%nat -> slots st s = Raw;
  i_rng : forall t s, In s (writes (pcs st t)) \/ In s (reads (pcs st t)) -> (s < NS)%nat;
  i_excl : forall t t' s, t <> t' -> In s (writes (pcs st t)) ->
     ~ In s (writes (pcs st t')) /\ ~ In s (reads (pcs st t'));
  i_pc : forall t, pc_ok st (pcs st t);
  i_heap : forall o, heap_ok (heap st o) (refs NT NS st o) (toks NT st o);
  i_next : forall o, heap st o = Unborn <-> (next st <= o)%nat;
  i_nodup : NoDup (log st);
  i_log : forall o, In o (log st) <-> heap st o = Freed }.

Lemma pt_range v o : 0 <= pt v o <= 1.
Proof. destruct v as [|[x|]]; simpl; try lia. destruct (Nat.eqb x o); lia. Qed.
Lemma hold_range p o : 0 <= hold p o <= 1.
Proof. destruct p; simpl; try lia; apply (pt_range (Ptr _)). Qed.
Lemma token_range p o : 0 <= token p o <= 1.
Proof.
  destruct p as [|? [?|] ?|? ?|? ? ?|? ?|? [?|] ?|? ?|?|? ? ?]; cbn [token]; try lia;
  apply (pt_range (Ptr _)).
Qed.
Lemma mark_writes p s : mark p = Some s -> In s (writes p).
Proof. destruct p; simpl; try discriminate; intro H; injection H as <-; auto. Qed.

Section Inv.
Variables NT NS : nat.
Hypothesis small : Z.of_nat NS + Z.of_nat NT + 1 < 2 ^ 64.

Lemma refs_split st o :
  refs NT NS st o = sumf NS (fun s => pt (slots st s) o) -
    sumf NT (fun t => match mark (pcs st t) with Some s => pt (slots st s) o | None => 0 end) +
    sumf NT (fun t => hold (pcs st t) o).
Proof.
  unfold refs.
  assert (H : forall n, sumf n (fun t => hold (pcs st t) o - markc (slots st) (pcs st t) o) =
     sumf n (fun t => hold (pcs st t) o) -
     sumf n (fun t => match mark (pcs st t) with Some s => pt (slots st s) o | None => 0 end)).
  { induction n as [|n IH]; simpl; [reflexivity|]. rewrite IH. unfold markc. lia. }
  rewrite H. lia.
Qed.

Lemma marks_inj st : inv NT NS st -> forall t t' s, (t < NT)%nat -> (t' < NT)%nat ->
  mark (pcs st t) = Some s -> mark (pcs st t') = Some s -> t = t'.
Proof.
  intros I t t' s _ _ H H'. destruct (Nat.eq_dec t t') as [|Hn]; [assumption|].
  exfalso. apply (proj1 (i_excl _ _ _ I t t' s Hn (mark_writes _ _ H))). apply mark_writes, H'.
Qed.

Lemma refs_bound st o : inv NT NS st -> 0 <= refs NT NS st o <= Z.of_nat NS + Z.of_nat NT.
Proof.
  intro I. rewrite refs_split.
  pose proof (sumf_inject NT NS (fun t => mark (pcs st t)) (fun s => pt (slots st s) o)
    ltac:(intro; apply pt_range)
    ltac:(intros t s _ H; eapply (i_rng _ _ _ I); left; apply mark_writes; exact H)
    ltac:(intros t t' s H H'; apply (marks_inj st I t t' s H H'))) as H1.
  cbv beta in H1.
  pose proof (sumf_bound NS (fun s => pt (slots st s) o) ltac:(intros; apply pt_range)).
  pose proof (sumf_bound NT (fun t => hold (pcs st t) o) ltac:(intros; apply hold_range)).
  pose proof (sumf_nonneg NT (fun t => hold (pcs st t) o) ltac:(intros; apply hold_range)).
  pose proof (sumf_nonneg NT (fun t => match mark (pcs st t) with Some s => pt (slots st s) o | None => 0 end)
    ltac:(intros i _; cbv beta; destruct (mark (pcs st i)); [apply pt_range|lia])).
  lia.
Qed.

(** an unmarked slot is a counted reference *)
Lemma refs_slot st s o : inv NT NS st -> slots st s = Ptr (Some o) ->
  (forall t, mark (pcs st t) <> Some s) -> 0 < refs NT NS st o.
Proof.
  intros I Hs Hm. rewrite refs_split.
  assert (Hlt : (s < NS)%nat).
  { destruct (le_lt_dec NS s) as [H|H]; [|exact H]. rewrite (i_raw _ _ _ I s H) in Hs. discriminate. }
  set (g := fun j => if Nat.eqb j s then 0 else pt (slots st j) o).
  pose proof (sumf_inject NT NS (fun t => mark (pcs st t)) g
    ltac:(intro j; unfold g; destruct (Nat.eqb j s); [lia|apply pt_range])
    ltac:(intros t s' _ H; eapply (i_rng _ _ _ I); left; apply mark_writes; exact H)
    ltac:(intros t t' s' H H'; apply (marks_inj st I t t' s' H H'))) as H1.
  cbv beta in H1.
  rewrite (sumf_change NS (fun j => pt (slots st j) o) g s Hlt) in H1
    by (intros j Hj; unfold g; destruct (Nat.eqb_spec j s); [congruence|reflexivity]).
  unfold g at 2 in H1. rewrite Nat.eqb_refl in H1.
  assert (Hp : pt (slots st s) o = 1) by (rewrite Hs; simpl; rewrite Nat.eqb_refl; reflexivity).
  rewrite Hp in H1.
  rewrite (sumf_ext NT _ (fun t => match mark (pcs st t) with Some s => pt (slots st s) o | None => 0 end)) in H1.
  2:{ intros t _. destruct (mark (pcs st t)) as [s'|] eqn:E; [|reflexivity].
      unfold g. destruct (Nat.eqb_spec s' s) as [->|]; [|reflexivity]. destruct (Hm t); exact E. }
  pose proof (sumf_nonneg NT (fun t => hold (pcs st t) o) ltac:(intros; apply hold_range)).
  lia.
Qed.

Lemma refs_hold st t o : inv NT NS st -> (t < NT)%nat -> hold (pcs st t) o = 1 -> 0 < refs NT NS st o.
Proof.
  intros I Ht Hh. rewrite refs_split.
  pose proof (sumf_inject NT NS (fun t => mark (pcs st t)) (fun s => pt (slots st s) o)
    ltac:(intro; apply pt_range)
    ltac:(intros t' s _ H; eapply (i_rng _ _ _ I); left; apply mark_writes; exact H)
    ltac:(intros t' t'' s H H'; apply (marks_inj st I t' t'' s H H'))) as H1.
  cbv beta in H1.
  pose proof (sumf_ge_one NT (fun t => hold (pcs st t) o) t Ht ltac:(intros; apply hold_range)) as H2.
  cbv beta in H2. lia.
Qed.

Lemma alive_pos st o : inv NT NS st -> 0 < refs NT NS st o ->
  heap st o = Alive (refs NT NS st o) /\ toks NT st o = 0.
Proof.
  intros I H. pose proof (i_heap _ _ _ I o) as Hh. unfold heap_ok in Hh.
  destruct (heap st o); [lia| |lia]. destruct Hh as (-> & _ & Hk). auto.
Qed.

Lemma tok_one st t o : inv NT NS st -> (t < NT)%nat -> token (pcs st t) o = 1 ->
  heap st o = Alive 0 /\ refs NT NS st o = 0 /\ toks NT st o = 1.
Proof.
  intros I Ht Hk. pose proof (i_heap _ _ _ I o) as Hh.
  pose proof (sumf_ge_one NT (fun t => token (pcs st t) o) t Ht ltac:(intros; apply token_range)) as H2.
  cbv beta in H2. change (sumf NT (fun t => token (pcs st t) o)) with (toks NT st o) in H2.
  pose proof (refs_bound st o I).
  unfold heap_ok in Hh. destruct (heap st o); [lia| |lia].
  destruct Hh as (-> & H0 & H1).
  assert (refs NT NS st o = 0) as E by lia. rewrite E. rewrite E in H0. auto.
Qed.

(** * Effect of one action on the sums *)
Lemma upd_same {A} (f : nat -> A) i v : upd f i v i = v.
Proof. unfold upd. rewrite Nat.eqb_refl. reflexivity. Qed.
Lemma upd_other {A} (f : nat -> A) i v j : j <> i -> upd f i v j = f j.
Proof. unfold upd. intro H. destruct (Nat.eqb_spec j i); congruence. Qed.

Lemma toks_upd st st' t p o : (t < NT)%nat -> pcs st' = upd (pcs st) t p ->
  toks NT st' o = toks NT st o - token (pcs st t) o + token p o.
Proof.
  intros Ht Hp. unfold toks. rewrite Hp.
  rewrite (sumf_change NT (fun t => token (pcs st t) o) _ t Ht).
  - rewrite upd_same. reflexivity.
  - intros j Hj. rewrite upd_other; auto.
Qed.

Lemma refs_upd_pc st st' t p o : (t < NT)%nat -> pcs st' = upd (pcs st) t p -> slots st' = slots st ->
  refs NT NS st' o = refs NT NS st o - hold (pcs st t) o + markc (slots st) (pcs st t) o
                     + hold p o - markc (slots st) p o.
Proof.
  intros Ht Hp Hs. unfold refs. rewrite Hp, Hs.
  rewrite (sumf_change NT (fun t => hold (pcs st t) o - markc (slots st) (pcs st t) o)
            (fun t0 => hold (upd (pcs st) t p t0) o - markc (slots st) (upd (pcs st) t p t0) o) t Ht).
  - rewrite upd_same. lia.
  - intros j Hj. rewrite upd_other; auto.
Qed.

Lemma refs_upd_both st st' t p d v o : (t < NT)%nat -> (d < NS)%nat ->
  pcs st' = upd (pcs st) t p -> slots st' = upd (slots st) d v ->
  (forall t', t' <> t -> mark (pcs st t') <> Some d) ->
  refs NT NS st' o = refs NT NS st o - pt (slots st d) o + pt v o
                     - hold (pcs st t) o + markc (slots st) (pcs st t) o
                     + hold p o - markc (upd (slots st) d v) p o.
Proof.
  intros Ht Hd Hp Hs Hm. unfold refs. rewrite Hp, Hs.
  rewrite (sumf_change NS (fun s => pt (slots st s) o) (fun s => pt (upd (slots st) d v s) o) d Hd)
    by (intros j Hj; rewrite upd_other; auto).
  rewrite (sumf_change NT (fun t => hold (pcs st t) o - markc (slots st) (pcs st t) o)
            (fun t0 => hold (upd (pcs st) t p t0) o - markc (upd (slots st) d v) (upd (pcs st) t p t0) o) t Ht).
  - rewrite !upd_same. lia.
  - intros j Hj. rewrite upd_other by auto.
    assert (markc (upd (slots st) d v) (pcs st j) o = markc (slots st) (pcs st j) o) as ->; [|reflexivity].
    unfold markc. destruct (mark (pcs st j)) as [s|] eqn:E; [|reflexivity].
    rewrite upd_other; [reflexivity|]. intros ->. apply (Hm j Hj E).
Qed.

(** * Preservation *)
Lemma pc_ok_frame st st' p : pc_ok st p ->
  (forall s, In s (writes p) \/ In s (reads p) -> slots st' s = slots st s) -> pc_ok st' p.
Proof.
  intros H F. unfold pc_ok, constructed in *.
  destruct p as [|d src r|d r|d r x|d r|d src r|d x|d|a b x]; cbn [writes reads] in F; auto.
  - destruct H as ((r' & H) & H2). split.
    + exists r'. rewrite F by (left; simpl; auto). exact H.
    + intros s ->. rewrite F by (right; simpl; auto). auto.
  - rewrite F by (left; simpl; auto). exact H.
  - rewrite F by (left; simpl; auto). exact H.
  - rewrite F by (left; simpl; auto). exact H.
  - destruct H as (H & H2). split.
    + rewrite F by (left; simpl; auto). exact H.
    + intros s ->. rewrite F by (right; simpl; auto). auto.
  - rewrite F by (left; simpl; auto). exact H.
  - rewrite F by (left; simpl; auto). exact H.
  - rewrite !F by (left; simpl; auto). exact H.
Qed.

Lemma inv_frame st st' t p : inv NT NS st -> (t < NT)%nat ->
  pcs st' = upd (pcs st) t p ->
  (forall s, (NS <= s)%nat -> slots st' s = Raw) ->
  (forall s, In s (writes p) \/ In s (reads p) -> (s < NS)%nat) ->
  (forall t' s, t' <> t ->
     (In s (writes p) -> ~ In s (writes (pcs st t')) /\ ~ In s (reads (pcs st t'))) /\
     (In s (reads p) -> ~ In s (writes (pcs st t')))) ->
  (forall t' s, t' <> t -> In s (writes (pcs st t')) \/ In s (reads (pcs st t')) ->
     slots st' s = slots st s) ->
  pc_ok st' p ->
  (forall o, heap_ok (heap st' o) (refs NT NS st' o) (toks NT st' o)) ->
  (forall o, heap st' o = Unborn <-> (next st' <= o)%nat) ->
  NoDup (log st') ->
  (forall o, In o (log st') <-> heap st' o = Freed) ->
  inv NT NS st'.
Proof.
  intros I Ht Hp Hraw Hrng Hex Hfr Hpc Hheap Hnext Hnd Hlog.
  constructor; try assumption.
  - intros u Hu. rewrite Hp. rewrite upd_other by lia. apply (i_out _ _ _ I u Hu).
  - intros u s H. rewrite Hp in H. destruct (Nat.eq_dec u t) as [->|Hu].
    + rewrite upd_same in H. apply Hrng, H.
    + rewrite upd_other in H by exact Hu. apply (i_rng _ _ _ I u s H).
  - intros u u' s Hn H. rewrite Hp in *.
    destruct (Nat.eq_dec u t) as [->|Hu]; destruct (Nat.eq_dec u' t) as [->|Hu']; try congruence.
    + rewrite upd_same in H. rewrite upd_other by exact Hu'. apply (Hex u' s Hu'); exact H.
    + rewrite upd_other in H by exact Hu. rewrite upd_same.
      split; intro H'.
      * apply (proj1 (proj1 (Hex u s Hu) H')). exact H.
      * apply (proj2 (Hex u s Hu) H'). exact H.
    + rewrite upd_other in * by assumption. apply (i_excl _ _ _ I u u' s Hn H).
  - intro u. rewrite Hp. destruct (Nat.eq_dec u t) as [->|Hu].
    + rewrite upd_same. exact Hpc.
    + rewrite upd_other by exact Hu. apply pc_ok_frame with (st := st); [apply (i_pc _ _ _ I)|].
      intros s Hs. apply (Hfr u s Hu Hs).
Qed.

Lemma w64_small z : 0 <= z < 2 ^ 64 -> w64 z = z.
Proof. intro H. unfold w64. apply Z.mod_small, H. Qed.

(** heap part for an action that only changes thread [t]'s state and at most one slot *)
Definition ctr (sl : nat -> slotv) (p : pc) (o : nat) := hold p o - markc sl p o.

Lemma inc_ok st st' r : inc_reference st r = Some st' ->
  slots st' = slots st /\ pcs st' = pcs st /\ next st' = next st /\ log st' = log st /\
  match r with
  | None => heap st' = heap st
  | Some o => exists c, heap st o = Alive c /\ heap st' = upd (heap st) o (Alive (w64 (c + 1)))
  end.
Proof.
  unfold inc_reference. destruct r as [o|].
  - destruct (heap st o) as [|c|] eqn:E; try discriminate. intro H. injection H as <-.
    simpl. repeat split. exists c. auto.
  - intro H. injection H as <-. repeat split.
Qed.

Lemma dec_ok st st' r b : dec_reference st r = Some (st', b) ->
  slots st' = slots st /\ pcs st' = pcs st /\ next st' = next st /\ log st' = log st /\
  match r with
  | None => heap st' = heap st /\ b = false
  | Some o => exists c, heap st o = Alive c /\ heap st' = upd (heap st) o (Alive (w64 (c - 1))) /\
                        b = (w64 (c - 1) =? 0)
  end.
Proof.
  unfold dec_reference. destruct r as [o|].
  - destruct (heap st o) as [|c|] eqn:E; try discriminate. intro H. injection H as <- <-.
    simpl. repeat split. exists c. auto.
  - intro H. injection H as <- <-. repeat split.
Qed.

Lemma nodes_alive_next st st' o c c' : inv NT NS st -> heap st o = Alive c ->
  heap st' = upd (heap st) o (Alive c') -> next st' = next st -> log st' = log st ->
  (forall o, heap st' o = Unborn <-> (next st' <= o)%nat) /\
  (forall o, In o (log st') <-> heap st' o = Freed).
Proof.
  intros I Ho Hh Hn Hl. rewrite Hh, Hn, Hl. split; intro x;
  (destruct (Nat.eq_dec x o) as [->|Hx];
   [rewrite upd_same|rewrite upd_other by exact Hx]).
  - split; [discriminate|]. intro H. apply (i_next _ _ _ I) in H. congruence.
  - apply (i_next _ _ _ I).
  - split; [|discriminate]. intro H. apply (i_log _ _ _ I) in H. congruence.
  - apply (i_log _ _ _ I).
Qed.

Lemma others_mark st t d : inv NT NS st -> In d (writes (pcs st t)) ->
  forall t', t' <> t -> mark (pcs st t') <> Some d.
Proof.
  intros I H t' Hn Hm. apply (proj1 (i_excl _ _ _ I t t' d (not_eq_sym Hn) H)).
  apply mark_writes, Hm.
Qed.

(** read-held or written-held slots of [t] are marked by nobody else *)
Lemma reads_mark st t s : inv NT NS st -> In s (reads (pcs st t)) ->
  forall t', t' <> t -> mark (pcs st t') <> Some s.
Proof.
  intros I H t' Hn Hm.
  apply (proj2 (i_excl _ _ _ I t' t s Hn (mark_writes _ _ Hm))). exact H.
Qed.

Lemma slot_alive st t s o : inv NT NS st -> slots st s = Ptr (Some o) ->
  (forall t', t' <> t -> mark (pcs st t') <> Some s) -> mark (pcs st t) <> Some s ->
  0 < refs NT NS st o /\ heap st o = Alive (refs NT NS st o) /\ toks NT st o = 0.
Proof.
  intros I Hs Ho Hm.
  assert (H : 0 < refs NT NS st o).
  { apply refs_slot with (s := s); auto. intro t'. destruct (Nat.eq_dec t' t) as [->|Hn]; auto. }
  split; [exact H|]. apply alive_pos; auto.
Qed.

(** the frame part for actions that continue an operation *)
Lemma inv_cont st st' t p : inv NT NS st -> (t < NT)%nat ->
  pcs st' = upd (pcs st) t p ->
  (forall s, In s (writes p) -> In s (writes (pcs st t))) ->
  (forall s, In s (reads p) -> In s (reads (pcs st t))) ->
  (slots st' = slots st \/ exists d v, In d (writes (pcs st t)) /\ slots st' = upd (slots st) d v) ->
  pc_ok st' p ->
  (forall o, heap_ok (heap st' o) (refs NT NS st' o) (toks NT st' o)) ->
  (forall o, heap st' o = Unborn <-> (next st' <= o)%nat) ->
  NoDup (log st') ->
  (forall o, In o (log st') <-> heap st' o = Freed) ->
  inv NT NS st'.
Proof.
  intros I Ht Hp Hw Hr Hs Hpc Hh Hn Hnd Hl.
  apply inv_frame with (st := st) (t := t) (p := p); auto.
  - intros s Hge. destruct Hs as [->|(d & v & Hd & ->)].
    + apply (i_raw _ _ _ I s Hge).
    + rewrite upd_other; [apply (i_raw _ _ _ I s Hge)|].
      intros ->. pose proof (i_rng _ _ _ I t d (or_introl Hd)). lia.
  - intros s [H|H]; apply (i_rng _ _ _ I t s); auto.
  - intros t' s Ht'. split; intro H.
    + apply (i_excl _ _ _ I t t' s); auto.
    + intro H'. apply (proj2 (i_excl _ _ _ I t' t s Ht' H')). auto.
  - intros t' s Ht' H. destruct Hs as [->|(d & v & Hd & ->)]; [reflexivity|].
    apply upd_other. intros ->.
    pose proof (i_excl _ _ _ I t t' d (not_eq_sym Ht') Hd). tauto.
Qed.

Lemma heap_ok_same c r k r' k' : heap_ok c r k -> r' = r -> k' = k -> heap_ok c r' k'.
Proof. intros H -> ->. exact H. Qed.

Lemma pt_refl x : pt (Ptr (Some x)) x = 1.
Proof. simpl. rewrite Nat.eqb_refl. reflexivity. Qed.
Lemma pt_neq x o : o <> x -> pt (Ptr (Some x)) o = 0.
Proof. simpl. intro H. destruct (Nat.eqb_spec x o); congruence. Qed.

(** heap part of an increment, decrement, deletion, creation *)
Lemma heap_inc st (h : nat -> cell) x R K : inv NT NS st ->
  heap st x = Alive (refs NT NS st x) ->
  h = upd (heap st) x (Alive (w64 (refs NT NS st x + 1))) ->
  (forall o, R o = refs NT NS st o + pt (Ptr (Some x)) o) ->
  K x = 0 -> (forall o, o <> x -> K o = toks NT st o) ->
  forall o, heap_ok (h o) (R o) (K o).
Proof.
  intros I Ha -> HR HK HK' o. pose proof (i_heap _ _ _ I o) as Ho.
  destruct (Nat.eq_dec o x) as [->|Hox].
  - rewrite upd_same, HR, pt_refl, HK. pose proof (refs_bound st x I).
    rewrite w64_small by lia. simpl. lia.
  - rewrite upd_other by exact Hox. rewrite HR, pt_neq, HK' by exact Hox.
    apply (heap_ok_same _ _ _ _ _ Ho); lia.
Qed.

Lemma heap_dec st (h : nat -> cell) x R K : inv NT NS st ->
  0 < refs NT NS st x -> toks NT st x = 0 ->
  h = upd (heap st) x (Alive (w64 (refs NT NS st x - 1))) ->
  (forall o, R o = refs NT NS st o - pt (Ptr (Some x)) o) ->
  (forall o, K o = toks NT st o + if w64 (refs NT NS st x - 1) =? 0 then pt (Ptr (Some x)) o else 0) ->
  forall o, heap_ok (h o) (R o) (K o).
Proof.
  intros I Hp Hk -> HR HK o. pose proof (i_heap _ _ _ I o) as Ho.
  pose proof (refs_bound st x I). rewrite w64_small in * by lia.
  destruct (Nat.eq_dec o x) as [->|Hox].
  - rewrite upd_same, HR, HK, pt_refl, Hk. simpl.
    destruct (Z.eqb_spec (refs NT NS st x - 1) 0); lia.
  - rewrite upd_other by exact Hox. rewrite HR, HK, pt_neq by exact Hox.
    apply (heap_ok_same _ _ _ _ _ Ho); [lia|]. destruct (refs NT NS st x - 1 =? 0); lia.
Qed.

Lemma heap_del st t (h : nat -> cell) x R K : inv NT NS st -> (t < NT)%nat ->
  token (pcs st t) x = 1 ->
  h = upd (heap st) x Freed ->
  (forall o, R o = refs NT NS st o) ->
  (forall o, K o = toks NT st o - pt (Ptr (Some x)) o) ->
  forall o, heap_ok (h o) (R o) (K o).
Proof.
  intros I Ht Hk -> HR HK o. destruct (tok_one st t x I Ht Hk) as (_ & Hr & Hx).
  pose proof (i_heap _ _ _ I o) as Ho.
  destruct (Nat.eq_dec o x) as [->|Hox].
  - rewrite upd_same, HR, HK, pt_refl, Hr, Hx. simpl. lia.
  - rewrite upd_other by exact Hox. rewrite HR, HK, pt_neq by exact Hox.
    apply (heap_ok_same _ _ _ _ _ Ho); lia.
Qed.

Lemma heap_new st (h : nat -> cell) R K : inv NT NS st ->
  h = upd (heap st) (next st) (Alive 0) ->
  (forall o, R o = refs NT NS st o) ->
  (forall o, K o = toks NT st o + pt (Ptr (Some (next st))) o) ->
  forall o, heap_ok (h o) (R o) (K o).
Proof.
  intros I -> HR HK o. pose proof (i_heap _ _ _ I o) as Ho.
  destruct (Nat.eq_dec o (next st)) as [->|Hox].
  - rewrite upd_same, HR, HK, pt_refl.
    assert (heap st (next st) = Unborn) as E by (apply (i_next _ _ _ I); lia).
    rewrite E in Ho. simpl in Ho |- *. lia.
  - rewrite upd_other by exact Hox. rewrite HR, HK, pt_neq by exact Hox.
    apply (heap_ok_same _ _ _ _ _ Ho); lia.
Qed.

Lemma nodes_new st st' : inv NT NS st ->
  heap st' = upd (heap st) (next st) (Alive 0) -> next st' = S (next st) -> log st' = log st ->
  (forall o, heap st' o = Unborn <-> (next st' <= o)%nat) /\
  (forall o, In o (log st') <-> heap st' o = Freed).
Proof.
  intros I Hh Hn Hl. rewrite Hh, Hn, Hl. split; intro x;
  (destruct (Nat.eq_dec x (next st)) as [->|Hx];
   [rewrite upd_same|rewrite upd_other by exact Hx]).
  - split; [discriminate|lia].
  - rewrite (i_next _ _ _ I). lia.
  - split; [|discriminate]. intro H. apply (i_log _ _ _ I) in H.
    assert (heap st (next st) = Unborn) as E by (apply (i_next _ _ _ I); lia). congruence.
  - apply (i_log _ _ _ I).
Qed.

Lemma nodes_del st st' x c : inv NT NS st -> heap st x = Alive c ->
  heap st' = upd (heap st) x Freed -> next st' = next st -> log st' = x :: log st ->
  (forall o, heap st' o = Unborn <-> (next st' <= o)%nat) /\
  (forall o, In o (log st') <-> heap st' o = Freed) /\ NoDup (log st').
Proof.
  intros I Hx Hh Hn Hl. rewrite Hh, Hn, Hl. split; [|split].
  - intro y. destruct (Nat.eq_dec y x) as [->|Hy]; [rewrite upd_same|rewrite upd_other by exact Hy].
    + split; [discriminate|]. intro H. apply (i_next _ _ _ I) in H. congruence.
    + apply (i_next _ _ _ I).
  - intro y. simpl. destruct (Nat.eq_dec y x) as [->|Hy]; [rewrite upd_same|rewrite upd_other by exact Hy].
    + tauto.
    + rewrite <- (i_log _ _ _ I y). split; [intros [H|H]; [congruence|exact H]|auto].
  - constructor; [|apply (i_nodup _ _ _ I)]. intro H. apply (i_log _ _ _ I) in H. congruence.
Qed.

Ltac finish I := first [exact (i_next _ _ _ I) | exact (i_nodup _ _ _ I) | exact (i_log _ _ _ I) | assumption].

(** inc_reference of a pointer that some held slot, or a fresh object, backs *)
Lemma backed_alive st t src x : inv NT NS st -> (t < NT)%nat ->
  (forall s, src = Some s -> slots st s = Ptr (Some x) /\ In s (reads (pcs st t)) /\ mark (pcs st t) <> Some s) ->
  (src = None -> token (pcs st t) x = 1) ->
  heap st x = Alive (refs NT NS st x) /\ toks NT st x = match src with None => 1 | Some _ => 0 end.
Proof.
  intros I Ht Hs Hn. destruct src as [s|].
  - destruct (Hs s eq_refl) as (H1 & H2 & H3).
    destruct (slot_alive st t s x I H1 (reads_mark st t s I H2) H3) as (_ & Ha & Hk). auto.
  - destruct (tok_one st t x I Ht (Hn eq_refl)) as (Ha & Hr & Hk). rewrite Hr, Ha. auto.
Qed.

Lemma step_PInc st t d src r : inv NT NS st -> (t < NT)%nat -> pcs st t = PInc d src r ->
  exists st', continue st t = Ok st' /\ inv NT NS st'.
Proof.
  intros I Ht E. pose proof (i_pc _ _ _ I t) as Hpc. rewrite E in Hpc.
  destruct Hpc as (Hd & Hsrc).
  unfold continue. rewrite E. unfold inc_reference.
  destruct r as [x|].
  - destruct (backed_alive st t src x I Ht) as (Ha & Hk).
    { intros s ->. split; [apply Hsrc; reflexivity|]. rewrite E. split; [simpl; auto|discriminate]. }
    { intros ->. rewrite E. apply pt_refl. }
    rewrite Ha. eexists. split; [reflexivity|].
    set (st' := set_pc _ _ _).
    destruct (nodes_alive_next st st' x _ _ I Ha eq_refl eq_refl eq_refl) as (Hn & Hl).
    apply inv_cont with (st := st) (t := t) (p := PDec d (Some x)); auto; try finish I.
    + rewrite E. simpl. auto.
    + simpl. tauto.
    + apply heap_inc with (st := st) (x := x); auto.
      * intro o. rewrite (refs_upd_pc st st' t (PDec d (Some x)) o Ht eq_refl eq_refl), E.
        unfold markc. cbn [hold mark]. lia.
      * rewrite (toks_upd st st' t (PDec d (Some x)) x Ht eq_refl), E, Hk.
        cbn [token]. destruct src; rewrite ?pt_refl; lia.
      * intros o Ho. rewrite (toks_upd st st' t (PDec d (Some x)) o Ht eq_refl), E.
        cbn [token]. destruct src; rewrite ?pt_neq by exact Ho; lia.
  - eexists. split; [reflexivity|].
    set (st' := set_pc _ _ _).
    apply inv_cont with (st := st) (t := t) (p := PDec d None); auto; try finish I.
    + rewrite E. simpl. auto.
    + simpl. tauto.
    + intro o. rewrite (toks_upd st st' t (PDec d None) o Ht eq_refl).
      rewrite (refs_upd_pc st st' t (PDec d None) o Ht eq_refl eq_refl). rewrite E.
      apply (heap_ok_same _ _ _ _ _ (i_heap _ _ _ I o)); unfold markc; simpl; destruct src; simpl; lia.
Qed.

Lemma step_PCtor st t d src r : inv NT NS st -> (t < NT)%nat -> pcs st t = PCtor d src r ->
  exists st', continue st t = Ok st' /\ inv NT NS st'.
Proof.
  intros I Ht E. pose proof (i_pc _ _ _ I t) as Hpc. rewrite E in Hpc.
  destruct Hpc as (Hd & Hsrc).
  unfold continue. rewrite E. unfold inc_reference.
  destruct r as [x|].
  - destruct (backed_alive st t src x I Ht) as (Ha & Hk).
    { intros s ->. destruct (Hsrc s eq_refl) as (H1 & H2). rewrite E.
      split; [exact H1|]. simpl. split; [auto|congruence]. }
    { intros ->. rewrite E. apply pt_refl. }
    rewrite Ha. eexists. split; [reflexivity|].
    set (st' := set_pc _ _ _).
    destruct (nodes_alive_next st st' x _ _ I Ha eq_refl eq_refl eq_refl) as (Hn & Hl).
    apply inv_cont with (st := st) (t := t) (p := Idle); auto; try finish I.
    + simpl. tauto.
    + simpl. tauto.
    + exact Logic.I.
    + apply heap_inc with (st := st) (x := x); auto.
      * intro o. rewrite (refs_upd_pc st st' t Idle o Ht eq_refl eq_refl), E.
        unfold markc. cbn [hold mark]. rewrite Hd. lia.
      * rewrite (toks_upd st st' t Idle x Ht eq_refl), E, Hk.
        cbn [token]. destruct src; rewrite ?pt_refl; lia.
      * intros o Ho. rewrite (toks_upd st st' t Idle o Ht eq_refl), E.
        cbn [token]. destruct src; rewrite ?pt_neq by exact Ho; lia.
  - eexists. split; [reflexivity|].
    set (st' := set_pc _ _ _).
    apply inv_cont with (st := st) (t := t) (p := Idle); auto; try finish I.
    + simpl. tauto.
    + simpl. tauto.
    + exact Logic.I.
    + intro o. rewrite (toks_upd st st' t Idle o Ht eq_refl).
      rewrite (refs_upd_pc st st' t Idle o Ht eq_refl eq_refl). rewrite E.
      apply (heap_ok_same _ _ _ _ _ (i_heap _ _ _ I o)); unfold markc; simpl; rewrite ?Hd; simpl; destruct src; simpl; lia.
Qed.

(** the decrement shared by assignment and destruction *)
Lemma step_dec st t d old (pk : pc) (pd : nat -> pc) : inv NT NS st -> (t < NT)%nat ->
  slots st d = Ptr old ->
  (forall t', t' <> t -> mark (pcs st t') <> Some d) -> mark (pcs st t) = None ->
  (forall o, token (pcs st t) o = 0) ->
  (forall o, hold pk o = hold (pcs st t) o) -> mark pk = Some d -> (forall o, token pk o = 0) ->
  (forall x o, hold (pd x) o = hold (pcs st t) o) -> (forall x, mark (pd x) = Some d) ->
  (forall x o, token (pd x) o = pt (Ptr (Some x)) o) ->
  exists st', match dec_reference st old with
              | None => UB
              | Some (st1, true) => match old with
                                    | Some o => Ok (set_pc st1 t (pd o))
                                    | None => UB end
              | Some (st1, false) => Ok (set_pc st1 t pk)
              end = Ok st' /\
    exists p, pcs st' = upd (pcs st) t p /\ slots st' = slots st /\
      (p = pk \/ exists x, p = pd x) /\
      (forall o, heap_ok (heap st' o) (refs NT NS st' o) (toks NT st' o)) /\
      (forall o, heap st' o = Unborn <-> (next st' <= o)%nat) /\
      NoDup (log st') /\
      (forall o, In o (log st') <-> heap st' o = Freed).
Proof.
  intros I Ht Hd Hm Hmt Htk Hk1 Hk2 Hk3 Hd1 Hd2 Hd3.
  unfold dec_reference. destruct old as [x|].
  - destruct (slot_alive st t d x I Hd Hm ltac:(rewrite Hmt; discriminate)) as (Hp & Ha & Hk).
    rewrite Ha. cbv zeta. destruct (w64 (refs NT NS st x - 1) =? 0) eqn:Ez.
    + eexists. split; [reflexivity|]. exists (pd x). set (st' := set_pc _ _ _).
      destruct (nodes_alive_next st st' x _ _ I Ha eq_refl eq_refl eq_refl) as (Hn & Hl).
      split; [reflexivity|]. split; [reflexivity|]. split; [right; eauto|].
      split; [|split; [exact Hn|split; [finish I|exact Hl]]].
      apply heap_dec with (st := st) (x := x); auto.
      * intro o. rewrite (refs_upd_pc st st' t (pd x) o Ht eq_refl eq_refl).
        unfold markc. rewrite Hmt, Hd2, Hd1, Hd. lia.
      * intro o. rewrite Ez, (toks_upd st st' t (pd x) o Ht eq_refl), Htk, Hd3. lia.
    + eexists. split; [reflexivity|]. exists pk. set (st' := set_pc _ _ _).
      destruct (nodes_alive_next st st' x _ _ I Ha eq_refl eq_refl eq_refl) as (Hn & Hl).
      split; [reflexivity|]. split; [reflexivity|]. split; [left; reflexivity|].
      split; [|split; [exact Hn|split; [finish I|exact Hl]]].
      apply heap_dec with (st := st) (x := x); auto.
      * intro o. rewrite (refs_upd_pc st st' t pk o Ht eq_refl eq_refl).
        unfold markc. rewrite Hmt, Hk2, Hk1, Hd. lia.
      * intro o. rewrite Ez, (toks_upd st st' t pk o Ht eq_refl), Htk, Hk3. lia.
  - eexists. split; [reflexivity|]. exists pk. set (st' := set_pc _ _ _).
    split; [reflexivity|]. split; [reflexivity|]. split; [left; reflexivity|].
    split; [|split; [finish I|split; finish I]].
    intro o. rewrite (refs_upd_pc st st' t pk o Ht eq_refl eq_refl), (toks_upd st st' t pk o Ht eq_refl).
    apply (heap_ok_same _ _ _ _ _ (i_heap _ _ _ I o)).
    + unfold markc. rewrite Hmt, Hk2, Hk1, Hd. simpl. lia.
    + rewrite Htk, Hk3. lia.
Qed.

Lemma step_PDec st t d r : inv NT NS st -> (t < NT)%nat -> pcs st t = PDec d r ->
  exists st', continue st t = Ok st' /\ inv NT NS st'.
Proof.
  intros I Ht E. pose proof (i_pc _ _ _ I t) as Hpc. rewrite E in Hpc. destruct Hpc as (old & Hd).
  unfold continue. rewrite E, Hd.
  destruct (step_dec st t d old (PStore d r) (PDel d r) I Ht Hd) as (st' & H & p & Hp & Hs & Hpp & H1 & H2 & H3 & H4);
    try (rewrite E; reflexivity); try reflexivity; try (intros; rewrite E; reflexivity).
  { intros t' Ht'. apply others_mark with (t := t); auto. rewrite E. simpl. auto. }
  exists st'. split; [exact H|].
  apply inv_cont with (st := st) (t := t) (p := p); auto.
  - rewrite E. destruct Hpp as [->|(x & ->)]; simpl; auto.
  - destruct Hpp as [->|(x & ->)]; simpl; tauto.
  - unfold pc_ok, constructed. rewrite Hs. destruct Hpp as [->|(x & ->)]; eauto.
Qed.

(** delete shared by assignment and destruction *)
Lemma step_delete st t x p : inv NT NS st -> (t < NT)%nat ->
  (forall o, token (pcs st t) o = pt (Ptr (Some x)) o) -> (forall o, token p o = 0) ->
  (forall o, hold p o = hold (pcs st t) o) -> mark p = mark (pcs st t) ->
  (forall s, In s (writes p) -> In s (writes (pcs st t))) -> reads p = [] ->
  (pc_ok st (pcs st t) -> pc_ok st p) ->
  exists st', match delete_object st x with
              | Some st1 => Ok (set_pc st1 t p)
              | None => UB end = Ok st' /\ inv NT NS st'.
Proof.
  intros I Ht Hk Hk' Hh Hm Hw Hr Hok.
  assert (H1 : token (pcs st t) x = 1) by (rewrite Hk; apply pt_refl).
  destruct (tok_one st t x I Ht H1) as (Ha & _ & _).
  unfold delete_object. rewrite Ha. simpl. eexists. split; [reflexivity|].
  set (st' := set_pc _ _ _).
  destruct (nodes_del st st' x 0 I Ha eq_refl eq_refl eq_refl) as (Hn & Hl & Hd).
  apply inv_cont with (st := st) (t := t) (p := p); auto.
  - rewrite Hr. simpl. tauto.
  - apply pc_ok_frame with (st := st); [apply Hok, (i_pc _ _ _ I)|reflexivity].
  - apply heap_del with (st := st) (t := t) (x := x); auto.
    + intro o. rewrite (refs_upd_pc st st' t p o Ht eq_refl eq_refl).
      unfold markc. rewrite Hh, Hm. lia.
    + intro o. rewrite (toks_upd st st' t p o Ht eq_refl), Hk, Hk'. lia.
Qed.

Lemma step_store st t d v : inv NT NS st -> (t < NT)%nat ->
  In d (writes (pcs st t)) -> mark (pcs st t) = Some d ->
  (forall o, hold (pcs st t) o = pt v o) -> (forall o, token (pcs st t) o = 0) ->
  inv NT NS (set_pc (set_slot st d v) t Idle).
Proof.
  intros I Ht Hd Hm Hh Hk. set (st' := set_pc _ _ _).
  apply inv_cont with (st := st) (t := t) (p := Idle); auto; try finish I.
  - simpl. tauto.
  - simpl. tauto.
  - right. exists d, v. auto.
  - exact Logic.I.
  - intro o.
    assert (Hlt : (d < NS)%nat) by (apply (i_rng _ _ _ I t d); auto).
    rewrite (refs_upd_both st st' t Idle d v o Ht Hlt eq_refl eq_refl (others_mark st t d I Hd)).
    rewrite (toks_upd st st' t Idle o Ht eq_refl).
    apply (heap_ok_same _ _ _ _ _ (i_heap _ _ _ I o)).
    + unfold markc. rewrite Hm, Hh. simpl. lia.
    + rewrite Hk. simpl. lia.
Qed.

Lemma continue_inv st t : inv NT NS st -> (t < NT)%nat ->
  exists st', continue st t = Ok st' /\ inv NT NS st'.
Proof.
  intros I Ht. destruct (pcs st t) as [|d src r|d r|d r x|d r|d src r|d x|d|a b x] eqn:E.
  - unfold continue. rewrite E. eauto.
  - eapply step_PInc; eauto.
  - eapply step_PDec; eauto.
  - unfold continue. rewrite E. apply step_delete; auto; rewrite ?E; auto.
  - unfold continue. rewrite E. eexists. split; [reflexivity|].
    apply step_store; auto; rewrite E; simpl; auto.
  - eapply step_PCtor; eauto.
  - unfold continue. rewrite E. apply step_delete; auto; rewrite ?E; auto.
  - unfold continue. rewrite E. eexists. split; [reflexivity|].
    apply step_store; auto; rewrite E; simpl; auto.
  - unfold continue. rewrite E. eexists. split; [reflexivity|].
    apply step_store; auto; rewrite E; simpl; auto.
Qed.

(** * Starting an operation *)
Definition free_of (st : state) (t : nat) (w r : list nat) : Prop :=
  forall t', t' <> t ->
    (forall s, In s w -> ~ In s (writes (pcs st t')) /\ ~ In s (reads (pcs st t'))) /\
    (forall s, In s r -> ~ In s (writes (pcs st t'))).

Lemma memb_in x l : memb x l = true <-> In x l.
Proof.
  unfold memb. rewrite existsb_exists. split.
  - intros (y & Hy & He). apply Nat.eqb_eq in He. subst. exact Hy.
  - intro H. exists x. split; [exact H|apply Nat.eqb_refl].
Qed.

Lemma not_racy st t o : inv NT NS st -> racy NT st t o = false -> free_of st t (op_writes o) (op_reads o).
Proof.
  intros I H t' Hn.
  assert (Hc : conflict (op_writes o) (op_reads o) (pcs st t') = false).
  { destruct (le_lt_dec NT t') as [Hge|Hlt].
    - rewrite (i_out _ _ _ I t' Hge). unfold conflict. simpl.
      apply orb_false_iff. split.
      + induction (op_writes o); simpl; auto.
      + induction (op_reads o); simpl; auto.
    - unfold racy in H. apply not_true_is_false. intro Hc.
      assert (existsb (fun t' => negb (Nat.eqb t' t) && conflict (op_writes o) (op_reads o) (pcs st t')) (seq 0 NT) = true).
      { apply existsb_exists. exists t'. split; [apply in_seq; lia|]. rewrite Hc.
        destruct (Nat.eqb_spec t' t); [congruence|reflexivity]. }
      congruence. }
  unfold conflict in Hc. apply orb_false_iff in Hc as (H1 & H2).
  assert (Hf : forall (f : nat -> bool) l, existsb f l = false -> forall s, In s l -> f s = false).
  { intros f l. induction l as [|a l IH]; simpl; intros He s Hs; [tauto|].
    apply orb_false_iff in He as (He1 & He2). destruct Hs as [->|Hs]; auto. }
  split; intros s Hs.
  - pose proof (Hf _ _ H1 s Hs) as Hx. apply orb_false_iff in Hx as (Hx1 & Hx2).
    split; intro Hi; apply memb_in in Hi; congruence.
  - pose proof (Hf _ _ H2 s Hs) as Hx. intro Hi; apply memb_in in Hi; congruence.
Qed.

Lemma inv_start st st' t p w r : inv NT NS st -> (t < NT)%nat ->
  free_of st t w r -> (forall s, In s (w ++ r) -> (s < NS)%nat) ->
  pcs st' = upd (pcs st) t p ->
  (forall s, In s (writes p) -> In s w) ->
  (forall s, In s (reads p) -> In s (w ++ r)) ->
  (slots st' = slots st \/ exists d v, In d w /\ slots st' = upd (slots st) d v) ->
  pc_ok st' p ->
  (forall o, heap_ok (heap st' o) (refs NT NS st' o) (toks NT st' o)) ->
  (forall o, heap st' o = Unborn <-> (next st' <= o)%nat) ->
  NoDup (log st') ->
  (forall o, In o (log st') <-> heap st' o = Freed) ->
  inv NT NS st'.
Proof.
  intros I Ht F Hb Hp Hw Hr Hs Hpc Hh Hn Hnd Hl.
  assert (Hb1 : forall s, In s w -> (s < NS)%nat) by (intros s H; apply Hb, in_or_app; auto).
  apply inv_frame with (st := st) (t := t) (p := p); auto.
  - intros s Hge. destruct Hs as [->|(d & v & Hd & ->)].
    + apply (i_raw _ _ _ I s Hge).
    + rewrite upd_other; [apply (i_raw _ _ _ I s Hge)|].
      intros ->. specialize (Hb1 d Hd). lia.
  - intros s [H|H]; auto.
  - intros t' s Ht'. destruct (F t' Ht') as (F1 & F2). split; intro H.
    + apply F1, Hw, H.
    + apply Hr, in_app_or in H as [H|H]; [apply F1, H|apply F2, H].
  - intros t' s Ht' H. destruct Hs as [->|(d & v & Hd & ->)]; [reflexivity|].
    apply upd_other. intros ->. destruct (F t' Ht') as (F1 & _).
    specialize (F1 d Hd). tauto.
Qed.

Lemma free_mark st t w r d : free_of st t w r -> In d w -> forall t', t' <> t -> mark (pcs st t') <> Some d.
Proof. intros F H t' Hn Hm. apply (proj1 (proj1 (F t' Hn) d H)), mark_writes, Hm. Qed.

Lemma free_mark_r st t w r d : free_of st t w r -> In d r -> forall t', t' <> t -> mark (pcs st t') <> Some d.
Proof. intros F H t' Hn Hm. apply (proj2 (F t' Hn) d H), mark_writes, Hm. Qed.

Definition safe (o : outcome) : Prop :=
  match o with Ok st' => inv NT NS st' | UB => False | _ => True end.

Lemma upd_idle st t : pcs st t = Idle -> forall u, upd (pcs st) t Idle u = pcs st u.
Proof. intros E u. unfold upd. destruct (Nat.eqb_spec u t) as [->|]; auto. Qed.

Lemma start_new st t d : inv NT NS st -> (t < NT)%nat -> pcs st t = Idle ->
  free_of st t [d] [] -> (d < NS)%nat -> constructed st d ->
  inv NT NS (set_pc (fst (new_object st)) t (PInc d None (Some (next st)))).
Proof.
  intros I Ht E F Hlt (r & Hd). set (st' := set_pc _ _ _).
  destruct (nodes_new st st' I eq_refl eq_refl eq_refl) as (Hn & Hl).
  apply inv_start with (st := st) (t := t) (p := PInc d None (Some (next st))) (w := [d]) (r := []); auto; try finish I.
  - simpl. intros s [<-|[]]. exact Hlt.
  - simpl. tauto.
  - simpl. unfold constructed. split; [exists r; exact Hd|discriminate].
  - apply heap_new with (st := st); auto.
    + intro o. rewrite (refs_upd_pc st st' t (PInc d None (Some (next st))) o Ht eq_refl eq_refl), E.
      unfold markc. cbn [hold mark]. lia.
    + intro o. rewrite (toks_upd st st' t (PInc d None (Some (next st))) o Ht eq_refl), E. cbn [token]. lia.
Qed.

Lemma start_safe st t o : inv NT NS st -> (t < NT)%nat -> pcs st t = Idle ->
  (forall s, In s (op_writes o ++ op_reads o) -> (s < NS)%nat) ->
  racy NT st t o = false -> safe (start st t o).
Proof.
  intros I Ht E Hb Hr. pose proof (not_racy st t o I Hr) as F.
  destruct o as [d|d|d s|d|d|d s|d|d|a b|d]; cbn [op_writes op_reads] in *; unfold start.
  - (* CtorNull *)
    destruct (slots st d) as [|r] eqn:Ed; [|exact Logic.I]. simpl.
    set (st' := set_slot st d (Ptr None)).
    assert (Hlt : (d < NS)%nat) by (apply Hb; simpl; auto).
    constructor; try exact (i_out _ _ _ I); try exact (i_rng _ _ _ I); try exact (i_excl _ _ _ I);
      try finish I.
    + intros s Hs. simpl. rewrite upd_other by lia. apply (i_raw _ _ _ I s Hs).
    + intro u. apply pc_ok_frame with (st := st); [apply (i_pc _ _ _ I)|].
      intros s Hs. simpl in Hs. simpl. apply upd_other. intros ->.
      destruct (Nat.eq_dec u t) as [->|Hu].
      * rewrite E in Hs. simpl in Hs. tauto.
      * destruct (F u Hu) as (F1 & _). specialize (F1 d (or_introl eq_refl)). tauto.
    + intro o.
      assert (Hsame : toks NT st' o = toks NT st o) by reflexivity.
      rewrite Hsame. apply (heap_ok_same _ _ _ _ _ (i_heap _ _ _ I o)); [|reflexivity].
      unfold refs. rewrite (sumf_change NS (fun s => pt (slots st s) o) (fun s => pt (slots st' s) o) d Hlt)
        by (intros j Hj; simpl; rewrite upd_other; auto).
      simpl (slots st'). rewrite upd_same, Ed. simpl.
      rewrite (sumf_ext NT _ (fun t0 => hold (pcs st t0) o - markc (slots st) (pcs st t0) o)); [lia|].
      intros u _. unfold markc. destruct (mark (pcs st u)) as [s|] eqn:Em; [|reflexivity].
      rewrite upd_other; [reflexivity|]. intros ->.
      destruct (Nat.eq_dec u t) as [->|Hu]; [rewrite E in Em; discriminate|].
      apply (free_mark st t [d] [] d F (or_introl eq_refl) u Hu Em).
  - (* CtorNew *)
    destruct (slots st d) as [|r] eqn:Ed; [|exact Logic.I]. simpl.
    set (st' := set_pc _ _ _).
    assert (Hlt : (d < NS)%nat) by (apply Hb; simpl; auto).
    destruct (nodes_new st st' I eq_refl eq_refl eq_refl) as (Hn & Hl).
    apply inv_start with (st := st) (t := t) (p := PCtor d None (Some (next st))) (w := [d]) (r := []); auto; try finish I.
    + simpl. tauto.
    + right. exists d, (Ptr (Some (next st))). simpl. auto.
    + simpl. rewrite upd_same. split; [reflexivity|discriminate].
    + apply heap_new with (st := st); auto.
      * intro o. rewrite (refs_upd_both st st' t (PCtor d None (Some (next st))) d (Ptr (Some (next st))) o Ht Hlt eq_refl eq_refl)
          by (eapply free_mark; [exact F|simpl; auto]).
        rewrite E, Ed. unfold markc. cbn [hold mark]. rewrite upd_same. cbn [pt]. lia.
      * intro o. rewrite (toks_upd st st' t (PCtor d None (Some (next st))) o Ht eq_refl), E. cbn [token]. lia.
  - (* CtorCopy *)
    destruct (slots st d) as [|r'] eqn:Ed; [|exact Logic.I].
    destruct (slots st s) as [|r] eqn:Es; [exact Logic.I|]. simpl.
    assert (Hsd : s <> d) by congruence.
    set (st' := set_pc _ _ _).
    assert (Hlt : (d < NS)%nat) by (apply Hb; simpl; auto).
    apply inv_start with (st := st) (t := t) (p := PCtor d (Some s) r) (w := [d]) (r := [s]); auto; try finish I.
    + simpl. tauto.
    + right. exists d, (Ptr r). simpl. auto.
    + simpl. rewrite upd_same. split; [reflexivity|]. intros s' H'. injection H' as <-.
      split; [rewrite upd_other; auto|exact Hsd].
    + intro o. rewrite (refs_upd_both st st' t (PCtor d (Some s) r) d (Ptr r) o Ht Hlt eq_refl eq_refl)
          by (eapply free_mark; [exact F|simpl; auto]).
      rewrite (toks_upd st st' t (PCtor d (Some s) r) o Ht eq_refl), E.
      apply (heap_ok_same _ _ _ _ _ (i_heap _ _ _ I o)).
      * rewrite Ed. unfold markc. cbn [hold mark]. rewrite upd_same. cbn [pt]. lia.
      * cbn [token]. lia.
  - (* AssignNull *)
    destruct (slots st d) as [|r] eqn:Ed; [exact Logic.I|]. simpl.
    set (st' := set_pc _ _ _).
    apply inv_start with (st := st) (t := t) (p := PInc d None None) (w := [d]) (r := []); auto; try finish I.
    + simpl. tauto.
    + simpl. split; [exists r; exact Ed|discriminate].
    + intro o. rewrite (refs_upd_pc st st' t (PInc d None None) o Ht eq_refl eq_refl).
      rewrite (toks_upd st st' t (PInc d None None) o Ht eq_refl), E.
      apply (heap_ok_same _ _ _ _ _ (i_heap _ _ _ I o)); unfold markc; simpl; lia.
  - (* AssignNew *)
    destruct (slots st d) as [|r] eqn:Ed; [exact Logic.I|].
    apply start_new; auto. apply Hb. simpl. auto. exists r; exact Ed.
  - (* Assign *)
    destruct (slots st d) as [|r'] eqn:Ed; [exact Logic.I|].
    destruct (slots st s) as [|r] eqn:Es; [exact Logic.I|]. simpl.
    set (st' := set_pc _ _ _).
    apply inv_start with (st := st) (t := t) (p := PInc d (Some s) r) (w := [d]) (r := [s]); auto; try finish I.
    + simpl. tauto.
    + simpl. split; [exists r'; exact Ed|]. intros s' H'. injection H' as <-. exact Es.
    + intro o. rewrite (refs_upd_pc st st' t (PInc d (Some s) r) o Ht eq_refl eq_refl).
      rewrite (toks_upd st st' t (PInc d (Some s) r) o Ht eq_refl), E.
      apply (heap_ok_same _ _ _ _ _ (i_heap _ _ _ I o)); unfold markc; simpl; lia.
  - (* Destroy *)
    destruct (slots st d) as [|r] eqn:Ed; [exact Logic.I|]. unfold dtor_dec.
    destruct (step_dec st t d r (PDEnd d) (PDDel d) I Ht Ed) as (st' & H & p & Hp & Hs & Hpp & H1 & H2 & H3 & H4);
      try (rewrite E; reflexivity); try reflexivity; try (intros; rewrite E; reflexivity).
    { eapply free_mark; [exact F|simpl; auto]. }
    assert (Hg : match dec_reference st r with
                 | Some (st'0, true) => match r with Some o => Ok (set_pc st'0 t (PDDel d o)) | None => UB end
                 | Some (st'0, false) => Ok (set_pc st'0 t (PDEnd d))
                 | None => UB end = Ok st') by exact H.
    rewrite Hg. simpl.
    apply inv_start with (st := st) (t := t) (p := p) (w := [d]) (r := []); auto.
    + destruct Hpp as [->|(x & ->)]; simpl; auto.
    + destruct Hpp as [->|(x & ->)]; simpl; tauto.
    + unfold pc_ok, constructed. rewrite Hs. destruct Hpp as [->|(x & ->)]; eauto.
  - (* Unify *)
    destruct (slots st d) as [|[x|]] eqn:Ed; [exact Logic.I| |exact I].
    destruct (slot_alive st t d x I Ed) as (_ & Ha & _).
    { eapply free_mark; [exact F|simpl; auto]. }
    { rewrite E. discriminate. }
    rewrite Ha. destruct (refs NT NS st x =? 1); [exact I|].
    apply start_new; auto. apply Hb. simpl. auto. exists (Some x); exact Ed.
  - (* Swap *)
    destruct (slots st a) as [|x] eqn:Ea; [exact Logic.I|].
    destruct (slots st b) as [|y] eqn:Eb; [exact Logic.I|]. simpl.
    set (st' := set_pc _ _ _).
    assert (Hlt : (a < NS)%nat) by (apply Hb; simpl; auto).
    apply inv_start with (st := st) (t := t) (p := PSwap a b x) (w := [a; b]) (r := []); auto; try finish I.
    + simpl. tauto.
    + right. exists a, (Ptr y). simpl. auto.
    + simpl. unfold constructed. simpl. split; [exists y; apply upd_same|].
      destruct (Nat.eq_dec b a) as [->|Hn]; [rewrite upd_same|rewrite upd_other by exact Hn]; eauto.
    + intro o. rewrite (refs_upd_both st st' t (PSwap a b x) a (Ptr y) o Ht Hlt eq_refl eq_refl)
          by (eapply free_mark; [exact F|simpl; auto]).
      rewrite (toks_upd st st' t (PSwap a b x) o Ht eq_refl), E.
      apply (heap_ok_same _ _ _ _ _ (i_heap _ _ _ I o)); [|cbn [token]; lia].
      rewrite Ea. unfold markc. cbn [hold mark].
      assert (upd (slots st) a (Ptr y) b = Ptr y) as ->; [|lia].
      destruct (Nat.eq_dec b a) as [->|Hn]; [apply upd_same|rewrite upd_other; auto].
  - (* Use *)
    destruct (slots st d) as [|[x|]] eqn:Ed; try exact Logic.I.
    destruct (slot_alive st t d x I Ed) as (_ & Ha & _).
    { eapply free_mark_r; [exact F|simpl; auto]. }
    { rewrite E. discriminate. }
    rewrite Ha. exact I.
Qed.

Lemma step_safe st t o : inv NT NS st -> safe (step NT NS st t o).
Proof.
  intro I. unfold step. destruct (Nat.ltb_spec t NT) as [Ht|]; [|exact Logic.I].
  assert (Hc : safe (continue st t)).
  { destruct (continue_inv st t I Ht) as (st' & -> & H). exact H. }
  destruct (pcs st t) eqn:E; try exact Hc.
  destruct (forallb _ _) eqn:Hb; [|exact Logic.I].
  destruct (racy NT st t o) eqn:Hr; [exact Logic.I|].
  apply start_safe; auto. intros s Hs. rewrite forallb_forall in Hb. apply Hb in Hs.
  apply Nat.ltb_lt in Hs. exact Hs.
Qed.

Lemma init_inv : inv NT NS init.
Proof.
  constructor; simpl; auto; try tauto.
  - intro o. unfold refs, toks. simpl.
    assert (H : forall n (f : nat -> Z), (forall i, f i = 0) -> sumf n f = 0).
    { induction n as [|n IH]; simpl; intros f Hf; [reflexivity|]. rewrite IH, Hf; auto. }
    rewrite !H by reflexivity. auto.
  - intro o. split; [lia|reflexivity].
  - constructor.
  - intro o. split; [tauto|discriminate].
Qed.

Lemma run_safe sched st : inv NT NS st -> safe (run NT NS st sched).
Proof.
  revert st. induction sched as [|[t o] r IH]; intros st I; simpl; [exact I|].
  pose proof (step_safe st t o I) as H. destruct (step NT NS st t o); simpl in H; auto.
Qed.

(** * Consequences *)
Lemma quiet_refs st o : quiet st -> refs NT NS st o = sumf NS (fun s => pt (slots st s) o) /\ toks NT st o = 0.
Proof.
  intro Q. unfold refs, toks. split.
  - rewrite (sumf_ext NT _ (fun _ => 0)).
    + assert (H : forall n, sumf n (fun _ => 0) = 0) by (induction n; simpl; lia). rewrite H. lia.
    + intros t _. rewrite (Q t). reflexivity.
  - rewrite (sumf_ext NT _ (fun _ => 0)).
    + induction NT; simpl; lia.
    + intros t _. rewrite (Q t). reflexivity.
Qed.

Lemma sumf_count st o : forall n, sumf n (fun s => pt (slots st s) o) = pointers_to n st o.
Proof.
  unfold pointers_to. induction n as [|n IH]; [reflexivity|].
  rewrite seq_S, filter_app, app_length. simpl sumf. rewrite IH, Nat2Z.inj_add. f_equal.
  simpl. unfold pt. destruct (slots st n) as [|[x|]]; try reflexivity. destruct (Nat.eqb x o); reflexivity.
Qed.

End Inv.

Lemma C45_safe NT NS sched : Z.of_nat NS + Z.of_nat NT + 1 < 2 ^ 64 ->
  run NT NS init sched <> UB.
Proof.
  intros Hs E. pose proof (run_safe NT NS Hs sched init (init_inv NT NS)) as H.
  rewrite E in H. exact H.
Qed.

Lemma C45_reach NT NS sched st : Z.of_nat NS + Z.of_nat NT + 1 < 2 ^ 64 ->
  run NT NS init sched = Ok st -> inv NT NS st.
Proof.
  intros Hs E. pose proof (run_safe NT NS Hs sched init (init_inv NT NS)) as H.
  rewrite E in H. exact H.
Qed.

Lemma C45_quiet_all NT NS sched st : Z.of_nat NS + Z.of_nat NT + 1 < 2 ^ 64 ->
  run NT NS init sched = Ok st -> quiet st -> forall o,
  (alive st o <-> exists s, points st s o) /\
  (alive st o -> heap st o = Alive (pointers_to NS st o)) /\
  (In o (log st) <-> created st o /\ forall s, ~ points st s o).
Proof.
  intros Hs E Q o. pose proof (C45_reach NT NS sched st Hs E) as I.
  destruct (quiet_refs NT NS Hs st o Q) as (HR & HK).
  pose proof (i_heap _ _ _ I o) as Hh. rewrite HK in Hh.
  assert (Hp : (exists s, points st s o) -> 0 < refs NT NS st o).
  { intros (s & H). apply (refs_slot NT NS st s o I H). intro t. rewrite (Q t). discriminate. }
  assert (Hp' : 0 < refs NT NS st o -> exists s, points st s o).
  { rewrite HR. intro H. apply sumf_pos_ex in H.
    - destruct H as (s & _ & H). exists s. unfold points, pt in *.
      destruct (slots st s) as [|[x|]]; try lia. destruct (Nat.eqb_spec x o); [congruence|lia].
    - intros; apply pt_range. }
  assert (Ha : alive st o <-> 0 < refs NT NS st o).
  { unfold alive. split.
    - intros (c & Hc). rewrite Hc in Hh. simpl in Hh.
      pose proof (refs_bound NT NS st o I). destruct (Z.eq_dec (refs NT NS st o) 0); lia.
    - intro H. destruct (heap st o) eqn:Eo; simpl in Hh; [lia|eauto|lia]. }
  split; [|split].
  - rewrite Ha. split; auto.
  - intros (c & Hc). rewrite Hc in *. simpl in Hh. destruct Hh as (-> & _).
    rewrite HR, sumf_count. reflexivity.
  - rewrite (i_log _ _ _ I). unfold created. split.
    + intro Hf. split.
      * destruct (le_lt_dec (next st) o) as [H|H]; [|exact H]. apply (i_next _ _ _ I) in H. congruence.
      * intros s H. rewrite Hf in Hh. simpl in Hh. pose proof (Hp (ex_intro _ s H)). lia.
    + intros (Hc & Hnp). destruct (heap st o) eqn:Eo; [|exfalso|reflexivity].
      * apply (i_next _ _ _ I) in Eo. lia.
      * destruct Hp' as (s & H); [|exact (Hnp s H)]. apply Ha. exists count. exact Eo.
Qed.

Lemma C45_running NT NS sched st : Z.of_nat NS + Z.of_nat NT + 1 < 2 ^ 64 ->
  run NT NS init sched = Ok st ->
  NoDup (log st) /\
  (forall s o, points st s o -> stable st s -> alive st o /\ ~ In o (log st)).
Proof.
  intros Hs E. pose proof (C45_reach NT NS sched st Hs E) as I.
  split; [apply (i_nodup _ _ _ I)|].
  intros s o Hp Hst.
  assert (H : 0 < refs NT NS st o).
  { apply (refs_slot NT NS st s o I Hp). intros t Hm. apply (Hst t), mark_writes, Hm. }
  destruct (alive_pos NT NS st o I H) as (Ha & _). split.
  - exists (refs NT NS st o). exact Ha.
  - intro Hl. apply (i_log _ _ _ I) in Hl. congruence.
Qed.

Lemma C45_noleak NT NS sched st o : Z.of_nat NS + Z.of_nat NT + 1 < 2 ^ 64 ->
  run NT NS init sched = Ok st -> alive st o ->
  (exists s, points st s o) \/ (exists t, in_hand (pcs st t) o).
Proof.
  intros Hs E (c & Hc). pose proof (C45_reach NT NS sched st Hs E) as I.
  assert (Hpt : forall r, 0 < pt (Ptr r) o -> r = Some o).
  { intros [x|]; simpl; [|lia]. destruct (Nat.eqb_spec x o); [congruence|lia]. }
  pose proof (i_heap _ _ _ I o) as Hh. rewrite Hc in Hh. destruct Hh as (_ & H0 & _).
  pose proof (refs_bound NT NS st o I) as Hb.
  destruct (Z.eq_dec (refs NT NS st o) 0) as [Hz|Hz].
  - right. specialize (H0 Hz).
    destruct (sumf_pos_ex NT (fun t => token (pcs st t) o)) as (t & _ & Hk).
    + intros; apply token_range.
    + change (0 < toks NT st o). lia.
    + exists t. destruct (pcs st t) as [|? [?|] ?|? ?|? ? ?|? ?|? [?|] ?|? ?|?|? ? ?];
        cbn [token] in Hk; try lia; apply Hpt in Hk; simpl; try (injection Hk as ->); auto.
  - rewrite refs_split in Hz, Hb.
    destruct (Z_lt_dec 0 (sumf NS (fun s => pt (slots st s) o))) as [H|H].
    + left. apply sumf_pos_ex in H; [|intros; apply pt_range].
      destruct H as (s & _ & H). exists s. unfold points, pt in *.
      destruct (slots st s) as [|[x|]]; try lia. destruct (Nat.eqb_spec x o); [congruence|lia].
    + right.
      pose proof (sumf_nonneg NT (fun t => match mark (pcs st t) with Some s => pt (slots st s) o | None => 0 end)
        ltac:(intros i _; cbv beta; destruct (mark (pcs st i)); [apply pt_range|lia])) as Hm.
      destruct (sumf_pos_ex NT (fun t => hold (pcs st t) o)) as (t & _ & Hk).
      * intros; apply hold_range.
      * lia.
      * exists t. destruct (pcs st t) as [|? [?|] ?|? ?|? ? ?|? ?|? [?|] ?|? ?|?|? ? ?];
          cbn [hold] in Hk; try lia; apply Hpt in Hk; simpl; auto.
Qed.

(** * Effect of whole operations on the variables *)
Definition final (p : pc) (sl : nat -> slotv) : nat -> slotv :=
  match p with
  | Idle | PCtor _ _ _ => sl
  | PInc d _ r | PDec d r | PDel d r _ | PStore d r => upd sl d (Ptr r)
  | PDDel d _ | PDEnd d => upd sl d Raw
  | PSwap _ b x => upd sl b (Ptr x)
  end.
Definition rank (p : pc) : nat :=
  match p with Idle => 0 | PStore _ _ | PCtor _ _ _ | PDEnd _ | PSwap _ _ _ => 1
  | PDel _ _ _ | PDDel _ _ => 2 | PDec _ _ => 3 | PInc _ _ _ => 4 end.

Lemma continue_final st t st' : continue st t = Ok st' -> pcs st t <> Idle ->
  final (pcs st' t) (slots st') = final (pcs st t) (slots st) /\
  (rank (pcs st' t) < rank (pcs st t))%nat /\ next st' = next st.
Proof.
  intros H Hn. unfold continue in H.
  destruct (pcs st t) as [|d src r|d r|d r x|d r|d src r|d x|d|a b x] eqn:E; [congruence| | | | | | | |].
  - destruct (inc_reference st r) as [st1|] eqn:Ei; [|discriminate]. injection H as <-.
    apply inc_ok in Ei as (H1 & H2 & H3 & _). simpl. rewrite !upd_same, H1, H3. simpl. auto with arith.
  - destruct (slots st d) as [|old]; [discriminate|].
    destruct (dec_reference st old) as [[st1 [|]]|] eqn:Ei; [| |discriminate].
    + destruct old as [o|]; [|discriminate]. injection H as <-.
      apply dec_ok in Ei as (H1 & H2 & H3 & _). simpl. rewrite !upd_same, H1, H3. simpl. auto with arith.
    + injection H as <-.
      apply dec_ok in Ei as (H1 & H2 & H3 & _). simpl. rewrite !upd_same, H1, H3. simpl. auto with arith.
  - unfold delete_object in H. destruct (heap st x) as [|c|]; try discriminate.
    destruct (c =? 0); [|discriminate]. injection H as <-. simpl. rewrite !upd_same. simpl. auto.
  - injection H as <-. simpl. rewrite !upd_same. simpl. auto.
  - destruct (inc_reference st r) as [st1|] eqn:Ei; [|discriminate]. injection H as <-.
    apply inc_ok in Ei as (H1 & H2 & H3 & _). simpl. rewrite !upd_same, H1, H3. simpl. auto.
  - unfold delete_object in H. destruct (heap st x) as [|c|]; try discriminate.
    destruct (c =? 0); [|discriminate]. injection H as <-. simpl. rewrite !upd_same. simpl. auto.
  - injection H as <-. simpl. rewrite !upd_same. simpl. auto.
  - injection H as <-. simpl. rewrite !upd_same. simpl. auto.
Qed.

Lemma finish_final NT NS t : Z.of_nat NS + Z.of_nat NT + 1 < 2 ^ 64 -> (t < NT)%nat ->
  forall n st, inv NT NS st -> (rank (pcs st t) <= n)%nat ->
  exists st', finish n st t = Ok st' /\ pcs st' t = Idle /\
    slots st' = final (pcs st t) (slots st) /\ next st' = next st /\
    (pcs st t = Idle -> st' = st).
Proof.
  intros Hs Ht n. induction n as [|n IH]; intros st I Hr; simpl.
  - assert (pcs st t = Idle) as E by (destruct (pcs st t); simpl in Hr; try lia; reflexivity).
    exists st. rewrite E. simpl. auto 10.
  - destruct (continue_inv NT NS Hs st t I Ht) as (st1 & E1 & I1). rewrite E1.
    assert (Hd : pcs st t = Idle \/ pcs st t <> Idle) by (destruct (pcs st t); auto; right; discriminate).
    destruct Hd as [E|E].
    + unfold continue in E1. rewrite E in E1. injection E1 as <-.
      destruct (IH st I) as (st' & F & H1 & H2 & H3 & H4); [rewrite E; simpl; lia|].
      exists st'. split; [exact F|]. split; [exact H1|]. split; [exact H2|]. split; [exact H3|]. auto.
    + destruct (continue_final st t st1 E1 E) as (F1 & F2 & F3).
      destruct (IH st1 I1) as (st' & F & H1 & H2 & H3 & _); [lia|].
      exists st'. split; [exact F|]. split; [exact H1|]. split; [congruence|]. split; [congruence|].
      intro; congruence.
Qed.

Lemma only_upd d v st st' : slots st' = upd (slots st) d v -> only d v st st'.
Proof. intro H. split; rewrite H; [apply upd_same|intros; apply upd_other; assumption]. Qed.

Lemma C45_effects NT NS sched st t a st1 : Z.of_nat NS + Z.of_nat NT + 1 < 2 ^ 64 ->
  run NT NS init sched = Ok st -> pcs st t = Idle -> step NT NS st t a = Ok st1 ->
  exists st2, finish 4 st1 t = Ok st2 /\ pcs st2 t = Idle /\ effect a st st2.
Proof.
  intros Hs E Hi H. pose proof (C45_reach NT NS sched st Hs E) as I.
  pose proof (step_safe NT NS Hs st t a I) as I1. rewrite H in I1. simpl in I1.
  assert (Ht : (t < NT)%nat).
  { unfold step in H. destruct (Nat.ltb_spec t NT); [assumption|discriminate]. }
  destruct (finish_final NT NS t Hs Ht 4 st1 I1) as (st2 & F & F1 & F2 & F3 & F4).
  { destruct (pcs st1 t); simpl; lia. }
  exists st2. split; [exact F|]. split; [exact F1|].
  unfold step in H. apply Nat.ltb_lt in Ht. rewrite Ht, Hi in H.
  destruct (forallb _ _); [|discriminate]. destruct (racy NT st t a); [discriminate|].
  unfold start in H.
  destruct a as [d|d|d s|d|d|d s|d|d|a b|d]; simpl.
  - destruct (slots st d); [|discriminate]. injection H as <-. simpl in F4. rewrite (F4 Hi). apply only_upd. reflexivity.
  - destruct (slots st d); [|discriminate]. simpl in H. injection H as <-. simpl in F2, F3. rewrite upd_same in F2. simpl in F2.
    exists (next st). unfold created. rewrite F3. repeat split; try lia; apply (only_upd _ _ _ _ F2).
  - destruct (slots st d); [|discriminate]. destruct (slots st s) as [|r] eqn:Es; [discriminate|]. injection H as <-.
    simpl in F2. rewrite upd_same in F2. simpl in F2. apply only_upd, F2.
  - destruct (slots st d); [discriminate|]. injection H as <-. simpl in F2. rewrite upd_same in F2. simpl in F2. apply only_upd, F2.
  - destruct (slots st d); [discriminate|]. simpl in H. injection H as <-. simpl in F2, F3. rewrite upd_same in F2. simpl in F2.
    exists (next st). unfold created. rewrite F3. repeat split; try lia; apply (only_upd _ _ _ _ F2).
  - destruct (slots st d); [discriminate|]. destruct (slots st s) as [|r] eqn:Es; [discriminate|]. injection H as <-.
    simpl in F2. rewrite upd_same in F2. simpl in F2. apply only_upd, F2.
  - destruct (slots st d) as [|r]; [discriminate|]. unfold dtor_dec in H.
    destruct (dec_reference st r) as [[s1 [|]]|] eqn:Ei; [| |discriminate].
    + destruct r as [o|]; [|discriminate]. injection H as <-.
      apply dec_ok in Ei as (H1 & _). simpl in F2. rewrite upd_same, H1 in F2. simpl in F2. apply only_upd, F2.
    + injection H as <-.
      apply dec_ok in Ei as (H1 & _). simpl in F2. rewrite upd_same, H1 in F2. simpl in F2. apply only_upd, F2.
  - destruct (slots st d) as [|[o|]]; [discriminate| |].
    + unfold unshared. destruct (heap st o) as [|c|] eqn:Eh; try discriminate.
      destruct (Z.eqb_spec c 1) as [->|Hc].
      * injection H as <-. split; [intros _; apply F4, Hi|]. intro Hn. destruct (Hn eq_refl).
      * simpl in H. injection H as <-. simpl in F2, F3. rewrite upd_same in F2. simpl in F2.
        split; [intro Hn; congruence|]. intros _.
        exists (next st). unfold created. rewrite F3. repeat split; try lia; apply (only_upd _ _ _ _ F2).
    + injection H as <-. apply F4, Hi.
  - destruct (slots st a) as [|x] eqn:Ea; [discriminate|]. destruct (slots st b) as [|y] eqn:Eb; [discriminate|].
    injection H as <-. simpl in F2. rewrite upd_same in F2. simpl in F2. rewrite F2.
    split; [|split].
    + destruct (Nat.eq_dec a b) as [->|Hn]; [rewrite upd_same; congruence|].
      rewrite upd_other by exact Hn. rewrite upd_same. reflexivity.
    + rewrite upd_same. reflexivity.
    + intros s H1 H2. rewrite !upd_other by assumption. reflexivity.
  - destruct (slots st d) as [|[o|]]; [discriminate| |discriminate].
    destruct (heap st o); try discriminate. injection H as <-. apply F4, Hi.
Qed.
