(** * Invariant of the block cache, and the operations that keep it *)
From Coq Require Import Arith Bool List Lia Permutation.
From Verif Require Import BlockCacheModel BlockCacheDev BlockCacheSpec.
Import ListNotations.

Section Inv.
Context {V : Type}.
Variable csize wsize nsub : nat.
Variable iter : list (nat * nat) -> list (nat * nat).
Hypothesis iter_perm : forall l, Permutation (iter l) l.

Notation dev := (dev V).
Notation sst := (sst V).
Notation okq := (@okq V nsub).
Notation evolve := (@evolve V nsub).

Definition covers (v : valid) (k : nat) : Prop :=
  match v with VAll => True | VSub s => k = s end.

(** the write buffer *)
Record winv (w : wbuf) (d : dev) : Prop := {
  w_perm : Permutation (w_free w ++ w_busy w) (seq 0 wsize);
  w_inj : forall i j, i < wsize -> j < wsize -> w_blocks w i = w_blocks w j -> i = j;
  w_q : forall id buf b, In (id, QWrite buf b) (queue d) ->
        exists j, In j (w_busy w) /\ w_blocks w j = buf /\ w_reqs w j = Some id
}.

(** [hole]: a slot that is being filled *)
Record Inv (hole : option nat) (c : cache) (d : dev) (s : sst)
  (g : nat -> option (nat * nat)) : Prop := {
  i_okq : okq d;
  i_keys : NoDup (map fst (bmap c));
  i_slots : Permutation (free c ++ map snd (bmap c)) (seq 0 csize);
  i_pager : Permutation (pager c) (seq 0 csize);
  i_bids : forall b i, In (b, i) (bmap c) -> bids c i = b;
  i_pins : forall b i, In (b, i) (bmap c) -> retain c i = pins s b;
  i_pins0 : forall b, ~ In b (map fst (bmap c)) -> pins s b = 0;
  i_held : forall b, held s b = true -> In b (map fst (bmap c));
  i_buf : forall i j, i < csize -> j < csize -> blocks c i = blocks c j -> i = j;
  i_sep : forall i j, i < csize -> j < wsize -> blocks c i <> w_blocks (wb c) j;
  i_w : winv (wb c) d;
  i_qr : forall id buf b, In (id, QRead buf b) (queue d) ->
         exists i, In (b, i) (bmap c) /\ blocks c i = buf /\ reqs c i = Some id /\
                   validity c i = VAll /\ dirty c i = false;
  i_qs : forall id buf b k, In (id, QSub buf b k) (queue d) ->
         exists i, hole = Some i /\ In (b, i) (bmap c) /\ blocks c i = buf /\
                   dirty c i = false;
  i_qe : forall id b blk, ~ In (id, QExt b blk) (queue d);
  i_dirty : forall b i, In (b, i) (bmap c) -> dirty c i = true ->
      validity c i = VAll /\ drt s b = true /\ bad s b = false /\
      forall blk, lg s b = Some blk -> heap d (blocks c i) = blk;
  i_clean : forall b blk, lg s b = Some blk ->
      (forall i, In (b, i) (bmap c) -> dirty c i = false) -> dv d b = blk;
  i_cont : forall b i blk k, In (b, i) (bmap c) -> hole <> Some i ->
      bad s b = false -> lg s b = Some blk -> covers (validity c i) k ->
      nth_error (heap d (blocks c i)) k = nth_error blk k \/
      exists id, reqs c i = Some id /\ In (id, QRead (blocks c i) b) (queue d);
  i_regs : forall r b k, sregs s r = Some (b, k) ->
      held s b = true /\ k < nsub /\ exists i, In (b, i) (bmap c) /\
      g r = Some (blocks c i, k) /\
      forall blk, lg s b = Some blk ->
                  nth_error (heap d (blocks c i)) k = nth_error blk k;
  i_wr : forall b, wr s b = true ->
      held s b = true /\ exists i, In (b, i) (bmap c) /\ dirty c i = true;
  i_len : forall b blk, lg s b = Some blk -> length blk = nsub;
  i_cold : cold s = true -> bmap c = [];
  i_rq : forall i id, reqs c i = Some id ->
      id < nextq d /\ forall r, In (id, r) (queue d) -> exists buf b, r = QRead buf b
}.

(** ** Lookup in the map *)

Lemma bfind_in b m i : bfind b m = Some i -> In (b, i) m.
Proof.
  unfold bfind. induction m as [|[x j] m IH]; cbn; [discriminate|].
  destruct (Nat.eqb_spec x b).
  - cbn. intros [= ->]. subst. auto.
  - intros H. right. auto.
Qed.

Lemma bfind_none b m : bfind b m = None -> ~ In b (map fst m).
Proof.
  unfold bfind. induction m as [|[x j] m IH]; cbn; [auto|].
  destruct (Nat.eqb_spec x b); [discriminate|].
  intros H [E|I]; auto. exact (IH H I).
Qed.

Lemma in_key {A} b (i : A) (m : list (nat * A)) : In (b, i) m -> In b (map fst m).
Proof. intros H. apply (in_map fst) in H. auto. Qed.

Lemma key_in {A} b (m : list (nat * A)) : In b (map fst m) -> exists i, In (b, i) m.
Proof.
  intros H. apply in_map_iff in H. destruct H as ([x i] & E & I). cbn in E. subst. eauto.
Qed.

Lemma keys_inj {A} b (i j : A) (m : list (nat * A)) :
  NoDup (map fst m) -> In (b, i) m -> In (b, j) m -> i = j.
Proof.
  intros ND I J. induction m as [|[x k] m IH]; [easy|].
  cbn in ND. inversion ND; subst. destruct I as [I|I], J as [J|J].
  - congruence.
  - inversion I; subst. exfalso. apply H1. eapply in_key; eauto.
  - inversion J; subst. exfalso. apply H1. eapply in_key; eauto.
  - auto.
Qed.

Lemma bfind_some b m i : NoDup (map fst m) -> In (b, i) m -> bfind b m = Some i.
Proof.
  intros ND I. destruct (bfind b m) as [j|] eqn:E.
  - apply bfind_in in E. f_equal. eapply keys_inj; eauto.
  - exfalso. apply (bfind_none _ _ E). eapply in_key; eauto.
Qed.

Section Facts.
Variables (hole : option nat) (c : cache) (d : dev) (s : sst)
  (g : nat -> option (nat * nat)).
Hypothesis I : Inv hole c d s g.

Lemma slot_lt b i : In (b, i) (bmap c) -> i < csize.
Proof.
  intros H. assert (X : In i (seq 0 csize)).
  { apply (Permutation_in i (i_slots _ _ _ _ _ I)). apply in_or_app. right.
    apply (in_map snd) in H. auto. }
  apply in_seq in X. lia.
Qed.

Lemma free_lt i : In i (free c) -> i < csize.
Proof.
  intros H. assert (X : In i (seq 0 csize)).
  { apply (Permutation_in i (i_slots _ _ _ _ _ I)). apply in_or_app. auto. }
  apply in_seq in X. lia.
Qed.

Lemma slots_nodup : NoDup (free c ++ map snd (bmap c)).
Proof.
  eapply Permutation_NoDup; [symmetry; apply (i_slots _ _ _ _ _ I)|apply seq_NoDup].
Qed.

Lemma slot_inj b b' i : In (b, i) (bmap c) -> In (b', i) (bmap c) -> b = b'.
Proof.
  intros H H'. rewrite <- (i_bids _ _ _ _ _ I _ _ H). apply (i_bids _ _ _ _ _ I); auto.
Qed.

Lemma buf_block b b' i i' :
  In (b, i) (bmap c) -> In (b', i') (bmap c) -> blocks c i = blocks c i' ->
  i = i' /\ b = b'.
Proof.
  intros H H' E.
  assert (i = i').
  { apply (i_buf _ _ _ _ _ I); auto; eapply slot_lt; eauto. }
  subst. split; auto. eapply slot_inj; eauto.
Qed.

Lemma wplace_lt j : In j (w_busy (wb c)) \/ In j (w_free (wb c)) -> j < wsize.
Proof.
  intros H. assert (X : In j (seq 0 wsize)).
  { apply (Permutation_in j (w_perm _ _ (i_w _ _ _ _ _ I))). apply in_or_app. tauto. }
  apply in_seq in X. lia.
Qed.

(** a pending read fills the buffer of its block *)
Lemma read_slot id r buf b k :
  In (id, r) (queue d) -> reads r buf b k ->
  exists i, In (b, i) (bmap c) /\ blocks c i = buf /\ dirty c i = false.
Proof.
  intros H [->| ->].
  - apply (i_qr _ _ _ _ _ I) in H. destruct H as (i & ? & ? & ? & ? & ?). eauto.
  - apply (i_qs _ _ _ _ _ I) in H. destruct H as (i & ? & ? & ? & ?). eauto.
Qed.

End Facts.

(** ** The device keeps the invariant *)

Lemma winv_sub w d d' :
  winv w d -> (forall x, In x (queue d') -> In x (queue d)) -> winv w d'.
Proof.
  intros [a b q] H. split; auto. intros. eapply q; eauto.
Qed.

Lemma Inv_evolve hole c d d' s g :
  Inv hole c d s g -> evolve d d' -> Inv hole c d' s g.
Proof.
  intros I E. pose proof I as I0.
  destruct I as [k1 k2 k3 k4 k5 k6 k7 k8 k9 k10 k11 k12 k13 k14 k15 k16 k17 k18 k19 k20 k21 k22].
  pose proof (e_in _ _ _ E) as EI.
  assert (HB : forall b i k, In (b, i) (bmap c) ->
    nth_error (heap d' (blocks c i)) k = nth_error (heap d (blocks c i)) k \/
    (dirty c i = false /\ nth_error (heap d' (blocks c i)) k = nth_error (dv d b) k)).
  { intros b i k H. destruct (e_heap _ _ _ E (blocks c i) k) as [X|(id & r & b' & X1 & X2 & X3)]; auto.
    right. destruct (read_slot _ _ _ _ _ I0 _ _ _ _ _ X1 X2) as (i' & Y1 & Y2 & Y3).
    destruct (buf_block _ _ _ _ _ I0 _ _ _ _ Y1 H Y2) as [-> ->]. auto. }
  split; try assumption.
  - apply E.
  - eapply winv_sub; eauto.
  - intros id buf b H. apply k12; auto.
  - intros id buf b k H. apply (k13 id buf b k); auto.
  - intros id b blk H. apply (k14 id b blk); auto.
  - intros b i H D. destruct (k15 _ _ H D) as (a1 & a2 & a3 & a4).
    split; [auto|]. split; [auto|]. split; [auto|]. intros blk L.
    rewrite <- (a4 blk L). apply nth_ext_e. intros k.
    destruct (HB b i k H) as [X|(X & _)]; [auto|congruence].
  - intros b blk L D. rewrite (e_dv _ _ _ E). auto.
  - intros b i blk k H HH B L C. specialize (HB b i k H).
    destruct (k17 b i blk k H HH B L C) as [X|(id & X1 & X2)].
    + left. destruct HB as [Y|(Y1 & Y2)]; [congruence|].
      rewrite Y2. rewrite (k16 b blk L); auto.
      intros i' H'. now rewrite (keys_inj _ _ _ _ k2 H' H).
    + destruct (in_dec Nat.eq_dec id (map fst (queue d'))) as [J|J].
      * right. exists id. split; auto. apply key_in in J. destruct J as (r & J).
        assert (lookup id (queue d) = Some r) by (apply lookup_in; auto; apply k1).
        assert (lookup id (queue d) = Some (QRead (blocks c i) b)) by (apply lookup_in; auto; apply k1).
        congruence.
      * left. rewrite (e_served _ _ _ E id (QRead (blocks c i) b) (blocks c i) b k); auto.
        { rewrite (k16 b blk L); auto. intros i' H'. rewrite (keys_inj _ _ _ _ k2 H' H).
          destruct (k12 _ _ _ X2) as (i2 & Z1 & Z2 & Z3 & Z4 & Z5).
          now rewrite (keys_inj _ _ _ _ k2 H Z1). }
        { intros Z. apply J. eapply in_key; eauto. }
        { left; auto. }
  - intros r b k H. destruct (k18 r b k H) as (a1 & a2 & i & a3 & a4 & a5).
    split; auto. split; auto. exists i. split; auto. split; auto.
    intros blk L. destruct (HB b i k a3) as [Y|(Y1 & Y2)].
    + rewrite Y. auto.
    + rewrite Y2, (k16 b blk L); auto.
      intros i' H'. now rewrite (keys_inj _ _ _ _ k2 H' a3).
  - intros i id H. destruct (k22 i id H) as [X1 X2].
    rewrite (e_next _ _ _ E). split; auto.
Qed.

(** ** Weakening the specification *)

Lemma Inv_weaken hole c d s s' g :
  Inv hole c d s g ->
  lg s' = lg s -> pins s' = pins s -> drt s' = drt s -> bad s' = bad s ->
  (forall b, held s' b = true -> held s b = true) ->
  (forall r x, sregs s' r = Some x -> sregs s r = Some x /\ held s' (fst x) = true) ->
  (forall b, wr s' b = true -> wr s b = true /\ held s' b = true) ->
  (cold s' = true -> cold s = true) ->
  Inv hole c d s' g.
Proof.
  intros [k1 k2 k3 k4 k5 k6 k7 k8 k9 k10 k11 k12 k13 k14 k15 k16 k17 k18 k19 k20 k21 k22]
    E1 E2 E3 E4 H1 H2 H3 H4.
  split; auto; rewrite ?E1, ?E2, ?E3, ?E4; auto.
  - intros r b k H. apply H2 in H. destruct H as [H X]. apply k18 in H. cbn in X. tauto.
  - intros b H. apply H3 in H. destruct H as [H X]. apply k19 in H. tauto.
Qed.

(** ** Writing through the write buffer *)

Lemma wb_write_spec buf b w d :
  0 < wsize -> okq d -> winv w d ->
  exists i0 w1 d1,
    evolve d d1 /\ winv w1 d1 /\ w_free w1 = i0 :: tl (w_free w1) /\
    w_blocks w1 = w_blocks w /\
    wb_write true buf b w d =
      Some (w_blocks w i0,
            mkWb (upd (w_blocks w) i0 buf) (upd (w_reqs w1) i0 (Some (nextq d1)))
                 (tl (w_free w1)) (w_busy w1 ++ [i0]),
            snd (submit (QWrite buf b) d1)).
Proof.
  intros W OK WI. unfold wb_write. destruct (w_free w) as [|i fr] eqn:F.
  - destruct (w_busy w) as [|i busy] eqn:B.
    { pose proof (w_perm _ _ WI) as P. rewrite F, B in P. apply Permutation_length in P.
      rewrite seq_length in P. cbn in P. lia. }
    destruct (wait_opt_evolve nsub (w_reqs w i) d OK) as [E N].
    set (d1 := wait_opt true (w_reqs w i) d) in *.
    exists i, (mkWb (w_blocks w) (w_reqs w) [i] busy), d1.
    split; auto. split; [|cbn; auto].
    destruct WI as [P J Q]. split; cbn [w_free w_busy w_blocks w_reqs]; auto.
    + rewrite F, B in P. auto.
    + intros id buf' b' H.
      destruct (Q id buf' b') as (j & Q1 & Q2 & Q3).
      { apply (e_in _ _ _ E); auto. }
      exists j. split; auto. rewrite B in Q1. destruct Q1 as [<-|Q1]; auto.
      exfalso. apply (N id Q3). eapply in_key; eauto.
  - exists i, w, d. split. { now apply evolve_refl. }
    split; auto. rewrite F. cbn. auto.
Qed.

Lemma winv_write i0 w d buf b :
  winv w d -> w_free w = i0 :: tl (w_free w) ->
  (forall j, j < wsize -> w_blocks w j <> buf) ->
  winv (mkWb (upd (w_blocks w) i0 buf) (upd (w_reqs w) i0 (Some (nextq d)))
             (tl (w_free w)) (w_busy w ++ [i0]))
       (snd (submit (QWrite buf b) d)).
Proof.
  intros [P J Q] F NB.
  assert (L : forall j, In j (w_free w ++ w_busy w) -> j < wsize).
  { intros j H. apply (Permutation_in j P) in H. apply in_seq in H. lia. }
  assert (ND : NoDup (w_free w ++ w_busy w)).
  { eapply Permutation_NoDup; [symmetry; exact P|apply seq_NoDup]. }
  rewrite F in ND. cbn in ND. inversion ND as [|? ? N1 N2]; subst.
  split; cbn [w_free w_busy w_blocks w_reqs].
  - rewrite <- P. rewrite F at 2. cbn. rewrite app_assoc. symmetry.
    apply Permutation_cons_append.
  - intros i j Hi Hj E. unfold upd in E.
    destruct (Nat.eqb_spec i i0), (Nat.eqb_spec j i0); subst; auto.
    + exfalso. apply (NB j); auto.
    + exfalso. apply (NB i); auto.
  - intros id buf' b' H. cbn [submit snd queue] in H. apply in_app_or in H.
    destruct H as [H|[H|[]]].
    + destruct (Q _ _ _ H) as (j & Q1 & Q2 & Q3). exists j.
      split. { apply in_or_app; auto. }
      assert (j <> i0). { intros ->. apply N1. apply in_or_app; auto. }
      rewrite !upd_neq by auto. auto.
    + inversion H; subst. exists i0. split. { apply in_or_app. right; left; auto. }
      now rewrite !upd_eq.
Qed.

(** ** Choosing a victim *)

Lemma hit_perm i p n : In i p -> Permutation p (seq 0 n) -> Permutation (hit i p) (seq 0 n).
Proof.
  intros H P. rewrite <- P. unfold hit.
  assert (ND : NoDup p).
  { eapply Permutation_NoDup; [symmetry; exact P|apply seq_NoDup]. }
  clear P. induction p as [|x p IH]; [easy|].
  inversion ND; subst. cbn. destruct (Nat.eqb_spec x i).
  - subst. cbn. constructor.
    assert (X : filter (fun j => negb (Nat.eqb j i)) p = p); [|now rewrite X].
    { clear - H2. induction p as [|y p IH]; auto. cbn.
      destruct (Nat.eqb_spec y i); [subst; exfalso; apply H2; left; auto|].
      cbn. f_equal. apply IH. intros X. apply H2. right; auto. }
  - cbn. destruct H as [->|H]; [contradiction|].
    rewrite perm_swap. constructor. auto.
Qed.

Lemma victim_gen ret n p q :
  NoDup (p ++ q) -> length p = n -> (forall i, In i q -> 0 < ret i) -> p ++ q <> [] ->
  exists r p', victim n ret (q ++ p) = Some (r, p') /\
    Permutation p' (q ++ p) /\
    match r with
    | Some i => In i p /\ ret i = 0
    | None => forall i, In i (q ++ p) -> 0 < ret i
    end.
Proof.
  revert p q. induction n as [|n IH]; intros p q ND L Q NE.
  - destruct p; [|discriminate]. cbn in NE. rewrite app_nil_r.
    cbn [victim]. destruct (rev q) as [|i t] eqn:R.
    { exfalso. apply NE. rewrite <- (rev_involutive q), R. auto. }
    exists None, q. split; auto.
  - destruct (rev p) as [|i t] eqn:R.
    { assert (p = []) by (rewrite <- (rev_involutive p), R; auto). subst. discriminate. }
    assert (EP : p = rev t ++ [i]).
    { rewrite <- (rev_involutive p), R. reflexivity. }
    cbn [victim]. rewrite EP. rewrite app_assoc, rev_unit.
    assert (HH : hit i ((q ++ rev t) ++ [i]) = (i :: q) ++ rev t).
    { unfold hit. cbn. f_equal. rewrite filter_app. cbn. rewrite Nat.eqb_refl. cbn.
      rewrite app_nil_r.
      assert (NI : ~ In i (q ++ rev t)).
      { assert (P : Permutation (p ++ q) (i :: (q ++ rev t))).
        { rewrite EP. rewrite <- app_assoc. rewrite Permutation_app_comm. cbn.
          constructor. reflexivity. }
        apply (Permutation_NoDup P) in ND. inversion ND; auto. }
      clear - NI. induction (q ++ rev t) as [|y l IHl]; auto. cbn.
      destruct (Nat.eqb_spec y i); [subst; exfalso; apply NI; left; auto|].
      cbn. f_equal. apply IHl. intros X. apply NI. right; auto. }
    rewrite HH. destruct (Nat.ltb_spec 0 (ret i)).
    + destruct (IH (rev t) (i :: q)) as (r & p' & V1 & V2 & V3).
      { eapply Permutation_NoDup; [|exact ND]. rewrite EP, <- app_assoc. reflexivity. }
      { rewrite EP, app_length in L. cbn in L. lia. }
      { intros j [<-|J]; auto. }
      { destruct (rev t); discriminate. }
      exists r, p'. rewrite V1. split; auto. split.
      { rewrite V2. cbn. apply Permutation_cons_append. }
      destruct r as [j|].
      { destruct V3. split; auto. apply in_or_app; auto. }
      { intros j J. apply V3. rewrite <- app_assoc in J. cbn.
        apply in_app_or in J. destruct J as [J|J]; [right; apply in_or_app; auto|].
        apply in_app_or in J. destruct J as [J|[<-|[]]]; auto.
        right. apply in_or_app; auto. }
    + exists (Some i), ((i :: q) ++ rev t). split; auto. split.
      { cbn. apply Permutation_cons_append. }
      split; [apply in_or_app; right; left; auto|lia].
Qed.

Lemma victim_spec ret p :
  0 < csize -> Permutation p (seq 0 csize) ->
  exists r p', victim csize ret p = Some (r, p') /\ Permutation p' (seq 0 csize) /\
    match r with
    | Some i => i < csize /\ ret i = 0
    | None => forall i, i < csize -> 0 < ret i
    end.
Proof.
  intros C P. destruct (victim_gen ret csize p []) as (r & p' & V1 & V2 & V3).
  - rewrite app_nil_r. eapply Permutation_NoDup; [symmetry; exact P|apply seq_NoDup].
  - apply Permutation_length in P. now rewrite seq_length in P.
  - easy.
  - rewrite app_nil_r. intros ->. apply Permutation_length in P. rewrite seq_length in P.
    cbn in P. lia.
  - cbn in V1, V2. exists r, p'. split; auto. split; [now rewrite V2|].
    destruct r as [i|].
    + destruct V3 as [V3 V4]. split; auto. apply (Permutation_in i P) in V3.
      apply in_seq in V3. lia.
    + intros i H. apply V3. cbn. apply (Permutation_in i (Permutation_sym P)).
      apply in_seq. lia.
Qed.

(** changes of the pager and the statistics *)
Lemma Inv_pager hole c d s g p :
  Inv hole c d s g -> Permutation p (seq 0 csize) -> Inv hole (set_pager c p) d s g.
Proof.
  intros [k1 k2 k3 k4 k5 k6 k7 k8 k9 k10 k11 k12 k13 k14 k15 k16 k17 k18 k19 k20 k21 k22] P.
  split; auto.
Qed.

Lemma Inv_st hole c d s g t : Inv hole c d s g -> Inv hole (set_st c t) d s g.
Proof.
  intros [k1 k2 k3 k4 k5 k6 k7 k8 k9 k10 k11 k12 k13 k14 k15 k16 k17 k18 k19 k20 k21 k22].
  split; auto.
Qed.

Lemma berase_in b m x : In x (berase b m) <-> In x m /\ fst x <> b.
Proof.
  unfold berase. rewrite filter_In. destruct (Nat.eqb_spec (fst x) b); cbn; intuition congruence.
Qed.

Lemma berase_perm b i m :
  NoDup (map fst m) -> In (b, i) m -> Permutation (map snd m) (i :: map snd (berase b m)).
Proof.
  intros ND H. induction m as [|[x j] m IH]; [easy|].
  cbn in ND. inversion ND; subst. cbn. destruct (Nat.eqb_spec x b).
  - cbn. subst. destruct H as [H|H].
    + inversion H; subst. constructor.
      assert (X : berase b m = m); [|unfold berase in X; now rewrite X].
      clear - H2. unfold berase. induction m as [|[y k] m IH]; auto. cbn.
      destruct (Nat.eqb_spec y b); [subst; exfalso; apply H2; left; auto|].
      cbn. f_equal. apply IH. intros X. apply H2. right; auto.
    + exfalso. apply H2. eapply in_key; eauto.
  - cbn. destruct H as [H|H]; [congruence|].
    rewrite perm_swap. constructor. auto.
Qed.

Lemma berase_keys b m : NoDup (map fst m) -> NoDup (map fst (berase b m)).
Proof.
  intros ND. induction m as [|[x j] m IH]; auto.
  cbn in ND. inversion ND; subst. cbn. destruct (Nat.eqb_spec x b); cbn; auto.
  constructor; auto. intros X. apply H1. apply key_in in X. destruct X as (i & X).
  apply berase_in in X. destruct X. eapply in_key; eauto.
Qed.

(** taking a block that is not retained, nor held by the client, out of the
    cache *)
Lemma Inv_drop c d s s' g b i dirty' :
  Inv None c d s g -> In (b, i) (bmap c) -> dirty c i = false ->
  pins s b = 0 -> held s b = false ->
  (forall id buf, ~ In (id, QRead buf b) (queue d)) ->
  (forall j, j <> i -> dirty' j = dirty c j) ->
  lg s' = lg s -> pins s' = pins s -> held s' = held s -> sregs s' = sregs s ->
  wr s' = wr s -> drt s' = drt s -> (forall x, x <> b -> bad s' x = bad s x) ->
  cold s' = cold s ->
  Inv None (mkCache (wb c) (blocks c) (bids c) (retain c) dirty' (validity c)
              (i :: free c) (reqs c) (berase b (bmap c)) (pager c) (st c)) d s' g.
Proof.
  intros I H D P HD NR DD E1 E2 E3 E4 E5 E6 E7 E8.
  destruct I as [k1 k2 k3 k4 k5 k6 k7 k8 k9 k10 k11 k12 k13 k14 k15 k16 k17 k18 k19 k20 k21 k22].
  assert (SUB : forall x, In x (berase b (bmap c)) -> In x (bmap c)).
  { intros x X. apply berase_in in X. tauto. }
  assert (OTH : forall x j, In (x, j) (berase b (bmap c)) ->
                  In (x, j) (bmap c) /\ x <> b /\ dirty' j = dirty c j).
  { intros x j X. apply berase_in in X. destruct X as [X N]. cbn in N.
    split; auto. split; auto. apply DD. intros ->. apply N.
    rewrite <- (k5 _ _ X). now rewrite <- (k5 _ _ H). }
  split; cbn [wb blocks bids retain dirty validity free reqs bmap pager st];
    rewrite ?E1, ?E2, ?E3, ?E4, ?E5, ?E6, ?E8; auto.
  - now apply berase_keys.
  - rewrite <- k3. cbn.
    rewrite (berase_perm b i (bmap c)) by auto. apply Permutation_middle.
  - intros x N. destruct (Nat.eq_dec x b) as [->|NE]; auto.
    apply k7. intros X. apply N. apply key_in in X. destruct X as (j & X).
    apply (in_key x j). apply berase_in. auto.
  - intros x X. destruct (Nat.eq_dec x b) as [->|NE]; [congruence|].
    apply k8 in X. apply key_in in X. destruct X as (j & X).
    apply (in_key x j). apply berase_in. auto.
  - intros id buf x X. destruct (k12 _ _ _ X) as (j & Y1 & Y2 & Y3 & Y4 & Y5).
    assert (Z : In (x, j) (berase b (bmap c))).
    { apply berase_in. split; auto. cbn. intros ->. eapply NR; eauto. }
    exists j. destruct (OTH _ _ Z) as (_ & _ & ->). auto.
  - intros id buf x k X. destruct (k13 _ _ _ _ X) as (j & Y1 & Y2). discriminate.
  - intros x j X DX. destruct (OTH _ _ X) as (Y1 & Y2 & Y3). rewrite Y3 in DX.
    rewrite E7 by auto. apply k15; auto.
  - intros x blk L X. apply k16; auto. intros j J.
    destruct (Nat.eq_dec x b) as [->|NE].
    + now rewrite (keys_inj _ _ _ _ k2 J H).
    + assert (Z : In (x, j) (berase b (bmap c))) by (apply berase_in; auto).
      destruct (OTH _ _ Z) as (_ & _ & <-). auto.
  - intros x j blk k X. destruct (OTH _ _ X) as (Y1 & Y2 & Y3). rewrite E7 by auto.
    apply k17. auto.
  - intros r x k X. destruct (k18 _ _ _ X) as (a1 & a2 & j & a3 & a4).
    split; auto. split; auto. exists j. split; auto. apply berase_in. split; auto. cbn. congruence.
  - intros x X. destruct (k19 _ X) as (a1 & j & a2 & a3).
    assert (Z : In (x, j) (berase b (bmap c))).
    { apply berase_in. split; auto. cbn. congruence. }
    split; auto. exists j. destruct (OTH _ _ Z) as (_ & _ & ->). auto.
  - intros X. apply k21 in X. rewrite X. auto.
Qed.

(** writing a dirty block back; its slot gets another buffer and keeps its place
    in the map; what it holds is not to be used any more *)
Definition mark (s : sst) (b : nat) : sst :=
  mkS (lg s) (pins s) (held s) (sregs s) (wr s) (drt s) (set (bad s) b true)
      (cold s) (dead s).

Lemma Inv_write c d s g b i w1 d1 i0 :
  Inv None c d s g -> In (b, i) (bmap c) -> dirty c i = true ->
  (forall r k, sregs s r <> Some (b, k)) -> wr s b = false ->
  evolve d d1 -> winv w1 d1 -> w_free w1 = i0 :: tl (w_free w1) ->
  w_blocks w1 = w_blocks (wb c) ->
  Inv None
    (set_dirty
       (set_wb c (mkWb (upd (w_blocks (wb c)) i0 (blocks c i))
                       (upd (w_reqs w1) i0 (Some (nextq d1)))
                       (tl (w_free w1)) (w_busy w1 ++ [i0]))
               (upd (blocks c) i (w_blocks (wb c) i0)))
       (upd (dirty c) i false))
    (snd (submit (QWrite (blocks c i) b) d1)) (mark s b) g.
Proof.
  intros I H D NS NW E W1 F EB.
  assert (I1 := Inv_evolve _ _ _ _ _ _ I E).
  assert (Li := slot_lt _ _ _ _ _ I _ _ H).
  assert (L0 : i0 < wsize).
  { assert (X : In i0 (seq 0 wsize)).
    { apply (Permutation_in i0 (w_perm _ _ W1)). rewrite F. left; auto. }
    apply in_seq in X. lia. }
  assert (NR : forall id r buf k, In (id, r) (queue d1) -> ~ reads r buf b k).
  { intros id r buf k X R. destruct (read_slot _ _ _ _ _ I1 _ _ _ _ _ X R) as (j & Y1 & Y2 & Y3).
    rewrite (keys_inj _ _ _ _ (i_keys _ _ _ _ _ I) Y1 H) in Y3. congruence. }
  assert (NR2 : forall id r b' k, In (id, r) (queue d1) -> ~ reads r (blocks c i) b' k).
  { intros id r b' k X R. destruct (read_slot _ _ _ _ _ I1 _ _ _ _ _ X R) as (j & Y1 & Y2 & Y3).
    destruct (buf_block _ _ _ _ _ I _ _ _ _ Y1 H Y2) as [-> ->]. congruence. }
  destruct (submit_write nsub d1 (QWrite (blocks c i) b) b (heap d1 (blocks c i)))
    as [OK2 DV2].
  { apply E. }
  { left. exists (blocks c i). auto. }
  { auto. }
  assert (WV : winv (mkWb (upd (w_blocks w1) i0 (blocks c i))
                          (upd (w_reqs w1) i0 (Some (nextq d1)))
                          (tl (w_free w1)) (w_busy w1 ++ [i0]))
                    (snd (submit (QWrite (blocks c i) b) d1))).
  { apply winv_write; auto. intros j Hj. rewrite EB. intros X.
    symmetry in X. revert X. apply (i_sep _ _ _ _ _ I); auto. }
  rewrite EB in WV.
  destruct I1 as [k1 k2 k3 k4 k5 k6 k7 k8 k9 k10 k11 k12 k13 k14 k15 k16 k17 k18 k19 k20 k21 k22].
  set (d2 := snd (submit (QWrite (blocks c i) b) d1)) in *.
  assert (Q2 : queue d2 = queue d1 ++ [(nextq d1, QWrite (blocks c i) b)]) by reflexivity.
  assert (H2 : heap d2 = heap d1) by reflexivity.
  assert (N2 : nextq d2 = S (nextq d1)) by reflexivity.
  clearbody d2.
  assert (OTH : forall x j, In (x, j) (bmap c) -> x <> b -> j <> i).
  { intros x j X N ->. apply N. rewrite <- (k5 _ _ X). rewrite <- (k5 _ _ H). auto. }
  split; cbn [set_dirty set_wb mark wb blocks bids retain dirty validity free reqs bmap pager st
              lg pins held sregs wr drt bad cold dead]; auto.
  - intros x y Hx Hy. unfold upd.
    destruct (Nat.eqb_spec x i), (Nat.eqb_spec y i); subst; auto.
    + intros X. exfalso. symmetry in X. revert X. apply k10; auto.
    + intros X. exfalso. revert X. apply k10; auto.
  - intros x y Hx Hy. cbn [w_blocks]. unfold upd.
    destruct (Nat.eqb_spec x i), (Nat.eqb_spec y i0); subst; auto.
    + intros X. symmetry in X. revert X. apply k10; auto.
    + intros X. apply (w_inj _ _ k11) in X; auto.
  - intros id buf x X. rewrite Q2 in X. apply in_app_or in X.
    destruct X as [X|[X|[]]]; [|inversion X].
    destruct (k12 _ _ _ X) as (j & a1 & a2 & a3 & a4 & a5).
    assert (x <> b). { intros ->. apply (NR id _ buf 0 X). left; reflexivity. }
    exists j. rewrite !upd_neq by eauto. auto 6.
  - intros id buf x k X. rewrite Q2 in X. apply in_app_or in X.
    destruct X as [X|[X|[]]]; [|inversion X].
    destruct (k13 _ _ _ _ X) as (j & a1 & a2). discriminate.
  - intros id x blk X. rewrite Q2 in X. apply in_app_or in X.
    destruct X as [X|[X|[]]]; [|inversion X]. eapply k14; eauto.
  - intros x j X DD. destruct (Nat.eq_dec x b) as [->|N].
    { rewrite (keys_inj _ _ _ _ k2 X H), upd_eq in DD. discriminate. }
    rewrite upd_neq in DD by eauto. destruct (k15 _ _ X DD) as (a1 & a2 & a3 & a4).
    split; auto. split; auto. unfold set. split.
    { destruct (Nat.eqb_spec x b); congruence. }
    rewrite H2. rewrite upd_neq by eauto. auto.
  - intros x blk L X. rewrite DV2. destruct (Nat.eq_dec x b) as [->|N].
    + rewrite upd_eq. destruct (k15 _ _ H D) as (a1 & a2 & a3 & a4). auto.
    + rewrite upd_neq by auto. apply k16; auto. intros j J.
      specialize (X j J). rewrite upd_neq in X by eauto. auto.
  - intros x j blk k X HH B L C. unfold set in B.
    destruct (Nat.eqb_spec x b); [discriminate|].
    rewrite H2. rewrite upd_neq by eauto.
    destruct (k17 x j blk k X HH B L C) as [Y|(id & Y1 & Y2)]; auto.
    right. exists id. split; auto. rewrite Q2. apply in_or_app. auto.
  - intros r x k X. destruct (k18 _ _ _ X) as (a1 & a2 & j & a3 & a4 & a5).
    assert (x <> b). { intros ->. eapply NS; eauto. }
    split; auto. split; auto. exists j. rewrite H2, upd_neq by eauto. auto.
  - intros x X. destruct (k19 _ X) as (a1 & j & a2 & a3).
    assert (x <> b) by congruence.
    split; auto. exists j. rewrite upd_neq by eauto. auto.
  - intros j id X. destruct (k22 j id X) as [Y1 Y2]. rewrite N2. split; [lia|].
    intros r Y. rewrite Q2 in Y. apply in_app_or in Y. destruct Y as [Y|[Y|[]]]; auto.
    inversion Y. lia.
Qed.

End Inv.
