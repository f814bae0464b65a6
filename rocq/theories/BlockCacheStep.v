(** * Every operation of the block cache keeps the invariant *)
From Coq Require Import Arith Bool List Lia Permutation.
From Verif Require Import BlockCacheModel BlockCacheDev BlockCacheSpec BlockCacheMach
  BlockCacheInv.
Import ListNotations.

Section Step.
Context {V : Type}.
Variable csize wsize nsub : nat.
Variable iter : list (nat * nat) -> list (nat * nat).
Hypothesis iter_perm : forall l, Permutation (iter l) l.
Hypothesis cpos : 0 < csize.
Hypothesis wpos : 0 < wsize.

Notation dev := (dev V).
Notation sst := (sst V).
Notation okq := (@okq V nsub).
Notation evolve := (@evolve V nsub).
Notation Inv := (@Inv V csize wsize nsub).
Notation winv := (@winv V wsize).

Ltac inv I := destruct I as
  [k1 k2 k3 k4 k5 k6 k7 k8 k9 k10 k11 k12 k13 k14 k15 k16 k17 k18 k19 k20 k21 k22].

Definition no_sub (d : dev) : Prop :=
  forall id buf b k, ~ In (id, QSub buf b k) (queue d).
Definition no_read (b : nat) (d : dev) : Prop :=
  forall id buf, ~ In (id, QRead buf b) (queue d).

Lemma Inv_no_sub c d s g : Inv None c d s g -> no_sub d.
Proof.
  intros I id buf b k H. destruct (i_qs _ _ _ _ _ _ _ _ I _ _ _ _ H) as (i & X & _).
  discriminate.
Qed.

Lemma Inv_hole h c d s g : Inv None c d s g -> Inv h c d s g.
Proof.
  intros I. pose proof (Inv_no_sub _ _ _ _ I) as NS. inv I. split; auto.
  - intros id buf b k H. exfalso. eapply NS; eauto.
  - intros b i blk k H HH. apply k17; auto. discriminate.
Qed.

(** waiting for the request of a slot *)
Lemma wait_slot h c d s g b i :
  Inv h c d s g -> In (b, i) (bmap c) -> validity c i = VAll ->
  let d' := wait_opt true (reqs c i) d in
  Inv h c d' s g /\ evolve d d' /\ no_read b d'.
Proof.
  intros I H Vi d'.
  destruct (wait_opt_evolve nsub (reqs c i) d (i_okq _ _ _ _ _ _ _ _ I)) as [E N].
  fold d' in E, N.
  assert (I' : Inv h c d' s g) by (eapply Inv_evolve; eauto).
  split; auto. split; auto. intros id buf X.
  destruct (i_qr _ _ _ _ _ _ _ _ I' _ _ _ X) as (j & a1 & a2 & a3 & a4 & a5).
  rewrite (keys_inj _ _ _ _ (i_keys _ _ _ _ _ _ _ _ I) a1 H) in a3.
  apply (N id a3). eapply in_key; eauto.
Qed.

Lemma no_read_part h c d s g b i k :
  Inv h c d s g -> In (b, i) (bmap c) -> validity c i = VSub k -> no_read b d.
Proof.
  intros I H Vi id buf X.
  destruct (i_qr _ _ _ _ _ _ _ _ I _ _ _ X) as (j & a1 & a2 & a3 & a4 & a5).
  rewrite (keys_inj _ _ _ _ (i_keys _ _ _ _ _ _ _ _ I) a1 H) in a4. congruence.
Qed.

Lemma no_read_absent h c d s g b :
  Inv h c d s g -> ~ In b (map fst (bmap c)) -> no_read b d.
Proof.
  intros I H id buf X.
  destruct (i_qr _ _ _ _ _ _ _ _ I _ _ _ X) as (j & a1 & a2). apply H. eapply in_key; eauto.
Qed.

(** ** kick_block *)

Lemma kick_spec c d s g :
  Inv None c d s g -> free c = [] ->
  (forall x, held s x = true -> 0 < pins s x) ->
  exists o c' d', kick_block true csize c d = (o, c', d') /\ Inv None c' d' s g /\
    match o with
    | Done _ => (exists i, free c' = [i]) /\ (forall x, In x (bmap c') -> In x (bmap c))
    | Thrown => bmap c' = bmap c /\ free c' = free c /\ d' = d /\
                forall i, i < csize -> 0 < retain c i
    | Undefined => False
    end.
Proof.
  intros I F HP. unfold kick_block.
  destruct (victim_spec csize (retain c) (pager c) cpos (i_pager _ _ _ _ _ _ _ _ I))
    as (r & p & EV & PP & VS).
  rewrite EV. destruct r as [i|].
  2:{ exists Thrown, (set_pager c p), d. split; auto. split; [now apply Inv_pager|]. auto. }
  destruct VS as [Li Ri].
  assert (S0 : exists b, In (b, i) (bmap c)).
  { assert (X : In i (free c ++ map snd (bmap c))).
    { apply (Permutation_in i (Permutation_sym (i_slots _ _ _ _ _ _ _ _ I))). apply in_seq. lia. }
    rewrite F in X. cbn in X. apply in_map_iff in X. destruct X as ([b j] & E & X).
    cbn in E. subst. eauto. }
  destruct S0 as (b & H).
  assert (P0 : pins s b = 0) by (rewrite <- (i_pins _ _ _ _ _ _ _ _ I _ _ H); auto).
  assert (H0 : held s b = false).
  { destruct (held s b) eqn:E; auto. apply HP in E. lia. }
  assert (I1 : Inv None (set_pager c p) d s g) by now apply Inv_pager.
  set (c1 := set_pager c p) in *.
  cbv zeta.
  set (d1 := match validity c1 i with
             | VAll => wait_opt true (reqs c1 i) d
             | VSub _ => d
             end).
  assert (X1 : Inv None c1 d1 s g /\ no_read b d1).
  { unfold d1. destruct (validity c1 i) eqn:Ev.
    - destruct (wait_slot _ _ _ _ _ b i I1 H Ev) as (a1 & a2 & a3). auto.
    - split; auto. eapply no_read_part; eauto. }
  destruct X1 as [I2 NR]. clearbody d1.
  assert (Eb : bids c1 i = b) by (apply (i_bids _ _ _ _ _ _ _ _ I2); auto).
  assert (NS : forall r k, sregs s r <> Some (b, k)).
  { intros r k X. apply (i_regs _ _ _ _ _ _ _ _ I) in X. destruct X as (X & _). congruence. }
  assert (NW : wr s b = false).
  { destruct (wr s b) eqn:E; auto. apply (i_wr _ _ _ _ _ _ _ _ I) in E. destruct E. congruence. }
  destruct (dirty c1 i) eqn:Ed.
  - destruct (wb_write_spec wsize nsub (blocks c1 i) b (wb c1) d1 wpos)
      as (i0 & w1 & d2 & E2 & W1 & F1 & B1 & EW).
    { apply I2. } { apply I2. }
    rewrite Eb, EW.
    pose proof (Inv_write _ _ _ _ _ _ _ b i w1 d2 i0 I2 H Ed NS NW E2 W1 F1 B1) as I3.
    eexists _, _, _. split; [reflexivity|].
    cbn [set_st set_wb wb blocks bids retain dirty validity free reqs bmap pager st].
    rewrite Eb. split.
    + apply (Inv_st _ _ _ _ _ _ _ _ (st_written (st c1))) in I3.
      refine (Inv_drop _ _ _ _ _ _ s _ b i (dirty c1) I3 H _ P0 H0 _ _
                eq_refl eq_refl eq_refl eq_refl eq_refl eq_refl _ eq_refl).
      * cbn. apply upd_eq.
      * intros id buf X. cbn in X. apply in_app_or in X. destruct X as [X|[X|[]]].
        -- apply (NR id buf). apply (e_in _ _ _ E2). auto.
        -- inversion X.
      * intros j N. cbn. now rewrite upd_neq.
      * intros x N. cbn. unfold set. apply Nat.eqb_neq in N. now rewrite N.
    + split. { change (free c1) with (free c). rewrite F. eauto. }
      intros x X. apply berase_in in X. tauto.
  - eexists _, _, _. split; [reflexivity|].
    cbn [set_st wb blocks bids retain dirty validity free reqs bmap pager st].
    rewrite Eb. split.
    + apply (Inv_st _ _ _ _ _ _ _ _ (st_clean (st c1))) in I2.
      exact (Inv_drop _ _ _ _ _ _ s _ b i (dirty c1) I2 H Ed P0 H0 NR (fun _ _ => eq_refl)
               eq_refl eq_refl eq_refl eq_refl eq_refl eq_refl (fun _ _ => eq_refl) eq_refl).
    + split. { change (free c1) with (free c). rewrite F. eauto. }
      intros x X. apply berase_in in X. tauto.
Qed.

(** ** Filling a slot *)

(** a new block in a free slot, not yet loaded *)
Lemma Inv_place c d s g b i fr :
  Inv None c d s g -> free c = i :: fr -> ~ In b (map fst (bmap c)) ->
  Inv (Some i)
    (mkCache (wb c) (blocks c) (upd (bids c) i b) (upd (retain c) i 0)
             (upd (dirty c) i false) (validity c) fr (reqs c)
             ((b, i) :: bmap c) (pager c) (st c)) d
    (mkS (lg s) (pins s) (set (held s) b true) (sregs s) (wr s) (drt s) (bad s)
         false (dead s)) g.
Proof.
  intros I F N.
  assert (OTH : forall x j, In (x, j) (bmap c) -> j <> i /\ x <> b).
  { intros x j X. split.
    - intros ->. pose proof (slots_nodup _ _ _ _ _ _ _ _ I) as ND. rewrite F in ND.
      cbn in ND. inversion ND; subst. apply H1. apply in_or_app. right.
      apply (in_map snd) in X. auto.
    - intros ->. apply N. eapply in_key; eauto. }
  pose proof (Inv_no_sub _ _ _ _ I) as NSB. inv I.
  split; cbn [wb blocks bids retain dirty validity free reqs bmap pager st
              lg pins held sregs wr drt bad cold dead]; auto.
  - cbn. constructor; auto.
  - rewrite <- k3, F. cbn. symmetry. apply Permutation_middle.
  - intros x j [X|X].
    + inversion X; subst. now rewrite upd_eq.
    + rewrite upd_neq by (eapply OTH; eauto). auto.
  - intros x j [X|X].
    + inversion X; subst. rewrite upd_eq. symmetry. auto.
    + rewrite upd_neq by (eapply OTH; eauto). auto.
  - intros x X. apply k7. intros Y. apply X. right. auto.
  - intros x X. unfold set in X. destruct (Nat.eqb_spec x b).
    + left. auto.
    + right. auto.
  - intros id buf x X. destruct (k12 _ _ _ X) as (j & a1 & a2).
    exists j. rewrite upd_neq by (eapply OTH; eauto). split; [right; auto|]. auto.
  - intros id buf x k X. exfalso. eapply NSB; eauto.
  - intros x j [X|X] D.
    + inversion X; subst. rewrite upd_eq in D. discriminate.
    + rewrite upd_neq in D by (eapply OTH; eauto). auto.
  - intros x blk L D. apply k16; auto. intros j X.
    specialize (D j (or_intror X)). now rewrite upd_neq in D by (eapply OTH; eauto).
  - intros x j blk k [X|X] HH.
    + inversion X; subst. contradiction.
    + apply k17; auto. discriminate.
  - intros r x k X. destruct (k18 _ _ _ X) as (a1 & a2 & j & a3 & a4).
    split. { unfold set. destruct (Nat.eqb x b); auto. }
    split; auto. exists j. split; [right; auto|]. auto.
  - intros x X. destruct (k19 _ X) as (a1 & j & a2 & a3).
    split. { unfold set. destruct (Nat.eqb x b); auto. }
    exists j. split; [right; auto|]. rewrite upd_neq by (eapply OTH; eauto). auto.
  - discriminate.
Qed.

Lemma load_sub_spec c d s g b i k r :
  Inv (Some i) c d s g -> In (b, i) (bmap c) -> dirty c i = false ->
  no_sub d -> no_read b d -> k < nsub -> held s b = true ->
  exists c' d', load_sub true b k i c d = ((blocks c i, k), c', d') /\
    bmap c' = bmap c /\
    Inv None c' d' (with_sregs s (set (sregs s) r (Some (b, k))))
        (upd g r (Some (blocks c i, k))).
Proof.
  intros I H D NS NR Lk HB. unfold load_sub.
  assert (Li := slot_lt _ _ _ _ _ _ _ _ I _ _ H).
  destruct (submit_read nsub d (QSub (blocks c i) b k) (blocks c i) b) as [OK1 DV1].
  { apply I. }
  { right. eauto. }
  { intros id b' X. apply (w_q _ _ _ (i_w _ _ _ _ _ _ _ _ I)) in X.
    destruct X as (j & X1 & X2 & X3). symmetry in X2. revert X2.
    apply (i_sep _ _ _ _ _ _ _ _ I); auto.
    eapply wplace_lt; eauto. }
  { intros id r' b' k' X R.
    destruct (read_slot _ _ _ _ _ _ _ _ I _ _ _ _ _ X R) as (j & Y1 & Y2 & Y3).
    destruct (buf_block _ _ _ _ _ _ _ _ I _ _ _ _ Y1 H Y2); auto. }
  set (d1 := snd (submit (QSub (blocks c i) b k) d)) in *.
  change (submit (QSub (blocks c i) b k) d) with (nextq d, d1). cbv iota beta.
  assert (Q1 : queue d1 = queue d ++ [(nextq d, QSub (blocks c i) b k)]) by reflexivity.
  assert (HH1 : heap d1 = heap d) by reflexivity.
  assert (I1 : Inv (Some i) c d1 s g).
  { inv I. split; auto.
    - destruct k11 as [w1 w2 w3]. split; auto. intros id buf b' X. rewrite Q1 in X.
      apply in_app_or in X. destruct X as [X|[X|[]]]; [|inversion X]. eauto.
    - intros id buf b' X. rewrite Q1 in X.
      apply in_app_or in X. destruct X as [X|[X|[]]]; [|inversion X]. eauto.
    - intros id buf b' k' X. rewrite Q1 in X.
      apply in_app_or in X. destruct X as [X|[X|[]]]; [eauto|].
      inversion X; subst. exists i. auto.
    - intros id b' blk X. rewrite Q1 in X.
      apply in_app_or in X. destruct X as [X|[X|[]]]; [|inversion X]. eapply k14; eauto.
    - intros b' blk L X. rewrite DV1. auto.
    - intros b' i' blk k' X HH B L C. rewrite HH1.
      destruct (k17 b' i' blk k' X HH B L C) as [Y|(id & Y1 & Y2)]; auto.
      right. exists id. split; auto. rewrite Q1. apply in_or_app; auto.
    - intros j id X. destruct (k22 j id X) as [Y1 Y2].
      change (nextq d1) with (S (nextq d)). split; [lia|].
      intros r' Y. rewrite Q1 in Y. apply in_app_or in Y. destruct Y as [Y|[Y|[]]]; auto.
      inversion Y. lia. }
  destruct (wait_evolve nsub (nextq d) d1 OK1) as [E N].
  set (d2 := wait true (nextq d) d1) in *.
  assert (I2 : Inv (Some i) c d2 s g) by (eapply Inv_evolve; eauto).
  assert (SV : nth_error (heap d2 (blocks c i)) k = nth_error (dv d2 b) k).
  { rewrite (e_dv _ _ _ E).
    apply (e_served _ _ _ E (nextq d) (QSub (blocks c i) b k)).
    - rewrite Q1. apply in_or_app. right; left; auto.
    - intros X. apply N. eapply in_key; eauto.
    - right; auto. }
  assert (NS2 : no_sub d2).
  { intros id buf b' k' X. pose proof (e_in _ _ _ E _ X) as Y. rewrite Q1 in Y.
    apply in_app_or in Y. destruct Y as [Y|[Y|[]]].
    - eapply NS; eauto.
    - inversion Y; subst. apply N. eapply in_key; eauto. }
  assert (NR2 : no_read b d2).
  { intros id buf X. pose proof (e_in _ _ _ E _ X) as Y. rewrite Q1 in Y.
    apply in_app_or in Y. destruct Y as [Y|[Y|[]]].
    - eapply NR; eauto.
    - inversion Y. }
  clearbody d2. clear I I1 E N OK1 DV1.
  eexists _, d2. split; [reflexivity|]. split; [reflexivity|].
  assert (PP : Permutation (hit i (pager c)) (seq 0 csize)).
  { apply hit_perm; [|apply I2].
    apply (Permutation_in i (Permutation_sym (i_pager _ _ _ _ _ _ _ _ I2))). apply in_seq. lia. }
  assert (OTH : forall x j, In (x, j) (bmap c) -> x <> b -> j <> i).
  { intros x j X NE ->. apply NE. eapply slot_inj; eauto. }
  assert (LGB : forall blk, lg s b = Some blk ->
                nth_error (heap d2 (blocks c i)) k = nth_error blk k).
  { intros blk L. rewrite SV. f_equal. apply (i_clean _ _ _ _ _ _ _ _ I2 b blk L).
    intros j X. now rewrite (keys_inj _ _ _ _ (i_keys _ _ _ _ _ _ _ _ I2) X H). }
  inv I2.
  split; cbn [set_pager set_load wb blocks bids retain dirty validity free reqs bmap pager st
              with_sregs lg pins held sregs wr drt bad cold dead]; auto.
  - intros id buf x X. destruct (k12 _ _ _ X) as (j & a1 & a2 & a3 & a4 & a5).
    assert (NE : x <> b). { intros ->. eapply NR2; eauto. }
    exists j. rewrite upd_neq by eauto. auto.
  - intros id buf x k' X. exfalso. eapply NS2; eauto.
  - intros x j X DX. destruct (k15 _ _ X DX) as (a1 & a2).
    split; auto. rewrite upd_neq; auto. intros ->. congruence.
  - intros x j blk k' X _ B L C. destruct (Nat.eq_dec x b) as [->|NE].
    + left. assert (j = i) by (eapply keys_inj; eauto). subst j.
      rewrite upd_eq in C. cbn in C. subst k'. auto.
    + rewrite upd_neq in C by eauto. apply k17; auto. intros [= <-]. eapply OTH; eauto.
  - intros r' x k' X. unfold set in X. unfold upd. destruct (Nat.eqb r' r).
    + inversion X; subst. split; auto. split; auto. exists i. auto.
    + auto.
Qed.

Lemma load_all_spec c d s g b i :
  Inv (Some i) c d s g -> In (b, i) (bmap c) -> dirty c i = false ->
  no_sub d -> no_read b d ->
  exists d', load_all b i c d =
    (set_pager (set_load c (upd (validity c) i VAll) (upd (reqs c) i (Some (nextq d))))
               (hit i (pager c)), d') /\
    Inv None (set_load c (upd (validity c) i VAll) (upd (reqs c) i (Some (nextq d)))) d' s g /\
    d' = snd (submit (QRead (blocks c i) b) d).
Proof.
  intros I H D NS NR. unfold load_all.
  assert (Li := slot_lt _ _ _ _ _ _ _ _ I _ _ H).
  destruct (submit_read nsub d (QRead (blocks c i) b) (blocks c i) b) as [OK1 DV1].
  { apply I. }
  { auto. }
  { intros id b' X. apply (w_q _ _ _ (i_w _ _ _ _ _ _ _ _ I)) in X.
    destruct X as (j & X1 & X2 & X3). symmetry in X2. revert X2.
    apply (i_sep _ _ _ _ _ _ _ _ I); auto.
    eapply wplace_lt; eauto. }
  { intros id r' b' k' X R.
    destruct (read_slot _ _ _ _ _ _ _ _ I _ _ _ _ _ X R) as (j & Y1 & Y2 & Y3).
    destruct (buf_block _ _ _ _ _ _ _ _ I _ _ _ _ Y1 H Y2); auto. }
  set (d1 := snd (submit (QRead (blocks c i) b) d)) in *.
  change (submit (QRead (blocks c i) b) d) with (nextq d, d1). cbv iota beta.
  assert (Q1 : queue d1 = queue d ++ [(nextq d, QRead (blocks c i) b)]) by reflexivity.
  assert (HH1 : heap d1 = heap d) by reflexivity.
  assert (N1 : nextq d1 = S (nextq d)) by reflexivity.
  exists d1. split; [reflexivity|]. split; [|reflexivity]. clearbody d1.
  assert (OTH : forall x j, In (x, j) (bmap c) -> x <> b -> j <> i).
  { intros x j X NE ->. apply NE. eapply slot_inj; eauto. }
  assert (KI : forall j, In (b, j) (bmap c) -> j = i).
  { intros j X. eapply keys_inj; eauto. apply I. }
  inv I.
  split; cbn [set_pager set_load wb blocks bids retain dirty validity free reqs bmap pager st]; auto.
  - destruct k11 as [w1 w2 w3]. split; auto. intros id buf b' X. rewrite Q1 in X.
    apply in_app_or in X. destruct X as [X|[X|[]]]; [|inversion X]. eauto.
  - intros id buf x X. rewrite Q1 in X. apply in_app_or in X.
    destruct X as [X|[X|[]]].
    + destruct (k12 _ _ _ X) as (j & a1 & a2 & a3 & a4 & a5).
      assert (NE : x <> b). { intros ->. eapply NR; eauto. }
      exists j. rewrite !upd_neq by eauto. auto.
    + inversion X; subst. exists i. rewrite !upd_eq. auto.
  - intros id buf b' k' X. rewrite Q1 in X.
    apply in_app_or in X. destruct X as [X|[X|[]]]; [|inversion X].
    exfalso. eapply NS; eauto.
  - intros id b' blk X. rewrite Q1 in X.
    apply in_app_or in X. destruct X as [X|[X|[]]]; [|inversion X]. eapply k14; eauto.
  - intros x j X DX. destruct (k15 _ _ X DX) as (a1 & a2).
    assert (j <> i) by congruence. rewrite upd_neq, HH1; auto.
  - intros b' blk L X. rewrite DV1. auto.
  - intros x j blk k' X _ B L C. destruct (Nat.eq_dec x b) as [->|NE].
    + right. rewrite (KI _ X). exists (nextq d). rewrite upd_eq. split; auto.
      rewrite Q1. apply in_or_app. right; left; auto.
    + rewrite upd_neq in C by eauto. rewrite HH1.
      destruct (k17 x j blk k' X) as [Y|(id & Y1 & Y2)]; auto.
      { intros [= <-]. eapply OTH; eauto. }
      right. exists id. rewrite upd_neq by eauto. split; auto. rewrite Q1. apply in_or_app; auto.
  - intros r x k X. rewrite HH1. auto.
  - intros j id X. rewrite N1. unfold upd in X. destruct (Nat.eqb j i).
    + inversion X; subst. split; [lia|]. intros r Y. rewrite Q1 in Y.
      apply in_app_or in Y. destruct Y as [Y|[Y|[]]].
      * apply (q_lt _ _ k1) in Y. lia.
      * inversion Y; subst. eauto.
    + destruct (k22 j id X) as [Y1 Y2]. split; [lia|].
      intros r Y. rewrite Q1 in Y. apply in_app_or in Y. destruct Y as [Y|[Y|[]]]; auto.
      inversion Y. lia.
Qed.

(** ** Bookkeeping of what the client knows *)

Definition shr (s : sst) : sst :=
  mkS (lg s) (pins s) (fun x => held s x && Nat.ltb 0 (pins s x))
      (fun r => match sregs s r with
                | Some (x, k) => if held s x && Nat.ltb 0 (pins s x) then Some (x, k) else None
                | None => None
                end)
      (fun x => wr s x && (held s x && Nat.ltb 0 (pins s x))) (drt s) (bad s)
      (cold s) (dead s).

Lemma Inv_shr h c d s g : Inv h c d s g -> Inv h c d (shr s) g.
Proof.
  intros I. eapply Inv_weaken; eauto; cbn [shr touch lg pins held sregs wr drt bad cold dead].
  - intros b H. apply andb_true_iff in H. tauto.
  - intros r x H. destruct (sregs s r) as [[y k]|]; [|discriminate].
    destruct (held s y && Nat.ltb 0 (pins s y)) eqn:E; [|discriminate].
    inversion H; subst. auto.
  - intros b H. apply andb_true_iff in H. tauto.
Qed.

Lemma shr_pins s x : held (shr s) x = true -> 0 < pins (shr s) x.
Proof. cbn [shr touch lg pins held sregs wr drt bad cold dead]. intros H. apply andb_true_iff in H. destruct H as [_ H]. now apply Nat.ltb_lt in H. Qed.

Lemma Inv_touch_hit h c d s g b :
  Inv h c d s g -> In b (map fst (bmap c)) -> Inv h c d (touch s b) g.
Proof.
  intros I H. inv I.
  assert (KP : forall x, keeps s b x = true -> In x (map fst (bmap c))).
  { intros x X. unfold keeps in X. apply orb_true_iff in X. destruct X as [X|X].
    - apply Nat.eqb_eq in X. now subst.
    - apply andb_true_iff in X. apply k8. tauto. }
  split; cbn [touch lg pins held sregs wr drt bad cold dead]; auto.
  - intros r x k X. destruct (sregs s r) as [[y k']|] eqn:E; [|discriminate].
    destruct (keeps s b y) eqn:KE; [|discriminate]. inversion X; subst.
    split; auto. destruct (k18 _ _ _ E) as (a1 & a2). auto.
  - intros x X. apply andb_true_iff in X. destruct X as [X1 X2].
    split; auto. apply k19 in X1. tauto.
  - discriminate.
Qed.

(** ** get_subblock *)

Lemma Inv_reg h c d s g r b k i :
  Inv h c d s g -> In (b, i) (bmap c) -> held s b = true -> k < nsub ->
  (forall blk, lg s b = Some blk -> nth_error (heap d (blocks c i)) k = nth_error blk k) ->
  Inv h c d (with_sregs s (set (sregs s) r (Some (b, k)))) (upd g r (Some (blocks c i, k))).
Proof.
  intros I H HB Lk C. inv I.
  split; cbn [with_sregs lg pins held sregs wr drt bad cold dead]; auto.
  intros r' x k' X. unfold set in X. unfold upd. destruct (Nat.eqb r' r); auto.
  inversion X; subst. split; auto. split; auto. exists i. auto.
Qed.

(** making room *)
Lemma place_spec c d s g b :
  Inv None c d s g -> ~ In b (map fst (bmap c)) ->
  exists o c' d', place true csize b c d = (o, c', d') /\
    match o with
    | Done i => Inv (Some i) c' d' (touch s b) g /\ In (b, i) (bmap c') /\
                dirty c' i = false /\ no_sub d' /\ no_read b d'
    | Thrown => Inv None c' d' s g /\ crowded csize s b
    | Undefined => False
    end.
Proof.
  intros I N. unfold place.
  assert (HN : held s b = false).
  { destruct (held s b) eqn:E; auto. apply (i_held _ _ _ _ _ _ _ _ I) in E. contradiction. }
  assert (FIN : forall c1 d1 i fr, Inv None c1 d1 (shr s) g -> free c1 = i :: fr ->
     ~ In b (map fst (bmap c1)) ->
     Inv (Some i)
       (mkCache (wb c1) (blocks c1) (upd (bids c1) i b) (upd (retain c1) i 0)
             (upd (dirty c1) i false) (validity c1) fr (reqs c1)
             ((b, i) :: bmap c1) (pager c1) (st c1)) d1 (touch s b) g).
  { intros c1 d1 i fr I1 F1 N1.
    pose proof (Inv_place _ _ _ _ b i fr I1 F1 N1) as I2.
    eapply Inv_weaken; [exact I2|..]; cbn [shr touch lg pins held sregs wr drt bad cold dead]; auto.
    - intros r x X. destruct (sregs s r) as [[y k]|] eqn:E; [|discriminate].
      destruct (keeps s b y) eqn:K; [|discriminate]. inversion X; subst. cbn [fst]. split; [|exact K].
      unfold keeps in K. destruct (Nat.eqb_spec y b).
      + subst. apply (i_regs _ _ _ _ _ _ _ _ I) in E. destruct E. congruence.
      + cbn [orb] in K. now rewrite K.
    - intros x X. apply andb_true_iff in X. destruct X as [X1 X2]. split; [|exact X2].
      unfold keeps in X2. destruct (Nat.eqb_spec x b).
      + subst. apply (i_wr _ _ _ _ _ _ _ _ I) in X1. destruct X1. congruence.
      + cbn [orb] in X2. now rewrite X1, X2. }
  destruct (free c) as [|i fr] eqn:F.
  - destruct (kick_spec c d (shr s) g) as (o & c1 & d1 & EK & I1 & K).
    { now apply Inv_shr. } { auto. } { apply shr_pins. }
    rewrite EK. destruct o as [[]| |]; [| |contradiction].
    + destruct K as ((i & F1) & SUB). rewrite F1.
      eexists (Done i), _, d1. split; [reflexivity|].
      assert (N1 : ~ In b (map fst (bmap c1))).
      { intros X. apply N. apply key_in in X. destruct X as (j & X). apply SUB in X.
        eapply in_key; eauto. }
      split; [now apply FIN|]. cbn [bmap dirty]. split; [left; auto|].
      rewrite upd_eq. split; auto. split.
      { eapply Inv_no_sub; eauto. } { eapply no_read_absent; eauto. }
    + destruct K as (K1 & K2 & K3 & K4). subst d1.
      eexists Thrown, c1, d. split; [reflexivity|]. split.
      * (* the pager is all that has changed *)
        unfold kick_block in EK.
        destruct (victim csize (retain c) (pager c)) as [[[i|] p]|] eqn:EV; [..|discriminate].
        { exfalso. destruct (dirty (set_pager c p) i).
          - destruct (wb_write _ _ _ _ _) as [[[? ?] ?]|]; discriminate.
          - discriminate. }
        inversion EK; subst. apply Inv_pager; auto. apply I1.
      * split; auto. exists (map fst (bmap c)). split; [apply I|]. split.
        { rewrite map_length. pose proof (i_slots _ _ _ _ _ _ _ _ I) as P.
          apply Permutation_length in P. rewrite F, seq_length in P. cbn in P.
          now rewrite map_length in P. }
        intros x X. apply key_in in X. destruct X as (j & X).
        rewrite <- (i_pins _ _ _ _ _ _ _ _ I _ _ X). apply K4. exact (slot_lt _ _ _ _ _ _ _ _ I _ _ X).
  - rewrite F. eexists (Done i), _, d. split; [reflexivity|].
    split. { apply FIN; auto. now apply Inv_shr. }
    cbn [bmap dirty]. split; [left; auto|]. rewrite upd_eq. split; auto. split.
    { eapply Inv_no_sub; eauto. } { eapply no_read_absent; eauto. }
Qed.

Lemma get_spec c d s g b k r :
  Inv None c d s g -> k < nsub -> bad s b = false ->
  exists o c' d', get_subblock true csize b k c d = (o, c', d') /\
    match o with
    | Done p => Inv None c' d' (with_sregs (touch s b) (set (sregs (touch s b)) r (Some (b, k))))
                    (upd g r (Some p))
    | Thrown => Inv None c' d' s g /\ crowded csize s b
    | Undefined => False
    end.
Proof.
  intros I Lk B. unfold get_subblock.
  assert (HB : held (touch s b) b = true).
  { cbn. unfold keeps. now rewrite Nat.eqb_refl. }
  destruct (bfind b (bmap c)) as [i|] eqn:EF.
  - pose proof (bfind_in _ _ _ EF) as H.
    assert (IT : Inv None (set_st c (st_found (st c))) d (touch s b) g).
    { apply Inv_st, Inv_touch_hit; auto. eapply in_key; eauto. }
    destruct (validity c i) as [|k'] eqn:EV.
    + eexists (Done _), _, _. split; [reflexivity|].
      destruct (wait_slot None _ _ _ _ b i IT H EV) as (I2 & E2 & NR).
      change (reqs (set_st c (st_found (st c)))) with (reqs c) in *.
      apply (Inv_reg None _ _ _ _ r b k i) in I2; auto.
      intros blk L.
      destruct (i_cont _ _ _ _ _ _ _ _ I2 b i blk k H) as [X|(id & X1 & X2)]; auto.
      { discriminate. }
      { cbn [validity set_st]. rewrite EV. exact Logic.I. }
      exfalso. eapply NR; eauto.
    + destruct (Nat.eqb_spec k' k) as [->|NE].
      * eexists (Done _), _, _. split; [reflexivity|].
        apply (Inv_reg None _ _ _ _ r b k i) in IT; auto.
        intros blk L.
        destruct (i_cont _ _ _ _ _ _ _ _ IT b i blk k H) as [X|(id & X1 & X2)]; auto.
        { discriminate. }
        { cbn [validity set_st]. rewrite EV. reflexivity. }
        exfalso. eapply (no_read_part _ _ _ _ _ b i k IT); eauto.
      * assert (IW : Inv None (set_st c (st_wrong (st c))) d (touch s b) g).
        { apply Inv_st, Inv_touch_hit; auto. eapply in_key; eauto. }
        assert (DF : dirty c i = false).
        { destruct (dirty c i) eqn:E; auto.
          destruct (i_dirty _ _ _ _ _ _ _ _ I _ _ H E) as (X & _). congruence. }
        destruct (load_sub_spec (set_st c (st_wrong (st c))) d (touch s b) g b i k r)
          as (c' & d' & EL & _ & I2); auto.
        { now apply Inv_hole. }
        { eapply Inv_no_sub; eauto. }
        { eapply (no_read_part _ _ _ _ _ b i k' IW); eauto. }
        rewrite EL. eexists (Done _), _, _. split; [reflexivity|]. exact I2.
  - pose proof (bfind_none _ _ EF) as N.
    destruct (place_spec (set_st c (st_miss (st c))) d s g b) as (o & c1 & d1 & EP & PS); auto.
    { now apply Inv_st. }
    rewrite EP. destruct o as [i| |]; [| |contradiction].
    + destruct PS as (I1 & H1 & D1 & NS & NR).
      destruct (load_sub_spec c1 d1 (touch s b) g b i k r) as (c' & d' & EL & _ & I2); auto.
      rewrite EL. eexists (Done _), _, _. split; [reflexivity|]. exact I2.
    + eexists Thrown, _, _. split; [reflexivity|]. exact PS.
Qed.

Lemma prefetch_spec c d s g b :
  Inv None c d s g ->
  exists o c' d', prefetch_block true csize b c d = (o, c', d') /\
    match o with
    | Done _ => Inv None c' d' (touch s b) g
    | Thrown => Inv None c' d' s g /\ crowded csize s b
    | Undefined => False
    end.
Proof.
  intros I. unfold prefetch_block.
  assert (HP : forall h c d s g i b, Inv h c d s g -> In (b, i) (bmap c) ->
               Permutation (hit i (pager c)) (seq 0 csize)).
  { clear. intros h c d s g i b I H. apply hit_perm; [|apply I].
    apply (Permutation_in i (Permutation_sym (i_pager _ _ _ _ _ _ _ _ I))).
    apply in_seq. pose proof (slot_lt _ _ _ _ _ _ _ _ I _ _ H). lia. }
  destruct (bfind b (bmap c)) as [i|] eqn:EF.
  - pose proof (bfind_in _ _ _ EF) as H.
    assert (IT : Inv None c d (touch s b) g).
    { apply Inv_touch_hit; auto. eapply in_key; eauto. }
    destruct (validity c i) as [|k'] eqn:EV.
    + eexists (Done _), _, _. split; [reflexivity|]. apply Inv_pager; eauto.
    + assert (DF : dirty c i = false).
      { destruct (dirty c i) eqn:E; auto.
        destruct (i_dirty _ _ _ _ _ _ _ _ I _ _ H E) as (X & _). congruence. }
      destruct (load_all_spec c d (touch s b) g b i) as (d' & EL & I2 & _); auto.
      { now apply Inv_hole. }
      { eapply Inv_no_sub; eauto. }
      { eapply (no_read_part _ _ _ _ _ b i k' IT); eauto. }
      rewrite EL. eexists (Done _), _, _. split; [reflexivity|].
      apply Inv_pager; auto. eapply (HP _ _ _ _ _ i b I2); eauto.
  - pose proof (bfind_none _ _ EF) as N.
    destruct (place_spec c d s g b) as (o & c1 & d1 & EP & PS); auto.
    rewrite EP. destruct o as [i| |]; [| |contradiction].
    + destruct PS as (I1 & H1 & D1 & NS & NR).
      destruct (load_all_spec c1 d1 (touch s b) g b i) as (d' & EL & I2 & _); auto.
      rewrite EL. eexists (Done _), _, _. split; [reflexivity|].
      apply Inv_pager; auto. eapply (HP _ _ _ _ _ i b I2); eauto.
    + eexists Thrown, _, _. split; [reflexivity|]. exact PS.
Qed.

End Step.
