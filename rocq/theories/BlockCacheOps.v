(** * The block cache obeys its specification *)
From Coq Require Import Arith Bool List Lia Permutation.
From Verif Require Import BlockCacheModel BlockCacheDev BlockCacheSpec BlockCacheMach
  BlockCacheInv BlockCacheStep.
Import ListNotations.

Section Ops.
Context {V : Type}.
Variable csize wsize nsub : nat.
Variable iter : list (nat * nat) -> list (nat * nat).
Hypothesis iter_perm : forall l, Permutation (iter l) l.
Hypothesis cpos : 0 < csize.
Hypothesis wpos : 0 < wsize.

Notation dev := (dev V).
Notation sst := (sst V).
Notation okq := (@okq V nsub).
Notation evolve := (@evolve V nsub).
Notation Inv := (@Inv V csize wsize nsub).
Notation winv := (@winv V wsize).

Ltac inv I := destruct I as
  [k1 k2 k3 k4 k5 k6 k7 k8 k9 k10 k11 k12 k13 k14 k15 k16 k17 k18 k19 k20 k21 k22].

(** ** retain, release *)

Lemma Inv_pin c d s g b i n :
  Inv None c d s g -> In (b, i) (bmap c) ->
  Inv None (set_retain c (upd (retain c) i n)) d
    (mkS (lg s) (set (pins s) b n) (set (held s) b true) (sregs s)
         (wr s) (drt s) (bad s) (cold s) (dead s)) g.
Proof.
  intros I H.
  assert (OTH : forall x j, In (x, j) (bmap c) -> x <> b -> j <> i).
  { intros x j X NE ->. apply NE. eapply slot_inj; eauto. }
  inv I.
  split; cbn [set_retain wb blocks bids retain dirty validity free reqs bmap pager st
              lg pins held sregs wr drt bad cold dead]; auto.
  - intros x j X. unfold set. destruct (Nat.eqb_spec x b).
    + subst. rewrite (keys_inj _ _ _ _ k2 X H). apply upd_eq.
    + rewrite upd_neq by eauto. auto.
  - intros x X. unfold set. destruct (Nat.eqb_spec x b).
    + subst. exfalso. apply X. eapply in_key; eauto.
    + auto.
  - intros x X. unfold set in X. destruct (Nat.eqb_spec x b).
    + subst. eapply in_key; eauto.
    + auto.
  - intros r x k X. destruct (k18 _ _ _ X) as (a1 & a2). split; auto.
    unfold set. destruct (Nat.eqb x b); auto.
  - intros x X. destruct (k19 _ X) as (a1 & a2). split; auto.
    unfold set. destruct (Nat.eqb x b); auto.
Qed.

(** ** make_dirty *)

Lemma Inv_dirty c d s g b i :
  Inv None c d s g -> In (b, i) (bmap c) -> validity c i = VAll -> no_read b d ->
  bad s b = false ->
  Inv None (set_dirty c (upd (dirty c) i true)) d
    (mkS (lg s) (pins s) (set (held s) b true) (sregs s)
         (set (wr s) b true) (set (drt s) b true) (bad s) (cold s) (dead s)) g.
Proof.
  intros I H VA NR B.
  assert (OTH : forall x j, In (x, j) (bmap c) -> x <> b -> j <> i).
  { intros x j X NE ->. apply NE. eapply slot_inj; eauto. }
  inv I.
  assert (FULL : forall blk, lg s b = Some blk -> heap d (blocks c i) = blk).
  { intros blk L. apply nth_ext_e. intros k.
    destruct (k17 b i blk k H) as [X|(id & X1 & X2)]; auto.
    - discriminate.
    - rewrite VA. exact Logic.I.
    - exfalso. eapply NR; eauto. }
  split; cbn [set_dirty wb blocks bids retain dirty validity free reqs bmap pager st
              lg pins held sregs wr drt bad cold dead]; auto.
  - intros x X. unfold set in X. destruct (Nat.eqb_spec x b).
    + subst. eapply in_key; eauto.
    + auto.
  - intros id buf x X. destruct (k12 _ _ _ X) as (j & a1 & a2 & a3 & a4 & a5).
    assert (NE : x <> b). { intros ->. eapply NR; eauto. }
    exists j. rewrite upd_neq by eauto. auto.
  - intros id buf x k X. destruct (k13 _ _ _ _ X) as (j & a1 & a2). discriminate.
  - intros x j X DX. unfold set. destruct (Nat.eqb_spec x b).
    + subst. rewrite (keys_inj _ _ _ _ k2 X H) in *. auto.
    + rewrite upd_neq in DX by eauto. auto.
  - intros x blk L X. apply k16; auto. intros j J.
    destruct (Nat.eq_dec x b) as [->|NE].
    + specialize (X j J). rewrite (keys_inj _ _ _ _ k2 J H), upd_eq in X. discriminate.
    + specialize (X j J). now rewrite upd_neq in X by eauto.
  - intros r x k X. destruct (k18 _ _ _ X) as (a1 & a2). split; auto.
    unfold set. destruct (Nat.eqb x b); auto.
  - intros x X. unfold set in *. destruct (Nat.eqb_spec x b).
    + subst. split; auto. exists i. split; auto. apply upd_eq.
    + destruct (k19 _ X) as (a1 & j & a2 & a3). split; auto. exists j.
      rewrite upd_neq by eauto. auto.
Qed.

Lemma make_dirty_spec c d s g b :
  Inv None c d s g -> bad s b = false ->
  exists t c' d', make_dirty true b c d = (t, c', d') /\
    (held s b = true -> t = true) /\
    Inv None c' d' (if t then
      mkS (lg s) (pins s) (set (held s) b true) (sregs s)
         (set (wr s) b true) (set (drt s) b true) (bad s) (cold s) (dead s)
      else s) g.
Proof.
  intros I B. unfold make_dirty. destruct (bfind b (bmap c)) as [i|] eqn:EF.
  2:{ exists false, c, d. split; auto. split; auto. intros X.
      exfalso. apply (bfind_none _ _ EF). apply (i_held _ _ _ _ _ _ _ _ I). auto. }
  pose proof (bfind_in _ _ _ EF) as H.
  destruct (validity c i) as [|k] eqn:EV.
  - destruct (wait_slot _ _ _ _ _ _ _ _ b i I H EV) as (I2 & E2 & NR).
    eexists true, _, _. split; [reflexivity|]. split; auto.
    apply Inv_dirty; auto.
  - assert (DF : dirty c i = false).
    { destruct (dirty c i) eqn:E; auto.
      destruct (i_dirty _ _ _ _ _ _ _ _ I _ _ H E) as (X & _). congruence. }
    destruct (load_all_spec csize wsize nsub cpos wpos c d s g b i) as (d' & _ & I2 & Ed'); auto.
    { now apply Inv_hole. }
    { eapply Inv_no_sub; eauto. }
    { exact (no_read_part _ _ _ _ _ _ _ _ _ _ _ I H EV). }
    change (submit (QRead (blocks c i) b) d) with (nextq d, snd (submit (QRead (blocks c i) b) d)).
    rewrite <- Ed'. cbv iota beta.
    set (c1 := set_load c (upd (validity c) i VAll) (upd (reqs c) i (Some (nextq d)))) in *.
    assert (EV1 : validity c1 i = VAll) by apply upd_eq.
    assert (H1 : In (b, i) (bmap c1)) by exact H.
    destruct (wait_slot _ _ _ _ _ _ _ _ b i I2 H1 EV1) as (I3 & E3 & NR).
    eexists true, _, _. split; [reflexivity|]. split; auto.
    exact (Inv_dirty _ _ _ _ b i I3 H1 EV1 NR B).
Qed.

(** ** Writing through a pointer *)

Lemma lset_replace (l : list V) k v : lset l k v = replace l k v.
Proof.
  unfold replace. revert k. induction l as [|x l IH]; intros [|k]; cbn; auto.
  f_equal. apply IH.
Qed.

Lemma Inv_store c d s g b i k v :
  Inv None c d s g -> In (b, i) (bmap c) -> dirty c i = true ->
  Inv None c
    (mkDev (upd (heap d) (blocks c i) (lset (heap d (blocks c i)) k v))
           (disk d) (queue d) (nextq d) (orc d))
    (match lg s b with
     | Some blk => with_lg s (set (lg s) b (Some (replace blk k v)))
     | None => s
     end) g.
Proof.
  intros I H D.
  set (buf := blocks c i) in *.
  set (d' := mkDev (upd (heap d) buf (lset (heap d buf) k v))
           (disk d) (queue d) (nextq d) (orc d)).
  assert (OTHB : forall x j, In (x, j) (bmap c) -> x <> b -> blocks c j <> buf).
  { intros x j X NE E. apply NE. destruct (buf_block _ _ _ _ _ _ _ _ I _ _ _ _ X H E); auto. }
  assert (NRD : forall id r b' k', In (id, r) (queue d) -> ~ reads r buf b' k').
  { intros id r b' k' X R.
    destruct (read_slot _ _ _ _ _ _ _ _ I _ _ _ _ _ X R) as (j & Y1 & Y2 & Y3).
    destruct (buf_block _ _ _ _ _ _ _ _ I _ _ _ _ Y1 H Y2) as [-> ->]. congruence. }
  assert (DV : forall x, dv d' x = dv d x).
  { intros x. unfold dv. cbn [queue heap disk d'].
    apply fold_apply_heap. intros id buf' b' X. apply upd_neq. intros ->.
    destruct (w_q _ _ _ (i_w _ _ _ _ _ _ _ _ I) _ _ _ X) as (j & a1 & a2 & a3).
    symmetry in a2. revert a2. apply (i_sep _ _ _ _ _ _ _ _ I).
    - eapply slot_lt; eauto.
    - eapply wplace_lt; eauto. }
  assert (OK : okq d').
  { destruct (i_okq _ _ _ _ _ _ _ _ I) as [a1 a2 a3 a4 a5 a6 a7 a8].
    split; auto. intros buf'. cbn [heap d']. unfold upd.
    destruct (Nat.eqb buf' buf); auto. rewrite lset_length. auto. }
  assert (HB : forall x j, In (x, j) (bmap c) -> x <> b -> heap d' (blocks c j) = heap d (blocks c j)).
  { intros x j X NE. cbn [heap d']. apply upd_neq. eauto. }
  assert (HI : heap d' buf = lset (heap d buf) k v) by apply upd_eq.
  assert (W : winv (wb c) d').
  { destruct (i_w _ _ _ _ _ _ _ _ I). split; auto. }
  assert (Q : queue d' = queue d) by reflexivity.
  assert (NQ : nextq d' = nextq d) by reflexivity.
  clearbody d'. clear NRD.
  inv I.
  destruct (k15 _ _ H D) as (D1 & D2 & D3 & D4). fold buf in D4.
  destruct (lg s b) as [blk0|] eqn:EL.
  - split; cbn [with_lg lg pins held sregs wr drt bad cold dead]; rewrite ?Q, ?NQ; auto.
    + intros x j X DX. destruct (k15 _ _ X DX) as (a1 & a2 & a3 & a4).
      split; auto. split; auto. split; auto. intros blk L. unfold set in L.
      destruct (Nat.eqb_spec x b).
      * subst. inversion L; subst. assert (j = i) by (eapply keys_inj; eauto). subst j.
        fold buf. rewrite HI, (D4 blk0); auto. apply lset_replace.
      * rewrite (HB x j); auto.
    + intros x blk L X. rewrite DV. unfold set in L. destruct (Nat.eqb_spec x b).
      * subst. rewrite (X i H) in D. discriminate.
      * auto.
    + intros x j blk k' X HH B L C. unfold set in L. destruct (Nat.eqb_spec x b).
      * subst. left. inversion L; subst. assert (j = i) by (eapply keys_inj; eauto). subst j.
        fold buf. rewrite HI, (D4 blk0); auto. now rewrite lset_replace.
      * rewrite (HB x j); auto.
    + intros r x k' X. destruct (k18 _ _ _ X) as (a1 & a2 & j & a3 & a4 & a5).
      split; auto. split; auto. exists j. split; auto. split; auto.
      intros blk L. unfold set in L. destruct (Nat.eqb_spec x b).
      * subst. inversion L; subst. assert (j = i) by (eapply keys_inj; eauto). subst j.
        fold buf. rewrite HI, (D4 blk0); auto. now rewrite lset_replace.
      * rewrite (HB x j); auto.
    + intros x blk L. unfold set in L. destruct (Nat.eqb_spec x b).
      * inversion L; subst. rewrite <- lset_replace, lset_length. eauto.
      * eauto.
  - split; rewrite ?Q, ?NQ; auto.
    + intros x j X DX. destruct (k15 _ _ X DX) as (a1 & a2 & a3 & a4).
      split; auto. split; auto. split; auto. intros blk L.
      rewrite (HB x j); auto. congruence.
    + intros x blk L X. rewrite DV. auto.
    + intros x j blk k' X HH B L C. rewrite (HB x j); auto. congruence.
    + intros r x k' X. destruct (k18 _ _ _ X) as (a1 & a2 & j & a3 & a4 & a5).
      split; auto. split; auto. exists j. split; auto. split; auto.
      intros blk L. rewrite (HB x j); auto. congruence.
Qed.

(** ** clear *)

Lemma clear_fold c d s g l :
  Inv None c d s g ->
  forall d1, okq d1 -> (forall b, dv d1 b = dv d b) ->
    (forall x, In x (queue d1) -> In x (queue d)) -> nextq d1 = nextq d ->
  let d2 := fold_left (fun d i => match reqs c i with
                                  | Some id => cancel true id d
                                  | None => d
                                  end) l d1 in
  okq d2 /\ (forall b, dv d2 b = dv d b) /\
  (forall x, In x (queue d2) -> In x (queue d1)) /\ nextq d2 = nextq d /\
  forall i id, In i l -> reqs c i = Some id -> ~ In id (map fst (queue d2)).
Proof.
  intros I. induction l as [|i l IH]; intros d1 O D Q N; cbn [fold_left].
  { split; [auto|]. split; [auto|]. split; [auto|]. split; [auto|]. easy. }
  set (d' := match reqs c i with Some id => cancel true id d1 | None => d1 end).
  assert (S : okq d' /\ (forall b, dv d' b = dv d b) /\
              (forall x, In x (queue d') -> In x (queue d1)) /\ nextq d' = nextq d /\
              forall id, reqs c i = Some id -> ~ In id (map fst (queue d'))).
  { unfold d'. destruct (reqs c i) as [id|] eqn:E.
    - destruct (cancel_spec nsub id d1 O) as (a1 & a2 & a3 & a4).
      { intros r X b W. apply Q in X.
        destruct (i_rq _ _ _ _ _ _ _ _ I _ _ E) as [_ R]. destruct (R _ X) as (buf & b' & ->).
        destruct W as [(? & W)|(? & W)]; discriminate. }
      split; auto. split. { intros b. rewrite a2. auto. }
      split; auto. split.
      { unfold cancel. cbn. rewrite (e_next _ _ _ (drift_evolve nsub d1 O)). auto. }
      intros id' [= <-]. auto.
    - split; [auto|]. split; [auto|]. split; [auto|]. split; [auto|]. discriminate. }
  destruct S as (s1 & s2 & s3 & s4 & s5). clearbody d'.
  destruct (IH d') as (t1 & t2 & t3 & t4 & t5); auto.
  split; auto. split; auto. split; auto. split; auto.
  intros j id [->|J] E; eauto.
  intros X. apply (s5 id E). apply key_in in X. destruct X as (r & X).
  apply t3 in X. eapply in_key; eauto.
Qed.

Lemma clear_spec c d s g :
  Inv None c d s g ->
  let (c', d') := clear true csize c d in
  Inv None c' d' (sp_next s OClear ROk) g.
Proof.
  intros I. unfold clear.
  destruct (clear_fold c d s g (seq 0 csize) I d) as (t1 & t2 & t3 & t4 & t5); auto.
  { apply I. }
  set (d2 := fold_left _ (seq 0 csize) d) in *. clearbody d2.
  assert (NR : forall id buf b, ~ In (id, QRead buf b) (queue d2)).
  { intros id buf b X. apply t3 in X as Y.
    destruct (i_qr _ _ _ _ _ _ _ _ I _ _ _ Y) as (i & a1 & a2 & a3 & a4).
    apply (t5 i id); auto.
    - apply in_seq. pose proof (slot_lt _ _ _ _ _ _ _ _ I _ _ a1). lia.
    - eapply in_key; eauto. }
  inv I.
  split; cbn [wb blocks bids retain dirty validity free reqs bmap pager st
              sp_next lg pins held sregs wr drt bad cold dead]; auto; try easy.
  - constructor.
  - cbn. rewrite app_nil_r. symmetry. apply Permutation_rev.
  - destruct k11 as [w1 w2 w3]. split; auto. intros. apply (w3 id buf b). auto.
  - intros id buf b X. exfalso. eapply NR; eauto.
  - intros id buf b k X. apply t3 in X. destruct (k13 _ _ _ _ X) as (i & a & _). discriminate.
  - intros id b blk X. apply t3 in X. eapply k14; eauto.
  - intros b blk L _. rewrite t2. destruct (drt s b) eqn:E; [discriminate|].
    apply k16; auto. intros i X. destruct (dirty c i) eqn:ED; auto.
    destruct (k15 _ _ X ED) as (_ & a & _). congruence.
  - intros b blk L. destruct (drt s b); [discriminate|eauto].
  - intros i id X. destruct (k22 _ _ X) as [a1 a2]. rewrite t4. split; auto.
Qed.

(** ** a direct write to disk *)

Lemma ext_spec c d s g b blk :
  Inv None c d s g -> cold s = true -> length blk = nsub ->
  Inv None c (wait true (nextq d) (snd (submit (QExt b blk) d)))
    (with_lg s (set (lg s) b (Some blk))) g.
Proof.
  intros I C L.
  assert (BM : bmap c = []) by (apply (i_cold _ _ _ _ _ _ _ _ I); auto).
  assert (NR : forall id r buf x k, In (id, r) (queue d) -> ~ reads r buf x k).
  { intros id r buf x k X R.
    destruct (read_slot _ _ _ _ _ _ _ _ I _ _ _ _ _ X R) as (j & Y1 & _). rewrite BM in Y1. easy. }
  destruct (submit_write nsub d (QExt b blk) b blk (i_okq _ _ _ _ _ _ _ _ I)) as [OK1 DV1]; auto.
  { intros. eapply NR; eauto. }
  set (d1 := snd (submit (QExt b blk) d)) in *.
  assert (Q1 : queue d1 = queue d ++ [(nextq d, QExt b blk)]) by reflexivity.
  assert (N1 : nextq d1 = S (nextq d)) by reflexivity.
  destruct (wait_evolve nsub (nextq d) d1 OK1) as [E N].
  set (d2 := wait true (nextq d) d1) in *.
  assert (SUB : forall x, In x (queue d2) -> In x (queue d)).
  { intros [id r] X. pose proof (e_in _ _ _ E _ X) as Y. rewrite Q1 in Y.
    apply in_app_or in Y. destruct Y as [Y|[Y|[]]]; auto.
    inversion Y; subst. exfalso. apply N. eapply in_key; eauto. }
  inv I.
  split; cbn [with_lg lg pins held sregs wr drt bad cold dead]; auto.
  - apply E.
  - destruct k11 as [w1 w2 w3]. split; auto. intros. apply (w3 id buf b0). auto.
  - intros id buf x k X. apply (k13 id buf x k). auto.
  - intros id x blk' X. apply (k14 id x blk'). auto.
  - intros x j X. rewrite BM in X. easy.
  - intros x blk' L' X. rewrite (e_dv _ _ _ E), DV1. unfold set in L'.
    destruct (Nat.eqb_spec x b).
    + subst. rewrite upd_eq. congruence.
    + rewrite upd_neq by auto. auto.
  - intros x j blk' k X. rewrite BM in X. easy.
  - intros r x k X. destruct (k18 _ _ _ X) as (_ & _ & j & Y & _). rewrite BM in Y. easy.
  - intros x blk' L'. unfold set in L'. destruct (Nat.eqb_spec x b); [congruence|eauto].
  - intros j id X. destruct (k22 _ _ X) as [a1 a2].
    rewrite (e_next _ _ _ E), N1. split; [lia|]. auto.
Qed.

(** ** flush and destruction *)

Definition with_bad (s : sst) bd : sst :=
  mkS (lg s) (pins s) (held s) (sregs s) (wr s) (drt s) bd (cold s) (dead s).

Definition calm (s : sst) : Prop :=
  (forall b, wr s b = false) /\
  (forall r b k, sregs s r = Some (b, k) -> drt s b = false).

Lemma flush_one_spec c d s g b i :
  Inv None c d s g -> calm s -> In (b, i) (bmap c) -> dirty c i = true ->
  exists buf w d' bd,
    wb_write true (blocks c i) (bids c i) (wb c) d = Some (buf, w, d') /\
    Inv None (set_dirty (set_wb c w (upd (blocks c) i buf)) (upd (dirty c) i false)) d'
        (with_bad s bd) g /\
    (forall x, bd x = true -> bad s x = true \/ drt s x = true).
Proof.
  intros I [CW CS] H D.
  assert (NS : forall r k, sregs s r <> Some (b, k)).
  { intros r k X. apply CS in X. destruct (i_dirty _ _ _ _ _ _ _ _ I _ _ H D) as (_ & a & _).
    congruence. }
  rewrite (i_bids _ _ _ _ _ _ _ _ I _ _ H).
  destruct (wb_write_spec wsize nsub (blocks c i) b (wb c) d wpos)
    as (i0 & w1 & d2 & E2 & W1 & F1 & B1 & EW).
  { apply I. } { apply I. }
  eexists _, _, _, _. split; [exact EW|]. split.
  - exact (Inv_write _ _ _ _ _ _ _ b i w1 d2 i0 I H D NS (CW b) E2 W1 F1 B1).
  - intros x X. unfold set in X. destruct (Nat.eqb_spec x b); auto.
    subst. right. apply (i_dirty _ _ _ _ _ _ _ _ I _ _ H D).
Qed.

Lemma flush_fold l c d s g :
  Inv None c d s g -> calm s -> (forall x, In x l -> In x (bmap c)) ->
  exists c' d' bd,
    fold_left (fun r x => flush_one true x r) l (Some (c, d)) = Some (c', d') /\
    Inv None c' d' (with_bad s bd) g /\
    (forall x, bd x = true -> bad s x = true \/ drt s x = true) /\
    bmap c' = bmap c /\
    (forall i, dirty c i = false -> dirty c' i = false) /\
    (forall x, In x l -> dirty c' (snd x) = false).
Proof.
  revert c d s. induction l as [|[b i] l IH]; intros c d s I C SUB.
  { exists c, d, (bad s). split; [reflexivity|]. split; [destruct s; exact I|].
    split; [auto|]. split; [auto|]. split; [auto|]. easy. }
  cbn [fold_left flush_one snd].
  assert (H : In (b, i) (bmap c)) by (apply SUB; left; auto).
  destruct (dirty c i) eqn:D.
  - destruct (flush_one_spec c d s g b i I C H D) as (buf & w & d1 & bd & EW & I1 & HB).
    rewrite EW.
    destruct (IH _ _ _ I1) as (c' & d' & bd' & EF & I2 & HB2 & BM & DM & DL).
    { exact C. }
    { intros x X. apply SUB. right; auto. }
    rewrite EF. exists c', d', bd'. split; auto. split; [exact I2|].
    split.
    { intros x X. destruct (HB2 x X) as [Y|Y]; auto. }
    split; auto. split.
    { intros j J. apply DM. cbn [set_dirty set_wb dirty]. unfold upd.
      destruct (Nat.eqb j i); auto. }
    intros x [<-|X]; auto. apply DM. cbn [set_dirty set_wb dirty snd]. apply upd_eq.
  - destruct (IH c d s I C) as (c' & d' & bd' & EF & I2 & HB2 & BM & DM & DL).
    { intros x X. apply SUB. right; auto. }
    rewrite EF. exists c', d', bd'. split; auto. split; auto. split; auto. split; auto.
    split; auto. intros x [<-|X]; auto.
Qed.

Lemma waits_spec w l d :
  okq d ->
  let d' := fold_left (fun d i => wait_opt true (w_reqs w i) d) l d in
  evolve d d' /\
  forall i id, In i l -> w_reqs w i = Some id -> ~ In id (map fst (queue d')).
Proof.
  revert d. induction l as [|i l IH]; intros d OK; cbn [fold_left].
  { split; [now apply evolve_refl|easy]. }
  destruct (wait_opt_evolve nsub (w_reqs w i) d OK) as [E N].
  destruct (IH (wait_opt true (w_reqs w i) d)) as [E2 N2].
  { apply E. }
  cbv zeta in *. split. { eapply evolve_trans; eauto. }
  intros j id [->|J] R; eauto.
  intros X. apply (N id R). apply key_in in X. destruct X as (r & X).
  apply (e_in _ _ _ E2) in X. eapply in_key; eauto.
Qed.

(** after the write buffer has been flushed nothing is left to be written *)
Lemma wb_flush_spec c d s g :
  Inv None c d s g ->
  let (w, d') := wb_flush true wsize (wb c) d in
  Inv None (set_wb c w (blocks c)) d' s g /\ (forall b, dv d' b = disk d' b).
Proof.
  intros I. unfold wb_flush.
  destruct (waits_spec (wb c) (w_busy (wb c)) d) as [E N].
  { apply I. }
  set (d' := fold_left _ (w_busy (wb c)) d) in *. cbv zeta in *.
  assert (I' := Inv_evolve _ _ _ _ _ _ _ _ _ I E).
  assert (NW : forall id buf b, ~ In (id, QWrite buf b) (queue d')).
  { intros id buf b X. destruct (w_q _ _ _ (i_w _ _ _ _ _ _ _ _ I') _ _ _ X) as (j & a1 & a2 & a3).
    apply (N j id a1 a3). eapply in_key; eauto. }
  split.
  - inv I'.
    split; cbn [set_wb wb blocks bids retain dirty validity free reqs bmap pager st]; auto.
    split; cbn [w_free w_busy w_blocks w_reqs].
    + rewrite app_nil_r. symmetry. apply Permutation_rev.
    + apply k11.
    + intros id buf b X. exfalso. eapply NW; eauto.
  - intros b. unfold dv. apply fold_apply_none.
    intros id r X [(buf & ->)|(blk & ->)].
    + eapply NW; eauto.
    + eapply (i_qe _ _ _ _ _ _ _ _ I'); eauto.
Qed.

Lemma Inv_calm c d s g :
  Inv None c d s g ->
  let s' := mkS (lg s) (pins s) (held s)
          (fun r => match sregs s r with
                    | Some (x, k) => if drt s x then None else Some (x, k)
                    | None => None
                    end)
          (fun _ => false) (drt s) (bad s) (cold s) (dead s) in
  Inv None c d s' g /\ calm s'.
Proof.
  intros I s'. split.
  - eapply Inv_weaken; eauto; cbn [s' lg pins held sregs wr drt bad cold dead].
    + intros r [x k] X. destruct (sregs s r) as [[y k']|] eqn:E; [|discriminate].
      destruct (drt s y); [discriminate|]. inversion X; subst. split; auto.
      apply (i_regs _ _ _ _ _ _ _ _ I) in E. cbn. tauto.
    + discriminate.
  - split; cbn [s' lg pins held sregs wr drt bad cold dead]; auto.
    intros r b k X. destruct (sregs s r) as [[y k']|]; [|discriminate].
    destruct (drt s y) eqn:E; [discriminate|]. inversion X; subst. auto.
Qed.

Lemma flush_spec c d s g :
  Inv None c d s g ->
  exists c' d', flush true wsize iter c d = Some (c', d') /\
    Inv None c' d' (sp_next s OFlush ROk) g /\
    forall b blk, lg s b = Some blk -> disk d' b = blk.
Proof.
  intros I. unfold flush. destruct (Inv_calm _ _ _ _ I) as [I1 CM].
  set (s1 := mkS _ _ _ _ _ _ _ _ _) in *.
  destruct (flush_fold (iter (bmap c)) c d s1 g I1 CM) as (c1 & d1 & bd & EF & I2 & HB & BM & DM & DL).
  { intros x X. apply (Permutation_in x (iter_perm (bmap c))). auto. }
  rewrite EF.
  assert (ND : forall b i, In (b, i) (bmap c1) -> dirty c1 i = false).
  { intros b i X. apply (DL (b, i)).
    apply (Permutation_in _ (Permutation_sym (iter_perm (bmap c)))). rewrite <- BM. auto. }
  pose proof (wb_flush_spec _ _ _ _ I2) as WF.
  destruct (wb_flush true wsize (wb c1) d1) as [w d2]. destruct WF as [I3 DV].
  eexists _, d2. split; [reflexivity|]. split.
  - inv I3.
    cbn [set_wb wb blocks bids retain dirty validity free reqs bmap pager st
         with_bad lg pins held sregs wr drt bad cold dead s1] in *.
    split; cbn [sp_next set_wb wb blocks bids retain dirty validity free reqs bmap pager st
         lg pins held sregs wr drt bad cold dead]; auto.
    + intros b i X D. rewrite (ND _ _ X) in D. discriminate.
    + intros b i blk k X HH B. apply k17; auto. destruct (bd b) eqn:E; auto.
      apply orb_false_iff in B. destruct B. destruct (HB b E) as [Y|Y]; cbn in Y; congruence.
  - intros b blk L. rewrite <- DV. apply (i_clean _ _ _ _ _ _ _ _ I3); auto.
    intros i X. apply (ND b i X).
Qed.

Lemma destroy_fold l : forall c cg d s g,
  Inv None cg d s g -> calm s -> (forall x, In x l -> In x (bmap cg)) ->
  NoDup (map snd l) ->
  wb c = wb cg -> blocks c = blocks cg -> bids c = bids cg -> reqs c = reqs cg ->
  (forall x, In x l -> dirty c (snd x) = dirty cg (snd x)) ->
  exists c' cg' d' bd,
    fold_left (fun r x => destroy_one true x r) l (Some (c, d)) = Some (c', d') /\
    wb c' = wb cg' /\ Inv None cg' d' (with_bad s bd) g /\ bmap cg' = bmap cg /\
    (forall i, dirty cg i = false -> dirty cg' i = false) /\
    (forall x, In x l -> dirty cg' (snd x) = false).
Proof.
  induction l as [|[b i] l IH]; intros c cg d s g I C SUB ND E1 E2 E3 E4 ED.
  { exists c, cg, d, (bad s). split; [reflexivity|]. split; [auto|].
    split; [destruct s; exact I|]. split; [auto|]. split; [auto|]. easy. }
  cbn [fold_left destroy_one snd].
  assert (H : In (b, i) (bmap cg)) by (apply SUB; left; auto).
  cbn in ND. inversion ND as [|? ? N1 N2]; subst.
  destruct (wait_opt_evolve nsub (reqs c i) d (i_okq _ _ _ _ _ _ _ _ I)) as [E N].
  set (d1 := wait_opt true (reqs c i) d) in *.
  assert (I1 := Inv_evolve _ _ _ _ _ _ _ _ _ I E).
  assert (ED0 := ED (b, i) (or_introl eq_refl)). cbn [snd] in ED0. rewrite ED0.
  destruct (dirty cg i) eqn:D.
  - destruct (flush_one_spec cg d1 s g b i I1 C H D) as (buf & w & d2 & bd & EW & I2 & HB).
    rewrite E1, E2, E3, EW.
    destruct (IH (set_wb c w (upd (blocks cg) i buf)) _ _ _ _ I2)
      as (c' & cg' & d' & bd' & EF & EWB & I3 & BM & DM & DL); auto.
    { intros x X. apply SUB. right; auto. }
    { intros x X. cbn [set_wb set_dirty dirty]. rewrite upd_neq.
      - apply ED. right; auto.
      - intros Z. apply N1. rewrite <- Z. apply (in_map snd). auto. }
    rewrite EF. exists c', cg', d', bd'. split; auto. split; auto. split; [exact I3|].
    split; auto. split.
    { intros j J. apply DM. cbn [set_dirty set_wb dirty]. unfold upd.
      destruct (Nat.eqb j i); auto. }
    intros x [<-|X]; auto. apply DM. cbn [set_dirty set_wb dirty snd]. apply upd_eq.
  - destruct (IH c cg d1 s g I1 C) as (c' & cg' & d' & bd' & EF & EWB & I3 & BM & DM & DL); auto.
    { intros x X. apply SUB. right; auto. }
    { intros x X. apply ED. right; auto. }
    rewrite EF. exists c', cg', d', bd'. split; auto. split; auto. split; auto. split; auto.
    split; auto. intros x [<-|X]; auto.
Qed.

Lemma destroy_spec c d s g :
  Inv None c d s g ->
  exists d', destroy true wsize iter c d = Some d' /\
    forall b blk, lg s b = Some blk -> disk d' b = blk.
Proof.
  intros I. unfold destroy. destruct (Inv_calm _ _ _ _ I) as [I1 CM].
  set (s1 := mkS _ _ _ _ _ _ _ _ _) in *.
  destruct (destroy_fold (iter (bmap c)) c c d s1 g I1 CM)
    as (c1 & cg & d1 & bd & EF & EW & I2 & BM & DM & DL); auto.
  { intros x X. apply (Permutation_in x (iter_perm (bmap c))). auto. }
  { eapply Permutation_NoDup; [apply Permutation_map; symmetry; apply iter_perm|].
    pose proof (slots_nodup _ _ _ _ _ _ _ _ I) as ND.
    clear - ND. induction (free c); auto. cbn in ND. inversion ND; auto. }
  rewrite EF.
  assert (ND : forall b i, In (b, i) (bmap cg) -> dirty cg i = false).
  { intros b i X. apply (DL (b, i)).
    apply (Permutation_in _ (Permutation_sym (iter_perm (bmap c)))). rewrite <- BM. auto. }
  pose proof (wb_flush_spec _ _ _ _ I2) as WF. rewrite EW.
  destruct (wb_flush true wsize (wb cg) d1) as [w d2]. destruct WF as [I3 DV].
  exists d2. split; [reflexivity|].
  intros b blk L. rewrite <- DV. apply (i_clean _ _ _ _ _ _ _ _ I3); auto.
  intros i X. apply (ND b i X).
Qed.

(** ** All operations *)

Lemma retain_spec c d s g b :
  Inv None c d s g ->
  exists t c', retain_block b c = (t, c') /\ (held s b = true -> t = true) /\
    Inv None c' d (sp_next s (ORetain b) (RBool t)) g.
Proof.
  intros I. unfold retain_block. destruct (bfind b (bmap c)) as [i|] eqn:EF.
  - apply bfind_in in EF. rewrite (i_pins _ _ _ _ _ _ _ _ I _ _ EF).
    eexists true, _. split; [reflexivity|]. split; auto. cbn [sp_next].
    apply Inv_pin; auto.
  - exists false, c. split; auto. split; auto. intros X. exfalso.
    apply (bfind_none _ _ EF). apply (i_held _ _ _ _ _ _ _ _ I). auto.
Qed.

Lemma release_spec c d s g b :
  Inv None c d s g ->
  let t := Nat.ltb 0 (pins s b) in
  exists c', release_block b c = (t, c') /\
    Inv None c' d (sp_next s (ORelease b) (RBool t)) g.
Proof.
  intros I t. unfold release_block. destruct (bfind b (bmap c)) as [i|] eqn:EF.
  - apply bfind_in in EF. pose proof (i_pins _ _ _ _ _ _ _ _ I _ _ EF) as P.
    rewrite P. unfold t. destruct (Nat.eqb_spec (pins s b) 0) as [E|E].
    + rewrite E. cbn. eauto.
    + assert (T : (0 <? pins s b) = true) by (apply Nat.ltb_lt; lia). rewrite T.
      eexists. split; [reflexivity|]. cbn [sp_next].
      eapply Inv_weaken; [exact (Inv_pin _ _ _ _ _ _ (pins s b - 1) I EF)|..];
        cbn [lg pins held sregs wr drt bad cold dead]; auto.
      * intros x X. unfold set. destruct (Nat.eqb x b); auto.
      * intros r x X. split; auto. destruct x as [x k].
        apply (i_regs _ _ _ _ _ _ _ _ I) in X. cbn. tauto.
      * intros x X. split; auto. apply (i_wr _ _ _ _ _ _ _ _ I) in X. tauto.
  - apply bfind_none in EF. unfold t. rewrite (i_pins0 _ _ _ _ _ _ _ _ I _ EF). cbn. eauto.
Qed.

Lemma step_spec m s o :
  Inv None (mc m) (md m) s (mregs m) -> legal nsub s o ->
  exists r m', m_step true csize wsize iter o m = Some (r, m') /\ sp_ok csize s o r /\
    (dead (sp_next s o r) = true \/ Inv None (mc m') (md m') (sp_next s o r) (mregs m')).
Proof.
  destruct m as [c d g]. cbn [mc md mregs]. intros I [DEAD L]. destruct o; cbn [m_step].
  - (* get *)
    destruct L as [L1 L2].
    destruct (get_spec csize wsize nsub cpos wpos c d s g b s0 r I L1 L2) as (o & c' & d' & E & H).
    rewrite E. destruct o as [p| |]; [| |easy]; eexists _, _; (split; [reflexivity|]); split;
      cbn [sp_ok sp_next mc md mregs]; auto; tauto.
  - (* prefetch *)
    destruct (prefetch_spec csize wsize nsub cpos wpos c d s g b I) as (o & c' & d' & E & H).
    rewrite E. destruct o as [p| |]; [| |easy]; eexists _, _; (split; [reflexivity|]); split;
      cbn [sp_ok sp_next mc md mregs]; auto; tauto.
  - (* retain *)
    destruct (retain_spec c d s g b I) as (t & c' & E & T & I'). rewrite E.
    eexists _, _. split; [reflexivity|]. split; [exists t; auto|]. right. exact I'.
  - (* release *)
    destruct (release_spec c d s g b I) as (c' & E & I'). rewrite E.
    eexists _, _. split; [reflexivity|]. split; [reflexivity|]. right. exact I'.
  - (* make_dirty *)
    destruct (make_dirty_spec c d s g b I L) as (t & c' & d' & E & T & I'). rewrite E.
    eexists _, _. split; [reflexivity|]. split; [exists t; auto|]. right.
    destruct t; exact I'.
  - (* load *)
    destruct (sregs s r) as [[b k]|] eqn:ES; [|easy].
    destruct (i_regs _ _ _ _ _ _ _ _ I _ _ _ ES) as (a1 & a2 & i & a3 & a4 & a5).
    rewrite a4. destruct (nth_error (heap d (blocks c i)) k) as [v|] eqn:EN.
    2:{ apply nth_error_None in EN.
        rewrite (q_heap _ _ (i_okq _ _ _ _ _ _ _ _ I)) in EN. lia. }
    eexists _, _. split; [reflexivity|]. split.
    + exists v. split; auto. intros b' k' blk E' L'. rewrite ES in E'. inversion E'; subst.
      rewrite <- (a5 blk L'). reflexivity.
    + right. exact I.
  - (* store *)
    destruct L as (b & k & ES & W).
    destruct (i_regs _ _ _ _ _ _ _ _ I _ _ _ ES) as (a1 & a2 & i & a3 & a4 & a5).
    destruct (i_wr _ _ _ _ _ _ _ _ I _ W) as (_ & i' & a6 & a7).
    assert (i' = i) by (eapply keys_inj; [apply I|..]; eauto). subst i'.
    rewrite a4. eexists _, _. split; [reflexivity|]. split; [reflexivity|]. right.
    cbn [sp_next mc md mregs]. rewrite ES. apply Inv_store; auto.
  - (* flush *)
    destruct (flush_spec c d s g I) as (c' & d' & E & I' & HD). rewrite E.
    eexists _, _. split; [reflexivity|]. split; [eexists; split; [reflexivity|exact HD]|].
    right. exact I'.
  - (* clear *)
    pose proof (clear_spec c d s g I) as H. destruct (clear true csize c d) as [c' d'].
    eexists _, _. split; [reflexivity|]. split; [reflexivity|]. right. exact H.
  - (* ext *)
    destruct L as [L1 L2]. unfold submit.
    eexists _, _. split; [reflexivity|]. split; [reflexivity|]. right.
    exact (ext_spec c d s g b blk I L1 L2).
  - (* env *)
    eexists _, _. split; [reflexivity|]. split; [reflexivity|]. right.
    cbn [sp_next mc md mregs].
    exact (Inv_evolve _ _ _ _ _ _ _ _ _ I (force_all_evolve nsub ids d (i_okq _ _ _ _ _ _ _ _ I))).
  - (* destroy *)
    destruct (destroy_spec c d s g I) as (d' & E & HD). rewrite E.
    eexists _, _. split; [reflexivity|]. split; [eexists; split; [reflexivity|exact HD]|].
    left. reflexivity.
Qed.

Lemma run_spec p : forall m s,
  (dead s = true \/ Inv None (mc m) (md m) s (mregs m)) ->
  conforms csize nsub sp_next (m_step true csize wsize iter) m s p.
Proof.
  induction p as [|o p IH]; intros m s H; cbn; auto.
  intros L. destruct H as [H|H].
  { destruct L. congruence. }
  destruct (step_spec m s o H L) as (r & m' & E & OK & H').
  exists r, m'. auto.
Qed.

Lemma init_spec (junk d0 : nat -> list V) o :
  (forall b, length (junk b) = nsub) -> (forall b, length (d0 b) = nsub) ->
  Inv None (c_init csize wsize) (mkDev junk d0 [] 0 o) (s_init d0) (fun _ => None).
Proof.
  intros J D.
  split; cbn [c_init s_init wb blocks bids retain dirty validity free reqs bmap pager st
              lg pins held sregs wr drt bad cold dead heap disk queue nextq orc map]; auto; try easy.
  - split; cbn [heap disk queue nextq]; auto; try easy.
    + constructor.
    + intros q1 id r q2 buf b k E. destruct q1; discriminate.
  - constructor.
  - rewrite app_nil_r. symmetry. apply Permutation_rev.
  - intros. cbn. lia.
  - split; cbn [w_free w_busy w_blocks w_reqs queue].
    + rewrite app_nil_r. symmetry. apply Permutation_rev.
    + intros. lia.
    + easy.
  - intros b blk [= <-] _. reflexivity.
  - intros b blk [= <-]. auto.
Qed.

Theorem cache_conforms (junk d0 : nat -> list V) o p :
  (forall b, length (junk b) = nsub) -> (forall b, length (d0 b) = nsub) ->
  conforms csize nsub sp_next (m_step true csize wsize iter) (m_init csize wsize junk d0 o) (s_init d0) p.
Proof.
  intros J D. apply run_spec. right. exact (init_spec junk d0 o J D).
Qed.

End Ops.
