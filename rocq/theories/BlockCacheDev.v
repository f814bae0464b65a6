(** * Lemmas on the device of the block cache: service in order of submission
    does not change what a block will contain *)
From Coq Require Import Arith Bool List Lia Permutation.
From Verif Require Import BlockCacheModel.
Import ListNotations.

Lemma upd_eq {A} (f : nat -> A) i v : upd f i v i = v.
Proof. unfold upd. now rewrite Nat.eqb_refl. Qed.

Lemma upd_neq {A} (f : nat -> A) i v j : j <> i -> upd f i v j = f j.
Proof. intros H. unfold upd. apply Nat.eqb_neq in H. now rewrite H. Qed.

Lemma lset_length {A} (l : list A) i v : length (lset l i v) = length l.
Proof. revert i. induction l; intros [|i]; cbn; auto. Qed.

Lemma lset_nth_eq {A} (l : list A) i v :
  i < length l -> nth_error (lset l i v) i = Some v.
Proof.
  revert i. induction l; intros [|i] H; cbn in *; try lia; auto.
  apply IHl. lia.
Qed.

Lemma lset_nth_neq {A} (l : list A) i v j :
  i <> j -> nth_error (lset l i v) j = nth_error l j.
Proof.
  revert i j. induction l; intros [|i] [|j] H; cbn; auto; try lia.
Qed.

Lemma nth_ext_e {A} (l l' : list A) :
  (forall k, nth_error l k = nth_error l' k) -> l = l'.
Proof.
  revert l'. induction l as [|x l IH]; intros [|y l'] H; auto.
  - specialize (H 0). discriminate.
  - specialize (H 0). discriminate.
  - f_equal.
    + specialize (H 0). cbn in H. congruence.
    + apply IH. intros k. apply (H (S k)).
Qed.

Section Dev.
Context {V : Type}.
Notation dev := (dev V).
Notation rq := (rq V).

Definition is_write (r : rq) (b : nat) : Prop :=
  (exists buf, r = QWrite buf b) \/ (exists blk, r = QExt b blk).

Definition reads (r : rq) (buf b k : nat) : Prop :=
  r = QRead buf b \/ r = QSub buf b k.

(** what the block will contain when everything pending has been served *)
Definition apply_w (h : nat -> list V) (b : nat) (v : list V) (x : nat * rq) : list V :=
  match snd x with
  | QWrite buf b' => if Nat.eqb b' b then h buf else v
  | QExt b' blk => if Nat.eqb b' b then blk else v
  | _ => v
  end.

Definition dv (d : dev) (b : nat) : list V :=
  fold_left (apply_w (heap d) b) (queue d) (disk d b).

Definition later_ok (q : list (nat * rq)) : Prop :=
  forall q1 id r q2 buf b k, q = q1 ++ (id, r) :: q2 -> reads r buf b k ->
    forall id' r', In (id', r') q2 -> ~ is_write r' b.

Record okq (nsub : nat) (d : dev) : Prop := {
  q_nodup : NoDup (map fst (queue d));
  q_lt : forall id r, In (id, r) (queue d) -> id < nextq d;
  q_sep : forall id r id' buf b k b',
      In (id, r) (queue d) -> reads r buf b k ->
      ~ In (id', QWrite buf b') (queue d);
  q_same : forall id r id' r' buf b k b' k',
      In (id, r) (queue d) -> reads r buf b k ->
      In (id', r') (queue d) -> reads r' buf b' k' -> b = b';
  q_later : later_ok (queue d);
  q_ext : forall id b blk, In (id, QExt b blk) (queue d) -> length blk = nsub;
  q_disk : forall b, length (disk d b) = nsub;
  q_heap : forall buf, length (heap d buf) = nsub
}.

Record evolve (nsub : nat) (d d' : dev) : Prop := {
  e_ok : okq nsub d';
  e_in : forall x, In x (queue d') -> In x (queue d);
  e_dv : forall b, dv d' b = dv d b;
  e_next : nextq d' = nextq d;
  e_heap : forall buf k,
      nth_error (heap d' buf) k = nth_error (heap d buf) k \/
      exists id r b, In (id, r) (queue d) /\ reads r buf b k /\
                     nth_error (heap d' buf) k = nth_error (dv d b) k;
  e_served : forall id r buf b k,
      In (id, r) (queue d) -> ~ In (id, r) (queue d') -> reads r buf b k ->
      nth_error (heap d' buf) k = nth_error (dv d b) k
}.

Lemma evolve_refl nsub d : okq nsub d -> evolve nsub d d.
Proof.
  intros H. split; auto. intros; contradiction.
Qed.

Lemma evolve_trans nsub d1 d2 d3 :
  okq nsub d1 ->
  evolve nsub d1 d2 -> evolve nsub d2 d3 -> evolve nsub d1 d3.
Proof.
  intros OK [o1 i1 v1 n1 h1 s1] [o2 i2 v2 n2 h2 s2].
  split; [exact o2|auto|intros b; rewrite (v2 b); auto|congruence| |].
  - intros buf k. destruct (h2 buf k) as [E|(id & r & b & I & R & E)].
    + rewrite E. destruct (h1 buf k) as [E1|X]; auto.
    + right. exists id, r, b. split; [auto|]. split; auto.
      rewrite E. now rewrite v1.
  - intros id r buf b k I NI R.
    destruct (h2 buf k) as [E|(id' & r' & b' & I' & R' & E)].
    + assert (D : In (id, r) (queue d2) \/ ~ In (id, r) (queue d2)).
      { (* decidable through ids *)
        destruct (in_dec Nat.eq_dec id (map fst (queue d2))) as [J|J].
        - apply in_map_iff in J. destruct J as ([id0 r0] & Ei & J). cbn in Ei. subst id0.
          left. assert (r0 = r); [|now subst].
          apply i1 in J.
          pose proof (q_nodup _ _ OK) as ND.
          clear - ND I J. induction (queue d1) as [|[a ra] l IH]; [easy|].
          cbn in ND. inversion ND; subst.
          destruct I as [I|I], J as [J|J].
          + congruence.
          + inversion I; subst. exfalso. apply H1. apply (in_map fst) in J. auto.
          + inversion J; subst. exfalso. apply H1. apply (in_map fst) in I. auto.
          + auto.
        - right. intros X. apply J. apply (in_map fst) in X. auto. }
      destruct D as [D|D].
      * rewrite (s2 _ _ _ _ _ D NI R). now rewrite v1.
      * rewrite E. eapply s1; eauto.
    + apply i1 in I'. rewrite E, v1. f_equal. f_equal.
      exact (q_same _ _ OK _ _ _ _ _ _ _ _ _ I' R' I R).
Qed.

Lemma fold_apply_app h b q1 q2 v :
  fold_left (apply_w h b) (q1 ++ q2) v =
  fold_left (apply_w h b) q2 (fold_left (apply_w h b) q1 v).
Proof. apply fold_left_app. Qed.

Lemma fold_apply_none h b q v :
  (forall id r, In (id, r) q -> ~ is_write r b) ->
  fold_left (apply_w h b) q v = v.
Proof.
  revert v. induction q as [|[id r] q IH]; intros v H; auto.
  cbn. rewrite IH.
  - unfold apply_w. cbn. destruct r; auto.
    + destruct (Nat.eqb_spec b0 b); auto. subst.
      exfalso. eapply (H id); [left; auto|]. left; eauto.
    + destruct (Nat.eqb_spec b0 b); auto. subst.
      exfalso. eapply (H id); [left; auto|]. right; eauto.
  - intros id' r' I. apply (H id'). right; auto.
Qed.

Lemma fold_apply_heap h h' b q v :
  (forall id buf b', In (id, QWrite buf b') q -> h' buf = h buf) ->
  fold_left (apply_w h' b) q v = fold_left (apply_w h b) q v.
Proof.
  revert v. induction q as [|[id r] q IH]; intros v H; auto.
  cbn. rewrite IH.
  - f_equal. unfold apply_w. cbn. destruct r; auto.
    destruct (Nat.eqb b0 b); auto. eapply (H id). left; reflexivity.
  - intros. eapply (H id0). right; eauto.
Qed.

Lemma lookup_split id (q : list (nat * rq)) r :
  lookup id q = Some r ->
  exists q1 q2, q = q1 ++ (id, r) :: q2 /\ ~ In id (map fst q1).
Proof.
  unfold lookup. induction q as [|[a ra] q IH]; cbn; [discriminate|].
  destruct (Nat.eqb_spec a id).
  - cbn. intros E. inversion E; subst. exists [], q. auto.
  - intros E. destruct (IH E) as (q1 & q2 & -> & N).
    exists ((a, ra) :: q1), q2. split; auto. cbn. intros [X|X]; auto.
Qed.

Lemma lookup_none id (q : list (nat * rq)) :
  lookup id q = None -> ~ In id (map fst q).
Proof.
  unfold lookup. induction q as [|[a ra] q IH]; cbn; [auto|].
  destruct (Nat.eqb_spec a id); [discriminate|].
  intros E [X|X]; auto. exact (IH E X).
Qed.

Lemma drop_none id (q : list (nat * rq)) :
  ~ In id (map fst q) -> drop id q = q.
Proof.
  unfold drop. induction q as [|[a ra] q IH]; cbn; auto.
  intros N. destruct (Nat.eqb_spec a id); [exfalso; auto|].
  cbn. f_equal. auto.
Qed.

Lemma drop_split id (q1 q2 : list (nat * rq)) r :
  NoDup (map fst (q1 ++ (id, r) :: q2)) ->
  drop id (q1 ++ (id, r) :: q2) = q1 ++ q2.
Proof.
  intros ND. unfold drop. rewrite filter_app. cbn.
  rewrite Nat.eqb_refl. cbn.
  rewrite map_app in ND. cbn in ND. apply NoDup_remove_2 in ND.
  fold (drop id q1). fold (drop id q2). rewrite !drop_none; auto;
    intros X; apply ND; apply in_or_app; auto.
Qed.

Lemma lookup_in id (q : list (nat * rq)) r :
  NoDup (map fst q) -> In (id, r) q -> lookup id q = Some r.
Proof.
  intros ND I. unfold lookup. induction q as [|[a ra] q IH]; [easy|].
  cbn in *. inversion ND; subst. destruct I as [I|I].
  - inversion I; subst. now rewrite Nat.eqb_refl.
  - destruct (Nat.eqb_spec a id); auto. subst. exfalso. apply H1.
    apply (in_map fst) in I. auto.
Qed.

Lemma later_ok_remove (q1 q2 : list (nat * rq)) x :
  later_ok (q1 ++ x :: q2) -> later_ok (q1 ++ q2).
Proof.
  intros L p1 id r p2 buf b k E R id' r' I'.
  (* position of (id,r) is in q1 or in q2 *)
  assert (D : (exists m, q1 = p1 ++ (id, r) :: m /\ p2 = m ++ q2) \/
              (exists m, p1 = q1 ++ m /\ q2 = m ++ (id, r) :: p2)).
  { clear - E. revert p1 E. induction q1 as [|y q1 IH]; intros p1 E; cbn in *.
    - right. exists p1. auto.
    - destruct p1 as [|z p1]; cbn in E; inversion E; subst.
      + left. exists q1. auto.
      + destruct (IH _ H1) as [(m & -> & ->)|(m & -> & ->)].
        * left. exists m. auto.
        * right. exists m. auto. }
  destruct D as [(m & -> & ->)|(m & -> & ->)].
  - assert (E2 : (p1 ++ (id, r) :: m) ++ x :: q2 = p1 ++ (id, r) :: (m ++ x :: q2)).
    { now rewrite <- app_assoc. }
    apply (L _ _ _ _ _ _ _ E2 R id' r').
    apply in_app_or in I'. apply in_or_app. destruct I'; auto. right; right; auto.
  - assert (E2 : q1 ++ x :: m ++ (id, r) :: p2 = (q1 ++ x :: m) ++ (id, r) :: p2).
    { now rewrite <- app_assoc. }
    exact (L _ _ _ _ _ _ _ E2 R id' r' I').
Qed.

(** serving a request with no earlier request for its block *)
Lemma serve_evolve nsub d id r q1 q2 :
  okq nsub d ->
  queue d = q1 ++ (id, r) :: q2 ->
  (forall id' r', In (id', r') q1 -> rq_bid r' <> rq_bid r) ->
  evolve nsub d (serve id d) /\ queue (serve id d) = q1 ++ q2.
Proof.
  intros OK EQ FIRST.
  assert (LK : lookup id (queue d) = Some r).
  { apply lookup_in. { apply OK. } rewrite EQ. apply in_or_app. right; left; auto. }
  pose proof (q_nodup _ _ OK) as ND.
  assert (DS : drop id (queue d) = q1 ++ q2).
  { rewrite EQ. apply (drop_split id q1 q2 r). now rewrite <- EQ. }
  unfold serve. rewrite LK, DS.
  assert (QE : queue (exec r (set_queue d (q1 ++ q2))) = q1 ++ q2).
  { unfold exec. destruct r; cbn [set_queue heap disk queue nextq orc]; auto.
    destruct (nth_error (disk d b) s); auto. }
  split; [|exact QE].
  assert (INc : forall x, In x (q1 ++ q2) -> In x (queue d)).
  { intros x I. rewrite EQ. apply in_app_or in I. apply in_or_app.
    destruct I; auto. right; right; auto. }
  assert (INS : forall x, In x (queue d) -> x = (id, r) \/ In x (q1 ++ q2)).
  { intros x I. rewrite EQ in I. apply in_app_or in I.
    destruct I as [I|[I|I]]; auto; right; apply in_or_app; auto. }
  assert (FW : forall b, (exists buf, r = QWrite buf b) \/ (exists blk, r = QExt b blk) \/
                 (exists buf k, reads r buf b k) -> forall id' r', In (id', r') q1 -> ~ is_write r' b).
  { intros b Hb id' r' I W. apply (FIRST _ _ I).
    assert (E1 : rq_bid r = b).
    { destruct Hb as [(buf & ->)|[(blk & ->)|(buf & k & [->| ->])]]; auto. }
    rewrite E1. destruct W as [(buf & ->)|(blk & ->)]; auto. }
  assert (INR : In (id, r) (queue d)).
  { rewrite EQ. apply in_or_app. right; left; auto. }
  assert (DVr : forall b buf k, reads r buf b k -> dv d b = disk d b).
  { intros b buf k R. unfold dv. rewrite EQ, fold_apply_app. cbn [fold_left].
    rewrite (fold_apply_none _ _ q1).
    2:{ apply FW. right; right; eauto. }
    assert (X : apply_w (heap d) b (disk d b) (id, r) = disk d b).
    { unfold apply_w. cbn [snd]. destruct R as [->| ->]; auto. }
    rewrite X. apply fold_apply_none.
    intros id' r' I. eapply (q_later _ _ OK); eauto. }
  (* okq except lengths of heap and disk *)
  assert (OK' : okq nsub (exec r (set_queue d (q1 ++ q2)))).
  { destruct OK as [a1 a2 a3 a4 a5 a6 a7 a8].
    split; rewrite ?QE.
    - rewrite EQ, map_app in ND. cbn in ND. apply NoDup_remove_1 in ND.
      now rewrite map_app.
    - intros id' r' I. replace (nextq _) with (nextq d). { eauto. }
      unfold exec. destruct r; auto. cbn [set_queue disk].
      destruct (nth_error (disk d b) s); auto.
    - intros id0 r0 id' buf b k b' I R X. exact (a3 _ _ _ _ _ _ _ (INc _ I) R (INc _ X)).
    - intros id0 r0 id' r' buf b k b' k' I R I' R'. exact (a4 _ _ _ _ _ _ _ _ _ (INc _ I) R (INc _ I') R').
    - rewrite EQ in a5. eapply later_ok_remove; eauto.
    - intros id0 b blk I. exact (a6 _ _ _ (INc _ I)).
    - intros b. unfold exec. destruct r; cbn [set_queue heap disk]; auto.
      + destruct (nth_error (disk d b0) s); cbn [disk set_queue]; auto.
      + unfold upd. destruct (Nat.eqb b b0); auto.
      + unfold upd. destruct (Nat.eqb b b0); auto.
        eapply a6. exact INR.
    - intros buf. unfold exec. destruct r; cbn [set_queue heap disk]; auto.
      + unfold upd. destruct (Nat.eqb buf buf0); auto.
      + destruct (nth_error (disk d b) s); cbn [heap set_queue]; auto.
        unfold upd. destruct (Nat.eqb buf buf0); auto.
        rewrite lset_length. auto. }
  assert (DV' : forall b, dv (exec r (set_queue d (q1 ++ q2))) b = dv d b).
  { intros b. unfold dv at 1. rewrite QE. unfold dv. rewrite EQ.
    rewrite !fold_apply_app. cbn [fold_left].
    destruct r as [buf b0|buf b0 s|buf b0|b0 blk]; unfold exec; cbn [set_queue heap disk queue].
    - cbn [apply_w snd].
      rewrite (fold_apply_heap (heap d) (upd (heap d) buf (disk d b0)) b q2).
      2:{ intros id' buf' b' I. apply upd_neq. intros ->.
          apply (q_sep _ _ OK id (QRead buf b0) id' buf b0 0 b'); [exact INR|left; reflexivity|].
          apply INc, in_or_app. right; eauto. }
      rewrite (fold_apply_heap (heap d) (upd (heap d) buf (disk d b0)) b q1).
      2:{ intros id' buf' b' I. apply upd_neq. intros ->.
          apply (q_sep _ _ OK id (QRead buf b0) id' buf b0 0 b'); [exact INR|left; reflexivity|].
          apply INc, in_or_app. left; eauto. }
      reflexivity.
    - cbn [apply_w snd].
      destruct (nth_error (disk d b0) s); cbn [heap disk]; auto.
      rewrite (fold_apply_heap (heap d) (upd (heap d) buf (lset (heap d buf) s v)) b q2).
      2:{ intros id' buf' b' I. apply upd_neq. intros ->.
          eapply (q_sep _ _ OK id (QSub buf b0 s)); [exact INR|right; reflexivity|].
          apply INc, in_or_app. right; eauto. }
      rewrite (fold_apply_heap (heap d) (upd (heap d) buf (lset (heap d buf) s v)) b q1).
      2:{ intros id' buf' b' I. apply upd_neq. intros ->.
          eapply (q_sep _ _ OK id (QSub buf b0 s)); [exact INR|right; reflexivity|].
          apply INc, in_or_app. left; eauto. }
      reflexivity.
    - destruct (Nat.eq_dec b b0) as [->|N].
      + rewrite upd_eq.
        rewrite !(fold_apply_none _ _ q1).
        2,3: apply FW; left; eauto.
        unfold apply_w at 3. cbn [snd]. now rewrite Nat.eqb_refl.
      + rewrite upd_neq by auto. unfold apply_w at 4. cbn [snd].
        apply Nat.eqb_neq in N. rewrite Nat.eqb_sym in N. now rewrite N.
    - destruct (Nat.eq_dec b b0) as [->|N].
      + rewrite upd_eq.
        rewrite !(fold_apply_none _ _ q1).
        2,3: apply FW; right; left; eauto.
        unfold apply_w at 3. cbn [snd]. now rewrite Nat.eqb_refl.
      + rewrite upd_neq by auto. unfold apply_w at 4. cbn [snd].
        apply Nat.eqb_neq in N. rewrite Nat.eqb_sym in N. now rewrite N. }
  assert (HP : forall buf k,
      nth_error (heap (exec r (set_queue d (q1 ++ q2))) buf) k = nth_error (heap d buf) k /\
        (forall b, ~ reads r buf b k) \/
      exists b, reads r buf b k /\
        nth_error (heap (exec r (set_queue d (q1 ++ q2))) buf) k = nth_error (dv d b) k).
  { intros buf k. destruct r as [buf0 b0|buf0 b0 s|buf0 b0|b0 blk]; unfold exec;
      cbn [set_queue heap disk queue].
    - destruct (Nat.eq_dec buf buf0) as [->|N].
      + right. exists b0. split; [left; auto|]. rewrite upd_eq.
        rewrite (DVr b0 buf0 k); auto. left; auto.
      + left. rewrite upd_neq by auto. split; auto. intros b [X|X]; congruence.
    - destruct (nth_error (disk d b0) s) as [v|] eqn:En; cbn [heap].
      + destruct (Nat.eq_dec buf buf0) as [->|N].
        * rewrite upd_eq. destruct (Nat.eq_dec s k) as [->|Nk].
          { right. exists b0. split; [right; auto|].
            rewrite lset_nth_eq. { rewrite (DVr b0 buf0 k); auto. right; auto. }
            rewrite (q_heap _ _ OK). rewrite <- (q_disk _ _ OK b0).
            apply nth_error_Some. congruence. }
          { left. rewrite lset_nth_neq by auto. split; auto. intros b [X|X]; congruence. }
        * left. rewrite upd_neq by auto. split; auto. intros b [X|X]; congruence.
      + destruct (Nat.eq_dec buf buf0) as [->|N].
        * destruct (Nat.eq_dec s k) as [->|Nk].
          { right. exists b0. split; [right; auto|].
            rewrite (DVr b0 buf0 k); [|right; auto]. rewrite En.
            cbn [set_queue heap]. apply nth_error_None. apply nth_error_None in En.
            rewrite (q_heap _ _ OK). rewrite (q_disk _ _ OK) in En. auto. }
          { left. split; auto. intros b [X|X]; congruence. }
        * left. split; auto. intros b [X|X]; congruence.
    - left. split; auto. intros b [X|X]; congruence.
    - left. split; auto. intros b [X|X]; congruence. }
  split; auto.
  - intros x. rewrite QE. auto.
  - unfold exec. destruct r; auto. cbn [set_queue disk].
    destruct (nth_error (disk d b) s); auto.
  - intros buf k. destruct (HP buf k) as [(E & _)|(b & R & E)]; auto.
    right. exists id, r, b. auto.
  - intros id' r' buf b k I NI R. rewrite QE in NI.
    destruct (INS _ I) as [X|X]; [|contradiction].
    inversion X; subst. destruct (HP buf k) as [(_ & N)|(b' & R' & E)].
    + exfalso. eapply N; eauto.
    + rewrite E. f_equal. f_equal.
      destruct R as [->| ->], R' as [Z|Z]; congruence.
Qed.

Lemma oldest_split b (q : list (nat * rq)) :
  (exists id r, In (id, r) q /\ rq_bid r = b) ->
  exists id r q1 q2, oldest b q = Some id /\ q = q1 ++ (id, r) :: q2 /\ rq_bid r = b /\
    forall id' r', In (id', r') q1 -> rq_bid r' <> b.
Proof.
  unfold oldest. induction q as [|[a ra] q IH]; intros (id & r & I & E); [easy|].
  cbn. destruct (Nat.eqb_spec (rq_bid ra) b).
  - exists a, ra, [], q. cbn. repeat split; auto; intros ? ? [].
  - destruct IH as (id1 & r1 & q1 & q2 & H1 & -> & H2 & H3).
    { destruct I as [I|I]; [inversion I; subst; contradiction|]. eauto. }
    exists id1, r1, ((a, ra) :: q1), q2. split; [exact H1|]. split; auto. split; auto.
    intros id' r' [X|X]; [inversion X; subst; auto|eauto].
Qed.

Lemma force_evolve nsub n id d :
  okq nsub d -> length (queue d) < n ->
  evolve nsub d (force true n id d) /\
  ~ In id (map fst (queue (force true n id d))).
Proof.
  revert d. induction n as [|n IH]; intros d OK L; [lia|].
  cbn [force]. destruct (lookup id (queue d)) as [r|] eqn:LK.
  2:{ split. { now apply evolve_refl. } now apply lookup_none. }
  destruct (lookup_split _ _ _ LK) as (q1 & q2 & EQ & _).
  destruct (oldest_split (rq_bid r) (queue d)) as (id1 & r1 & p1 & p2 & EO & EP & EB & FIRST).
  { exists id, r. split; auto. rewrite EQ. apply in_or_app. right; left; auto. }
  rewrite EO.
  destruct (serve_evolve nsub d id1 r1 p1 p2 OK EP) as [EV QS].
  { rewrite EB. auto. }
  destruct (IH (serve id1 d)) as [EV2 N].
  { apply EV. }
  { rewrite QS. rewrite EP in L. rewrite app_length in *. cbn in L. lia. }
  split; auto. eapply evolve_trans; eauto.
Qed.

Lemma force_all_evolve nsub ids d :
  okq nsub d -> evolve nsub d (force_all true ids d).
Proof.
  unfold force_all. revert d. induction ids as [|id ids IH]; intros d OK.
  { now apply evolve_refl. }
  cbn [fold_left].
  destruct (force_evolve nsub (S (length (queue d))) id d OK) as [E _]; auto.
  eapply evolve_trans; [auto|exact E|]. apply IH. apply E.
Qed.

Lemma set_orc_evolve nsub d o : okq nsub d -> evolve nsub d (set_orc d o).
Proof.
  intros [a1 a2 a3 a4 a5 a6 a7 a8].
  split; auto; [split; auto | intros; contradiction].
Qed.

Lemma drift_evolve nsub d : okq nsub d -> evolve nsub d (drift true d).
Proof.
  intros OK. unfold drift. destruct (orc d) as [|ids o].
  { now apply evolve_refl. }
  eapply evolve_trans; [auto|apply set_orc_evolve; auto|].
  apply force_all_evolve. apply (set_orc_evolve nsub d o OK).
Qed.

Lemma wait_evolve nsub id d :
  okq nsub d ->
  evolve nsub d (wait true id d) /\ ~ In id (map fst (queue (wait true id d))).
Proof.
  intros OK. unfold wait. cbv zeta.
  pose proof (drift_evolve nsub d OK) as E1.
  destruct (force_evolve nsub (S (length (queue (drift true d)))) id (drift true d)) as [E2 N]; auto.
  { apply E1. }
  split; auto. eapply evolve_trans; eauto.
Qed.

Lemma wait_opt_evolve nsub o d :
  okq nsub d ->
  evolve nsub d (wait_opt true o d) /\
  forall id, o = Some id -> ~ In id (map fst (queue (wait_opt true o d))).
Proof.
  intros OK. destruct o as [id|]; cbn [wait_opt].
  - destruct (wait_evolve nsub id d OK). split; auto. intros ? [= <-]. auto.
  - split; [now apply evolve_refl|]. discriminate.
Qed.

Lemma later_ok_app (q : list (nat * rq)) id r :
  later_ok q ->
  (forall b, is_write r b -> forall id' r' buf k, In (id', r') q -> ~ reads r' buf b k) ->
  later_ok (q ++ [(id, r)]).
Proof.
  intros L H q1 id1 r1 q2 buf b k E R id' r' I'.
  assert (D : (exists m, q = q1 ++ (id1, r1) :: m /\ q2 = m ++ [(id, r)]) \/ q2 = []).
  { clear - E. revert q1 E. induction q as [|y q IH]; intros q1 E; cbn in *.
    - destruct q1 as [|z [|z' q1]]; cbn in E; inversion E; subst; auto.
    - destruct q1 as [|z q1]; cbn in E; inversion E; subst.
      + left. exists q. auto.
      + destruct (IH _ H1) as [(m & -> & ->)| ->]; auto. left. exists m. auto. }
  destruct D as [(m & -> & ->)| ->]; [|easy].
  apply in_app_or in I'. destruct I' as [I'|[I'|[]]].
  - eapply L; eauto.
  - inversion I'; subst. intros W. eapply (H _ W id1 r1); eauto.
    apply in_or_app. right; left; auto.
Qed.

Lemma submit_fields (r : rq) d :
  fst (submit r d) = nextq d /\
  heap (snd (submit r d)) = heap d /\ disk (snd (submit r d)) = disk d /\
  queue (snd (submit r d)) = queue d ++ [(nextq d, r)] /\
  nextq (snd (submit r d)) = S (nextq d).
Proof. cbn. auto. Qed.

(** submitting a read into a buffer that is not being written *)
Lemma submit_read nsub d r buf b :
  okq nsub d -> (r = QRead buf b \/ exists k, r = QSub buf b k) ->
  (forall id b', ~ In (id, QWrite buf b') (queue d)) ->
  (forall id r' b' k, In (id, r') (queue d) -> reads r' buf b' k -> b' = b) ->
  okq nsub (snd (submit r d)) /\ (forall b', dv (snd (submit r d)) b' = dv d b').
Proof.
  intros OK HR NW SAME. destruct OK as [a1 a2 a3 a4 a5 a6 a7 a8].
  assert (RB : forall buf' b' k, reads r buf' b' k -> buf' = buf /\ b' = b).
  { intros buf' b' k [R|R]; destruct HR as [->|(k' & ->)]; inversion R; subst; auto. }
  split.
  - split; cbn [submit snd queue nextq heap disk]; auto.
    + rewrite map_app. cbn [map fst].
      apply (Permutation_NoDup (l := nextq d :: map fst (queue d))).
      { apply Permutation_cons_append. }
      constructor; auto. intros X. apply in_map_iff in X.
      destruct X as ([id r0] & E & X). cbn in E. subst. apply a2 in X. lia.
    + intros id r0 I. apply in_app_or in I. destruct I as [I|[I|[]]].
      * apply a2 in I. lia.
      * inversion I; subst. lia.
    + intros id r0 id' buf' b' k b'' I R I'.
      apply in_app_or in I. apply in_app_or in I'.
      destruct I' as [I'|[I'|[]]].
      * destruct I as [I|[I|[]]].
        { exact (a3 _ _ _ _ _ _ _ I R I'). }
        { inversion I; subst. apply RB in R. destruct R; subst. eapply NW; eauto. }
      * inversion I'; subst. destruct HR as [X|(? & X)]; discriminate.
    + intros id r0 id' r' buf' b' k b'' k' I R I' R'.
      apply in_app_or in I. apply in_app_or in I'.
      destruct I as [I|[I|[]]], I' as [I'|[I'|[]]].
      * exact (a4 _ _ _ _ _ _ _ _ _ I R I' R').
      * inversion I'; subst. apply RB in R'. destruct R'; subst. exact (SAME _ _ _ _ I R).
      * inversion I; subst. apply RB in R. destruct R; subst. symmetry. exact (SAME _ _ _ _ I' R').
      * inversion I; inversion I'; subst. apply RB in R. apply RB in R'.
        destruct R, R'; congruence.
    + apply later_ok_app; auto. intros b' W. exfalso.
      destruct HR as [->|(k & ->)], W as [(x & W)|(x & W)]; discriminate.
    + intros id b' blk I. apply in_app_or in I. destruct I as [I|[I|[]]]; eauto.
      inversion I; subst. destruct HR as [X|(? & X)]; discriminate.
  - intros b'. unfold dv. cbn [submit snd queue heap disk].
    rewrite fold_apply_app. cbn [fold_left].
    destruct HR as [->|(k & ->)]; reflexivity.
Qed.

(** submitting a write *)
Lemma submit_write nsub d r b v :
  okq nsub d ->
  ((exists buf, r = QWrite buf b /\ v = heap d buf /\
                forall id r' b' k, In (id, r') (queue d) -> ~ reads r' buf b' k) \/
   (r = QExt b v /\ length v = nsub)) ->
  (forall id r' buf k, In (id, r') (queue d) -> ~ reads r' buf b k) ->
  okq nsub (snd (submit r d)) /\
  (forall b', dv (snd (submit r d)) b' = upd (dv d) b v b').
Proof.
  intros OK HR NR. destruct OK as [a1 a2 a3 a4 a5 a6 a7 a8].
  assert (NB : forall buf b' k, ~ reads r buf b' k).
  { intros buf' b' k [R|R]; destruct HR as [(? & -> & _)|(-> & _)]; discriminate. }
  split.
  - split; cbn [submit snd queue nextq heap disk]; auto.
    + rewrite map_app. cbn [map fst].
      apply (Permutation_NoDup (l := nextq d :: map fst (queue d))).
      { apply Permutation_cons_append. }
      constructor; auto. intros X. apply in_map_iff in X.
      destruct X as ([id r0] & E & X). cbn in E. subst. apply a2 in X. lia.
    + intros id r0 I. apply in_app_or in I. destruct I as [I|[I|[]]].
      * apply a2 in I. lia.
      * inversion I; subst. lia.
    + intros id r0 id' buf' b' k b'' I R I'.
      apply in_app_or in I. apply in_app_or in I'.
      destruct I as [I|[I|[]]].
      2:{ inversion I; subst. eapply NB; eauto. }
      destruct I' as [I'|[I'|[]]].
      * exact (a3 _ _ _ _ _ _ _ I R I').
      * inversion I'; subst. destruct HR as [(buf & X & _ & N)|(X & _)]; [|discriminate].
        inversion X; subst. exact (N _ _ _ _ I R).
    + intros id r0 id' r' buf' b' k b'' k' I R I' R'.
      apply in_app_or in I. apply in_app_or in I'.
      destruct I as [I|[I|[]]], I' as [I'|[I'|[]]].
      * exact (a4 _ _ _ _ _ _ _ _ _ I R I' R').
      * inversion I'; subst. exfalso. eapply NB; eauto.
      * inversion I; subst. exfalso. eapply NB; eauto.
      * inversion I; subst. exfalso. eapply NB; eauto.
    + apply later_ok_app; auto. intros b' W id' r' buf k I.
      assert (b' = b).
      { destruct HR as [(buf' & -> & _)|(-> & _)], W as [(x & W)|(x & W)]; inversion W; auto. }
      subst. apply (NR id'); auto.
    + intros id b' blk I. apply in_app_or in I. destruct I as [I|[I|[]]]; eauto.
      inversion I; subst. destruct HR as [(? & X & _)|(X & L)]; [discriminate|].
      inversion X; subst. auto.
  - intros b'. unfold dv. cbn [submit snd queue heap disk].
    rewrite fold_apply_app. cbn [fold_left]. unfold apply_w at 1. cbn [snd].
    destruct HR as [(buf & -> & -> & _)|(-> & _)];
      destruct (Nat.eqb_spec b b').
    + subst. now rewrite upd_eq.
    + rewrite upd_neq by auto. reflexivity.
    + subst. now rewrite upd_eq.
    + rewrite upd_neq by auto. reflexivity.
Qed.

(** removing a pending read *)
Lemma cancel_spec nsub id d :
  okq nsub d ->
  (forall r, In (id, r) (queue d) -> forall b, ~ is_write r b) ->
  okq nsub (cancel true id d) /\
  (forall b, dv (cancel true id d) b = dv d b) /\
  (forall x, In x (queue (cancel true id d)) -> In x (queue d)) /\
  ~ In id (map fst (queue (cancel true id d))).
Proof.
  intros OK NW. unfold cancel. cbv zeta.
  pose proof (drift_evolve nsub d OK) as [o i v n h s].
  set (d1 := drift true d) in *.
  assert (NW1 : forall r, In (id, r) (queue d1) -> forall b, ~ is_write r b).
  { intros r I. apply NW. auto. }
  clearbody d1.
  assert (NI : ~ In id (map fst (drop id (queue d1)))).
  { unfold drop. intros X. apply in_map_iff in X. destruct X as (x & E & X).
    apply filter_In in X. destruct X as [_ X]. rewrite E, Nat.eqb_refl in X. discriminate. }
  destruct (lookup id (queue d1)) as [r|] eqn:LK.
  2:{ pose proof (lookup_none _ _ LK) as N. rewrite (drop_none _ _ N) in *.
      assert (set_queue d1 (queue d1) = d1) as -> by (destruct d1; auto). auto. }
  destruct (lookup_split _ _ _ LK) as (q1 & q2 & EQ & _).
  assert (DS : drop id (queue d1) = q1 ++ q2).
  { rewrite EQ. apply (drop_split id q1 q2 r). rewrite <- EQ. apply o. }
  assert (INc : forall x, In x (q1 ++ q2) -> In x (queue d1)).
  { intros x I. rewrite EQ. apply in_app_or in I. apply in_or_app.
    destruct I; auto. right; right; auto. }
  split; [|split; [|split]].
  - destruct o as [a1 a2 a3 a4 a5 a6 a7 a8].
    split; cbn [set_queue queue nextq heap disk]; rewrite ?DS; auto.
    + rewrite EQ, map_app in a1. cbn in a1. apply NoDup_remove_1 in a1.
      now rewrite map_app.
    + intros id' r' I. eapply a2; eauto.
    + intros id0 r0 id' buf b k b' I R X. exact (a3 _ _ _ _ _ _ _ (INc _ I) R (INc _ X)).
    + intros id0 r0 id' r' buf b k b' k' I R I' R'. exact (a4 _ _ _ _ _ _ _ _ _ (INc _ I) R (INc _ I') R').
    + rewrite EQ in a5. eapply later_ok_remove; eauto.
    + intros id0 b blk I. exact (a6 _ _ _ (INc _ I)).
  - intros b. rewrite <- v. unfold dv. cbn [set_queue queue heap disk].
    rewrite DS, EQ, !fold_apply_app. cbn [fold_left]. f_equal.
    assert (NWr : forall b, ~ is_write r b).
    { apply NW1. rewrite EQ. apply in_or_app. right; left; auto. }
    unfold apply_w at 2. cbn [snd]. destruct r as [| |buf b0|b0 blk]; auto;
      exfalso; apply (NWr b0); [left|right]; eauto.
  - intros x X. cbn [set_queue queue] in X. rewrite DS in X. auto.
  - cbn [set_queue queue]. auto.
Qed.

End Dev.
