From Coq Require Import List Arith Lia Permutation FinFun.
From Verif Require Import StrategyModel StrategySpec.
Import ListNotations.

Lemma blocks_on_app f s n m d : blocks_on f s (n + m) d = blocks_on f s n d + blocks_on f (s + n) m d.
Proof.
  unfold blocks_on. rewrite seq_app, filter_app, app_length. reflexivity.
Qed.

Lemma nodup_map_window D f s : consecutive_distinct D f -> NoDup (map f (seq s D)).
Proof.
  intros H. apply NoDup_nth with (d := f s). rewrite map_length, seq_length.
  intros i j Hi Hj E.
  rewrite (nth_indep _ (f s) (f 0)) in E by (rewrite map_length, seq_length; auto).
  rewrite (nth_indep _ (f s) (f 0)) in E by (rewrite map_length, seq_length; auto).
  rewrite !map_nth, !seq_nth in E by auto. eapply H; eauto.
Qed.

Lemma window_hits_all b D f s d : in_range b D f -> consecutive_distinct D f ->
  b <= d < b + D -> In d (map f (seq s D)).
Proof.
  intros Hr Hd Hb.
  assert (P : incl (seq b D) (map f (seq s D))).
  { apply NoDup_length_incl.
    - apply nodup_map_window; auto.
    - rewrite map_length, !seq_length. lia.
    - intros x Hx. apply in_map_iff in Hx. destruct Hx as (i & <- & _).
      apply in_seq. specialize (Hr i). lia. }
  apply P. apply in_seq. lia.
Qed.

Lemma count_nodup (f : nat -> nat) (l : list nat) (d : nat) : NoDup (map f l) ->
  length (filter (fun i => f i =? d) l) = if in_dec Nat.eq_dec d (map f l) then 1 else 0.
Proof.
  induction l as [|x l IH]; intros N; cbn [map filter]; [reflexivity|].
  cbn [map] in N. inversion_clear N as [|? ? Hn N']. specialize (IH N').
  destruct (Nat.eqb_spec (f x) d) as [E|E].
  - cbn [length]. rewrite IH. destruct (in_dec Nat.eq_dec d (map f l)) as [i|i].
    + exfalso. apply Hn. rewrite E. exact i.
    + destruct (in_dec Nat.eq_dec d (f x :: map f l)) as [j|j]; [reflexivity|].
      exfalso. apply j. left. exact E.
  - rewrite IH. destruct (in_dec Nat.eq_dec d (map f l)) as [i|i];
      destruct (in_dec Nat.eq_dec d (f x :: map f l)) as [j|j]; try reflexivity.
    + exfalso. apply j. right. exact i.
    + destruct j; [congruence|contradiction].
Qed.

Lemma window_one b D f s d : in_range b D f -> consecutive_distinct D f ->
  b <= d < b + D -> blocks_on f s D d = 1.
Proof.
  intros Hr Hd Hb. unfold blocks_on. rewrite count_nodup by (apply nodup_map_window; auto).
  destruct (in_dec Nat.eq_dec d (map f (seq s D))) as [i|i]; [reflexivity|].
  exfalso. apply i. eapply window_hits_all; eauto.
Qed.

Lemma short_window D f s r d : consecutive_distinct D f -> r <= D -> blocks_on f s r d <= 1.
Proof.
  intros Hd Hr. unfold blocks_on. rewrite count_nodup.
  - destruct (in_dec _ _ _); lia.
  - pose proof (nodup_map_window D f s Hd) as N.
    replace D with (r + (D - r)) in N by lia. rewrite seq_app, map_app in N.
    rewrite <- (rev_involutive (map f (seq s r))). clear -N.
    induction (map f (seq s r)) as [|x l IH]; [constructor|].
    cbn [app] in N. inversion_clear N. rewrite rev_involutive in *.
    constructor; [intro; apply H; apply in_or_app; auto|apply IH; auto].
Qed.

Lemma good_of b D f : 0 < D -> in_range b D f -> consecutive_distinct D f -> good_placement b D f.
Proof.
  intros HD Hr Hd. split; [exact Hr|]. split; [exact Hd|]. intros s n d Hb.
  assert (Q : forall q s, blocks_on f s (q * D) d = q).
  { induction q as [|q IH]; intros s'; [reflexivity|]. cbn [Nat.mul].
    rewrite blocks_on_app, IH, (window_one b) by auto. lia. }
  pose proof (Nat.div_mod n D ltac:(lia)) as E.
  rewrite (Nat.mul_comm D) in E.
  pose proof (Nat.mod_upper_bound n D ltac:(lia)) as U.
  assert (E2 : blocks_on f s n d = n / D + blocks_on f (s + n / D * D) (n mod D) d).
  { rewrite E at 1. rewrite blocks_on_app, Q. reflexivity. }
  rewrite E2. pose proof (short_window D f (s + n / D * D) (n mod D) d Hd ltac:(lia)).
  split; [lia|]. intros Z. rewrite Z. cbn. lia.
Qed.

Lemma mod_window D s i j : i < D -> j < D -> (s + i) mod D = (s + j) mod D -> i = j.
Proof.
  intros Hi Hj E.
  assert (K : forall a b, a <= b < D -> (s + a) mod D = (s + b) mod D -> a = b).
  { clear. intros a b [H1 H2] E.
    pose proof (Nat.div_mod (s + a) D ltac:(lia)). pose proof (Nat.div_mod (s + b) D ltac:(lia)).
    rewrite E in H. assert (D * ((s + b) / D) - D * ((s + a) / D) = b - a) by lia.
    assert ((s + a) / D <= (s + b) / D) by (apply Nat.div_le_mono; lia).
    assert ((s + b) / D = (s + a) / D \/ (s + b) / D >= S ((s + a) / D)) as [Q|Q] by lia.
    - rewrite Q in *. lia.
    - assert (D * S ((s + a) / D) <= D * ((s + b) / D)) by (apply Nat.mul_le_mono_l; lia). lia. }
  destruct (Nat.le_ge_cases i j); [apply K; auto|symmetry; apply K; auto].
Qed.

Lemma good_striping b D : 0 < D -> good_placement b D (striping b D).
Proof.
  intros HD. apply good_of; auto.
  - intros i. unfold striping. pose proof (Nat.mod_upper_bound i D). lia.
  - intros s i j Hi Hj E. unfold striping in E. apply (mod_window D s); auto. lia.
Qed.

Lemma good_SR b D off : 0 < D -> good_placement b D (SR b D off).
Proof.
  intros HD. apply good_of; auto.
  - intros i. unfold SR. pose proof (Nat.mod_upper_bound (i + off) D). lia.
  - intros s i j Hi Hj E. unfold SR in E. apply (mod_window D (s + off)); auto.
    replace (s + off + i) with (s + i + off) by lia. replace (s + off + j) with (s + j + off) by lia. lia.
Qed.

Lemma perm_nth_inj perm D i j : Permutation perm (seq 0 D) -> i < D -> j < D ->
  nth i perm 0 = nth j perm 0 -> i = j.
Proof.
  intros P Hi Hj E. assert (L : length perm = D) by (rewrite (Permutation_length P); apply seq_length).
  assert (N : NoDup perm) by (apply (Permutation_NoDup (Permutation_sym P)); apply seq_NoDup).
  rewrite NoDup_nth with (d := 0) in N. apply N; lia.
Qed.
Lemma perm_nth_lt perm D i : Permutation perm (seq 0 D) -> i < D -> nth i perm 0 < D.
Proof.
  intros P Hi. assert (L : length perm = D) by (rewrite (Permutation_length P); apply seq_length).
  assert (I : In (nth i perm 0) (seq 0 D)) by (apply (Permutation_in _ P); apply nth_In; lia).
  apply in_seq in I. lia.
Qed.

Lemma good_RC b D perm : 0 < D -> Permutation perm (seq 0 D) -> good_placement b D (RC b D perm).
Proof.
  intros HD P. apply good_of; auto.
  - intros i. unfold RC. pose proof (perm_nth_lt perm D (i mod D) P (Nat.mod_upper_bound i D ltac:(lia))). lia.
  - intros s i j Hi Hj E. unfold RC in E. apply (mod_window D s); auto.
    apply (perm_nth_inj perm D); auto; try (apply Nat.mod_upper_bound; lia). lia.
Qed.

(** the shuffle permutes, for every sequence of drawn numbers *)
Lemma set_nth_length l : forall i x, length (set_nth l i x) = length l.
Proof. induction l; intros [|i] x; cbn; auto. Qed.
Lemma nth_set_nth l : forall i j x, i < length l ->
  nth j (set_nth l i x) 0 = if Nat.eq_dec i j then x else nth j l 0.
Proof.
  induction l as [|a l IH]; intros i j x Hi; cbn in Hi; [lia|].
  destruct i as [|i], j as [|j]; cbn [set_nth nth]; try reflexivity.
  rewrite IH by lia. destruct (Nat.eq_dec i j), (Nat.eq_dec (S i) (S j)); congruence || lia.
Qed.

Lemma swap_perm l i j : i < length l -> j < length l -> Permutation (swap l i j) l.
Proof.
  intros Hi Hj. unfold swap. apply Permutation_sym. apply (Permutation_nth _ _ 0).
  assert (L1 : length (set_nth l i (nth j l 0)) = length l) by apply set_nth_length.
  split; [rewrite !set_nth_length; reflexivity|].
  exists (fun k => if Nat.eq_dec k i then j else if Nat.eq_dec k j then i else k).
  split; [|split].
  - intros k Hk. destruct (Nat.eq_dec k i), (Nat.eq_dec k j); lia.
  - intros a b Ha Hb E. destruct (Nat.eq_dec a i), (Nat.eq_dec b i), (Nat.eq_dec a j), (Nat.eq_dec b j); lia.
  - intros k Hk. rewrite nth_set_nth by lia.
    destruct (Nat.eq_dec j k) as [E2|E2].
    + subst k. destruct (Nat.eq_dec j i) as [E1|E1].
      * subst i. reflexivity.
      * destruct (Nat.eq_dec j j) as [_|N]; [reflexivity|congruence].
    + rewrite nth_set_nth by lia. destruct (Nat.eq_dec i k) as [E1|E1].
      * subst k. destruct (Nat.eq_dec i i) as [_|N]; [reflexivity|congruence].
      * destruct (Nat.eq_dec k i) as [N|_]; [congruence|].
        destruct (Nat.eq_dec k j) as [N|_]; [congruence|reflexivity].
Qed.

(** [draws] is a possible result of drawing rnd(i+1), rnd(i+2), ... *)
Fixpoint valid_draws (i : nat) (draws : list nat) : Prop :=
  match draws with [] => True | j :: ds => j <= i /\ valid_draws (S i) ds end.

Lemma shuffle_perm draws : forall i l, valid_draws i draws -> i + length draws <= length l ->
  Permutation (random_shuffle i draws l) l.
Proof.
  induction draws as [|j ds IH]; intros i l V L; cbn; [reflexivity|].
  destruct V as [V1 V2]. cbn in L.
  assert (S1 : Permutation (swap l i j) l) by (apply swap_perm; lia).
  transitivity (swap l i j); [|exact S1]. apply IH; auto.
  rewrite (Permutation_length S1). lia.
Qed.

Lemma rc_perm_ok D draws : 0 < D -> valid_draws 1 draws -> length draws = D - 1 ->
  Permutation (rc_perm D draws) (seq 0 D).
Proof. intros. apply shuffle_perm; auto. rewrite seq_length. lia. Qed.

Lemma good_offset b D f off : 0 < D -> good_placement b D f -> good_placement b D (offset_allocator f off).
Proof.
  intros HD (Hr & Hd & _). apply good_of; auto.
  - intros i. apply Hr.
  - intros s i j Hi Hj E. unfold offset_allocator in E. apply (Hd (off + s)); auto.
    replace (off + s + i) with (off + (s + i)) by lia. replace (off + s + j) with (off + (s + j)) by lia. exact E.
Qed.

(** interleaving *)
Lemma run_div nruns r k : r < nruns -> run_block nruns r k / nruns = k.
Proof. intros. unfold run_block. rewrite Nat.add_comm, Nat.div_add, Nat.div_small by lia. lia. Qed.
Lemma run_mod nruns r k : r < nruns -> run_block nruns r k mod nruns = r.
Proof. intros. unfold run_block. rewrite Nat.add_comm, Nat.mod_add, Nat.mod_small by lia. lia. Qed.

Lemma good_ext b D f g : (forall i, f i = g i) -> good_placement b D f -> good_placement b D g.
Proof.
  intros E (H1 & H2 & H3). repeat split.
  - rewrite <- E. apply H1.
  - rewrite <- E. apply H1.
  - intros s i j. rewrite <- !E. apply H2.
  - specialize (H3 s n d H). unfold blocks_on in *.
    rewrite (filter_ext (fun i => g i =? d) (fun i => f i =? d)) by (intros; now rewrite E). lia.
  - specialize (H3 s n d H). unfold blocks_on in *.
    rewrite (filter_ext (fun i => g i =? d) (fun i => f i =? d)) by (intros; now rewrite E). lia.
  - specialize (H3 s n d H). unfold blocks_on in *.
    rewrite (filter_ext (fun i => g i =? d) (fun i => f i =? d)) by (intros; now rewrite E).
    apply H3.
Qed.

Lemma good_int_striping nruns b D r : 0 < D -> r < nruns ->
  good_placement b D (fun k => interleaved_striping nruns b D (run_block nruns r k)).
Proof.
  intros HD Hr. apply (good_ext b D (striping b D)); [|apply good_striping; auto].
  intros k. unfold interleaved_striping. rewrite run_div by auto. reflexivity.
Qed.

Lemma good_int_SR nruns b D offs r : 0 < D -> r < nruns ->
  good_placement b D (fun k => interleaved_SR nruns b D offs (run_block nruns r k)).
Proof.
  intros HD Hr. apply (good_ext b D (SR b D (nth r offs 0))); [|apply good_SR; auto].
  intros k. unfold interleaved_SR. rewrite run_div, run_mod by auto. reflexivity.
Qed.

Lemma good_int_RC nruns b D perms r : 0 < D -> r < nruns ->
  Permutation (nth r perms []) (seq 0 D) ->
  good_placement b D (fun k => interleaved_RC nruns b D perms (run_block nruns r k)).
Proof.
  intros HD Hr P. apply (good_ext b D (RC b D (nth r perms []))); [|apply good_RC; auto].
  intros k. unfold interleaved_RC. rewrite run_div, run_mod by auto. reflexivity.
Qed.

(** the whole interleaved sequence stays in range *)
Lemma int_range_striping nruns b D : 0 < D -> in_range b D (interleaved_striping nruns b D).
Proof. intros HD i. unfold interleaved_striping. pose proof (Nat.mod_upper_bound (i / nruns) D). lia. Qed.
Lemma int_range_SR nruns b D offs : 0 < D -> in_range b D (interleaved_SR nruns b D offs).
Proof.
  intros HD i. unfold interleaved_SR.
  pose proof (Nat.mod_upper_bound (i / nruns + nth (i mod nruns) offs 0) D). lia.
Qed.
Lemma int_range_RC nruns b D perms : 0 < D -> 0 < nruns -> length perms = nruns ->
  Forall (fun p => Permutation p (seq 0 D)) perms ->
  in_range b D (interleaved_RC nruns b D perms).
Proof.
  intros HD Hn L F i. unfold interleaved_RC.
  assert (I : i mod nruns < length perms) by (rewrite L; apply Nat.mod_upper_bound; lia).
  rewrite Forall_forall in F. specialize (F _ (nth_In perms [] I)).
  pose proof (perm_nth_lt _ D ((i / nruns) mod D) F (Nat.mod_upper_bound _ D ltac:(lia))). lia.
Qed.

Lemma range_FR b D rnd : (forall i, rnd i < D) -> in_range b D (FR b rnd).
Proof. intros H i. unfold FR. specialize (H i). lia. Qed.
Lemma range_int_FR b D rnd : (forall i, rnd i < D) -> in_range b D (interleaved_FR b rnd).
Proof. intros H i. unfold interleaved_FR. specialize (H i). lia. Qed.
Lemma range_single d : in_range d 1 (single_disk d).
Proof. intros i. unfold single_disk. lia. Qed.
Lemma range_first d : in_range d 1 (first_disk_only d).
Proof. intros i. unfold first_disk_only. lia. Qed.
