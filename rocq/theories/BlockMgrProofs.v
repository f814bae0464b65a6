From Coq Require Import ZArith List Bool Lia Arith Permutation.
From Verif Require Import DiskAllocModel DiskAllocSpec DiskAllocProofs BlockMgrModel BlockMgrSpec.
Import ListNotations.
Local Open Scope Z_scope.

Definition on_disk (d : nat) (x : bid * Z) : bool :=
  match bid_storage (fst x) with Disk e => Nat.eqb e d | _ => false end.
Definition reg (x : bid * Z) : Z * Z := (bid_offset (fst x), snd x).
Definition regs (d : nat) (l : list (bid * Z)) : list (Z * Z) := map reg (filter (on_disk d) l).
Definition lregs (d : nat) (l : list (nat * (Z * Z))) : list (Z * Z) :=
  map snd (filter (fun x => Nat.eqb (fst x) d) l).
Definition tag (bs : Z) (l : list Z) : list (Z * Z) := map (fun p => (p, bs)) l.

Lemma regs_app d l m : regs d (l ++ m) = regs d l ++ regs d m.
Proof. unfold regs. rewrite filter_app, map_app. reflexivity. Qed.
Lemma lregs_app d l m : lregs d (l ++ m) = lregs d l ++ lregs d m.
Proof. unfold lregs. rewrite filter_app, map_app. reflexivity. Qed.

Lemma cnt_perm l l' b : Permutation l l' -> cnt l b = cnt l' b.
Proof. induction 1; cbn; lia. Qed.
Lemma bytes_perm l l' : Permutation l l' -> bytes_of l = bytes_of l'.
Proof. unfold bytes_of. induction 1; cbn; lia. Qed.
Lemma inv_perm a l l' : Permutation l l' -> inv (a, l) -> inv (a, l').
Proof.
  intros P (H1 & H2 & H3 & H4 & H5 & H6). split; [exact H1|]. split.
  { intros b. rewrite <- (cnt_perm l l' b P). apply H2. }
  split; [exact H3|]. split; [rewrite <- (bytes_perm l l' P); exact H4|]. split; [|exact H6].
  rewrite Forall_forall in *. intros x I. apply H5. apply (Permutation_in _ (Permutation_sym P)). exact I.
Qed.

(** ** counting *)
Lemma bump_length l k : length (bump l k) = length l.
Proof. revert k; induction l; intros [|k]; cbn; auto. Qed.
Lemma bump_nth l k d : nth d (bump l k) 0%nat = (nth d l 0 + if Nat.eqb d k then if Nat.ltb d (length l) then 1 else 0 else 0)%nat.
Proof.
  revert k d; induction l as [|x l IH]; intros k d; cbn [bump].
  - destruct d; cbn; destruct k; cbn; try lia; destruct (d =? k)%nat; cbn; lia.
  - destruct k as [|k], d as [|d]; cbn [nth length].
    + cbn; lia.
    + cbn; lia.
    + cbn; lia.
    + rewrite IH. cbn. lia.
Qed.
Definition cocc (ds : list nat) (d : nat) : nat := length (filter (fun x => Nat.eqb x d) ds).
Lemma count_nth ds : forall l d, (d < length l)%nat -> nth d (fold_left bump ds l) 0%nat = (nth d l 0 + cocc ds d)%nat.
Proof.
  induction ds as [|x ds IH]; intros l d H; cbn [fold_left]; [unfold cocc; cbn; lia|].
  rewrite IH by (rewrite bump_length; auto). rewrite bump_nth.
  unfold cocc; cbn [filter]. rewrite (Nat.eqb_sym x d). destruct (Nat.ltb_spec d (length l)); [|lia].
  destruct (Nat.eqb d x); cbn [length]; lia.
Qed.
Lemma count_length ds : forall l, length (fold_left bump ds l) = length l.
Proof. induction ds; intros l; cbn; [reflexivity|]. rewrite IHds, bump_length. reflexivity. Qed.

(** ** the per-disk loop *)
Lemma combine_tag bs : forall o n, length o = n -> combine o (repeat bs n) = tag bs o.
Proof. induction o; intros n H; cbn in H; subst n; cbn; [reflexivity|]. f_equal. apply IHo; auto. Qed.
Lemma repeat_uniform bs n : Forall (eq bs) (repeat bs n) /\ sum (repeat bs n) = Z.of_nat n * bs.
Proof.
  assert (U : Forall (eq bs) (repeat bs n)) by (apply Forall_forall; intros x I; symmetry; eapply repeat_spec; eauto).
  split; [exact U|]. rewrite (sum_uniform bs), repeat_length by auto. reflexivity.
Qed.

Definition enough (bs : Z) (a : alloc) (c : nat) : Prop :=
  Z.of_nat c * bs <= free_bytes a \/ autogrow a = true.

Lemma alloc_disks_ok bs : 0 < bs -> forall as_ bl (L : nat -> list (Z * Z)),
  length bl = length as_ ->
  (forall i a, nth_error as_ i = Some a -> inv (a, L i)) ->
  let '(as', o, r) := alloc_disks bs as_ bl in
  length as' = length as_ /\
  (forall i a', nth_error as' i = Some a' -> inv (a', L i ++ tag bs (nth i o []))) /\
  (forall i a a', nth_error as_ i = Some a -> nth_error as' i = Some a' -> autogrow a' = autogrow a) /\
  (forall i, nth i bl 0%nat = 0%nat -> nth_error as' i = nth_error as_ i) /\
  ((r = AllOk /\ length o = length bl /\ (forall i, length (nth i o []) = nth i bl 0%nat) /\
      (forall i a, nth_error as_ i = Some a -> enough bs a (nth i bl 0%nat)))
   \/ (r = Thrown /\ exists k a, nth_error as_ k = Some a /\ ~ enough bs a (nth k bl 0%nat) /\ length o = k /\
        (forall i, (i < k)%nat -> length (nth i o []) = nth i bl 0%nat) /\
        (forall j, (k <= j)%nat -> nth_error as' j = nth_error as_ j))).
Proof.
  intros Hb. induction as_ as [|a at_ IH]; intros bl L HL HI.
  - destruct bl; [|discriminate]. cbn. split; [reflexivity|]. split; [intros [|i]; discriminate|].
    split; [intros [|i]; discriminate|]. split; [reflexivity|]. left. repeat split; auto; [intros [|i]; reflexivity|intros [|i]; discriminate].
  - destruct bl as [|c ct]; [discriminate|]. cbn in HL.
    specialize (IH ct (fun i => L (S i)) ltac:(lia) (fun i x H => HI (S i) x H)).
    cbn [alloc_disks]. destruct (repeat_uniform bs c) as [U SU].
    destruct c as [|c].
    { destruct (alloc_disks bs at_ ct) as [[at' o] r]. destruct IH as (A & B & G & ZZ & C).
      split; [cbn; lia|]. split.
      { intros [|i] a' E; cbn in E |- *; [injection E as <-; rewrite app_nil_r; apply HI; reflexivity|apply B; exact E]. }
      split; [intros [|i] x y E E'; cbn in E, E'; [congruence|eapply G; eauto]|].
      split; [intros [|i] E; cbn in E |- *; [reflexivity|apply ZZ; exact E]|].
      destruct C as [(-> & C1 & C2 & C3)|(-> & k & x & C1 & C2 & C3 & C4 & C5)]; [left|right].
      - split; [reflexivity|]. split; [cbn; lia|]. split.
        + intros [|i]; cbn; auto.
        + intros [|i] x E; cbn in E |- *; [|apply C3; exact E]. injection E as <-. left. cbn [Z.of_nat Z.mul].
          destruct (HI 0%nat a eq_refl) as (H1 & _ & -> & _). eapply bytes_canon_nonneg; eauto.
      - split; [reflexivity|]. exists (S k), x. split; [exact C1|]. split; [exact C2|]. split; [cbn; lia|]. split.
        + intros [|i] Hi; cbn; [reflexivity|apply C4; lia].
        + intros [|j] Hj; [lia|]. cbn. apply C5. lia. }
    destruct (Z_le_gt_dec (sum (repeat bs (S c))) (free_bytes a)) as [LE|GT]; [|destruct (autogrow a) eqn:AG].
    3:{ rewrite (new_blocks_throw bs (S c)) by (auto; lia).
        split; [reflexivity|]. split.
        { intros i x E. replace (nth i [] []) with (@nil Z) by (destruct i; reflexivity). cbn [tag map].
          rewrite app_nil_r. apply HI. exact E. }
        split; [intros i x y E E'; congruence|]. split; [reflexivity|].
        right. split; [reflexivity|]. exists 0%nat, a. split; [reflexivity|]. split.
        { intros [Q|Q]; [cbn [nth] in Q; lia|congruence]. }
        split; [reflexivity|]. split; [intros i Hi; lia|]. reflexivity. }
    1,2: destruct (new_blocks_ok bs Hb (S c) (repeat bs (S c)) a (L 0%nat) (HI 0%nat a eq_refl) U)
      as (a' & o0 & g & E & I & LO & _ & _ & _ & AG' & _);
      [rewrite repeat_length; lia|auto|];
      rewrite E; rewrite repeat_length in LO; rewrite (combine_tag bs o0 (S c) LO) in I;
      destruct (alloc_disks bs at_ ct) as [[at' o] r]; destruct IH as (A & B & G & ZZ & C);
      (split; [cbn; lia|]; split;
       [intros [|i] y F; cbn in F |- *; [injection F as <-; exact I|apply B; exact F]|]; split;
       [intros [|i] y z F F'; cbn in F, F'; [congruence|eapply G; eauto]|]; split;
       [intros [|i] F; cbn in F |- *; [discriminate|apply ZZ; exact F]|];
       destruct C as [(-> & C1 & C2 & C3)|(-> & k & x & C1 & C2 & C3 & C4 & C5)]; [left|right];
       [split; [reflexivity|]; split; [cbn; lia|]; split;
         [intros [|i]; cbn [nth]; auto|
          intros [|i] x F; cbn [nth nth_error] in *; [injection F as <-; unfold enough; first [left; lia|right; assumption]|apply C3; exact F]]
       |split; [reflexivity|]; exists (S k), x; split; [exact C1|]; split; [exact C2|]; split; [cbn; lia|]; split;
         [intros [|i] Hi; cbn [nth]; [auto|apply C4; lia]|
          intros [|j] Hj; [lia|]; cbn; apply C5; lia]]).
Qed.

(** ** distribution *)
Lemma nth_skipn_cons {A} (l : list A) n d : (n < length l)%nat -> skipn n l = nth n l d :: skipn (S n) l.
Proof.
  revert n; induction l as [|x l IH]; intros [|n] H; cbn in H; try lia; [reflexivity|].
  cbn [nth skipn]. apply IH. lia.
Qed.

Lemma distribute_regs bs o d : forall ds bl,
  (d < length bl)%nat -> (nth d bl 0 + cocc ds d <= length (nth d o []))%nat ->
  regs d (map (fun b => (b, bs)) (distribute o ds bl)) = tag bs (firstn (cocc ds d) (skipn (nth d bl 0%nat) (nth d o []))).
Proof.
  induction ds as [|x ds IH]; intros bl HB HC; [reflexivity|].
  cbn [distribute map]. unfold regs in *; cbn [filter]. unfold on_disk at 1; cbn [fst bid_storage].
  unfold cocc in *; cbn [filter] in *.
  assert (BN := bump_nth bl x d). destruct (Nat.ltb_spec d (length bl)); [|lia]. rewrite (Nat.eqb_sym d x) in BN.
  destruct (Nat.eqb_spec x d) as [->|N].
  - cbn [length map] in *. rewrite IH by (rewrite ?bump_length; lia). rewrite BN.
    rewrite (nth_skipn_cons _ (nth d bl 0%nat) 0) by lia. cbn [firstn tag map].
    unfold reg; cbn [fst snd bid_offset]. f_equal. replace (nth d bl 0%nat + 1)%nat with (S (nth d bl 0%nat)) by lia. reflexivity.
  - rewrite IH by (rewrite ?bump_length; lia). rewrite BN, Nat.add_0_r. reflexivity.
Qed.

Lemma distribute_length o ds bl : length (distribute o ds bl) = length ds.
Proof. revert bl; induction ds; intros; cbn; auto. Qed.
Lemma distribute_storage o ds bl i b : nth_error (distribute o ds bl) i = Some b ->
  exists d, nth_error ds i = Some d /\ bid_storage b = Disk d.
Proof.
  revert bl i; induction ds as [|d ds IH]; intros bl i H; [destruct i; discriminate|].
  destruct i as [|i]; cbn in H; [injection H as <-; exists d; auto|]. apply IH in H. exact H.
Qed.
Lemma distribute_in o ds bl b : In b (distribute o ds bl) -> exists d, In d ds /\ bid_storage b = Disk d.
Proof.
  intros H. apply In_nth_error in H. destruct H as (i & H). apply distribute_storage in H.
  destruct H as (d & E & S). exists d. split; [eapply nth_error_In; eauto|exact S].
Qed.

Lemma lost_of_regs bs o : forall d0 d, lregs d (lost_of bs d0 o) = if Nat.leb d0 d then tag bs (nth (d - d0) o []) else [].
Proof.
  induction o as [|offs o IH]; intros d0 d.
  - cbn. destruct (Nat.leb d0 d); [destruct (d - d0)%nat; reflexivity|reflexivity].
  - cbn [lost_of]. rewrite lregs_app, IH.
    assert (E : lregs d (map (fun p => (d0, (p, bs))) offs) = if Nat.eqb d0 d then tag bs offs else []).
    { unfold lregs, tag. induction offs as [|p offs IHo]; cbn; [destruct (Nat.eqb d0 d); reflexivity|].
      destruct (Nat.eqb d0 d); cbn; rewrite IHo; reflexivity. }
    rewrite E. destruct (Nat.eqb_spec d0 d) as [->|N].
    + rewrite Nat.leb_refl, Nat.sub_diag. destruct (Nat.leb_spec (S d) d); [lia|]. rewrite app_nil_r. reflexivity.
    + destruct (Nat.leb_spec (S d0) d), (Nat.leb_spec d0 d); try lia; [|reflexivity].
      cbn [app]. replace (d - d0)%nat with (S (d - S d0)) by lia. reflexivity.
Qed.

(** ** the invariant *)
Record bm_inv (s : bm_sys) : Prop := {
  bi_disk : forall d a, nth_error (disks (mgr s)) d = Some a -> inv (a, regs d (held s) ++ lregs d (lost s));
  bi_held : forall x, In x (held s) -> 0 < snd x /\ exists d, bid_storage (fst x) = Disk d /\ (d < length (disks (mgr s)))%nat;
  bi_lost : forall x, In x (lost s) -> (fst x < length (disks (mgr s)))%nat;
  bi_cur : current_allocation (mgr s) = held_bytes s }.

Lemma nth_error_update l : forall k a i, nth_error (update l k a) i = if Nat.eqb i k then (if Nat.ltb k (length l) then Some a else None) else nth_error l i.
Proof.
  induction l as [|x l IH]; intros k a i; cbn [update].
  - destruct i, k; reflexivity || (cbn; destruct (Nat.eqb _ _); reflexivity).
  - destruct k as [|k], i as [|i]; cbn; auto. rewrite IH. reflexivity.
Qed.
Lemma update_length l k a : length (update l k a) = length l.
Proof. revert k; induction l; intros [|k]; cbn; auto. Qed.

Lemma held_eqb_eq x y : held_eqb x y = true <-> x = y.
Proof.
  unfold held_eqb. destruct x as [[sx ox] zx], y as [[sy oy] zy]; cbn.
  rewrite !andb_true_iff, !Z.eqb_eq. split.
  - intros [[A ->] ->]. f_equal. f_equal. destruct sx, sy; cbn in A; try discriminate; auto.
    apply Nat.eqb_eq in A. congruence.
  - intros E. injection E as -> -> ->. repeat split; auto. destruct sy; cbn; auto. apply Nat.eqb_refl.
Qed.
Lemma remove_held_perm x l : In x l -> Permutation l (x :: remove_held x l).
Proof.
  induction l as [|y l IH]; intros I; [destruct I|]. cbn. destruct (held_eqb x y) eqn:E.
  - apply held_eqb_eq in E. subst. reflexivity.
  - destruct I as [->|I].
    + assert (held_eqb x x = true) by (apply held_eqb_eq; reflexivity). congruence.
    + rewrite (IH I) at 1. apply perm_swap.
Qed.
Lemma remove_held_none x l : ~ In x l -> remove_held x l = l.
Proof.
  induction l as [|y l IH]; intros N; cbn; [reflexivity|]. destruct (held_eqb x y) eqn:E.
  - apply held_eqb_eq in E. subst. exfalso. apply N. left; auto.
  - f_equal. apply IH. intros I. apply N. right; auto.
Qed.
Lemma filter_perm {A} (f : A -> bool) l l' : Permutation l l' -> Permutation (filter f l) (filter f l').
Proof.
  induction 1; cbn; auto.
  - destruct (f x); [constructor|]; auto.
  - destruct (f x), (f y); try reflexivity. apply perm_swap.
  - etransitivity; eauto.
Qed.
Lemma regs_perm d l l' : Permutation l l' -> Permutation (regs d l) (regs d l').
Proof. intros. unfold regs. apply Permutation_map, filter_perm; auto. Qed.

Definition hb (l : list (bid * Z)) : Z := fold_right (fun x n => snd x + n) 0 l.
Lemma hb_app l m : hb (l ++ m) = hb l + hb m.
Proof. unfold hb. induction l; cbn; lia. Qed.
Lemma hb_perm l m : Permutation l m -> hb l = hb m.
Proof. unfold hb. induction 1; cbn; lia. Qed.
Lemma hb_tag bs (l : list bid) : hb (map (fun b => (b, bs)) l) = Z.of_nat (length l) * bs.
Proof. unfold hb. induction l; cbn -[Z.of_nat Z.mul]; [reflexivity|]. rewrite IHl, Nat2Z.inj_succ. lia. Qed.

Lemma cocc_demand f off n d : cocc (map f (seq off n)) d = demand f off n d.
Proof.
  unfold cocc, demand. generalize (seq off n). induction l as [|x l IH]; cbn; [reflexivity|].
  destruct (Nat.eqb (f x) d); cbn; rewrite IH; reflexivity.
Qed.

Lemma nth_repeat0 d n : nth d (repeat 0%nat n) 0%nat = 0%nat.
Proof. revert n; induction d; intros [|n]; cbn; auto. Qed.

(** full description of one allocation call *)
Lemma new_blocks_int_ok s bs n f off : bm_inv s -> 0 < bs ->
  (forall i, (i < n)%nat -> (f (off + i) < length (disks (mgr s)))%nat) ->
  (exists m out, new_blocks_int bs n f off (mgr s) = BDone m out /\
     length out = n /\ (forall i b, nth_error out i = Some b -> bid_storage b = Disk (f (off + i)%nat)) /\
     bm_inv (mk_sys m (held s ++ map (fun b => (b, bs)) out) (lost s)) /\
     length (disks m) = length (disks (mgr s)) /\
     total_allocation m = total_allocation (mgr s) + Z.of_nat n * bs /\
     current_allocation m = current_allocation (mgr s) + Z.of_nat n * bs /\
     maximum_allocation m = Z.max (maximum_allocation (mgr s)) (current_allocation m) /\
     (forall d a, nth_error (disks (mgr s)) d = Some a -> enough bs a (demand f off n d))) \/
  (exists m o, new_blocks_int bs n f off (mgr s) = BThrow m o /\
     bm_inv (mk_sys m (held s) (lost s ++ lost_of bs 0 o)) /\
     length (disks m) = length (disks (mgr s)) /\
     total_allocation m = total_allocation (mgr s) /\
     current_allocation m = current_allocation (mgr s) /\
     maximum_allocation m = maximum_allocation (mgr s) /\
     exists k a, nth_error (disks (mgr s)) k = Some a /\ ~ enough bs a (demand f off n k) /\
       length o = k /\ (forall i, (i < k)%nat -> length (nth i o []) = demand f off n i) /\
       (forall j, (k <= j)%nat -> nth_error (disks m) j = nth_error (disks (mgr s)) j) /\
       (forall j, demand f off n j = 0%nat -> nth_error (disks m) j = nth_error (disks (mgr s)) j)).
Proof.
  intros HI Hb Hf. unfold new_blocks_int.
  set (ds := map f (seq off n)). set (nd := length (disks (mgr s))) in *.
  assert (DS : forall d, In d ds -> (d < nd)%nat).
  { intros d I. apply in_map_iff in I. destruct I as (i & <- & I). apply in_seq in I.
    replace i with (off + (i - off))%nat by lia. apply Hf. lia. }
  pose proof (alloc_disks_ok bs Hb (disks (mgr s)) (count_blocks nd ds)
                (fun d => regs d (held s) ++ lregs d (lost s))) as A.
  specialize (A ltac:(unfold count_blocks; rewrite count_length, repeat_length; reflexivity) (bi_disk s HI)).
  destruct (alloc_disks bs (disks (mgr s)) (count_blocks nd ds)) as [[as' o] r].
  destruct A as (A1 & A2 & _ & AZ & A3).
  assert (CB : forall d, (d < nd)%nat -> nth d (count_blocks nd ds) 0%nat = demand f off n d).
  { intros d Hd. unfold count_blocks. rewrite count_nth by (rewrite repeat_length; auto).
    rewrite nth_repeat0. cbn. apply cocc_demand. }
  assert (BK : forall d a, nth_error (disks (mgr s)) d = Some a -> (d < nd)%nat).
  { intros d a E. unfold nd. apply nth_error_Some. congruence. }
  destruct A3 as [(-> & B1 & B2 & B3)|(-> & k & a & B1 & B2 & B3 & B4 & B5)]; [left|right].
  - eexists _, _. split; [reflexivity|]. cbn [disks total_allocation current_allocation maximum_allocation].
    set (out := distribute o ds (repeat 0%nat nd)).
    assert (LO : length out = n) by (unfold out, ds; rewrite distribute_length, map_length, seq_length; reflexivity).
    split; [exact LO|]. split.
    { intros i b E. apply distribute_storage in E. destruct E as (d & E & ->). f_equal. unfold ds in E.
      rewrite nth_error_map in E. destruct (nth_error (seq off n) i) as [x|] eqn:ES; [|discriminate].
      cbn in E. injection E as <-. f_equal.
      assert (i < n)%nat by (rewrite <- (seq_length n off); apply nth_error_Some; congruence).
      apply nth_error_nth with (d := 0%nat) in ES. rewrite seq_nth in ES by auto. auto. }
    split.
    { constructor; cbn [mgr held lost disks].
      - intros d a E. specialize (A2 d a E).
        assert (Hd : (d < nd)%nat) by (unfold nd; rewrite <- A1; apply nth_error_Some; congruence).
        rewrite regs_app. unfold out. rewrite distribute_regs.
        + rewrite nth_repeat0. cbn [skipn].
          assert (EL : length (nth d o []) = cocc ds d) by (rewrite B2, CB by auto; symmetry; apply cocc_demand).
          rewrite <- EL, firstn_all. eapply inv_perm; [|exact A2].
          rewrite <- !app_assoc. apply Permutation_app_head, Permutation_app_comm.
        + rewrite repeat_length. exact Hd.
        + rewrite nth_repeat0, B2, CB by auto. unfold ds. rewrite cocc_demand. lia.
      - intros x I. apply in_app_or in I. rewrite A1. destruct I as [I|I]; [apply (bi_held s HI x I)|].
        apply in_map_iff in I. destruct I as (b & <- & I). cbn [fst snd]. split; [exact Hb|].
        apply distribute_in in I. destruct I as (d & I & E). exists d. split; [exact E|]. apply DS. exact I.
      - intros x I. rewrite A1. apply (bi_lost s HI x I).
      - unfold held_bytes; cbn [held current_allocation]. fold (hb (held s ++ map (fun b => (b, bs)) out)).
        rewrite hb_app, hb_tag, LO, (bi_cur s HI). unfold held_bytes. fold (hb (held s)). lia. }
    split; [exact A1|]. repeat (split; [reflexivity|]).
    intros d a E. rewrite <- CB by (eapply BK; eauto). apply B3. exact E.
  - eexists _, _. split; [reflexivity|]. cbn [disks total_allocation current_allocation maximum_allocation].
    split.
    { constructor; cbn [mgr held lost disks].
      - intros d a' E. specialize (A2 d a' E). rewrite lregs_app, lost_of_regs, Nat.sub_0_r. cbn [Nat.leb].
        rewrite app_assoc. exact A2.
      - intros x I. rewrite A1. apply (bi_held s HI x I).
      - intros x I. rewrite A1. apply in_app_or in I. destruct I as [I|I]; [apply (bi_lost s HI x I)|].
        assert (KK : (k < nd)%nat) by (eapply BK; eauto).
        assert (G : forall o d0 x, In x (lost_of bs d0 o) -> (fst x < d0 + length o)%nat).
        { clear. induction o as [|p o IH]; intros d0 x I; [destruct I|]. cbn in I. apply in_app_or in I.
          destruct I as [I|I]; [apply in_map_iff in I; destruct I as (q & <- & _); cbn; lia|].
          apply IH in I. cbn; lia. }
        apply G in I. fold nd. lia.
      - apply (bi_cur s HI). }
    split; [exact A1|]. repeat (split; [reflexivity|]).
    exists k, a. split; [exact B1|].
    assert (KK : (k < nd)%nat) by (eapply BK; eauto).
    rewrite <- (CB k) by auto. split; [exact B2|]. split; [exact B3|]. split; [|split; [exact B5|]].
    + intros i Hi. rewrite B4 by auto. apply CB. lia.
    + intros j Hj. destruct (Nat.lt_ge_cases j nd) as [J|J].
      * apply AZ. rewrite CB by auto. exact Hj.
      * transitivity (@None alloc); [apply nth_error_None; fold nd in A1; lia|symmetry; apply nth_error_None; exact J].
Qed.

(** freeing *)
Lemma bm_free_ok s bs b : bm_inv s -> In (b, bs) (held s) ->
  exists m, bm_delete_block bs b (mgr s) = Some m /\
    bm_inv (mk_sys m (remove_held (b, bs) (held s)) (lost s)) /\
    length (disks m) = length (disks (mgr s)) /\
    total_allocation m = total_allocation (mgr s) /\ maximum_allocation m = maximum_allocation (mgr s) /\
    current_allocation m = current_allocation (mgr s) - bs.
Proof.
  intros HI I. destruct (bi_held s HI _ I) as (Hb & d & SD & DL). cbn in Hb, SD.
  unfold bm_delete_block. rewrite SD.
  destruct (nth_error (disks (mgr s)) d) as [a|] eqn:EA; [|apply nth_error_None in EA; lia].
  pose proof (bi_disk s HI d a EA) as IA.
  pose proof (remove_held_perm _ _ I) as P.
  assert (PR : Permutation (regs d (held s)) ((bid_offset b, bs) :: regs d (remove_held (b, bs) (held s)))).
  { rewrite (regs_perm d _ _ P) at 1. unfold regs; cbn [filter]. unfold on_disk at 1. cbn [fst]. rewrite SD, Nat.eqb_refl. reflexivity. }
  assert (IL : In (bid_offset b, bs) (regs d (held s) ++ lregs d (lost s))).
  { apply in_or_app. left. apply (Permutation_in _ (Permutation_sym PR)). left; auto. }
  pose proof (exec_inv (a, regs d (held s) ++ lregs d (lost s)) (EFree (bid_offset b, bs)) IA (or_introl IL)) as EX.
  cbn [exec] in EX. unfold delete_block in *. cbn [fst snd] in *.
  pose proof (in_live_inside _ _ _ IA IL) as (Q1 & Q2 & Q3). cbn [fst snd] in *.
  destruct (afr_spec (-1) a (bid_offset b) bs (proj1 IA) ltac:(lia) Hb) as [((r & J & O) & _)|(_ & a' & E & _)].
  { exfalso. exact (live_not_free _ _ _ _ IA IL J O). }
  rewrite E in *. eexists. split; [reflexivity|]. cbn [disks total_allocation current_allocation maximum_allocation].
  split; [|repeat split; auto; apply update_length].
  constructor; cbn [mgr held lost disks].
  - intros e x EE. rewrite nth_error_update in EE. destruct (Nat.eqb_spec e d) as [->|N].
    + destruct (Nat.ltb_spec d (length (disks (mgr s)))); [|lia]. injection EE as <-.
      eapply inv_perm; [|exact EX].
      assert (PP : Permutation (remove1 (bid_offset b, bs) (regs d (held s) ++ lregs d (lost s)))
                    (regs d (remove_held (b, bs) (held s)) ++ lregs d (lost s))); [|exact PP].
      assert (RP : forall r l, In r l -> Permutation l (r :: remove1 r l)).
      { clear. intros r l. induction l as [|y l IH]; intros I; [destruct I|]. cbn. unfold region_eqb.
        destruct (Z.eqb_spec (fst r) (fst y)) as [F|F]; destruct (Z.eqb_spec (snd r) (snd y)) as [G|G]; cbn [andb].
        - replace y with r by (destruct r, y; cbn in *; congruence). reflexivity.
        - destruct I as [->|I]; [congruence|]. rewrite (IH I) at 1. apply perm_swap.
        - destruct I as [->|I]; [congruence|]. rewrite (IH I) at 1. apply perm_swap.
        - destruct I as [->|I]; [congruence|]. rewrite (IH I) at 1. apply perm_swap. }
      apply (Permutation_cons_inv (a := (bid_offset b, bs))). rewrite <- (RP _ _ IL).
      rewrite PR. reflexivity.
    + pose proof (bi_disk s HI e x EE) as IE. eapply inv_perm; [|exact IE].
      apply Permutation_app_tail.
      rewrite (regs_perm e _ _ P). unfold regs; cbn [filter]. unfold on_disk at 1. cbn [fst]. rewrite SD.
      destruct (Nat.eqb_spec d e); [congruence|]. reflexivity.
  - intros x J. rewrite update_length. apply (bi_held s HI).
    apply (Permutation_in _ (Permutation_sym P)). right; auto.
  - intros x J. rewrite update_length. apply (bi_lost s HI x J).
  - unfold held_bytes; cbn [held current_allocation]. rewrite (bi_cur s HI). unfold held_bytes.
    fold (hb (held s)). fold (hb (remove_held (b, bs) (held s))). rewrite (hb_perm _ _ P). unfold hb; cbn. lia.
Qed.

(** the two kinds of steps in terms of counters *)
Definition step_ok (s s' : bm_sys) : Prop :=
  bm_inv s' /\ length (disks (mgr s')) = length (disks (mgr s)) /\
  total_allocation (mgr s') = total_allocation (mgr s) + Z.max 0 (held_bytes s' - held_bytes s) /\
  maximum_allocation (mgr s') = Z.max (maximum_allocation (mgr s)) (if held_bytes s <? held_bytes s' then held_bytes s' else maximum_allocation (mgr s)).

Lemma hbytes_nonneg s : bm_inv s -> 0 <= held_bytes s.
Proof.
  intros H. unfold held_bytes. assert (K := fun x I => proj1 (bi_held s H x I)).
  induction (held s) as [|x l IH]; cbn; [lia|]. pose proof (K x (or_introl eq_refl)).
  assert (0 <= fold_right (fun x n => snd x + n) 0 l) by (apply IH; intros; apply K; right; auto). lia.
Qed.

Definition max_ok (s : bm_sys) : Prop := held_bytes s <= maximum_allocation (mgr s).

Lemma bm_exec_ok s e : bm_inv s -> max_ok s -> bm_legal_event s e ->
  let s' := bm_exec s e in
  bm_inv s' /\ length (disks (mgr s')) = length (disks (mgr s)) /\
  total_allocation (mgr s') = total_allocation (mgr s) + Z.max 0 (held_bytes s' - held_bytes s) /\
  maximum_allocation (mgr s') = Z.max (maximum_allocation (mgr s)) (held_bytes s').
Proof.
  intros HI HM HL. destruct e as [bs n f off|bs b]; cbn [bm_exec].
  - destruct HL as [Hb Hf].
    destruct (new_blocks_int_ok s bs n f off HI Hb Hf) as
      [(m & out & E & LO & _ & I & LD & T & C & M & _)|(m & o & E & I & LD & T & C & M & _)]; rewrite E.
    + split; [exact I|]. cbn [mgr]. split; [exact LD|].
      pose proof (bi_cur _ I) as C'. cbn [mgr] in C'. pose proof (bi_cur s HI) as C0.
      assert (0 <= Z.of_nat n * bs) by nia. split; [lia|]. lia.
    + split; [exact I|]. cbn [mgr]. split; [exact LD|]. unfold held_bytes in *; cbn [held] in *.
      unfold max_ok, held_bytes in HM. split; [lia|lia].
  - destruct HL as [HL|[HL|(Hb & d & a & r & SD & EA & J & O)]].
    + destruct (bm_free_ok s bs b HI HL) as (m & E & I & LD & T & M & C). rewrite E. split; [exact I|]. cbn [mgr].
      split; [exact LD|]. pose proof (bi_cur _ I) as C'. cbn [mgr] in C'. pose proof (bi_cur s HI) as C0.
      pose proof (proj1 (bi_held s HI _ HL)) as Hb. cbn in Hb. unfold max_ok in HM.
      split; [lia|]. lia.
    + assert (E : bm_delete_block bs b (mgr s) = Some (mgr s)) by (unfold bm_delete_block; destruct HL as [->| ->]; reflexivity).
      rewrite E. rewrite remove_held_none.
      * destruct s as [m h l]; cbn [mgr held lost] in *. split; [exact HI|]. split; [reflexivity|].
        unfold max_ok in HM. cbn [mgr] in HM. split; [lia|]. lia.
      * intros I. destruct (bi_held s HI _ I) as (_ & d & SD & _). cbn in SD. destruct HL; congruence.
    + assert (E : bm_delete_block bs b (mgr s) = None).
      { unfold bm_delete_block. rewrite SD, EA. unfold delete_block; cbn [fst snd].
        pose proof (bi_disk s HI d a EA) as IA.
        destruct (afr_spec (Z.min (-1) (bid_offset b - 1)) a (bid_offset b) bs) as [(_ & E)|(N & _)]; try lia.
        - apply (canon_weaken (-1)); [lia|exact (proj1 IA)].
        - rewrite E. reflexivity.
        - exfalso. exact (N r J O). }
      rewrite E. split; [exact HI|]. split; [reflexivity|]. unfold max_ok in HM. lia.
Qed.

Lemma bm_run_ok es : forall s, bm_inv s -> max_ok s -> bm_legal s es ->
  let s' := bm_run s es in
  bm_inv s' /\ max_ok s' /\ length (disks (mgr s')) = length (disks (mgr s)) /\
  total_allocation (mgr s') = total_allocation (mgr s) + ever_allocated s es /\
  maximum_allocation (mgr s') = Z.max (maximum_allocation (mgr s)) (high_water (trace s es)).
Proof.
  induction es as [|e es IH]; intros s HI HM HL.
  - cbn. split; [exact HI|]. split; [exact HM|]. split; [reflexivity|]. split; [lia|].
    unfold max_ok in HM. pose proof (hbytes_nonneg s HI). lia.
  - destruct HL as [L1 L2]. destruct (bm_exec_ok s e HI HM L1) as (I' & LD & T & M).
    assert (HM' : max_ok (bm_exec s e)) by (unfold max_ok; lia).
    destruct (IH _ I' HM' L2) as (I2 & M2 & LD2 & T2 & X2).
    change (bm_run s (e :: es)) with (bm_run (bm_exec s e) es).
    split; [exact I2|]. split; [exact M2|]. split; [congruence|].
    split; [cbn [ever_allocated]; lia|].
    rewrite X2, M. cbn [trace]. unfold high_water; cbn [fold_right].
    assert (G : held_bytes (bm_exec s e) <= fold_right (fun s n => Z.max (held_bytes s) n) 0 (trace (bm_exec s e) es)).
    { destruct es; cbn [trace fold_right]; lia. }
    unfold max_ok in HM. lia.
Qed.

Lemma make_disks_ok cfg : Forall (fun c => 0 <= fst c) cfg ->
  exists l, make_disks cfg = Some l /\ length l = length cfg /\ Forall (fun a => inv (a, [])) l.
Proof.
  induction 1 as [|[c g] cfg H F (l & E & L & I)]; [exists []; repeat split; constructor|].
  cbn in H. destruct (make_ok c g H) as (a & EA & IA & _). exists (a :: l). cbn. rewrite EA, E.
  repeat split; [cbn; lia|constructor; auto].
Qed.
Lemma make_manager_ok cfg : Forall (fun c => 0 <= fst c) cfg ->
  exists m, make_manager cfg = Some m /\ length (disks m) = length cfg /\ bm_inv (bm_start m) /\
    total_allocation m = 0 /\ current_allocation m = 0 /\ maximum_allocation m = 0.
Proof.
  intros H. destruct (make_disks_ok cfg H) as (l & E & L & I). unfold make_manager. rewrite E.
  eexists. split; [reflexivity|]. split; [exact L|]. split; [|auto].
  constructor; cbn; [|intros x []|intros x []|reflexivity].
  intros d a EA. rewrite Forall_forall in I. apply I. eapply nth_error_In; eauto.
Qed.
Lemma bm_reachable_inv cfg s : Forall (fun c => 0 <= fst c) cfg -> bm_reachable cfg s ->
  bm_inv s /\ length (disks (mgr s)) = length cfg.
Proof.
  intros H (m & es & E & L & <-). destruct (make_manager_ok cfg H) as (m' & E' & LD & I & T & C & M).
  rewrite E in E'. injection E' as <-.
  destruct (bm_run_ok es (bm_start m) I) as (I2 & _ & L2 & _); auto.
  - unfold max_ok, held_bytes; cbn. lia.
  - split; [exact I2|]. rewrite L2. exact LD.
Qed.

(** ** consequences *)
Lemma FOP_map {A B} (f : A -> B) (R : B -> B -> Prop) l :
  ForallOrdPairs R (map f l) -> ForallOrdPairs (fun x y => R (f x) (f y)) l.
Proof.
  induction l as [|x l IH]; cbn; intros H; [constructor|]. inversion_clear H as [|? ? F G]. constructor; auto.
  rewrite Forall_forall in *. intros y I. apply F. apply in_map. exact I.
Qed.
Lemma no_collision_of l : (forall d, pairwise_disjoint (regs d l)) -> no_collision l.
Proof.
  induction l as [|x l IH]; intros H; [constructor|]. constructor.
  - rewrite Forall_forall. intros y I (d & S1 & S2 & O). specialize (H d).
    unfold regs in H; cbn [filter] in H. unfold on_disk at 1 in H. rewrite S1, Nat.eqb_refl in H.
    cbn [map] in H. inversion_clear H as [|? ? F _]. rewrite Forall_forall in F.
    apply (F (reg y)); [|exact O]. apply in_map. apply filter_In. split; [exact I|]. unfold on_disk. rewrite S2. apply Nat.eqb_refl.
  - apply IH. intros d. specialize (H d). unfold regs in *; cbn [filter] in H. destruct (on_disk d x); [|exact H].
    cbn [map] in H. inversion_clear H. assumption.
Qed.

Lemma inv_no_collision s : bm_inv s -> no_collision (held s) /\ (forall x, In x (held s) -> block_inside (mgr s) x).
Proof.
  intros HI. split.
  - apply no_collision_of. intros d. destruct (nth_error (disks (mgr s)) d) as [a|] eqn:E.
    + pose proof (inv_partition _ _ (bi_disk s HI d a E)) as (P & _). apply pd_app in P. destruct P as (_ & P & _).
      apply pd_app in P. tauto.
    + replace (regs d (held s)) with (@nil (Z * Z)); [constructor|]. symmetry.
      unfold regs. assert (K := bi_held s HI). apply nth_error_None in E.
      induction (held s) as [|x l IH]; [reflexivity|]. cbn [filter].
      destruct (K x (or_introl eq_refl)) as (_ & e & SE & LE). unfold on_disk at 1. rewrite SE.
      destruct (Nat.eqb_spec e d); [lia|]. apply IH. intros; apply K; right; auto.
  - intros x I. destruct (bi_held s HI x I) as (_ & d & SD & LD).
    destruct (nth_error (disks (mgr s)) d) as [a|] eqn:E; [|apply nth_error_None in E; lia].
    exists d, a. split; [exact SD|]. split; [exact E|].
    pose proof (inv_partition _ _ (bi_disk s HI d a E)) as (_ & P & _). apply P. apply in_or_app. right.
    apply in_or_app. left. unfold regs. apply (in_map reg). apply filter_In. split; [exact I|]. unfold on_disk. rewrite SD. apply Nat.eqb_refl.
Qed.

Lemma sum_disks_bytes : forall (as_ : list alloc) (L : nat -> list (Z * Z)),
  (forall d a, nth_error as_ d = Some a -> inv (a, L d)) ->
  fold_right (fun a n => get_total_bytes a + n) 0 as_ =
  fold_right (fun a n => get_free_bytes a + n) 0 as_ + fold_right (fun d n => bytes_of (L d) + n) 0 (seq 0 (length as_)).
Proof.
  induction as_ as [|a l IH]; intros L H; [reflexivity|]. cbn [fold_right length seq].
  rewrite (IH (fun d => L (S d)) (fun d x E => H (S d) x E)).
  destruct (H 0%nat a eq_refl) as (_ & _ & F & B & _). unfold get_total_bytes, get_free_bytes.
  rewrite <- seq_shift.
  assert (G : forall l', fold_right (fun d n => bytes_of (L d) + n) 0 (map S l') = fold_right (fun d n => bytes_of (L (S d)) + n) 0 l').
  { induction l' as [|y l' IHl]; [reflexivity|]. cbn. rewrite IHl. reflexivity. }
  rewrite G. lia.
Qed.

Lemma nth_error_ext' {A} (l m : list A) : (forall i, nth_error l i = nth_error m i) -> l = m.
Proof.
  revert m; induction l as [|x l IH]; intros [|y m] H; try reflexivity.
  - specialize (H 0%nat). discriminate.
  - specialize (H 0%nat). discriminate.
  - pose proof (H 0%nat) as E. injection E as <-. f_equal. apply IH. intros i. exact (H (S i)).
Qed.

Lemma sum_seq_zero (g : nat -> Z) n0 n : (forall d, (n0 <= d < n0 + n)%nat -> g d = 0) -> fold_right (fun d z => g d + z) 0 (seq n0 n) = 0.
Proof.
  revert n0; induction n; intros n0 H; [reflexivity|]. cbn. rewrite (H n0) by lia. rewrite IHn; [reflexivity|].
  intros. apply H. lia.
Qed.
Lemma sum_seq_single (g : nat -> Z) n0 n e v : (n0 <= e < n0 + n)%nat -> g e = v -> (forall d, d <> e -> g d = 0) ->
  fold_right (fun d z => g d + z) 0 (seq n0 n) = v.
Proof.
  revert n0; induction n; intros n0 H E N; [lia|]. cbn. destruct (Nat.eq_dec n0 e) as [->|D].
  - rewrite sum_seq_zero; [lia|]. intros. apply N. lia.
  - rewrite (N n0 D). rewrite IHn; auto; lia.
Qed.
Lemma sum_seq_add (g h : nat -> Z) l : fold_right (fun d z => (g d + h d) + z) 0 l =
  fold_right (fun d z => g d + z) 0 l + fold_right (fun d z => h d + z) 0 l.
Proof. induction l; cbn; lia. Qed.
Lemma sum_seq_ext (g h : nat -> Z) l : (forall d, g d = h d) -> fold_right (fun d z => g d + z) 0 l = fold_right (fun d z => h d + z) 0 l.
Proof. intros H. induction l; cbn; [reflexivity|]. rewrite H, IHl. reflexivity. Qed.

Lemma sum_regs nd l : (forall x, In x l -> exists d, bid_storage (fst x) = Disk d /\ (d < nd)%nat) ->
  fold_right (fun d n => bytes_of (regs d l) + n) 0 (seq 0 nd) = hb l.
Proof.
  induction l as [|x l IH]; intros H.
  - apply sum_seq_zero. reflexivity.
  - destruct (H x (or_introl eq_refl)) as (e & SE & LE).
    rewrite (sum_seq_ext _ (fun d => (if Nat.eqb e d then snd x else 0) + bytes_of (regs d l))).
    + rewrite sum_seq_add, IH by (intros; apply H; right; auto). unfold hb; cbn [fold_right]. f_equal.
      apply (sum_seq_single _ 0 nd e); [lia|rewrite Nat.eqb_refl; reflexivity|].
      intros d D. destruct (Nat.eqb_spec e d); [congruence|reflexivity].
    + intros d. unfold regs; cbn [filter]. unfold on_disk at 1. rewrite SE. destruct (Nat.eqb e d); reflexivity.
Qed.
Definition lb (l : list (nat * (Z * Z))) : Z := fold_right (fun x n => snd (snd x) + n) 0 l.
Lemma sum_lregs nd l : (forall x, In x l -> (fst x < nd)%nat) ->
  fold_right (fun d n => bytes_of (lregs d l) + n) 0 (seq 0 nd) = lb l.
Proof.
  induction l as [|x l IH]; intros H.
  - apply sum_seq_zero. reflexivity.
  - pose proof (H x (or_introl eq_refl)) as LE.
    rewrite (sum_seq_ext _ (fun d => (if Nat.eqb (fst x) d then snd (snd x) else 0) + bytes_of (lregs d l))).
    + rewrite sum_seq_add, IH by (intros; apply H; right; auto). unfold lb; cbn [fold_right]. f_equal.
      apply (sum_seq_single _ 0 nd (fst x)); [lia|rewrite Nat.eqb_refl; reflexivity|].
      intros d D. destruct (Nat.eqb_spec (fst x) d); [congruence|reflexivity].
    + intros d. unfold lregs; cbn [filter]. destruct (Nat.eqb (fst x) d); reflexivity.
Qed.

Lemma bm_bytes s : bm_inv s ->
  bm_get_total_bytes (mgr s) = bm_get_free_bytes (mgr s) + held_bytes s + lost_bytes s.
Proof.
  intros HI. unfold bm_get_total_bytes, bm_get_free_bytes.
  rewrite (sum_disks_bytes _ (fun d => regs d (held s) ++ lregs d (lost s)) (bi_disk s HI)).
  rewrite (sum_seq_ext _ (fun d => bytes_of (regs d (held s)) + bytes_of (lregs d (lost s)))) by (intros; apply bytes_app).
  rewrite sum_seq_add, sum_regs, sum_lregs.
  - unfold held_bytes, lost_bytes, hb, lb. lia.
  - apply (bi_lost s HI).
  - intros x I. apply (bi_held s HI x I).
Qed.

(** ** Statements used by BlockMgrProps.v *)
Lemma C08_held_ok : forall cfg s, Forall (fun c => 0 <= fst c) cfg -> bm_reachable cfg s ->
  no_collision (held s) /\ (forall x, In x (held s) -> block_inside (mgr s) x).
Proof. intros cfg s H R. apply inv_no_collision. eapply bm_reachable_inv; eauto. Qed.

Lemma C08_one_call : forall cfg s bs n f off, Forall (fun c => 0 <= fst c) cfg -> bm_reachable cfg s -> 0 < bs ->
  (forall i, (i < n)%nat -> (f (off + i) < length cfg)%nat) ->
  ((forall d a, nth_error (disks (mgr s)) d = Some a ->
      autogrow a = true \/ Z.of_nat (demand f off n d) * bs <= get_free_bytes a) ->
    exists m out, new_blocks_int bs n f off (mgr s) = BDone m out /\ length out = n /\
      (forall i b, nth_error out i = Some b -> bid_storage b = Disk (f (off + i)%nat)) /\
      no_collision (held s ++ map (fun b => (b, bs)) out) /\
      (forall b, In b out -> block_inside m (b, bs))) /\
  (forall d a, nth_error (disks (mgr s)) d = Some a -> autogrow a = false ->
      get_free_bytes a < Z.of_nat (demand f off n d) * bs ->
    exists m o, new_blocks_int bs n f off (mgr s) = BThrow m o).
Proof.
  intros cfg s bs n f off H R Hb Hf. destruct (bm_reachable_inv cfg s H R) as [HI LD]. rewrite <- LD in Hf.
  destruct (new_blocks_int_ok s bs n f off HI Hb Hf) as
    [(m & out & E & LO & ST & I & _ & _ & _ & _ & EN)|(m & o & E & _ & _ & _ & _ & _ & k & a & K1 & K2 & _)].
  - destruct (inv_no_collision _ I) as [N1 N2]. cbn [held mgr] in *. split.
    + intros _. exists m, out. repeat (split; auto). intros b J. apply N2. apply in_or_app. right.
      apply in_map_iff. exists b; auto.
    + intros d a ED AG LT. exfalso. destruct (EN d a ED) as [Q|Q]; [unfold get_free_bytes in LT; lia|congruence].
  - split; [|eauto]. intros EN. exfalso. apply K2. destruct (EN k a K1) as [Q|Q]; [right; auto|left; exact Q].
Qed.

Lemma C08_counters_ok : forall cfg m es, Forall (fun c => 0 <= fst c) cfg -> make_manager cfg = Some m ->
  bm_legal (bm_start m) es ->
  let s := bm_run (bm_start m) es in
  current_allocation (mgr s) = held_bytes s /\
  total_allocation (mgr s) = ever_allocated (bm_start m) es /\
  maximum_allocation (mgr s) = high_water (trace (bm_start m) es) /\
  bm_get_total_bytes (mgr s) = bm_get_free_bytes (mgr s) + held_bytes s + lost_bytes s.
Proof.
  intros cfg m es H E L s. destruct (make_manager_ok cfg H) as (m' & E' & LD & I & T & C & M).
  rewrite E in E'. injection E' as <-.
  destruct (bm_run_ok es (bm_start m) I) as (I2 & _ & L2 & T2 & M2); auto.
  { unfold max_ok, held_bytes; cbn. lia. }
  fold s in I2, L2, T2, M2. split; [apply (bi_cur s I2)|]. split; [cbn [mgr bm_start] in T2; lia|].
  split; [|apply bm_bytes; exact I2]. cbn [mgr bm_start] in M2. rewrite M2, M.
  assert (0 <= high_water (trace (bm_start m) es)) by (destruct es; cbn; unfold held_bytes; cbn; lia). lia.
Qed.

Lemma C07_fail : forall cfg s bs n f off m o, Forall (fun c => 0 <= fst c) cfg -> bm_reachable cfg s -> 0 < bs ->
  (forall i, (i < n)%nat -> (f (off + i) < length cfg)%nat) ->
  new_blocks_int bs n f off (mgr s) = BThrow m o ->
  current_allocation m = current_allocation (mgr s) /\ total_allocation m = total_allocation (mgr s) /\
  maximum_allocation m = maximum_allocation (mgr s) /\
  (exists k a, nth_error (disks (mgr s)) k = Some a /\ autogrow a = false /\
     get_free_bytes a < Z.of_nat (demand f off n k) * bs /\
     (forall j, (k <= j)%nat -> nth_error (disks m) j = nth_error (disks (mgr s)) j)) /\
  (forall e, (forall i, (i < n)%nat -> f (off + i)%nat = e) -> disks m = disks (mgr s)).
Proof.
  intros cfg s bs n f off m o H R Hb Hf E. destruct (bm_reachable_inv cfg s H R) as [HI LD]. rewrite <- LD in Hf.
  destruct (new_blocks_int_ok s bs n f off HI Hb Hf) as
    [(m' & out & E' & _)|(m' & o' & E' & _ & _ & T & C & M & k & a & K1 & K2 & K3 & K4 & K5 & K6)]; [congruence|].
  rewrite E in E'. injection E' as <- <-. repeat (split; auto).
  - exists k, a. split; [exact K1|]. unfold enough in K2. destruct (autogrow a) eqn:AG.
    + exfalso. apply K2. auto.
    + split; [reflexivity|]. split; [unfold get_free_bytes; lia|exact K5].
  - intros e He. apply nth_error_ext'. intros j. destruct (Nat.eq_dec j e) as [->|N].
    + apply K5. destruct (Nat.eq_dec k e) as [->|N]; [lia|]. exfalso. apply K2. left.
      assert (D : demand f off n k = 0%nat).
      { unfold demand. rewrite (proj2 (length_zero_iff_nil _)); [reflexivity|].
        assert (G : forall x, In x (seq off n) -> Nat.eqb (f x) k = false).
        { intros x I. apply in_seq in I. replace x with (off + (x - off))%nat by lia.
          rewrite He by lia. apply Nat.eqb_neq. auto. }
        revert G. generalize (seq off n). induction l as [|y l IH]; intros G; [reflexivity|]. cbn.
        rewrite (G y) by (left; auto). apply IH. intros; apply G; right; auto. }
      rewrite D. cbn [Z.of_nat Z.mul]. destruct (bi_disk s HI k a K1) as (Q & _ & -> & _).
      eapply bytes_canon_nonneg; eauto.
    + apply K6. unfold demand.
      assert (G : forall x, In x (seq off n) -> Nat.eqb (f x) j = false).
      { intros x I. apply in_seq in I. replace x with (off + (x - off))%nat by lia.
        rewrite He by lia. apply Nat.eqb_neq. auto. }
      revert G. generalize (seq off n). induction l as [|y l IH]; intros G; [reflexivity|]. cbn.
      rewrite (G y) by (left; auto). apply IH. intros; apply G; right; auto.
Qed.
