(** The blocks of the scheduler behave like BlockSchedSpec says *)
From Coq Require Import List Bool Arith NArith ZArith Lia Permutation.
From Verif Require Import SumLib AsyncIoModel AsyncIoProofs AsyncIoRules BlockSchedModel BlockSchedSpec.
Import ListNotations.

(** * Lists *)
Lemma nth_set_nth {X} (l : list X) i a : nth_error l i = Some a ->
  exists l1 l2, l = l1 ++ a :: l2 /\ length l1 = i /\ forall b, set_nth l i b = l1 ++ b :: l2.
Proof.
  intro H. destruct (nth_error_split _ _ H) as (l1 & l2 & -> & E). exists l1, l2. split; [reflexivity|split; [exact E|]].
  intro b. unfold set_nth. rewrite <- E. rewrite firstn_app, Nat.sub_diag, firstn_all. simpl. rewrite app_nil_r. f_equal.
  f_equal. clear. induction l1 as [|x l1 IH]; [reflexivity|exact IH].
Qed.
Lemma set_nth_len {X} (l : list X) i a b : nth_error l i = Some a -> length (set_nth l i b) = length l.
Proof. intro H. destruct (nth_set_nth l i a H) as (l1 & l2 & -> & _ & E). rewrite E, !app_length. reflexivity. Qed.
Lemma set_nth_same {X} (l : list X) i a b : nth_error l i = Some a -> nth_error (set_nth l i b) i = Some b.
Proof.
  intro H. destruct (nth_set_nth l i a H) as (l1 & l2 & -> & L & E). rewrite E. subst i. rewrite nth_error_app2, Nat.sub_diag by lia. reflexivity.
Qed.
Lemma set_nth_other {X} (l : list X) i j a b : nth_error l i = Some a -> j <> i -> nth_error (set_nth l i b) j = nth_error l j.
Proof.
  intros H N. destruct (nth_set_nth l i a H) as (l1 & l2 & -> & L & E). rewrite E. subst i.
  destruct (lt_dec j (length l1)) as [Lt|Ge]; [rewrite !nth_error_app1 by lia; reflexivity|]. rewrite !nth_error_app2 by lia.
  destruct (j - length l1) eqn:D; [lia|reflexivity].
Qed.
Lemma mark_len {X} (l : list X) : forall i x, length (mark l i x) = length l.
Proof. induction l as [|y l IH]; intros i x; [reflexivity|]. destruct i; simpl; auto. Qed.
Lemma mark_nth {X} (l : list X) : forall i x j, i < length l -> nth_error (mark l i x) j = if Nat.eqb j i then Some x else nth_error l j.
Proof.
  induction l as [|y l IH]; intros i x j H; [simpl in H; lia|]. destruct i, j; simpl in *; try reflexivity. apply IH. lia.
Qed.
Lemma mark_big {X} (l : list X) : forall i x, length l <= i -> mark l i x = l.
Proof. induction l as [|y l IH]; intros i x H; [reflexivity|]. destruct i; simpl in *; [lia|]. rewrite IH by lia. reflexivity. Qed.
Lemma mark_same {X} (l : list X) i x y : nth_error l i = Some y -> nth_error (mark l i x) i = Some x.
Proof. intro H. rewrite mark_nth, Nat.eqb_refl; [reflexivity|]. apply nth_error_Some. congruence. Qed.
Lemma mark_other {X} (l : list X) i x j : j <> i -> nth_error (mark l i x) j = nth_error l j.
Proof.
  intro N. destruct (lt_dec i (length l)) as [L|G]; [|rewrite mark_big by lia; reflexivity]. rewrite mark_nth by exact L.
  destruct (Nat.eqb_spec j i); [contradiction|reflexivity].
Qed.
Lemma mark_self {X} (l : list X) : forall i x, nth_error l i = Some x -> mark l i x = l.
Proof. induction l as [|y l IH]; intros i x H; [destruct i; discriminate|]. destruct i; simpl in *; [congruence|]. rewrite IH; auto. Qed.
Lemma forget_nth {A} js : forall (c : list (option A)) j v, nth_error (forget c js) j = Some (Some v) -> nth_error c j = Some (Some v) /\ ~ In j js.
Proof.
  induction js as [|i js IH]; intros c j v H; [split; [exact H|intros []]|]. simpl in H. apply IH in H. destruct H as (H & N).
  destruct (Nat.eq_dec j i) as [->|D].
  - destruct (lt_dec i (length c)) as [L|G].
    + rewrite mark_nth, Nat.eqb_refl in H by exact L. discriminate.
    + rewrite mark_big in H by lia. exfalso. assert (nth_error c i = None) by (apply nth_error_None; lia). congruence.
  - rewrite mark_other in H by exact D. split; [exact H|]. intros [E|C]; [congruence|contradiction].
Qed.
Lemma forget_len {A} js : forall (c : list (option A)), length (forget c js) = length c.
Proof. induction js as [|i js IH]; intro c; [reflexivity|]. simpl. unfold forget in *. rewrite IH. apply mark_len. Qed.
Lemma nth_repeat_some {X} (x y : X) n j : nth_error (repeat x n) j = Some y -> x = y /\ j < n.
Proof.
  revert j. induction n as [|n IH]; intros j H; [destruct j; discriminate|]. destruct j; simpl in H; [split; [congruence|lia]|].
  apply IH in H. lia || (destruct H; split; [assumption|lia]).
Qed.

(** * Algorithms *)
Definition ev (g : algo) : list nat := match g with Lru q => q | Lfd q _ => map snd q | Sim st _ _ _ _ => st end.
Lemma ev_size g : algo_size g = length (ev g).
Proof. destruct g; simpl; try reflexivity. symmetry. apply map_length. Qed.
Lemma remove_id_in i q j : In j (remove_id i q) <-> In j q /\ j <> i.
Proof. unfold remove_id. rewrite filter_In, negb_true_iff, Nat.eqb_neq. tauto. Qed.
Lemma remove_id_nodup i q : NoDup q -> NoDup (remove_id i q).
Proof. apply NoDup_filter. Qed.
Lemma remove_id_none i q : ~ In i q -> remove_id i q = q.
Proof.
  induction q as [|j q IH]; intro H; [reflexivity|]. simpl. destruct (Nat.eqb_spec j i) as [->|N]; [exfalso; apply H; left; reflexivity|]. simpl.
  rewrite IH; [reflexivity|]. intro C. apply H. right. exact C.
Qed.
Lemma pq_erase_snd i q : map snd (pq_erase i q) = remove_id i (map snd q).
Proof. induction q as [|[p j] q IH]; [reflexivity|]. simpl. destruct (negb (Nat.eqb j i)); simpl; rewrite IH; reflexivity. Qed.
Lemma pq_top_in q : forall x, In (snd (pq_top x q)) (snd x :: map snd q).
Proof.
  induction q as [|y q IH]; intro x; [left; reflexivity|]. simpl. specialize (IH (if pq_before y x then y else x)). simpl in IH.
  destruct (pq_before y x), IH; auto.
Qed.
Lemma remove_perm i q : NoDup q -> In i q -> Permutation q (i :: remove_id i q).
Proof.
  induction q as [|j q IH]; intros N H; [destruct H|]. inversion N; subst. simpl. destruct (Nat.eqb_spec j i) as [->|D]; simpl.
  - rewrite remove_id_none by assumption. reflexivity.
  - destruct H as [->|H]; [contradiction|]. rewrite perm_swap. constructor. apply IH; assumption.
Qed.
Lemma ev_erase i g : is_sim g = false -> ev (algo_erase i g) = remove_id i (ev g).
Proof. destruct g; simpl; intro H; try discriminate; [reflexivity|apply pq_erase_snd]. Qed.
Lemma pop_none g : algo_pop g = None -> ev g = [].
Proof. destruct g as [[|]|[|]|[|]]; simpl; intro H; try discriminate; reflexivity. Qed.
(** everything of an algorithm but the blocks that can be evicted *)
Definition kind (g : algo) : option (list (bool * N)) * option (N * bool * list Z * list pse) :=
  match g with Lru _ => (None, None) | Lfd _ nu => (Some nu, None) | Sim _ t l c p => (None, Some (t, l, c, p)) end.
Lemma pop_some g i g' : algo_pop g = Some (i, g') -> NoDup (ev g) -> Permutation (ev g) (i :: ev g') /\ kind g' = kind g.
Proof.
  destruct g as [[|j q]|[|x q] nu|[|j q]]; unfold algo_pop, pq_pop; intros H N; try discriminate.
  - injection H as <- <-. auto.
  - assert (Ei : i = snd (pq_top x q)) by congruence. assert (Eg : g' = Lfd (pq_erase (snd (pq_top x q)) (x :: q)) nu) by congruence.
    rewrite Ei, Eg. split; [|reflexivity]. cbn [ev] in *. rewrite pq_erase_snd. apply (remove_perm _ (snd x :: map snd q) N). apply pq_top_in.
  - injection H as <- <-. auto.
Qed.
Lemma drain_perm : forall f g, length (ev g) <= f -> NoDup (ev g) -> Permutation (drain f g) (ev g).
Proof.
  induction f as [|f IH]; intros g L N; simpl.
  - destruct (ev g); [reflexivity|simpl in L; lia].
  - destruct (algo_pop g) as [[i g']|] eqn:E; [|rewrite (pop_none _ E); reflexivity].
    destruct (pop_some _ _ _ E N) as (P & _). rewrite P. constructor. apply IH.
    + apply Permutation_length in P. simpl in P. lia.
    + apply (Permutation_NoDup P) in N. inversion N. assumption.
Qed.
Lemma fifo_fold l : forall q, NoDup (q ++ l) -> fold_left (fun q i => fifo_insert i q) l q = q ++ l.
Proof.
  induction l as [|i l IH]; intros q N; [simpl; rewrite app_nil_r; reflexivity|]. simpl. unfold fifo_insert at 2.
  assert (D : ~ In i q). { apply NoDup_remove_2 in N. intro C. apply N. apply in_app_iff. auto. }
  rewrite remove_id_none by exact D. rewrite IH; rewrite <- app_assoc; [reflexivity|exact N].
Qed.
Lemma pq_fold (p : nat -> N) l : forall q, NoDup (map snd q ++ l) ->
  map snd (fold_left (fun q i => pq_insert i (p i) q) l q) = map snd q ++ l.
Proof.
  induction l as [|i l IH]; intros q N; [simpl; rewrite app_nil_r; reflexivity|]. simpl.
  assert (E : map snd (pq_insert i (p i) q) = map snd q ++ [i]).
  { unfold pq_insert. rewrite map_app, pq_erase_snd, remove_id_none; [reflexivity|]. apply NoDup_remove_2 in N. intro C. apply N. apply in_app_iff. auto. }
  rewrite IH; rewrite E, <- app_assoc; [reflexivity|exact N].
Qed.
Lemma ev_to_lru g : NoDup (ev g) -> Permutation (ev (to_lru g)) (ev g).
Proof.
  intro N. pose proof (drain_perm (algo_size g) g) as D. rewrite ev_size in D. specialize (D (le_n _) N). unfold to_lru. simpl. rewrite ev_size.
  rewrite fifo_fold; [exact D|]. simpl. exact (Permutation_NoDup (Permutation_sym D) N).
Qed.
Lemma ev_to_lfd t : NoDup (ev (b_algo t)) -> Permutation (ev (to_lfd t)) (ev (b_algo t)).
Proof.
  intro N. pose proof (drain_perm (algo_size (b_algo t)) (b_algo t)) as D. rewrite ev_size in D. specialize (D (le_n _) N). unfold to_lfd. cbn [ev]. rewrite ev_size.
  rewrite (pq_fold (fun i => match nth_error (b_sb t) i with Some s => priority s (fst (lfd_scan (algo_ps (b_algo t))) i) | None => 0%N end)); [exact D|].
  simpl. exact (Permutation_NoDup (Permutation_sym D) N).
Qed.
Lemma ev_to_sim t : NoDup (ev (b_algo t)) -> Permutation (ev (to_sim t)) (ev (b_algo t)).
Proof.
  intro N. pose proof (drain_perm (algo_size (b_algo t)) (b_algo t)) as D. rewrite ev_size in D. specialize (D (le_n _) N). unfold to_sim. cbn [ev]. rewrite ev_size.
  rewrite <- Permutation_rev. exact D.
Qed.

Section P.
Variable A : Type.
Variable S : nat.
Variable fdef : option A.
Variable maxb : nat.
Variable batch : nat.
Hypothesis Hb : 0 < batch.
Notation sstate := (sstate A).
Notation blk := (blk A).

Definition opt {X} (o : option X) : list X := match o with Some x => [x] | None => [] end.
Definition ints (l : list sblock) : list nat := flat_map (fun b => opt (sb_int b)) l.
Definition exts (l : list sblock) : list nat := flat_map (fun b => opt (sb_ext b)) l.
Definition users (l : list (option nat)) : list nat := flat_map opt l.
(** the promised elements are there *)
Definition has (c : list (option A)) (f : nat -> option A) (skip : list nat) : Prop :=
  forall j v, nth_error c j = Some (Some v) -> ~ In j skip -> f j = Some v.

Record rel (s : sstate) (k : blk) (b : sblock) : Prop := {
  r_ref : sb_ref b = k_refs k;
  r_len : length (k_cont k) = S;
  r_valid : k_valid k = sb_dirty b || has_ext b;
  r_dint : sb_dirty b = true -> is_internal b = true;
  r_aint : 0 < sb_ref b -> is_internal b = true;
  r_eint : sb_ref b = 0 -> is_internal b = true -> k_valid k = true;
  r_kd : k_dirty k = true -> sb_dirty b = true;
  r_idle : sb_ref b = 0 -> k_set k = [] /\ k_dirty k = false;
  r_int : forall x, sb_int b = Some x -> has (k_cont k) (scont s x) [];
  r_ext : forall e, sb_ext b = Some e -> sb_dirty b = false -> has (k_cont k) (sdisk s e) (k_set k) }.
Definition urel (s : sstate) (c : option (list (option A))) (u : option nat) : Prop :=
  match c, u with
  | Some c, Some e => length c = S /\ has c (sdisk s e) []
  | None, None => True
  | _, _ => False
  end.
(** a write that was not waited for is to a block that is clean *)
Definition pend_ok (n : nat) (sb : list sblock) (r : areq) : Prop :=
  a_write r = true /\ a_id r < n /\ exists i b, nth_error sb i = Some b /\ sb_ext b = Some (a_bid r) /\ sb_dirty b = false.
Record core (s : sstate) (hand : list nat) (made : nat) (free : list nat) (sb : list sblock) (us : list (option nat))
            (bk : list blk) (uc : list (option (list (option A)))) : Prop := {
  c_perm : Permutation (hand ++ ints sb ++ free) (seq 1 made);
  c_max : made <= maxb;
  c_nodup : NoDup (exts sb ++ users us);
  c_own : forall e, In e (sown s) <-> In e (exts sb ++ users us);
  c_len : length sb = length bk;
  c_rel : forall i k b, nth_error bk i = Some k -> nth_error sb i = Some b -> rel s k b;
  c_user : Forall2 (urel s) uc us;
  c_pend : Forall (pend_ok (snext s) sb) (sout s) }.

Lemma ints_split l i b b' : nth_error l i = Some b ->
  exists r, Permutation (ints l) (opt (sb_int b) ++ r) /\ Permutation (ints (set_nth l i b')) (opt (sb_int b') ++ r).
Proof.
  intro H. destruct (nth_set_nth l i b H) as (l1 & l2 & -> & _ & E). rewrite E. exists (ints l1 ++ ints l2). unfold ints. rewrite !flat_map_app. simpl.
  split; rewrite !app_assoc; apply Permutation_app_tail, Permutation_app_comm.
Qed.
Lemma exts_split l i b b' : nth_error l i = Some b ->
  exists r, Permutation (exts l) (opt (sb_ext b) ++ r) /\ Permutation (exts (set_nth l i b')) (opt (sb_ext b') ++ r) /\
            forall e, In e r <-> exists j c, j <> i /\ nth_error l j = Some c /\ sb_ext c = Some e.
Proof.
  intro H. destruct (nth_set_nth l i b H) as (l1 & l2 & El & L & E). rewrite E. subst l. exists (exts l1 ++ exts l2). unfold exts. rewrite !flat_map_app. simpl.
  repeat split; try (rewrite !app_assoc; apply Permutation_app_tail, Permutation_app_comm).
  - intro I. apply in_app_iff in I. destruct I as [I|I]; apply in_flat_map in I; destruct I as (c & I1 & I2).
    + apply In_nth_error in I1. destruct I1 as (j & I1). exists j, c. assert (j < length l1) by (apply nth_error_Some; congruence).
      split; [lia|]. rewrite nth_error_app1 by assumption. split; [exact I1|]. destruct (sb_ext c); [destruct I2 as [->|[]]; reflexivity|destruct I2].
    + apply In_nth_error in I1. destruct I1 as (j & I1). exists (length l1 + Datatypes.S j), c. split; [lia|]. rewrite nth_error_app2 by lia.
      replace (length l1 + Datatypes.S j - length l1) with (Datatypes.S j) by lia. split; [exact I1|]. destruct (sb_ext c); [destruct I2 as [->|[]]; reflexivity|destruct I2].
  - intros (j & c & N & I & Ec). apply in_app_iff. destruct (lt_dec j (length l1)) as [Lt|Ge].
    + left. rewrite nth_error_app1 in I by assumption. apply in_flat_map. exists c. split; [eapply nth_error_In; eauto|]. rewrite Ec. left. reflexivity.
    + right. rewrite nth_error_app2 in I by lia. destruct (j - length l1) as [|m] eqn:D; [lia|]. simpl in I. apply in_flat_map. exists c.
      split; [eapply nth_error_In; eauto|]. rewrite Ec. left. reflexivity.
Qed.
Lemma int_in l i b x : nth_error l i = Some b -> sb_int b = Some x -> In x (ints l).
Proof. intros H E. apply in_flat_map. exists b. split; [eapply nth_error_In; eauto|]. rewrite E. left. reflexivity. Qed.
Lemma ext_in l i b x : nth_error l i = Some b -> sb_ext b = Some x -> In x (exts l).
Proof. intros H E. apply in_flat_map. exists b. split; [eapply nth_error_In; eauto|]. rewrite E. left. reflexivity. Qed.

Lemma has_eq c f g sk : has c f sk -> (forall j, g j = f j) -> has c g sk.
Proof. intros H E j v N I. rewrite E. exact (H j v N I). Qed.
Lemma rel_frame s s' k b : rel s k b -> (forall x, sb_int b = Some x -> scont s' x = scont s x) ->
  (forall e, sb_ext b = Some e -> sdisk s' e = sdisk s e) -> rel s' k b.
Proof.
  intros [? ? ? ? ? ? ? ? RI RE] H1 H2. split; auto.
  - intros x E. rewrite (H1 x E). auto.
  - intros e E D. rewrite (H2 e E). auto.
Qed.
Lemma user_frame s s' uc us : Forall2 (urel s) uc us -> (forall e, In e (users us) -> sdisk s' e = sdisk s e) -> Forall2 (urel s') uc us.
Proof.
  intro H. induction H as [|c u uc us R F IH]; intro E; constructor.
  - destruct c as [c|], u as [e|]; simpl in *; auto. destruct R as (L & R). split; [exact L|]. rewrite (E e (or_introl eq_refl)). exact R.
  - apply IH. intros e I. apply E. simpl. apply in_app_iff. auto.
Qed.

(** block i changes *)
Lemma core_set s hand made free sb us bk uc i b k s' hand' free' us' uc' b' k' lost new :
  core s hand made free sb us bk uc -> nth_error sb i = Some b -> nth_error bk i = Some k ->
  Permutation (hand' ++ opt (sb_int b') ++ free') (hand ++ opt (sb_int b) ++ free) ->
  Permutation (lost ++ opt (sb_ext b') ++ users us') (new ++ opt (sb_ext b) ++ users us) ->
  NoDup new -> (forall e, In e new -> ~ In e (sown s)) ->
  (forall e, In e (sown s') <-> In e (new ++ sown s) /\ ~ In e lost) ->
  (forall y, ~ In y (hand ++ opt (sb_int b) ++ free) -> scont s' y = scont s y) ->
  (forall e, ~ In e (opt (sb_ext b')) -> In e (sown s) -> sdisk s' e = sdisk s e) ->
  rel s' k' b' -> Forall2 (urel s') uc' us' -> Forall (pend_ok (snext s') (set_nth sb i b')) (sout s') ->
  core s' hand' made free' (set_nth sb i b') us' (mark bk i k') uc'.
Proof.
  intros [CP CM CN CO CL CR CU CE] Hi Hk P1 P2 N2 F2 O2 Fb Fd R U E.
  destruct (ints_split sb i b b' Hi) as (ri & I1 & I2). destruct (exts_split sb i b b' Hi) as (re & E1 & E2 & E3).
  assert (NA : NoDup (lost ++ exts (set_nth sb i b') ++ users us')).
  { eapply Permutation_NoDup with (l := new ++ exts sb ++ users us).
    - rewrite E1, E2. rewrite <- !app_assoc. rewrite (Permutation_app_comm re (users us)), (Permutation_app_comm re (users us')).
      rewrite !app_assoc. apply Permutation_app_tail. rewrite <- !app_assoc. symmetry. exact P2.
    - clear - N2 F2 CN CO. induction new as [|e n IH]; [exact CN|]. inversion N2; subst. simpl. constructor.
      + intro C. apply in_app_iff in C. destruct C as [C|C]; [contradiction|]. apply (F2 e (or_introl eq_refl)). apply CO. exact C.
      + apply IH; auto. intros e' I. apply F2. right. exact I. }
  assert (ND2 : NoDup (exts (set_nth sb i b') ++ users us')).
  { clear - NA. induction lost as [|e l IH]; [exact NA|]. inversion NA; subst. auto. }
  split.
  - rewrite <- CP. rewrite I1, I2. rewrite <- !app_assoc.
    rewrite (Permutation_app_comm ri free), (Permutation_app_comm ri free'). rewrite !app_assoc. apply Permutation_app_tail. rewrite <- !app_assoc. exact P1.
  - exact CM.
  - exact ND2.
  - intro e. rewrite O2, in_app_iff, CO.
    assert (Q : In e (lost ++ exts (set_nth sb i b') ++ users us') <-> In e (new ++ exts sb ++ users us)).
    { split; apply Permutation_in; [|symmetry]; rewrite E1, E2; rewrite <- !app_assoc; rewrite (Permutation_app_comm re (users us)), (Permutation_app_comm re (users us'));
        rewrite !app_assoc; apply Permutation_app_tail; rewrite <- !app_assoc; exact P2. }
    rewrite (in_app_iff lost), (in_app_iff new) in Q.
    assert (D : In e lost -> ~ In e (exts (set_nth sb i b') ++ users us')).
    { clear - NA. intros I C. induction lost as [|x l IH]; [destruct I|]. inversion NA; subst. destruct I as [->|I]; [|auto]. apply H1. apply in_app_iff. auto. }
    tauto.
  - rewrite (set_nth_len sb i b b' Hi), mark_len. exact CL.
  - intros j kj bj Hj1 Hj2. destruct (Nat.eq_dec j i) as [->|Nj].
    + rewrite (mark_same bk i k' k Hk) in Hj1. rewrite (set_nth_same sb i b b' Hi) in Hj2. injection Hj1 as <-. injection Hj2 as <-. exact R.
    + rewrite mark_other in Hj1 by exact Nj. rewrite (set_nth_other sb i j b b' Hi Nj) in Hj2.
      apply (rel_frame s); [apply (CR j); assumption| |].
      * intros x Ex. apply Fb. intro C. pose proof (Permutation_NoDup (Permutation_sym CP) (seq_NoDup made 1)) as NP.
        rewrite I1 in NP.
        assert (Ir : In x ri).
        { destruct (ints_split sb i b sb_new Hi) as (ri' & J1 & J2).
          assert (I : In x (ints (set_nth sb i sb_new))). { apply (int_in _ j bj); [|exact Ex]. rewrite (set_nth_other sb i j b _ Hi Nj). exact Hj2. }
          assert (Pr : Permutation ri ri'). { apply (Permutation_app_inv_l (opt (sb_int b))). rewrite <- I1. exact J1. }
          rewrite Pr. apply (Permutation_in _ J2) in I. exact I. }
        assert (NP2 : NoDup (ri ++ (hand ++ opt (sb_int b) ++ free))).
        { eapply Permutation_NoDup; [|exact NP]. replace (hand ++ (opt (sb_int b) ++ ri) ++ free) with ((hand ++ opt (sb_int b)) ++ ri ++ free) by (rewrite <- !app_assoc; reflexivity).
          rewrite Permutation_app_swap_app. rewrite <- !app_assoc. reflexivity. }
        clear - NP2 Ir C. induction ri as [|z l IH]; [destruct Ir|]. inversion NP2; subst. destruct Ir as [->|Ir]; [apply H1; apply in_app_iff; auto|auto].
      * intros e Ee. apply Fd; [|apply CO; apply in_app_iff; left; eapply ext_in; eauto]. intro C.
        assert (Ir : In e re) by (apply E3; eauto).
        rewrite E2 in ND2. destruct (sb_ext b') as [e'|]; [|destruct C]. destruct C as [->|[]]. simpl in ND2. inversion ND2; subst.
        apply H1. apply in_app_iff. auto.
  - exact U.
  - exact E.
Qed.

Lemma ext_inj sb us i j b c e : NoDup (exts sb ++ us) -> nth_error sb i = Some b -> nth_error sb j = Some c ->
  sb_ext b = Some e -> sb_ext c = Some e -> i = j.
Proof.
  intros N Hi Hj Eb Ec. destruct (Nat.eq_dec i j) as [|D]; [assumption|exfalso].
  destruct (exts_split sb i b b Hi) as (r & E1 & _ & E3). rewrite E1, Eb in N. simpl in N. inversion N; subst. apply H1. apply in_app_iff. left.
  apply E3. exists j, c. auto.
Qed.
Lemma pend_set n n' sb i b b' l : nth_error sb i = Some b -> n <= n' ->
  (sb_dirty b = false -> sb_ext b' = sb_ext b /\ sb_dirty b' = false) -> Forall (pend_ok n sb) l -> Forall (pend_ok n' (set_nth sb i b')) l.
Proof.
  intros Hi L H F. eapply Forall_impl; [|exact F]. intros r (W & I & j & c & Hj & Ec & Dc). split; [exact W|split; [lia|]].
  destruct (Nat.eq_dec j i) as [->|D].
  - assert (c = b) by congruence. subst c. destruct (H Dc) as (H1 & H2). exists i, b'. rewrite (set_nth_same sb i b b' Hi). split; [reflexivity|split; [congruence|exact H2]].
  - exists j, c. rewrite (set_nth_other sb i j b b' Hi D). auto.
Qed.
Lemma core_out s s' hand made free sb us bk uc : core s hand made free sb us bk uc -> scont s' = scont s -> sdisk s' = sdisk s -> sown s' = sown s ->
  snext s <= snext s' -> incl (sout s') (sout s) -> core s' hand made free sb us bk uc.
Proof.
  intros [CP CM CN CO CL CR CU CE] E1 E2 E3 L I. split; auto.
  - intro e. rewrite E3. apply CO.
  - intros i k b Hk Hi. apply (rel_frame s); [eauto| |]; intros; congruence.
  - apply (user_frame s); [exact CU|]. intros; congruence.
  - apply Forall_forall. intros r Hr. apply I in Hr. rewrite Forall_forall in CE. destruct (CE r Hr) as (? & ? & ?). split; [assumption|split; [lia|assumption]].
Qed.
Lemma core_has s hand made free sb us bk uc i b : core s hand made free sb us bk uc -> nth_error sb i = Some b ->
  exists k, nth_error bk i = Some k /\ rel s k b.
Proof.
  intros C Hi. destruct (nth_error bk i) as [k|] eqn:E; [exists k; split; [reflexivity|eapply c_rel; eauto]|].
  apply nth_error_None in E. assert (i < length sb) by (apply nth_error_Some; congruence). rewrite (c_len _ _ _ _ _ _ _ _ C) in *. lia.
Qed.

Lemma rel_cleaned s s' k b x e : rel s k b -> sb_ref b = 0 -> sb_int b = Some x -> sb_dirty b = true -> scont s' x = scont s x -> sdisk s' e = scont s x ->
  rel s' k (mk_sb (Some e) (sb_int b) false (sb_ref b)).
Proof.
  intros [R1 R2 R3 R4 R5 R6 R7 R8 R9 R10] Z Hx D E1 E2. rewrite D in *. destruct (R8 Z) as (K1 & K2).
  constructor; cbn [sb_ref sb_dirty sb_ext sb_int is_internal has_ext isS] in *; auto.
  - intro; congruence.
  - intros y Hy. assert (y = x) as -> by congruence. rewrite E1. apply R9. exact Hx.
  - intros e' Ee _. injection Ee as <-. rewrite E2, K1. apply R9. exact Hx.
Qed.
Lemma clean_ok s hand made free sb us bk uc i b x : core s hand made free sb us bk uc -> nth_error sb i = Some b -> sb_int b = Some x -> sb_ref b = 0 ->
  ok (clean_async A b) s (fun r s' => core s' hand made free (set_nth sb i (fst r)) us bk uc /\
    sb_int (fst r) = Some x /\ sb_ref (fst r) = 0 /\ sb_dirty (fst r) = false /\ (sb_dirty b || has_ext b = has_ext (fst r)) /\
    match snd r with None => s' = s /\ fst r = b | Some q => q = snext s /\ snext s' = q + 1 /\ exists e, sout s' = sout s ++ [mk_areq q true x e] end).
Proof.
  intros C Hi Hx Z. destruct (core_has _ _ _ _ _ _ _ _ _ _ C Hi) as (k & Hk & R). pose proof C as [CP CM CN CO CL CR CU CE]. unfold clean_async.
  destruct (sb_dirty b) eqn:D.
  2:{ apply ok_ret. cbn [fst snd]. split; [|repeat split; auto].
      assert (set_nth sb i b = sb) as ->; [|exact C]. destruct (nth_set_nth sb i b Hi) as (l1 & l2 & -> & _ & E). apply E. }
  rewrite Hx.
  assert (W : forall e, existsb (reads (on_buf e)) (sout s) = false).
  { intro e. apply existsb_false. intros r Hr. rewrite Forall_forall in CE. destruct (CE r Hr) as (Wr & _). unfold reads. rewrite Wr. reflexivity. }
  assert (PE : forall e n, Forall (pend_ok (snext s + 1) (set_nth sb i (mk_sb (Some e) (Some x) false n))) (sout s ++ [mk_areq (snext s) true x e])).
  { intros e n. apply Forall_app. split.
    - apply (pend_set (snext s) _ sb i b); auto; [lia|congruence].
    - constructor; [|constructor]. split; [reflexivity|split; [cbn; lia|]]. exists i, (mk_sb (Some e) (Some x) false n). split; [apply (set_nth_same sb i b); exact Hi|auto]. }
  destruct (sb_ext b) as [e|] eqn:E.
  - unfold ok. cbn [srun]. rewrite (proj2 (mem_in e (sown s))) by (apply CO, in_app_iff; left; eapply ext_in; eauto).
    rewrite W. assert (existsb (on_bid e) (sout s) = false) as ->.
    { apply existsb_false. intros r Hr. rewrite Forall_forall in CE. destruct (CE r Hr) as (_ & _ & j & c & Hj & Ec & Dc). apply Nat.eqb_neq. intro Q. rewrite Q in Ec.
      pose proof (ext_inj _ _ _ _ _ _ _ CN Hi Hj E Ec). congruence. }
    cbn [negb orb fst snd snext]. split; [|repeat split; auto; [lia|eexists; reflexivity]].
    rewrite <- (mark_self bk i k Hk) at 1. eapply core_set with (b := b) (k := k) (lost := []) (new := []); try eassumption; cbn [sb_int sb_ext scont sdisk sown sout snext opt]; auto.
    + rewrite Hx. reflexivity.
    + rewrite E. reflexivity.
    + constructor.
    + intro e'. simpl. tauto.
    + intros e' N _. apply upd_other. intros ->. apply N. left. reflexivity.
    + rewrite <- Hx. apply (rel_cleaned s _ k b x); auto. apply upd_same.
    + apply (user_frame s); [exact CU|]. intros e' I. apply upd_other. intros ->.
      assert (J : In e (exts sb)) by (eapply ext_in; eauto). clear - CN I J. induction (exts sb) as [|y l IH]; [destruct J|]. inversion CN; subst.
      destruct J as [->|J]; [apply H1; apply in_app_iff; auto|auto].
    + rewrite <- Nat.add_1_r. apply PE.
  - unfold ok. cbn [srun]. destruct (salloc s) as [|l al]; [exact I|]. destruct (good_alloc 1 (sown s) l) eqn:G; [|exact I].
    apply good_alloc_spec in G. destruct G as (GL & GN & GO). destruct l as [|e [|]]; try discriminate. cbn [srun sown scont sdisk sout snext].
    rewrite (proj2 (mem_in e ([e] ++ sown s))) by (left; reflexivity). rewrite W. assert (existsb (on_bid e) (sout s) = false) as ->.
    { apply existsb_false. intros r Hr. rewrite Forall_forall in CE. destruct (CE r Hr) as (_ & _ & j & c & Hj & Ec & Dc). apply Nat.eqb_neq. intro Q. rewrite Q in Ec.
      apply (GO e (or_introl eq_refl)). apply CO, in_app_iff. left. eapply ext_in; eauto. }
    cbn [negb orb fst snd snext]. split; [|repeat split; auto; [lia|eexists; reflexivity]].
    rewrite <- (mark_self bk i k Hk) at 1.
    eapply core_set with (b := b) (k := k) (lost := []) (new := [e]); try eassumption; cbn [sb_int sb_ext scont sdisk sown sout snext opt]; auto.
    + rewrite Hx. reflexivity.
    + rewrite E. reflexivity.
    + intro e'. simpl. tauto.
    + intros e' N O. rewrite upd_other by (intros ->; apply N; left; reflexivity). rewrite (proj2 (mem_nin e' [e])); [reflexivity|]. intro Q. exact (N Q).
    + rewrite <- Hx. apply (rel_cleaned s _ k b x); auto. apply upd_same.
    + apply (user_frame s); [exact CU|]. intros e' I. cbn [sdisk]. assert (e' <> e).
      { intros ->. apply (GO e (or_introl eq_refl)). apply CO, in_app_iff. auto. }
      rewrite upd_other by assumption. rewrite (proj2 (mem_nin e' [e])); [reflexivity|]. intros [Q|[]]. congruence.
    + rewrite <- Nat.add_1_r. apply PE.
Qed.
Lemma detach_clean s b x : sb_dirty b = false -> sb_ref b = 0 -> sb_int b = Some x -> srun (detach A b) s = Done (mk_sb (sb_ext b) None false 0, x) s.
Proof.
  intros D Z Hx. unfold detach, is_evictable, is_acquired, is_internal. rewrite Hx, Z. cbn. unfold clean_sync, clean_async. rewrite D. cbn. rewrite Hx, D, Z. reflexivity.
Qed.
Lemma core_detach s hand made free sb us bk uc i b x : core s hand made free sb us bk uc -> nth_error sb i = Some b -> sb_int b = Some x -> sb_ref b = 0 -> sb_dirty b = false ->
  core s (x :: hand) made free (set_nth sb i (mk_sb (sb_ext b) None false 0)) us bk uc.
Proof.
  intros C Hi Hx Z D. destruct (core_has _ _ _ _ _ _ _ _ _ _ C Hi) as (k & Hk & R). pose proof C as [CP CM CN CO CL CR CU CE].
  rewrite <- (mark_self bk i k Hk) at 1. eapply core_set with (b := b) (k := k) (lost := []) (new := []); try eassumption; cbn [sb_int sb_ext opt]; auto.
  - rewrite Hx. simpl. rewrite Permutation_middle. reflexivity.
  - constructor.
  - intro e'. simpl. tauto.
  - destruct R as [R1 R2 R3 R4 R5 R6 R7 R8 R9 R10]. constructor; cbn [sb_ref sb_dirty sb_ext sb_int is_internal has_ext isS] in *; auto; try discriminate; try lia.
    + rewrite R3, D. reflexivity.
    + intro Q. destruct (R8 Z). congruence.
  - apply (pend_set (snext s) _ sb i b); auto.
Qed.
Lemma set_nth_twice {X} (l : list X) i a b c : nth_error l i = Some a -> set_nth (set_nth l i b) i c = set_nth l i c.
Proof.
  intro H. destruct (nth_set_nth l i a H) as (l1 & l2 & -> & L & E). rewrite (E c), (E b). subst i.
  destruct (nth_set_nth (l1 ++ b :: l2) (length l1) b) as (m1 & m2 & E1 & L1 & E2). { rewrite nth_error_app2, Nat.sub_diag by lia. reflexivity. }
  rewrite E2. assert (Q : m1 = l1 /\ b :: m2 = b :: l2).
  { clear - E1 L1. revert m1 E1 L1. induction l1 as [|y l IH]; intros [|z m1] E L; try discriminate; [split; [reflexivity|symmetry; exact E]|].
    simpl in *. injection E as -> E. injection L as L. destruct (IH m1 E L) as (-> & ->). auto. }
  destruct Q as (-> & Q). injection Q as ->. reflexivity.
Qed.
Lemma detach_ok s hand made free sb us bk uc i b x : core s hand made free sb us bk uc -> nth_error sb i = Some b -> sb_int b = Some x -> sb_ref b = 0 -> sout s = [] ->
  ok (detach A b) s (fun r s' => core s' (x :: hand) made free (set_nth sb i (fst r)) us bk uc /\ sout s' = [] /\ snd r = x /\
    (exists e, fst r = mk_sb e None false 0 /\ isS e = sb_dirty b || has_ext b)).
Proof.
  intros C Hi Hx Z So. unfold detach. assert (is_evictable b = true) as -> by (unfold is_evictable, is_acquired, is_internal; rewrite Z, Hx; reflexivity).
  cbn [negb]. apply ok_bind. unfold clean_sync. apply ok_bind. eapply ok_imp; [apply (clean_ok _ _ _ _ _ _ _ _ _ _ _ C Hi Hx Z)|].
  intros r s1 (C1 & I1 & Z1 & D1 & E1 & Q).
  assert (Fin : forall s2, core s2 hand made free (set_nth sb i (fst r)) us bk uc -> sout s2 = [] ->
     ok (match sb_int (fst r) with Some x0 => Ret (mk_sb (sb_ext (fst r)) None (sb_dirty (fst r)) (sb_ref (fst r)), x0) | None => Err end) s2
       (fun r0 s' => core s' (x :: hand) made free (set_nth sb i (fst r0)) us bk uc /\ sout s' = [] /\ snd r0 = x /\
       (exists e, fst r0 = mk_sb e None false 0 /\ isS e = sb_dirty b || has_ext b))).
  { intros s2 C2 S2. rewrite I1, D1, Z1. apply ok_ret. cbn [fst snd]. split; [|split; [exact S2|split; [reflexivity|]]].
    - rewrite <- (set_nth_twice sb i b (fst r) _ Hi). apply (core_detach _ _ _ _ _ _ _ _ _ _ _ C2); auto. apply (set_nth_same sb i b). exact Hi.
    - exists (sb_ext (fst r)). split; [reflexivity|]. rewrite E1. reflexivity. }
  destruct (snd r) as [q|].
  - destruct Q as (-> & Sn & e & So1). unfold ok. cbn [srun]. apply (Fin _).
    + apply (core_out s1); auto. intros y Hy. cbn in Hy. apply drop_id_in in Hy. tauto.
    + cbn. rewrite So1, So. simpl. rewrite Nat.eqb_refl. reflexivity.
  - destruct Q as (-> & _). apply ok_ret. apply Fin; assumption.
Qed.

Definition evok (g : algo) (sb : list sblock) : Prop :=
  NoDup (ev g) /\ forall j, In j (ev g) <-> exists b, nth_error sb j = Some b /\ is_evictable b = true.
Lemma in_use_bound sb : forall bk, length sb = length bk ->
  (forall i k b, nth_error bk i = Some k -> nth_error sb i = Some b -> sb_ref b = k_refs k) ->
  (forall i b, nth_error sb i = Some b -> is_evictable b = false) -> length (ints sb) <= in_use A bk.
Proof.
  induction sb as [|b sb IH]; intros bk L R H; [simpl; lia|]. destruct bk as [|k bk]; [discriminate|]. simpl in L.
  assert (IHs : length (ints sb) <= in_use A bk).
  { apply IH; [lia| |].
    - intros i k' b' H1 H2. apply (R (Datatypes.S i)); assumption.
    - intros i b' H1. apply (H (Datatypes.S i)). exact H1. }
  unfold ints, in_use in *. simpl. rewrite app_length. specialize (H 0 b eq_refl). specialize (R 0 k b eq_refl eq_refl).
  unfold is_evictable, is_acquired, is_internal in H. destruct (sb_int b) as [x|]; simpl in *.
  - rewrite R in H. destruct (k_refs k); simpl in *; [discriminate|lia].
  - destruct (negb (k_refs k =? 0)); simpl; lia.
Qed.
Lemma evictable_parts b : is_evictable b = true -> sb_ref b = 0 /\ exists x, sb_int b = Some x.
Proof.
  unfold is_evictable, is_acquired, is_internal. intro H. apply andb_prop in H. destruct H as (H1 & H2). split.
  - destruct (sb_ref b); [reflexivity|discriminate].
  - destruct (sb_int b); [eauto|discriminate].
Qed.
Lemma not_evictable b : 0 < sb_ref b \/ sb_int b = None -> is_evictable b = false.
Proof.
  unfold is_evictable, is_acquired, is_internal. intros [H|H].
  - destruct (sb_ref b); [lia|reflexivity].
  - rewrite H. apply andb_false_r.
Qed.
Lemma get_free_ok t s bk uc : core s [] (b_made t) (b_free t) (b_sb t) (b_user t) bk uc -> sout s = [] -> evok (b_algo t) (b_sb t) -> in_use A bk < maxb ->
  ok (get_free A maxb batch t) s (fun r s' => let t' := snd r in
    core s' [fst r] (b_made t') (b_free t') (b_sb t') (b_user t') bk uc /\ sout s' = [] /\ evok (b_algo t') (b_sb t') /\
    b_fsb t' = b_fsb t /\ kind (b_algo t') = kind (b_algo t) /\ b_user t' = b_user t /\
    (forall j b, nth_error (b_sb t) j = Some b -> is_internal b = false -> nth_error (b_sb t') j = Some b)).
Proof.
  intros C So EV Lt. unfold get_free, take_free. destruct (b_free t) as [|x l] eqn:Ef.
  2:{ apply ok_ret. cbn [fst snd with_free b_made b_free b_sb b_user b_algo b_fsb]. split; [|split; [exact So|split; [exact EV|repeat split; auto]]].
      destruct C as [CP CM CN CO CL CR CU CE]. split; auto. rewrite <- CP. simpl. apply Permutation_middle. }
  destruct (Nat.ltb_spec (b_made t) maxb) as [Hm|Hm].
  - apply ok_ret. cbn [fst snd b_made b_free b_sb b_user b_algo b_fsb]. split; [|split; [exact So|split; [exact EV|repeat split; auto]]].
    destruct C as [CP CM CN CO CL CR CU CE]. set (n := Nat.min batch (maxb - b_made t)). assert (Hn : 1 <= n <= maxb - b_made t) by lia.
    split; auto; [|lia]. rewrite app_nil_r in CP. simpl in CP |- *.
    rewrite seq_app, <- CP. rewrite (Permutation_middle (ints (b_sb t)) _ (b_made t + 1)). apply Permutation_app_head.
    replace n with (Datatypes.S (n - 1)) at 2 by lia. simpl. replace (b_made t + 1) with (Datatypes.S (b_made t)) by lia.
    replace (b_made t + 2) with (Datatypes.S (Datatypes.S (b_made t))) by lia. reflexivity.
  - destruct (algo_pop (b_algo t)) as [[i g]|] eqn:Ep.
    + destruct EV as (N & EV). destruct (pop_some _ _ _ Ep N) as (P & K).
      destruct (proj1 (EV i)) as (b & Hi & Ei). { rewrite P. left. reflexivity. }
      unfold at_sb. rewrite Hi. destruct (evictable_parts b Ei) as (Z & x & Hx). apply ok_bind.
      eapply ok_imp; [apply (detach_ok _ _ _ _ _ _ _ _ _ _ _ C Hi Hx Z So)|]. intros r s' (C' & So' & Er & e & Ee & _). apply ok_ret.
      cbn [fst snd with_algo set_sb with_sb b_made b_free b_sb b_user b_algo b_fsb]. rewrite Er, Ef. split; [exact C'|]. split; [exact So'|]. split; [|split; [reflexivity|split; [exact K|split; [reflexivity|]]]].
      * pose proof (Permutation_NoDup P N) as N'. inversion N' as [|? ? NI N2]; subst. split; [exact N2|]. intro j. split.
        -- intro I. assert (j <> i) by (intros ->; contradiction). rewrite (set_nth_other _ i j b _ Hi) by assumption. apply EV. rewrite P. right. exact I.
        -- intros (c & Hc & Ec). destruct (Nat.eq_dec j i) as [->|D].
           ++ rewrite (set_nth_same _ i b _ Hi) in Hc. injection Hc as <-. rewrite Ee in Ec. discriminate.
           ++ rewrite (set_nth_other _ i j b _ Hi D) in Hc. assert (I : In j (ev (b_algo t))) by (apply EV; eauto). rewrite P in I. destruct I as [I|I]; [congruence|exact I].
      * intros j c Hj Hc. destruct (Nat.eq_dec j i) as [->|D]; [|rewrite (set_nth_other _ i j b _ Hi D); exact Hj].
        exfalso. assert (c = b) by congruence. subst c. unfold is_internal in Hc. rewrite Hx in Hc. discriminate.
    + exfalso. apply pop_none in Ep. destruct EV as (_ & EV). destruct C as [CP CM CN CO CL CR CU CE].
      assert (length (ints (b_sb t)) <= in_use A bk).
      { apply in_use_bound; [exact CL| |].
        - intros i k b H1 H2. exact (r_ref _ _ _ (CR i k b H1 H2)).
        - intros i b Hi. destruct (is_evictable b) eqn:E; [exfalso|reflexivity]. rewrite Ep in EV. apply (proj2 (EV i)). eauto. }
      apply Permutation_length in CP. rewrite seq_length in CP. simpl in CP. rewrite app_nil_r in CP. lia.
Qed.

Definition srel (z : Z) (k : blk) : Prop := exists e : nat, z = Z.of_nat (k_refs k + e) /\ (0 < e <-> k_valid k = true).
Record inv (t : bsched) (x : spec A) (s : sstate) : Prop := {
  v_core : core s [] (b_made t) (b_free t) (b_sb t) (b_user t) (s_blk x) (s_user x);
  v_out : sout s = [];
  v_ev : evok (b_algo t) (b_sb t);
  v_fsb : b_fsb t = s_free x;
  v_fnd : NoDup (s_free x);
  v_free : forall i, In i (s_free x) -> exists k, nth_error (s_blk x) i = Some k /\ k_valid k = false /\ k_refs k = 0;
  v_sim : match snd (kind (b_algo t)), s_sim x with
          | Some (_, _, cs, _), Some sh => Forall2 srel cs sh /\ length sh = length (s_blk x)
          | None, None => True
          | _, _ => False
          end }.

Lemma evok_same g sb i b b' : evok g sb -> nth_error sb i = Some b -> is_evictable b' = is_evictable b -> evok g (set_nth sb i b').
Proof.
  intros (N & EV) Hi E. split; [exact N|]. intro j. rewrite EV. split; intros (c & Hc & Ec).
  - destruct (Nat.eq_dec j i) as [->|D].
    + exists b'. rewrite (set_nth_same _ i b _ Hi). split; [reflexivity|]. rewrite E. congruence.
    + exists c. rewrite (set_nth_other _ i j b _ Hi D). auto.
  - destruct (Nat.eq_dec j i) as [->|D].
    + rewrite (set_nth_same _ i b _ Hi) in Hc. injection Hc as <-. exists b. split; [exact Hi|congruence].
    + rewrite (set_nth_other _ i j b _ Hi D) in Hc. eauto.
Qed.
Lemma evok_out g g' sb i b b' : evok g sb -> nth_error sb i = Some b -> is_evictable b' = false -> ev g' = remove_id i (ev g) -> evok g' (set_nth sb i b').
Proof.
  intros (N & EV) Hi E Q. unfold evok. rewrite Q. split; [apply remove_id_nodup, N|]. intro j. rewrite remove_id_in, EV. split.
  - intros ((c & Hc & Ec) & D). exists c. rewrite (set_nth_other _ i j b _ Hi D). auto.
  - intros (c & Hc & Ec). destruct (Nat.eq_dec j i) as [->|D].
    + rewrite (set_nth_same _ i b _ Hi) in Hc. injection Hc as <-. congruence.
    + rewrite (set_nth_other _ i j b _ Hi D) in Hc. eauto.
Qed.
Lemma evok_in g g' sb i b b' : evok g sb -> nth_error sb i = Some b -> is_evictable b' = true -> ev g' = remove_id i (ev g) ++ [i] -> evok g' (set_nth sb i b').
Proof.
  intros (N & EV) Hi E Q. unfold evok. rewrite Q. split.
  - eapply Permutation_NoDup; [apply Permutation_app_comm|]. simpl. constructor; [rewrite remove_id_in; tauto|apply remove_id_nodup, N].
  - intro j. rewrite in_app_iff, remove_id_in, EV. split.
    + intros [((c & Hc & Ec) & D)|[<-|[]]].
      * exists c. rewrite (set_nth_other _ i j b _ Hi D). auto.
      * exists b'. rewrite (set_nth_same _ i b _ Hi). auto.
    + intros (c & Hc & Ec). destruct (Nat.eq_dec j i) as [->|D]; [right; left; reflexivity|].
      rewrite (set_nth_other _ i j b _ Hi D) in Hc. left. eauto.
Qed.
Lemma evok_perm g g' sb : evok g sb -> Permutation (ev g') (ev g) -> evok g' sb.
Proof.
  intros (N & EV) P. split; [exact (Permutation_NoDup (Permutation_sym P) N)|]. intro j. rewrite <- EV. split; apply Permutation_in; [exact P|symmetry; exact P].
Qed.
Lemma free_mark fr (bk : list blk) i k' : (forall j, In j fr -> exists k, nth_error bk j = Some k /\ k_valid k = false /\ k_refs k = 0) -> ~ In i fr ->
  forall j, In j fr -> exists k, nth_error (mark bk i k') j = Some k /\ k_valid k = false /\ k_refs k = 0.
Proof. intros H N j I. rewrite mark_other by (intros ->; contradiction). auto. Qed.
Lemma kind_sim g : is_sim g = match snd (kind g) with Some _ => true | None => false end.
Proof. destruct g; reflexivity. Qed.
Lemma among_in i l : among i l = true <-> In i l.
Proof. induction l as [|j l IH]; simpl; [intuition discriminate|]. rewrite orb_true_iff, Nat.eqb_eq, IH. reflexivity. Qed.

(** ** acquire *)
Lemma has_none f : has (repeat None S) f [].
Proof. intros j v H. apply nth_repeat_some in H. destruct H. discriminate. Qed.
Lemma has_none_sk f sk : has (repeat None S) f sk.
Proof. intros j v H. apply nth_repeat_some in H. destruct H. discriminate. Qed.
Lemma rel_acquire s k b u : rel s k b -> is_internal b = true ->
  rel s (blk_acquire A S fdef u k) (mk_sb (sb_ext b) (sb_int b) (sb_dirty b) (sb_ref b + 1)).
Proof.
  intros [R1 R2 R3 R4 R5 R6 R7 R8 R9 R10] I. unfold blk_acquire. destruct (k_refs k) as [|n] eqn:K.
  - destruct (R8 R1) as (Q1 & Q2). rewrite (R6 R1 I) in *.
    constructor; cbn [sb_ref sb_dirty sb_ext sb_int is_internal has_ext isS k_refs k_cont k_valid k_dirty k_set] in *; auto; try lia; try discriminate.
    + destruct u; [apply repeat_length|exact R2].
    + intros x Hx. destruct u; [apply has_none|exact (R9 x Hx)].
    + intros e He D. destruct u; [apply has_none|]. rewrite Q1 in R10. exact (R10 e He D).
  - constructor; cbn [sb_ref sb_dirty sb_ext sb_int is_internal has_ext isS k_refs k_cont k_valid k_dirty k_set] in *; auto; lia.
Qed.
Lemma fill_ok v x : forall n s, sout s = [] ->
  ok (fill A v x n (Ret tt)) s (fun _ s' => sout s' = [] /\ sdisk s' = sdisk s /\ sown s' = sown s /\ snext s' = snext s /\
    (forall y, y <> x -> scont s' y = scont s y) /\ forall j, scont s' x j = if Nat.ltb j n then Some v else scont s x j).
Proof.
  induction n as [|n IH]; intros s So; [apply ok_ret; repeat split; auto|]. cbn [fill]. unfold ok. cbn [srun]. rewrite So. cbn [existsb].
  eapply ok_imp; [apply IH; reflexivity|]. cbn [sout sdisk sown snext scont]. intros _ s' (H1 & H2 & H3 & H4 & H5 & H6). repeat split; auto.
  - intros y Hy. rewrite (H5 y Hy). apply upd_other. exact Hy.
  - intro j. rewrite H6. unfold upd2. rewrite upd_same. destruct (Nat.ltb_spec j n), (Nat.ltb_spec j (Datatypes.S n)); try lia; try reflexivity.
    + assert (j = n) as -> by lia. apply upd_same.
    + apply upd_other. lia.
Qed.

Lemma real_acquire_ok t x s i u k : inv t x s -> s_sim x = None -> nth_error (s_blk x) i = Some k -> ~ In i (s_free x) ->
  (k_refs k = 0 -> in_use A (s_blk x) < maxb) ->
  ok (real_acquire A S fdef maxb batch i u t) s (fun t' s' =>
    inv t' (mk_spec (mark (s_blk x) i (blk_acquire A S fdef u k)) (s_free x) None (s_user x)) s').
Proof.
  intros [C So EV FS FN FR SI] NS Hk NF Mem. rewrite NS in SI.
  assert (Ns : is_sim (b_algo t) = false) by (rewrite kind_sim; destruct (snd (kind (b_algo t))) as [[[[? ?] ?] ?]|]; [destruct SI|reflexivity]).
  assert (exists b, nth_error (b_sb t) i = Some b) as (b & Hi).
  { destruct (nth_error (b_sb t) i) eqn:E; [eauto|]. apply nth_error_None in E. rewrite (c_len _ _ _ _ _ _ _ _ C) in E. apply nth_error_None in E. congruence. }
  pose proof (c_rel _ _ _ _ _ _ _ _ C i k b Hk Hi) as R. pose proof R as [R1 R2 R3 R4 R5 R6 R7 R8 R9 R10].
  unfold real_acquire, at_sb. rewrite Hi. destruct (is_internal b) eqn:I.
  - apply ok_bind. unfold sb_acquire. rewrite I. apply ok_ret. apply ok_ret. set (b' := mk_sb (sb_ext b) (sb_int b) (sb_dirty b) (sb_ref b + 1)).
    assert (Nev : is_evictable b' = false) by (apply not_evictable; left; cbn; lia).
    assert (CC : core s [] (b_made t) (b_free t) (set_nth (b_sb t) i b') (b_user t) (mark (s_blk x) i (blk_acquire A S fdef u k)) (s_user x)).
    { eapply core_set with (b := b) (k := k) (lost := []) (new := []); try eassumption; try (apply Permutation_refl); auto.
      - constructor.
      - intro; simpl; tauto.
      - apply rel_acquire; assumption.
      - exact (c_user _ _ _ _ _ _ _ _ C).
      - rewrite So. constructor. }
    destruct (is_acquired b) eqn:Ac; (split; [exact CC|exact So| |exact FS|exact FN|cbn [s_free s_blk]; apply free_mark; assumption|]); cbn [set_sb with_sb with_algo b_algo b_sb s_sim].
    + apply (evok_same _ _ i b); auto. rewrite Nev. symmetry. unfold is_evictable. rewrite Ac. reflexivity.
    + rewrite kind_sim in Ns. destruct (snd (kind (b_algo t))); [discriminate|exact Logic.I].
    + apply (evok_out (b_algo t) _ _ i b); auto. apply ev_erase. exact Ns.
    + assert (kind (algo_erase i (b_algo t)) = kind (b_algo t)) as -> by (destruct (b_algo t); reflexivity). rewrite kind_sim in Ns. destruct (snd (kind (b_algo t))); [discriminate|exact Logic.I].
  - assert (Z : sb_ref b = 0) by (destruct (sb_ref b) eqn:E; [reflexivity|]; exfalso; assert (Q : 0 < Datatypes.S n) by lia; specialize (R5 Q); congruence).
    assert (Di : sb_dirty b = false) by (destruct (sb_dirty b); [specialize (R4 eq_refl); congruence|reflexivity]).
    assert (Hint : sb_int b = None) by (unfold is_internal in I; destruct (sb_int b); [discriminate|reflexivity]).
    destruct (R8 Z) as (K1 & K2).
    assert (Kr : k_refs k = 0) by congruence.
    assert (GF := get_free_ok t s (s_blk x) (s_user x) C So EV (Mem Kr)).
    (* the state after the block got its buffer y, in terms of the final content *)
    assert (Fin : forall r s1 s2 b', let t' := snd r in
      core s1 [fst r] (b_made t') (b_free t') (b_sb t') (b_user t') (s_blk x) (s_user x) /\ sout s1 = [] /\ evok (b_algo t') (b_sb t') /\
      b_fsb t' = b_fsb t /\ kind (b_algo t') = kind (b_algo t) /\ b_user t' = b_user t /\
      (forall j b, nth_error (b_sb t) j = Some b -> is_internal b = false -> nth_error (b_sb t') j = Some b) ->
      b' = mk_sb (sb_ext b) (Some (fst r)) false 1 -> sout s2 = [] -> sdisk s2 = sdisk s1 -> sown s2 = sown s1 ->
      (forall y, y <> fst r -> scont s2 y = scont s1 y) ->
      has (k_cont (blk_acquire A S fdef u k)) (scont s2 (fst r)) [] ->
      inv (set_sb t' i b') (mk_spec (mark (s_blk x) i (blk_acquire A S fdef u k)) (s_free x) None (s_user x)) s2).
    { intros r s1 s2 b' t' (C1 & So1 & EV1 & F1 & K1' & U1 & N1) -> So2 D2 O2 B2 H2. specialize (N1 i b Hi I).
      split; cbn [set_sb with_sb b_made b_free b_sb b_user b_algo b_fsb s_blk s_free s_user s_sim].
      - eapply core_set with (b := b) (k := k) (lost := []) (new := []); try eassumption; cbn [sb_int sb_ext opt]; try (apply Permutation_refl); auto.
        + rewrite Hint. apply Permutation_refl.
        + constructor.
        + intro e. rewrite O2. simpl. tauto.
        + intros y Hy. apply B2. intros ->. apply Hy. left. reflexivity.
        + intros e _ _. rewrite D2. reflexivity.
        + pose proof (c_rel _ _ _ _ _ _ _ _ C1 i k b Hk N1) as Rb.
          unfold blk_acquire in *. rewrite Kr in *. cbn [k_cont] in H2.
          constructor; cbn [sb_ref sb_dirty sb_ext sb_int is_internal has_ext isS k_refs k_cont k_valid k_dirty k_set]; auto; try lia; try discriminate.
          * destruct u; [apply repeat_length|]. destruct (k_valid k); [exact R2|apply repeat_length].
          * rewrite R3, Di. reflexivity.
          * intros y Hy. injection Hy as <-. exact H2.
          * intros e He _. destruct u; [apply has_none|]. rewrite R3, Di. unfold has_ext. rewrite He. cbn.
            rewrite D2. pose proof (r_ext _ _ _ Rb e He Di) as G. rewrite K1 in G. exact G.
        + apply (user_frame s1); [exact (c_user _ _ _ _ _ _ _ _ C1)|]. intros e _. rewrite D2. reflexivity.
        + rewrite So2. constructor.
      - exact So2.
      - apply (evok_same _ _ i b); auto. rewrite !not_evictable; auto.
      - rewrite F1. exact FS.
      - exact FN.
      - apply free_mark; assumption.
      - rewrite K1'. rewrite kind_sim in Ns. destruct (snd (kind (b_algo t))); [discriminate|exact Logic.I]. }
    destruct (is_initialized b) eqn:In.
    + assert (exists e, sb_ext b = Some e) as (e & He).
      { unfold is_initialized in In. rewrite I in In. unfold is_external, has_ext in In. destruct (sb_ext b); [eauto|discriminate]. }
      apply ok_bind. unfold attach_free. apply ok_bind. eapply ok_imp; [exact GF|]. intros r s1 G. apply ok_bind. unfold attach. rewrite I. apply ok_ret. apply ok_ret. cbn [fst snd].
      pose proof G as (C1 & So1 & EV1 & F1 & K1' & U1 & N1). specialize (N1 i b Hi I).
      apply ok_bind. destruct u.
      * apply ok_ret. apply ok_bind. unfold sb_acquire. cbn [is_internal sb_int isS sb_ext sb_dirty sb_ref]. apply ok_ret. apply ok_ret.
        apply (Fin r s1 s1); auto; [rewrite Di, Z; reflexivity|]. unfold blk_acquire. rewrite Kr. apply has_none.
      * unfold read_sync. cbn [sb_int sb_ext]. rewrite He. unfold ok. cbn [srun].
        rewrite (proj2 (mem_in e (sown s1))) by (apply (c_own _ _ _ _ _ _ _ _ C1), in_app_iff; left; eapply ext_in; eauto).
        rewrite So1. cbn [existsb negb orb srun]. cbn [bind sb_acquire is_internal sb_int isS sb_ext sb_dirty sb_ref srun snext sout app drop_id filter a_id].
        rewrite Nat.eqb_refl. cbn [negb]. eapply Fin; [exact G|rewrite Z, He; reflexivity|reflexivity|reflexivity|reflexivity| |]; cbn [scont].
        -- intros y Hy. apply upd_other. exact Hy.
        -- rewrite upd_same. unfold blk_acquire. rewrite Kr. cbn [k_cont]. rewrite R3, Di. unfold has_ext. rewrite He. cbn.
           pose proof (c_rel _ _ _ _ _ _ _ _ C1 i k b Hk N1) as Rb. pose proof (r_ext _ _ _ Rb e He Di) as Q. rewrite K1 in Q. exact Q.
    + assert (He : sb_ext b = None).
      { unfold is_initialized in In. rewrite I in In. unfold is_external, has_ext in In. rewrite Di in In. destruct (sb_ext b); [discriminate|reflexivity]. }
      apply ok_bind. unfold attach_free. apply ok_bind. eapply ok_imp; [exact GF|]. intros r s1 G. apply ok_bind. unfold attach. rewrite I. apply ok_ret. apply ok_ret. cbn [fst snd].
      pose proof G as (C1 & So1 & EV1 & F1 & K1' & U1 & N1).
      apply ok_bind. unfold sb_acquire. cbn [is_internal sb_int isS sb_ext sb_dirty sb_ref]. apply ok_ret. apply ok_bind. destruct u.
      * apply ok_ret. apply ok_ret. apply (Fin r s1 s1); auto; [rewrite Di, Z; reflexivity|]. unfold blk_acquire. rewrite Kr. apply has_none.
      * assert (Kv : k_valid k = false) by (rewrite R3, Di; unfold has_ext; rewrite He; reflexivity).
        unfold fill_default. destruct fdef as [v|] eqn:Fd.
        -- cbn [sb_int]. eapply ok_imp; [apply fill_ok; exact So1|]. intros _ s2 (H1 & H2 & H3 & H4 & H5 & H6). apply ok_ret.
           apply (Fin r s1 s2); auto; [rewrite Di, Z; reflexivity|]. unfold blk_acquire. rewrite Kr, Kv. cbn [k_cont]. intros j w Hj _.
           apply nth_repeat_some in Hj. destruct Hj as (Q & L). rewrite H6. destruct (Nat.ltb_spec j S); [exact Q|lia].
        -- apply ok_ret. apply ok_ret. apply (Fin r s1 s1); auto; [rewrite Di, Z; reflexivity|]. unfold blk_acquire. rewrite Kr, Kv. apply has_none.
Qed.

Lemma inv_sb t x s i k : inv t x s -> nth_error (s_blk x) i = Some k -> exists b, nth_error (b_sb t) i = Some b /\ rel s k b.
Proof.
  intros V Hk. pose proof (v_core _ _ _ V) as C. destruct (nth_error (b_sb t) i) as [b|] eqn:E.
  - exists b. split; [reflexivity|]. exact (c_rel _ _ _ _ _ _ _ _ C i k b Hk E).
  - exfalso. apply nth_error_None in E. rewrite (c_len _ _ _ _ _ _ _ _ C) in E. apply nth_error_None in E. congruence.
Qed.
Lemma inv_nosim t x s : inv t x s -> s_sim x = None -> snd (kind (b_algo t)) = None.
Proof. intros V E. pose proof (v_sim _ _ _ V) as H. rewrite E in H. destruct (snd (kind (b_algo t))) as [[[[? ?] ?] ?]|]; [destruct H|reflexivity]. Qed.

(** ** release *)
Lemma rel_release s k b d k' : rel s k b -> blk_release A d k = Some k' ->
  let b' := mk_sb (sb_ext b) (sb_int b) (d || sb_dirty b) (sb_ref b - 1) in
  (sb_ref b' <> 0 \/ sb_dirty b' || has_ext b' = true) -> rel s k' b'.
Proof.
  intros [R1 R2 R3 R4 R5 R6 R7 R8 R9 R10] E b' H. unfold blk_release in E. destruct (k_refs k) as [|[|n]] eqn:K; [discriminate| |]; injection E as <-; subst b'; unfold has_ext, is_internal in *.
  - rewrite R1 in *. cbn [sb_ref sb_dirty sb_ext] in H. destruct H as [H|H]; [exfalso; apply H; reflexivity|].
    assert (I : isS (sb_int b) = true) by (apply R5; lia).
    constructor; unfold has_ext, is_internal in *; cbn [sb_ref sb_dirty sb_ext sb_int k_refs k_cont k_valid k_dirty k_set] in *; auto; try lia.
    + destruct (d || k_dirty k); [exact R2|rewrite forget_len; exact R2].
    + rewrite R3. destruct d, (sb_dirty b), (isS (sb_ext b)); reflexivity.
    + intros _ _. rewrite R3. rewrite <- H. destruct d, (sb_dirty b), (isS (sb_ext b)); reflexivity.
    + intros y Hy j v Hj Nj. destruct (d || k_dirty k); [exact (R9 y Hy j v Hj Nj)|]. apply forget_nth in Hj. exact (R9 y Hy j v (proj1 Hj) Nj).
    + intros e He Dd. apply orb_false_iff in Dd. destruct Dd as (-> & Dd).
      assert (k_dirty k = false) as -> by (destruct (k_dirty k); [rewrite (R7 eq_refl) in Dd; discriminate|reflexivity]).
      intros j v Hj _. apply forget_nth in Hj. destruct Hj as (Hj & Nj). exact (R10 e He Dd j v Hj Nj).
  - assert (I : isS (sb_int b) = true) by (apply R5; lia).
    constructor; unfold has_ext, is_internal in *; cbn [sb_ref sb_dirty sb_ext sb_int k_refs k_cont k_valid k_dirty k_set] in *; auto; try lia.
    + rewrite R3. destruct d, (sb_dirty b), (isS (sb_ext b)); reflexivity.
    + destruct d; [reflexivity|]. exact R7.
    + intros e He Dd. apply orb_false_iff in Dd. destruct Dd as (-> & Dd). exact (R10 e He Dd).
Qed.
(** the algorithm can take a block that is released *)
Definition takes (g : algo) : Prop := match g with Lru _ => True | Lfd _ (_ :: _) => True | _ => False end.
Lemma release_body_ok t x s i d k k' : inv t x s -> s_sim x = None -> takes (b_algo t) -> nth_error (s_blk x) i = Some k -> ~ In i (s_free x) ->
  blk_release A d k = Some k' ->
  ok (release_body A i d t) s (fun t' s' =>
    inv t' (mk_spec (mark (s_blk x) i k') (s_free x) None (s_user x)) s' /\ kind (b_algo t') = kind (b_algo t)).
Proof.
  intros V NS TK Hk NF Er. destruct (inv_sb t x s i k V Hk) as (b & Hi & R). pose proof (inv_nosim _ _ _ V NS) as Ns.
  pose proof R as [R1 R2 R3 R4 R5 R6 R7 R8 R9 R10]. destruct V as [C So EV FS FN FR SI].
  assert (Pos : 0 < sb_ref b) by (rewrite R1; unfold blk_release in Er; destruct (k_refs k); [discriminate|lia]).
  pose proof (R5 Pos) as I. assert (exists y, sb_int b = Some y) as (y & Hy) by (unfold is_internal in I; destruct (sb_int b); [eauto|discriminate]).
  assert (Nev : is_evictable b = false) by (apply not_evictable; auto).
  unfold release_body, at_sb. rewrite Hi. apply ok_bind. unfold sb_release. assert (is_acquired b = true) as -> by (unfold is_acquired; apply Nat.ltb_lt; exact Pos).
  apply ok_ret. set (b' := mk_sb (sb_ext b) (sb_int b) (d || sb_dirty b) (sb_ref b - 1)).
  assert (CC : sb_ref b' <> 0 \/ sb_dirty b' || has_ext b' = true ->
     core s [] (b_made t) (b_free t) (set_nth (b_sb t) i b') (b_user t) (mark (s_blk x) i k') (s_user x)).
  { intro H. eapply core_set with (b := b) (k := k) (lost := []) (new := []); try eassumption; try (apply Permutation_refl); auto.
    - constructor.
    - intro; simpl; tauto.
    - apply (rel_release s k b d); assumption.
    - exact (c_user _ _ _ _ _ _ _ _ C).
    - rewrite So. constructor. }
  assert (G : forall t' s', core s' [] (b_made t') (b_free t') (b_sb t') (b_user t') (mark (s_blk x) i k') (s_user x) -> sout s' = [] ->
      evok (b_algo t') (b_sb t') -> b_fsb t' = b_fsb t -> kind (b_algo t') = kind (b_algo t) ->
      inv t' (mk_spec (mark (s_blk x) i k') (s_free x) None (s_user x)) s' /\ kind (b_algo t') = kind (b_algo t)).
  { intros t' s' G1 G2 G3 G4 G5. split; [|exact G5]. split; auto; cbn [s_blk s_free s_sim s_user].
    - congruence.
    - apply free_mark; assumption.
    - rewrite G5, Ns. exact Logic.I. }
  unfold is_acquired. destruct (Nat.ltb_spec 0 (sb_ref b')) as [P'|Z'].
  - apply ok_ret. apply G; cbn [set_sb with_sb b_made b_free b_sb b_user b_algo b_fsb]; auto.
    + apply CC. left. lia.
    + apply (evok_same _ _ i b); auto. rewrite Nev. apply not_evictable. left. exact P'.
  - assert (Zb : sb_ref b' = 0) by lia. destruct (sb_dirty b' || is_external b') eqn:Ke.
    + assert (H : sb_dirty b' || has_ext b' = true).
      { unfold is_external in Ke. destruct (sb_dirty b'); [reflexivity|]. cbn in Ke |- *. rewrite andb_true_r in Ke. exact Ke. }
      assert (E' : is_evictable b' = true) by (unfold is_evictable, is_acquired, is_internal; rewrite Zb; cbn [b' sb_int]; subst b'; cbn [sb_int]; rewrite Hy; reflexivity).
      unfold evict_insert. cbn [set_sb with_sb b_algo]. destruct (b_algo t) as [q|q [|n nu]|] eqn:Ea; try contradiction; apply ok_ret; apply G;
        cbn [set_sb with_sb with_algo b_made b_free b_sb b_user b_algo b_fsb]; auto; apply (evok_in (b_algo t) _ _ i b); rewrite ?Ea; auto.
      cbn [ev]. unfold pq_insert. rewrite map_app, pq_erase_snd. reflexivity.
    + assert (Db : sb_dirty b' = false) by (destruct (sb_dirty b'); [discriminate|reflexivity]).
      assert (Xb : sb_ext b = None).
      { unfold is_external in Ke. rewrite Db in Ke. cbn in Ke. unfold has_ext in Ke. cbn [b' sb_ext] in Ke. subst b'. cbn [sb_ext] in Ke. destruct (sb_ext b); [discriminate|reflexivity]. }
      apply ok_bind. unfold ok. rewrite (detach_clean s b' y Db Zb) by (subst b'; exact Hy). subst b'. cbn [sb_ext fst snd sb_dirty sb_ref sb_int] in *. rewrite Xb. cbn [srun].
      apply orb_false_iff in Db. destruct Db as (-> & Db).
      assert (Kr : k_refs k = 1) by lia. unfold blk_release in Er. rewrite Kr in Er. injection Er as <-.
      apply G; cbn [give_free with_free set_sb with_sb b_made b_free b_sb b_user b_algo b_fsb]; auto.
      * eapply core_set with (b := b) (k := k) (lost := []) (new := []); try eassumption; cbn [sb_int sb_ext opt]; auto.
        -- rewrite Hy. apply Permutation_refl.
        -- rewrite Xb. apply Permutation_refl.
        -- constructor.
        -- intro; simpl; tauto.
        -- constructor; cbn [sb_ref sb_dirty sb_ext sb_int is_internal has_ext isS k_refs k_cont k_valid k_dirty k_set] in *; auto; try discriminate; try lia.
           ++ destruct (k_dirty k); [exact R2|rewrite forget_len; exact R2].
           ++ rewrite R3, Db. unfold has_ext. rewrite Xb. reflexivity.
        -- exact (c_user _ _ _ _ _ _ _ _ C).
        -- rewrite So. constructor.
      * apply (evok_same _ _ i b); auto.
Qed.
Lemma inv_algo t x s g : inv t x s -> Permutation (ev g) (ev (b_algo t)) -> snd (kind g) = snd (kind (b_algo t)) -> inv (with_algo t g) x s.
Proof.
  intros [C So EV FS FN FR SI] P K. split; auto; cbn [with_algo b_algo b_sb].
  - apply (evok_perm (b_algo t)); assumption.
  - rewrite K. exact SI.
Qed.
Lemma real_release_ok t x s i d k k' : inv t x s -> s_sim x = None -> nth_error (s_blk x) i = Some k -> ~ In i (s_free x) ->
  blk_release A d k = Some k' ->
  ok (real_release A i d t) s (fun t' s' => inv t' (mk_spec (mark (s_blk x) i k') (s_free x) None (s_user x)) s').
Proof.
  intros V NS Hk NF Er. unfold real_release. pose proof (inv_nosim _ _ _ V NS) as Ns. destruct (b_algo t) as [q|q [|u nu]|] eqn:Ea; [| | |discriminate].
  - eapply ok_imp; [apply (release_body_ok t x s i d k k'); auto; rewrite Ea; exact Logic.I|]. intros t' s' (H & _). exact H.
  - eapply ok_imp; [apply (release_body_ok _ x s i d k k'); auto; [|exact Logic.I]|].
    + rewrite <- Ea. apply inv_algo; [exact V| |rewrite Ea; reflexivity]. apply ev_to_lru. exact (proj1 (v_ev _ _ _ V)).
    + intros t' s' (H & _). exact H.
  - apply ok_bind. eapply ok_imp; [apply (release_body_ok t x s i d k k'); auto; rewrite Ea; exact Logic.I|]. intros t' s' (H & K). rewrite Ea in K.
    destruct (b_algo t') as [q'|q' [|u' nu']|] eqn:Ea'; try discriminate. apply ok_ret. apply inv_algo; [exact H| |]; rewrite Ea'; reflexivity.
Qed.

(** ** deinitialize, initialize, extract *)
Lemma in_users us i e : nth_error us i = Some (Some e) -> In e (users us).
Proof. intro H. apply in_flat_map. exists (Some e). split; [eapply nth_error_In; eauto|left; reflexivity]. Qed.
Lemma forall2_nth {X Y} (P : X -> Y -> Prop) l m i x : Forall2 P l m -> nth_error l i = Some x -> exists y, nth_error m i = Some y /\ P x y.
Proof.
  intro F. revert i. induction F as [|a b l m H F IH]; intros i E; [destruct i; discriminate|]. destruct i; simpl in *; [injection E as <-; eauto|]. apply IH. exact E.
Qed.
Lemma forall2_nth_r {X Y} (P : X -> Y -> Prop) l m i y : Forall2 P l m -> nth_error m i = Some y -> exists x, nth_error l i = Some x /\ P x y.
Proof.
  intro F. revert i. induction F as [|a b l m H F IH]; intros i E; [destruct i; discriminate|]. destruct i; simpl in *; [injection E as <-; eauto|]. apply IH. exact E.
Qed.
Lemma forall2_len {X Y} (P : X -> Y -> Prop) l m : Forall2 P l m -> length l = length m.
Proof. induction 1; simpl; auto. Qed.
Lemma forall2_set {X Y} (P : X -> Y -> Prop) l m i y x' y' : Forall2 P l m -> nth_error m i = Some y -> P x' y' -> Forall2 P (mark l i x') (set_nth m i y').
Proof.
  intros F. revert i. induction F as [|a b l m H F IH]; intros i E Q; [destruct i; discriminate|]. destruct i; simpl in *; [constructor; assumption|].
  unfold set_nth in *. simpl. constructor; [exact H|]. apply IH; assumption.
Qed.
Lemma forall2_set_l {X Y} (P : X -> Y -> Prop) l m i x x' y' : Forall2 P l m -> nth_error l i = Some x -> P x' y' -> Forall2 P (set_nth l i x') (mark m i y').
Proof.
  intros F. revert i. induction F as [|a b l m H F IH]; intros i E Q; [destruct i; discriminate|]. destruct i; simpl in *; [constructor; assumption|].
  unfold set_nth in *. simpl. constructor; [exact H|]. apply IH; assumption.
Qed.
Lemma rel_new s b : sb_int b = None -> sb_ext b = None -> sb_dirty b = false -> sb_ref b = 0 -> rel s (blk_new A S) b.
Proof.
  intros H1 H2 H3 H4. unfold blk_new. constructor; unfold has_ext, is_internal; rewrite ?H1, ?H2, ?H3, ?H4; cbn [k_refs k_cont k_valid k_dirty k_set]; auto; try discriminate; try lia.
  apply repeat_length.
Qed.
Lemma real_deinit_ok t x s i k k' : inv t x s -> s_sim x = None -> nth_error (s_blk x) i = Some k -> ~ In i (s_free x) -> blk_drop A S k = Some k' ->
  ok (real_deinit A i t) s (fun t' s' => inv t' (mk_spec (mark (s_blk x) i k') (s_free x) None (s_user x)) s').
Proof.
  intros V NS Hk NF Er. destruct (inv_sb t x s i k V Hk) as (b & Hi & R). pose proof (inv_nosim _ _ _ V NS) as Ns.
  pose proof R as [R1 R2 R3 R4 R5 R6 R7 R8 R9 R10]. destruct V as [C So EV FS FN FR SI]. pose proof C as [CP CM CN CO CL CR CU CE].
  unfold blk_drop in Er. destruct (Nat.eqb_spec (k_refs k) 0) as [Kr|]; [injection Er as <-|discriminate].
  assert (Z : sb_ref b = 0) by congruence. assert (Ns' : is_sim (b_algo t) = false) by (rewrite kind_sim, Ns; reflexivity).
  unfold real_deinit, at_sb. rewrite Hi. apply ok_bind. unfold sb_deinit. assert (is_acquired b = false) as -> by (unfold is_acquired; rewrite Z; reflexivity).
  assert (Fin : forall s', sout s' = [] -> scont s' = scont s -> sdisk s' = sdisk s ->
     (forall e, In e (sown s') <-> In e (sown s) /\ ~ In e (opt (sb_ext b))) ->
     inv (match sb_int b with
          | Some y => give_free (set_sb (if is_evictable b then with_algo t (algo_erase i (b_algo t)) else t) i (mk_sb None None false (sb_ref b))) y
          | None => set_sb (if is_evictable b then with_algo t (algo_erase i (b_algo t)) else t) i (mk_sb None None false (sb_ref b)) end)
       (mk_spec (mark (s_blk x) i (blk_new A S)) (s_free x) None (s_user x)) s').
  { intros s' So' E1 E2 O.
    assert (CC : core s' [] (b_made t) (opt (sb_int b) ++ b_free t) (set_nth (b_sb t) i (mk_sb None None false (sb_ref b))) (b_user t) (mark (s_blk x) i (blk_new A S)) (s_user x)).
    { eapply core_set with (b := b) (k := k) (lost := opt (sb_ext b)) (new := []); try eassumption; cbn [sb_int sb_ext opt app]; try (apply Permutation_refl); auto.
      - constructor.
      - intros; congruence.
      - intros; congruence.
      - rewrite Z. apply rel_new; reflexivity.
      - apply (user_frame s); [exact CU|]. intros; congruence.
      - rewrite So'. constructor. }
    assert (EE : evok (if is_evictable b then algo_erase i (b_algo t) else b_algo t) (set_nth (b_sb t) i (mk_sb None None false (sb_ref b)))).
    { destruct (is_evictable b) eqn:Ev.
      - apply (evok_out (b_algo t) _ _ i b); auto; [apply not_evictable; right; reflexivity|apply ev_erase; exact Ns'].
      - apply (evok_same _ _ i b); auto. rewrite Ev. apply not_evictable. right. reflexivity. }
    assert (KE : snd (kind (if is_evictable b then algo_erase i (b_algo t) else b_algo t)) = None) by (destruct (is_evictable b); [destruct (b_algo t)|]; auto).
    destruct (sb_int b) as [y|], (is_evictable b); (split; [exact CC|exact So'|exact EE|exact FS|exact FN|cbn [s_free s_blk]; apply free_mark; assumption|cbn [give_free with_free set_sb with_sb with_algo b_algo s_sim]; rewrite KE; exact Logic.I]). }
  destruct (sb_ext b) as [e|] eqn:Ex.
  - unfold ok. cbn [srun]. assert (I : In e (sown s)) by (apply CO, in_app_iff; left; eapply ext_in; eauto). rewrite So. cbn [nodup mem existsb negb orb andb]. 
    rewrite (proj2 (mem_in e (sown s)) I). cbn [negb orb srun]. apply ok_ret. cbn [fst snd]. apply Fin; cbn [sout scont sdisk sown]; auto.
    intro e'. rewrite without_in. cbn. tauto.
  - apply ok_ret. apply ok_ret. cbn [fst snd]. apply Fin; auto. intro e. cbn. tauto.
Qed.
Lemma init_spec c k k' : blk_init A c k = Some k' -> k_valid k = false /\ k_refs k = 0 /\ k' = mk_blk true 0 false c [].
Proof. unfold blk_init. destruct (k_valid k); [discriminate|]. cbn. destruct (Nat.eqb_spec (k_refs k) 0); [|discriminate]. cbn. intro E. injection E as <-. auto. Qed.
Lemma users_split us i u u' : nth_error us i = Some u -> exists r, Permutation (users us) (opt u ++ r) /\ Permutation (users (set_nth us i u')) (opt u' ++ r).
Proof.
  intro H. destruct (nth_set_nth us i u H) as (l1 & l2 & -> & _ & E). rewrite E. exists (users l1 ++ users l2). unfold users. rewrite !flat_map_app. simpl.
  split; rewrite !app_assoc; apply Permutation_app_tail, Permutation_app_comm.
Qed.
Lemma real_init_ok t x s i sl c k k' : inv t x s -> s_sim x = None -> nth_error (s_blk x) i = Some k -> ~ In i (s_free x) ->
  nth_error (s_user x) sl = Some (Some c) -> blk_init A c k = Some k' ->
  ok (real_init A i sl t) s (fun t' s' => inv t' (mk_spec (mark (s_blk x) i k') (s_free x) None (mark (s_user x) sl None)) s').
Proof.
  intros V NS Hk NF Hs Er. destruct (inv_sb t x s i k V Hk) as (b & Hi & R). pose proof (inv_nosim _ _ _ V NS) as Ns.
  pose proof R as [R1 R2 R3 R4 R5 R6 R7 R8 R9 R10]. destruct V as [C So EV FS FN FR SI]. pose proof C as [CP CM CN CO CL CR CU CE].
  destruct (init_spec _ _ _ Er) as (Kv & Kr & ->). destruct (forall2_nth _ _ _ _ _ CU Hs) as (u & Hu & Ru). destruct u as [e|]; [|destruct Ru]. destruct Ru as (Lc & Rc).
  unfold real_init, at_sb. rewrite Hu, Hi.
  assert (Z : sb_ref b = 0) by congruence. rewrite Kv in R3. symmetry in R3. apply orb_false_iff in R3. destruct R3 as (Db & Xb).
  assert (Ib : is_internal b = false) by (destruct (is_internal b); [rewrite R6 in Kv by auto; discriminate|reflexivity]).
  assert (Hx : sb_ext b = None) by (unfold has_ext in Xb; destruct (sb_ext b); [discriminate|reflexivity]).
  assert (Hn : sb_int b = None) by (unfold is_internal in Ib; destruct (sb_int b); [discriminate|reflexivity]).
  unfold is_initialized, is_external. rewrite Ib, Xb. cbn [orb andb]. apply ok_ret. destruct (users_split (b_user t) sl (Some e) None Hu) as (r & U1 & U2).
  split; cbn [with_user set_sb with_sb b_made b_free b_sb b_user b_algo b_fsb s_blk s_free s_user s_sim]; auto.
  - eapply core_set with (b := b) (k := k) (lost := []) (new := []); try eassumption; cbn [sb_int sb_ext opt app]; try (apply Permutation_refl); auto.
    + rewrite U1, U2, Hx. apply Permutation_refl.
    + constructor.
    + intro; simpl; tauto.
    + rewrite Hn, Db, Z. constructor; unfold has_ext, is_internal; cbn [sb_ref sb_dirty sb_ext sb_int isS k_refs k_cont k_valid k_dirty k_set]; auto; try discriminate; try lia.
      intros e' Ee _. injection Ee as <-. exact Rc.
    + apply (forall2_set _ _ _ _ (Some e)); auto. exact Logic.I.
    + rewrite So. constructor.
  - apply (evok_same _ _ i b); auto.
  - apply free_mark; assumption.
  - rewrite Ns. exact Logic.I.
Qed.
Lemma real_extract_ok t x s i k k' : inv t x s -> s_sim x = None -> nth_error (s_blk x) i = Some k -> ~ In i (s_free x) ->
  k_valid k = true -> blk_drop A S k = Some k' ->
  ok (real_extract A i t) s (fun t' s' => inv t' (mk_spec (mark (s_blk x) i k') (s_free x) None (s_user x ++ [Some (k_cont k)])) s').
Proof.
  intros V NS Hk NF Kv Er. destruct (inv_sb t x s i k V Hk) as (b & Hi & R). pose proof (inv_nosim _ _ _ V NS) as Ns.
  pose proof R as [R1 R2 R3 R4 R5 R6 R7 R8 R9 R10]. destruct V as [C So EV FS FN FR SI]. pose proof C as [CP CM CN CO CL CR CU CE].
  unfold blk_drop in Er. destruct (Nat.eqb_spec (k_refs k) 0) as [Kr|]; [injection Er as <-|discriminate].
  assert (Z : sb_ref b = 0) by congruence. assert (Ns' : is_sim (b_algo t) = false) by (rewrite kind_sim, Ns; reflexivity). destruct (R8 Z) as (K1 & K2).
  unfold real_extract, at_sb. rewrite Hi.
  (* the block is only on disk now *)
  assert (Fin : forall s1 e f g, core s1 [] (b_made t) f (set_nth (b_sb t) i (mk_sb (Some e) None false 0)) (b_user t) (s_blk x) (s_user x) -> sout s1 = [] ->
     evok g (set_nth (b_sb t) i (mk_sb (Some e) None false 0)) -> snd (kind g) = None ->
     forall t', b_made t' = b_made t -> b_free t' = f -> b_sb t' = set_nth (b_sb t) i (mk_sb None None false 0) -> b_user t' = b_user t ++ [Some e] -> b_algo t' = g -> b_fsb t' = b_fsb t ->
     inv t' (mk_spec (mark (s_blk x) i (blk_new A S)) (s_free x) None (s_user x ++ [Some (k_cont k)])) s1).
  { intros s1 e f g C1 So1 E1 K t' T1 T2 T3 T4 T5 T6. set (b1 := mk_sb (Some e) None false 0) in *.
    assert (Hi1 : nth_error (set_nth (b_sb t) i b1) i = Some b1) by (apply (set_nth_same _ i b); exact Hi).
    pose proof (c_rel _ _ _ _ _ _ _ _ C1 i k b1 Hk Hi1) as Rb.
    split; rewrite ?T1, ?T2, ?T3, ?T4, ?T5, ?T6; cbn [s_blk s_free s_user s_sim]; auto.
    - rewrite <- (set_nth_twice (b_sb t) i b b1 _ Hi). eapply core_set with (b := b1) (k := k) (lost := []) (new := []); try eassumption; cbn [sb_int sb_ext opt app b1]; try (apply Permutation_refl); auto.
      + unfold users. rewrite flat_map_app. simpl. apply (Permutation_app_comm _ [e]).
      + constructor.
      + intro; simpl; tauto.
      + apply rel_new; reflexivity.
      + apply Forall2_app; [exact (c_user _ _ _ _ _ _ _ _ C1)|]. constructor; [|constructor]. split; [exact R2|].
        pose proof (r_ext _ _ _ Rb e eq_refl eq_refl) as Q. rewrite K1 in Q. exact Q.
      + rewrite So1. constructor.
    - rewrite <- (set_nth_twice (b_sb t) i b b1 _ Hi). apply (evok_same _ _ i b1); auto.
    - apply free_mark; assumption.
    - rewrite K. exact Logic.I. }
  destruct (is_internal b) eqn:Ib.
  - assert (exists y, sb_int b = Some y) as (y & Hy) by (unfold is_internal in Ib; destruct (sb_int b); [eauto|discriminate]).
    assert (Ev : is_evictable b = true) by (unfold is_evictable, is_acquired; rewrite Z, Ib; reflexivity). rewrite Ev.
    apply ok_bind. apply ok_bind. eapply ok_imp; [apply (detach_ok _ _ _ _ _ _ _ _ _ _ _ C Hi Hy Z So)|]. intros r s1 (C1 & So1 & Ey & e & Ee & Xe). apply ok_ret.
    cbn [fst snd]. rewrite Ee in *. cbn [is_internal sb_int isS]. rewrite <- R3, Kv in Xe. destruct e as [e|]; [|discriminate]. apply ok_ret.
    apply (Fin s1 e (y :: b_free t) (algo_erase i (b_algo t))); auto; cbn [give_free with_free with_user set_sb with_sb with_algo b_made b_free b_sb b_user b_algo b_fsb]; auto.
    + destruct C1 as [CP1 CM1 CN1 CO1 CL1 CR1 CU1 CE1]. split; auto. rewrite <- CP1. simpl. symmetry. apply Permutation_middle.
    + apply (evok_out (b_algo t) _ _ i b); auto. apply ev_erase. exact Ns'.
    + destruct (b_algo t); auto.
    + rewrite Ey. reflexivity.
  - assert (Hn : sb_int b = None) by (unfold is_internal in Ib; destruct (sb_int b); [discriminate|reflexivity]).
    assert (Db : sb_dirty b = false) by (destruct (sb_dirty b); [specialize (R4 eq_refl); discriminate|reflexivity]).
    rewrite Kv, Db in R3. unfold has_ext in R3. destruct (sb_ext b) as [e|] eqn:Ex; [|discriminate].
    assert (Eb : b = mk_sb (Some e) None false 0) by (destruct b; cbn in *; congruence).
    assert (Ev : is_evictable b = false) by (apply not_evictable; auto). rewrite Ev. apply ok_bind. apply ok_ret. cbn [fst snd]. rewrite Ib. apply ok_ret.
    apply (Fin s e (b_free t) (b_algo t)); auto; cbn [give_free with_free with_user set_sb with_sb with_algo b_made b_free b_sb b_user b_algo b_fsb]; auto.
    + rewrite <- Eb. assert (set_nth (b_sb t) i b = b_sb t) as ->; [|exact C]. destruct (nth_set_nth (b_sb t) i b Hi) as (l1 & l2 & El & _ & E). rewrite E. congruence.
    + rewrite <- Eb. apply (evok_same _ _ i b); auto.
    + rewrite Hn, Db, Z. reflexivity.
    + rewrite Ex. reflexivity.
Qed.

(** ** flush *)
Lemma flush_loop_ok x : forall f t s qs, core s [] (b_made t) (b_free t) (b_sb t) (b_user t) (s_blk x) (s_user x) -> evok (b_algo t) (b_sb t) -> length (ev (b_algo t)) <= f ->
  (forall r, In r (sout s) -> In (a_id r) qs) ->
  ok (flush_loop A f t qs) s (fun r s' => let t' := fst r in core s' [] (b_made t') (b_free t') (b_sb t') (b_user t') (s_blk x) (s_user x) /\ evok (b_algo t') (b_sb t') /\
    (forall q, In q (sout s') -> In (a_id q) (snd r)) /\ b_fsb t' = b_fsb t /\ kind (b_algo t') = kind (b_algo t)).
Proof.
  induction f as [|f IH]; intros t s qs C EV L Q; cbn [flush_loop].
  - rewrite ev_size. destruct (ev (b_algo t)); [|simpl in L; lia]. apply ok_ret. auto.
  - destruct (algo_pop (b_algo t)) as [[i g]|] eqn:Ep; [|apply ok_ret; auto].
    destruct EV as (N & EV). destruct (pop_some _ _ _ Ep N) as (P & K).
    destruct (proj1 (EV i)) as (b & Hi & Ei). { rewrite P. left. reflexivity. }
    unfold at_sb. rewrite Hi. destruct (evictable_parts b Ei) as (Z & y & Hy). apply ok_bind.
    eapply ok_imp; [apply (clean_ok _ _ _ _ _ _ _ _ _ _ _ C Hi Hy Z)|]. intros r s1 (C1 & I1 & Z1 & D1 & X1 & Q1). apply ok_bind.
    unfold ok at 1. rewrite (detach_clean s1 (fst r) y D1 Z1 I1). cbn [fst snd].
    assert (Hi1 : nth_error (set_nth (b_sb t) i (fst r)) i = Some (fst r)) by (apply (set_nth_same _ i b); exact Hi).
    pose proof (core_detach _ _ _ _ _ _ _ _ _ _ _ C1 Hi1 I1 Z1 D1) as C2. rewrite (set_nth_twice (b_sb t) i b _ _ Hi) in C2.
    eapply ok_imp; [apply IH|].
    + cbn [give_free with_free with_algo set_sb with_sb b_made b_free b_sb b_user]. destruct C2 as [CP1 CM1 CN1 CO1 CL1 CR1 CU1 CE1]. split; auto. rewrite <- CP1. simpl. symmetry. apply Permutation_middle.
    + cbn [give_free with_free with_algo set_sb with_sb b_algo b_sb]. pose proof (Permutation_NoDup P N) as N'. inversion N' as [|? ? NI N2]; subst. split; [exact N2|]. intro j. split.
      * intro I. assert (j <> i) by (intros ->; contradiction). rewrite (set_nth_other _ i j b _ Hi) by assumption. apply EV. rewrite P. right. exact I.
      * intros (c & Hc & Ec). destruct (Nat.eq_dec j i) as [->|D].
        -- rewrite (set_nth_same _ i b _ Hi) in Hc. injection Hc as <-. discriminate.
        -- rewrite (set_nth_other _ i j b _ Hi D) in Hc. assert (I : In j (ev (b_algo t))) by (apply EV; eauto). rewrite P in I. destruct I as [I|I]; [congruence|exact I].
    + cbn [give_free with_free with_algo b_algo]. apply Permutation_length in P. simpl in P. lia.
    + intros q Hq. destruct (snd r) as [q0|].
      * destruct Q1 as (-> & _ & e & So1). rewrite So1 in Hq. apply in_app_iff in Hq. destruct Hq as [Hq|[<-|[]]]; [right; auto|left; reflexivity].
      * destruct Q1 as (-> & _). auto.
    + cbn [give_free with_free with_algo set_sb with_sb b_algo b_fsb b_sb]. intros r' s' (H1 & H2 & H3 & H4 & H5). cbn zeta. split; [exact H1|]. split; [exact H2|]. split; [exact H3|]. split; [exact H4|congruence].
Qed.
Lemma flush_ok t x s : inv t x s -> ok (flush A t) s (fun t' s' => inv t' x s').
Proof.
  intros [C So EV FS FN FR SI]. unfold flush. apply ok_bind. eapply ok_imp; [apply (flush_loop_ok x _ t s []); auto; [rewrite ev_size; lia|rewrite So; intros r []]|].
  intros r s' (C' & EV' & Q & F' & K). unfold ok. rewrite srun_wait_all. cbn [srun]. split; auto; cbn [sout].
  - apply (core_out s'); auto. intros q Hq. unfold drops in Hq. apply filter_In in Hq. tauto.
  - apply drops_all. exact Q.
  - congruence.
  - rewrite K. exact SI.
Qed.

(** ** simulated operations *)
Lemma core_env s s' hand made free sb us us' bk uc uc' : core s hand made free sb us bk uc ->
  (forall y, In y (seq 1 made) -> scont s' y = scont s y) -> (forall e, In e (sown s) -> sdisk s' e = sdisk s e) ->
  NoDup (exts sb ++ users us') -> (forall e, In e (sown s') <-> In e (exts sb ++ users us')) -> Forall2 (urel s') uc' us' -> sout s' = [] ->
  core s' hand made free sb us' bk uc'.
Proof.
  intros [CP CM CN CO CL CR CU CE] F1 F2 N O U So. split; auto.
  - intros i k b Hk Hb'. apply (rel_frame s); [eauto| |].
    + intros y Hy. apply F1. rewrite <- CP. apply in_app_iff. right. apply in_app_iff. left. eapply int_in; eauto.
    + intros e He. apply F2, CO, in_app_iff. left. eapply ext_in; eauto.
  - rewrite So. constructor.
Qed.
Definition has_sim (x : spec A) (sh : list blk) : spec A := mk_spec (s_blk x) (s_free x) (Some sh) (s_user x).
Lemma sim_ok t x s sh i k k' o c : inv t x s -> s_sim x = Some sh -> nth_error sh i = Some k -> (forall z, srel z k -> srel (c z) k') ->
  ok (sim_op A o i c t) s (fun t' s' => inv t' (has_sim x (mark sh i k')) s' /\ is_sim (b_algo t') = true).
Proof.
  intros [C So EV FS FN FR SI] Es Hk Q. rewrite Es in SI. unfold sim_op. destruct (b_algo t) as [|? ?|st tm lr cs ps] eqn:Ea; cbn [kind snd] in SI; [destruct SI|destruct SI|]. destruct SI as (F2 & L). destruct (forall2_nth_r _ _ _ _ _ F2 Hk) as (z & Hz & Rz).
  assert (G : exists tm' lr' ps', record o i c (Sim st tm lr cs ps) = Some (Sim st tm' lr' (set_nth cs i (c z)) ps')).
  { unfold record. rewrite Hz. destruct o; eauto. }
  destruct G as (tm' & lr' & ps' & ->). apply ok_ret. split; [|reflexivity].
  split; cbn [with_algo b_made b_free b_sb b_user b_algo b_fsb has_sim s_blk s_free s_user s_sim kind snd]; auto.
  split; [|rewrite mark_len; exact L]. apply (forall2_set_l _ _ _ _ z); auto.
Qed.
Lemma srel_acquire u z k : srel z k -> srel (z + 1) (blk_acquire A S fdef u k).
Proof.
  intros (e & -> & H). unfold blk_acquire. exists e. destruct (k_refs k); cbn [k_refs k_valid]; (split; [lia|exact H]).
Qed.
Lemma srel_release d z k k' : blk_release A d k = Some k' -> srel z k -> srel (z - 1 + (if d then 1 else 0)) k'.
Proof.
  intros Er (e & -> & H). unfold blk_release in Er. exists (e + if d then 1 else 0).
  assert (V : 0 < e + (if d then 1 else 0) <-> k_valid k || d = true) by (destruct d; [rewrite orb_true_r; split; [reflexivity|lia]|rewrite orb_false_r, Nat.add_0_r; exact H]).
  destruct (k_refs k) as [|[|n]]; [discriminate| |]; injection Er as <-; cbn [k_refs k_valid]; (split; [destruct d; lia|exact V]).
Qed.
Lemma srel_new : srel 0 (blk_new A S).
Proof. exists 0. unfold blk_new. cbn. split; [reflexivity|]. split; [lia|discriminate]. Qed.
Lemma srel_drop k k' : blk_drop A S k = Some k' -> srel 0 k'.
Proof. unfold blk_drop. destruct (Nat.eqb _ _); [|discriminate]. intro E. injection E as <-. apply srel_new. Qed.
Lemma srel_init c k k' : blk_init A c k = Some k' -> srel 1 k'.
Proof. intro E. apply init_spec in E. destruct E as (_ & _ & ->). exists 1. cbn. split; [reflexivity|]. split; [reflexivity|lia]. Qed.

(** ** allocate *)
Lemma smallest_min x l : min_of x l = smallest x l.
Proof. apply fold_symmetric; intros; [apply Nat.min_assoc|apply Nat.min_comm]. Qed.
Lemma take_remove x l : remove_one x l = take_out x l.
Proof. induction l as [|y l IH]; simpl; [reflexivity|]. rewrite IH. reflexivity. Qed.
Lemma take_sub x l y : In y (take_out x l) -> In y l.
Proof. induction l as [|z l IH]; simpl; [tauto|]. destruct (Nat.eqb z x); [tauto|]. intros [E|I]; auto. Qed.
Lemma take_nodup x l : NoDup l -> NoDup (take_out x l).
Proof. induction 1 as [|y l N H IH]; simpl; [constructor|]. destruct (Nat.eqb y x); [exact H|]. constructor; [intro I; apply N; eapply take_sub; eauto|exact IH]. Qed.

Lemma nth_error_snoc {X} (l : list X) x i y : nth_error (l ++ [x]) i = Some y -> nth_error l i = Some y \/ (i = length l /\ y = x).
Proof.
  destruct (Nat.lt_ge_cases i (length l)) as [L|L]; [rewrite nth_error_app1 by lia; auto|]. rewrite nth_error_app2 by lia.
  destruct (i - length l) eqn:E; simpl; [intro Q; injection Q as <-; right; split; [lia|reflexivity]|destruct n; discriminate].
Qed.
Lemma alloc_ok t x s x' y : inv t x s -> spec_op A S fdef maxb BAlloc x = Some (x', y) -> inv (snd (allocate t)) x' s /\ ONum (fst (allocate t)) = y.
Proof.
  intros [C So EV FS FN FR SI] E. unfold allocate. unfold spec_op in E. rewrite FS. destruct (s_free x) as [|i l] eqn:Ef.
  - injection E as <- <-. pose proof C as [CP CM CN CO CL CR CU CE]. cbn [fst snd]. split; [|rewrite CL; reflexivity].
    assert (NE : forall j b, nth_error (b_sb t ++ [sb_new]) j = Some b -> is_evictable b = true -> nth_error (b_sb t) j = Some b).
    { intros j b H Hv. apply nth_error_snoc in H. destruct H as [H|(_ & ->)]; [exact H|discriminate]. }
    split; cbn [with_algo with_sb b_made b_free b_sb b_user b_algo b_fsb s_blk s_free s_user s_sim]; auto.
    + split; auto.
      * unfold ints. rewrite flat_map_app. simpl. rewrite app_nil_r. exact CP.
      * unfold exts. rewrite flat_map_app. simpl. rewrite app_nil_r. exact CN.
      * unfold exts. rewrite flat_map_app. simpl. rewrite app_nil_r. exact CO.
      * rewrite !app_length, CL. reflexivity.
      * intros i k b Hk Hc. apply nth_error_snoc in Hk. apply nth_error_snoc in Hc.
        assert (Q : forall X (m : list X) z, nth_error m (length m) = Some z -> False) by (intros X m z Hz; assert (H : nth_error m (length m) <> None) by congruence; apply nth_error_Some in H; lia).
        destruct Hk as [Hk|(-> & ->)], Hc as [Hc|(Hi & ->)]; [eauto| | |apply rel_new; reflexivity]; exfalso.
        -- subst i. rewrite CL in Hk. exact (Q _ _ _ Hk).
        -- rewrite <- CL in Hc. exact (Q _ _ _ Hc).
      * rewrite So. constructor.
    + assert (ev (match b_algo t with Sim st tm lr cs ps => Sim st tm lr (cs ++ [0%Z]) ps | g => g end) = ev (b_algo t)) as Ee by (destruct (b_algo t); reflexivity).
      destruct EV as (N & EV). unfold evok. rewrite Ee. split; [exact N|]. intro j. rewrite EV. split; intros (b & Hc & Hv).
      * exists b. split; [|exact Hv]. rewrite nth_error_app1; [exact Hc|]. apply nth_error_Some. congruence.
      * exists b. split; [|exact Hv]. apply NE; assumption.
    + intros i [].
    + destruct (b_algo t) as [| |st tm lr cs ps]; cbn [kind snd] in *; [destruct (s_sim x); [destruct SI|exact SI]|destruct (s_sim x); [destruct SI|exact SI]|]. destruct (s_sim x); [|destruct SI]. destruct SI as (F & L). split.
      * apply Forall2_app; [exact F|]. constructor; [apply srel_new|constructor].
      * rewrite !app_length, L. reflexivity.
  - injection E as <- <-. cbn [fst snd]. rewrite smallest_min, take_remove. split; [|reflexivity].
    split; cbn [with_fsb b_made b_free b_sb b_user b_algo b_fsb s_blk s_free s_user s_sim]; auto.
    + exact (take_nodup (smallest i l) (i :: l) FN).
    + intros j I. apply FR. exact (take_sub (smallest i l) (i :: l) j I).
Qed.

(** ** elements *)
Lemma get_ok t x s i k j v : inv t x s -> nth_error (s_blk x) i = Some k -> k_refs k <> 0 -> nth_error (k_cont k) j = Some (Some v) ->
  ok (elem_of A t i (fun y => if Nat.ltb j S then DoGet y j (fun w => Ret (t, OVal w)) else Err)) s (fun r s' => inv (fst r) x s' /\ snd r = OVal v).
Proof.
  intros V Hk Kr Hj. destruct (inv_sb t x s i k V Hk) as (b & Hi & R). destruct R as [R1 R2 R3 R4 R5 R6 R7 R8 R9 R10].
  unfold elem_of, at_sb. rewrite Hi. assert (Rb : 0 < sb_ref b) by lia. assert (is_acquired b = true) as -> by (unfold is_acquired; destruct (sb_ref b); [lia|reflexivity]).
  specialize (R5 Rb). unfold is_internal in R5. destruct (sb_int b) as [y|]; [|discriminate].
  assert (Lj : j < S) by (rewrite <- R2; apply nth_error_Some; congruence). rewrite (proj2 (Nat.ltb_lt j S) Lj).
  unfold ok. cbn [srun]. rewrite (v_out _ _ _ V). cbn [existsb]. rewrite (R9 y eq_refl j v Hj) by (intros []). cbn [srun fst snd]. auto.
Qed.
Lemma set_ok t x s i k j v : inv t x s -> s_sim x = None -> ~ In i (s_free x) -> nth_error (s_blk x) i = Some k -> k_refs k <> 0 -> j < S ->
  ok (elem_of A t i (fun y => if Nat.ltb j S then DoPut y j v (Ret (t, OUnit)) else Err)) s (fun r s' =>
    inv (fst r) (mk_spec (mark (s_blk x) i (mk_blk (k_valid k) (k_refs k) (k_dirty k) (mark (k_cont k) j (Some v)) (j :: k_set k))) (s_free x) None (s_user x)) s' /\ snd r = OUnit).
Proof.
  intros V NS NF Hk Kr Lj. destruct (inv_sb t x s i k V Hk) as (b & Hi & R). pose proof (inv_nosim _ _ _ V NS) as Ns. destruct R as [R1 R2 R3 R4 R5 R6 R7 R8 R9 R10].
  destruct V as [C So EV FS FN FR SI].
  unfold elem_of, at_sb. rewrite Hi. assert (Rb : 0 < sb_ref b) by lia. assert (is_acquired b = true) as -> by (unfold is_acquired; destruct (sb_ref b); [lia|reflexivity]).
  assert (exists y, sb_int b = Some y) as (y & Hy) by (specialize (R5 Rb); unfold is_internal in R5; destruct (sb_int b); [eauto|discriminate]). rewrite Hy.
  rewrite (proj2 (Nat.ltb_lt j S) Lj). unfold ok. cbn [srun]. rewrite So. cbn [existsb srun fst snd]. split; [|reflexivity].
  assert (Eb : set_nth (b_sb t) i b = b_sb t) by (destruct (nth_set_nth (b_sb t) i b Hi) as (l1 & l2 & El & _ & E); rewrite E; congruence).
  split; cbn [s_blk s_free s_user s_sim sout]; auto.
  - rewrite <- Eb. eapply core_set with (b := b) (k := k) (lost := []) (new := []); try eassumption; try (apply Permutation_refl); cbn [scont sdisk sown sout snext]; auto.
    + constructor.
    + intro; simpl; tauto.
    + intros z Hz. unfold upd2. apply upd_other. intros ->. apply Hz. rewrite Hy. left. reflexivity.
    + constructor; cbn [k_refs k_cont k_valid k_dirty k_set scont sdisk]; auto; try lia.
      * rewrite mark_len. exact R2.
      * intros z Hz. rewrite Hy in Hz. injection Hz as <-. intros j' w Hw _. unfold upd2. rewrite upd_same. destruct (Nat.eq_dec j' j) as [->|D].
        -- rewrite upd_same. rewrite mark_nth in Hw by lia. rewrite Nat.eqb_refl in Hw. congruence.
        -- rewrite upd_other by exact D. rewrite mark_other in Hw by exact D. apply (R9 y Hy j' w Hw). intros [].
      * intros e He Hd j' w Hw Ns'. assert (D : j' <> j) by (intros ->; apply Ns'; left; reflexivity). rewrite mark_other in Hw by exact D.
        apply (R10 e He Hd j' w Hw). intro I. apply Ns'. right. exact I.
    + apply (user_frame s); [exact (c_user _ _ _ _ _ _ _ _ C)|]. auto.
  - apply free_mark; assumption.
  - rewrite Ns. exact Logic.I.
Qed.
Lemma put_all_ok : forall vs (k : prog A (bsched * out A)) j s (Q : bsched * out A -> sstate -> Prop), sout s = [] ->
  (forall s', sout s' = [] -> sdisk s' = sdisk s -> sown s' = sown s -> salloc s' = salloc s -> snext s' = snext s -> (forall y, y <> 0 -> scont s' y = scont s y) ->
     (forall i, i < j -> scont s' 0 i = scont s 0 i) -> (forall i v, nth_error vs i = Some v -> scont s' 0 (j + i) = Some v) -> ok k s' Q) -> ok (put_all A 0 j vs k) s Q.
Proof.
  induction vs as [|v vs IH]; intros k j s Q' So H; cbn [put_all].
  - apply H; auto. intros i v E. destruct i; discriminate.
  - unfold ok. cbn [srun]. rewrite So. cbn [existsb]. apply IH; [reflexivity|]. cbn [sout sdisk sown salloc snext scont]. intros s' H1 H2 H3 H4 H5 H6 H7 H8.
    apply H; auto.
    + intros y Hy. rewrite (H6 y Hy). unfold upd2. apply upd_other. exact Hy.
    + intros i Li. rewrite H7 by lia. unfold upd2. rewrite upd_same. apply upd_other. lia.
    + intros [|i] w Hw.
      * rewrite Nat.add_0_r. rewrite H7 by lia. unfold upd2. rewrite upd_same, upd_same. exact Hw.
      * simpl in Hw. replace (j + Datatypes.S i) with (j + 1 + i) by lia. auto.
Qed.

Lemma seq_zero n : ~ In 0 (seq 1 n).
Proof. rewrite in_seq. lia. Qed.
Lemma newext_ok t x s vs : inv t x s -> length vs = S ->
  ok (run_op A S fdef maxb batch (BNewExt vs) t) s (fun r s' => inv (fst r) (mk_spec (s_blk x) (s_free x) (s_sim x) (s_user x ++ [Some (map Some vs)])) s' /\ snd r = OUnit).
Proof.
  intros [C So EV FS FN FR SI] L. pose proof C as [CP CM CN CO CL CR CU CE]. cbn [run_op].
  unfold ok. cbn [srun]. destruct (salloc s) as [|l al]; [exact I|]. destruct (good_alloc 1 (sown s) l) eqn:G; [|exact I]. apply good_alloc_spec in G. destruct G as (Ll & Nl & Fl).
  destruct l as [|e [|? ?]]; try discriminate Ll. assert (Fe : ~ In e (sown s)) by (apply Fl; left; reflexivity).
  apply put_all_ok; [exact So|]. cbn [sdisk sown salloc snext scont]. intros s1 H1 H2 H3 H4 H5 H6 H7 H8.
  unfold ok. cbn [srun]. rewrite H1, H3. cbn [existsb app]. assert (mem e (e :: sown s) = true) as -> by (apply mem_in; left; reflexivity). cbn [negb orb srun sout drop_id filter a_id].
  rewrite Nat.eqb_refl. cbn [negb fst snd]. split; [|reflexivity].
  assert (Us : users (b_user t ++ [Some e]) = users (b_user t) ++ [e]) by (unfold users; rewrite flat_map_app; reflexivity).
  assert (Ne : ~ In e (exts (b_sb t) ++ users (b_user t))) by (rewrite <- CO; exact Fe).
  split; cbn [with_user b_made b_free b_sb b_user b_algo b_fsb s_blk s_free s_user s_sim sout]; auto.
  eapply core_env; try eassumption; cbn [scont sdisk sown sout].
  - intros y Hy. apply H6. intros ->. exact (seq_zero _ Hy).
  - intros e' He. rewrite upd_other by (intros ->; contradiction). rewrite H2. assert (mem e' [e] = false) as -> by (apply mem_nin; intros [->|[]]; contradiction). reflexivity.
  - rewrite Us, app_assoc. apply (Permutation_NoDup (l := e :: exts (b_sb t) ++ users (b_user t))); [apply Permutation_cons_append|]. constructor; assumption.
  - intro e'. rewrite Us, app_assoc, in_app_iff. cbn [In]. rewrite CO. tauto.
  - apply Forall2_app.
    + apply (user_frame s); [exact CU|]. intros e' He. assert (De : e' <> e) by (intros ->; apply Ne, in_app_iff; right; exact He). cbn [sdisk]. rewrite upd_other by exact De. rewrite H2. assert (mem e' [e] = false) as -> by (apply mem_nin; intros [->|[]]; contradiction). reflexivity.
    + constructor; [|constructor]. split; [rewrite map_length; exact L|]. intros j v Hj _. cbn [sdisk]. rewrite upd_same. rewrite nth_error_map in Hj.
      destruct (nth_error vs j) as [w|] eqn:Ew; [|discriminate]. injection Hj as <-. exact (H8 j w Ew).
  - reflexivity.
Qed.
Lemma readext_ok t x s sl c j v : inv t x s -> nth_error (s_user x) sl = Some (Some c) -> nth_error c j = Some (Some v) ->
  ok (run_op A S fdef maxb batch (BReadExt sl j) t) s (fun r s' => inv (fst r) x s' /\ snd r = OVal v).
Proof.
  intros [C So EV FS FN FR SI] Hs Hj. pose proof C as [CP CM CN CO CL CR CU CE]. cbn [run_op].
  destruct (forall2_nth _ _ _ _ _ CU Hs) as (u & Hu & Ru). destruct u as [e|]; [|destruct Ru]. destruct Ru as (Lc & Rc). rewrite Hu.
  assert (Lj : j < S) by (rewrite <- Lc; apply nth_error_Some; congruence). rewrite (proj2 (Nat.ltb_lt j S) Lj).
  assert (Ie : In e (sown s)) by (apply CO, in_app_iff; right; eapply in_users; eauto).
  unfold ok. cbn [srun]. rewrite So. cbn [existsb app]. rewrite (proj2 (mem_in e (sown s)) Ie). cbn [negb orb srun sout drop_id filter a_id].
  rewrite Nat.eqb_refl. cbn [negb existsb scont]. rewrite upd_same. rewrite (Rc j v Hj) by (intros []). cbn [srun fst snd]. split; [|reflexivity].
  split; auto. eapply core_env; try eassumption; cbn [scont sdisk sown sout]; auto.
  intros y Hy. apply upd_other. intros ->. exact (seq_zero _ Hy).
Qed.

(** ** switching algorithms *)
Lemma in_use_none bk : in_use A bk = 0 -> forall i (k : blk), nth_error bk i = Some k -> k_refs k = 0.
Proof.
  unfold in_use. induction bk as [|k0 bk IH]; intros E i k H; [destruct i; discriminate|]. simpl in E. destruct (Nat.eqb_spec (k_refs k0) 0) as [Z|]; [|discriminate].
  destruct i; simpl in H; [injection H as <-; exact Z|]. exact (IH E i k H).
Qed.
Lemma valid_init s k b : rel s k b -> sb_ref b = 0 -> is_initialized b = k_valid k.
Proof.
  intros [R1 R2 R3 R4 R5 R6 R7 R8 R9 R10] Z. unfold is_initialized, is_external. destruct (is_internal b) eqn:I; [symmetry; cbn; auto|].
  rewrite R3. destruct (sb_dirty b); [specialize (R4 eq_refl); discriminate|]. cbn. apply andb_true_r.
Qed.
Lemma switch_ok t x s g : inv t x s -> Permutation (ev g) (ev (b_algo t)) -> snd (kind g) = None -> inv (with_algo t g) (mk_spec (s_blk x) (s_free x) None (s_user x)) s.
Proof.
  intros [C So EV FS FN FR SI] P K. split; cbn [with_algo b_made b_free b_sb b_user b_algo b_fsb s_blk s_free s_user s_sim]; auto.
  - eapply evok_perm; eauto.
  - rewrite K. exact Logic.I.
Qed.
Lemma tosim_ok t x s : inv t x s -> in_use A (s_blk x) = 0 -> inv (with_algo t (to_sim t)) (mk_spec (s_blk x) (s_free x) (Some (s_blk x)) (s_user x)) s.
Proof.
  intros [C So EV FS FN FR SI] U. pose proof C as [CP CM CN CO CL CR CU CE]. split; cbn [with_algo b_made b_free b_sb b_user b_algo b_fsb s_blk s_free s_user s_sim]; auto.
  - eapply evok_perm; eauto. apply ev_to_sim. exact (proj1 EV).
  - unfold to_sim. cbn [kind snd]. split; [|reflexivity]. pose proof (in_use_none _ U) as Z. clear - CL CR Z.
    revert CR Z. generalize dependent (s_blk x). induction (b_sb t) as [|b sb IH]; intros [|k bk] L CR Z; simpl in L; try discriminate; cbn [map]; constructor.
    + pose proof (CR 0 k b eq_refl eq_refl) as R. pose proof (Z 0 k eq_refl) as Zk. assert (Zb : sb_ref b = 0) by (rewrite (r_ref _ _ _ R); exact Zk).
      rewrite (valid_init _ _ _ R Zb). exists (if k_valid k then 1 else 0). rewrite Zk. destruct (k_valid k); cbn; (split; [reflexivity|]); split; auto; try lia; discriminate.
    + apply IH; [lia| |].
      * intros i k' b' H1 H2. apply (CR (Datatypes.S i) k' b' H1 H2).
      * intros i k' H1. apply (Z (Datatypes.S i) k' H1).
Qed.

(** ** one operation *)
Lemma blk_at_spec x i k : blk_at A x i = Some k -> ~ In i (s_free x) /\ nth_error (now A x) i = Some k.
Proof. unfold blk_at. destruct (among i (s_free x)) eqn:E; [discriminate|]. intro H. split; [|exact H]. rewrite <- among_in, E. discriminate. Qed.
Lemma is_sim_spec t x s : inv t x s -> is_sim (b_algo t) = simulating A x.
Proof. intro V. pose proof (v_sim _ _ _ V) as SI. rewrite kind_sim. unfold simulating. destruct (snd (kind (b_algo t))) as [[[[? ?] ?] ?]|], (s_sim x); try destruct SI; reflexivity. Qed.
Lemma unit_ok (p : prog A bsched) s x' y : ok p s (fun t' s' => inv t' x' s') -> y = OUnit -> ok (unit_out A p) s (fun r s' => inv (fst r) x' s' /\ snd r = y).
Proof. intros H ->. unfold unit_out. apply ok_bind. eapply ok_imp; [exact H|]. intros t' s' V. apply ok_ret. auto. Qed.

Lemma run_op_ok o t x s x' y : inv t x s -> spec_op A S fdef maxb o x = Some (x', y) ->
  ok (run_op A S fdef maxb batch o t) s (fun r s' => inv (fst r) x' s' /\ snd r = y).
Proof.
  intros V E. pose proof (is_sim_spec _ _ _ V) as Is. unfold spec_op in E. destruct o.
  - (* BAlloc *) cbn [run_op]. apply ok_ret. cbn [fst snd]. apply (alloc_ok t x s x' y V E).
  - (* BFree *)
    destruct (blk_at A x i) as [k|] eqn:Eb; [|discriminate]. apply blk_at_spec in Eb. destruct Eb as (NF & Hn).
    destruct (nth_error (s_blk x) i) as [r|] eqn:Er; [|discriminate].
    destruct (simulating A x && _) eqn:Ec; [discriminate|]. destruct (blk_drop A S k) as [k'|] eqn:Ed; [|discriminate]. cbn [upd_at] in E.
    cbn [run_op]. unfold free_block, deinitialize. rewrite Is. unfold simulating, with_now, now in *. destruct (s_sim x) as [sh|] eqn:Es.
    + cbn [s_blk s_free s_user s_sim] in E. injection E as <- <-. apply unit_ok; [|reflexivity]. apply ok_bind.
      eapply ok_imp; [apply (sim_ok t x s sh i k k' _ _ V Es Hn)|].
      { intros z _. apply (srel_drop _ _ Ed). }
      intros t' s' ([C So EV FS FN FR SI] & _). apply ok_ret. unfold has_sim in *. cbn [s_blk s_free s_user s_sim] in *.
      split; cbn [with_fsb b_made b_free b_sb b_user b_algo b_fsb s_blk s_free s_user s_sim]; auto.
      * congruence.
      * constructor; assumption.
      * intros j [<-|I]; [|auto]. exists r. split; [exact Er|]. cbn in Ec. apply orb_false_iff in Ec. destruct Ec as (E1 & E2). split; [exact E1|]. apply negb_false_iff, Nat.eqb_eq in E2. exact E2.
    + cbn [s_blk s_free s_user s_sim] in E. injection E as <- <-. apply unit_ok; [|reflexivity]. apply ok_bind.
      eapply ok_imp; [apply (real_deinit_ok t x s i k k' V Es Hn NF Ed)|].
      intros t' s' [C So EV FS FN FR SI]. apply ok_ret. cbn [s_blk s_free s_user s_sim] in *.
      split; cbn [with_fsb b_made b_free b_sb b_user b_algo b_fsb s_blk s_free s_user s_sim]; auto.
      * congruence.
      * constructor; assumption.
      * intros j [<-|I]; [|auto]. exists k'. split; [apply (mark_same _ _ _ k); exact Hn|]. unfold blk_drop in Ed. destruct (Nat.eqb (k_refs k) 0); [|discriminate]. injection Ed as <-. split; reflexivity.
  - (* BAcquire *)
    destruct (blk_at A x i) as [k|] eqn:Eb; [|discriminate]. apply blk_at_spec in Eb. destruct Eb as (NF & Hn).
    destruct (negb _ && _ && _) eqn:Ec; [discriminate|]. cbn [upd_at] in E. cbn [run_op]. unfold acquire. rewrite Is. unfold simulating, with_now, now in *. destruct (s_sim x) as [sh|] eqn:Es.
    + injection E as <- <-. apply unit_ok; [|reflexivity]. eapply ok_imp; [apply (sim_ok t x s sh i k (blk_acquire A S fdef uninit k) _ _ V Es Hn)|].
      { intros z. apply srel_acquire. }
      intros t' s' (V' & _). exact V'.
    + injection E as <- <-. apply unit_ok; [|reflexivity]. apply (real_acquire_ok t x s i uninit k V Es Hn NF).
      intro Z. rewrite Z in Ec. cbn in Ec. apply negb_false_iff, Nat.ltb_lt in Ec. exact Ec.
  - (* BRelease *)
    destruct (blk_at A x i) as [k|] eqn:Eb; [|discriminate]. apply blk_at_spec in Eb. destruct Eb as (NF & Hn).
    destruct (blk_release A dirty k) as [k'|] eqn:Ed; [|discriminate]. cbn [upd_at] in E. cbn [run_op]. unfold release. rewrite Is. unfold simulating, with_now, now in *. destruct (s_sim x) as [sh|] eqn:Es.
    + injection E as <- <-. apply unit_ok; [|reflexivity]. eapply ok_imp; [apply (sim_ok t x s sh i k k' _ _ V Es Hn)|].
      { intros z. apply srel_release. exact Ed. }
      intros t' s' (V' & _). exact V'.
    + injection E as <- <-. apply unit_ok; [|reflexivity]. apply (real_release_ok t x s i dirty k k' V Es Hn NF Ed).
  - (* BDeinit *)
    destruct (blk_at A x i) as [k|] eqn:Eb; [|discriminate]. apply blk_at_spec in Eb. destruct Eb as (NF & Hn).
    destruct (blk_drop A S k) as [k'|] eqn:Ed; [|discriminate]. cbn [upd_at] in E. cbn [run_op]. unfold deinitialize. rewrite Is. unfold simulating, with_now, now in *. destruct (s_sim x) as [sh|] eqn:Es.
    + injection E as <- <-. apply unit_ok; [|reflexivity]. eapply ok_imp; [apply (sim_ok t x s sh i k k' _ _ V Es Hn)|].
      { intros z _. apply (srel_drop _ _ Ed). }
      intros t' s' (V' & _). exact V'.
    + injection E as <- <-. apply unit_ok; [|reflexivity]. apply (real_deinit_ok t x s i k k' V Es Hn NF Ed).
  - (* BInit *)
    destruct (blk_at A x i) as [k|] eqn:Eb; [|discriminate]. apply blk_at_spec in Eb. destruct Eb as (NF & Hn).
    cbn [run_op]. unfold initialize. rewrite Is. unfold simulating, upd_at, with_now, now in *. destruct (s_sim x) as [sh|] eqn:Es.
    + destruct (blk_init A (repeat None S) k) as [k'|] eqn:Ed; [|discriminate]. injection E as <- <-. apply unit_ok; [|reflexivity].
      eapply ok_imp; [apply (sim_ok t x s sh i k k' _ _ V Es Hn)|].
      { intros z _. apply (srel_init _ _ _ Ed). }
      intros t' s' (V' & _). exact V'.
    + destruct (nth_error (s_user x) slot) as [[c|]|] eqn:Eu; try discriminate. destruct (blk_init A c k) as [k'|] eqn:Ed; [|discriminate].
      cbn [s_blk s_free s_user s_sim] in E. injection E as <- <-. apply unit_ok; [|reflexivity]. apply (real_init_ok t x s i slot c k k' V Es Hn NF Eu Ed).
  - (* BExtract *)
    destruct (blk_at A x i) as [k|] eqn:Eb; [|discriminate]. apply blk_at_spec in Eb. destruct Eb as (NF & Hn).
    destruct (k_valid k) eqn:Kv; [|discriminate]. cbn [negb] in E. destruct (blk_drop A S k) as [k'|] eqn:Ed; [|discriminate].
    cbn [run_op upd_at] in *. unfold extract. rewrite Is. unfold simulating, with_now, now in *. destruct (s_sim x) as [sh|] eqn:Es; cbn [s_blk s_free s_user s_sim] in E; injection E as <- <-.
    + apply unit_ok; [|reflexivity]. apply ok_bind. eapply ok_imp; [apply (sim_ok t x s sh i k k' _ _ V Es Hn)|].
      { intros z _. apply (srel_drop _ _ Ed). }
      intros t' s' ([C So EV FS FN FR SI] & _). apply ok_ret. unfold has_sim in *. cbn [s_blk s_free s_user s_sim] in *.
      split; cbn [with_user b_made b_free b_sb b_user b_algo b_fsb s_blk s_free s_user s_sim]; auto.
      assert (Us : users (b_user t' ++ [None]) = users (b_user t')) by (unfold users; rewrite flat_map_app; simpl; apply app_nil_r).
      pose proof C as [CP CM CN CO CL CR CU CE]. eapply core_env; try eassumption; auto.
      * rewrite Us. exact CN.
      * rewrite Us. exact CO.
      * apply Forall2_app; [exact CU|]. constructor; [exact Logic.I|constructor].
    + apply unit_ok; [|reflexivity]. apply (real_extract_ok t x s i k k' V Es Hn NF Kv Ed).
  - (* BIsInit *)
    destruct (blk_at A x i) as [k|] eqn:Eb; [|discriminate]. apply blk_at_spec in Eb. destruct Eb as (NF & Hn). injection E as <- <-. cbn [run_op].
    apply ok_bind. unfold initialized. pose proof V as [C So EV FS FN FR SI]. unfold now in Hn. destruct (s_sim x) as [sh|] eqn:Es.
    + destruct (b_algo t) as [|? ?|st tm lr cs ps] eqn:Ea; cbn [kind snd] in SI; [destruct SI|destruct SI|]. destruct SI as (F2 & L).
      destruct (forall2_nth_r _ _ _ _ _ F2 Hn) as (z & Hz & (e & -> & He)). rewrite Hz. apply ok_ret. apply ok_ret. cbn [fst snd]. split; [exact V|]. f_equal.
      destruct (k_valid k); cbn [orb]; [apply Z.ltb_lt; assert (0 < e) by tauto; lia|]. assert (e = 0) by (destruct e; [reflexivity|assert (false = true) by (apply He; lia); discriminate]). subst e.
      destruct (k_refs k); [reflexivity|]. cbn [Nat.eqb negb]. apply Z.ltb_lt. lia.
    + destruct (inv_sb t x s i k V Hn) as (b & Hi & R).
      assert (G : ok (at_sb A t i (fun s0 => Ret (is_initialized s0))) s (fun b' s' => ok (Ret (A := A) (t, OBool (A := A) b')) s' (fun r s'' => inv (fst r) x s'' /\ snd r = OBool (k_valid k || negb (Nat.eqb (k_refs k) 0))))).
      { unfold at_sb. rewrite Hi. apply ok_ret. apply ok_ret. cbn [fst snd]. split; [exact V|]. f_equal. destruct (Nat.eqb_spec (k_refs k) 0) as [Z|Z].
        - rewrite orb_false_r. apply (valid_init s); [exact R|]. rewrite (r_ref _ _ _ R). exact Z.
        - rewrite orb_true_r. unfold is_initialized. rewrite (r_aint _ _ _ R); [reflexivity|]. rewrite (r_ref _ _ _ R). lia. }
      destruct (b_algo t) as [| |st tm lr cs ps]; [exact G|exact G|]. cbn [kind snd] in SI. destruct SI.
  - (* BGet *)
    destruct (blk_at A x i) as [k|] eqn:Eb; [|discriminate]. apply blk_at_spec in Eb. destruct Eb as (NF & Hn).
    destruct (simulating A x || _) eqn:Ec; [discriminate|]. apply orb_false_iff in Ec. destruct Ec as (E1 & E2). destruct (nth_error (k_cont k) j) as [[v|]|] eqn:Ej; try discriminate. injection E as <- <-.
    unfold simulating, now in *. destruct (s_sim x) eqn:Es; [discriminate|]. cbn [run_op]. apply (get_ok t x s i k j v V Hn); [apply Nat.eqb_neq; exact E2|exact Ej].
  - (* BSet *)
    destruct (blk_at A x i) as [k|] eqn:Eb; [|discriminate]. apply blk_at_spec in Eb. destruct Eb as (NF & Hn).
    destruct (simulating A x || _ || _) eqn:Ec; [discriminate|]. apply orb_false_iff in Ec. destruct Ec as (Ec & E3). apply orb_false_iff in Ec. destruct Ec as (E1 & E2).
    cbn [upd_at] in E. unfold simulating, with_now, now in *. destruct (s_sim x) eqn:Es; [discriminate|]. injection E as <- <-. cbn [run_op].
    apply (set_ok t x s i k j v V Es NF Hn); [apply Nat.eqb_neq; exact E2|]. apply negb_false_iff, Nat.ltb_lt in E3. exact E3.
  - (* BFlush *) injection E as <- <-. cbn [run_op]. apply unit_ok; [apply flush_ok; exact V|reflexivity].
  - (* BLru *) injection E as <- <-. cbn [run_op]. apply ok_ret. split; [|reflexivity]. apply switch_ok; [exact V| |reflexivity]. apply ev_to_lru. exact (proj1 (v_ev _ _ _ V)).
  - (* BLfd *) injection E as <- <-. cbn [run_op]. apply ok_ret. split; [|reflexivity]. apply switch_ok; [exact V| |reflexivity]. apply ev_to_lfd. exact (proj1 (v_ev _ _ _ V)).
  - (* BSim *) destruct (Nat.eqb_spec (in_use A (s_blk x)) 0) as [U|]; [|discriminate]. injection E as <- <-. cbn [run_op]. apply ok_ret. split; [|reflexivity]. apply tosim_ok; assumption.
  - (* BStep *) injection E as <- <-. cbn [run_op]. apply ok_ret. split; [|reflexivity]. cbn [fst]. destruct V as [C So EV FS FN FR SI].
    destruct (b_algo t) as [| |st tm lr cs ps] eqn:Ea; (split; cbn [with_algo b_made b_free b_sb b_user b_algo b_fsb]; rewrite ?Ea; auto).
  - (* BNewExt *) destruct (Nat.eqb_spec (length vs) S) as [L|]; [|discriminate]. injection E as <- <-. apply newext_ok; assumption.
  - (* BReadExt *) destruct (nth_error (s_user x) slot) as [[c|]|] eqn:Eu; try discriminate. destruct (nth_error c j) as [[v|]|] eqn:Ej; try discriminate. injection E as <- <-.
    apply (readext_ok t x s slot c j v V Eu Ej).
Qed.
Lemma run_ops_ok os : forall t x s x' ys, inv t x s -> spec_ops A S fdef maxb os x = Some (x', ys) ->
  ok (run_ops A S fdef maxb batch os t) s (fun r s' => inv (fst r) x' s' /\ snd r = ys).
Proof.
  induction os as [|o os IH]; intros t x s x' ys V E; cbn [run_ops spec_ops] in *.
  - injection E as <- <-. apply ok_ret. auto.
  - destruct (spec_op A S fdef maxb o x) as [[x1 y]|] eqn:E1; [|discriminate]. destruct (spec_ops A S fdef maxb os x1) as [[x2 zs]|] eqn:E2; [|discriminate]. injection E as <- <-.
    apply ok_bind. eapply ok_imp; [apply (run_op_ok o t x s x1 y V E1)|]. intros r s1 (V1 & Hy). apply ok_bind. eapply ok_imp; [apply (IH _ _ _ _ _ V1 E2)|].
    intros r2 s2 (V2 & Hz). apply ok_ret. cbn [fst snd]. rewrite Hy, Hz. auto.
Qed.
Lemma init_inv al : inv bs_init (spec_init A) (sinit al).
Proof.
  split; cbn [bs_init spec_init b_made b_free b_sb b_user b_algo b_fsb s_blk s_free s_user s_sim kind snd].
  - split; cbn; [apply Permutation_refl|lia|constructor|reflexivity|reflexivity| |constructor|constructor]. intros j k b H. destruct j; discriminate.
  - reflexivity.
  - split; [constructor|]. intro j. split; [intros []|]. intros (b & H & _). destruct j; discriminate.
  - reflexivity.
  - constructor.
  - intros j [].
  - exact Logic.I.
Qed.

(** ** the destructor *)
Lemma exts_none sb : (forall j b, nth_error sb j = Some b -> sb_ext b = None /\ sb_int b = None) -> exts sb = [] /\ ints sb = [].
Proof.
  induction sb as [|b sb IH]; intro H; [split; reflexivity|]. destruct (H 0 b eq_refl) as (H1 & H2). unfold exts, ints in *. cbn [flat_map]. rewrite H1, H2. cbn.
  apply IH. intros j c Hc. apply (H (Datatypes.S j) c Hc).
Qed.
Lemma deinit_all_ok uc sk : forall is t s bk, core s [] (b_made t) (b_free t) (b_sb t) (b_user t) bk uc -> sout s = [] -> in_use A bk = 0 -> (forall i, In i is -> i < length (b_sb t)) ->
  ok (deinit_all A sk is t) s (fun t' s' => exists bk', core s' [] (b_made t') (b_free t') (b_sb t') (b_user t') bk' uc /\ sout s' = [] /\ in_use A bk' = 0 /\
    length (b_sb t') = length (b_sb t) /\ b_made t' = b_made t /\ b_fsb t' = b_fsb t /\ b_user t' = b_user t /\
    forall j b, nth_error (b_sb t') j = Some b -> (In j is -> sb_ext b = None /\ sb_int b = None) /\ (nth_error (b_sb t) j = Some b \/ (sb_ext b = None /\ sb_int b = None))).
Proof.
  induction is as [|i is IH]; intros t s bk C So U Li; cbn [deinit_all].
  { apply ok_ret. exists bk. do 7 (split; [auto|]). intros j b H. split; [intros []|left; exact H]. }
  assert (exists b, nth_error (b_sb t) i = Some b) as (b & Hi).
  { destruct (nth_error (b_sb t) i) eqn:E; [eauto|]. apply nth_error_None in E. specialize (Li i (or_introl eq_refl)). lia. }
  destruct (core_has _ _ _ _ _ _ _ _ _ _ C Hi) as (k & Hk & R). pose proof (in_use_none _ U _ _ Hk) as Kz. assert (Z : sb_ref b = 0) by (rewrite (r_ref _ _ _ R); exact Kz).
  unfold at_sb. rewrite Hi. assert (is_acquired b = false) as Ac by (unfold is_acquired; rewrite Z; reflexivity). rewrite Ac, andb_false_r.
  set (b' := mk_sb None None false (sb_ref b)).
  assert (U' : in_use A (mark bk i (blk_new A S)) = 0).
  { assert (G : forall j (q : blk), nth_error (mark bk i (blk_new A S)) j = Some q -> k_refs q = 0).
    { intros j q Hq. destruct (Nat.eq_dec j i) as [->|D]; [rewrite (mark_same _ _ _ k Hk) in Hq; injection Hq as <-; reflexivity|]. rewrite mark_other in Hq by exact D. exact (in_use_none _ U _ _ Hq). }
    clear - G. unfold in_use. revert G. generalize (mark bk i (blk_new A S)). intros l. induction l as [|q l IH]; intro G; [reflexivity|]. cbn. rewrite (G 0 q eq_refl). cbn.
    apply IH. intros j q' H. exact (G (Datatypes.S j) q' H). }
  assert (Go : forall s', sout s' = [] -> scont s' = scont s -> sdisk s' = sdisk s -> (forall e, In e (sown s') <-> In e (sown s) /\ ~ In e (opt (sb_ext b))) ->
    ok (deinit_all A sk is (match sb_int b with Some y => give_free (set_sb t i b') y | None => set_sb t i b' end)) s' (fun t' s' => exists bk', core s' [] (b_made t') (b_free t') (b_sb t') (b_user t') bk' uc /\ sout s' = [] /\ in_use A bk' = 0 /\
    length (b_sb t') = length (b_sb t) /\ b_made t' = b_made t /\ b_fsb t' = b_fsb t /\ b_user t' = b_user t /\
    forall j b, nth_error (b_sb t') j = Some b -> (In j (i :: is) -> sb_ext b = None /\ sb_int b = None) /\ (nth_error (b_sb t) j = Some b \/ (sb_ext b = None /\ sb_int b = None)))).
  { intros s' So' E1 E2 O.
    assert (CC : core s' [] (b_made t) (opt (sb_int b) ++ b_free t) (set_nth (b_sb t) i b') (b_user t) (mark bk i (blk_new A S)) uc).
    { eapply core_set with (b := b) (k := k) (lost := opt (sb_ext b)) (new := []); try eassumption; cbn [sb_int sb_ext opt app b']; try (apply Permutation_refl); auto.
      - constructor.
      - intros; congruence.
      - intros; congruence.
      - unfold b'. rewrite Z. apply rel_new; reflexivity.
      - apply (user_frame s); [exact (c_user _ _ _ _ _ _ _ _ C)|]. intros; congruence.
      - rewrite So'. constructor. }
    set (t1 := match sb_int b with Some y => give_free (set_sb t i b') y | None => set_sb t i b' end).
    assert (T : b_made t1 = b_made t /\ b_free t1 = opt (sb_int b) ++ b_free t /\ b_sb t1 = set_nth (b_sb t) i b' /\ b_user t1 = b_user t /\ b_fsb t1 = b_fsb t) by (unfold t1; destruct (sb_int b); repeat split).
    destruct T as (T1 & T2 & T3 & T4 & T5).
    eapply ok_imp; [apply (IH t1 s' (mark bk i (blk_new A S)))|].
    - rewrite T1, T2, T3, T4. exact CC.
    - exact So'.
    - exact U'.
    - intros j Hj. rewrite T3, (set_nth_len _ _ b _ Hi). apply Li. right. exact Hj.
    - intros t' s2 (bk' & C2 & So2 & U2 & L2 & M2 & F2 & V2 & N2). exists bk'. rewrite T3, (set_nth_len _ _ b _ Hi) in L2.
      split; [exact C2|]. split; [exact So2|]. split; [exact U2|]. split; [exact L2|]. split; [congruence|]. split; [congruence|]. split; [congruence|].
      intros j c H. destruct (N2 j c H) as (Q1 & Q2). assert (Q3 : nth_error (b_sb t) j = Some c /\ j <> i \/ (sb_ext c = None /\ sb_int c = None)).
      { destruct Q2 as [Q2|Q2]; [|right; exact Q2]. rewrite T3 in Q2. destruct (Nat.eq_dec j i) as [->|D].
        - rewrite (set_nth_same _ _ b _ Hi) in Q2. injection Q2 as <-. right. split; reflexivity.
        - rewrite (set_nth_other _ i j b _ Hi D) in Q2. auto. }
      split; [|tauto]. intros [<-|I]; [|apply Q1; exact I]. destruct Q3 as [(_ & D)|Q3]; [congruence|exact Q3]. }
  apply ok_bind. unfold sb_deinit. rewrite Ac. pose proof C as [CP CM CN CO CL CR CU CE]. destruct (sb_ext b) as [e|] eqn:Ex.
  - unfold ok. cbn [srun]. assert (I : In e (sown s)) by (apply CO, in_app_iff; left; eapply ext_in; eauto). rewrite So. cbn [nodup mem existsb negb orb andb].
    rewrite (proj2 (mem_in e (sown s)) I). cbn [negb orb srun fst snd]. apply Go; cbn [sout scont sdisk sown]; auto.
    intro e'. rewrite without_in. cbn. tauto.
  - apply ok_ret. cbn [fst snd]. apply Go; auto. intro e. cbn. tauto.
Qed.
Lemma destroy_ok t x s : inv t x s -> in_use A (s_blk x) = 0 ->
  ok (destroy A t) s (fun t' s' => (forall e, In e (sown s') <-> In e (users (b_user t))) /\ NoDup (users (b_user t)) /\ b_user t' = b_user t /\ Permutation (b_free t') (seq 1 (b_made t')) /\ sout s' = []).
Proof.
  intros V U. pose proof V as [C So EV FS FN FR SI]. unfold destroy. apply ok_bind.
  assert (D : Permutation (drain (algo_size (b_algo t)) (b_algo t)) (ev (b_algo t))) by (apply drain_perm; [rewrite ev_size; lia|exact (proj1 EV)]).
  eapply ok_imp; [apply (deinit_all_ok (s_user x) false _ t s (s_blk x) C So U)|].
  { intros i I. apply (Permutation_in _ D) in I. apply EV in I. destruct I as (b & Hb' & _). apply nth_error_Some. congruence. }
  intros t1 s1 (bk1 & C1 & So1 & U1 & L1 & M1 & F1 & V1 & N1).
  assert (Fin : forall t' s' bk', core s' [] (b_made t') (b_free t') (b_sb t') (b_user t') bk' (s_user x) -> b_user t' = b_user t -> (forall j b, nth_error (b_sb t') j = Some b -> sb_ext b = None /\ sb_int b = None) -> sout s' = [] ->
     (forall e, In e (sown s') <-> In e (users (b_user t))) /\ NoDup (users (b_user t)) /\ b_user t' = b_user t /\ Permutation (b_free t') (seq 1 (b_made t')) /\ sout s' = []).
  { intros t' s' bk' C' Eu H So'. destruct (exts_none _ H) as (H1 & H2). destruct C' as [CP CM CN CO CL CR CU CE]. rewrite H1 in *. rewrite H2 in CP. rewrite Eu in *. cbn [app] in *. auto. }
  destruct (Nat.eqb_spec (length (b_fsb t1)) (length (b_sb t1))) as [Q|Q].
  - apply ok_ret. apply (Fin t1 s1 bk1 C1 V1); [|exact So1]. intros j b Hj. rewrite F1, FS, L1 in Q.
    assert (Ij : In j (s_free x)).
    { assert (Lj : j < length (b_sb t)) by (rewrite <- L1; apply nth_error_Some; congruence).
      apply (NoDup_length_incl FN (l' := seq 0 (length (b_sb t)))); [rewrite seq_length; lia| |apply in_seq; lia].
      intros i I. apply FR in I. destruct I as (k & Hk & _). apply in_seq. rewrite (c_len _ _ _ _ _ _ _ _ C). split; [lia|]. apply nth_error_Some. congruence. }
    destruct (N1 j b Hj) as (Q1 & [Q2|Q2]); [|exact Q2]. destruct (FR j Ij) as (k & Hk & Kv & Kr).
    pose proof (c_rel _ _ _ _ _ _ _ _ C j k b Hk Q2) as [R1 R2 R3 R4 R5 R6 R7 R8 R9 R10]. rewrite Kv in R3. symmetry in R3. apply orb_false_iff in R3. destruct R3 as (R3 & R3').
    unfold has_ext in R3'. split; [destruct (sb_ext b); [discriminate|reflexivity]|]. unfold is_internal in R6. destruct (sb_int b); [|reflexivity].
    rewrite R6 in Kv; [discriminate|congruence|reflexivity].
  - eapply ok_imp; [apply (deinit_all_ok (s_user x) true _ t1 s1 bk1 C1 So1 U1)|].
    { intros i I. apply in_seq in I. lia. }
    intros t2 s2 (bk2 & C2 & So2 & U2 & L2 & M2 & F2 & V2 & N2). apply (Fin t2 s2 bk2 C2); [congruence| |exact So2].
    intros j b Hj. apply (N2 j b Hj). apply in_seq. split; [lia|]. rewrite <- L2. simpl. apply nth_error_Some. congruence.
Qed.
End P.
