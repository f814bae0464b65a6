From Coq Require Import List Bool Arith Lia Permutation.
From Verif Require Import SumLib RwPoolModel RwPoolSpec.
Import ListNotations.

Notation hold := (option nat * nat * nat)%type.
Notation hb := (fun e : hold => snd (fst e)).

(** * Requests *)
Lemma writes_app b l1 l2 : writes b (l1 ++ l2) = writes b l1 ++ writes b l2.
Proof. apply filter_app. Qed.
Lemma writes_in b l r : In r (writes b l) <-> In r l /\ q_write r = true /\ q_bid r = b.
Proof. unfold writes. rewrite filter_In, andb_true_iff, Nat.eqb_eq. tauto. Qed.
Lemma drop_in l q r : In r (drop_req l q) <-> In r l /\ q_id r <> q.
Proof. unfold drop_req. rewrite filter_In, negb_true_iff, Nat.eqb_neq. tauto. Qed.
Lemma filter_comm {A} (f g : A -> bool) l : filter f (filter g l) = filter g (filter f l).
Proof.
  induction l as [|x l IH]; [reflexivity|]. simpl. destruct (g x) eqn:G, (f x) eqn:F; simpl; rewrite ?G, ?F, IH; reflexivity.
Qed.
Lemma filter_all {A} (f : A -> bool) l : (forall x, In x l -> f x = true) -> filter f l = l.
Proof.
  induction l as [|x l IH]; intro H; [reflexivity|]. simpl. rewrite (H x) by (left; reflexivity). rewrite IH; [reflexivity|].
  intros y Hy. apply H. right. exact Hy.
Qed.
Lemma writes_filter_other b l (kp : req -> bool) : (forall r, In r l -> kp r = false -> q_bid r <> b \/ q_write r = false) ->
  writes b (filter kp l) = writes b l.
Proof.
  intro H. unfold writes. rewrite filter_comm. apply filter_all. intros r Hr. apply (writes_in b l r) in Hr.
  destruct Hr as (H1 & H2 & H3). destruct (kp r) eqn:K; [reflexivity|]. destruct (H r H1 K); congruence.
Qed.
Lemma id_unique l r r' : NoDup (map q_id l) -> In r l -> In r' l -> q_id r = q_id r' -> r = r'.
Proof.
  induction l as [|x l IH]; [intros _ []|]. simpl. intros H [->|Hr] [->|Hr'] E; inversion H; subst; auto.
  - exfalso. apply H2. rewrite E. apply in_map. exact Hr'.
  - exfalso. apply H2. rewrite <- E. apply in_map. exact Hr.
Qed.
Lemma map_filter_nodup {A B} (f : A -> B) (g : A -> bool) l : NoDup (map f l) -> NoDup (map f (filter g l)).
Proof.
  induction l as [|x l IH]; simpl; intro H; [constructor|]. inversion H; subst. destruct (g x); simpl; auto.
  constructor; auto. intro Hin. apply H2. apply in_map_iff in Hin. destruct Hin as (y & E & Hy). apply filter_In in Hy.
  apply in_map_iff. exists y. tauto.
Qed.
Lemma find_req_some l q r : find_req l q = Some r -> In r l /\ q_id r = q.
Proof. intro H. apply find_some in H. rewrite Nat.eqb_eq in H. exact H. Qed.
Lemma find_req_none l q : find_req l q = None -> forall r, In r l -> q_id r <> q.
Proof. intros H r Hr E. apply (find_none _ _ H) in Hr. apply Nat.eqb_neq in Hr. congruence. Qed.

(** * The invariant, over the parts of the state *)
Section INV.
Variable V : Type.

Fixpoint bids (l : list hold) : list nat :=
  match l with [] => [] | (Some b, _, _) :: t => b :: bids t | (None, _, _) :: t => bids t end.
Lemma bids_app l1 l2 : bids (l1 ++ l2) = bids l1 ++ bids l2.
Proof. induction l1 as [|[[[b|] x] q] l1 IH]; simpl; congruence. Qed.
Lemma bids_perm l1 l2 : Permutation l1 l2 -> Permutation (bids l1) (bids l2).
Proof.
  induction 1 as [|[[o x] q] l l' H IH|[[o x] q] [[o' x'] q'] l|l1 l2 l3 H1 IH1 H2 IH2]; simpl.
  - constructor.
  - destruct o; [constructor|]; exact IH.
  - destruct o, o'; try apply Permutation_refl. constructor.
  - etransitivity; eauto.
Qed.
Lemma bids_in l b : In b (bids l) <-> exists x q, In (Some b, x, q) l.
Proof.
  induction l as [|[[[c|] x] q] l IH]; simpl.
  - split; [intros []|intros (x & q & [])].
  - rewrite IH. split.
    + intros [->|(y & p & H)]; [exists x, q; auto|exists y, p; auto].
    + intros (y & p & [H|H]); [left; congruence|right; exists y, p; exact H].
  - rewrite IH. split; intros (y & p & H); exists y, p; [right; exact H|destruct H as [H|H]; [discriminate|exact H]].
Qed.

Definition okh (L : nat -> V) (pe : list req) (co : nat -> V) (b x q : nat) : Prop :=
  (exists ws r, writes b pe = ws ++ [r] /\ q_id r = q /\ q_buf r = x /\ co x = L b) \/
  (writes b pe = [] /\ exists r, In r pe /\ q_id r = q /\ q_write r = false /\ q_buf r = x /\ q_bid r = b) \/
  (writes b pe = [] /\ (forall r, In r pe -> q_id r <> q) /\ co x = L b).

Record INV (L : nat -> V) (fr : list nat) (hd : list hold) (pe : list req) (di co : nat -> V) (nr nb : nat) : Prop := mkINV {
  n_buf : NoDup (fr ++ map hb hd);
  n_new : forall x, In x (fr ++ map hb hd) -> x < nb;
  n_id : NoDup (map q_id pe);
  n_idn : forall r, In r pe -> q_id r < nr;
  n_q : NoDup (map snd hd);
  n_hn : forall o x q, In (o, x, q) hd -> q < nr;
  n_own : forall r, In r pe -> exists o, In (o, q_buf r, q_id r) hd /\ (o = None \/ o = Some (q_bid r));
  n_bids : NoDup (bids hd);
  n_ok : forall b x q, In (Some b, x, q) hd -> okh L pe co b x q;
  n_disk : forall b, writes b pe = [] -> di b = L b;
  n_last : forall b, writes b pe <> [] -> exists x q, In (Some b, x, q) hd }.

Lemma inv_perm L fr fr' hd hd' pe di co nr nb : INV L fr hd pe di co nr nb ->
  Permutation fr fr' -> Permutation hd hd' -> INV L fr' hd' pe di co nr nb.
Proof.
  intros I Pf Ph. assert (P : Permutation (fr ++ map hb hd) (fr' ++ map hb hd')).
  { apply Permutation_app; [exact Pf|apply Permutation_map; exact Ph]. }
  assert (Hin : forall e, In e hd' <-> In e hd) by (intro e; split; apply Permutation_in; [symmetry|]; exact Ph).
  constructor; try apply I.
  - apply (Permutation_NoDup P), I.
  - intros x Hx. apply (n_new _ _ _ _ _ _ _ _ I). apply (Permutation_in x (Permutation_sym P) Hx).
  - apply (Permutation_NoDup (Permutation_map snd Ph)), I.
  - intros o x q H. apply Hin in H. apply (n_hn _ _ _ _ _ _ _ _ I _ _ _ H).
  - intros r Hr. destruct (n_own _ _ _ _ _ _ _ _ I r Hr) as (o & H1 & H2). exists o. rewrite Hin. auto.
  - apply (Permutation_NoDup (bids_perm _ _ Ph)), I.
  - intros b x q H. apply Hin in H. apply (n_ok _ _ _ _ _ _ _ _ I _ _ _ H).
  - intros b Hb. destruct (n_last _ _ _ _ _ _ _ _ I b Hb) as (x & q & H). exists x, q. apply Hin. exact H.
Qed.

(** holders of the same buffer are the same *)
Lemma hold_unique fr (hd : list hold) : NoDup (fr ++ map hb hd) -> forall o x q o' q', In (o, x, q) hd -> In (o', x, q') hd -> o = o' /\ q = q'.
Proof.
  intros ND o x q o' q' H1 H2.
  assert (N : NoDup (map hb hd)). { revert ND. induction fr as [|y fr IH]; [auto|]. simpl. intro H. inversion H; auto. }
  clear ND. induction hd as [|e hd IH]; [destruct H1|]. simpl in N. inversion N as [|? ? N1 N2]; subst.
  destruct H1 as [->|H1], H2 as [H2|H2].
  - injection H2 as <- <-. auto.
  - exfalso. apply N1. apply in_map_iff. exists (o', x, q'). auto.
  - exfalso. subst e. apply N1. apply in_map_iff. exists (o, x, q). auto.
  - apply IH; auto.
Qed.

Lemma qid_unique (hd : list hold) : NoDup (map snd hd) -> forall o x q o' x', In (o, x, q) hd -> In (o', x', q) hd -> x = x'.
Proof.
  intros N o x q o' x' H1 H2. induction hd as [|e hd IH]; [destruct H1|]. simpl in N. inversion N as [|? ? N1 N2]; subst.
  destruct H1 as [->|H1], H2 as [H2|H2].
  - injection H2 as _ <-. reflexivity.
  - exfalso. apply N1. apply in_map_iff. exists (o', x', q). auto.
  - exfalso. subst e. apply N1. apply in_map_iff. exists (o, x, q). auto.
  - apply IH; auto.
Qed.

Lemma own_hold L fr hd pe di co nr nb r o q : INV L fr hd pe di co nr nb -> In r pe -> In (o, q_buf r, q) hd ->
  q = q_id r /\ (o = None \/ o = Some (q_bid r)).
Proof.
  intros I Hr H. destruct (n_own _ _ _ _ _ _ _ _ I r Hr) as (o' & H1 & H2).
  destruct (hold_unique fr hd (n_buf _ _ _ _ _ _ _ _ I) _ _ _ _ _ H H1) as (-> & ->). auto.
Qed.

Lemma start_id q r : q_id (if Nat.eqb (q_id r) q then mk_req (q_id r) (q_write r) (q_buf r) (q_bid r) true else r) = q_id r.
Proof. destruct (Nat.eqb _ _); reflexivity. Qed.

Lemma start_inv L fr hd pe di co nr nb q : INV L fr hd pe di co nr nb -> INV L fr hd (start_req pe q) di co nr nb.
Proof.
  intro I. unfold start_req.
  set (f := fun r => if Nat.eqb (q_id r) q then mk_req (q_id r) (q_write r) (q_buf r) (q_bid r) true else r).
  assert (F : forall r, q_id (f r) = q_id r /\ q_write (f r) = q_write r /\ q_buf (f r) = q_buf r /\ q_bid (f r) = q_bid r).
  { intro r. unfold f. destruct (Nat.eqb _ _); auto. }
  assert (W : forall b l, writes b (map f l) = map f (writes b l)).
  { intros b l. induction l as [|r l IH]; [reflexivity|]. simpl. destruct (F r) as (_ & -> & _ & ->).
    destruct (q_write r && (q_bid r =? b)); simpl; rewrite IH; reflexivity. }
  assert (W0 : forall b, writes b (map f pe) = [] <-> writes b pe = []).
  { intro b. rewrite W. destruct (writes b pe); simpl; split; congruence. }
  constructor; try apply I.
  - rewrite map_map. rewrite (map_ext (fun x => q_id (f x)) q_id) by (intro r; apply F). apply I.
  - intros r Hr. apply in_map_iff in Hr. destruct Hr as (r' & <- & Hr'). destruct (F r') as (-> & _). apply (n_idn _ _ _ _ _ _ _ _ I r' Hr').
  - intros r Hr. apply in_map_iff in Hr. destruct Hr as (r' & <- & Hr'). destruct (F r') as (-> & _ & -> & ->). apply (n_own _ _ _ _ _ _ _ _ I r' Hr').
  - intros b x p H. destruct (n_ok _ _ _ _ _ _ _ _ I b x p H) as [(ws & r & H1 & H2 & H3 & H4)|[(H1 & r & H2 & H3 & H4 & H5 & H6)|(H1 & H2 & H3)]].
    + left. exists (map f ws), (f r). rewrite W, H1, map_app. destruct (F r) as (-> & _ & -> & _). auto.
    + right; left. split; [apply W0; exact H1|]. exists (f r). destruct (F r) as (-> & -> & -> & ->). split; [apply in_map; exact H2|auto].
    + right; right. split; [apply W0; exact H1|]. split; [|exact H3]. intros r Hr. apply in_map_iff in Hr.
      destruct Hr as (r' & <- & Hr'). destruct (F r') as (-> & _). auto.
  - intros b Hb. apply I. apply W0. exact Hb.
  - intros b Hb. apply I. intro H. apply Hb. apply W0. exact H.
Qed.

Lemma writes_drop_other b pe q r : NoDup (map q_id pe) -> In r pe -> q_id r = q -> (q_bid r <> b \/ q_write r = false) ->
  writes b (drop_req pe q) = writes b pe.
Proof.
  intros ND Hr Hq H. unfold drop_req. apply writes_filter_other. intros r' Hr' K. apply negb_false_iff, Nat.eqb_eq in K.
  rewrite (id_unique pe r' r ND Hr' Hr); [exact H|congruence].
Qed.

Lemma finish_write_inv L fr hd pe di co nr nb r : INV L fr hd pe di co nr nb -> In r pe -> q_write r = true ->
  first_write pe r = true -> INV L fr hd (drop_req pe (q_id r)) (upd di (q_bid r) (co (q_buf r))) co nr nb.
Proof.
  intros I Hr Hw Hf. pose proof (n_id _ _ _ _ _ _ _ _ I) as ND.
  unfold first_write in Hf. destruct (writes (q_bid r) pe) as [|r0 ws] eqn:W; [discriminate|].
  apply Nat.eqb_eq in Hf.
  assert (In r0 pe) as Hr0. { apply (proj1 (proj1 (writes_in (q_bid r) pe r0) ltac:(rewrite W; left; reflexivity))). }
  assert (r0 = r) as -> by (apply (id_unique pe); auto).
  assert (Wb : writes (q_bid r) (drop_req pe (q_id r)) = ws).
  { unfold writes, drop_req. rewrite filter_comm. fold (writes (q_bid r) pe). rewrite W. simpl. rewrite Nat.eqb_refl. simpl.
    apply filter_all. intros x Hx. apply negb_true_iff, Nat.eqb_neq. intro E.
    assert (In x pe) as Hxp. { apply (proj1 (proj1 (writes_in (q_bid r) pe x) ltac:(rewrite W; right; exact Hx))). }
    assert (x = r) as -> by (apply (id_unique pe); auto).
    assert (N : NoDup (map q_id (writes (q_bid r) pe))) by (apply map_filter_nodup; exact ND).
    rewrite W in N. simpl in N. inversion N; subst. apply H1. apply in_map. exact Hx. }
  assert (Wo : forall b, b <> q_bid r -> writes b (drop_req pe (q_id r)) = writes b pe).
  { intros b Hb. apply (writes_drop_other b pe (q_id r) r ND Hr eq_refl). left. congruence. }
  destruct (n_last _ _ _ _ _ _ _ _ I (q_bid r)) as (x & q & Hx); [rewrite W; discriminate|].
  assert (OK : exists ws' r', r :: ws = ws' ++ [r'] /\ q_id r' = q /\ q_buf r' = x /\ co x = L (q_bid r)).
  { destruct (n_ok _ _ _ _ _ _ _ _ I _ _ _ Hx) as [(ws' & r' & H1 & H2 & H3 & H4)|[(H1 & _)|(H1 & _)]]; [|congruence..].
    rewrite W in H1. exists ws', r'. auto. }
  destruct OK as (ws' & r' & E1 & E2 & E3 & E4).
  constructor; try apply I.
  - apply map_filter_nodup. exact ND.
  - intros y Hy. apply drop_in in Hy. apply (n_idn _ _ _ _ _ _ _ _ I y), Hy.
  - intros y Hy. apply drop_in in Hy. apply (n_own _ _ _ _ _ _ _ _ I y), Hy.
  - intros b y p Hh. destruct (Nat.eq_dec b (q_bid r)) as [->|Hb].
    + assert (y = x /\ p = q) as (-> & ->).
      { destruct (n_ok _ _ _ _ _ _ _ _ I _ _ _ Hh) as [(ws2 & r2 & H1 & H2 & H3 & H4)|[(H1 & _)|(H1 & _)]]; [|congruence..].
        rewrite W, E1 in H1. apply app_inj_tail in H1. destruct H1 as (_ & <-). split; congruence. }
      destruct ws' as [|a ws'].
      * injection E1 as <- ->. right; right. rewrite Wb. split; [reflexivity|]. split; [|exact E4].
        intros y Hy. apply drop_in in Hy. rewrite <- E2. apply Hy.
      * injection E1 as <- ->. left. exists ws', r'. rewrite Wb. auto.
    + destruct (n_ok _ _ _ _ _ _ _ _ I _ _ _ Hh) as [(ws2 & r2 & H1 & H2 & H3 & H4)|[(H1 & r2 & H2 & H3 & H4 & H5 & H6)|(H1 & H2 & H3)]].
      * left. exists ws2, r2. rewrite Wo by auto. auto.
      * right; left. rewrite Wo by auto. split; [exact H1|]. exists r2. split; [|auto]. apply drop_in. split; [exact H2|].
        intro E. rewrite (id_unique pe r2 r ND H2 Hr E) in H4. congruence.
      * right; right. rewrite Wo by auto. split; [exact H1|]. split; [|exact H3]. intros z Hz. apply drop_in in Hz. apply H2, Hz.
  - intros b Hb. destruct (Nat.eq_dec b (q_bid r)) as [->|Hn].
    + rewrite upd_same. rewrite Wb in Hb. rewrite Hb in E1. destruct ws' as [|a [|a' ws']]; simpl in E1; try discriminate.
      injection E1 as <-. rewrite E3. exact E4.
    + rewrite upd_other by exact Hn. rewrite Wo in Hb by exact Hn. apply I. exact Hb.
  - intros b Hb. apply I. intro H. apply Hb. destruct (Nat.eq_dec b (q_bid r)) as [->|Hn]; [congruence|]. rewrite Wo; auto.
Qed.

Lemma finish_read_inv L fr hd pe di co nr nb r : INV L fr hd pe di co nr nb -> In r pe -> q_write r = false ->
  INV L fr hd (drop_req pe (q_id r)) di (upd co (q_buf r) (di (q_bid r))) nr nb.
Proof.
  intros I Hr Hw. pose proof (n_id _ _ _ _ _ _ _ _ I) as ND.
  assert (Wo : forall b, writes b (drop_req pe (q_id r)) = writes b pe).
  { intros b. apply (writes_drop_other b pe (q_id r) r ND Hr eq_refl). right. exact Hw. }
  constructor; try apply I.
  - apply map_filter_nodup. exact ND.
  - intros y Hy. apply drop_in in Hy. apply (n_idn _ _ _ _ _ _ _ _ I y), Hy.
  - intros y Hy. apply drop_in in Hy. apply (n_own _ _ _ _ _ _ _ _ I y), Hy.
  - intros b x q Hh. pose proof (n_ok _ _ _ _ _ _ _ _ I _ _ _ Hh) as OK.
    destruct (Nat.eq_dec x (q_buf r)) as [->|Hx].
    + destruct (own_hold _ _ _ _ _ _ _ _ r _ _ I Hr Hh) as (-> & [C|C]); [discriminate|]. injection C as ->.
      destruct OK as [(ws2 & r2 & H1 & H2 & H3 & H4)|[(H1 & r2 & H2 & H3 & H4 & H5 & H6)|(H1 & H2 & H3)]].
      * exfalso. assert (In r2 (writes (q_bid r) pe)) as Hr2 by (rewrite H1; apply in_app_iff; right; left; reflexivity).
        apply writes_in in Hr2. rewrite (id_unique pe r2 r ND) in Hr2; [destruct Hr2 as (_ & Hr2 & _); congruence|apply Hr2|exact Hr|exact H2].
      * right; right. rewrite Wo. split; [exact H1|]. split; [|rewrite upd_same; apply I; exact H1].
        intros y Hy. apply drop_in in Hy. apply Hy.
      * exfalso. apply (H2 r Hr). reflexivity.
    + destruct OK as [(ws2 & r2 & H1 & H2 & H3 & H4)|[(H1 & r2 & H2 & H3 & H4 & H5 & H6)|(H1 & H2 & H3)]].
      * left. exists ws2, r2. rewrite Wo, upd_other by exact Hx. auto.
      * right; left. rewrite Wo. split; [exact H1|]. exists r2. split; [|auto]. apply drop_in. split; [exact H2|].
        intro E. rewrite (id_unique pe r2 r ND H2 Hr E) in H5. congruence.
      * right; right. rewrite Wo, upd_other by exact Hx. split; [exact H1|]. split; [|exact H3]. intros y Hy. apply drop_in in Hy. apply H2, Hy.
  - intros b Hb. rewrite Wo in Hb. apply I. exact Hb.
  - intros b Hb. rewrite Wo in Hb. apply I. exact Hb.
Qed.

(** cancelling a request whose holder promises nothing *)
Lemma drop_stale_inv L fr hd pe di co nr nb x q : INV L fr hd pe di co nr nb -> In (None, x, q) hd ->
  INV L fr hd (drop_req pe q) di co nr nb.
Proof.
  intros I Hh. pose proof (n_id _ _ _ _ _ _ _ _ I) as ND.
  assert (Hx : forall r, In r pe -> q_id r = q -> q_buf r = x).
  { intros r Hr E. destruct (n_own _ _ _ _ _ _ _ _ I r Hr) as (o & H1 & _). rewrite E in H1.
    apply (qid_unique hd (n_q _ _ _ _ _ _ _ _ I) _ _ _ _ _ H1 Hh). }
  assert (IN : forall r, In r (drop_req pe q) -> In r pe) by (intros r Hr; apply drop_in in Hr; apply Hr).
  assert (WE : forall b, writes b (drop_req pe q) = drop_req (writes b pe) q).
  { intro b. unfold writes, drop_req. apply filter_comm. }
  assert (WL : forall b ws r, writes b pe = ws ++ [r] -> writes b (drop_req pe q) = drop_req ws q ++ [r]).
  { intros b ws r E. rewrite WE, E. unfold drop_req. rewrite filter_app. simpl.
    destruct (Nat.eqb_spec (q_id r) q) as [Eq|Nq]; [|reflexivity]. exfalso.
    assert (In r (writes b pe)) as Hr by (rewrite E; apply in_app_iff; right; left; reflexivity).
    apply writes_in in Hr. destruct Hr as (Hr & Hr2 & Hr3).
    destruct (n_last _ _ _ _ _ _ _ _ I b) as (y & p & Hy); [rewrite E; intro C; apply app_eq_nil in C; destruct C; discriminate|].
    destruct (n_ok _ _ _ _ _ _ _ _ I _ _ _ Hy) as [(ws2 & r2 & H1 & H2 & H3 & H4)|[(H1 & _)|(H1 & _)]];
      [|rewrite E in H1; apply app_eq_nil in H1; destruct H1; discriminate..].
    rewrite E in H1. apply app_inj_tail in H1. destruct H1 as (_ & <-).
    rewrite <- (Hx r Hr Eq) in Hh. rewrite <- H3 in Hy.
    destruct (hold_unique fr hd (n_buf _ _ _ _ _ _ _ _ I) _ _ _ _ _ Hy Hh) as (C & _). discriminate. }
  assert (WN : forall b, writes b (drop_req pe q) = [] <-> writes b pe = []).
  { intro b. destruct (writes b pe) as [|r0 ws0] eqn:E using rev_ind.
    - rewrite WE, E. simpl. tauto.
    - rewrite (WL b ws0 r0 E). split; intro C; apply app_eq_nil in C; destruct C; discriminate. }
  constructor; try apply I.
  - apply map_filter_nodup. exact ND.
  - intros y Hy. apply (n_idn _ _ _ _ _ _ _ _ I y), IN, Hy.
  - intros y Hy. apply (n_own _ _ _ _ _ _ _ _ I y), IN, Hy.
  - intros b y p Hy. destruct (n_ok _ _ _ _ _ _ _ _ I _ _ _ Hy) as [(ws2 & r2 & H1 & H2 & H3 & H4)|[(H1 & r2 & H2 & H3 & H4 & H5 & H6)|(H1 & H2 & H3)]].
    + left. exists (drop_req ws2 q), r2. rewrite (WL b ws2 r2 H1). auto.
    + right; left. split; [apply WN; exact H1|]. exists r2. split; [|auto]. apply drop_in. split; [exact H2|].
      intro E. rewrite (Hx r2 H2 E) in H5. subst y.
      destruct (hold_unique fr hd (n_buf _ _ _ _ _ _ _ _ I) _ _ _ _ _ Hy Hh) as (C & _). discriminate.
    + right; right. split; [apply WN; exact H1|]. auto.
  - intros b Hb. apply I. apply WN. exact Hb.
  - intros b Hb. apply I. intro C. apply Hb. apply WN. exact C.
Qed.

(** a holder whose block has no pending write may give up its promise *)
Lemma stale_inv L fr hd pe di co nr nb b x q : INV L fr ((Some b, x, q) :: hd) pe di co nr nb -> writes b pe = [] ->
  INV L fr ((None, x, q) :: hd) pe di co nr nb.
Proof.
  intros I Hb. constructor; try apply I.
  - intros o y p [E|H]; [injection E as <- <- <-; apply (n_hn _ _ _ _ _ _ _ _ I (Some b) x q); left; reflexivity|].
    apply (n_hn _ _ _ _ _ _ _ _ I o y p). right. exact H.
  - intros r Hr. destruct (n_own _ _ _ _ _ _ _ _ I r Hr) as (o & [E|H1] & H2).
    + injection E as <- E1 E2. exists None. split; [left; congruence|auto].
    + exists o. split; [right; exact H1|exact H2].
  - pose proof (n_bids _ _ _ _ _ _ _ _ I) as N. simpl in *. inversion N; assumption.
  - intros c y p [E|H]; [discriminate|]. apply (n_ok _ _ _ _ _ _ _ _ I). right. exact H.
  - intros c Hc. destruct (n_last _ _ _ _ _ _ _ _ I c Hc) as (y & p & [E|H]); [congruence|]. exists y, p. right. exact H.
Qed.

(** a finished request's holder becomes free *)
Lemma release_inv L fr hd pe di co nr nb o x q : INV L fr ((o, x, q) :: hd) pe di co nr nb -> (forall r, In r pe -> q_id r <> q) ->
  INV L (x :: fr) hd pe di co nr nb.
Proof.
  intros I Hq.
  assert (P : Permutation (fr ++ x :: map hb hd) ((x :: fr) ++ map hb hd)) by (symmetry; apply Permutation_middle).
  constructor; try apply I.
  - apply (Permutation_NoDup P), I.
  - intros y Hy. apply (n_new _ _ _ _ _ _ _ _ I). apply (Permutation_in y (Permutation_sym P) Hy).
  - pose proof (n_q _ _ _ _ _ _ _ _ I) as N. simpl in N. inversion N; assumption.
  - intros o' y p H. apply (n_hn _ _ _ _ _ _ _ _ I o' y p). right. exact H.
  - intros r Hr. destruct (n_own _ _ _ _ _ _ _ _ I r Hr) as (o' & [E|H1] & H2); [|exists o'; auto].
    exfalso. injection E as _ _ E. apply (Hq r Hr). congruence.
  - pose proof (n_bids _ _ _ _ _ _ _ _ I) as N. simpl in N. destruct o; [inversion N; assumption|exact N].
  - intros c y p H. apply (n_ok _ _ _ _ _ _ _ _ I). right. exact H.
  - intros c Hc. destruct (n_last _ _ _ _ _ _ _ _ I c Hc) as (y & p & [E|H]); [|exists y, p; exact H].
    exfalso. injection E as -> -> ->. 
    destruct (n_ok _ _ _ _ _ _ _ _ I c y p ltac:(left; reflexivity)) as [(ws2 & r2 & H1 & H2 & H3 & H4)|[(H1 & _)|(H1 & _)]]; [|congruence..].
    apply (Hq r2); [|exact H2]. assert (In r2 (writes c pe)) as Hr by (rewrite H1; apply in_app_iff; right; left; reflexivity).
    apply writes_in in Hr. apply Hr.
Qed.

(** issue a read of a block nobody holds *)
Lemma issue_read_inv L fr hd pe di co nr nb x b : INV L (x :: fr) hd pe di co nr nb -> ~ In b (bids hd) ->
  INV L fr ((Some b, x, nr) :: hd) (pe ++ [mk_req nr false x b false]) di co (S nr) nb.
Proof.
  intros I Hb.
  assert (P : Permutation ((x :: fr) ++ map hb hd) (fr ++ x :: map hb hd)) by apply Permutation_middle.
  assert (W : forall c, writes c (pe ++ [mk_req nr false x b false]) = writes c pe) by (intro c; rewrite writes_app; apply app_nil_r).
  assert (Wb : writes b pe = []).
  { destruct (writes b pe) eqn:E; [reflexivity|]. exfalso. apply Hb. apply bids_in. apply (n_last _ _ _ _ _ _ _ _ I). congruence. }
  constructor.
  - apply (Permutation_NoDup P), I.
  - intros y Hy. apply (n_new _ _ _ _ _ _ _ _ I). apply (Permutation_in y (Permutation_sym P) Hy).
  - rewrite map_app. apply (Permutation_NoDup (Permutation_app_comm [nr] _)). simpl. constructor; [|apply I].
    intro H. apply in_map_iff in H. destruct H as (r & E & Hr). apply (n_idn _ _ _ _ _ _ _ _ I) in Hr. lia.
  - intros r Hr. apply in_app_iff in Hr. destruct Hr as [Hr|[<-|[]]]; [apply (n_idn _ _ _ _ _ _ _ _ I) in Hr; lia|simpl; lia].
  - simpl. constructor; [|apply I]. intro H. apply in_map_iff in H. destruct H as ([[o y] p] & E & H). simpl in E. subst p.
    apply (n_hn _ _ _ _ _ _ _ _ I) in H. lia.
  - intros o y p [E|H]; [injection E as _ _ <-; lia|]. apply (n_hn _ _ _ _ _ _ _ _ I) in H. lia.
  - intros r Hr. apply in_app_iff in Hr. destruct Hr as [Hr|[<-|[]]].
    + destruct (n_own _ _ _ _ _ _ _ _ I r Hr) as (o & H1 & H2). exists o. split; [right; exact H1|exact H2].
    + exists (Some b). simpl. auto.
  - simpl. constructor; [exact Hb|apply I].
  - intros c y p [E|H].
    + injection E as <- <- <-. right; left. rewrite W. split; [exact Wb|]. eexists. split; [apply in_app_iff; right; left; reflexivity|]. auto.
    + pose proof (n_hn _ _ _ _ _ _ _ _ I _ _ _ H) as Hp.
      destruct (n_ok _ _ _ _ _ _ _ _ I _ _ _ H) as [(ws2 & r2 & H1 & H2 & H3 & H4)|[(H1 & r2 & H2 & H3 & H4 & H5 & H6)|(H1 & H2 & H3)]].
      * left. exists ws2, r2. rewrite W. auto.
      * right; left. rewrite W. split; [exact H1|]. exists r2. split; [apply in_app_iff; left; exact H2|auto].
      * right; right. rewrite W. split; [exact H1|]. split; [|exact H3]. intros r Hr. apply in_app_iff in Hr.
        destruct Hr as [Hr|[<-|[]]]; [auto|]. simpl. lia.
  - intros c Hc. rewrite W in Hc. apply I. exact Hc.
  - intros c Hc. rewrite W in Hc. destruct (n_last _ _ _ _ _ _ _ _ I c Hc) as (y & p & H). exists y, p. right. exact H.
Qed.

Lemma mark_buf b (e : hold) : hb (mark_stale b e) = hb e.
Proof. destruct e as [[o x] q]. reflexivity. Qed.
Lemma mark_in b (hd : list hold) o x q : In (o, x, q) (map (mark_stale b) hd) <->
  (o <> Some b /\ In (o, x, q) hd) \/ (o = None /\ In (Some b, x, q) hd).
Proof.
  rewrite in_map_iff. split.
  - intros ([[o' x'] q'] & E & H). unfold mark_stale in E. injection E as <- <- <-.
    destruct o' as [c|]; simpl.
    + destruct (Nat.eqb_spec c b) as [->|Hn]; [right; auto|left; split; [congruence|exact H]].
    + left. split; [discriminate|exact H].
  - intros [(H1 & H2)|(-> & H2)].
    + exists (o, x, q). split; [|exact H2]. unfold mark_stale. destruct o as [c|]; simpl; [|reflexivity].
      destruct (Nat.eqb_spec c b); [congruence|reflexivity].
    + exists (Some b, x, q). split; [|exact H2]. unfold mark_stale. simpl. rewrite Nat.eqb_refl. reflexivity.
Qed.
Lemma mark_bids b hd : bids (map (mark_stale b) hd) = filter (fun c => negb (Nat.eqb c b)) (bids hd).
Proof.
  induction hd as [|[[[c|] x] q] hd IH]; simpl; [reflexivity| |exact IH].
  destruct (Nat.eqb c b); simpl; rewrite IH; reflexivity.
Qed.

(** a new write of b: older holders of b lose their promise, some of their requests may have been cancelled *)
Lemma issue_write_inv L fr hd pe di co nr nb x b (kp : req -> bool) : INV L (x :: fr) hd pe di co nr nb ->
  (forall r, In r pe -> kp r = false -> exists y, In (Some b, y, q_id r) hd) ->
  INV (upd L b (co x)) fr (map (mark_stale b) hd ++ [(Some b, x, nr)])
      (filter kp pe ++ [mk_req nr true x b false]) di co (S nr) nb.
Proof.
  intros I K. pose proof (n_id _ _ _ _ _ _ _ _ I) as ND.
  assert (P : Permutation ((x :: fr) ++ map hb hd) (fr ++ map hb (map (mark_stale b) hd ++ [(Some b, x, nr)]))).
  { rewrite map_app, map_map. rewrite (map_ext (fun e => hb (mark_stale b e)) hb) by apply mark_buf.
    rewrite app_assoc. simpl. apply Permutation_cons_append. }
  assert (KB : forall r, In r pe -> kp r = false -> q_bid r = b).
  { intros r Hr Hk. destruct (K r Hr Hk) as (y & Hy).
    destruct (n_ok _ _ _ _ _ _ _ _ I _ _ _ Hy) as [(ws2 & r2 & H1 & H2 & H3 & H4)|[(H1 & r2 & H2 & H3 & H4 & H5 & H6)|(H1 & H2 & H3)]].
    - assert (In r2 (writes b pe)) as Hr2 by (rewrite H1; apply in_app_iff; right; left; reflexivity).
      apply writes_in in Hr2. destruct Hr2 as (A1 & A2 & A3). rewrite (id_unique pe r r2 ND Hr A1); congruence.
    - rewrite (id_unique pe r r2 ND Hr H2); congruence.
    - exfalso. apply (H2 r Hr). reflexivity. }
  assert (Wo : forall c, c <> b -> writes c (filter kp pe ++ [mk_req nr true x b false]) = writes c pe).
  { intros c Hc. rewrite writes_app. unfold writes at 2. simpl. destruct (Nat.eqb_spec b c); [congruence|]. rewrite app_nil_r.
    apply writes_filter_other. intros r Hr Hk. left. rewrite (KB r Hr Hk). auto. }
  assert (Wb : writes b (filter kp pe ++ [mk_req nr true x b false]) = writes b (filter kp pe) ++ [mk_req nr true x b false]).
  { rewrite writes_app. unfold writes at 3. simpl. rewrite Nat.eqb_refl. reflexivity. }
  constructor.
  - apply (Permutation_NoDup P), I.
  - intros y Hy. apply (n_new _ _ _ _ _ _ _ _ I). apply (Permutation_in y (Permutation_sym P) Hy).
  - rewrite map_app. apply (Permutation_NoDup (Permutation_app_comm [nr] _)). simpl. constructor; [|apply map_filter_nodup, ND].
    intro H. apply in_map_iff in H. destruct H as (r & E & Hr). apply filter_In in Hr. destruct Hr as (Hr & _).
    apply (n_idn _ _ _ _ _ _ _ _ I) in Hr. lia.
  - intros r Hr. apply in_app_iff in Hr. destruct Hr as [Hr|[<-|[]]]; [|simpl; lia]. apply filter_In in Hr. destruct Hr as (Hr & _).
    apply (n_idn _ _ _ _ _ _ _ _ I) in Hr. lia.
  - rewrite map_app, map_map. rewrite (map_ext (fun e => snd (mark_stale b e)) snd) by (intros [[o y] p]; reflexivity).
    apply (Permutation_NoDup (Permutation_app_comm [nr] _)). simpl. constructor; [|apply I].
    intro H. apply in_map_iff in H. destruct H as ([[o y] p] & E & H). simpl in E. subst p.
    apply (n_hn _ _ _ _ _ _ _ _ I) in H. lia.
  - intros o y p H. apply in_app_iff in H. destruct H as [H|[E|[]]]; [|injection E as _ _ <-; lia].
    apply mark_in in H. destruct H as [(_ & H)|(_ & H)]; apply (n_hn _ _ _ _ _ _ _ _ I) in H; lia.
  - intros r Hr. apply in_app_iff in Hr. destruct Hr as [Hr|[<-|[]]].
    + apply filter_In in Hr. destruct Hr as (Hr & _). destruct (n_own _ _ _ _ _ _ _ _ I r Hr) as (o & H1 & H2).
      destruct H2 as [-> | ->].
      * exists None. split; [|auto]. apply in_app_iff. left. apply mark_in. left. split; [discriminate|exact H1].
      * destruct (Nat.eq_dec (q_bid r) b) as [E|E].
        -- exists None. split; [|auto]. apply in_app_iff. left. apply mark_in. right. split; [reflexivity|congruence].
        -- exists (Some (q_bid r)). split; [|auto]. apply in_app_iff. left. apply mark_in. left. split; [congruence|exact H1].
    + exists (Some b). split; [|auto]. apply in_app_iff. right. left. reflexivity.
  - rewrite bids_app. simpl. apply (Permutation_NoDup (Permutation_app_comm [b] _)). simpl. rewrite mark_bids. constructor.
    + rewrite filter_In, Nat.eqb_refl. intros (_ & C). discriminate.
    + apply NoDup_filter, I.
  - intros c y p H. apply in_app_iff in H. destruct H as [H|[E|[]]].
    + apply mark_in in H. destruct H as [(Hc & H)|(C & _)]; [|discriminate]. assert (c <> b) as Hcb by congruence.
      pose proof (n_hn _ _ _ _ _ _ _ _ I _ _ _ H) as Hp.
      destruct (n_ok _ _ _ _ _ _ _ _ I _ _ _ H) as [(ws2 & r2 & H1 & H2 & H3 & H4)|[(H1 & r2 & H2 & H3 & H4 & H5 & H6)|(H1 & H2 & H3)]].
      * left. exists ws2, r2. rewrite Wo, upd_other by exact Hcb. auto.
      * right; left. rewrite Wo by exact Hcb. split; [exact H1|]. exists r2. split; [|auto]. apply in_app_iff. left. apply filter_In.
        split; [exact H2|]. destruct (kp r2) eqn:Hk; [reflexivity|]. exfalso. apply Hcb. rewrite <- H6. apply KB; auto.
      * right; right. rewrite Wo, upd_other by exact Hcb. split; [exact H1|]. split; [|exact H3].
        intros r Hr. apply in_app_iff in Hr. destruct Hr as [Hr|[<-|[]]]; [apply filter_In in Hr; apply H2, Hr|simpl; lia].
    + injection E as <- <- <-. left. exists (writes b (filter kp pe)), (mk_req nr true x b false). rewrite upd_same. auto.
  - intros c Hc. destruct (Nat.eq_dec c b) as [->|Hn].
    + rewrite Wb in Hc. apply app_eq_nil in Hc. destruct Hc; discriminate.
    + rewrite Wo in Hc by exact Hn. rewrite upd_other by exact Hn. apply I. exact Hc.
  - intros c Hc. destruct (Nat.eq_dec c b) as [->|Hn].
    + exists x, nr. apply in_app_iff. right. left. reflexivity.
    + rewrite Wo in Hc by exact Hn. destruct (n_last _ _ _ _ _ _ _ _ I c Hc) as (y & p & H). exists y, p.
      apply in_app_iff. left. apply mark_in. left. split; [congruence|exact H].
Qed.

Lemma fill_inv L fr hd pe di co nr nb x v : INV L fr hd pe di co nr nb -> In x fr -> INV L fr hd pe di (upd co x v) nr nb.
Proof.
  intros I Hx. constructor; try apply I. intros b y q H.
  assert (y <> x).
  { intros ->. pose proof (n_buf _ _ _ _ _ _ _ _ I) as N. apply in_split in Hx. destruct Hx as (f1 & f2 & ->).
    rewrite <- app_assoc in N. simpl in N. apply NoDup_remove_2 in N. apply N. rewrite app_assoc. apply in_app_iff. right.
    apply in_map_iff. exists (Some b, x, q). auto. }
  pose proof (n_ok _ _ _ _ _ _ _ _ I b y q H) as OK. unfold okh in *. rewrite upd_other by auto. exact OK.
Qed.
Lemma new_inv L fr hd pe di co nr nb : INV L fr hd pe di co nr nb -> INV L (nb :: fr) hd pe di co nr (S nb).
Proof.
  intros I. constructor; try apply I.
  - simpl. constructor; [|apply I]. intro H. apply (n_new _ _ _ _ _ _ _ _ I) in H. lia.
  - intros x [<-|H]; [lia|]. apply (n_new _ _ _ _ _ _ _ _ I) in H. lia.
Qed.
Lemma delete_inv L x fr hd pe di co nr nb : INV L (x :: fr) hd pe di co nr nb -> INV L fr hd pe di co nr nb.
Proof.
  intros I. constructor; try apply I.
  - pose proof (n_buf _ _ _ _ _ _ _ _ I) as N. inversion N; assumption.
  - intros y H. apply (n_new _ _ _ _ _ _ _ _ I). right. exact H.
Qed.
End INV.

(** * The invariant of a state *)
Definition dec_hold : forall e e' : hold, {e = e'} + {e <> e'}.
Proof. repeat decide equality. Qed.

Fixpoint uheld (u : list (nat * option (nat * nat))) : list hold :=
  match u with
  | [] => []
  | (x, Some (q, b)) :: t => (Some b, x, q) :: uheld t
  | (_, None) :: t => uheld t
  end.
Fixpoint ufree (u : list (nat * option (nat * nat))) : list nat :=
  match u with
  | [] => []
  | (x, None) :: t => x :: ufree t
  | _ :: t => ufree t
  end.
Definition ph (e : nat * nat * nat) : hold := match e with (b, x, q) => (Some b, x, q) end.
Notation pheld := (map ph).

Lemma uheld_perm u u' : Permutation u u' -> Permutation (uheld u) (uheld u').
Proof.
  induction 1 as [|[x [[q b]|]] l l' H IH|[x [[q b]|]] [x' [[q' b']|]] l|l1 l2 l3 H1 IH1 H2 IH2]; simpl; auto.
  - constructor.
  - etransitivity; eauto.
Qed.
Lemma ufree_perm u u' : Permutation u u' -> Permutation (ufree u) (ufree u').
Proof.
  induction 1 as [|[x [[q b]|]] l l' H IH|[x [[q b]|]] [x' [[q' b']|]] l|l1 l2 l3 H1 IH1 H2 IH2]; simpl; auto.
  - constructor.
  - etransitivity; eauto.
Qed.
Lemma u_take_perm x u o u' : u_take x u = Some (o, u') -> Permutation u ((x, o) :: u').
Proof.
  revert u'. induction u as [|[y p] u IH]; intros u' H; [discriminate|]. simpl in H.
  destruct (Nat.eqb_spec y x) as [->|Hn].
  - injection H as <- <-. apply Permutation_refl.
  - destruct (u_take x u) as [[p' t]|]; [|discriminate]. injection H as <- <-.
    rewrite (IH t eq_refl). constructor.
Qed.
Lemma take_bid_perm b l y q t : take_bid b l = Some (y, q, t) -> Permutation l ((Some b, y, q) :: t).
Proof.
  revert t. induction l as [|[[o x] p] l IH]; intros t H; [discriminate|]. simpl in H.
  destruct (is_bid b o) eqn:E.
  - injection H as <- <- <-. destruct o as [c|]; [|discriminate]. apply Nat.eqb_eq in E. subst c. apply Permutation_refl.
  - destruct (take_bid b l) as [[[y' q'] t']|]; [|discriminate]. injection H as <- <- <-.
    rewrite (IH t' eq_refl). constructor.
Qed.
Lemma take_bid_none b l : take_bid b l = None -> ~ In b (bids l).
Proof.
  induction l as [|[[o x] p] l IH]; intro H; [intros []|]. simpl in H.
  destruct (is_bid b o) eqn:E; [discriminate|]. destruct (take_bid b l) as [[[y' q'] t']|]; [discriminate|].
  destruct o as [c|]; simpl; [|auto]. apply Nat.eqb_neq in E. intros [C|C]; [congruence|]. apply IH; auto.
Qed.
Lemma p_take_perm b l y q t : p_take b l = Some (y, q, t) -> Permutation (pheld l) ((Some b, y, q) :: pheld t).
Proof.
  revert t. induction l as [|[[c x] p] l IH]; intros t H; [discriminate|]. simpl in H.
  destruct (Nat.eqb_spec c b) as [->|E].
  - injection H as <- <- <-. apply Permutation_refl.
  - destruct (p_take b l) as [[[y' q'] t']|]; [|discriminate]. injection H as <- <- <-.
    simpl. rewrite (IH t' eq_refl). constructor.
Qed.
Lemma p_take_none b l : p_take b l = None -> ~ In b (bids (pheld l)).
Proof.
  induction l as [|[[c x] p] l IH]; intro H; [intros []|]. simpl in H.
  destruct (Nat.eqb_spec c b) as [->|E]; [discriminate|]. destruct (p_take b l) as [[[y' q'] t']|]; [discriminate|].
  simpl. intros [C|C]; [congruence|]. apply IH; auto.
Qed.
Lemma mark_id b l : ~ In b (bids l) -> map (mark_stale b) l = l.
Proof.
  induction l as [|[[[c|] x] p] l IH]; intro H; simpl in *; [reflexivity| |rewrite IH; auto].
  destruct (Nat.eqb_spec c b) as [->|E]; [exfalso; auto|]. rewrite IH; auto.
Qed.

Section STATE.
Variable V : Type.
Notation state := (state V).
Implicit Types st : state.
Implicit Types L : nat -> V.

Definition INVs L fr hd st : Prop := INV V L fr hd (pending st) (disk st) (cont st) (nreq st) (nbuf st).
Definition frs st : list nat := ufree (user st) ++ wfree st ++ pfree st.
Definition hds st : list hold := uheld (user st) ++ wbusy st ++ pheld (pbusy st).
Definition inv L st : Prop := INVs L (frs st) (hds st) st /\ psize st = length (pfree st).

Definition frame st st' : Prop :=
  wfree st' = wfree st /\ wbusy st' = wbusy st /\ pfree st' = pfree st /\ psize st' = psize st /\
  pbusy st' = pbusy st /\ user st' = user st /\ nbuf st' = nbuf st /\ nreq st' = nreq st.
Lemma frame_refl st : frame st st. Proof. repeat split. Qed.
Lemma frame_trans st st1 st2 : frame st st1 -> frame st1 st2 -> frame st st2.
Proof. unfold frame. intros (?&?&?&?&?&?&?&?) (?&?&?&?&?&?&?&?). repeat split; congruence. Qed.

Lemma serve_inv L fr hd st e st' : INVs L fr hd st -> serve st e = Some st' ->
  INVs L fr hd st' /\ frame st st' /\ (forall x, In x fr -> cont st' x = cont st x).
Proof.
  intros I H. destruct e as [q|q]; simpl in H.
  - injection H as <-. split; [|split; [repeat split|auto]]. apply start_inv. exact I.
  - destruct (find_req (pending st) q) as [r|] eqn:F; [|discriminate]. apply find_req_some in F. destruct F as (Hr & <-).
    destruct (q_write r) eqn:W.
    + destruct (first_write (pending st) r) eqn:Fw; [|discriminate]. injection H as <-.
      split; [|split; [repeat split|auto]]. apply finish_write_inv; auto.
    + injection H as <-. split; [|split; [repeat split|]].
      * apply finish_read_inv; auto.
      * intros x Hx. simpl. apply upd_other. intros ->.
        destruct (n_own _ _ _ _ _ _ _ _ _ I r Hr) as (o & H1 & _).
        pose proof (n_buf _ _ _ _ _ _ _ _ _ I) as N. apply in_split in Hx. destruct Hx as (f1 & f2 & ->).
        rewrite <- app_assoc in N. simpl in N. apply NoDup_remove_2 in N. apply N. rewrite app_assoc. apply in_app_iff. right.
        apply in_map_iff. exists (o, q_buf r, q_id r). auto.
Qed.
Lemma serves_inv L fr hd s st st' : INVs L fr hd st -> serves st s = Some st' ->
  INVs L fr hd st' /\ frame st st' /\ (forall x, In x fr -> cont st' x = cont st x).
Proof.
  revert st. induction s as [|e s IH]; intros st I H; simpl in H.
  - injection H as <-. split; [exact I|]. split; [apply frame_refl|auto].
  - destruct (serve st e) as [st1|] eqn:E; [|discriminate]. destruct (serve_inv L fr hd st e st1 I E) as (I1 & F1 & C1).
    destruct (IH st1 I1 H) as (I2 & F2 & C2). split; [exact I2|]. split; [eapply frame_trans; eauto|].
    intros x Hx. rewrite C2, C1; auto.
Qed.

Lemma not_pending st q : is_pending st q = false -> forall r, In r (pending st) -> q_id r <> q.
Proof.
  unfold is_pending. intros H r Hr E. assert (existsb (fun r => q_id r =? q) (pending st) = true) as C; [|congruence].
  apply existsb_exists. exists r. split; [exact Hr|]. apply Nat.eqb_eq. exact E.
Qed.
Lemma not_pending_iff st q : is_pending st q = false <-> forall r, In r (pending st) -> q_id r <> q.
Proof.
  split; [apply not_pending|]. intro H. unfold is_pending. destruct (existsb _ _) eqn:E; [|reflexivity].
  apply existsb_exists in E. destruct E as (r & Hr & E). apply Nat.eqb_eq in E. exfalso. apply (H r Hr E).
Qed.

(** the wait of prefetch_pool::invalidate *)
Lemma inval_core L fr o y q rest st s st2 b : INVs L fr ((o, y, q) :: rest) st -> (o = None \/ o = Some b) ->
  serves (if req_is_read st q then cancel st q else st) s = Some st2 -> is_pending st2 q = false ->
  INVs L (y :: fr) rest st2 /\ frame st st2.
Proof.
  intros I Ho Hs Hp.
  assert (S1 : exists o1, INVs L fr ((o1, y, q) :: rest) (if req_is_read st q then cancel st q else st) /\
                         frame st (if req_is_read st q then cancel st q else st)).
  { unfold req_is_read. destruct (find_req (pending st) q) as [r|] eqn:F; [|exists o; split; [exact I|apply frame_refl]].
    destruct (q_write r) eqn:W; simpl; [exists o; split; [exact I|apply frame_refl]|].
    assert (I1 : INVs L fr ((None, y, q) :: rest) st).
    { destruct Ho as [-> | ->]; [exact I|]. apply (stale_inv _ _ _ _ _ _ _ _ _ b _ _ I).
      apply find_req_some in F. destruct F as (Hr & <-).
      destruct (n_ok _ _ _ _ _ _ _ _ _ I b y (q_id r) ltac:(left; reflexivity)) as [(ws2 & r2 & H1 & H2 & H3 & H4)|[(H1 & _)|(H1 & _)]]; [|exact H1..].
      exfalso. assert (In r2 (writes b (pending st))) as Hr2 by (rewrite H1; apply in_app_iff; right; left; reflexivity).
      apply writes_in in Hr2. destruct Hr2 as (A1 & A2 & A3).
      rewrite (id_unique (pending st) r2 r (n_id _ _ _ _ _ _ _ _ _ I) A1 Hr H2) in A2. congruence. }
    exists None. unfold cancel. rewrite F. destruct (q_started r); [split; [exact I1|apply frame_refl]|].
    split; [|repeat split]. apply (drop_stale_inv _ _ _ _ _ _ _ _ _ y q I1). left. reflexivity. }
  destruct S1 as (o1 & I1 & F1).
  destruct (serves_inv L fr _ s _ st2 I1 Hs) as (I2 & F2 & _).
  split; [|eapply frame_trans; eauto]. apply (release_inv _ _ _ _ _ _ _ _ _ o1 y q I2). apply not_pending. exact Hp.
Qed.

Ltac permd dec := apply (proj2 (Permutation_count_occ dec _ _)); intro;
  repeat first [rewrite count_occ_app | progress (cbn [count_occ app])];
  repeat match goal with |- context [dec ?a ?b] => destruct (dec a b) end; lia.
Ltac permn := permd Nat.eq_dec.
Ltac permh := permd dec_hold.

Lemma nodup_cons_bids b y q l l' : NoDup (bids l) -> Permutation l ((Some b, y, q) :: l') -> ~ In b (bids l').
Proof. intros N P. apply bids_perm in P. apply (Permutation_NoDup P) in N. simpl in N. inversion N; assumption. Qed.

Lemma awaiting_bids st b : awaiting st b = false -> ~ In b (bids (uheld (user st))).
Proof.
  unfold awaiting. induction (user st) as [|[x [[q c]|]] u IH]; simpl; intro H; [tauto| |apply IH; exact H].
  apply orb_false_iff in H. destruct H as (H1 & H2). apply Nat.eqb_neq in H1. intros [C|C]; [congruence|]. apply IH; auto.
Qed.

(** prefetch_pool::hint *)
Lemma p_hint_inv L st b : inv L st -> ~ In b (bids (uheld (user st))) ->
  exists st', p_hint st b = Some st' /\ inv L st' /\ user st' = user st.
Proof.
  intros (I & Hz) Hu. unfold p_hint. destruct (p_take b (pbusy st)) as [[[y q] t]|] eqn:P; [exists st; split; [reflexivity|split; [split; assumption|reflexivity]]|].
  destruct (Nat.eqb_spec (psize st) 0) as [E|E]; [exists st; split; [reflexivity|split; [split; assumption|reflexivity]]|].
  unfold frs, hds in *. destruct (pfree st) as [|x f] eqn:Pf; [simpl in Hz; congruence|].
  pose proof (p_take_none _ _ P) as Pn.
  destruct (take_bid b (wbusy st)) as [[[y q] l]|] eqn:T.
  - eexists. split; [reflexivity|]. split; [|reflexivity]. split; simpl.
    + unfold frs, hds. simpl. pose proof (take_bid_perm _ _ _ _ _ T) as Pw.
      apply (inv_perm _ _ _ _ _ _ _ _ _ _ _ I).
      * permn.
      * rewrite Pw. permh.
    + simpl in Hz. rewrite Hz. reflexivity.
  - unfold issue. simpl. eexists. split; [reflexivity|]. split; [|reflexivity]. split; simpl; [|rewrite Hz; reflexivity].
    unfold frs, hds, INVs. simpl.
    assert (I1 : INVs L (x :: ufree (user st) ++ wfree st ++ f) (uheld (user st) ++ wbusy st ++ pheld (pbusy st)) st).
    { apply (inv_perm _ _ _ _ _ _ _ _ _ _ _ I); [permn|apply Permutation_refl]. }
    assert (Hb : ~ In b (bids (uheld (user st) ++ wbusy st ++ pheld (pbusy st)))).
    { rewrite !bids_app, !in_app_iff. pose proof (take_bid_none _ _ T). tauto. }
    pose proof (issue_read_inv _ _ _ _ _ _ _ _ _ x b I1 Hb) as I2.
    apply (inv_perm _ _ _ _ _ _ _ _ _ _ _ I2); [apply Permutation_refl|permh].
Qed.

Lemma cancel_stale_eq st l b : exists kp, cancel_stale st l b = set_io st (cont st) (disk st) (filter kp (pending st)) (nreq st) /\
  (forall r, In r (pending st) -> kp r = false -> exists o y, In (o, y, q_id r) l /\ is_bid b o = true).
Proof.
  revert st. induction l as [|[[o x] q] l IH]; intro st; simpl.
  - exists (fun _ => true). split; [|discriminate].
    assert (filter (fun _ => true) (pending st) = pending st) as -> by (apply filter_all; reflexivity). destruct st; reflexivity.
  - assert (C : exists kp, (if is_bid b o then cancel st q else st) = set_io st (cont st) (disk st) (filter kp (pending st)) (nreq st) /\
      (forall r, In r (pending st) -> kp r = false -> q_id r = q /\ is_bid b o = true)).
    { assert (TR : st = set_io st (cont st) (disk st) (filter (fun _ => true) (pending st)) (nreq st)).
      { assert (filter (fun _ => true) (pending st) = pending st) as -> by (apply filter_all; reflexivity). destruct st; reflexivity. }
      destruct (is_bid b o); [|exists (fun _ => true); split; [exact TR|discriminate]].
      unfold cancel. destruct (find_req (pending st) q) as [r|] eqn:F; [|exists (fun _ => true); split; [exact TR|discriminate]].
      destruct (q_started r); [exists (fun _ => true); split; [exact TR|discriminate]|].
      exists (fun r => negb (q_id r =? q)). split; [reflexivity|]. intros r' _ H. apply negb_false_iff, Nat.eqb_eq in H. auto. }
    destruct C as (kp & -> & C).
    destruct (IH (set_io st (cont st) (disk st) (filter kp (pending st)) (nreq st))) as (kp' & -> & C').
    exists (fun r => kp r && kp' r). simpl in *. split.
    + unfold set_io. simpl. f_equal. clear. induction (pending st) as [|r l IH]; [reflexivity|]. simpl.
      destruct (kp r); simpl; [destruct (kp' r); rewrite IH; reflexivity|exact IH].
    + intros r Hr K. destruct (kp r) eqn:K1.
      * simpl in K. destruct (C' r) as (o' & y & H1 & H2); [apply filter_In; auto|exact K|]. exists o', y. auto.
      * destruct (C r Hr K1) as (-> & H2). exists o, x. auto.
Qed.

(** write_pool::write: the prefetch pool's entry for b is now stale too *)
Lemma w_write_inv L st x b : INVs L (x :: frs st) (hds st) st -> ~ In b (bids (uheld (user st))) ->
  INVs (upd L b (cont st x)) (frs (w_write st x b))
       (uheld (user st) ++ wbusy (w_write st x b) ++ map (mark_stale b) (pheld (pbusy st))) (w_write st x b) /\
  pfree (w_write st x b) = pfree st /\ psize (w_write st x b) = psize st /\ pbusy (w_write st x b) = pbusy st /\
  user (w_write st x b) = user st.
Proof.
  intros I Hu. unfold w_write. destruct (cancel_stale_eq st (wbusy st) b) as (kp & -> & K). unfold frs, hds, INVs in *. simpl.
  split; [|auto].
  assert (I2 := issue_write_inv _ _ _ _ _ _ _ _ _ x b kp I).
  assert (forall r, In r (pending st) -> kp r = false -> exists y, In (Some b, y, q_id r) (uheld (user st) ++ wbusy st ++ pheld (pbusy st))) as H.
  { intros r Hr Hk. destruct (K r Hr Hk) as (o & y & H1 & H2). destruct o as [c|]; [|discriminate]. apply Nat.eqb_eq in H2. subst c.
    exists y. rewrite !in_app_iff. auto. }
  specialize (I2 H). apply (inv_perm _ _ _ _ _ _ _ _ _ _ _ I2); [apply Permutation_refl|].
  rewrite !map_app, (mark_id b (uheld (user st)) Hu). permh.
Qed.

Lemma p_invalidate_write L st b s st2 hit :
  INVs L (frs st) (uheld (user st) ++ wbusy st ++ map (mark_stale b) (pheld (pbusy st))) st -> NoDup (bids (pheld (pbusy st))) ->
  psize st = length (pfree st) -> p_invalidate st b s = Some (st2, hit) ->
  inv L st2 /\ user st2 = user st.
Proof.
  intros I N Hz H. unfold p_invalidate in H. destruct (p_take b (pbusy st)) as [[[x q] l]|] eqn:P.
  - destruct (serves _ s) as [st1|] eqn:Es; [|discriminate]. destruct (is_pending st1 q) eqn:Ep; [discriminate|].
    injection H as <- <-. pose proof (p_take_perm _ _ _ _ _ P) as Pp.
    pose proof (nodup_cons_bids _ _ _ _ _ N Pp) as Nl.
    assert (I1 : INVs L (frs st) ((None, x, q) :: uheld (user st) ++ wbusy st ++ pheld l) st).
    { apply (inv_perm _ _ _ _ _ _ _ _ _ _ _ I); [apply Permutation_refl|].
      apply (Permutation_map (mark_stale b)) in Pp. simpl in Pp. rewrite Nat.eqb_refl in Pp. rewrite (mark_id b _ Nl) in Pp.
      rewrite Pp. permh. }
    destruct (inval_core L _ None x q _ st s st1 b I1 (or_introl eq_refl) Es Ep) as (I2 & F).
    destruct F as (F1 & F2 & F3 & F4 & F5 & F6 & F7 & F8). split; [|exact F6]. split; simpl; [|rewrite F3, F4, Hz; reflexivity].
    unfold frs, hds, INVs in *. simpl. rewrite F1, F2, F3, F6. apply (inv_perm _ _ _ _ _ _ _ _ _ _ _ I2); [permn|apply Permutation_refl].
  - injection H as <- <-. split; [|reflexivity]. split; [|exact Hz]. unfold hds. rewrite (mark_id b) in I; [exact I|]. apply p_take_none. exact P.
Qed.

Lemma p_invalidate_inv L st b s st2 hit : inv L st -> p_invalidate st b s = Some (st2, hit) -> inv L st2.
Proof.
  intros (I & Hz) H. unfold p_invalidate in H. destruct (p_take b (pbusy st)) as [[[x q] l]|] eqn:P.
  - destruct (serves _ s) as [st1|] eqn:Es; [|discriminate]. destruct (is_pending st1 q) eqn:Ep; [discriminate|].
    injection H as <- <-. pose proof (p_take_perm _ _ _ _ _ P) as Pp.
    assert (I1 : INVs L (frs st) ((Some b, x, q) :: uheld (user st) ++ wbusy st ++ pheld l) st).
    { apply (inv_perm _ _ _ _ _ _ _ _ _ _ _ I); [apply Permutation_refl|]. unfold hds. rewrite Pp. permh. }
    destruct (inval_core L _ (Some b) x q _ st s st1 b I1 (or_intror eq_refl) Es Ep) as (I2 & F).
    destruct F as (F1 & F2 & F3 & F4 & F5 & F6 & F7 & F8). split; simpl; [|rewrite F3, F4, Hz; reflexivity].
    unfold frs, hds, INVs in *. simpl. rewrite F1, F2, F3, F6. apply (inv_perm _ _ _ _ _ _ _ _ _ _ _ I2); [permn|apply Permutation_refl].
  - injection H as <- <-. split; assumption.
Qed.

Lemma release_many L fr l hd st : INVs L fr (l ++ hd) st -> (forall e, In e l -> is_pending st (snd e) = false) ->
  INVs L (map hb l ++ fr) hd st.
Proof.
  revert fr. induction l as [|[[o x] q] l IH]; intros fr I H; [exact I|]. simpl.
  assert (I1 : INVs L (x :: fr) (l ++ hd) st).
  { apply (release_inv _ _ _ _ _ _ _ _ _ o x q I). apply not_pending. apply (H (o, x, q)). left. reflexivity. }
  apply IH in I1; [|intros e He; apply H; right; exact He].
  apply (inv_perm _ _ _ _ _ _ _ _ _ _ _ I1); [|apply Permutation_refl]. symmetry. apply Permutation_middle.
Qed.

Lemma filter_split {A} (f : A -> bool) l : Permutation l (filter (fun x => negb (f x)) l ++ filter f l).
Proof.
  induction l as [|x l IH]; [constructor|]. simpl. destruct (f x); simpl; [|constructor; exact IH].
  rewrite <- Permutation_middle. constructor. exact IH.
Qed.

Lemma remove_at_perm {A} n (l : list A) x t : remove_at n l = Some (x, t) -> Permutation l (x :: t).
Proof.
  revert n t. induction l as [|y l IH]; intros n t H; [destruct n; discriminate|]. destruct n as [|n]; simpl in H.
  - injection H as <- <-. apply Permutation_refl.
  - destruct (remove_at n l) as [[z t']|] eqn:E; [|discriminate]. injection H as <- <-. rewrite (IH n t' E). constructor.
Qed.

(** write_pool::steal: the stolen buffer is free *)
Lemma w_steal_inv L st s c st' x : inv L st -> w_steal st s c = SOk st' x ->
  INVs L (x :: frs st') (hds st') st' /\ psize st' = length (pfree st') /\ user st' = user st.
Proof.
  intros (I & Hz) H. unfold w_steal in H. destruct (wfree st) as [|y f] eqn:Wf.
  - assert (H' : match serves st s with None => SBlocked | Some st1 => match remove_at c (wbusy st1) with Some ((_, x, q), l) => if is_pending st1 q then SBlocked else SOk (check_all_busy (set_w st1 (wfree st1) l)) x | None => SBlocked end end = SOk st' x).
    { destruct (wbusy st); [discriminate|exact H]. }
    clear H. rename H' into H.
    destruct (serves st s) as [st1|] eqn:Es; [|discriminate].
    destruct (serves_inv L _ _ s st st1 I Es) as (I1 & (F1 & F2 & F3 & F4 & F5 & F6 & F7 & F8) & _).
    destruct (remove_at c (wbusy st1)) as [[[[o y] q] l]|] eqn:Er; [|discriminate].
    destruct (is_pending st1 q) eqn:Ep; [discriminate|]. injection H as <- <-.
    split; [|simpl; split; congruence]. apply remove_at_perm in Er.
    unfold frs, hds, check_all_busy, INVs in *. simpl.
    set (pd := fun e : hold => is_pending st1 (snd e)).
    set (dn := filter (fun e : hold => negb (pd e)) l).
    assert (I2 : INVs L (frs st) (((o, y, q) :: dn) ++ uheld (user st) ++ filter pd l ++ pheld (pbusy st)) st1).
    { apply (inv_perm _ _ _ _ _ _ _ _ _ _ _ I1); [apply Permutation_refl|]. 
      assert (PW : Permutation (wbusy st) ((o, y, q) :: dn ++ filter pd l)).
      { rewrite <- F2, Er. constructor. apply filter_split. }
      unfold hds. rewrite PW. permh. }
    apply release_many in I2.
    2:{ intros e [<-|He]; [exact Ep|]. apply filter_In in He. destruct He as (_ & He). unfold pd in He. apply negb_true_iff. exact He. }
    rewrite F6, F5. apply (inv_perm _ _ _ _ _ _ _ _ _ _ _ I2); [|apply Permutation_refl].
    unfold frs. simpl. change (fun e => negb (is_pending (set_w st1 (wfree st1) l) (snd e))) with (fun e : hold => negb (pd e)).
    change (fun e => is_pending (set_w st1 (wfree st1) l) (snd e)) with pd. fold dn. rewrite F1, F3.
    assert (Permutation (map hb (rev dn)) (map hb dn)) as -> by (apply Permutation_map; symmetry; apply Permutation_rev). permn.
  - injection H as <- <-. split; [|split; [exact Hz|reflexivity]]. unfold frs, hds, INVs in *. simpl. rewrite Wf in I.
    apply (inv_perm _ _ _ _ _ _ _ _ _ _ _ I); [permn|apply Permutation_refl].
Qed.

Lemma grow_w_inv L n st : inv L st -> inv L (grow_w st n).
Proof.
  revert st. induction n as [|n IH]; intros st (I & Hz); [split; assumption|]. simpl. apply IH. split; [|exact Hz].
  unfold frs, hds, INVs in *. simpl. apply new_inv in I. apply (inv_perm _ _ _ _ _ _ _ _ _ _ _ I); [permn|apply Permutation_refl].
Qed.
Lemma shrink_w_inv L n st s st' o : inv L st -> shrink_w st n s = Ok st' o -> inv L st' /\ o = [].
Proof.
  revert st. induction n as [|n IH]; intros st I H; simpl in H; [injection H as <- <-; auto|].
  destruct (w_steal st _ _) as [st1 x| |] eqn:E; try discriminate. destruct (w_steal_inv L st _ _ st1 x I E) as (I1 & Hz & _).
  apply (IH st1); [|exact H]. split; [|exact Hz]. apply (delete_inv _ _ x _ _ _ _ _ _ _ I1).
Qed.
Lemma grow_p_inv L n st : INVs L (frs st) (hds st) st ->
  INVs L (frs (grow_p st n)) (hds (grow_p st n)) (grow_p st n) /\ psize (grow_p st n) = psize st /\ length (pfree (grow_p st n)) = length (pfree st) + n.
Proof.
  revert st. induction n as [|n IH]; intros st I; [split; [exact I|]; split; [reflexivity|symmetry; apply Nat.add_0_r]|]. simpl.
  destruct (IH (set_nbuf (set_p st (nbuf st :: pfree st) (psize st) (pbusy st)) (S (nbuf st)))) as (H1 & H2 & H3).
  - unfold frs, hds, INVs in *. simpl. apply new_inv in I. apply (inv_perm _ _ _ _ _ _ _ _ _ _ _ I); [permn|apply Permutation_refl].
  - split; [exact H1|]. split; [exact H2|]. rewrite H3. simpl. lia.
Qed.
Lemma shrink_p_inv L n st : inv L st -> exists st', shrink_p st n = Ok st' [] /\ inv L st'.
Proof.
  revert st. induction n as [|n IH]; intros st I; simpl; [eauto|].
  destruct (Nat.eqb_spec (psize st) 0); [eauto|]. destruct I as (I & Hz). destruct (pfree st) as [|x f] eqn:Pf; [simpl in Hz; congruence|].
  apply IH. split; simpl; [|rewrite Hz; reflexivity]. unfold frs, hds, INVs in *. simpl. rewrite Pf in I. apply (delete_inv _ _ x).
  apply (inv_perm _ _ _ _ _ _ _ _ _ _ _ I); [permn|apply Permutation_refl].
Qed.

(** what a step does to the last written contents *)
Definition effect L (o : list (obs V)) L' : Prop :=
  (o = [] /\ L' = L) \/ (exists b v, o = [OWrote b v] /\ L' = upd L b v) \/ (exists b, o = [OGot b (L b)] /\ L' = L).

Lemma take_free_inv L st x u : inv L st -> u_take x (user st) = Some (None, u) ->
  INVs L (x :: frs (set_user st u)) (hds (set_user st u)) (set_user st u).
Proof.
  intros (I & Hz) H. apply u_take_perm in H. unfold frs, hds, INVs in *. simpl.
  pose proof (ufree_perm _ _ H) as P1. pose proof (uheld_perm _ _ H) as P2. simpl in P1, P2.
  apply (inv_perm _ _ _ _ _ _ _ _ _ _ _ I).
  - rewrite P1. apply Permutation_refl.
  - rewrite P2. apply Permutation_refl.
Qed.

Lemma u_take_in x u o u' : u_take x u = Some (o, u') -> In (x, o) u /\ incl u' u.
Proof.
  intro H. apply u_take_perm in H. split.
  - apply (Permutation_in _ (Permutation_sym H)). left. reflexivity.
  - intros e He. apply (Permutation_in _ (Permutation_sym H)). right. exact He.
Qed.

Lemma step_inv L st e st' o : inv L st -> step true st e = Ok st' o -> exists L', inv L' st' /\ effect L o L'.
Proof.
  intros I0 H. pose proof I0 as (I & Hz). destruct e as [e| |x v|x b s1 s2|x b|x|b|b s|s c|x|x| |n s|n]; simpl in H.
  - destruct (serve st e) as [st1|] eqn:E; [|discriminate]. injection H as <- <-. exists L. split; [|left; auto].
    destruct (serve_inv L _ _ st e st1 I E) as (I1 & (F1 & F2 & F3 & F4 & F5 & F6 & F7 & F8) & _).
    split; [|congruence]. unfold frs, hds in *. rewrite F1, F2, F3, F5, F6. exact I1.
  - injection H as <- <-. exists L. split; [|left; auto]. split; [|exact Hz]. unfold frs, hds, INVs in *. simpl.
    apply new_inv in I. exact I.
  - destruct (u_take x (user st)) as [[[p|] u]|] eqn:U; try discriminate. injection H as <- <-. exists L. split; [|left; auto].
    split; [|exact Hz]. apply (fill_inv _ _ _ _ _ _ _ _ _ _ _ I). unfold frs. apply in_app_iff. left.
    pose proof (ufree_perm _ _ (u_take_perm _ _ _ _ U)) as P. apply (Permutation_in _ (Permutation_sym P)). left. reflexivity.
  - destruct (awaiting st b) eqn:A; [discriminate|]. apply awaiting_bids in A.
    destruct (u_take x (user st)) as [[[p|] u]|] eqn:U; try discriminate.
    pose proof (take_free_inv L st x u I0 U) as I1.
    destruct (serves (set_user st u) s1) as [st1|] eqn:E1; [|discriminate].
    destruct (serves_inv L _ _ s1 _ st1 I1 E1) as (I2 & (F1 & F2 & F3 & F4 & F5 & F6 & F7 & F8) & Hc). simpl in F1, F2, F3, F4, F5, F6.
    specialize (Hc x (or_introl eq_refl)). simpl in Hc.
    assert (A1 : ~ In b (bids (uheld (user st1)))).
    { rewrite F6. intro C. apply A. pose proof (bids_perm _ _ (uheld_perm _ _ (u_take_perm _ _ _ _ U))) as P. simpl in P.
      apply (Permutation_in _ (Permutation_sym P)). exact C. }
    assert (I3 : INVs L (x :: frs st1) (hds st1) st1).
    { unfold frs, hds in *. rewrite F1, F2, F3, F5, F6. exact I2. }
    destruct (w_write_inv L st1 x b I3 A1) as (I4 & G1 & G2 & G3 & G4).
    destruct (p_invalidate (w_write st1 x b) b s2) as [[st2 hit]|] eqn:E2; [|discriminate].
    destruct (p_invalidate_write (upd L b (cont st1 x)) (w_write st1 x b) b s2 st2 hit) as (I5 & G5).
    + rewrite G4, G3. exact I4.
    + rewrite G3. pose proof (n_bids _ _ _ _ _ _ _ _ _ I3) as N. unfold hds in N. rewrite !bids_app in N.
      assert (AR : forall (l1 l2 : list nat), NoDup (l1 ++ l2) -> NoDup l2).
      { induction l1; simpl; intros l2 N0; [exact N0|]. inversion N0; auto. }
      apply AR in N. apply AR in N. exact N.
    + rewrite G1, G2, F3, F4. exact Hz.
    + exact E2.
    + exists (upd L b (cont st1 x)). rewrite Hc in *. destruct hit.
      * destruct (p_hint_inv (upd L b (cont st x)) st2 b I5) as (st3 & H3 & I6 & _); [rewrite G5, G4; exact A1|].
        rewrite H3 in H. injection H as <- <-. split; [exact I6|]. right; left. eauto.
      * injection H as <- <-. split; [exact I5|]. right; left. eauto.
  - destruct (awaiting st b) eqn:A; [discriminate|]. apply awaiting_bids in A.
    destruct (u_take x (user st)) as [[[p|] u]|] eqn:U; try discriminate.
    pose proof (take_free_inv L st x u I0 U) as I1.
    assert (A1 : ~ In b (bids (uheld u))).
    { intro C. apply A. pose proof (bids_perm _ _ (uheld_perm _ _ (u_take_perm _ _ _ _ U))) as P. simpl in P.
      apply (Permutation_in _ (Permutation_sym P)). exact C. }
    exists L. unfold p_read in H. simpl in H. unfold frs, hds, INVs in I1. simpl in I1.
    destruct (p_take b (pbusy st)) as [[[y q] l]|] eqn:P.
    + injection H as <- <-. split; [|left; auto]. split; simpl; [|congruence]. unfold frs, hds, INVs. simpl.
      apply p_take_perm in P. apply (inv_perm _ _ _ _ _ _ _ _ _ _ _ I1); [permn|]. rewrite P. permh.
    + destruct (take_bid b (wbusy st)) as [[[y q] l]|] eqn:T.
      * injection H as <- <-. split; [|left; auto]. split; simpl; [|congruence]. unfold frs, hds, INVs. simpl.
        apply take_bid_perm in T. apply (inv_perm _ _ _ _ _ _ _ _ _ _ _ I1); [permn|]. rewrite T. permh.
      * unfold issue in H. simpl in H. injection H as <- <-. split; [|left; auto]. split; simpl; [|congruence]. unfold frs, hds, INVs. simpl.
        apply (issue_read_inv _ _ _ _ _ _ _ _ _ x b I1). rewrite !bids_app, !in_app_iff.
        pose proof (take_bid_none _ _ T). pose proof (p_take_none _ _ P). tauto.
  - destruct (u_take x (user st)) as [[[[q b]|] u]|] eqn:U; try discriminate.
    destruct (is_pending st q) eqn:Ep; [discriminate|]. injection H as <- <-. exists L.
    pose proof (u_take_perm _ _ _ _ U) as Pu. pose proof (ufree_perm _ _ Pu) as P1. pose proof (uheld_perm _ _ Pu) as P2. simpl in P1, P2.
    assert (I1 : INVs L (ufree u ++ wfree st ++ pfree st) ((Some b, x, q) :: uheld u ++ wbusy st ++ pheld (pbusy st)) st).
    { apply (inv_perm _ _ _ _ _ _ _ _ _ _ _ I); unfold frs, hds; [rewrite P1|rewrite P2]; apply Permutation_refl. }
    split.
    + split; [|exact Hz]. unfold frs, hds, INVs. simpl. apply (release_inv _ _ _ _ _ _ _ _ _ (Some b) x q I1). apply not_pending. exact Ep.
    + right; right. exists b. split; [|reflexivity].
      destruct (n_ok _ _ _ _ _ _ _ _ _ I1 b x q ltac:(left; reflexivity)) as [(ws2 & r2 & H1 & H2 & H3 & H4)|[(H1 & r2 & H2 & H3 & _)|(H1 & H2 & H3)]].
      * rewrite H4. reflexivity.
      * exfalso. apply (not_pending st q Ep r2 H2 H3).
      * rewrite H3. reflexivity.
  - destruct (awaiting st b) eqn:A; [discriminate|]. apply awaiting_bids in A.
    destruct (p_hint_inv L st b I0 A) as (st1 & E & I1 & _). rewrite E in H. injection H as <- <-. exists L. split; [exact I1|left; auto].
  - destruct (awaiting st b) eqn:A; [discriminate|].
    destruct (p_invalidate st b s) as [[st1 hit]|] eqn:E; [|discriminate]. injection H as <- <-.
    exists L. split; [|left; auto]. apply (p_invalidate_inv L st b s st1 hit I0 E).
  - destruct (w_steal st s c) as [st1 x| |] eqn:E; try discriminate. injection H as <- <-.
    destruct (w_steal_inv L st s c st1 x I0 E) as (I1 & Hz1 & _). exists L. split; [|left; auto]. split; [|exact Hz1].
    exact I1.
  - destruct (u_take x (user st)) as [[[p|] u]|] eqn:U; try discriminate. injection H as <- <-.
    pose proof (take_free_inv L st x u I0 U) as I1. exists L. split; [|left; auto]. split; [|exact Hz].
    unfold frs, hds, INVs in *. simpl in *. apply (inv_perm _ _ _ _ _ _ _ _ _ _ _ I1); [permn|apply Permutation_refl].
  - destruct (u_take x (user st)) as [[[p|] u]|] eqn:U; try discriminate. injection H as <- <-.
    pose proof (take_free_inv L st x u I0 U) as I1. exists L. split; [|left; auto]. split; [|simpl; congruence].
    unfold frs, hds, INVs in *. simpl in *. apply (inv_perm _ _ _ _ _ _ _ _ _ _ _ I1); [permn|apply Permutation_refl].
  - destruct (pfree st) as [|x f] eqn:Pf; [discriminate|]. injection H as <- <-. exists L. split; [|left; auto].
    split; simpl; [|rewrite Hz; reflexivity]. unfold frs, hds, INVs in *. simpl. rewrite Pf in I.
    apply (inv_perm _ _ _ _ _ _ _ _ _ _ _ I); [permn|apply Permutation_refl].
  - destruct (Nat.leb (wsize st) n).
    + injection H as <- <-. exists L. split; [apply grow_w_inv; exact I0|left; auto].
    + destruct (shrink_w_inv L _ st s st' o I0 H) as (I1 & ->). exists L. split; [exact I1|left; auto].
  - destruct (Nat.leb (psz st) n).
    + injection H as <- <-. exists L. split; [|left; auto]. destruct (grow_p_inv L (n - psz st) st I) as (H1 & H2 & H3).
      split; simpl; [exact H1|]. rewrite H2, H3, Hz. reflexivity.
    + destruct (shrink_p_inv L (psz st - n) st I0) as (st1 & E & I1). rewrite E in H. injection H as <- <-.
      exists L. split; [exact I1|left; auto].
Qed.

Lemma init_inv (c d : nat -> V) np nw : inv d (init c d np nw).
Proof.
  split; [|simpl; rewrite seq_length; reflexivity]. unfold frs, hds, INVs. simpl. rewrite <- seq_app.
  constructor; simpl; try (intros; contradiction); try constructor.
  - rewrite app_nil_r. apply seq_NoDup.
  - intros x H. rewrite app_nil_r in H. apply in_seq in H. lia.
Qed.

Lemma run_inv es : forall L st st' o, inv L st -> run true st es = Some (st', o) -> consistent L o /\ exists L', inv L' st'.
Proof.
  induction es as [|e es IH]; intros L st st' o I H; simpl in H.
  - injection H as <- <-. split; [exact Logic.I|exists L; exact I].
  - destruct (step true st e) as [st1 o1| | |] eqn:E; try discriminate.
    destruct (run true st1 es) as [[st2 o2]|] eqn:R; [|discriminate]. injection H as <- <-.
    destruct (step_inv L st e st1 o1 I E) as (L1 & I1 & [(-> & ->)|[(b & v & -> & ->)|(b & -> & ->)]]); destruct (IH _ st1 st2 o2 I1 R) as (H1 & H2); simpl; auto.
Qed.
(** * Conservation of buffers *)
Notation pb := (map (fun e : nat * nat * nat => snd (fst e))).
Notation wb := (map (fun e : hold => snd (fst e))).

Lemma user_split (u : list (nat * option (nat * nat))) : Permutation (map fst u) (ufree u ++ wb (uheld u)).
Proof.
  induction u as [|[x [[q b]|]] u IH]; simpl; [constructor| |constructor; exact IH].
  rewrite <- Permutation_middle. constructor. exact IH.
Qed.
Lemma pheld_buf l : wb (pheld l) = pb l.
Proof. rewrite map_map. apply map_ext. intros [[b x] q]. reflexivity. Qed.
Lemma everywhere_perm st : Permutation (everywhere st) (frs st ++ wb (hds st)).
Proof.
  unfold everywhere, in_user, in_write_pool, in_prefetch_pool, frs, hds. rewrite !map_app, pheld_buf, user_split. permn.
Qed.

Lemma places_nodup L st : inv L st -> NoDup (everywhere st).
Proof. intros (I & _). apply (Permutation_NoDup (Permutation_sym (everywhere_perm st))), I. Qed.

Lemma ufree_in x u : In x (ufree u) <-> In (x, None) u.
Proof.
  induction u as [|[y [[q b]|]] u IH]; simpl; [tauto| |]; rewrite IH.
  - split; [auto|]. intros [H|H]; [discriminate|exact H].
  - split; intros [H|H]; auto; left; congruence.
Qed.

Lemma reusable_idle L st x r : inv L st -> reusable st x -> In r (pending st) -> q_buf r <> x.
Proof.
  intros (I & _) Hx Hr E. destruct (n_own _ _ _ _ _ _ _ _ _ I r Hr) as (o & H & _). rewrite E in H.
  assert (Hf : In x (frs st)).
  { unfold frs. rewrite !in_app_iff, ufree_in. unfold reusable in Hx. tauto. }
  pose proof (n_buf _ _ _ _ _ _ _ _ _ I) as N. apply in_split in Hf. destruct Hf as (f1 & f2 & Ef). rewrite Ef in N.
  rewrite <- app_assoc in N. simpl in N. apply NoDup_remove_2 in N. apply N. rewrite app_assoc. apply in_app_iff. right.
  apply in_map_iff. exists (o, x, q_id r). auto.
Qed.

Lemma serve_frame st e st' : serve st e = Some st' -> frame st st'.
Proof.
  destruct e as [q|q]; simpl; intro H; [injection H as <-; repeat split|].
  destruct (find_req _ _) as [r|]; [|discriminate]. destruct (q_write r); [destruct (first_write _ _); [|discriminate]|]; injection H as <-; repeat split.
Qed.
Lemma serves_frame s st st' : serves st s = Some st' -> frame st st'.
Proof.
  revert st. induction s as [|e s IH]; intros st H; simpl in H; [injection H as <-; apply frame_refl|].
  destruct (serve st e) as [st1|] eqn:E; [|discriminate]. eapply frame_trans; [exact (serve_frame _ _ _ E)|]. apply IH. exact H.
Qed.
Lemma cancel_frame st q : frame st (cancel st q).
Proof. unfold cancel. destruct (find_req _ _) as [r|]; [destruct (q_started r)|]; repeat split. Qed.

Ltac frm F := destruct F as (?F1 & ?F2 & ?F3 & ?F4 & ?F5 & ?F6 & ?F7 & ?F8).
Definition pools st : list nat := in_write_pool st ++ in_prefetch_pool st.

Lemma wmark_bufs b (l : list hold) : wb (map (mark_stale b) l) = wb l.
Proof. rewrite map_map. apply map_ext. intros [[o x] q]. reflexivity. Qed.

Lemma w_write_pools st x b : Permutation (pools (w_write st x b)) (x :: pools st) /\ user (w_write st x b) = user st.
Proof.
  unfold w_write. destruct (cancel_stale_eq st (wbusy st) b) as (kp & -> & _). unfold pools, in_write_pool, in_prefetch_pool. simpl.
  split; [|reflexivity]. rewrite map_app, wmark_bufs. simpl. permn.
Qed.
Lemma p_invalidate_pools st b s st' hit : p_invalidate st b s = Some (st', hit) -> Permutation (pools st') (pools st) /\ user st' = user st.
Proof.
  unfold p_invalidate. destruct (p_take b (pbusy st)) as [[[x q] l]|] eqn:P; intro H; [|injection H as <- <-; auto].
  destruct (serves _ s) as [st1|] eqn:Es; [|discriminate]. destruct (is_pending st1 q); [discriminate|]. injection H as <- <-.
  assert (F : frame st st1).
  { eapply frame_trans; [|exact (serves_frame _ _ _ Es)]. destruct (req_is_read st q); [apply cancel_frame|apply frame_refl]. }
  frm F. split; [|exact F6]. unfold pools, in_write_pool, in_prefetch_pool. simpl. rewrite F1, F2, F3.
  apply p_take_perm in P. apply (Permutation_map hb) in P. rewrite pheld_buf in P. simpl in P. rewrite pheld_buf in P. rewrite P. permn.
Qed.
Lemma take_bid_bufs b l y q t : take_bid b l = Some (y, q, t) -> Permutation (wb l) (y :: wb t).
Proof. intro H. apply take_bid_perm in H. apply (Permutation_map hb) in H. exact H. Qed.
Lemma p_take_bufs b l y q t : p_take b l = Some (y, q, t) -> Permutation (pb l) (y :: pb t).
Proof. intro H. apply p_take_perm in H. apply (Permutation_map hb) in H. rewrite pheld_buf in H. simpl in H. rewrite pheld_buf in H. exact H. Qed.
Lemma p_hint_pools st b st' : p_hint st b = Some st' -> Permutation (pools st') (pools st) /\ user st' = user st.
Proof.
  unfold p_hint. destruct (p_take b (pbusy st)); [intro H; injection H as <-; auto|]. destruct (psize st =? 0); [intro H; injection H as <-; auto|].
  destruct (pfree st) as [|x f] eqn:Pf; [discriminate|]. destruct (take_bid b (wbusy st)) as [[[y q] l]|] eqn:T; intro H.
  - injection H as <-. split; [|reflexivity]. unfold pools, in_write_pool, in_prefetch_pool. simpl. rewrite Pf, (take_bid_bufs _ _ _ _ _ T). permn.
  - simpl in H. injection H as <-. split; [|reflexivity]. unfold pools, in_write_pool, in_prefetch_pool. simpl. rewrite Pf. permn.
Qed.
Lemma w_steal_pools st s c st' x : w_steal st s c = SOk st' x -> Permutation (in_write_pool st) (x :: in_write_pool st') /\ in_prefetch_pool st' = in_prefetch_pool st /\ user st' = user st /\ psz st' = psz st.
Proof.
  unfold w_steal. destruct (wfree st) as [|y f] eqn:Wf.
  - intro H. assert (H' : match serves st s with None => SBlocked | Some st1 => match remove_at c (wbusy st1) with Some ((_, x, q), l) => if is_pending st1 q then SBlocked else SOk (check_all_busy (set_w st1 (wfree st1) l)) x | None => SBlocked end end = SOk st' x).
    { destruct (wbusy st); [discriminate|exact H]. }
    clear H. destruct (serves st s) as [st1|] eqn:Es; [|discriminate]. apply serves_frame in Es. frm Es.
    destruct (remove_at c (wbusy st1)) as [[[[o y] q] l]|] eqn:Er; [|discriminate]. destruct (is_pending st1 q); [discriminate|].
    injection H' as <- <-. apply remove_at_perm in Er. rewrite F2 in Er. split; [|split; [|split; [exact F6|]]].
    + unfold in_write_pool, check_all_busy. simpl. rewrite Wf, F1, Wf. 
      pose proof (Permutation_map hb Er) as Pw. simpl in Pw. rewrite Pw. 
      set (pd := fun e : hold => is_pending (set_w st1 [] l) (snd e)).
      pose proof (Permutation_map hb (filter_split pd l)) as Pl. rewrite map_app in Pl. rewrite Pl at 1. simpl. rewrite app_nil_r.
      rewrite map_rev. rewrite <- Permutation_rev. unfold pd. reflexivity.
    + unfold in_prefetch_pool. simpl. congruence.
    + unfold psz. simpl. congruence.
  - intro H. injection H as <- <-. split; [|auto]. unfold in_write_pool. simpl. rewrite Wf. reflexivity.
Qed.
Lemma u_take_map x u o u' : u_take x u = Some (o, u') -> Permutation (map fst u) (x :: map fst u').
Proof. intro H. apply u_take_perm in H. apply (Permutation_map fst) in H. exact H. Qed.

Lemma step_conserves k st e st' o : makes_buffers e = false -> step k st e = Ok st' o -> Permutation (everywhere st') (everywhere st).
Proof.
  assert (EV : forall s, everywhere s = map fst (user s) ++ pools s) by reflexivity.
  intros Hm H. rewrite !EV. destruct e as [e| |x v|x b s1 s2|x b|x|b|b s|s c|x|x| |n s|n]; simpl in Hm, H; try discriminate.
  - destruct (serve st e) as [st1|] eqn:E; [|discriminate]. injection H as <- <-. apply serve_frame in E. frm E.
    unfold pools, in_write_pool, in_prefetch_pool. rewrite F1, F2, F3, F5, F6. reflexivity.
  - destruct (u_take x (user st)) as [[[p|] u]|] eqn:U; try discriminate. injection H as <- <-. reflexivity.
  - destruct (k && awaiting st b); [discriminate|]. destruct (u_take x (user st)) as [[[p|] u]|] eqn:U; try discriminate.
    destruct (serves (set_user st u) s1) as [st1|] eqn:E1; [|discriminate]. apply serves_frame in E1. frm E1. simpl in *.
    destruct (w_write_pools st1 x b) as (P1 & U1).
    destruct (p_invalidate (w_write st1 x b) b s2) as [[st2 hit]|] eqn:E2; [|discriminate]. apply p_invalidate_pools in E2. destruct E2 as (P2 & U2).
    assert (P3 : Permutation (pools st') (pools st2) /\ user st' = user st2).
    { destruct hit; [destruct (p_hint st2 b) as [st3|] eqn:E3; [|discriminate]|]; injection H as <- <-; [apply p_hint_pools in E3; exact E3|auto]. }
    destruct P3 as (P3 & U3). rewrite U3, U2, U1, F6, P3, P2, P1, (u_take_map _ _ _ _ U).
    unfold pools, in_write_pool, in_prefetch_pool. rewrite F1, F2, F3, F5. permn.
  - destruct (k && awaiting st b); [discriminate|]. destruct (u_take x (user st)) as [[[p|] u]|] eqn:U; try discriminate.
    rewrite (u_take_map _ _ _ _ U). unfold p_read in H. simpl in H. destruct (p_take b (pbusy st)) as [[[y q] l]|] eqn:P.
    + injection H as <- <-. unfold pools, in_write_pool, in_prefetch_pool. simpl. rewrite (p_take_bufs _ _ _ _ _ P). permn.
    + destruct (take_bid b (wbusy st)) as [[[y q] l]|] eqn:T; injection H as <- <-; unfold pools, in_write_pool, in_prefetch_pool; simpl; [|permn].
      rewrite (take_bid_bufs _ _ _ _ _ T). permn.
  - destruct (u_take x (user st)) as [[[[q b]|] u]|] eqn:U; try discriminate. destruct (is_pending st q); [discriminate|]. injection H as <- <-.
    rewrite (u_take_map _ _ _ _ U). reflexivity.
  - destruct (k && awaiting st b); [discriminate|]. destruct (p_hint st b) as [st1|] eqn:E; [|discriminate]. injection H as <- <-.
    apply p_hint_pools in E. destruct E as (P & ->). rewrite P. reflexivity.
  - destruct (k && awaiting st b); [discriminate|]. destruct (p_invalidate st b s) as [[st1 hit]|] eqn:E; [|discriminate]. injection H as <- <-.
    apply p_invalidate_pools in E. destruct E as (P & ->). rewrite P. reflexivity.
  - destruct (w_steal st s c) as [st1 x| |] eqn:E; try discriminate. injection H as <- <-.
    apply w_steal_pools in E. destruct E as (P & P2 & U & _). unfold pools. rewrite P. simpl. rewrite U.
    change (in_write_pool (set_user st1 ((x, None) :: user st))) with (in_write_pool st1).
    change (in_prefetch_pool (set_user st1 ((x, None) :: user st))) with (in_prefetch_pool st1). rewrite P2. permn.
  - destruct (u_take x (user st)) as [[[p|] u]|] eqn:U; try discriminate. injection H as <- <-. rewrite (u_take_map _ _ _ _ U).
    unfold pools, in_write_pool, in_prefetch_pool. simpl. permn.
  - destruct (u_take x (user st)) as [[[p|] u]|] eqn:U; try discriminate. injection H as <- <-. rewrite (u_take_map _ _ _ _ U).
    unfold pools, in_write_pool, in_prefetch_pool. simpl. permn.
  - destruct (pfree st) as [|x f] eqn:Pf; [discriminate|]. injection H as <- <-. unfold pools, in_write_pool, in_prefetch_pool. simpl. rewrite Pf. permn.
Qed.

Lemma grow_w_len n st : length (in_write_pool (grow_w st n)) = length (in_write_pool st) + n /\ in_prefetch_pool (grow_w st n) = in_prefetch_pool st /\ user (grow_w st n) = user st.
Proof.
  revert st. induction n as [|n IH]; intro st; simpl; [rewrite Nat.add_0_r; auto|].
  destruct (IH (set_nbuf (w_add st (nbuf st)) (S (nbuf st)))) as (-> & -> & ->). split; [|auto]. unfold in_write_pool. simpl. lia.
Qed.
Lemma shrink_w_len n st s st' o : shrink_w st n s = Ok st' o -> length (in_write_pool st) = length (in_write_pool st') + n /\ in_prefetch_pool st' = in_prefetch_pool st /\ user st' = user st.
Proof.
  revert st. induction n as [|n IH]; intros st H; simpl in H; [injection H as <- <-; rewrite Nat.add_0_r; auto|].
  destruct (w_steal st _ _) as [st1 x| |] eqn:E; try discriminate. apply w_steal_pools in E. destruct E as (P & P2 & U & _).
  apply IH in H. destruct H as (H1 & H2 & H3). apply Permutation_length in P. simpl in P. split; [lia|]. split; congruence.
Qed.
Lemma wsize_len st : wsize st = length (in_write_pool st).
Proof. unfold wsize, in_write_pool. rewrite app_length, map_length. reflexivity. Qed.
Lemma resize_w_len k st n s st' o : step k st (ResizeW n s) = Ok st' o ->
  length (in_write_pool st') = n /\ in_prefetch_pool st' = in_prefetch_pool st /\ user st' = user st.
Proof.
  simpl. rewrite wsize_len. destruct (Nat.leb_spec (length (in_write_pool st)) n) as [Hn|Hn]; intro H.
  - injection H as <- <-. destruct (grow_w_len (n - length (in_write_pool st)) st) as (-> & H2 & H3). split; [lia|auto].
  - apply shrink_w_len in H. destruct H as (H1 & H2 & H3). split; [lia|auto].
Qed.
Lemma grow_p_frame n st : wfree (grow_p st n) = wfree st /\ wbusy (grow_p st n) = wbusy st /\ pbusy (grow_p st n) = pbusy st /\ user (grow_p st n) = user st.
Proof. revert st. induction n as [|n IH]; intro st; simpl; [auto|]. destruct (IH (set_nbuf (set_p st (nbuf st :: pfree st) (psize st) (pbusy st)) (S (nbuf st)))) as (-> & -> & -> & ->). auto. Qed.
Lemma shrink_p_len n st st' o : psize st = length (pfree st) -> shrink_p st n = Ok st' o -> length (pfree st') = length (pfree st) - n /\ pbusy st' = pbusy st /\ wfree st' = wfree st /\ wbusy st' = wbusy st /\ user st' = user st.
Proof.
  revert st. induction n as [|n IH]; intros st Hz H; simpl in H; [injection H as <- <-; rewrite Nat.sub_0_r; auto|].
  destruct (Nat.eqb_spec (psize st) 0) as [E|E]; [injection H as <- <-; split; [lia|auto]|].
  destruct (pfree st) as [|x f] eqn:Pf; [discriminate|]. apply IH in H; [|simpl; rewrite Hz; reflexivity]. simpl in H.
  destruct H as (H1 & H2). split; [simpl; lia|exact H2].
Qed.
Lemma resize_p_len k L st n st' o : inv L st -> step k st (ResizeP n) = Ok st' o ->
  length (in_prefetch_pool st') = Nat.max n (length (pbusy st)) /\ in_write_pool st' = in_write_pool st /\ user st' = user st.
Proof.
  intros (I & Hz) H. simpl in H. unfold psz in H. unfold in_prefetch_pool, in_write_pool. rewrite app_length, map_length.
  destruct (Nat.leb_spec (psize st + length (pbusy st)) n) as [Hn|Hn].
  - injection H as <- <-. destruct (grow_p_inv L (n - (psize st + length (pbusy st))) st I) as (_ & _ & H3).
    destruct (grow_p_frame (n - (psize st + length (pbusy st))) st) as (G1 & G2 & G3 & G4). simpl. rewrite G1, G2, G3, G4, H3.
    split; [lia|auto].
  - apply shrink_p_len in H; [|exact Hz]. destruct H as (H1 & -> & -> & -> & ->). split; [lia|auto].
Qed.

(** * No operation fails except an explicit steal from an empty pool *)
Lemma shrink_w_nofail n st s : n <= length (in_write_pool st) -> shrink_w st n s <> Fail.
Proof.
  revert st. induction n as [|n IH]; intros st Hn; simpl; [discriminate|].
  destruct (w_steal st (fst (s (S n))) (snd (s (S n)))) as [st1 x| |] eqn:E; [|discriminate|].
  - apply IH. apply w_steal_pools in E. destruct E as (P & _). apply Permutation_length in P. simpl in P. lia.
  - exfalso. unfold w_steal in E. unfold in_write_pool in Hn. destruct (wfree st); [|discriminate]. destruct (wbusy st); [simpl in Hn; lia|].
    destruct (serves st _) as [st1|]; [|discriminate]. destruct (remove_at _ _) as [[[[? ?] ?] ?]|]; [|discriminate]. destruct (is_pending _ _); discriminate.
Qed.
Lemma step_fail L st e : inv L st -> step true st e = Fail ->
  (exists s c, e = Steal s c /\ in_write_pool st = []) \/ (e = StealPrefetch /\ pfree st = []).
Proof.
  intros I0 H. pose proof I0 as (I & Hz). destruct e as [e| |x v|x b s1 s2|x b|x|b|b s|s c|x|x| |n s|n]; simpl in H; try discriminate.
  - destruct (serve st e); discriminate.
  - destruct (u_take x (user st)) as [[[p|] u]|]; discriminate.
  - exfalso. destruct (awaiting st b) eqn:A; [discriminate|]. apply awaiting_bids in A.
    destruct (u_take x (user st)) as [[[p|] u]|] eqn:U; try discriminate.
    pose proof (take_free_inv L st x u I0 U) as I1.
    destruct (serves (set_user st u) s1) as [st1|] eqn:E1; [|discriminate].
    destruct (serves_inv L _ _ s1 _ st1 I1 E1) as (I2 & F & _). frm F. simpl in F1, F2, F3, F4, F5, F6.
    assert (A1 : ~ In b (bids (uheld (user st1)))).
    { rewrite F6. intro C. apply A. pose proof (bids_perm _ _ (uheld_perm _ _ (u_take_perm _ _ _ _ U))) as P. simpl in P.
      apply (Permutation_in _ (Permutation_sym P)). exact C. }
    assert (I3 : INVs L (x :: frs st1) (hds st1) st1).
    { unfold frs, hds in *. rewrite F1, F2, F3, F5, F6. exact I2. }
    destruct (w_write_inv L st1 x b I3 A1) as (I4 & G1 & G2 & G3 & G4).
    destruct (p_invalidate (w_write st1 x b) b s2) as [[st2 hit]|] eqn:E2; [|discriminate].
    destruct (p_invalidate_write (upd L b (cont st1 x)) (w_write st1 x b) b s2 st2 hit) as (I5 & G5).
    + rewrite G4, G3. exact I4.
    + rewrite G3. pose proof (n_bids _ _ _ _ _ _ _ _ _ I3) as N. unfold hds in N. rewrite !bids_app in N.
      assert (AR : forall (l1 l2 : list nat), NoDup (l1 ++ l2) -> NoDup l2).
      { induction l1; simpl; intros l2 N0; [exact N0|]. inversion N0; auto. }
      apply AR in N. apply AR in N. exact N.
    + rewrite G1, G2, F3, F4. exact Hz.
    + exact E2.
    + destruct hit; [|discriminate].
      destruct (p_hint_inv (upd L b (cont st1 x)) st2 b I5) as (st3 & H3 & I6 & _); [rewrite G5, G4; exact A1|].
      rewrite H3 in H. discriminate.
  - destruct (awaiting st b); [discriminate|]. destruct (u_take x (user st)) as [[[p|] u]|]; try discriminate.
    destruct (p_read _ _ _) as [[? ?] ?]. discriminate.
  - destruct (u_take x (user st)) as [[[[q b]|] u]|]; try discriminate. destruct (is_pending st q); discriminate.
  - destruct (awaiting st b) eqn:A; [discriminate|]. apply awaiting_bids in A.
    destruct (p_hint_inv L st b I0 A) as (st1 & E & I1 & _). rewrite E in H. discriminate.
  - destruct (awaiting st b); [discriminate|]. destruct (p_invalidate st b s) as [[? ?]|]; discriminate.
  - left. exists s, c. split; [reflexivity|]. unfold w_steal in H. unfold in_write_pool. destruct (wfree st); [|discriminate].
    destruct (wbusy st); [reflexivity|]. destruct (serves st s) as [st1|]; [|discriminate].
    destruct (remove_at _ _) as [[[[? ?] ?] ?]|]; [|discriminate]. destruct (is_pending _ _); discriminate.
  - destruct (u_take x (user st)) as [[[p|] u]|]; discriminate.
  - destruct (u_take x (user st)) as [[[p|] u]|]; discriminate.
  - right. destruct (pfree st); [auto|discriminate].
  - destruct (Nat.leb_spec (wsize st) n) as [Hn|Hn]; [discriminate|]. exfalso. revert H. apply shrink_w_nofail. rewrite <- wsize_len. lia.
  - destruct (Nat.leb (psz st) n); [discriminate|]. destruct (shrink_p_inv L (psz st - n) st I0) as (st1 & E & _). rewrite E in H. discriminate.
Qed.
End STATE.
