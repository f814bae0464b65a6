(** * Without retained blocks the cache replaces blocks first in, first out *)
From Coq Require Import Arith Bool List Lia Permutation.
From Verif Require Import BlockCacheModel BlockCacheDev BlockCacheSpec BlockCacheMach
  BlockCacheInv BlockCacheStat.
Import ListNotations.

(** reference policies: blocks in the cache, the next one to be thrown out last *)

Definition fifo_step (n : nat) (l : list nat) (b : nat) : bool * list nat :=
  if existsb (Nat.eqb b) l then (true, l) else (false, firstn n (b :: l)).

Definition lru_step (n : nat) (l : list nat) (b : nat) : bool * list nat :=
  if existsb (Nat.eqb b) l
  then (true, b :: filter (fun x => negb (Nat.eqb x b)) l)
  else (false, firstn n (b :: l)).

(** number of accesses that find their block *)
Fixpoint hits (step : list nat -> nat -> bool * list nat) (l : list nat) (bs : list nat) : nat :=
  match bs with
  | [] => 0
  | b :: bs' => let (t, l') := step l b in (if t then 1 else 0) + hits step l' bs'
  end.

Section Fifo.
Context {V : Type}.
Variable ordered : bool.
Variable csize wsize : nat.
Variable iter : list (nat * nat) -> list (nat * nat).
Variable sub : nat -> nat.
Hypothesis cpos : 0 < csize.

Notation dev := (dev V).

Record FI (c : cache) (l us ps : list nat) : Prop := {
  f_pager : filter (fun j => existsb (Nat.eqb j) us) (pager c) = us;
  f_perm : Permutation (pager c) (us ++ ps);
  f_nodup : NoDup (us ++ ps);
  f_len : length (us ++ ps) = csize;
  f_free : Permutation (free c) ps;
  f_bids : map (bids c) us = l;
  f_map : forall b i, In (b, i) (bmap c) <-> In i us /\ bids c i = b;
  f_ret : forall i, In i us -> retain c i = 0;
  f_drt : forall i, In i us -> dirty c i = false;
  f_val : forall i, In i us -> validity c i = VSub (sub (bids c i));
  f_ld : NoDup l
}.

Lemma in_bmap c l us ps b : FI c l us ps -> (In b (map fst (bmap c)) <-> In b l).
Proof.
  intros F. rewrite <- (f_bids _ _ _ _ F). split.
  - intros H. apply key_in in H. destruct H as (i & H). apply (f_map _ _ _ _ F) in H.
    destruct H as [H1 <-]. apply in_map. auto.
  - intros H. apply in_map_iff in H. destruct H as (i & E & H).
    apply (in_key b i). apply (f_map _ _ _ _ F). auto.
Qed.

Lemma existsb_eqb b l : existsb (Nat.eqb b) l = true <-> In b l.
Proof.
  rewrite existsb_exists. split.
  - intros (x & H & E). apply Nat.eqb_eq in E. now subst.
  - intros H. exists b. split; auto. apply Nat.eqb_refl.
Qed.

Lemma filter_notin i (l : list nat) :
  ~ In i l -> filter (fun j => negb (Nat.eqb j i)) l = l.
Proof.
  induction l as [|x l IH]; intros N; auto. cbn.
  destruct (Nat.eqb_spec x i).
  - exfalso. apply N. left; auto.
  - cbn. f_equal. apply IH. intros X. apply N. right; auto.
Qed.

Lemma filter_filter_in (f g h : nat -> bool) l :
  (forall j, (f j && g j)%bool = h j) -> filter f (filter g l) = filter h l.
Proof.
  intros E. induction l as [|x l IH]; auto. cbn. specialize (E x).
  destruct (g x); cbn; rewrite <- E; destruct (f x); cbn; rewrite ?IH; auto.
Qed.

Lemma hit_cons i p :
  NoDup p -> In i p -> Permutation p (i :: filter (fun j => negb (Nat.eqb j i)) p).
Proof.
  intros ND H. apply in_split in H. destruct H as (p1 & p2 & ->).
  assert (N : ~ In i (p1 ++ p2)) by (apply NoDup_remove_2 in ND; auto).
  rewrite filter_app. cbn. rewrite Nat.eqb_refl. cbn.
  rewrite <- filter_app, filter_notin by auto. symmetry. apply Permutation_middle.
Qed.

Lemma FI_fill c (d : dev) l us ps b :
  FI c l us ps -> ~ In b l -> forall i fr, free c = i :: fr ->
  forall d' p c',
  load_sub ordered b (sub b) i
    (mkCache (wb c) (blocks c) (upd (bids c) i b) (upd (retain c) i 0)
             (upd (dirty c) i false) (validity c) fr (reqs c)
             ((b, i) :: bmap c) (pager c) (st c)) d = (p, c', d') ->
  st c' = st c /\ exists ps', FI c' (b :: l) (i :: us) ps'.
Proof.
  intros F NB i fr EF d' p c'. unfold load_sub, submit. intros [= <- <- <-].
  split; [reflexivity|].
  assert (IP : In i ps).
  { apply (Permutation_in i (f_free _ _ _ _ F)). rewrite EF. left; auto. }
  apply in_split in IP. destruct IP as (p1 & p2 & ->). exists (p1 ++ p2).
  pose proof (f_nodup _ _ _ _ F) as ND. rewrite app_assoc in ND.
  assert (NI : ~ In i ((us ++ p1) ++ p2)) by (apply NoDup_remove_2 in ND; auto).
  assert (NU : forall j, In j us -> j <> i).
  { intros j J ->. apply NI. apply in_or_app. left. apply in_or_app. auto. }
  split; cbn [set_pager set_load wb blocks bids retain dirty validity free reqs bmap pager st].
  - unfold hit. cbn [filter existsb]. rewrite Nat.eqb_refl. cbn [orb]. f_equal.
    transitivity (filter (fun j => existsb (Nat.eqb j) us) (pager c)); [|apply F].
    apply filter_filter_in.
    intros j. destruct (Nat.eqb_spec j i) as [->|]; cbn [orb negb].
    2:{ apply andb_true_r. }
    destruct (existsb (Nat.eqb i) us) eqn:EX; auto.
    apply existsb_eqb in EX. exfalso. exact (NU i EX eq_refl).
  - cbn. unfold hit. constructor.
    apply (Permutation_cons_inv (a := i)).
    transitivity (pager c).
    + symmetry. apply hit_cons; [|apply (Permutation_in i (Permutation_sym (f_perm _ _ _ _ F)))].
      * eapply Permutation_NoDup; [symmetry; apply (f_perm _ _ _ _ F)|apply F].
      * rewrite app_assoc. apply in_or_app. right. left; auto.
    + rewrite (f_perm _ _ _ _ F). rewrite !app_assoc. symmetry. apply Permutation_middle.
  - cbn. constructor; rewrite ?app_assoc; auto. apply NoDup_remove_1 in ND. auto.
  - pose proof (f_len _ _ _ _ F) as L. rewrite !app_length in *. cbn in *.
    lia.
  - pose proof (f_free _ _ _ _ F) as P. rewrite EF in P.
    apply (Permutation_cons_app_inv _ _ P).
  - cbn. rewrite upd_eq. f_equal. rewrite <- (f_bids _ _ _ _ F). apply map_ext_in.
    intros j J. apply upd_neq. auto.
  - intros x j. split.
    + intros [E|H].
      * inversion E; subst. split; [left; auto|apply upd_eq].
      * apply (f_map _ _ _ _ F) in H. destruct H as [H1 H2]. split; [right; auto|].
        rewrite upd_neq; auto.
    + intros [[<-|H1] H2].
      * rewrite upd_eq in H2. subst. left; auto.
      * right. apply (f_map _ _ _ _ F). rewrite upd_neq in H2; auto.
  - intros j [<-|J]; [apply upd_eq|]. rewrite upd_neq by auto. apply (f_ret _ _ _ _ F). auto.
  - intros j [<-|J]; [apply upd_eq|]. rewrite upd_neq by auto. apply (f_drt _ _ _ _ F). auto.
  - intros j [<-|J]; [rewrite !upd_eq; auto|]. rewrite !upd_neq by auto.
    apply (f_val _ _ _ _ F). auto.
  - constructor; auto. apply F.
Qed.

Lemma filter_all (f : nat -> bool) l :
  (forall j, In j l -> f j = true) -> filter f l = l.
Proof.
  induction l as [|x l IH]; intros H; auto. cbn. rewrite (H x) by (left; auto).
  f_equal. apply IH. intros. apply H. right; auto.
Qed.

Lemma berase_in b (m : list (nat * nat)) x i :
  In (x, i) (berase b m) <-> In (x, i) m /\ x <> b.
Proof.
  unfold berase. rewrite filter_In. cbn. destruct (Nat.eqb_spec x b); cbn; intuition easy.
Qed.

Lemma FI_kick c (d : dev) l us :
  FI c l us [] ->
  exists c' us' j, kick_block ordered csize c d = (Done tt, c', d) /\
    FI c' (removelast l) us' [j] /\ same_reads (st c') (st c).
Proof.
  intros F.
  assert (EP : pager c = us).
  { rewrite <- (f_pager _ _ _ _ F). symmetry. apply filter_all. intros j J.
    apply existsb_eqb. apply (Permutation_in j (f_perm _ _ _ _ F)) in J.
    now rewrite app_nil_r in J. }
  pose proof (f_nodup _ _ _ _ F) as ND. pose proof (f_len _ _ _ _ F) as L.
  rewrite app_nil_r in ND, L.
  destruct us as [|x us0 _] using rev_ind; [cbn in L; lia|].
  assert (NX : ~ In x us0).
  { apply NoDup_remove_2 in ND. now rewrite app_nil_r in ND. }
  assert (R0 : retain c x = 0).
  { apply (f_ret _ _ _ _ F). apply in_or_app. right. left; auto. }
  assert (EV : victim csize (retain c) (pager c) = Some (Some x, x :: us0)).
  { rewrite EP. destruct csize as [|n]; [lia|]. cbn [victim].
    rewrite rev_app_distr. cbn [rev app]. rewrite hit_last by auto. now rewrite R0. }
  unfold kick_block. rewrite EV.
  assert (VX : validity (set_pager c (x :: us0)) x = VSub (sub (bids c x))).
  { apply (f_val _ _ _ _ F). apply in_or_app. right. left; auto. }
  rewrite VX.
  assert (DX : dirty (set_pager c (x :: us0)) x = false).
  { apply (f_drt _ _ _ _ F). apply in_or_app. right. left; auto. }
  rewrite DX.
  eexists _, us0, x. split; [reflexivity|]. split.
  2:{ cbn. repeat split. }
  pose proof (f_bids _ _ _ _ F) as EB. rewrite map_app in EB. cbn in EB.
  pose proof (f_ld _ _ _ _ F) as LD. rewrite <- EB in LD.
  assert (NB : forall j, In j us0 -> bids c j <> bids c x).
  { intros j J E. apply NoDup_remove_2 in LD. rewrite app_nil_r in LD. apply LD.
    rewrite <- E. apply in_map. auto. }
  assert (IN : forall j, In j us0 -> In j (us0 ++ [x])).
  { intros j J. apply in_or_app. auto. }
  split; cbn [set_st set_pager wb blocks bids retain dirty validity free reqs bmap pager st].
  - cbn [filter]. destruct (existsb (Nat.eqb x) us0) eqn:EX.
    { apply existsb_eqb in EX. easy. }
    apply filter_all. intros j J. apply existsb_eqb. auto.
  - apply Permutation_cons_append.
  - auto.
  - auto.
  - pose proof (f_free _ _ _ _ F) as P. apply Permutation_sym, Permutation_nil in P. rewrite P. auto.
  - rewrite <- EB, removelast_last. reflexivity.
  - intros b i. rewrite berase_in, (f_map _ _ _ _ F). split.
    + intros [[H1 H2] H3]. split; auto. apply in_app_or in H1. destruct H1 as [H1|[H1|[]]]; auto.
      subst. easy.
    + intros [H1 H2]. split; [split; auto|]. subst b. auto.
  - intros i H. apply (f_ret _ _ _ _ F). auto.
  - intros i H. apply (f_drt _ _ _ _ F). auto.
  - intros i H. apply (f_val _ _ _ _ F). auto.
  - rewrite <- EB, removelast_last. apply NoDup_remove_1 in LD. now rewrite app_nil_r in LD.
Qed.

Lemma FI_get c (d : dev) l us ps b o c' d' :
  FI c l us ps -> get_subblock ordered csize b (sub b) c d = (o, c', d') ->
  let (t, l') := fifo_step csize l b in
  n_found (st c') = n_found (st c) + (if t then 1 else 0) /\
  (exists p, o = Done p) /\ exists us' ps', FI c' l' us' ps'.
Proof.
  intros F. unfold get_subblock, fifo_step.
  destruct (bfind b (bmap c)) as [i|] eqn:EF.
  - apply bfind_in in EF.
    assert (E : existsb (Nat.eqb b) l = true).
    { apply existsb_eqb. rewrite <- (in_bmap c l us ps b F). eapply in_key; eauto. }
    rewrite E. apply (f_map _ _ _ _ F) in EF. destruct EF as [H1 H2].
    rewrite (f_val _ _ _ _ F i H1), H2, Nat.eqb_refl. intros [= <- <- <-].
    split; [cbn; lia|]. split; [eauto|]. exists us, ps. destruct F. split; auto.
  - apply bfind_none in EF.
    assert (NB : ~ In b l) by (rewrite <- (in_bmap c l us ps b F); auto).
    assert (E : existsb (Nat.eqb b) l = false).
    { destruct (existsb (Nat.eqb b) l) eqn:E; auto. apply existsb_eqb in E. easy. }
    rewrite E. set (c0 := set_st c (st_miss (st c))).
    assert (F0 : FI c0 l us ps) by (destruct F; split; auto).
    assert (N0 : n_found (st c0) = n_found (st c)) by reflexivity.
    rewrite <- N0. clearbody c0. clear N0 F. rename F0 into F.
    pose proof (f_len _ _ _ _ F) as L.
    assert (LL : length l = length us) by (rewrite <- (f_bids _ _ _ _ F); apply map_length).
    unfold place. destruct (free c0) as [|i fr] eqn:EFR.
    + pose proof (f_free _ _ _ _ F) as P. rewrite EFR in P.
      apply Permutation_nil in P. subst ps. rewrite app_nil_r in L.
      destruct (FI_kick c0 d l us F) as (c1 & us1 & j & EK & F1 & (S1 & _)).
      rewrite EK. pose proof (f_free _ _ _ _ F1) as P1.
      apply Permutation_sym, Permutation_length_1_inv in P1. rewrite P1.
      destruct (load_sub _ _ _ _ _ _) as [[p c2] d2] eqn:EL. intros [= <- <- <-].
      assert (NR : ~ In b (removelast l)).
      { intros X. apply NB. clear - X. induction l as [|x l IH]; auto.
        cbn in X. destruct l; [easy|]. destruct X; [left; auto|right; auto]. }
      destruct (FI_fill c1 d (removelast l) us1 [j] b F1 NR j [] P1 _ _ _ EL) as (S2 & ps2 & F2).
      rewrite S2, S1. split; [lia|]. split; [eauto|].
      replace (firstn csize (b :: l)) with (b :: removelast l); [eauto|].
      rewrite <- L, <- LL. destruct l as [|x l]; [cbn in *; lia|].
      cbn [length firstn]. f_equal. apply removelast_firstn_len.
    + rewrite EFR. destruct (load_sub _ _ _ _ _ _) as [[p c2] d2] eqn:EL. intros [= <- <- <-].
      destruct (FI_fill c0 d l us ps b F NB i fr EFR _ _ _ EL) as (S2 & ps2 & F2).
      rewrite S2. split; [lia|]. split; [eauto|].
      rewrite firstn_all2; [eauto|]. cbn.
      pose proof (f_len _ _ _ _ F2) as L2. rewrite app_length in L2. cbn in L2. lia.
Qed.

(** reading blocks, always the same subblock of each *)
Lemma FI_run bs : forall c (d : dev) g l us ps rs m',
  FI c l us ps ->
  m_run ordered csize wsize iter (map (fun b => OGet 0 b (sub b)) bs) (mkM c d g) = Some (rs, m') ->
  n_found (st (mc m')) = n_found (st c) + hits (fifo_step csize) l bs.
Proof.
  induction bs as [|b bs IH]; intros c d g l us ps rs m' F; cbn [map m_run hits m_step].
  - intros [= <- <-]. cbn. lia.
  - destruct (get_subblock ordered csize b (sub b) c d) as [[o c1] d1] eqn:EG.
    pose proof (FI_get c d l us ps b o c1 d1 F EG) as H.
    destruct (fifo_step csize l b) as [t l1].
    destruct H as (S1 & (p & ->) & us1 & ps1 & F1).
    destruct (m_run _ _ _ _ _ _) as [[rs1 m1]|] eqn:ER; [|discriminate].
    intros [= <- <-]. rewrite (IH _ _ _ _ _ _ _ _ F1 ER). lia.
Qed.

Lemma FI_init : FI (c_init csize wsize) [] [] (seq 0 csize).
Proof.
  split; cbn [c_init wb blocks bids retain dirty validity free reqs bmap pager st app map];
    auto; try easy.
  - cbn. induction (seq 0 csize); auto.
  - apply seq_NoDup.
  - apply seq_length.
  - symmetry. apply Permutation_rev.
  - constructor.
Qed.

End Fifo.
