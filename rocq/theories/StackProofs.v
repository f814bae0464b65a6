From Coq Require Import List Bool Arith ZArith Lia.
From Verif Require Import SumLib AsyncIoModel AsyncIoProofs AsyncIoRules StackModel StackSpec.
Import ListNotations.

Lemma in_concat_disj (p : list nat) (ps : list (list nat)) q : In q ps -> (forall b, In b p -> ~ In b (concat ps)) -> forall b, In b p -> ~ In b q.
Proof. intros H D b Hb C. apply (D b Hb). apply in_concat. eauto. Qed.
Lemma nodup_app_intro (l m : list nat) : NoDup l -> NoDup m -> (forall b, In b l -> ~ In b m) -> NoDup (l ++ m).
Proof.
  induction l as [|x l IH]; intros H1 H2 D; [exact H2|]. inversion H1; subst. simpl. constructor.
  - rewrite in_app_iff. intros [C|C]; [contradiction|]. apply (D x); [left; reflexivity|exact C].
  - apply IH; auto. intros b Hb. apply D. right. exact Hb.
Qed.
Lemma nodup_app_elim (l m : list nat) : NoDup (l ++ m) -> NoDup l /\ NoDup m /\ (forall b, In b l -> ~ In b m).
Proof.
  induction l as [|x l IH]; intro H; [split; [constructor|split; [exact H|intros b []]]|]. simpl in H. inversion H; subst.
  destruct (IH H3) as (H1 & H4 & H5). split; [constructor; [intro C; apply H2, in_app_iff; auto|exact H1]|]. split; [exact H4|].
  intros b [<-|Hb]; [intro C; apply H2, in_app_iff; auto|auto].
Qed.
Lemma forall2_snoc_l {B C} (R : B -> C -> Prop) l x m : Forall2 R (l ++ [x]) m -> exists m' y, m = m' ++ [y] /\ Forall2 R l m' /\ R x y.
Proof.
  intro H. apply Forall2_app_inv_l in H. destruct H as (m1 & m2 & H1 & H2 & ->). inversion H2; subst. inversion H5; subst. eauto.
Qed.

Section Stacks.
Variable A : Type.
Variables P S : nat.
Hypothesis HP : 1 <= P.
Hypothesis HS : 1 <= S.
Notation PS := (P * S).
Notation sstate := (sstate A).

(** element i of the page in the buffers from x on; element i of a page on disk *)
Definition cell (s : sstate) (x i : nat) : option A := scont s (x + i / S) (i mod S).
Definition page_on (s : sstate) (bs : list nat) (i : nat) : option A := sdisk s (nth (i / S) bs 0) (i mod S).
Definition pageok (s : sstate) (bs : list nat) (c : list A) : Prop :=
  length bs = P /\ length c = PS /\ forall i, i < PS -> page_on s bs i = nth_error c i.

Local Arguments cell : simpl never.
Local Arguments page_on : simpl never.
Lemma PS1 : 1 <= PS.
Proof. nia. Qed.
Lemma div_lt i : i < PS -> i / S < P.
Proof. intro H. apply Nat.div_lt_upper_bound; lia. Qed.
Lemma divmod_inj i j : i / S = j / S -> i mod S = j mod S -> i = j.
Proof. intros H1 H2. rewrite (Nat.div_mod i S), (Nat.div_mod j S) by lia. rewrite H1, H2. reflexivity. Qed.

Lemma nth_in_page bs i : length bs = P -> i < PS -> In (nth (i / S) bs 0) bs.
Proof. intros H1 H2. apply nth_In. rewrite H1. apply div_lt. exact H2. Qed.

Lemma page_write s s' x bs : sdisk s' = wr_disk (sdisk s) (scont s) (seq x P) bs -> length bs = P -> NoDup bs ->
  forall i, i < PS -> page_on s' bs i = cell s x i.
Proof.
  intros E L N i Hi. unfold page_on, cell. rewrite E.
  rewrite (wr_disk_at A _ _ _ _ (x + i / S) (nth (i / S) bs 0)); [reflexivity|exact N|].
  pose proof (div_lt i Hi) as Hd.
  apply (combine_nth_in _ _ (i / S)).
  - rewrite nth_error_nth' with (d := 0) by (rewrite seq_length; exact Hd). rewrite seq_nth by exact Hd. reflexivity.
  - apply nth_error_nth'. rewrite L. exact Hd.
Qed.
Lemma page_write_other s s' xs bs q : sdisk s' = wr_disk (sdisk s) (scont s) xs bs -> length q = P -> (forall b, In b bs -> ~ In b q) ->
  forall i, i < PS -> page_on s' q i = page_on s q i.
Proof.
  intros E L D i Hi. unfold page_on. rewrite E, wr_disk_other; [reflexivity|]. intro C. apply (D _ C). apply nth_in_page; assumption.
Qed.
Lemma page_read s s' x bs : scont s' = rd_cont (scont s) (sdisk s) (rev (seq x P)) (rev bs) -> length bs = P ->
  forall i, i < PS -> cell s' x i = page_on s bs i.
Proof.
  intros E L i Hi. unfold page_on, cell. rewrite E. pose proof (div_lt i Hi) as Hd.
  rewrite (rd_cont_at A _ _ _ _ (x + i / S) (nth (i / S) bs 0)); [reflexivity|apply NoDup_rev, seq_NoDup|]. rewrite combine_rev by (rewrite seq_length; auto). apply -> in_rev.
  apply (combine_nth_in _ _ (i / S)).
  - rewrite nth_error_nth' with (d := 0) by (rewrite seq_length; exact Hd). rewrite seq_nth by exact Hd. reflexivity.
  - apply nth_error_nth'. rewrite L. exact Hd.
Qed.
Lemma page_read_other s s' x bs y : scont s' = rd_cont (scont s) (sdisk s) (rev (seq x P)) (rev bs) ->
  (forall i, i < P -> y + i < x \/ x + P <= y + i) -> forall i, i < PS -> cell s' y i = cell s y i.
Proof.
  intros E D i Hi. unfold cell. rewrite E, rd_cont_other; [reflexivity|]. rewrite <- in_rev, in_seq.
  specialize (D (i / S) (div_lt i Hi)). lia.
Qed.

Lemma pageok_same s s' bs c : pageok s bs c -> (forall i, i < PS -> page_on s' bs i = page_on s bs i) -> pageok s' bs c.
Proof. intros (H1 & H2 & H3) E. split; [exact H1|]. split; [exact H2|]. intros i Hi. rewrite E, H3; auto. Qed.
Lemma pages_same s s' ps cs : Forall2 (pageok s) ps cs -> (forall bs, In bs ps -> length bs = P -> forall i, i < PS -> page_on s' bs i = page_on s bs i) ->
  Forall2 (pageok s') ps cs.
Proof.
  induction 1 as [|bs c ps cs H1 H2 IH]; intro E; constructor.
  - apply (pageok_same s); [exact H1|]. apply E; [left; reflexivity|apply H1].
  - apply IH. intros q Hq. apply E. right. exact Hq.
Qed.
Lemma pages_len s ps cs : Forall2 (pageok s) ps cs -> length (concat ps) = P * length ps /\ length (concat cs) = PS * length ps.
Proof.
  induction 1 as [|bs c ps cs (H1 & H2 & _) H3 (IH1 & IH2)]; simpl; [lia|]. rewrite !app_length, IH1, IH2, H1, H2. lia.
Qed.
Lemma last_page_app l p : length p = P -> last_page P (l ++ p) = p /\ but_last_page P (l ++ p) = l.
Proof.
  intro H. unfold last_page, but_last_page. rewrite app_length, H. replace (length l + P - P) with (length l) by lia.
  rewrite skipn_app, skipn_all, Nat.sub_diag. simpl. rewrite firstn_app, firstn_all, Nat.sub_diag. simpl. rewrite app_nil_r. auto.
Qed.

(** blocks on disk *)
Record onext (s : sstate) (bids : list nat) (pages : list (list nat)) (contents : list (list A)) : Prop := mk_onext {
  x_bids : bids = concat pages;
  x_ok : Forall2 (pageok s) pages contents;
  x_nd : NoDup (concat pages);
  x_own : incl (concat pages) (sown s) }.

Lemma onext_nonempty s bids pages contents : onext s bids pages contents -> P <= length bids ->
  exists ps p cs c, pages = ps ++ [p] /\ contents = cs ++ [c] /\ onext s (concat ps) ps cs /\ pageok s p c /\
    last_page P bids = p /\ but_last_page P bids = concat ps /\ NoDup p /\ incl p (sown s) /\ (forall b, In b p -> ~ In b (concat ps)).
Proof.
  intros [E F N O] H. destruct (exists_last (l := pages)) as (ps & p & ->).
  { intros ->. subst bids. simpl in H. lia. }
  apply forall2_snoc_l in F. destruct F as (cs & c & -> & F & Hp). exists ps, p, cs, c.
  rewrite concat_app in *. simpl in *. rewrite app_nil_r in *. apply nodup_app_elim in N. destruct N as (N1 & N2 & N3).
  destruct (last_page_app (concat ps) p) as (L1 & L2); [apply Hp|]. subst bids.
  split; [reflexivity|]. split; [reflexivity|]. split.
  { constructor; auto. intros b Hb. apply O, in_app_iff. auto. }
  split; [exact Hp|]. split; [exact L1|]. split; [exact L2|]. split; [exact N2|]. split.
  - intros b Hb. apply O, in_app_iff. auto.
  - intros b Hb C. apply (N3 b C Hb).
Qed.

Lemma onext_push s s' bids pages contents l c : onext s bids pages contents ->
  (forall q, (forall b, In b l -> ~ In b q) -> length q = P -> forall i, i < PS -> page_on s' q i = page_on s q i) ->
  pageok s' l c -> NoDup l -> (forall b, In b l -> ~ In b (sown s)) -> incl l (sown s') -> incl (sown s) (sown s') ->
  onext s' (bids ++ l) (pages ++ [l]) (contents ++ [c]).
Proof.
  intros [E F N O] Hq Hl Nl Dl O1 O2. assert (D : forall b, In b l -> ~ In b (concat pages)) by (intros b Hb C; apply (Dl b Hb), O, C).
  constructor.
  - rewrite concat_app, E. simpl. rewrite app_nil_r. reflexivity.
  - apply Forall2_app; [|constructor; [exact Hl|constructor]]. apply (pages_same s); [exact F|]. intros bs Hbs Lb. apply Hq; [|exact Lb].
    apply (in_concat_disj l pages bs Hbs D).
  - rewrite concat_app. simpl. rewrite app_nil_r. apply nodup_app_intro; auto. intros b Hb C. apply (D b C Hb).
  - rewrite concat_app. simpl. rewrite app_nil_r. intros b Hb. apply in_app_iff in Hb. destruct Hb as [Hb|Hb]; [apply O2, O, Hb|apply O1, Hb].
Qed.
Lemma onext_same s s' bids pages contents : onext s bids pages contents -> sdisk s' = sdisk s -> incl (sown s) (sown s') -> onext s' bids pages contents.
Proof.
  intros [E F N O] H1 H2. constructor; auto.
  - apply (pages_same s); [exact F|]. intros bs _ _ i _. unfold page_on. rewrite H1. reflexivity.
  - intros b Hb. apply H2, O, Hb.
Qed.
Lemma onext_sub s s' bids pages contents : onext s bids pages contents -> sdisk s' = sdisk s -> incl (concat pages) (sown s') -> onext s' bids pages contents.
Proof.
  intros [E F N O] H1 H2. constructor; auto.
  apply (pages_same s); [exact F|]. intros bs _ _ i _. unfold page_on. rewrite H1. reflexivity.
Qed.

(** changing one element of a page in memory *)
Lemma cell_upd_same s x off v d o w n al : off < PS ->
  cell (mk_sstate (upd2 (scont s) (x + off / S) (off mod S) v) d o w n al) x off = v.
Proof. intro H. unfold cell. simpl. unfold upd2. rewrite !upd_same. reflexivity. Qed.
Lemma cell_upd_other s x off y i v d o w n al : (x = y -> i <> off) -> (x <> y -> x + off / S <> y + i / S) ->
  cell (mk_sstate (upd2 (scont s) (x + off / S) (off mod S) v) d o w n al) y i = cell s y i.
Proof.
  intros H1 H2. unfold cell. simpl. unfold upd2. destruct (Nat.eq_dec x y) as [->|N].
  - specialize (H1 eq_refl). destruct (Nat.eq_dec (y + i / S) (y + off / S)) as [E|E].
    + rewrite E, upd_same. rewrite upd_other; [reflexivity|]. intro E2. apply H1. apply divmod_inj; [lia|exact E2].
    + rewrite upd_other by exact E. reflexivity.
  - rewrite upd_other; [reflexivity|]. specialize (H2 N). lia.
Qed.

Lemma nth_error_snoc {B} (l : list B) v i : nth_error (l ++ [v]) i = if Nat.eqb i (length l) then Some v else nth_error l i.
Proof.
  destruct (Nat.eqb_spec i (length l)) as [->|N].
  - rewrite nth_error_app2 by lia. rewrite Nat.sub_diag. reflexivity.
  - destruct (Nat.lt_ge_cases i (length l)); [apply nth_error_app1; assumption|].
    rewrite nth_error_app2 by lia. rewrite (proj2 (nth_error_None l i)) by lia. apply nth_error_None. simpl. lia.
Qed.
Lemma removelast_snoc {B} (l : list B) v : removelast (l ++ [v]) = l.
Proof. apply removelast_last. Qed.
Lemma nth_error_firstn {B} (l : list B) n i : i < n -> nth_error (firstn n l) i = nth_error l i.
Proof.
  revert l i. induction n as [|n IH]; intros l i H; [lia|]. destruct l as [|x l]; [reflexivity|]. destruct i; [reflexivity|]. simpl. apply IH. lia.
Qed.
Lemma removelast_firstn_len' {B} (l : list B) : removelast l = firstn (length l - 1) l.
Proof. rewrite removelast_firstn_len. f_equal. lia. Qed.

(** * normal_stack *)
Definition ncell (t : nstack) (s : sstate) (i : nat) : option A :=
  if Nat.ltb i PS then cell s (n_back t) i else cell s (n_front t) (i - PS).
Record ninv (l : list A) (t : nstack) (s : sstate) : Prop := mk_ninv {
  ni_ext : exists pages contents cl, onext s (n_bids t) pages contents /\ l = concat contents ++ cl /\ length cl = n_off t /\
           (pages <> [] -> 1 <= n_off t) /\ forall i, i < n_off t -> ncell t s i = nth_error cl i;
  ni_off : n_off t <= 2 * PS;
  ni_size : n_size t = length l;
  ni_out : sout s = [];
  ni_pages : (n_front t = P /\ n_back t = 0) \/ (n_front t = 0 /\ n_back t = P);
  ni_cur : 0 < n_off t -> n_cur t = n_element P S (n_front t) (n_back t) (n_off t - 1) }.

Lemma n_init_inv al : ninv [] (n_init P) (sinit al).
Proof.
  constructor; simpl; auto; try lia. exists [], [], []. split; [|split; [reflexivity|split; [reflexivity|split; [congruence|lia]]]].
  constructor; simpl; [reflexivity|constructor|constructor|intros b []].
Qed.

(** writing element [off] of the cache *)
Lemma n_put l t s off v : ninv l t s -> off < 2 * PS ->
  exists x i, n_element P S (n_front t) (n_back t) off = Some (x, i) /\
  let s' := mk_sstate (upd2 (scont s) x i (Some v)) (sdisk s) (sout s) (sown s) (snext s) (salloc s) in
  ncell t s' off = Some v /\ forall j, j < 2 * PS -> j <> off -> ncell t s' j = ncell t s j.
Proof.
  intros I Ho. unfold n_element, ncell. destruct (ni_pages _ _ _ I) as [(Ef & Eb)|(Ef & Eb)]; rewrite Ef, Eb;
  (destruct (Nat.ltb_spec off PS) as [H|H]; eexists; eexists; (split; [reflexivity|]);
   (split; [apply cell_upd_same; lia|]); intros j Hj Nj; destruct (Nat.ltb_spec j PS) as [H'|H'];
   apply cell_upd_other; intros; try lia;
   try (pose proof (div_lt j ltac:(lia)); pose proof (div_lt (off - PS) ltac:(lia)); lia);
   try (pose proof (div_lt (j - PS) ltac:(lia)); pose proof (div_lt off ltac:(lia)); lia)).
Qed.

Lemma n_push_ok l v t s : ninv l t s -> ok (n_push A P S v t) s (fun t' s' => ninv (l ++ [v]) t' s').
Proof.
  intros I. pose proof (ni_off _ _ _ I) as Ho. pose proof (ni_out _ _ _ I) as Hout.
  destruct (ni_ext _ _ _ I) as (pages & contents & cl & X & El & Hl & Hne & Hc).
  unfold n_push. destruct (Nat.ltb_spec (2 * PS) (n_off t)); [lia|].
  destruct (Nat.eqb_spec (n_off t) (2 * PS)) as [E|E].
  - unfold ok. simpl. destruct (salloc s) as [|nb al]; [exact Logic.I|]. destruct (good_alloc P (sown s) nb) eqn:G; [|exact Logic.I].
    apply good_alloc_spec in G. destruct G as (G1 & G2 & G3).
    rewrite srun_write_all; simpl; try (rewrite Hout; intros r []); auto.
    2:{ rewrite seq_length. auto. }
    2:{ intros b Hb. apply in_app_iff. auto. }
    rewrite Hout. simpl. rewrite srun_wait_all. cbn [sout scont sdisk sown snext salloc]. rewrite drops_new_nil. simpl.
    assert (PB : forall i, i < PS -> cell s (n_back t) i = nth_error cl i).
    { intros i Hi. rewrite <- Hc by lia. unfold ncell. rewrite (proj2 (Nat.ltb_lt i PS) Hi). reflexivity. }
    assert (PF : forall i, i < PS -> cell s (n_front t) i = nth_error cl (PS + i)).
    { intros i Hi. rewrite <- Hc by lia. unfold ncell. destruct (Nat.ltb_spec (PS + i) PS); [lia|]. f_equal. lia. }
    set (s0 := mk_sstate (scont s) (fun b => if mem b nb then fun _ => None else sdisk s b) (sout s) (nb ++ sown s) (snext s) al).
    set (s1 := mk_sstate (upd2 (scont s) (n_back t) 0 (Some v)) _ _ _ _ _).
    assert (D1 : sdisk s1 = wr_disk (sdisk s0) (scont s0) (seq (n_back t) P) nb) by reflexivity.
    assert (Hcut : length (firstn PS cl) = PS) by (rewrite firstn_length; lia).
    constructor; simpl; try lia; try reflexivity.
    + exists (pages ++ [nb]), (contents ++ [firstn PS cl]), (skipn PS cl ++ [v]). split; [|split; [|split; [|split]]].
      * apply (onext_push s); auto.
        -- intros q Dq Lq i Hi. rewrite (page_write_other s0 s1 _ _ q D1 Lq Dq i Hi). unfold page_on, s0. simpl.
           rewrite (proj2 (mem_nin _ _)); [reflexivity|]. intro C. apply (Dq _ C). apply nth_in_page; assumption.
        -- split; [exact G1|]. split; [exact Hcut|]. intros i Hi. rewrite (page_write s0 s1 (n_back t) nb D1 G1 G2 i Hi).
           rewrite nth_error_firstn by exact Hi. apply PB. exact Hi.
        -- intros b Hb. simpl. apply in_app_iff. auto.
        -- intros b Hb. simpl. apply in_app_iff. auto.
      * rewrite El, concat_app. simpl. rewrite app_nil_r, <- !app_assoc. f_equal. rewrite app_assoc, firstn_skipn. reflexivity.
      * rewrite app_length, skipn_length. simpl. lia.
      * lia.
      * intros i Hi. rewrite nth_error_snoc, skipn_length, Hl, E. replace (2 * PS - PS) with PS by lia. unfold ncell. simpl.
        destruct (Nat.eqb_spec i PS) as [->|Ni].
        -- rewrite Nat.ltb_irrefl, Nat.sub_diag. unfold cell. simpl.
           rewrite Nat.div_0_l, Nat.mod_0_l, Nat.add_0_r by lia. unfold upd2. rewrite !upd_same. reflexivity.
        -- destruct (Nat.ltb_spec i PS) as [H'|H']; [|lia]. unfold cell. simpl. unfold upd2. rewrite upd_other.
           ++ change (scont s (n_front t + i / S) (i mod S)) with (cell s (n_front t) i). rewrite PF by exact H'.
              rewrite <- (firstn_skipn PS cl) at 1. rewrite nth_error_app2 by lia. f_equal. lia.
           ++ pose proof (div_lt i H'). destruct (ni_pages _ _ _ I) as [(-> & ->)|(-> & ->)]; lia.
    + rewrite app_length, (ni_size _ _ _ I). reflexivity.
    + destruct (ni_pages _ _ _ I) as [(-> & ->)|(-> & ->)]; auto.
    + intros _. unfold n_element. replace (PS + 1 - 1) with PS by lia. rewrite Nat.ltb_irrefl, Nat.sub_diag, Nat.div_0_l, Nat.mod_0_l, Nat.add_0_r by lia. reflexivity.
  - destruct (n_put l t s (n_off t) v I ltac:(lia)) as (x & i & Ee & Hs & Hother). rewrite Ee. unfold ok, put_at. simpl. rewrite Hout. simpl.
    rewrite Hout in Hs, Hother.
    set (s1 := mk_sstate _ _ _ _ _ _) in *.
    constructor; simpl; try lia; auto.
    + exists pages, contents, (cl ++ [v]). split; [|split; [|split; [|split]]].
      * apply (onext_same s); [exact X|reflexivity|intros b Hb; exact Hb].
      * rewrite El, app_assoc. reflexivity.
      * rewrite app_length. simpl. lia.
      * lia.
      * intros j Hj. rewrite nth_error_snoc, Hl. change (ncell (mk_n (n_size t + 1) (n_off t + 1) (Some (x, i)) (n_front t) (n_back t) (n_bids t)) s1 j) with (ncell t s1 j).
        destruct (Nat.eqb_spec j (n_off t)) as [->|Nj]; [exact Hs|]. rewrite Hother by lia. apply Hc. lia.
    + rewrite app_length, (ni_size _ _ _ I). reflexivity.
    + apply I.
    + intros _. rewrite <- Ee. f_equal. lia.
Qed.

Lemma n_pop_ok l v t s : ninv (l ++ [v]) t s -> ok (n_pop A P S t) s (fun t' s' => ninv l t' s').
Proof.
  intros I. pose proof (ni_off _ _ _ I) as Ho. pose proof (ni_out _ _ _ I) as Hout. pose proof (ni_size _ _ _ I) as Hsz.
  destruct (ni_ext _ _ _ I) as (pages & contents & cl & X & El & Hl & Hne & Hc).
  rewrite app_length in Hsz. simpl in Hsz.
  assert (Hoff : 1 <= n_off t).
  { destruct pages as [|p ps]; [|apply Hne; discriminate]. pose proof (x_ok _ _ _ _ X) as F. inversion F; subst contents. simpl in El. subst cl.
    rewrite app_length in Hl. simpl in Hl. lia. }
  assert (Hcl : exists cl', cl = cl' ++ [v] /\ l = concat contents ++ cl').
  { destruct (exists_last (l := cl)) as (cl' & v' & ->); [intros ->; simpl in Hl; lia|]. rewrite app_assoc in El. apply app_inj_tail in El.
    destruct El as (-> & ->). eauto. }
  destruct Hcl as (cl' & -> & El'). rewrite app_length in Hl. simpl in Hl.
  unfold n_pop. destruct (Nat.ltb_spec (2 * PS) (n_off t)); [lia|]. destruct (Nat.eqb_spec (n_off t) 0); [lia|].
  destruct (Nat.eqb_spec (n_size t) 0); [lia|]. simpl orb. cbv iota.
  destruct (Nat.eqb_spec (n_off t) 1) as [E1|E1]; simpl andb; [destruct (Nat.leb_spec P (length (n_bids t))) as [HL|HL]|]; cbv iota.
  - destruct (onext_nonempty _ _ _ _ X HL) as (ps & p & cs & c & -> & -> & X' & Hp & -> & -> & Np & Op & Dp).
    unfold ok. rewrite srun_read_all; try (rewrite Hout; intros r []); auto.
    2:{ rewrite !rev_length, seq_length. symmetry. apply Hp. }
    2:{ apply NoDup_rev, seq_NoDup. }
    2:{ intros b Hb. apply Op. apply in_rev. exact Hb. }
    rewrite Hout. simpl app. rewrite srun_wait_all. cbn [sout scont sdisk sown snext salloc].
    rewrite drops_new_nil.
    simpl. rewrite (proj2 (nodup_spec p) Np). simpl.
    assert (existsb (fun b => negb (mem b (sown s))) p = false) as ->.
    { apply existsb_false. intros b Hb. apply negb_false_iff, mem_in, Op, Hb. }
    simpl. set (s1 := mk_sstate _ _ _ _ _ _).
    assert (C1 : scont s1 = rd_cont (scont s) (sdisk s) (rev (seq (n_front t) P)) (rev p)) by reflexivity.
    destruct cl'; [|simpl in Hl; lia]. rewrite app_nil_r in El'.
    constructor; simpl; try lia; auto.
    + exists ps, cs, c. split; [|split; [|split; [|split]]].
      * apply (onext_sub s); [exact X'|reflexivity|]. intros b Hb. simpl. apply without_in. split; [apply X', Hb|]. intro C. apply (Dp b C Hb).
      * rewrite El', concat_app. simpl. rewrite app_nil_r. reflexivity.
      * apply Hp.
      * intros _. exact PS1.
      * intros i Hi. unfold ncell. simpl. rewrite (proj2 (Nat.ltb_lt i PS) Hi). rewrite (page_read s s1 (n_front t) p C1); [|apply Hp|exact Hi].
        apply Hp. exact Hi.
    + destruct (ni_pages _ _ _ I) as [(-> & ->)|(-> & ->)]; auto.
    + intros _. unfold n_element. destruct (Nat.ltb_spec (PS - 1) PS); [|nia].
      assert (PS - 1 = S * (P - 1) + (S - 1)) as -> by nia.
      rewrite <- (Nat.div_unique (S * (P - 1) + (S - 1)) S (P - 1) (S - 1)) by lia.
      rewrite <- (Nat.mod_unique (S * (P - 1) + (S - 1)) S (P - 1) (S - 1)) by lia. reflexivity.
  - assert (pages = []) as ->.
    { destruct pages as [|p ps]; [reflexivity|]. exfalso. pose proof (pages_len _ _ _ (x_ok _ _ _ _ X)) as (L & _). rewrite (x_bids _ _ _ _ X) in HL. rewrite L in HL. simpl in HL. nia. }
    unfold ok. simpl. constructor; simpl; try lia; auto.
    + exists [], contents, cl'. split; [exact X|]. split; [exact El'|]. split; [lia|]. split; [congruence|]. intros i Hi.
      change (ncell (mk_n (n_size t - 1) (n_off t - 1) None (n_front t) (n_back t) (n_bids t)) s i) with (ncell t s i). rewrite Hc by lia.
      rewrite nth_error_app1 by lia. reflexivity.
    + apply I.
  - unfold ok. simpl. constructor; simpl; try lia; auto.
    + exists pages, contents, cl'. split; [exact X|]. split; [exact El'|]. split; [lia|]. split; [lia|]. intros i Hi.
      match goal with |- ncell ?t' s i = _ => change (ncell t' s i) with (ncell t s i) end. rewrite Hc by lia.
      rewrite nth_error_app1 by lia. reflexivity.
    + apply I.
    + intros _. f_equal. lia.
Qed.

Lemma n_cur_last l v t s : ninv (l ++ [v]) t s -> 1 <= n_off t /\ ncell t s (n_off t - 1) = Some v /\
  exists x i, n_element P S (n_front t) (n_back t) (n_off t - 1) = Some (x, i) /\ n_cur t = Some (x, i) /\ scont s x i = Some v.
Proof.
  intros I. destruct (ni_ext _ _ _ I) as (pages & contents & cl & X & El & Hl & Hne & Hc). pose proof (ni_off _ _ _ I) as Ho.
  assert (Hoff : 1 <= n_off t).
  { destruct pages as [|p ps]; [|apply Hne; discriminate]. pose proof (x_ok _ _ _ _ X) as F. inversion F; subst contents. simpl in El. subst cl.
    rewrite app_length in Hl. simpl in Hl. lia. }
  assert (V : ncell t s (n_off t - 1) = Some v).
  { destruct (exists_last (l := cl)) as (cl' & v' & ->); [intros ->; simpl in Hl; lia|]. rewrite app_assoc in El. apply app_inj_tail in El.
    destruct El as (_ & ->). rewrite app_length in Hl. simpl in Hl. rewrite Hc by lia. rewrite nth_error_snoc.
    destruct (Nat.eqb_spec (n_off t - 1) (length cl')); [reflexivity|lia]. }
  split; [exact Hoff|]. split; [exact V|]. rewrite (ni_cur _ _ _ I) by lia. unfold n_element, ncell, cell in *.
  destruct (Nat.ltb (n_off t - 1) PS); eexists; eexists; split; try reflexivity; split; try reflexivity; exact V.
Qed.
Lemma n_top_ok l v t s : ninv (l ++ [v]) t s -> srun (n_top A t) s = Done v s.
Proof.
  intros I. destruct (n_cur_last l v t s I) as (_ & _ & x & i & _ & E & V). unfold n_top.
  rewrite (ni_size _ _ _ I), app_length. simpl. destruct (Nat.eqb_spec (length l + 1) 0); [lia|]. rewrite E. simpl. rewrite (ni_out _ _ _ I). simpl. rewrite V. reflexivity.
Qed.
Lemma n_set_ok l v w t s : ninv (l ++ [v]) t s -> ok (n_set A w t) s (fun _ s' => ninv (l ++ [w]) t s').
Proof.
  intros I. destruct (n_cur_last l v t s I) as (Hoff & _ & x & i & Ee & E & V). unfold n_set.
  rewrite (ni_size _ _ _ I), app_length. simpl. destruct (Nat.eqb_spec (length l + 1) 0); [lia|]. rewrite E. unfold ok. simpl. rewrite (ni_out _ _ _ I). simpl.
  pose proof (ni_off _ _ _ I) as Ho.
  destruct (n_put _ t s (n_off t - 1) w I ltac:(lia)) as (x' & i' & Ee' & Hs & Hother). rewrite Ee in Ee'. injection Ee' as <- <-.
  rewrite (ni_out _ _ _ I) in Hs, Hother. set (s1 := mk_sstate _ _ _ _ _ _) in *.
  destruct (ni_ext _ _ _ I) as (pages & contents & cl & X & El & Hl & Hne & Hc).
  destruct (exists_last (l := cl)) as (cl' & v' & ->); [intros ->; simpl in Hl; lia|]. rewrite app_assoc in El. apply app_inj_tail in El. destruct El as (El & <-).
  rewrite app_length in Hl. simpl in Hl.
  constructor; try apply I; auto.
  - exists pages, contents, (cl' ++ [w]). split; [|split; [|split; [|split]]].
    + apply (onext_same s); [exact X|reflexivity|intros b Hb; exact Hb].
    + rewrite El, app_assoc. reflexivity.
    + rewrite app_length. simpl. lia.
    + exact Hne.
    + intros j Hj. rewrite nth_error_snoc. destruct (Nat.eqb_spec j (length cl')) as [->|Nj].
      * replace (length cl') with (n_off t - 1) by lia. exact Hs.
      * rewrite Hother by lia. rewrite Hc by lia. rewrite nth_error_app1 by lia. reflexivity.
  - rewrite (ni_size _ _ _ I), !app_length. reflexivity.
Qed.

(** * grow_shrink_stack *)
Record ginv (l : list A) (t : gstack) (s : sstate) : Prop := mk_ginv {
  gi_ext : exists pages contents cl, onext s (g_bids t) pages contents /\ l = concat contents ++ cl /\ length cl = g_off t /\
           (pages <> [] -> 1 <= g_off t) /\ (forall i, i < g_off t -> cell s (g_cache t) i = nth_error cl i) /\
           (pages <> [] -> forall i, i < PS -> cell s (g_over t) i = nth_error (last contents []) i);
  gi_off : g_off t <= PS;
  gi_size : g_size t = length l;
  gi_out : forall r, In r (sout s) -> In (a_id r) (somes (g_reqs t)) /\ g_over t <= a_buf r < g_over t + P /\ In (a_bid r) (sown s);
  gi_reqs : length (g_reqs t) = P /\ (g_reqs t = repeat None P \/ exists qs, g_reqs t = map Some qs) /\ forall q, In q (somes (g_reqs t)) -> q < snext s;
  gi_pages : (g_cache t = 0 /\ g_over t = P) \/ (g_cache t = P /\ g_over t = 0);
  gi_cur : 0 < g_off t -> g_cur t = Some (g_cache t + (g_off t - 1) / S, (g_off t - 1) mod S) }.

Lemma somes_map_some l : somes (map Some l) = l.
Proof. induction l as [|q l IH]; [reflexivity|]. simpl. rewrite IH. reflexivity. Qed.
Lemma somes_repeat_none n : somes (repeat None n) = [].
Proof. induction n; auto. Qed.

Lemma g_init_inv al : ginv [] (g_init P) (sinit al).
Proof.
  constructor; simpl; auto; try lia.
  - exists [], [], []. split; [|split; [reflexivity|split; [reflexivity|split; [congruence|split; [lia|congruence]]]]].
    constructor; simpl; [reflexivity|constructor|constructor|intros b []].
  - rewrite repeat_length, somes_repeat_none. split; [reflexivity|]. split; [auto|intros q []].
Qed.

Lemma srun_g_loop R rq : forall xs bs (k : list nat -> prog A R) s, length rq = length xs -> length xs = length bs -> NoDup bs ->
  (forall b, In b bs -> In b (sown s)) -> (forall q, In q (somes rq) -> q < snext s) ->
  (forall r, In r (sout s) -> ~ In (a_bid r) bs) -> (forall r, In r (sout s) -> a_write r = false -> ~ In (a_buf r) xs) ->
  srun (g_loop A rq xs bs k) s = srun (k (seq (snext s) (length xs)))
    (mk_sstate (scont s) (wr_disk (sdisk s) (scont s) xs bs) (drops (somes rq) (sout s) ++ reqs true (snext s) xs bs) (sown s) (snext s + length xs) (salloc s)).
Proof.
  induction rq as [|o rq IH]; intros xs bs k s Lq Hl N Ho Hq Hb Hx.
  - destruct xs; [|discriminate]. destruct bs; [|discriminate]. simpl. rewrite app_nil_r, Nat.add_0_r. rewrite drops_none; [destruct s; reflexivity|]. intros r _ [].
  - destruct xs as [|x xs]; [discriminate|]. destruct bs as [|b bs]; [discriminate|]. simpl in Lq, Hl. injection Lq as Lq. injection Hl as Hl. inversion N; subst.
    assert (G : forall o', (forall r, In r o' -> In r (sout s)) -> forall st,
      st = mk_sstate (scont s) (sdisk s) o' (sown s) (snext s) (salloc s) ->
      srun (DoWrite x b (fun q => g_loop A rq xs bs (fun qs => k (q :: qs)))) st =
      srun (k (seq (snext s) (length (x :: xs)))) (mk_sstate (scont s) (wr_disk (sdisk s) (scont s) (x :: xs) (b :: bs))
        (drops (somes rq) o' ++ reqs true (snext s) (x :: xs) (b :: bs)) (sown s) (snext s + length (x :: xs)) (salloc s))).
    { intros o' Hin st ->. simpl.
      assert (C1 : mem b (sown s) = true) by (apply mem_in, Ho; left; reflexivity).
      assert (C2 : existsb (reads (on_buf x)) o' = false).
      { apply existsb_false. intros r Hr. unfold reads. destruct (a_write r) eqn:W; [reflexivity|]. simpl. apply Nat.eqb_neq. intros E.
        apply (Hx r (Hin r Hr) W). left. auto. }
      assert (C3 : existsb (on_bid b) o' = false).
      { apply existsb_false. intros r Hr. apply Nat.eqb_neq. intros E. apply (Hb r (Hin r Hr)). left. auto. }
      rewrite C1, C2, C3. simpl. rewrite IH; simpl; auto.
      - rewrite Nat.add_succ_r. do 2 f_equal. rewrite drops_app, <- app_assoc. f_equal.
        rewrite (drops_none (somes rq) [_]); [reflexivity|]. intros r [<-|[]] C. simpl in C.
        assert (snext s < snext s); [|lia]. apply Hq. destruct o; simpl; auto.
      - intros c Hc. apply Ho. right. exact Hc.
      - intros q Hin'. assert (q < snext s); [|lia]. apply Hq. destruct o; simpl; auto.
      - intros r Hr C. apply in_app_iff in Hr. destruct Hr as [Hr|[<-|[]]]; [apply (Hb r (Hin r Hr)); right; exact C|]. simpl in C. contradiction.
      - intros r Hr W C. apply in_app_iff in Hr. destruct Hr as [Hr|[<-|[]]]; [apply (Hx r (Hin r Hr) W); right; exact C|discriminate]. }
    cbn [g_loop]. destruct o as [p|].
    + etransitivity; [apply (G (drop_id p (sout s))); [intros r Hr; apply drop_id_in in Hr; apply Hr|reflexivity]|].
      rewrite drops_cons. reflexivity.
    + rewrite (G (sout s)); [reflexivity|auto|destruct s; reflexivity].
Qed.

Lemma last_snoc {B} (l : list B) x d : last (l ++ [x]) d = x.
Proof. induction l as [|y l IH]; [reflexivity|]. simpl. rewrite IH. destruct l; reflexivity. Qed.

(** an element of the cache page can be accessed *)
Lemma g_quiet l t s i : ginv l t s -> i < PS -> existsb (on_buf (g_cache t + i / S)) (sout s) = false.
Proof.
  intros I Hi. apply existsb_false. intros r Hr. unfold on_buf. apply Nat.eqb_neq. destruct (gi_out _ _ _ I r Hr) as (_ & H & _).
  pose proof (div_lt i Hi). destruct (gi_pages _ _ _ I) as [(E1 & E2)|(E1 & E2)]; rewrite E1, E2 in *; lia.
Qed.
Lemma quiet_reads x (l : list areq) : existsb (on_buf x) l = false -> existsb (reads (on_buf x)) l = false.
Proof. rewrite !existsb_false. intros H r Hr. unfold reads. rewrite H by exact Hr. apply andb_false_r. Qed.
Lemma g_put l t s off v al : ginv l t s -> off < PS ->
  let s' := mk_sstate (upd2 (scont s) (g_cache t + off / S) (off mod S) (Some v)) (sdisk s) (sout s) (sown s) (snext s) al in
  cell s' (g_cache t) off = Some v /\ (forall j, j < PS -> j <> off -> cell s' (g_cache t) j = cell s (g_cache t) j) /\
  (forall j, j < PS -> cell s' (g_over t) j = cell s (g_over t) j).
Proof.
  intros I Ho s'. split; [apply cell_upd_same; exact Ho|]. pose proof (div_lt off Ho). split; intros j Hj.
  - intro Nj. apply cell_upd_other; intros; [auto|congruence].
  - pose proof (div_lt j Hj). apply cell_upd_other; destruct (gi_pages _ _ _ I) as [(E1 & E2)|(E1 & E2)]; rewrite E1, E2; intros; lia.
Qed.

Lemma g_push_ok l v t s : ginv l t s -> ok (g_push A P S v t) s (fun t' s' => ginv (l ++ [v]) t' s').
Proof.
  intros I. pose proof (gi_off _ _ _ I) as Ho. pose proof (gi_out _ _ _ I) as Hout. destruct (gi_reqs _ _ _ I) as (R1 & R2 & R3).
  destruct (gi_ext _ _ _ I) as (pages & contents & cl & X & El & Hl & Hne & Hc & Hov).
  unfold g_push. destruct (Nat.ltb_spec PS (g_off t)); [lia|].
  destruct (Nat.eqb_spec (g_off t) PS) as [E|E].
  - unfold ok. simpl. destruct (salloc s) as [|nb al]; [exact Logic.I|]. destruct (good_alloc P (sown s) nb) eqn:G; [|exact Logic.I].
    apply good_alloc_spec in G. destruct G as (G1 & G2 & G3).
    set (s0 := mk_sstate (scont s) (fun b => if mem b nb then fun _ => None else sdisk s b) (sout s) (nb ++ sown s) (snext s) al).
    rewrite srun_g_loop; auto.
    2:{ rewrite seq_length. exact R1. }
    2:{ rewrite seq_length. auto. }
    2:{ intros b Hb. simpl. apply in_app_iff. auto. }
    2:{ simpl. intros r Hr C. apply (G3 _ C). apply Hout. exact Hr. }
    2:{ simpl. intros r Hr _ C. apply in_seq in C. destruct (Hout r Hr) as (_ & C' & _).
        destruct (gi_pages _ _ _ I) as [(E1 & E2)|(E1 & E2)]; rewrite E1, E2 in *; lia. }
    rewrite (drops_all (somes (g_reqs t))) by (intros r Hr; apply Hout; exact Hr).
    cbn [srun sout scont sdisk sown snext salloc app].
    assert (existsb (on_buf (g_over t)) (reqs true (snext s0) (seq (g_cache t) P) nb) = false) as ->.
    { apply existsb_false. intros r Hr. apply reqs_in in Hr. destruct Hr as (_ & _ & Hr & _). apply in_seq in Hr. apply Nat.eqb_neq.
      destruct (gi_pages _ _ _ I) as [(E1 & E2)|(E1 & E2)]; rewrite E1, E2 in *; lia. }
    set (s1 := mk_sstate (upd2 _ _ _ _) _ _ _ _ _).
    assert (D1 : sdisk s1 = wr_disk (sdisk s0) (scont s0) (seq (g_cache t) P) nb) by reflexivity.
    assert (HX : onext s1 (g_bids t ++ nb) (pages ++ [nb]) (contents ++ [cl])).
    { apply (onext_push s); auto.
      - intros q Dq Lq i Hi. rewrite (page_write_other s0 s1 _ _ q D1 Lq Dq i Hi). unfold page_on, s0. simpl.
        rewrite (proj2 (mem_nin _ _)); [reflexivity|]. intro C. apply (Dq _ C). apply nth_in_page; assumption.
      - split; [exact G1|]. split; [lia|]. intros i Hi. rewrite (page_write s0 s1 (g_cache t) nb D1 G1 G2 i Hi). apply Hc. lia.
      - intros b Hb. simpl. apply in_app_iff. auto.
      - intros b Hb. simpl. apply in_app_iff. auto. }
    constructor; simpl; try lia.
    + exists (pages ++ [nb]), (contents ++ [cl]), [v]. split; [exact HX|]. split; [|split; [|split; [|split]]].
      * rewrite El, concat_app. simpl. rewrite app_nil_r, <- app_assoc. reflexivity.
      * reflexivity.
      * lia.
      * intros i Hi. assert (i = 0) as -> by lia. unfold cell. simpl. rewrite Nat.div_0_l, Nat.mod_0_l, Nat.add_0_r by lia. unfold upd2. rewrite !upd_same. reflexivity.
      * intros _ i Hi. rewrite last_snoc. rewrite <- Hc by lia. unfold cell. simpl. unfold upd2. rewrite upd_other; [reflexivity|].
        pose proof (div_lt i Hi). destruct (gi_pages _ _ _ I) as [(E1 & E2)|(E1 & E2)]; rewrite E1, E2 in *; lia.
    + rewrite app_length, (gi_size _ _ _ I). reflexivity.
    + intros r Hr. apply reqs_in in Hr. rewrite seq_length in Hr. destruct Hr as (H1 & _ & H2 & H3). rewrite somes_map_some.
      split; [apply in_seq; rewrite seq_length; exact H1|]. split; [apply in_seq in H2; lia|]. apply in_app_iff. auto.
    + rewrite map_length, !seq_length, somes_map_some. split; [reflexivity|]. split; [right; eauto|]. intros q Hq. apply in_seq in Hq. lia.
    + destruct (gi_pages _ _ _ I) as [(-> & ->)|(-> & ->)]; auto.
    + intros _. rewrite Nat.div_0_l, Nat.mod_0_l, Nat.add_0_r by lia. reflexivity.
  - unfold ok, put_at. cbn [srun]. rewrite (g_quiet l t s (g_off t) I) by lia.
    destruct (g_put l t s (g_off t) v (salloc s) I ltac:(lia)) as (Hs & Hother & Hover).
    set (s1 := mk_sstate _ _ _ _ _ _) in *.
    constructor; simpl; try lia; auto.
    + exists pages, contents, (cl ++ [v]). split; [|split; [|split; [|split; [|split]]]].
      * apply (onext_same s); [exact X|reflexivity|intros b Hb; exact Hb].
      * rewrite El, app_assoc. reflexivity.
      * rewrite app_length. simpl. lia.
      * lia.
      * intros j Hj. rewrite nth_error_snoc, Hl.
        destruct (Nat.eqb_spec j (g_off t)) as [->|Nj]; [exact Hs|]. rewrite Hother by lia. apply Hc. lia.
      * intros Hp j Hj. rewrite Hover by exact Hj. apply Hov; assumption.
    + rewrite app_length, (gi_size _ _ _ I). reflexivity.
    + apply I.
    + intros _. replace (g_off t + 1 - 1) with (g_off t) by lia. reflexivity.
Qed.

Lemma g_pop_ok l v t s : ginv (l ++ [v]) t s -> ok (g_pop A P S t) s (fun t' s' => ginv l t' s').
Proof.
  intros I. pose proof (gi_off _ _ _ I) as Ho. pose proof (gi_out _ _ _ I) as Hout. pose proof (gi_size _ _ _ I) as Hsz. destruct (gi_reqs _ _ _ I) as (R1 & R2 & R3).
  destruct (gi_ext _ _ _ I) as (pages & contents & cl & X & El & Hl & Hne & Hc & Hov).
  rewrite app_length in Hsz. simpl in Hsz.
  assert (Hoff : 1 <= g_off t).
  { destruct pages as [|p ps]; [|apply Hne; discriminate]. pose proof (x_ok _ _ _ _ X) as F. inversion F; subst contents. simpl in El. subst cl.
    rewrite app_length in Hl. simpl in Hl. lia. }
  assert (Hcl : exists cl', cl = cl' ++ [v] /\ l = concat contents ++ cl').
  { destruct (exists_last (l := cl)) as (cl' & v' & ->); [intros ->; simpl in Hl; lia|]. rewrite app_assoc in El. apply app_inj_tail in El.
    destruct El as (-> & ->). eauto. }
  destruct Hcl as (cl' & -> & El'). rewrite app_length in Hl. simpl in Hl.
  unfold g_pop. destruct (Nat.ltb_spec PS (g_off t)); [lia|]. destruct (Nat.eqb_spec (g_off t) 0); [lia|].
  destruct (Nat.eqb_spec (g_size t) 0); [lia|]. simpl orb. cbv iota.
  destruct (Nat.eqb_spec (g_off t) 1) as [E1|E1]; simpl andb; [destruct (Nat.leb_spec P (length (g_bids t))) as [HL|HL]|]; cbv iota.
  - destruct (onext_nonempty _ _ _ _ X HL) as (ps & p & cs & c & -> & -> & X' & Hp & -> & -> & Np & Op & Dp).
    destruct cl'; [|simpl in Hl; lia]. rewrite app_nil_r in El'. clear El.
    rewrite last_snoc in Hov. specialize (Hov ltac:(destruct ps; discriminate)).
    set (st := mk_sstate (scont s) (sdisk s) [] (sown s) (snext s) (salloc s)).
    match goal with |- ok (_ ?k) _ _ => set (body := k) end.
    assert (W : srun (match g_reqs t with Some _ :: _ => fun k => wait_all (somes (g_reqs t)) k | _ => fun k => k end body) s = srun body st).
    { destruct R2 as [R2|(qs & R2)].
      - rewrite R2. assert (sout s = []) as E0.
        { destruct (sout s) as [|r o] eqn:Es; [reflexivity|]. destruct (Hout r (or_introl eq_refl)) as (C & _). rewrite R2, somes_repeat_none in C. destruct C. }
        destruct P; [lia|]. simpl. unfold st. rewrite <- E0. destruct s; reflexivity.
      - rewrite R2 in *. destruct qs as [|q qs]; [simpl in R1; lia|]. cbv beta iota delta [map]. fold (map (@Some nat)).
        change (Some q :: map Some qs) with (map Some (q :: qs)). rewrite srun_wait_all. rewrite drops_all; [reflexivity|]. intros r Hr. apply Hout. exact Hr. }
    unfold ok. rewrite W. unfold body. clear W body.
    rewrite (x_bids _ _ _ _ X).
    rewrite (proj1 (pages_len _ _ _ (x_ok _ _ _ _ X))), app_length. simpl length.
    assert (FREE : forall o, (forall r, In r o -> In (a_bid r) (concat ps)) -> forall k c1 d n al, srun (DoFree p k) (mk_sstate c1 d o (sown s) n al) =
      srun (k : prog A gstack) (mk_sstate c1 d o (without p (sown s)) n al)).
    { intros o Hin k c1 d n1 al. simpl. rewrite (proj2 (nodup_spec p) Np). simpl.
      assert (existsb (fun b => negb (mem b (sown s))) p = false) as ->.
      { apply existsb_false. intros b Hb. apply negb_false_iff, mem_in, Op, Hb. }
      assert (existsb (fun r => mem (a_bid r) p) o = false) as ->.
      { apply existsb_false. intros r Hr. apply mem_nin. intro C. apply (Dp _ C). apply Hin. exact Hr. }
      reflexivity. }
    assert (DIV : Some (g_over t + (P - 1), S - 1) = Some (g_over t + (PS - 1) / S, (PS - 1) mod S)).
    { assert (PS - 1 = S * (P - 1) + (S - 1)) as -> by nia.
      rewrite <- (Nat.div_unique (S * (P - 1) + (S - 1)) S (P - 1) (S - 1)) by lia.
      rewrite <- (Nat.mod_unique (S * (P - 1) + (S - 1)) S (P - 1) (S - 1)) by lia. reflexivity. }
    assert (INC : incl (concat ps) (without p (sown s))).
    { intros b Hb. apply without_in. split; [apply X', Hb|]. intro C. apply (Dp b C Hb). }
    destruct (Nat.ltb_spec P (P * (length ps + 1))) as [HB|HB].
    + assert (HL2 : P <= length (concat ps)). { rewrite (proj1 (pages_len _ _ _ (x_ok _ _ _ _ X'))). clear - HB HP. destruct (length ps); [lia|nia]. }
      destruct (onext_nonempty _ _ _ _ X' HL2) as (ps2 & p2 & cs2 & c2 & E2 & E2' & _ & Hp2 & -> & _ & Np2 & Op2 & _).
      rewrite srun_read_all; try (simpl; intros r []); auto.
      2:{ rewrite !rev_length, seq_length. symmetry. apply Hp2. }
      2:{ apply NoDup_rev, seq_NoDup. }
      2:{ simpl. intros b Hb. apply Op2. apply in_rev. exact Hb. }
      cbn [sout scont sdisk sown snext salloc st app].
      assert (IN2 : forall b, In b p2 -> In b (concat ps)). { intros b Hb. rewrite E2, concat_app. apply in_app_iff. right. simpl. rewrite app_nil_r. exact Hb. }
      rewrite FREE.
      2:{ intros r Hr. apply reqs_in in Hr. apply IN2, in_rev. apply Hr. }
      cbn [srun]. set (s1 := mk_sstate _ _ _ _ _ _).
      assert (C1 : scont s1 = rd_cont (scont s) (sdisk s) (rev (seq (g_cache t) P)) (rev p2)) by reflexivity.
      constructor; simpl; try lia; auto.
      * exists ps, cs, c. split; [|split; [|split; [|split; [|split]]]].
        -- apply (onext_sub s); [exact X'|reflexivity|exact INC].
        -- rewrite El', concat_app. simpl. rewrite app_nil_r. reflexivity.
        -- apply Hp.
        -- intros _. exact PS1.
        -- intros i Hi. rewrite (page_read_other s s1 _ _ (g_over t) C1); [apply Hov; exact Hi| |exact Hi].
           intros j Hj. destruct (gi_pages _ _ _ I) as [(F1 & F2)|(F1 & F2)]; rewrite F1, F2; lia.
        -- intros _ i Hi. rewrite E2', last_snoc. rewrite (page_read s s1 (g_cache t) p2 C1); [|apply Hp2|exact Hi]. apply Hp2. exact Hi.
      * intros r Hr. apply reqs_in in Hr. rewrite rev_length, seq_length in Hr. destruct Hr as (H1 & _ & H2 & H3). rewrite somes_map_some.
        split; [apply -> in_rev; apply in_seq; rewrite rev_length, seq_length; exact H1|]. split; [apply in_rev, in_seq in H2; lia|].
        apply INC, IN2, in_rev, H3.
      * rewrite map_length, rev_length, !seq_length, rev_length, seq_length, somes_map_some. split; [reflexivity|]. split; [right; eauto|].
        intros q Hq. apply in_rev, in_seq in Hq. lia.
      * destruct (gi_pages _ _ _ I) as [(-> & ->)|(-> & ->)]; auto.
    + assert (ps = []) as -> by (destruct ps; [reflexivity|simpl in HB; nia]). unfold st. rewrite FREE by (intros r []). cbn [srun].
      set (s1 := mk_sstate _ _ _ _ _ _).
      pose proof (x_ok _ _ _ _ X') as F. inversion F; subst cs.
      constructor; simpl; try lia; auto.
      * exists [], [], c. split; [|split; [|split; [|split; [|split]]]].
        -- apply (onext_sub s); [exact X'|reflexivity|exact INC].
        -- rewrite El'. simpl. rewrite app_nil_r. reflexivity.
        -- apply Hp.
        -- congruence.
        -- intros i Hi. apply Hov. exact Hi.
        -- congruence.
      * destruct (gi_pages _ _ _ I) as [(-> & ->)|(-> & ->)]; auto.
  - assert (pages = []) as ->.
    { destruct pages as [|p ps]; [reflexivity|]. exfalso. pose proof (pages_len _ _ _ (x_ok _ _ _ _ X)) as (L & _). rewrite (x_bids _ _ _ _ X) in HL. rewrite L in HL. simpl in HL. nia. }
    unfold ok. simpl. constructor; simpl; try lia; auto.
    + exists [], contents, cl'. split; [exact X|]. split; [exact El'|]. split; [lia|]. split; [congruence|]. split; [|congruence]. intros i Hi.
      rewrite Hc by lia. rewrite nth_error_app1 by lia. reflexivity.
    + apply I.
  - unfold ok. simpl. constructor; simpl; try lia; auto.
    + exists pages, contents, cl'. split; [exact X|]. split; [exact El'|]. split; [lia|]. split; [lia|]. split; [|exact Hov]. intros i Hi.
      rewrite Hc by lia. rewrite nth_error_app1 by lia. reflexivity.
    + apply I.
    + intros _. replace (g_off t - 1 - 1) with (g_off t - 2) by lia. reflexivity.
Qed.

Lemma g_cur_last l v t s : ginv (l ++ [v]) t s -> 1 <= g_off t /\ cell s (g_cache t) (g_off t - 1) = Some v.
Proof.
  intros I. destruct (gi_ext _ _ _ I) as (pages & contents & cl & X & El & Hl & Hne & Hc & _). pose proof (gi_off _ _ _ I) as Ho.
  assert (Hoff : 1 <= g_off t).
  { destruct pages as [|p ps]; [|apply Hne; discriminate]. pose proof (x_ok _ _ _ _ X) as F. inversion F; subst contents. simpl in El. subst cl.
    rewrite app_length in Hl. simpl in Hl. lia. }
  split; [exact Hoff|].
  destruct (exists_last (l := cl)) as (cl' & v' & ->); [intros ->; simpl in Hl; lia|]. rewrite app_assoc in El. apply app_inj_tail in El.
  destruct El as (_ & ->). rewrite app_length in Hl. simpl in Hl. rewrite Hc by lia. rewrite nth_error_snoc.
  destruct (Nat.eqb_spec (g_off t - 1) (length cl')); [reflexivity|lia].
Qed.
Lemma g_top_ok l v t s : ginv (l ++ [v]) t s -> srun (g_top A t) s = Done v s.
Proof.
  intros I. destruct (g_cur_last l v t s I) as (H & V). unfold g_top. pose proof (gi_off _ _ _ I).
  rewrite (gi_size _ _ _ I), app_length. simpl. destruct (Nat.eqb_spec (length l + 1) 0); [lia|]. rewrite (gi_cur _ _ _ I) by lia. cbn [get_at srun].
  rewrite quiet_reads by (apply (g_quiet _ _ _ _ I); lia). unfold cell in V. rewrite V. reflexivity.
Qed.
Lemma g_set_ok l v w t s : ginv (l ++ [v]) t s -> ok (g_set A w t) s (fun _ s' => ginv (l ++ [w]) t s').
Proof.
  intros I. destruct (g_cur_last l v t s I) as (H & V). unfold g_set. pose proof (gi_off _ _ _ I) as Ho.
  rewrite (gi_size _ _ _ I), app_length. simpl. destruct (Nat.eqb_spec (length l + 1) 0); [lia|]. rewrite (gi_cur _ _ _ I) by lia. unfold ok. cbn [put_at srun].
  rewrite (g_quiet _ _ _ _ I) by lia.
  destruct (g_put _ t s (g_off t - 1) w (salloc s) I ltac:(lia)) as (Hs & Hother & Hover).
  set (s1 := mk_sstate _ _ _ _ _ _) in *.
  destruct (gi_ext _ _ _ I) as (pages & contents & cl & X & El & Hl & Hne & Hc & Hov).
  destruct (exists_last (l := cl)) as (cl' & v' & ->); [intros ->; simpl in Hl; lia|]. rewrite app_assoc in El. apply app_inj_tail in El. destruct El as (El & <-).
  rewrite app_length in Hl. simpl in Hl.
  constructor; try apply I; auto.
  - exists pages, contents, (cl' ++ [w]). split; [|split; [|split; [|split; [|split]]]].
    + apply (onext_same s); [exact X|reflexivity|intros b Hb; exact Hb].
    + rewrite El, app_assoc. reflexivity.
    + rewrite app_length. simpl. lia.
    + exact Hne.
    + intros j Hj. rewrite nth_error_snoc. destruct (Nat.eqb_spec j (length cl')) as [->|Nj].
      * replace (length cl') with (g_off t - 1) by lia. exact Hs.
      * rewrite Hother by lia. rewrite Hc by lia. rewrite nth_error_app1 by lia. reflexivity.
    + intros Hp j Hj. rewrite Hover by exact Hj. apply Hov; assumption.
  - rewrite (gi_size _ _ _ I), !app_length. reflexivity.
Qed.

(** * grow_shrink_stack2 *)
Definition blockok (s : sstate) (b : nat) (c : list A) : Prop := length c = S /\ forall i, i < S -> sdisk s b i = nth_error c i.
Record s2inv (l : list A) (t : s2stack) (s : sstate) : Prop := mk_s2inv {
  s2_ext : exists contents cl, Forall2 (blockok s) (s_bids t) contents /\ l = concat contents ++ cl /\ length cl = s_off t /\
           (s_bids t <> [] -> 1 <= s_off t) /\ forall i, i < s_off t -> scont s (s_cache t) i = nth_error cl i;
  s2_nd : NoDup (s_bids t);
  s2_own : incl (s_bids t) (sown s);
  s2_off : s_off t <= S;
  s2_size : s_size t = length l;
  s2_out : sout s = [] }.

Lemma s_init_inv n al : s2inv [] (s_init n) (sinit al).
Proof.
  constructor; simpl; auto; try lia; [|constructor|intros b []].
  exists [], []. split; [constructor|]. split; [reflexivity|]. split; [reflexivity|]. split; [congruence|lia].
Qed.
Lemma blocks_same s s' bs cs : Forall2 (blockok s) bs cs -> (forall b, In b bs -> sdisk s' b = sdisk s b) -> Forall2 (blockok s') bs cs.
Proof.
  induction 1 as [|b c bs cs (H1 & H2) H3 IH]; intro E; constructor.
  - split; [exact H1|]. intros i Hi. rewrite E by (left; reflexivity). apply H2. exact Hi.
  - apply IH. intros x Hx. apply E. right. exact Hx.
Qed.
Lemma touch_ok R from to n (k : prog A R) : (from < to \/ (0 <= to /\ from < Z.of_nat n))%Z -> touch A from to n k = k.
Proof.
  intro H. unfold touch, in_range. destruct (Z.ltb_spec from to); [reflexivity|].
  destruct (Z.leb_spec 0 from), (Z.ltb_spec from (Z.of_nat n)), (Z.leb_spec 0 to), (Z.ltb_spec to (Z.of_nat n)); try reflexivity; lia.
Qed.
Lemma rehint_ok R bids aggr (k : prog A R) : s_rehint A bids aggr k = k.
Proof. unfold s_rehint. apply touch_ok. lia. Qed.

Lemma s_push_ok l v t s : s2inv l t s -> ok (s_push A S v t) s (fun t' s' => s2inv (l ++ [v]) t' s').
Proof.
  intros I. destruct (s2_ext _ _ _ I) as (contents & cl & F & El & Hl & Hne & Hc). pose proof (s2_off _ _ _ I) as Ho. pose proof (s2_out _ _ _ I) as Hout.
  unfold s_push. destruct (Nat.ltb_spec S (s_off t)); [lia|]. destruct (Nat.eqb_spec (s_off t) S) as [E|E].
  - unfold ok. cbn [srun]. destruct (salloc s) as [|nb al]; [exact Logic.I|]. destruct (good_alloc 1 (sown s) nb) eqn:G; [|exact Logic.I].
    apply good_alloc_spec in G. destruct G as (G1 & G2 & G3). destruct nb as [|b [|]]; try discriminate.
    specialize (G3 b (or_introl eq_refl)).
    rewrite touch_ok by (rewrite app_length; simpl; lia). simpl. rewrite Hout, Nat.eqb_refl. simpl. rewrite Nat.eqb_refl. simpl.
    assert (Nb : ~ In b (s_bids t)) by (intro C; apply G3, (s2_own _ _ _ I), C).
    constructor; simpl; try lia.
    + exists (contents ++ [cl]), [v]. split; [|split; [|split; [|split]]].
      * apply Forall2_app.
        -- apply (blocks_same s); [exact F|]. intros c Hx. simpl. rewrite upd_other by congruence. destruct (Nat.eqb_spec b c); [congruence|reflexivity].
        -- constructor; [|constructor]. split; [lia|]. intros i Hi. simpl. rewrite upd_same. apply Hc. lia.
      * rewrite El, concat_app. simpl. rewrite app_nil_r, <- app_assoc. reflexivity.
      * reflexivity.
      * lia.
      * intros i Hi. assert (i = 0) as -> by lia. unfold upd2. rewrite !upd_same. reflexivity.
    + apply nodup_app_intro; [apply I|exact G2|]. intros c Hx [<-|[]]. contradiction.
    + intros c Hx. apply in_app_iff in Hx. simpl. destruct Hx as [Hx|[Hx|[]]]; [right; apply (s2_own _ _ _ I), Hx|left; exact Hx].
    + rewrite app_length, (s2_size _ _ _ I). reflexivity.
    + reflexivity.
  - unfold ok. simpl. rewrite Hout. simpl. constructor; simpl; try lia; try apply I.
    + exists contents, (cl ++ [v]). split; [|split; [|split; [|split]]].
      * apply (blocks_same s); [exact F|]. reflexivity.
      * rewrite El, app_assoc. reflexivity.
      * rewrite app_length. simpl. lia.
      * lia.
      * intros i Hi. rewrite nth_error_snoc, Hl. unfold upd2. rewrite upd_same. destruct (Nat.eqb_spec i (s_off t)) as [->|N].
        -- apply upd_same.
        -- rewrite upd_other by exact N. apply Hc. lia.
    + rewrite app_length, (s2_size _ _ _ I). reflexivity.
    + reflexivity.
Qed.
Lemma s2_last l v t s : s2inv (l ++ [v]) t s -> 1 <= s_off t /\ s_size t <> 0 /\
  exists contents cl, Forall2 (blockok s) (s_bids t) contents /\ l = concat contents ++ cl /\ length cl + 1 = s_off t /\
    (forall i, i < s_off t -> scont s (s_cache t) i = nth_error (cl ++ [v]) i).
Proof.
  intros I. destruct (s2_ext _ _ _ I) as (contents & cl & F & El & Hl & Hne & Hc).
  assert (Hoff : 1 <= s_off t).
  { destruct (s_bids t) as [|p ps]; [|apply Hne; discriminate]. inversion F; subst contents. simpl in El. subst cl. rewrite app_length in Hl. simpl in Hl. lia. }
  split; [exact Hoff|]. split; [rewrite (s2_size _ _ _ I), app_length; simpl; lia|].
  destruct (exists_last (l := cl)) as (cl' & v' & ->); [intros ->; simpl in Hl; lia|]. rewrite app_assoc in El. apply app_inj_tail in El. destruct El as (El & <-).
  rewrite app_length in Hl. simpl in Hl. exists contents, cl'. auto.
Qed.
Lemma s_pop_ok l v t s : s2inv (l ++ [v]) t s -> ok (s_pop A S t) s (fun t' s' => s2inv l t' s').
Proof.
  intros I. destruct (s2_last l v t s I) as (Hoff & Hs & contents & cl & F & El & Hl & Hc). pose proof (s2_off _ _ _ I) as Ho.
  pose proof (s2_size _ _ _ I) as Hsz. rewrite app_length in Hsz. simpl in Hsz.
  assert (PLAIN : s_off t <> 1 \/ s_bids t = [] -> s2inv l (mk_s2 (s_size t - 1) (s_off t - 1) (s_cache t) (s_bids t) (s_aggr t)) s).
  { intro D. constructor; simpl; try apply I; try lia.
    exists contents, cl. split; [exact F|]. split; [exact El|]. split; [lia|]. split; [intro N; destruct D; [lia|congruence]|].
    intros i Hi. rewrite Hc by lia. rewrite nth_error_app1 by lia. reflexivity. }
  unfold s_pop. destruct (Nat.eqb_spec (s_size t) 0); [lia|]. destruct (Nat.eqb_spec (s_off t) 0); [lia|]. destruct (Nat.ltb_spec S (s_off t)); [lia|]. simpl orb. cbv iota.
  destruct (s_off t) as [|[|o]] eqn:Eo; [lia| |].
  - destruct (rev (s_bids t)) as [|b r] eqn:Er.
    + unfold ok. simpl. apply PLAIN. right. rewrite <- (rev_involutive (s_bids t)), Er. reflexivity.
    + assert (EB : s_bids t = rev r ++ [b]). { rewrite <- (rev_involutive (s_bids t)), Er. reflexivity. }
      rewrite EB in F. apply forall2_snoc_l in F. destruct F as (cs & c & -> & F & Hb).
      pose proof (s2_nd _ _ _ I) as N. rewrite EB in N. apply nodup_app_elim in N. destruct N as (N1 & _ & N3).
      assert (Ob : In b (sown s)). { apply (s2_own _ _ _ I). rewrite EB. apply in_app_iff. right. left. reflexivity. }
      rewrite rehint_ok. unfold ok. simpl. rewrite (proj2 (mem_in _ _) Ob), (s2_out _ _ _ I). simpl. rewrite Nat.eqb_refl. simpl.
      destruct cl; [|simpl in Hl; lia]. rewrite app_nil_r in El.
      constructor; simpl; try lia; auto.
      * exists cs, c. split; [|split; [|split; [|split]]].
        -- apply (blocks_same s); [exact F|]. reflexivity.
        -- rewrite El, concat_app. simpl. rewrite app_nil_r. reflexivity.
        -- apply Hb.
        -- intros _. lia.
        -- intros i Hi. rewrite upd_same. apply Hb. exact Hi.
      * intros x Hx. apply without_in. split; [apply (s2_own _ _ _ I); rewrite EB; apply in_app_iff; auto|]. intros [<-|[]]. apply (N3 b Hx). left. reflexivity.
  - unfold ok. simpl. apply PLAIN. left. lia.
Qed.
Lemma s_top_ok l v t s : s2inv (l ++ [v]) t s -> srun (s_top A S t) s = Done v s.
Proof.
  intros I. destruct (s2_last l v t s I) as (Hoff & Hs & contents & cl & F & El & Hl & Hc). pose proof (s2_off _ _ _ I) as Ho.
  unfold s_top. destruct (Nat.eqb_spec (s_size t) 0); [lia|]. destruct (Nat.eqb_spec (s_off t) 0); [lia|]. destruct (Nat.ltb_spec S (s_off t)); [lia|]. simpl.
  rewrite (s2_out _ _ _ I). simpl. rewrite Hc by lia. rewrite nth_error_snoc. destruct (Nat.eqb_spec (s_off t - 1) (length cl)); [reflexivity|lia].
Qed.
Lemma s_set_ok l v w t s : s2inv (l ++ [v]) t s -> ok (s_set A S w t) s (fun _ s' => s2inv (l ++ [w]) t s').
Proof.
  intros I. destruct (s2_last l v t s I) as (Hoff & Hs & contents & cl & F & El & Hl & Hc). pose proof (s2_off _ _ _ I) as Ho.
  unfold s_set. destruct (Nat.eqb_spec (s_size t) 0); [lia|]. destruct (Nat.eqb_spec (s_off t) 0); [lia|]. destruct (Nat.ltb_spec S (s_off t)); [lia|]. unfold ok. simpl.
  rewrite (s2_out _ _ _ I). simpl. constructor; simpl; try apply I; auto.
  - exists contents, (cl ++ [w]). split; [|split; [|split; [|split]]].
    + apply (blocks_same s); [exact F|]. reflexivity.
    + rewrite El, app_assoc. reflexivity.
    + rewrite app_length. simpl. lia.
    + lia.
    + intros i Hi. rewrite nth_error_snoc. unfold upd2. rewrite upd_same. destruct (Nat.eqb_spec i (length cl)) as [E|N].
      * replace i with (s_off t - 1) by lia. apply upd_same.
      * rewrite upd_other by lia. rewrite Hc by lia. rewrite nth_error_app1 by lia. reflexivity.
  - rewrite (s2_size _ _ _ I), !app_length. reflexivity.
Qed.
Lemma s_setaggr_ok l n t s : s2inv l t s -> ok (s_setaggr A n t) s (fun t' s' => s2inv l t' s').
Proof.
  intros I. unfold s_setaggr. rewrite rehint_ok. assert (J : s2inv l (mk_s2 (s_size t) (s_off t) (s_cache t) (s_bids t) n) s).
  { constructor; simpl; apply I. }
  destruct (Nat.ltb_spec n (s_aggr t)); [rewrite touch_ok by lia|]; exact J.
Qed.

(** * Histories: an implementation that simulates lists one operation at a time *)
Section History.
Variable T : Type.
Variables (push : A -> T -> prog A T) (pop : T -> prog A T) (top : T -> prog A A) (set : A -> T -> prog A unit) (size : T -> nat) (aggr : nat -> T -> prog A T).
Variable inv : list A -> T -> sstate -> Prop.
Hypothesis Hpush : forall l v t s, inv l t s -> ok (push v t) s (fun t' s' => inv (l ++ [v]) t' s').
Hypothesis Hpop : forall l v t s, inv (l ++ [v]) t s -> ok (pop t) s (fun t' s' => inv l t' s').
Hypothesis Htop : forall l v t s, inv (l ++ [v]) t s -> srun (top t) s = Done v s.
Hypothesis Hset : forall l v w t s, inv (l ++ [v]) t s -> ok (set w t) s (fun _ s' => inv (l ++ [w]) t s').
Hypothesis Hsize : forall l t s, inv l t s -> size t = length l.
Hypothesis Haggr : forall l n t s, inv l t s -> ok (aggr n t) s (fun t' s' => inv l t' s').

Lemma do_op_ok o l l' x t s : inv (rev l) t s -> spec_op o l = Some (l', x) ->
  ok (do_op A T push pop top set size aggr o t) s (fun r s' => snd r = x /\ inv (rev l') (fst r) s').
Proof.
  intros I H. destruct o as [v| | |v| |n]; simpl in H; simpl do_op.
  - injection H as <- <-. apply ok_bind. apply (ok_imp _ _ _ _ _ _ (Hpush _ v _ _ I)). intros t' s' J. split; [reflexivity|exact J].
  - destruct l as [|v l]; [discriminate|]. injection H as <- <-. apply ok_bind. apply (ok_imp _ _ _ _ _ _ (Hpop _ v _ _ I)). intros t' s' J. split; [reflexivity|exact J].
  - destruct l as [|v l]; [discriminate|]. injection H as <- <-. apply ok_bind. unfold ok. rewrite (Htop _ v _ _ I). simpl. split; [reflexivity|exact I].
  - destruct l as [|w l]; [discriminate|]. injection H as <- <-. apply ok_bind. apply (ok_imp _ _ _ _ _ _ (Hset _ w v _ _ I)). intros t' s' J. split; [reflexivity|exact J].
  - injection H as <- <-. unfold ok. simpl. rewrite (Hsize _ _ _ I), rev_length. auto.
  - injection H as <- <-. apply ok_bind. apply (ok_imp _ _ _ _ _ _ (Haggr _ n _ _ I)). intros t' s' J. split; [reflexivity|exact J].
Qed.
Lemma do_ops_ok os : forall l l' xs t s, inv (rev l) t s -> spec_ops os l = Some (l', xs) ->
  ok (do_ops A T push pop top set size aggr os t) s (fun r s' => snd r = xs /\ inv (rev l') (fst r) s').
Proof.
  induction os as [|o os IH]; intros l l' xs t s I H; simpl in H.
  - injection H as <- <-. split; [reflexivity|exact I].
  - destruct (spec_op o l) as [(l1 & x)|] eqn:E; [|discriminate]. destruct (spec_ops os l1) as [(l2 & xs')|] eqn:E2; [|discriminate]. injection H as <- <-.
    cbn [do_ops]. apply ok_bind. apply (ok_imp _ _ _ _ _ _ (do_op_ok o l l1 x t s I E)). intros r s' (Hx & J). apply ok_bind.
    apply (ok_imp _ _ _ _ _ _ (IH l1 l2 xs' (fst r) s' J E2)). intros r' s2 (Hx' & J'). unfold ok. simpl. rewrite Hx, Hx'. auto.
Qed.

Variables (init : T) (crit : nat).
Definition minv (l : list A) (m : mstack A T) (s : sstate) : Prop :=
  match m with MInt l0 => l0 = rev l /\ inv [] init s | MExt t => inv l t s end.
Lemma push_list_ok m : forall l t s, inv l t s -> ok (push_list A T push m t) s (fun t' s' => inv (l ++ m) t' s').
Proof.
  induction m as [|v m IH]; intros l t s I; simpl; [rewrite app_nil_r; exact I|].
  apply ok_bind. apply (ok_imp _ _ _ _ _ _ (Hpush _ v _ _ I)). intros t' s' J. replace (l ++ v :: m) with ((l ++ [v]) ++ m) by (rewrite <- app_assoc; reflexivity).
  apply IH. exact J.
Qed.
Lemma m_op_ok o l l' x m s : minv (rev l) m s -> spec_op o l = Some (l', x) ->
  ok (m_op A T init push pop top set size crit o m) s (fun r s' => snd r = x /\ minv (rev l') (fst r) s').
Proof.
  intros I H. destruct o as [v| | |v| |n]; simpl in H; simpl m_op.
  - injection H as <- <-. apply ok_bind. destruct m as [l0|t]; cbn [m_push minv] in I |- *.
    + destruct I as (E & I). rewrite rev_involutive in E. subst l0. destruct (Nat.eqb (length (v :: l)) crit) eqn:Ec.
      * apply ok_bind. unfold copy_ctor. apply (ok_imp _ _ _ _ _ _ (push_list_ok (rev (v :: l)) [] init s I)). intros t' s' J. split; [reflexivity|exact J].
      * split; [reflexivity|]. cbn [fst minv]. rewrite rev_involutive. auto.
    + apply ok_bind. apply (ok_imp _ _ _ _ _ _ (Hpush _ v _ _ I)). intros t' s' J. split; [reflexivity|exact J].
  - destruct l as [|v l]; [discriminate|]. injection H as <- <-. apply ok_bind. destruct m as [l0|t]; simpl in I |- *.
    + destruct I as (E & I). rewrite rev_app_distr, rev_involutive in E. subst l0. simpl. split; [reflexivity|]. simpl. rewrite rev_involutive. auto.
    + apply ok_bind. apply (ok_imp _ _ _ _ _ _ (Hpop _ v _ _ I)). intros t' s' J. split; [reflexivity|exact J].
  - destruct l as [|v l]; [discriminate|]. injection H as <- <-. apply ok_bind. destruct m as [l0|t].
    + destruct I as (E & I). simpl in E. rewrite rev_app_distr, rev_involutive in E. subst l0. simpl. split; [reflexivity|]. simpl. rewrite rev_app_distr, rev_involutive. auto.
    + simpl in I |- *. unfold ok. rewrite (Htop _ v _ _ I). simpl. split; [reflexivity|exact I].
  - destruct l as [|w l]; [discriminate|]. injection H as <- <-. apply ok_bind. destruct m as [l0|t]; simpl in I |- *.
    + destruct I as (E & I). rewrite rev_app_distr, rev_involutive in E. subst l0. simpl. split; [reflexivity|]. simpl. rewrite rev_app_distr, rev_involutive. auto.
    + apply ok_bind. apply (ok_imp _ _ _ _ _ _ (Hset _ w v _ _ I)). intros t' s' J. split; [reflexivity|exact J].
  - injection H as <- <-. split; [|exact I]. simpl. f_equal. destruct m as [l0|t]; simpl in I |- *.
    + destruct I as (-> & _). rewrite rev_involutive. reflexivity.
    + rewrite (Hsize _ _ _ I), rev_length. reflexivity.
  - injection H as <- <-. split; [reflexivity|exact I].
Qed.
Lemma m_ops_ok os : forall l l' xs m s, minv (rev l) m s -> spec_ops os l = Some (l', xs) ->
  ok (m_ops A T init push pop top set size crit os m) s (fun r s' => snd r = xs /\ minv (rev l') (fst r) s').
Proof.
  induction os as [|o os IH]; intros l l' xs t s I H; simpl in H.
  - injection H as <- <-. split; [reflexivity|exact I].
  - destruct (spec_op o l) as [(l1 & x)|] eqn:E; [|discriminate]. destruct (spec_ops os l1) as [(l2 & xs')|] eqn:E2; [|discriminate]. injection H as <- <-.
    cbn [m_ops]. apply ok_bind. apply (ok_imp _ _ _ _ _ _ (m_op_ok o l l1 x t s I E)). intros r s' (Hx & J). apply ok_bind.
    apply (ok_imp _ _ _ _ _ _ (IH l1 l2 xs' (fst r) s' J E2)). intros r' s2 (Hx' & J'). unfold ok. simpl. rewrite Hx, Hx'. auto.
Qed.
End History.

Lemma normal_ok os l xs al : spec_ops os [] = Some (l, xs) -> ok (normal_history A P S os (n_init P)) (sinit al) (fun r _ => snd r = xs).
Proof.
  intro H. eapply ok_imp; [apply (do_ops_ok nstack (n_push A P S) (n_pop A P S) (n_top A) (n_set A) n_size (no_aggr A) ninv) with (l := []) (l' := l) (xs := xs)|].
  - intros. apply n_push_ok; assumption.
  - intros. eapply n_pop_ok; eassumption.
  - intros. eapply n_top_ok; eassumption.
  - intros. eapply n_set_ok; eassumption.
  - intros l0 t s I. apply (ni_size _ _ _ I).
  - intros l0 n t s I. exact I.
  - exact (n_init_inv al).
  - exact H.
  - intros r s (E & _). exact E.
Qed.
Lemma gs_ok os l xs al : spec_ops os [] = Some (l, xs) -> ok (gs_history A P S os (g_init P)) (sinit al) (fun r _ => snd r = xs).
Proof.
  intro H. eapply ok_imp; [apply (do_ops_ok gstack (g_push A P S) (g_pop A P S) (g_top A) (g_set A) g_size (no_aggr A) ginv) with (l := []) (l' := l) (xs := xs)|].
  - intros. apply g_push_ok; assumption.
  - intros. eapply g_pop_ok; eassumption.
  - intros. eapply g_top_ok; eassumption.
  - intros. eapply g_set_ok; eassumption.
  - intros l0 t s I. apply (gi_size _ _ _ I).
  - intros l0 n t s I. exact I.
  - exact (g_init_inv al).
  - exact H.
  - intros r s (E & _). exact E.
Qed.
Lemma gs2_ok os l xs aggr al : spec_ops os [] = Some (l, xs) -> ok (gs2_history A S os (s_init aggr)) (sinit al) (fun r _ => snd r = xs).
Proof.
  intro H. eapply ok_imp; [apply (do_ops_ok s2stack (s_push A S) (s_pop A S) (s_top A S) (s_set A S) s_size (s_setaggr A) s2inv) with (l := []) (l' := l) (xs := xs)|].
  - intros. apply s_push_ok; assumption.
  - intros. eapply s_pop_ok; eassumption.
  - intros. eapply s_top_ok; eassumption.
  - intros. eapply s_set_ok; eassumption.
  - intros l0 t s I. apply (s2_size _ _ _ I).
  - intros. apply s_setaggr_ok; assumption.
  - exact (s_init_inv aggr al).
  - exact H.
  - intros r s (E & _). exact E.
Qed.
Lemma migrating_normal_ok crit os l xs al : spec_ops os [] = Some (l, xs) -> ok (migrating_normal_history A P S crit os (MInt [])) (sinit al) (fun r _ => snd r = xs).
Proof.
  intro H. eapply ok_imp; [apply (m_ops_ok nstack (n_push A P S) (n_pop A P S) (n_top A) (n_set A) n_size ninv) with (l := []) (l' := l) (xs := xs)|].
  - intros. apply n_push_ok; assumption.
  - intros. eapply n_pop_ok; eassumption.
  - intros. eapply n_top_ok; eassumption.
  - intros. eapply n_set_ok; eassumption.
  - intros l0 t s I. apply (ni_size _ _ _ I).
  - split; [reflexivity|exact (n_init_inv al)].
  - exact H.
  - intros r s (E & _). exact E.
Qed.
Lemma migrating_gs_ok crit os l xs al : spec_ops os [] = Some (l, xs) -> ok (migrating_gs_history A P S crit os (MInt [])) (sinit al) (fun r _ => snd r = xs).
Proof.
  intro H. eapply ok_imp; [apply (m_ops_ok gstack (g_push A P S) (g_pop A P S) (g_top A) (g_set A) g_size ginv) with (l := []) (l' := l) (xs := xs)|].
  - intros. apply g_push_ok; assumption.
  - intros. eapply g_pop_ok; eassumption.
  - intros. eapply g_top_ok; eassumption.
  - intros. eapply g_set_ok; eassumption.
  - intros l0 t s I. apply (gi_size _ _ _ I).
  - split; [reflexivity|exact (g_init_inv al)].
  - exact H.
  - intros r s (E & _). exact E.
Qed.
End Stacks.
