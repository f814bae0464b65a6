(** Proofs about readers over the block cache: simulation of the machine by [BufReaderSpec]. *)
From Coq Require Import List Bool Arith Lia Permutation.
From Verif Require Import BlockCacheModel BlockCacheSpec BlockCacheMach BlockCacheInv BlockCacheStep BlockCacheOps BufReaderModel BufReaderSpec.
Import ListNotations.

Section Lists.
Context {E : Type}.
Lemma concat_nth (ss : nat) (blk : list (list E)) k v : Forall (fun l => length l = ss) blk -> nth_error blk k = Some v ->
  forall j, j < ss -> nth_error (concat blk) (k * ss + j) = nth_error v j.
Proof.
  revert k. induction blk as [|u blk IH]; intros k F H j L; [destruct k; discriminate|].
  inversion F; subst. destruct k as [|k]; cbn [concat nth_error] in *.
  - injection H as <-. cbn. now rewrite nth_error_app1.
  - rewrite nth_error_app2 by lia. rewrite <- (IH k) by auto. f_equal. lia.
Qed.
Lemma concat_sub (ss : nat) (blk : list (list E)) k v : Forall (fun l => length l = ss) blk -> nth_error blk k = Some v ->
  firstn ss (skipn (k * ss) (concat blk)) = v.
Proof.
  revert k. induction blk as [|u blk IH]; intros k F H; [destruct k; discriminate|].
  inversion F; subst. destruct k as [|k]; cbn [concat nth_error] in *.
  - injection H as <-. cbn [Nat.mul skipn]. rewrite firstn_app, Nat.sub_diag, firstn_all. cbn [firstn]. now rewrite app_nil_r.
  - rewrite skipn_app. rewrite skipn_all2 by lia. cbn [app]. rewrite <- (IH k) by auto. do 2 f_equal. lia.
Qed.
Lemma set_at_app (l1 l2 : list E) i e : i < length l1 -> set_at (l1 ++ l2) i e = set_at l1 i e ++ l2.
Proof.
  intros L. unfold set_at. rewrite firstn_app, skipn_app. replace (i - length l1) with 0 by lia. cbn [firstn skipn].
  rewrite app_nil_r. destruct (skipn i l1) as [|a r] eqn:Q; [|now rewrite <- app_assoc].
  apply (f_equal (@length _)) in Q. rewrite skipn_length in Q. cbn in Q. lia.
Qed.
Lemma set_at_app2 (l1 l2 : list E) i e : set_at (l1 ++ l2) (length l1 + i) e = l1 ++ set_at l2 i e.
Proof.
  unfold set_at. rewrite firstn_app_2, skipn_app. rewrite skipn_all2 by lia.
  replace (length l1 + i - length l1) with i by lia. cbn [app]. now rewrite <- app_assoc.
Qed.
Lemma set_at_length (l : list E) i e : length (set_at l i e) = length l.
Proof.
  unfold set_at. rewrite <- (firstn_skipn i l) at 3. rewrite !app_length. f_equal. now destruct (skipn i l).
Qed.
Lemma concat_set (ss : nat) (blk : list (list E)) k v j e : Forall (fun l => length l = ss) blk -> nth_error blk k = Some v ->
  j < ss -> concat (replace blk k (set_at v j e)) = set_at (concat blk) (k * ss + j) e.
Proof.
  revert k. induction blk as [|u blk IH]; intros k F H L; [destruct k; discriminate|].
  inversion F as [|? ? L1 F1]; subst. destruct k as [|k].
  - injection H as ->. change (set_at v j e ++ concat blk = set_at (v ++ concat blk) j e). now rewrite set_at_app by lia.
  - cbn [nth_error] in H. specialize (IH k F1 H L). cbn [concat].
    replace (S k * length u + j) with (length u + (k * length u + j)) by lia. rewrite set_at_app2, <- IH. reflexivity.
Qed.
Lemma replace_length {A} (l : list A) i e : length (replace l i e) = length l.
Proof.
  unfold replace. rewrite <- (firstn_skipn i l) at 3. rewrite !app_length. f_equal. now destruct (skipn i l).
Qed.
Lemma replace_Forall {A} (P : A -> Prop) (l : list A) i e : Forall P l -> P e -> Forall P (replace l i e).
Proof.
  intros F H. unfold replace. rewrite <- (firstn_skipn i l) in F. apply Forall_app in F. destruct F as [F1 F2].
  apply Forall_app. split; auto. destruct (skipn i l); auto. inversion F2; auto.
Qed.
Lemma lset_set_at (l : list E) i e : lset l i e = set_at l i e.
Proof.
  revert i. induction l as [|a l IH]; intros [|i]; cbn; auto. now rewrite IH.
Qed.
End Lists.

Section Sim.
Context {E : Type}.
Notation V := (list E).
Variable ss nsub csize : nat.
Hypothesis spos : 0 < ss.
Notation sst := (sst V).
Notation tst := (@tst E).
Notation rdrs := (nat -> option rdr).

Definition same (r : rdr) (p : pos) : Prop :=
  bids r = p_bids p /\ cur r = p_cur p /\ (block p <> None -> iv r = p_i p /\ dty r = p_w p).
Definition own (s : sst) (x : nat) (p : pos) : Prop := forall b, block p = Some b ->
  (p_q p <> Lost -> held s b = true /\ sregs s (S x) = Some (b, p_i p / ss) /\ (p_w p = true -> wr s b = true))
  /\ (p_q p = Kept -> 0 < pins s b).
Definition extra (ob : option nat) : nat := match ob with Some _ => 1 | None => 0 end.

(** [ob]: a block that is retained by a reader that is not one of those of [t]. *)
Record Sim (s : sst) (t : tst) (f : rdrs) (ob : option nat) : Prop := {
  s_live : dead s = false;
  s_bad : forall b, bad s b = false;
  s_mem : forall b, exists blk, lg s b = Some blk /\ length blk = nsub /\ Forall (fun l => length l = ss) blk /\ concat blk = t_mem t b;
  s_rd : forall x, match f x, t_rd t x with Some r, Some p => same r p | None, None => True | _, _ => False end;
  s_wf : forall x p, t_rd t x = Some p -> p_i p < nsub * ss /\ p_cur p <= length (p_bids p);
  s_own : forall x p, t_rd t x = Some p -> own s x p;
  s_pins : forall b, 0 < pins s b -> pins s b = 1 /\ (ob = Some b \/ exists x p, t_rd t x = Some p /\ block p = Some b);
  s_dist : forall x y p q b, x <> y -> t_rd t x = Some p -> t_rd t y = Some q -> block p = Some b -> block q <> Some b;
  s_out : forall b x p, ob = Some b -> t_rd t x = Some p -> block p <> Some b;
  s_ids : exists ids, NoDup ids /\ length ids = t_open t /\ forall x, In x ids <-> t_rd t x <> None;
  s_room : t_open t + extra ob < csize
}.

Lemma nocrowd s t f ob b : Sim s t f ob -> ~ crowded csize s b.
Proof.
  intros H (_ & l & N & L & P). destruct (s_ids _ _ _ _ H) as (ids & N' & L' & I).
  pose proof (s_room _ _ _ _ H) as R.
  pose (bl := fun x => match t_rd t x with Some p => match block p with Some b => b | None => 0 end | None => 0 end).
  assert (incl l ((match ob with Some b => [b] | None => [] end) ++ map bl ids)).
  { intros c Hc. destruct (s_pins _ _ _ _ H c (P c Hc)) as [_ [->|(x & p & X & B)]]; apply in_or_app; [left; now left|right].
    apply in_map_iff. exists x. split; [unfold bl; now rewrite X, B|]. apply I. congruence. }
  apply NoDup_incl_length in H0; auto. rewrite app_length, map_length in H0.
  unfold extra in R. destruct ob; cbn [length] in H0; lia.
Qed.

Definition calm (t : tst) : Prop := forall x p, t_rd t x = Some p -> p_q p <> Fresh.

Lemma Sim_touch s t f ob b : Sim s t f ob -> calm t -> Sim (touch s b) t f ob.
Proof.
  intros H C. destruct H. split; cbn [touch dead bad lg pins]; auto.
  intros x p X c B. specialize (s_own0 x p X c B). specialize (C x p X). cbn [touch held sregs wr pins].
  destruct (p_q p); [|easy|split; easy]. destruct s_own0 as [O1 O2].
  destruct (O1 ltac:(discriminate)) as (A1 & A2 & A3). specialize (O2 eq_refl).
  assert (K : keeps s b c = true) by (unfold keeps; rewrite A1; apply Nat.ltb_lt in O2; rewrite O2; apply orb_true_r).
  rewrite A2, K. split; auto. intros _. repeat split; auto. intros W. now rewrite (A3 W).
Qed.

Lemma Sim_sregs s t f ob r v : Sim s t f ob -> (forall y p, t_rd t y = Some p -> S y <> r) -> Sim (with_sregs s (set (sregs s) r v)) t f ob.
Proof.
  intros H N. destruct H. split; cbn [with_sregs dead bad lg pins]; auto.
  intros x p X c B. specialize (s_own0 x p X c B). cbn [with_sregs held sregs wr pins]. unfold set.
  specialize (N x p X). apply Nat.eqb_neq in N. now rewrite N.
Qed.

Lemma Sim_release s t f b : Sim s t f (Some b) -> Sim (sp_next s (ORelease b) (RBool (Nat.ltb 0 (pins s b)))) t f None.
Proof.
  intros H. destruct (Nat.ltb_spec 0 (pins s b)); cbn [sp_next].
  - destruct H. split; cbn [dead bad lg pins]; auto; try easy.
    + intros x p X c B. specialize (s_own0 x p X c B). cbn [held sregs wr pins]. unfold set.
      destruct (Nat.eqb_spec c b) as [->|]; auto. now destruct (s_out0 b x p eq_refl X).
    + intros c. unfold set. destruct (Nat.eqb_spec c b) as [->|N].
      * destruct (s_pins0 b H0) as [-> _]. cbn. lia.
      * intros P. destruct (s_pins0 c P) as [P1 [[= ->]|P2]]; [easy|]. auto.
    + cbn in *. lia.
  - destruct H. split; auto; try easy.
    + intros c P. destruct (s_pins0 c P) as [P1 [[= ->]|P2]]; [lia|]. auto.
    + cbn in *. lia.
Qed.

Lemma Sim_retain s t f b v : Sim s t f None -> (forall x p, t_rd t x = Some p -> block p <> Some b) -> S (t_open t) < csize ->
  Sim (sp_next s (ORetain b) (RBool v)) t f (Some b) /\ (v = true -> pins (sp_next s (ORetain b) (RBool v)) b = 1).
Proof.
  intros H N R.
  assert (P0 : pins s b = 0).
  { destruct (Nat.eq_dec (pins s b) 0) as [|Q]; auto. destruct (s_pins _ _ _ _ H b ltac:(lia)) as [_ [?|(x & p & X & B)]]; [easy|].
    now destruct (N x p X). }
  destruct v; cbn [sp_next].
  - split; [|intros _; cbn [pins]; unfold set; rewrite Nat.eqb_refl; lia].
    destruct H. split; cbn [dead bad lg pins]; auto; try easy.
    + intros x p X c B. specialize (s_own0 x p X c B). cbn [held sregs wr pins]. unfold set.
      destruct (Nat.eqb_spec c b) as [->|]; auto. now destruct (N x p X).
    + intros c. unfold set. destruct (Nat.eqb_spec c b) as [->|Q]; [rewrite P0; auto|].
      intros P. destruct (s_pins0 c P) as [P1 [?|P2]]; [easy|]. auto.
    + intros c x p [= <-]. apply N.
    + cbn. lia.
  - split; [|discriminate]. destruct H. split; auto; try easy.
    + intros c P. destruct (s_pins0 c P) as [P1 [?|P2]]; [easy|]. auto.
    + intros c x p [= <-]. apply N.
    + cbn. lia.
Qed.

Lemma Sim_disturb s t f ob : Sim s t f ob -> Sim s (disturb_all t) f ob.
Proof.
  intros H. destruct H. unfold disturb_all.
  assert (BL : forall p, block (lose p) = block p) by reflexivity.
  split; cbn [t_mem t_rd t_open]; auto.
  - intros x. specialize (s_rd0 x). destruct (f x), (t_rd t x); auto.
  - intros x p. destruct (t_rd t x) as [q|] eqn:X; [|discriminate]. intros [= <-]. exact (s_wf0 x q X).
  - intros x p. destruct (t_rd t x) as [q|] eqn:X; [|discriminate]. intros [= <-] b B. specialize (s_own0 x q X b B).
    cbn [lose p_q p_i p_w]. destruct s_own0 as [O1 O2]. destruct (p_q q); auto; split; easy.
  - intros b P. destruct (s_pins0 b P) as [P1 [?|(x & p & X & B)]]; auto. split; auto. right. exists x, (lose p). now rewrite X.
  - intros x y p q b D. destruct (t_rd t x) as [p'|] eqn:X; [|discriminate]. destruct (t_rd t y) as [q'|] eqn:Y; [|discriminate].
    intros [= <-] [= <-]. exact (s_dist0 x y p' q' b D X Y).
  - intros b x p O. destruct (t_rd t x) as [p'|] eqn:X; [|discriminate]. intros [= <-]. exact (s_out0 b x p' O X).
  - destruct s_ids0 as (ids & N & L & I). exists ids. repeat split; auto; intros Q.
    + apply I in Q. now destruct (t_rd t x).
    + apply I. now destruct (t_rd t x).
Qed.
Lemma calm_disturb t : calm (disturb_all t).
Proof.
  intros x p. cbn [disturb_all t_rd]. destruct (t_rd t x) as [q|]; [|discriminate]. intros [= <-]. cbn. now destruct (p_q q).
Qed.

(** A reader leaves. *)
Definition without (t : tst) (x : nat) : tst := mkT (t_mem t) (fun y => if y =? x then None else t_rd t y) (t_open t - 1).
Lemma Sim_leave s t f x p : Sim s t f None -> t_rd t x = Some p -> Sim s (without t x) (put f x None) (block p) /\ t_open t = S (t_open (without t x)).
Proof.
  intros H X. destruct H. unfold without, put.
  destruct s_ids0 as (ids & N & L & I).
  assert (HX : In x ids) by (apply I; congruence).
  destruct (in_split _ _ HX) as (l1 & l2 & ->). rewrite app_length in L. cbn [length] in L.
  split; [|cbn [t_open]; lia]. split; cbn [t_mem t_rd t_open]; auto.
  - intros y. destruct (Nat.eqb_spec y x); auto. apply s_rd0.
  - intros y q. destruct (Nat.eqb_spec y x); [discriminate|]. apply s_wf0.
  - intros y q. destruct (Nat.eqb_spec y x); [discriminate|]. apply s_own0.
  - intros b P. destruct (s_pins0 b P) as [P1 [?|(y & q & Y & B)]]; [easy|]. split; auto.
    destruct (Nat.eqb_spec y x) as [->|D]; [left; congruence|]. right. exists y, q. split; auto. apply Nat.eqb_neq in D. now rewrite D.
  - intros y z q1 q2 b D. destruct (Nat.eqb_spec y x); [discriminate|]. destruct (Nat.eqb_spec z x); [discriminate|]. apply s_dist0; auto.
  - intros b y q B. destruct (Nat.eqb_spec y x); [discriminate|]. intros Y. apply (s_dist0 x y p q b); auto.
  - exists (l1 ++ l2). split; [eapply NoDup_remove_1; eauto|]. split; [rewrite app_length; lia|]. intros y. destruct (Nat.eqb_spec y x) as [->|D].
    + split; [|easy]. intros Q. now apply NoDup_remove_2 in N.
    + rewrite <- I, !in_app_iff. cbn. intuition congruence.
  - unfold extra in *. destruct (block p); lia.
Qed.

(** A reader arrives. *)
Lemma Sim_arrive s t f x p r t' f' : Sim s t f (block p) -> t_rd t x = None ->
  same r p -> own s x p -> p_i p < nsub * ss -> p_cur p <= length (p_bids p) ->
  t_mem t' = t_mem t -> t_rd t' x = Some p -> (forall y, y <> x -> t_rd t' y = t_rd t y) -> t_open t' = S (t_open t) ->
  f' x = Some r -> (forall y, y <> x -> f' y = f y) -> S (t_open t) < csize -> Sim s t' f' None.
Proof.
  intros H X SM O W1 W2 E1 E2 E3 E4 F1 F2 R. destruct H. split; auto.
  - intros b. rewrite E1. apply s_mem0.
  - intros y. destruct (Nat.eq_dec y x) as [->|D]; [now rewrite F1, E2|]. rewrite (F2 y D), (E3 y D). apply s_rd0.
  - intros y q. destruct (Nat.eq_dec y x) as [->|D]; [rewrite E2; now intros [= <-]|]. rewrite (E3 y D). apply s_wf0.
  - intros y q. destruct (Nat.eq_dec y x) as [->|D]; [rewrite E2; now intros [= <-]|]. rewrite (E3 y D). apply s_own0.
  - intros b P. destruct (s_pins0 b P) as [P1 [B|(y & q & Y & B)]]; split; auto; right.
    + exists x, p. auto.
    + exists y, q. rewrite E3; auto. congruence.
  - intros y z q1 q2 b D Y Z B1 B2. destruct (Nat.eq_dec y x) as [->|D1].
    + rewrite E2 in Y. injection Y as <-. rewrite E3 in Z by auto. now apply (s_out0 b z q2 B1 Z).
    + rewrite E3 in Y by auto. destruct (Nat.eq_dec z x) as [->|D2].
      * rewrite E2 in Z. injection Z as <-. now apply (s_out0 b y q1 B2 Y).
      * rewrite E3 in Z by auto. now apply (s_dist0 y z q1 q2 b).
  - easy.
  - destruct s_ids0 as (ids & N & L & I). exists (x :: ids). split; [constructor; auto; rewrite I; congruence|].
    split; [cbn; lia|]. intros y. cbn. destruct (Nat.eq_dec y x) as [->|D]; [rewrite E2; split; auto; discriminate|].
    rewrite (E3 y D), <- I. intuition congruence.
  - cbn [extra]. lia.
Qed.

(** ** Calls of the cache *)
Variable wsize page pages : nat.
Variable iter : list (nat * nat) -> list (nat * nat).
Hypothesis iter_perm : forall l, Permutation (iter l) l.
Hypothesis cpos : 0 < csize.
Hypothesis wpos : 0 < wsize.
Notation step := (@m_step V true csize wsize iter).
Notation mach := (mach V).
Notation IV m s := (@BlockCacheInv.Inv V csize wsize nsub None (mc m) (md m) s (mregs m)).

Lemma do_call (m : mach) (s : sst) o : IV m s -> BlockCacheSpec.legal nsub s o -> o <> ODestroy ->
  exists r m', step o m = Some (r, m') /\ sp_ok csize s o r /\ IV m' (sp_next s o r).
Proof.
  intros I L N. destruct (step_spec csize wsize nsub iter iter_perm cpos wpos m s o I L) as (r & m' & E1 & OK & D).
  exists r, m'. split; auto. split; auto. destruct D as [D|]; auto. exfalso. destruct L as [L _].
  destruct o as [| |b|b|b| |x v| | | | |]; cbn [sp_next] in D; try congruence; try (destruct r as [| |[]| |]; cbn in D; congruence).
  destruct (sregs s x) as [[b k]|]; [|congruence]. destruct (lg s b); cbn in D; congruence.
Qed.

Lemma call_prefetch (m : mach) s t f ob b : IV m s -> Sim s t f ob ->
  exists m', call step (OPrefetch b) m = Some (Ret ROk m') /\ IV m' (touch s b).
Proof.
  intros I H. destruct (do_call m s (OPrefetch b) I) as (r & m' & E1 & OK & I').
  { split; [apply (s_live _ _ _ _ H)|apply (s_bad _ _ _ _ H)]. }
  { discriminate. }
  destruct OK as [->|[-> C]]; [|now apply (nocrowd _ _ _ _ _ H) in C].
  exists m'. unfold call. rewrite E1. auto.
Qed.
Lemma call_get (m : mach) s t f ob x b k : IV m s -> Sim s t f ob -> k < nsub ->
  exists m', call step (OGet x b k) m = Some (Ret ROk m') /\ IV m' (sp_next s (OGet x b k) ROk).
Proof.
  intros I H L. destruct (do_call m s (OGet x b k) I) as (r & m' & E1 & OK & I').
  { split; [apply (s_live _ _ _ _ H)|]. split; [auto|apply (s_bad _ _ _ _ H)]. }
  { discriminate. }
  destruct OK as [->|[-> C]]; [|now apply (nocrowd _ _ _ _ _ H) in C].
  exists m'. unfold call. rewrite E1. auto.
Qed.
Lemma call_release (m : mach) s b : IV m s -> dead s = false ->
  exists m', call step (ORelease b) m = Some (Ret (RBool (Nat.ltb 0 (pins s b))) m') /\ IV m' (sp_next s (ORelease b) (RBool (Nat.ltb 0 (pins s b)))).
Proof.
  intros I H. destruct (do_call m s (ORelease b) I) as (r & m' & E1 & OK & I'); [now split|discriminate|].
  cbn [sp_ok] in OK. subst r. exists m'. unfold call. rewrite E1. auto.
Qed.
Lemma call_retain (m : mach) s b : IV m s -> dead s = false ->
  exists v m', call step (ORetain b) m = Some (Ret (RBool v) m') /\ IV m' (sp_next s (ORetain b) (RBool v)) /\ (held s b = true -> v = true).
Proof.
  intros I H. destruct (do_call m s (ORetain b) I) as (r & m' & E1 & OK & I'); [now split|discriminate|].
  destruct OK as (v & -> & Hv). exists v, m'. unfold call. rewrite E1. auto.
Qed.
Lemma call_dirty (m : mach) s b : IV m s -> dead s = false -> bad s b = false ->
  exists v m', call step (ODirty b) m = Some (Ret (RBool v) m') /\ IV m' (sp_next s (ODirty b) (RBool v)) /\ (held s b = true -> v = true).
Proof.
  intros I H B. destruct (do_call m s (ODirty b) I) as (r & m' & E1 & OK & I'); [now split|discriminate|].
  destruct OK as (v & -> & Hv). exists v, m'. unfold call. rewrite E1. auto.
Qed.
Lemma call_load (m : mach) s x b k blk : IV m s -> dead s = false -> sregs s x = Some (b, k) -> lg s b = Some blk ->
  exists v m', call step (OLoad x) m = Some (Ret (RVal v) m') /\ IV m' s /\ nth_error blk k = Some v.
Proof.
  intros I H X B. destruct (do_call m s (OLoad x) I) as (r & m' & E1 & OK & I'); [split; [auto|congruence]|discriminate|].
  destruct OK as (v & -> & Hv). exists v, m'. unfold call. rewrite E1. cbn [sp_next] in I'. eauto.
Qed.
Lemma call_store (m : mach) s x v b k : IV m s -> dead s = false -> sregs s x = Some (b, k) -> wr s b = true ->
  exists m', call step (OStore x v) m = Some (Ret ROk m') /\ IV m' (sp_next s (OStore x v) ROk).
Proof.
  intros I H X W. destruct (do_call m s (OStore x v) I) as (r & m' & E1 & OK & I'); [split; [auto|exists b, k; auto]|discriminate|].
  cbn [sp_ok] in OK. subst r. exists m'. unfold call. rewrite E1. auto.
Qed.
Lemma call_env (m : mach) s ids : IV m s -> dead s = false -> exists m', call step (OEnv ids) m = Some (Ret ROk m') /\ IV m' s.
Proof.
  intros I H. destruct (do_call m s (OEnv ids) I) as (r & m' & E1 & OK & I'); [now split|discriminate|].
  cbn [sp_ok] in OK. subst r. exists m'. unfold call. rewrite E1. auto.
Qed.

Definition eqr (r r' : rdr) : Prop := bids r = bids r' /\ cur r = cur r' /\ dty r = dty r' /\ iv r = iv r'.

Lemma pref_spec n : forall r (m : mach) s t f ob, IV m s -> Sim s t f ob -> calm t ->
  exists r' m' s', pref_loop step n r m = Some (Ret r' m') /\ IV m' s' /\ Sim s' t f ob /\ eqr r' r.
Proof.
  induction n as [|n IH]; intros r m s t f ob I H C; cbn [pref_loop].
  - exists r, m, s. unfold eqr. auto 12.
  - destruct (nth_error (bids r) (prf r)) as [b|]; [|exists r, m, s; unfold eqr; auto 12].
    destruct (call_prefetch m s t f ob b I H) as (m1 & E1 & I1). rewrite E1. cbn [bind].
    destruct (IH (set_prf r (S (prf r))) m1 _ t f ob I1 (Sim_touch _ _ _ _ _ H C) C) as (r' & m' & s' & E2 & I2 & H2 & Q).
    exists r', m', s'. auto.
Qed.
(** the conditional loop *)
Lemma pref_if (c : bool) n r (m : mach) s t f ob : IV m s -> Sim s t f ob -> calm t ->
  exists r' m' s', (if c then pref_loop step n r m else Some (Ret r m)) = Some (Ret r' m') /\ IV m' s' /\ Sim s' t f ob /\ eqr r' r.
Proof.
  intros I H C. destruct c; [exact (pref_spec n r m s t f ob I H C)|]. exists r, m, s. unfold eqr. auto 12.
Qed.
Lemma enable_spec r (m : mach) s t f ob : IV m s -> Sim s t f ob -> calm t ->
  exists r' m' s', enable step page pages r m = Some (Ret r' m') /\ IV m' s' /\ Sim s' t f ob /\ eqr r' r.
Proof.
  intros I H C. unfold enable. destruct (on r); [exists r, m, s; unfold eqr; auto 12|].
  destruct (pref_spec (page * pages) (mkR (bids r) (cur r) (cur r) true (dty r) (iv r)) m s t f ob I H C) as (r' & m' & s' & Q).
  exists r', m', s'. exact Q.
Qed.
Lemma skip_loop_spec n j : forall r (m : mach) s t f ob, IV m s -> Sim s t f ob -> calm t -> cur r <= j -> j - cur r <= n ->
  exists r' m' s', skip_loop step page n j r m = Some (Ret r' m') /\ IV m' s' /\ Sim s' t f ob /\
    bids r' = bids r /\ cur r' = j /\ dty r' = dty r /\ (cur r = j -> s' = s).
Proof.
  induction n as [|n IH]; intros r m s t f ob I H C L1 L2; cbn [skip_loop].
  - destruct (Nat.eqb_spec (cur r) j) as [Q|Q]; [exists r, m, s; auto 10|lia].
  - destruct (Nat.eqb_spec (cur r) j) as [Q|Q]; [exists r, m, s; auto 10|].
    set (r1 := mkR (bids r) (S (cur r)) (prf r) (on r) (dty r) (iv r)).
    destruct (pref_if (on r1 && (cur r1 mod page =? 0)) page r1 m s t f ob I H C) as (r2 & m2 & s2 & E2 & I2 & H2 & (Q1 & Q2 & Q3 & Q4)).
    rewrite E2. cbn [bind]. cbn [r1 cur bids dty] in *.
    destruct (IH r2 m2 s2 t f ob I2 H2 C) as (r' & m' & s' & E3 & I3 & H3 & R1 & R2 & R3 & _); [lia|lia|].
    exists r', m', s'. split; auto. split; auto. split; auto. split; [congruence|]. split; auto. split; [congruence|]. intros; lia.
Qed.

Lemma Sim_get s t f ob x b k : Sim s t f ob -> calm t -> (forall y p, t_rd t y = Some p -> S y <> x) ->
  Sim (sp_next s (OGet x b k) ROk) t f ob.
Proof. intros H C N. cbn [sp_next]. exact (Sim_sregs _ _ _ _ _ _ (Sim_touch _ _ _ _ b H C) N). Qed.

Lemma out_reg (t : tst) x : t_rd t x = None -> forall y (p : pos), t_rd t y = Some p -> S y <> S x.
Proof. intros X y p Y [= ->]. congruence. Qed.

Lemma skip_spec x r b0 j isub b (m : mach) s t f : IV m s -> Sim s t f (Some b0) -> calm t -> t_rd t x = None ->
  nth_error (bids r) (cur r) = Some b0 -> cur r <= j -> nth_error (bids r) j = Some b -> isub < nsub ->
  (forall y p, t_rd t y = Some p -> block p <> Some b) -> S (t_open t) < csize ->
  exists r' m' s', skip_to step ss page x r j isub m = Some (Ret r' m') /\ IV m' s' /\ Sim s' t f (Some b) /\
    bids r' = bids r /\ cur r' = j /\ iv r' = isub * ss /\ dty r' = ((j =? cur r) && dty r) /\
    held s' b = true /\ sregs s' (S x) = Some (b, isub) /\ 0 < pins s' b /\ (j = cur r -> wr s b = true -> wr s' b = true).
Proof.
  intros I H C X B0 L B K AL R. unfold skip_to, at_end.
  assert (LA : cur r < length (bids r)) by (apply nth_error_Some; congruence).
  assert (LB : j < length (bids r)) by (apply nth_error_Some; congruence).
  destruct (Nat.eqb_spec (cur r) (length (bids r))) as [|_]; [lia|].
  set (r1 := if j =? cur r then r else mkR (bids r) (cur r) (prf r) (on r) false (iv r)).
  assert (Q1 : bids r1 = bids r) by (unfold r1; destruct (j =? cur r); auto).
  assert (Q2 : cur r1 = cur r) by (unfold r1; destruct (j =? cur r); auto).
  assert (Q3 : dty r1 = ((j =? cur r) && dty r)) by (unfold r1; destruct (j =? cur r); auto).
  clearbody r1. rewrite Q1, Q2, B0.
  destruct (call_release m s b0 I (s_live _ _ _ _ H)) as (m1 & E1 & I1). rewrite E1. cbn [bind].
  pose proof (Sim_release _ _ _ _ H) as H1.
  assert (W1 : wr (sp_next s (ORelease b0) (RBool (Nat.ltb 0 (pins s b0)))) = wr s) by (destruct (Nat.ltb 0 (pins s b0)); reflexivity).
  set (s1 := sp_next s (ORelease b0) (RBool (Nat.ltb 0 (pins s b0)))) in *. clearbody s1.
  destruct (Nat.eqb_spec j (length (bids r))) as [|_]; [lia|].
  destruct (skip_loop_spec (length (bids r)) j r1 m1 s1 t f None I1 H1 C) as (r2 & m2 & s2 & E2 & I2 & H2 & P1 & P2 & P3 & P4); [lia|lia|].
  rewrite E2. cbn [bind]. rewrite P1, P2, Q1, B.
  destruct (call_get m2 s2 t f None (S x) b isub I2 H2 K) as (m3 & E3 & I3). rewrite E3. cbn [bind].
  pose proof (Sim_get s2 t f None (S x) b isub H2 C (out_reg t x X)) as H3.
  destruct (call_retain m3 _ b I3 (s_live _ _ _ _ H3)) as (v & m4 & E4 & I4 & V). rewrite E4. cbn [bind].
  assert (HB : held (sp_next s2 (OGet (S x) b isub) ROk) b = true).
  { cbn. unfold keeps. now rewrite Nat.eqb_refl. }
  specialize (V HB). subst v.
  destruct (Sim_retain _ t f b true H3 AL R) as [H4 P].
  eexists _, m4, _. split; [reflexivity|]. split; [exact I4|]. split; [exact H4|]. cbn [bids cur iv dty].
  split; auto. split; auto. split; auto. split; [congruence|].
  split; [cbn; unfold set; now rewrite Nat.eqb_refl|]. split; [cbn; unfold set; now rewrite Nat.eqb_refl|].
  split; [rewrite (P eq_refl); lia|]. intros J W. cbn. unfold keeps. rewrite Nat.eqb_refl. cbn. rewrite P4 by lia. now rewrite W1, W.
Qed.

(** ** Calls of the readers *)
Definition moves (t : tst) (f : rdrs) (x : nat) (p : pos) (r : rdr) (t' : tst) (f' : rdrs) : Prop :=
  t_mem t' = t_mem t /\ t_rd t' x = Some p /\ (forall y, y <> x -> t_rd t' y = option_map lose (t_rd t y)) /\ t_open t' = t_open t /\
  f' x = Some r /\ (forall y, y <> x -> f' y = f y).

Lemma Sim_away s t f x p : Sim s t f None -> t_rd t x = Some p ->
  Sim s (disturb_all (without t x)) (put f x None) (block p) /\ t_open t = S (t_open (without t x)) /\ t_rd (disturb_all (without t x)) x = None.
Proof.
  intros H X. destruct (Sim_leave s t f x p H X) as [H1 H2]. split; [now apply Sim_disturb|]. split; auto.
  cbn. now rewrite Nat.eqb_refl.
Qed.
Lemma Sim_back s t f x p r t' f' : Sim s (disturb_all (without t x)) (put f x None) (block p) -> t_open t = S (t_open (without t x)) -> t_open t < csize ->
  same r p -> own s x p -> p_i p < nsub * ss -> p_cur p <= length (p_bids p) -> moves t f x p r t' f' -> Sim s t' f' None.
Proof.
  intros H O L SM OW W1 W2 (M1 & M2 & M3 & M4 & M5 & M6).
  eapply (Sim_arrive s _ _ x p r t' f' H); auto.
  - cbn. now rewrite Nat.eqb_refl.
  - intros y D. rewrite (M3 y D). cbn. apply Nat.eqb_neq in D. now rewrite D.
  - cbn [disturb_all t_open]. lia.
  - intros y D. rewrite (M6 y D). unfold put. apply Nat.eqb_neq in D. now rewrite D.
  - cbn [disturb_all t_open]. lia.
Qed.
Lemma alone_away (t : tst) x b : alone t x b -> forall y p, t_rd (disturb_all (without t x)) y = Some p -> block p <> Some b.
Proof.
  intros A y p. cbn. destruct (Nat.eqb_spec y x) as [|D]; [discriminate|]. destruct (t_rd t y) as [q|] eqn:Y; [|discriminate].
  intros [= <-]. exact (A y q D Y).
Qed.
Lemma div_same i : S i mod ss <> 0 -> S i / ss = i / ss.
Proof.
  intros N. apply Nat.div_unique with (S i mod ss - 1).
  - pose proof (Nat.mod_upper_bound (S i) ss). lia.
  - pose proof (Nat.div_mod (S i) ss). lia.
Qed.

Lemma incr_spec x r p (m : mach) s t f : IV m s -> Sim s t f None -> f x = Some r -> t_rd t x = Some p ->
  (S (p_i p) < nsub * ss \/ forall b, nth_error (p_bids p) (S (p_cur p)) = Some b -> alone t x b) ->
  exists r' m' s', incr step ss nsub page x r m = Some (Ret (fst (next ss nsub p), r') m') /\ IV m' s' /\
    forall t' f', moves t f x (snd (next ss nsub p)) r' t' f' -> Sim s' t' f' None.
Proof.
  intros I H FX TX AL.
  pose proof (s_rd _ _ _ _ H x) as SM. rewrite FX, TX in SM. destruct SM as (S1 & S2 & S3).
  destruct (s_wf _ _ _ _ H x p TX) as [W1 W2].
  pose proof (s_own _ _ _ _ H x p TX) as OW.
  pose proof (s_room _ _ _ _ H) as RM. cbn [extra] in RM. rewrite Nat.add_0_r in RM.
  destruct (Sim_away s t f x p H TX) as (HA & OA & XA).
  pose proof (calm_disturb (without t x)) as CA.
  unfold incr, next, at_end. rewrite S1, S2.
  destruct (Nat.eqb_spec (p_cur p) (length (p_bids p))) as [Q|Q].
  { exists r, m, s. split; [reflexivity|]. split; auto. intros t' f' M. apply (Sim_back s t f x p r t' f' HA); auto. now split. }
  assert (exists b, nth_error (p_bids p) (p_cur p) = Some b) as [b B].
  { destruct (nth_error (p_bids p) (p_cur p)) as [b|] eqn:B; eauto. apply nth_error_None in B. lia. }
  assert (BK : block p = Some b) by exact B.
  destruct S3 as [S3 S4]; [congruence|]. rewrite S3.
  destruct (Nat.ltb_spec (S (p_i p)) (nsub * ss)) as [L|L]; cbn [fst snd].
  - unfold enter. cbn [iv bids cur]. destruct (Nat.eqb_spec (S (p_i p) mod ss) 0) as [Z|Z].
    + rewrite B.
      assert (K : S (p_i p) / ss < nsub) by (apply Nat.div_lt_upper_bound; lia).
      destruct (call_get m s _ _ _ (S x) b (S (p_i p) / ss) I HA K) as (m1 & E1 & I1). rewrite E1. cbn [bind].
      eexists _, m1, _. split; [reflexivity|]. split; [exact I1|]. intros t' f' M.
      eapply (Sim_back _ t f x _ _ t' f'); [|auto|auto| | | | |exact M]; auto.
      * apply Sim_get; [exact HA|exact CA|exact (out_reg _ x XA)].
      * split; auto. 
      * intros c C. cbn [p_q p_i p_w block p_bids p_cur] in *. unfold block in C. cbn in C. rewrite B in C. injection C as <-.
        destruct (OW b BK) as [O1 O2]. cbn [sp_next with_sregs touch held sregs wr pins]. unfold set. rewrite Nat.eqb_refl. unfold keeps. rewrite Nat.eqb_refl.
        cbn [orb]. split.
        -- intros NL. split; auto. split; auto. intros W. rewrite andb_true_r. apply O1; auto. intros PL. rewrite PL, W in NL. easy.
        -- intros KE. apply O2. destruct (p_q p); auto. destruct (p_w p); discriminate.
    + exists (mkR (p_bids p) (p_cur p) (prf r) (on r) (dty r) (S (p_i p))), m, s. split; [reflexivity|]. split; auto. intros t' f' M.
      eapply (Sim_back _ t f x _ _ t' f'); [|auto|auto| | | | |exact M]; auto.
      * split; auto.
      * intros c C. cbn [p_q p_i p_w]. rewrite div_same by auto. exact (OW c C).
  - rewrite B. destruct (call_release m s b I (s_live _ _ _ _ H)) as (m1 & E1 & I1). rewrite E1. cbn [bind].
    rewrite BK in HA. pose proof (Sim_release _ _ _ _ HA) as H1.
    set (s1 := sp_next s (ORelease b) (RBool (Nat.ltb 0 (pins s b)))) in *. clearbody s1.
    cbn [bids cur on prf]. destruct (nth_error (p_bids p) (S (p_cur p))) as [b'|] eqn:B'.
    + assert (LB : S (p_cur p) < length (p_bids p)) by (apply nth_error_Some; congruence).
      destruct (Nat.eqb_spec (S (p_cur p)) (length (p_bids p))) as [|_]; [lia|]. cbn [negb].
      destruct AL as [|AL]; [lia|]. specialize (AL b' eq_refl). pose proof (alone_away t x b' AL) as AL'.
      destruct (call_retain m1 s1 b' I1 (s_live _ _ _ _ H1)) as (v & m2 & E2 & I2 & _). rewrite E2. cbn [bind].
      assert (R2 : S (t_open (disturb_all (without t x))) < csize) by (cbn [disturb_all t_open]; lia).
      destruct (Sim_retain s1 _ _ b' v H1 AL' R2) as [H2 _].
      set (s2 := sp_next s1 (ORetain b') (RBool v)) in *. clearbody s2.
      set (r1 := mkR (p_bids p) (S (p_cur p)) (prf r) (on r) false 0).
      destruct (pref_if (on r && (S (p_cur p) mod page =? 0)) page r1 m2 s2 _ _ _ I2 H2 CA) as (r3 & m3 & s3 & E3 & I3 & H3 & (Q1 & Q2 & Q3 & Q4)).
      rewrite E3. cbn [bind]. unfold enter. rewrite Q1, Q2, Q4. cbn [r1 bids cur iv]. rewrite B'.
      rewrite Nat.mod_0_l, Nat.div_0_l by lia. cbn [Nat.eqb].
      assert (K : 0 < nsub) by (destruct nsub; cbn in *; lia).
      destruct (call_get m3 s3 _ _ _ (S x) b' 0 I3 H3 K) as (m4 & E4 & I4). rewrite E4. cbn [bind].
      eexists _, m4, _. split; [reflexivity|]. split; [exact I4|]. intros t' f' M.
      eapply (Sim_back _ t f x _ _ t' f'); [|auto|auto| | | | |exact M]; auto.
      * unfold block. cbn [p_bids p_cur]. rewrite B'. apply Sim_get; [exact H3|exact CA|exact (out_reg _ x XA)].
      * split; [rewrite Q1; reflexivity|]. split; [rewrite Q2; reflexivity|]. intros _. split; [rewrite Q4|rewrite Q3]; reflexivity.
      * intros c C. unfold block in C. cbn [p_bids p_cur] in C. rewrite B' in C. injection C as <-.
        cbn [p_q p_i p_w]. rewrite Nat.div_0_l by lia. cbn [sp_next with_sregs touch held sregs wr pins]. unfold set, keeps. rewrite !Nat.eqb_refl. split; [|discriminate].
        intros _. repeat split; auto. discriminate.
      * cbn [p_i]. lia.
      * cbn [p_cur p_bids]. lia.
    + assert (LB : S (p_cur p) = length (p_bids p)) by (apply nth_error_None in B'; lia).
      destruct (Nat.eqb_spec (S (p_cur p)) (length (p_bids p))) as [_|]; [|lia]. cbn [negb].
      eexists _, m1, s1. split; [reflexivity|]. split; [exact I1|]. intros t' f' M.
      eapply (Sim_back _ t f x _ _ t' f'); [|auto|auto| | | | |exact M]; auto.
      * unfold block. cbn [p_bids p_cur]. rewrite B'. exact H1.
      * split; [reflexivity|]. split; [reflexivity|]. unfold block. cbn [p_bids p_cur]. rewrite B'. easy.
      * intros c C. unfold block in C. cbn [p_bids p_cur] in C. congruence.
      * cbn [p_i]. lia.
      * cbn [p_cur p_bids]. lia.
Qed.

Lemma Sim_dirty s t f ob b v : Sim s t f ob -> Sim (sp_next s (ODirty b) (RBool v)) t f ob.
Proof.
  intros H. destruct v; cbn [sp_next]; auto. destruct H. split; cbn [dead bad lg pins]; auto.
  intros x p X c B. destruct (s_own0 x p X c B) as [O1 O2]. cbn [held sregs wr pins]. split; auto. intros N. destruct (O1 N) as (A1 & A2 & A3).
  unfold set. split; [destruct (c =? b); auto|]. split; auto. destruct (c =? b); auto.
Qed.

Lemma Sim_store s t f x p b blk v e r t' f' : Sim s t f None -> t_rd t x = Some p -> block p = Some b ->
  p_q p <> Lost -> wr s b = true -> lg s b = Some blk -> nth_error blk (p_i p / ss) = Some v ->
  t_mem t' = (fun c => if c =? b then set_at (t_mem t b) (p_i p) e else t_mem t c) ->
  t_rd t' = (fun y => if y =? x then Some (mkPos (p_bids p) (p_cur p) (p_i p) (p_q p) true) else t_rd t y) -> t_open t' = t_open t ->
  f' x = Some r -> (forall y, y <> x -> f' y = f y) -> same r (mkPos (p_bids p) (p_cur p) (p_i p) (p_q p) true) ->
  Sim (sp_next s (OStore (S x) (lset v (p_i p mod ss) e)) ROk) t' f' None.
Proof.
  intros H X B NL W LG NV E1 E2 E3 F1 F2 SM.
  destruct (s_own _ _ _ _ H x p X b B) as [O1 O2]. destruct (O1 NL) as (A1 & A2 & A3).
  cbn [sp_next]. rewrite A2, LG. destruct H. split; cbn [with_lg dead bad lg pins]; auto.
  - intros c. rewrite E1. unfold set. destruct (Nat.eqb_spec c b) as [->|]; [|apply s_mem0].
    destruct (s_mem0 b) as (blk' & L1 & L2 & L3 & L4). rewrite LG in L1. injection L1 as <-.
    assert (LJ : p_i p mod ss < ss) by (apply Nat.mod_upper_bound; lia).
    exists (replace blk (p_i p / ss) (lset v (p_i p mod ss) e)). split; auto. split; [now rewrite replace_length|].
    rewrite lset_set_at. split.
    + apply replace_Forall; auto. rewrite set_at_length. rewrite Forall_forall in L3. apply L3. eapply nth_error_In; eauto.
    + rewrite (concat_set ss) by auto. rewrite L4. f_equal. rewrite (Nat.div_mod (p_i p) ss) at 3 by lia. lia.
  - intros y. rewrite E2. destruct (Nat.eqb_spec y x) as [->|D]; [now rewrite F1|]. rewrite (F2 y D). apply s_rd0.
  - intros y q. rewrite E2. destruct (Nat.eqb_spec y x) as [->|D]; [|apply s_wf0]. intros [= <-]. exact (s_wf0 x p X).
  - intros y q. rewrite E2. destruct (Nat.eqb_spec y x) as [->|D].
    + intros [= <-] c C. cbn [p_q p_i p_w]. assert (c = b) by (unfold block in *; cbn in C; congruence). subst c. cbn [with_lg held sregs wr pins]. split; auto.
    + intros Y. exact (s_own0 y q Y).
  - intros c P. destruct (s_pins0 c P) as [P1 [?|(y & q & Y & C)]]; [easy|]. split; auto. right. rewrite E2. exists y.
    destruct (Nat.eqb_spec y x) as [->|D]; [|eauto]. eexists. split; [reflexivity|]. rewrite X in Y. injection Y as <-. exact C.
  - intros y z q1 q2 c D. rewrite E2. destruct (Nat.eqb_spec y x) as [->|D1]; destruct (Nat.eqb_spec z x) as [->|D2]; try easy.
    + intros [= <-] Z. exact (s_dist0 x z p q2 c D X Z).
    + intros Y [= <-]. exact (s_dist0 y x q1 p c D Y X).
    + apply s_dist0; auto.
  - easy.
  - rewrite E2, E3. destruct s_ids0 as (ids & N & L & I). exists ids. split; auto. split; auto. intros y. rewrite I.
    destruct (Nat.eqb_spec y x) as [->|D]; [|easy]. rewrite X. easy.
  - now rewrite E3.
Qed.

(** ** One operation *)
Notation exec := (@bexec E step ss nsub page pages).
Lemma step_sim (m : mach) (f : rdrs) s t o : IV m s -> Sim s t f None -> BufReaderSpec.legal ss nsub csize false t o ->
  exists r p' s' t', exec (mkP m f) o = Some (r, p') /\ r <> BX /\ tstep ss nsub t o r t' /\ IV (pm p') s' /\ Sim s' t' (prd p') None.
Proof.
  intros I H LEG.
  assert (RD : forall x p, t_rd t x = Some p -> exists r, f x = Some r /\ same r p).
  { intros x p X. pose proof (s_rd _ _ _ _ H x) as Q. rewrite X in Q. destruct (f x) as [r|]; [|easy]. eauto. }
  pose proof (s_room _ _ _ _ H) as RM. cbn [extra] in RM. rewrite Nat.add_0_r in RM.
  destruct o as [x l isub pf|x|x|x e|x|x|x j isub|x|b k|ids]; cbn [bexec pm prd]; unfold with_rd; cbn [pm prd].
  - (* open *)
    destruct LEG as (X & K & R & [?|AL]); [discriminate|].
    pose proof (s_rd _ _ _ _ H x) as FX. rewrite X in FX. destruct (f x) eqn:FE; [easy|]. clear FX.
    pose proof (Sim_disturb _ _ _ _ H) as HD. pose proof (calm_disturb t) as CD.
    assert (XD : t_rd (disturb_all t) x = None) by (cbn; now rewrite X).
    assert (KK : isub * ss < nsub * ss) by (apply Nat.mul_lt_mono_pos_r; auto).
    assert (EX : forall s' r', Sim s' (disturb_all t) f (nth_error l 0) -> same r' (mkPos l 0 (isub * ss) Kept false) -> own s' x (mkPos l 0 (isub * ss) Kept false) ->
      Sim s' (let t' := move (disturb x t) x (mkPos l 0 (isub * ss) Kept false) in mkT (t_mem t') (t_rd t') (S (t_open t))) (put f x (Some r')) None).
    { intros s' r' HS SM OW. eapply (Sim_arrive s' (disturb_all t) f x (mkPos l 0 (isub * ss) Kept false) r'); auto.
      - cbn. lia.
      - cbn. now rewrite Nat.eqb_refl.
      - intros y D. cbn. apply Nat.eqb_neq in D. now rewrite D.
      - unfold put. now rewrite Nat.eqb_refl.
      - intros y D. unfold put. apply Nat.eqb_neq in D. now rewrite D. }
    unfold open. destruct l as [|b l].
    + eexists _, _, s, _. cbn [done fst snd]. split; [reflexivity|]. split; [discriminate|]. split; [constructor|]. split; [exact I|].
      apply EX; auto; [split; auto; split; auto; easy|]. intros b B. discriminate.
    + specialize (AL b eq_refl).
      assert (AL' : forall y p, t_rd (disturb_all t) y = Some p -> block p <> Some b).
      { intros y p. cbn. destruct (t_rd t y) as [q|] eqn:Y; [|discriminate]. intros [= <-]. apply (AL y q); auto. congruence. }
      destruct (Sim_retain s _ f b false HD AL' ltac:(cbn; lia)) as [HB _]. cbn [sp_next] in HB.
      set (r0 := mkR (b :: l) 0 0 false false 0).
      assert (exists r1 m1 s1, (if pf then enable step page pages r0 m else Some (Ret r0 m)) = Some (Ret r1 m1) /\ IV m1 s1 /\ Sim s1 (disturb_all t) f (Some b) /\ eqr r1 r0)
        as (r1 & m1 & s1 & E1 & I1 & H1 & (Q1 & Q2 & Q3 & Q4)).
      { destruct pf; [exact (enable_spec r0 m s _ _ _ I HB CD)|]. exists r0, m, s. unfold eqr. auto 12. }
      rewrite E1. cbn [bind].
      destruct (skip_spec x r1 b 0 isub b m1 s1 (disturb_all t) f) as (r2 & m2 & s2 & E2 & I2 & H2 & P1 & P2 & P3 & P4 & P5 & P6 & P7 & _); auto.
      { now rewrite Q1, Q2. }
      { now rewrite Q2. }
      { now rewrite Q1. }
      rewrite E2. cbn [done fst snd]. eexists _, _, s2, _. split; [reflexivity|]. split; [discriminate|]. split; [constructor|]. split; [exact I2|].
      apply EX; auto.
      * split; [rewrite P1, Q1; reflexivity|]. split; [rewrite P2; reflexivity|]. intros _. split; auto. rewrite P4, Q3. cbn. apply andb_false_r.
      * intros c [= <-]. cbn [p_q p_i p_w]. rewrite Nat.div_mul by lia. repeat split; auto. discriminate.
  - (* enable *)
    destruct (t_rd t x) as [p|] eqn:X; [|now destruct (LEG X)]. destruct (RD x p X) as (r & FX & SM). rewrite FX.
    pose proof (Sim_disturb _ _ _ _ H) as HD. pose proof (calm_disturb t) as CD.
    destruct (enable_spec r m s _ _ _ I HD CD) as (r1 & m1 & s1 & E1 & I1 & H1 & (Q1 & Q2 & Q3 & Q4)).
    rewrite E1. cbn [done fst snd]. eexists _, _, s1, _. split; [reflexivity|]. split; [discriminate|]. split; [econstructor; eauto|]. split; [exact I1|].
    cbn [prd]. destruct H1. split; auto. intros y. specialize (s_rd0 y). unfold put. destruct (Nat.eqb_spec y x) as [->|D]; auto.
    cbn in *. rewrite FX, X in s_rd0. rewrite X. cbn in *. destruct s_rd0 as (T1 & T2 & T3). split; [congruence|]. split; [congruence|].
    rewrite Q3, Q4. exact T3.
  - (* const_value *)
    destruct LEG as (p & X & BN & [?|NL]); [discriminate|]. destruct (RD x p X) as (r & FX & SM). rewrite FX.
    destruct (block p) as [b|] eqn:B; [|easy].
    destruct (s_own _ _ _ _ H x p X b B) as [O1 O2]. destruct (O1 NL) as (A1 & A2 & A3).
    destruct (s_mem _ _ _ _ H b) as (blk & L1 & L2 & L3 & L4).
    destruct (call_load m s (S x) b _ blk I (s_live _ _ _ _ H) A2 L1) as (v & m1 & E1 & I1 & NV).
    unfold const_value. rewrite E1. cbn [bind]. destruct SM as (S1 & S2 & S3). destruct S3 as [S3 S4]; [congruence|]. rewrite S3.
    assert (LJ : p_i p mod ss < ss) by (apply Nat.mod_upper_bound; lia).
    assert (LV : length v = ss) by (rewrite Forall_forall in L3; apply L3; eapply nth_error_In; eauto).
    destruct (nth_error v (p_i p mod ss)) as [e|] eqn:NE; [|apply nth_error_None in NE; lia].
    cbn [done fst snd]. eexists _, _, s, t. split; [reflexivity|]. split; [discriminate|]. split; [|split; [exact I1|exact H]].
    apply (T_const ss nsub t x p b e); auto. rewrite <- L4, <- NE, <- (concat_nth ss blk (p_i p / ss) v L3 NV _ LJ). f_equal.
    rewrite (Nat.div_mod (p_i p) ss) at 1 by lia. lia.
  - (* value *)
    destruct LEG as (p & X & BN & [?|NL]); [discriminate|]. destruct (RD x p X) as (r & FX & SM). rewrite FX.
    destruct (block p) as [b|] eqn:B; [|easy].
    destruct SM as (S1 & S2 & S3). destruct S3 as [S3 S4]; [congruence|].
    unfold set_value. rewrite S1, S2. unfold block in B. rewrite B.
    destruct (s_own _ _ _ _ H x p X b B) as [O1 O2]. destruct (O1 NL) as (A1 & A2 & A3).
    assert (exists r1 m1 s1, (if dty r then Some (Ret r m)
          else bind (call step (ODirty b) m) (fun _ m => Some (Ret (mkR (p_bids p) (p_cur p) (prf r) (on r) true (iv r)) m))) = Some (Ret r1 m1) /\ IV m1 s1 /\
          Sim s1 t f None /\ bids r1 = p_bids p /\ cur r1 = p_cur p /\ dty r1 = true /\ iv r1 = p_i p /\ wr s1 b = true)
      as (r1 & m1 & s1 & E1 & I1 & H1 & Q1 & Q2 & Q3 & Q4 & W1).
    { destruct (dty r) eqn:DR; [exists r, m, s; auto 20|].
      destruct (call_dirty m s b I (s_live _ _ _ _ H) (s_bad _ _ _ _ H b)) as (v & m1 & E1 & I1 & HV). rewrite (HV A1) in *. rewrite E1. cbn [bind].
      eexists _, m1, _. split; [reflexivity|]. split; [exact I1|]. split; [now apply Sim_dirty|]. cbn [bids cur dty iv]. repeat split; auto.
      cbn. unfold set. now rewrite Nat.eqb_refl. }
    rewrite E1. cbn [bind].
    destruct (s_own _ _ _ _ H1 x p X b B) as [O1' O2']. destruct (O1' NL) as (A1' & A2' & A3').
    destruct (s_mem _ _ _ _ H1 b) as (blk & L1 & L2 & L3 & L4).
    destruct (call_load m1 s1 (S x) b _ blk I1 (s_live _ _ _ _ H1) A2' L1) as (v & m2 & E2 & I2 & NV). rewrite E2. cbn [bind]. rewrite Q4.
    destruct (call_store m2 s1 (S x) (lset v (p_i p mod ss) e) b _ I2 (s_live _ _ _ _ H1) A2' W1) as (m3 & E3 & I3). rewrite E3.
    cbn [bind done fst snd]. eexists _, _, _, _. split; [reflexivity|]. split; [discriminate|]. split; [exact (T_set ss nsub t x p b e X B)|]. split; [exact I3|].
    cbn [prd]. eapply (Sim_store s1 t f x p b blk v e r1); eauto.
    + unfold put. now rewrite Nat.eqb_refl.
    + intros y D. unfold put. apply Nat.eqb_neq in D. now rewrite D.
    + split; auto.
  - (* operator++ *)
    destruct LEG as (p & X & [?|AL]); [discriminate|]. destruct (RD x p X) as (r & FX & SM). rewrite FX.
    destruct (incr_spec x r p m s t f I H FX X AL) as (r1 & m1 & s1 & E1 & I1 & H1). rewrite E1. cbn [done fst snd].
    eexists _, _, s1, _. split; [reflexivity|]. split; [discriminate|]. split; [exact (T_inc ss nsub t x p X)|]. split; [exact I1|].
    apply H1. unfold moves, put. cbn. rewrite !Nat.eqb_refl. repeat split; auto; intros y D; apply Nat.eqb_neq in D; now rewrite !D.
  - (* next_subblock *)
    destruct LEG as (p & X & [?|AL]); [discriminate|]. destruct (RD x p X) as (r & FX & SM). rewrite FX.
    destruct (s_wf _ _ _ _ H x p X) as [W1 W2].
    assert (KD : p_i p / ss < nsub) by (apply Nat.div_lt_upper_bound; lia).
    assert (KM : (p_i p / ss + 1) * ss <= nsub * ss) by (apply Nat.mul_le_mono_r; lia).
    assert (KP : ss <= (p_i p / ss + 1) * ss) by nia.
    set (p1 := mkPos (p_bids p) (p_cur p) ((p_i p / ss + 1) * ss - 1) (p_q p) (p_w p)).
    destruct SM as (S1 & S2 & S3).
    set (r1 := mkR (bids r) (cur r) (prf r) (on r) (dty r) ((iv r / ss + 1) * ss - 1)).
    set (t1 := move t x p1). set (f1 := put f x (Some r1)).
    assert (SM1 : same r1 p1).
    { split; [exact S1|]. split; [exact S2|]. intros N. destruct (S3 N) as [S4 S5]. cbn. rewrite S4. auto. }
    assert (DV : ((p_i p / ss + 1) * ss - 1) / ss = p_i p / ss).
    { symmetry. apply Nat.div_unique with (ss - 1); [lia|]. nia. }
    assert (H0 : Sim s t1 f1 None).
    { destruct H. split; cbn [t1 move t_mem t_rd t_open f1]; auto; unfold put.
      - intros y. unfold f1, put. destruct (Nat.eqb_spec y x); auto. apply s_rd0.
      - intros y q. destruct (Nat.eqb_spec y x); [|apply s_wf0]. intros [= <-]. cbn. lia.
      - intros y q. destruct (Nat.eqb_spec y x) as [->|]; [|apply s_own0]. intros [= <-] b B. cbn [p1 p_q p_i p_w]. rewrite DV. exact (s_own0 x p X b B).
      - intros b P. destruct (s_pins0 b P) as [P1 [?|(y & q & Y & B)]]; [easy|]. split; auto. right. exists y.
        destruct (Nat.eqb_spec y x) as [->|D]; [|eauto]. exists p1. split; auto. rewrite X in Y. injection Y as <-. exact B.
      - intros y z q1 q2 c D. destruct (Nat.eqb_spec y x) as [->|D1]; destruct (Nat.eqb_spec z x) as [->|D2]; try easy.
        + intros [= <-] Z. exact (s_dist0 x z p q2 c D X Z).
        + intros Y [= <-]. exact (s_dist0 y x q1 p c D Y X).
        + apply s_dist0; auto.
      - easy.
      - destruct s_ids0 as (ids & N & L & J). exists ids. split; auto. split; auto. intros y. rewrite J.
        destruct (Nat.eqb_spec y x) as [->|D]; [|easy]. rewrite X. easy. }
    destruct (incr_spec x r1 p1 m s t1 f1 I H0) as (r2 & m1 & s1 & E1 & I1 & H1).
    { unfold f1, put. now rewrite Nat.eqb_refl. }
    { cbn. now rewrite Nat.eqb_refl. }
    { cbn [p1 p_i p_bids p_cur]. destruct AL as [AL|AL]; [left; lia|right]. intros b B y q D. cbn. apply Nat.eqb_neq in D. rewrite D.
      apply Nat.eqb_neq in D. exact (AL b B y q D). }
    unfold next_sub. fold r1. rewrite E1. cbn [done fst snd].
    eexists _, _, s1, _. split; [reflexivity|]. split; [discriminate|]. split; [exact (T_next ss nsub t x p X)|]. split; [exact I1|].
    apply H1. unfold moves, t1, f1, put. cbn. rewrite !Nat.eqb_refl. repeat split; auto; intros y D; apply Nat.eqb_neq in D; now rewrite !D.
  - (* skip_to *)
    destruct LEG as (p & X & LJ & K & [[? _]|[JL AL]]); [discriminate|]. destruct (RD x p X) as (r & FX & SM). rewrite FX.
    destruct SM as (S1 & S2 & S3).
    pose proof (s_own _ _ _ _ H x p X) as OW. destruct (s_wf _ _ _ _ H x p X) as [W1 W2].
    destruct (Sim_away s t f x p H X) as (HA & OA & XA). pose proof (calm_disturb (without t x)) as CA.
    assert (exists b, nth_error (p_bids p) (p_cur p) = Some b) as [b0 B0].
    { destruct (nth_error (p_bids p) (p_cur p)) as [b|] eqn:B; eauto. apply nth_error_None in B. lia. }
    assert (exists b, nth_error (p_bids p) j = Some b) as [b B].
    { destruct (nth_error (p_bids p) j) as [b|] eqn:B; eauto. apply nth_error_None in B. lia. }
    specialize (AL b B).
    destruct S3 as [S3 S4]; [unfold block; congruence|].
    replace (block p) with (Some b0) in HA by (symmetry; exact B0).
    destruct (skip_spec x r b0 j isub b m s _ _ I HA CA XA) as (r2 & m2 & s2 & E2 & I2 & H2 & P1 & P2 & P3 & P4 & P5 & P6 & P7 & P8).
    { now rewrite S1, S2. }
    { now rewrite S2. }
    { now rewrite S1. }
    { exact K. }
    { exact (alone_away t x b AL). }
    { cbn [disturb_all t_open]. lia. }
    rewrite E2. cbn [done fst snd]. eexists _, _, s2, _. split; [reflexivity|]. split; [discriminate|]. split; [exact (T_skip ss nsub t x p j isub X)|]. split; [exact I2|].
    assert (EQ : skip ss p j isub = mkPos (p_bids p) j (isub * ss) (if (j =? p_cur p) && p_w p then match p_q p with Lost => Lost | _ => Kept end else Kept) ((j =? p_cur p) && p_w p)).
    { unfold skip. destruct (Nat.eqb_spec (p_cur p) (length (p_bids p))); [lia|]. reflexivity. }
    apply (Sim_back s2 t f x (skip ss p j isub) r2); auto; rewrite ?EQ.
    + unfold block. cbn [p_bids p_cur]. now rewrite B.
    + split; [cbn; congruence|]. split; [exact P2|]. intros _. split; [exact P3|]. cbn. rewrite P4, S2, S4. reflexivity.
    + intros c C. unfold block in C. cbn [p_bids p_cur] in C. rewrite B in C. injection C as <-. cbn [p_q p_i p_w]. rewrite Nat.div_mul by lia.
      split; auto. intros NL. split; auto. split; auto. intros WW. apply andb_prop in WW. destruct WW as [J1 J2]. apply Nat.eqb_eq in J1.
      rewrite J1, J2, Nat.eqb_refl in NL. cbn in NL.
      assert (b = b0) by congruence. subst b0. apply P8; [congruence|]. apply (OW b B0); auto. intros Z. now rewrite Z in NL.
    + cbn [p_i]. apply Nat.mul_lt_mono_pos_r; auto.
    + cbn [p_cur p_bids]. lia.
    + unfold moves, put. cbn. rewrite !Nat.eqb_refl, <- EQ. repeat split; auto; intros y D; apply Nat.eqb_neq in D; now rewrite !D.
  - (* destructor *)
    destruct (t_rd t x) as [p|] eqn:X; [|now destruct (LEG X)]. destruct (RD x p X) as (r & FX & SM). rewrite FX.
    destruct SM as (S1 & S2 & S3). destruct (Sim_leave s t f x p H X) as [HA OA].
    unfold close. rewrite S1, S2. unfold block in HA. destruct (nth_error (p_bids p) (p_cur p)) as [b|] eqn:B.
    + destruct (call_release m s b I (s_live _ _ _ _ H)) as (m1 & E1 & I1). rewrite E1. cbn [bind done fst snd].
      eexists _, _, _, _. split; [reflexivity|]. split; [discriminate|]. split; [exact (T_close ss nsub t x p X)|]. split; [exact I1|].
      exact (Sim_release _ _ _ _ HA).
    + cbn [done fst snd]. eexists _, _, s, _. split; [reflexivity|]. split; [discriminate|]. split; [exact (T_close ss nsub t x p X)|]. split; [exact I|].
      exact HA.
  - (* another user *)
    pose proof (Sim_disturb _ _ _ _ H) as HD. pose proof (calm_disturb t) as CD.
    destruct (call_get m s _ _ _ 0 b k I HD LEG) as (m1 & E1 & I1). rewrite E1. cbn [bind].
    assert (H1 : Sim (sp_next s (OGet 0 b k) ROk) (disturb_all t) f None) by (apply Sim_get; auto).
    destruct (s_mem _ _ _ _ H1 b) as (blk & L1 & L2 & L3 & L4).
    destruct (call_load m1 _ 0 b k blk I1 (s_live _ _ _ _ H1)) as (v & m2 & E2 & I2 & NV); [reflexivity|exact L1|].
    rewrite E2. cbn [bind done fst snd]. eexists _, _, _, _. split; [reflexivity|]. split; [discriminate|].
    assert (EV : v = firstn ss (skipn (k * ss) (t_mem t b))).
    { cbn in L4. rewrite <- L4. symmetry. now apply concat_sub. }
    rewrite EV. split; [constructor|]. split; [exact I2|exact H1].
  - (* device *)
    destruct (call_env m s ids I (s_live _ _ _ _ H)) as (m1 & E1 & I1). rewrite E1. cbn [done fst snd].
    eexists _, _, s, t. split; [reflexivity|]. split; [discriminate|]. split; [constructor|]. split; [exact I1|exact H].
Qed.

Notation runs := (@bruns E step ss nsub page pages).
Lemma run_sim os : forall (m : mach) f s t, IV m s -> Sim s t f None -> legals ss nsub csize false t os ->
  exists rs, runs (mkP m f) os = Some rs /\ truns ss nsub t os rs.
Proof.
  induction os as [|o os IH]; intros m f s t I H L.
  - exists []. split; [reflexivity|constructor].
  - destruct L as [L1 L2]. destruct (step_sim m f s t o I H L1) as (r & [m' f'] & s' & t' & E1 & NX & T & I' & H').
    destruct (IH m' f' s' t' I' H' (L2 r t' T)) as (rs & E2 & TR). exists (r :: rs).
    cbn [bruns]. rewrite E1, E2. split; [destruct r; easy|]. econstructor; eauto.
Qed.

Lemma init_sim (junk d0 : nat -> list V) o : (forall b, length (junk b) = nsub) -> (forall b, length (d0 b) = nsub) ->
  (forall b, Forall (fun l => length l = ss) (d0 b)) ->
  IV (m_init csize wsize junk d0 o) (s_init d0) /\ Sim (s_init d0) (t_init (fun b => concat (d0 b))) (fun _ => None) None.
Proof.
  intros J D F. split.
  - exact (init_spec csize wsize nsub cpos wpos junk d0 o J D).
  - split; cbn; auto; try easy.
    + intros b. exists (d0 b). auto.
    + exists []. split; [constructor|]. split; [reflexivity|]. easy.
Qed.
End Sim.
