(** C99-C103: the request queue of Linux asynchronous I/O. *)
From Coq Require Import ZArith List Bool Arith Lia.
From Verif Require Import LinuxAioModel LinuxAioSpec LinuxAio.
Import ListNotations.

Notation anything := (fun _ : ev => True).

Lemma reach_run (P : ev -> Prop) es n s tr : run es (init n) = Some (s, tr) -> Forall P es -> exec P (init n) tr s.
Proof. intros R F. exact (run_exec P es (init n) [] (init n) s tr (exec_nil _ _) F R). Qed.

(** ** C99: what every execution guarantees, whatever the kernel answers, with cancelling and shutdown. *)

(** A request becomes ready at most once, and only if it was added; it is submitted at most once. *)
Theorem C99_once n tr s : exec anything (init n) tr s -> NoDup (adds tr) ->
  NoDup (cancels tr ++ dones tr) /\ NoDup (submits tr) /\
  (forall r, ready tr r -> In r (adds tr)) /\ (forall r, In r (submits tr) -> In r (adds tr)).
Proof.
  intros H ND. pose proof (inv_exec _ _ _ _ H) as I.
  assert (forall x, cnt x (adds tr) <= 1) as Q by (apply nodup_cnt; exact ND).
  split; [|split; [|split]].
  - apply nodup_cnt. intros x. rewrite cnt_app. specialize (Q x). pose proof (i_add _ _ _ I x). lia.
  - apply nodup_cnt. intros x. specialize (Q x). pose proof (i_add _ _ _ I x). pose proof (i_sub _ _ _ I x). lia.
  - intros r. unfold ready. rewrite !cnt_in. pose proof (i_add _ _ _ I r). lia.
  - intros r. rewrite !cnt_in. pose proof (i_add _ _ _ I r). pose proof (i_sub _ _ _ I r). lia.
Qed.

(** The kernel gets the requests in the order of [add_request]; cancelled ones are left out. *)
Theorem C99_fifo n tr s : exec anything (init n) tr s -> NoDup (adds tr) ->
  exists rest, kept tr = submits tr ++ rest.
Proof.
  intros H ND. exists (p_hand (pp s) ++ waiting s). exact (fifo_exec _ _ _ _ H ND).
Qed.

(** A request becomes ready (without being cancelled) only after the kernel has finished it, and the kernel
    gets only submitted requests.  Every prefix of an execution is an execution: "after" is in time. *)
Theorem C99_after_kernel n tr s : exec anything (init n) tr s ->
  (forall r, In r (dones tr) -> In r (kerns tr)) /\ (forall r, In r (kerns tr) -> In r (submits tr)).
Proof.
  intros H. pose proof (inv_exec _ _ _ _ H) as I. split; intros r; rewrite !cnt_in; pose proof (i_kern _ _ _ I r).
  - lia.
  - pose proof (i_sub _ _ _ I r) as Q. unfold flying in Q. lia.
Qed.

(** At most [max_events] requests are submitted and not ready: [io_submit] never exceeds the context. *)
Theorem C99_bounded n tr s : exec anything (init n) tr s -> length (submits tr) <= length (dones tr) + n.
Proof.
  intros H. pose proof (inv_exec _ _ _ _ H) as I. pose proof (i_len _ _ _ I). pose proof (i_nf _ _ _ I) as B.
  assert (length (p_u (pp s)) <= length (p_f (pp s))).
  { destruct (pp s); cbn; try lia. destruct h; cbn; try lia. destruct evs; cbn; lia. }
  assert (length (w_u (wp s)) <= length (w_f (wp s))).
  { destruct (wp s); cbn; try lia. destruct h; cbn; try lia. destruct evs; cbn; lia. }
  lia.
Qed.

(** One run in which three requests are added, the second is cancelled and the first and third are served. *)
Definition post1 : list ev := repeat (EPost false 1) 6.
Definition serve : list ev := repeat (EWait 1) 7.
Definition demo : list ev := [EAdd 10; EAdd 11; EAdd 12; ECancel 11; ECancelDec] ++ post1 ++ post1 ++
  [EKern 12 true; EKern 10 true] ++ serve ++ serve.
Definition demo_tr : list obs := [OAdd 10; OAdd 11; OAdd 12; OCancel 11; OSubmit 10; OSubmit 12; OKern 12 true; OKern 10 true;
  ODone 12 false; ODone 10 false].
Example C99_example : exists s, exec no_again (init 2) demo_tr s /\ NoDup (adds demo_tr) /\ submits demo_tr = [10; 12] /\
  all_ready demo_tr /\ mtx s = None /\ dp s = D0.
Proof.
  destruct (run demo (init 2)) as [[s tr]|] eqn:R; [|vm_compute in R; discriminate].
  assert (tr = demo_tr) as Et by (vm_compute in R; injection R as _ <-; reflexivity). exists s.
  split; [|split; [|split; [|split; [|split]]]].
  - rewrite <- Et. apply (reach_run no_again _ _ _ _ R).
    unfold demo, post1, serve. cbn. repeat constructor.
  - cbn. repeat constructor; cbn; lia.
  - reflexivity.
  - intros r Hr. cbn in Hr. unfold ready. cbn. tauto.
  - vm_compute in R. injection R as <- _. reflexivity.
  - vm_compute in R. injection R as <- _. reflexivity.
Qed.

(** ** C100: every request becomes ready. *)

(** Full claim: whatever happens, when the threads and the kernel cannot move any more then all added requests are
    ready and no caller is stuck, and they cannot move forever without callers.

    It is false in three ways.  (1) [cancel_request] blocks on a semaphore that "will never block" while it
    holds the mutex, and nobody can do anything any more. *)
Theorem C100_cancel_deadlock_refuted : exists n tr s r,
  exec no_again (init n) tr s /\ NoDup (adds tr) /\ mtx s = Some r /\ forall e, step e s = None.
Proof.
  destruct (run [EAdd 5; EPost false 1; ECancel 5; EPost false 1] (init 4)) as [[s tr]|] eqn:R;
    [|vm_compute in R; discriminate].
  exists 4, tr, s, 5.
  pose proof (reach_run no_again _ _ _ _ R ltac:(repeat constructor)) as H.
  split; [exact H|]. vm_compute in R. injection R as <- <-. split; [cbn; repeat constructor; cbn; lia|].
  split; [reflexivity|].
  intros [ | | | | | r [] | | ]; reflexivity.
Qed.

(** (2) After [EAGAIN] the posting thread handles an event whose token the waiting thread has already taken: the
    first request is ready, the second never, although the kernel has nothing else to do. *)
Definition again_run : list ev := [EAdd 0; EAdd 1] ++ post1 ++ [EWait 1; EWait 1] ++ repeat (EPost false 1) 4 ++
  [EPost true 1; EKern 0 true] ++ repeat (EPost false 1) 3.

Definition hung (s : st) : Prop :=
  (exists ok, pp s = PHnd [(0, ok)] HPosted 1) /\ wp s = WGet /\ kern s = [] /\ evts s = [] /\ np s = 0 /\ wterm s = false.

Lemma hung_step e s s' o : hung s -> step e s = Some (s', o) -> hung s' /\ dones o = [] /\ submits o = [].
Proof.
  intros ((ok & Hp) & Hw & Hk & He & Hn & Ht) H.
  destruct e as [r|r| |again k|k|r ok'| |]; cbn in H.
  - destruct (calls_ok s); [|discriminate]. injection H as <- <-. split; [|split; reflexivity]. repeat split; auto. now exists ok.
  - destruct (calls_ok s); [|discriminate]. destruct (mem r (waiting s)); injection H as <- <-; (split; [|split; reflexivity]);
      repeat split; auto; now exists ok.
  - destruct (mtx s); [|discriminate]. destruct (down (nw s)); [|discriminate]. injection H as <- <-.
    split; [|split; reflexivity]. repeat split; auto. now exists ok.
  - unfold post_step, hstep in H. rewrite Hp, Hn in H. discriminate.
  - unfold wait_step, getevents in H. rewrite Hw, He in H. discriminate.
  - rewrite Hk in H. discriminate.
  - destruct (calls_ok s) eqn:Q; [|discriminate]. injection H as <- <-. split; [|split; reflexivity].
    unfold calls_ok in Q. repeat split; auto. now exists ok.
  - unfold destr_step in H. unfold wterm in Ht. rewrite Hp in H. destruct (dp s) eqn:D; try discriminate.
    injection H as <- <-. split; [|split; reflexivity]. repeat split; auto. now exists ok.
Qed.

Theorem C100_again_deadlock_refuted : exists n tr s r,
  exec anything (init n) tr s /\ NoDup (adds tr) /\ In r (adds tr) /\ cancels tr = [] /\
  forall tr' s', exec anything s tr' s' -> ~ In r (dones (tr ++ tr')) /\ ~ In r (submits (tr ++ tr')).
Proof.
  destruct (run again_run (init 4)) as [[s tr]|] eqn:R; [|vm_compute in R; discriminate].
  exists 4, tr, s, 1.
  assert (Forall anything again_run) as FA. { apply Forall_forall. intros; exact Logic.I. }
  pose proof (reach_run anything _ _ _ _ R FA) as H.
  split; [exact H|]. clear H. vm_compute in R. injection R as Es <-.
  split; [cbn; repeat constructor; cbn; lia|]. split; [cbn; tauto|]. split; [reflexivity|].
  intros tr' s' E.
  assert (hung s) as Hh. { subst s. repeat split. exists true. reflexivity. }
  assert (hung s' /\ dones tr' = [] /\ submits tr' = []) as (_ & D & S).
  { clear Es. induction E as [|s0 t s1 e s2 o E IH He Hs].
    - repeat split; apply Hh.
    - destruct (IH Hh) as (H1 & H2 & H3). destruct (hung_step _ _ _ _ H1 Hs) as (H4 & H5 & H6).
      split; [exact H4|]. rewrite dones_app, submits_app, H2, H3, H5, H6. split; reflexivity. }
  rewrite dones_app, submits_app, D, S. cbn. lia.
Qed.

(** (3) The destructor can return while a request that was added before it is neither submitted nor ready, or
    submitted and never ready: the threads mistake the value of the semaphore for the number of requests. *)
Theorem C100_shutdown_refuted :
  (exists n tr s r, exec no_again (init n) tr s /\ NoDup (adds tr) /\ cancels tr = [] /\ dp s = D5 /\
     In r (adds tr) /\ ~ In r (submits tr) /\ ~ ready tr r) /\
  (exists n tr s r, exec no_again (init n) tr s /\ NoDup (adds tr) /\ cancels tr = [] /\ dp s = D5 /\
     In r (submits tr) /\ ~ ready tr r).
Proof.
  split.
  - destruct (run [EAdd 5; EPost false 1; EDestroy; EPost false 1; EDStep; EDStep; EDStep; EWait 1; EWait 1; EDStep]
      (init 4)) as [[s tr]|] eqn:R; [|vm_compute in R; discriminate].
    exists 4, tr, s, 5.
    pose proof (reach_run no_again _ _ _ _ R ltac:(repeat constructor)) as H.
    split; [exact H|]. vm_compute in R. injection R as <- <-. unfold ready. cbn.
    split; [repeat constructor; cbn; lia|]. repeat split; try tauto; lia.
  - destruct (run ([EAdd 5] ++ post1 ++
      [EWait 1; EDestroy; EDStep; EPost false 1; EPost false 1; EDStep; EWait 1; EDStep; EDStep])
      (init 4)) as [[s tr]|] eqn:R; [|vm_compute in R; discriminate].
    exists 4, tr, s, 5.
    pose proof (reach_run no_again _ _ _ _ R ltac:(repeat constructor)) as H.
    split; [exact H|]. vm_compute in R. injection R as <- <-. unfold ready. cbn.
    split; [repeat constructor; cbn; lia|]. repeat split; try tauto; lia.
Qed.

(** The part that holds, for executions in which the kernel does not answer [EAGAIN]: without callers the threads,
    the kernel and the destructor take finitely many steps, in whatever order; when nothing can move any more, either
    every added request is ready and no caller is stuck, or the destructor has returned, or a caller of [cancel] is
    stuck in the way of (1). *)
Theorem C100_completes_partial n tr s : n > 0 -> exec no_again (init n) tr s ->
  (exists N, forall es s' tr', Forall internal es -> run es s = Some (s', tr') -> length es <= N) /\
  (forall es s' tr', Forall internal es -> run es s = Some (s', tr') -> (forall e, internal e -> step e s' = None) ->
     (dp s' = D0 /\ mtx s' = None /\ all_ready (tr ++ tr')) \/ dp s' = D5 \/ (mtx s' <> None /\ nw s' = 0)).
Proof.
  intros Hn H. pose proof (inv_exec _ _ _ _ H) as I. pose proof (live_exec _ _ _ _ (fun e H => H) H) as L. split.
  - exists (mu s). intros es s' tr' F R. destruct (run_inv _ _ _ _ _ _ I L F R) as (_ & _ & M). lia.
  - intros es s' tr' F R ST. destruct (run_inv _ _ _ _ _ _ I L F R) as (I' & L' & _). exact (stuck _ _ _ Hn I' L' ST).
Qed.

Lemma internal_keeps es : Forall internal es -> forall s s' tr', run es s = Some (s', tr') ->
  (mtx s = None -> mtx s' = None) /\ (dp s = D0 <-> dp s' = D0) /\ adds tr' = [] /\ cancels tr' = [].
Proof.
  induction 1 as [|e es He F IH]; intros s s' tr' R; cbn in R.
  - injection R as <- <-. tauto.
  - destruct (step e s) as [[s1 o]|] eqn:Es; [|discriminate]. destruct (run es s1) as [[s2 o2]|] eqn:Er; [|discriminate].
    injection R as <- <-. destruct (IH _ _ _ Er) as (A & B & C & D). rewrite adds_app, cancels_app, C, D, !app_nil_r.
    assert ((mtx s = None -> mtx s1 = None) /\ (dp s = D0 <-> dp s1 = D0) /\ adds o = [] /\ cancels o = []) as (A' & B' & C' & D').
    { clear - He Es. destruct e as [r|r| |again k|k|r ok| |]; cbn in Es, He; try tauto.
      - destruct (mtx s); [|discriminate]. destruct (down (nw s)); [|discriminate]. injection Es as <- <-. cbn. tauto.
      - unfold post_step in Es. destruct (pp s).
        + destruct (down (nw s)); [|discriminate]. injection Es as <- <-. cbn. tauto.
        + injection Es as <- <-. cbn. tauto.
        + destruct (mtx s) eqn:M; [discriminate|].
          destruct (waiting s); injection Es as <- <-; cbn; rewrite ?M; tauto.
        + injection Es as <- <-. cbn. tauto.
        + destruct (down (nf s)); [|discriminate]. injection Es as <- <-. cbn. tauto.
        + destruct again; injection Es as <- <-; cbn; tauto.
        + destruct (getevents k s) as [[evs s3]|] eqn:G; [|discriminate]. injection Es as <- <-.
          apply getevents_split in G. destruct G as (rest & _ & _ & ->). cbn. tauto.
        + unfold hstep in Es. destruct evs as [|[q ok] evs]; [discriminate|].
          destruct h; [| |destruct (down (np s)); [|discriminate]]; injection Es as <- <-; cbn; tauto.
        + injection Es as <- <-. cbn. tauto.
        + discriminate.
      - unfold wait_step in Es. destruct (wp s).
        + destruct (down (np s)); [|discriminate]. injection Es as <- <-. cbn. tauto.
        + injection Es as <- <-. cbn. tauto.
        + destruct (getevents k s) as [[evs s3]|] eqn:G; [|discriminate]. injection Es as <- <-.
          apply getevents_split in G. destruct G as (rest & _ & _ & ->). cbn. tauto.
        + injection Es as <- <-. cbn. tauto.
        + unfold hstep in Es. destruct evs as [|[q ok] evs]; [discriminate|].
          destruct h; [| |destruct (down (np s)); [|discriminate]]; injection Es as <- <-; cbn; tauto.
        + discriminate.
      - destruct (mem r (kern s)); [|discriminate]. injection Es as <- <-. cbn. tauto.
      - destruct (destr_step s) as [s3|] eqn:G; [|discriminate]. injection Es as <- <-. unfold destr_step in G.
        destruct (dp s) eqn:Z; try discriminate; [|destruct (pp s); try discriminate| |destruct (wp s); try discriminate];
          injection G as <-; cbn; rewrite ?Z; intuition congruence. }
    tauto.
Qed.

(** Without cancelling: all requests of a queue that is not being destroyed become ready. *)
Theorem C100_no_cancel_partial n tr s : n > 0 -> exec no_again (init n) tr s -> mtx s = None -> dp s = D0 ->
  forall es s' tr', Forall internal es -> run es s = Some (s', tr') -> (forall e, internal e -> step e s' = None) ->
  all_ready (tr ++ tr').
Proof.
  intros Hn H Hm Hd es s' tr' F R ST. destruct (internal_keeps es F _ _ _ R) as (A & B & _ & _).
  destruct (proj2 (C100_completes_partial n tr s Hn H) es s' tr' F R ST) as [(_ & _ & Q)|[Q|(Q & _)]].
  - exact Q.
  - apply B in Hd. congruence.
  - exfalso. apply Q. exact (A Hm).
Qed.

(** The destructor, called when no call is running, returns; when all requests were ready at that time, they are
    (there are no others) when it returns. *)
Theorem C100_destructor_partial n tr s s1 o : n > 0 -> exec no_again (init n) tr s -> step EDestroy s = Some (s1, o) ->
  forall es s' tr', Forall internal es -> run es s1 = Some (s', tr') -> (forall e, internal e -> step e s' = None) ->
  dp s' = D5 /\ (all_ready tr -> all_ready (tr ++ o ++ tr')).
Proof.
  intros Hn H E es s' tr' F R ST.
  pose proof (exec_snoc _ _ _ _ _ _ _ H (Logic.I : no_again EDestroy) E) as H1.
  cbn in E. destruct (calls_ok s) eqn:Q; [|discriminate]. injection E as <- <-.
  assert (mtx s = None) as Hm. { unfold calls_ok in Q. destruct (dp s), (mtx s); congruence. }
  destruct (internal_keeps es F _ _ _ R) as (A & B & C & D). cbn in A, B. split.
  - destruct (proj2 (C100_completes_partial _ _ _ Hn H1) es s' tr' F R ST) as [(Q1 & _ & _)|[Q1|(Q1 & _)]].
    + apply B in Q1. discriminate.
    + exact Q1.
    + exfalso. apply Q1. exact (A Hm).
  - intros AR r Hr. cbn [app] in *. rewrite adds_app, C, app_nil_r in Hr. specialize (AR r Hr). unfold ready in *.
    rewrite cancels_app, dones_app, !in_app_iff. tauto.
Qed.

(** The hypotheses of the three theorems can be met: after [demo] nothing moves; and a queue that still has work. *)
Example C100_example : exists s, run demo (init 2) = Some (s, demo_tr) /\ mtx s = None /\ dp s = D0 /\
  (forall e, internal e -> step e s = None) /\
  exists s', run ([EDestroy; EDStep] ++ [EPost false 1; EPost false 1; EDStep; EDStep; EWait 1; EWait 1; EDStep]) s = Some (s', []) /\
  dp s' = D5 /\ forall e, internal e -> step e s' = None.
Proof.
  destruct (run demo (init 2)) as [[s tr]|] eqn:R; [|vm_compute in R; discriminate].
  vm_compute in R. injection R as <- <-. eexists. split; [reflexivity|]. split; [reflexivity|]. split; [reflexivity|]. split.
  - intros [ | | |[] ?| | | |] Hi; cbn in Hi; try tauto; reflexivity.
  - eexists. split; [vm_compute; reflexivity|]. split; [reflexivity|].
    intros [ | | |[] ?| | | |] Hi; cbn in Hi; try tauto; reflexivity.
Qed.
Example C100_example_busy : exists s tr, run [EAdd 0; EAdd 1; EPost false 1] (init 1) = Some (s, tr) /\
  ~ all_ready tr /\ exists e, internal e /\ step e s <> None.
Proof.
  eexists. eexists. split; [vm_compute; reflexivity|]. split.
  - intros Q. specialize (Q 0 (or_introl eq_refl)). unfold ready in Q. cbn in Q. tauto.
  - exists (EPost false 1). split; [exact Logic.I|discriminate].
Qed.

(** ** C101: the constructor negotiates the number of events with the kernel. *)

(** Full claim: if the kernel grants some positive number of events that is not larger than the desired one, the
    constructor succeeds with such a number.  False: the loop doubles the number instead of halving it. *)
Open Scope Z_scope.
Theorem C101_negotiation_refuted : exists limit desired, 0 < limit /\ 0 < desired < 2 ^ 31 /\
  forall m, queue_setup limit desired <> NOk m.
Proof. exists 32, 64. split; [lia|]. split; [lia|]. intros m. vm_compute. discriminate. Qed.

Lemma nego_undef f : forall limit m, 1 < m < 2 ^ 31 -> limit < m -> 2 ^ 31 <= m * 2 ^ Z.of_nat f -> (f > 0)%nat ->
  negotiate f limit m = NUndef.
Proof.
  induction f as [|f IH]; intros limit m Hm Hl Hf Hp; [lia|]. cbn [negotiate].
  destruct (Z.leb_spec m 0); [lia|]. destruct (Z.leb_spec m limit); [lia|]. destruct (Z.ltb_spec 1 m); [|lia].
  cbv zeta. destruct (Z.ltb_spec (2 * m) (2 ^ 31)) as [L|L]; [|reflexivity].
  rewrite Nat2Z.inj_succ, Z.pow_succ_r in Hf by lia.
  apply IH; try lia. destruct f; [|lia]. cbn in Hf. lia.
Qed.

(** The exact outcome: success if and only if the first attempt succeeds; the [int] overflows in all other cases but
    a desired number of one. *)
Theorem C101_negotiation_partial limit desired : 0 <= desired < 2 ^ 31 -> 0 <= limit ->
  let m := if desired =? 0 then 64 else desired in
  (m <= limit -> queue_setup limit desired = NOk m) /\
  (limit < m -> 1 < m -> queue_setup limit desired = NUndef) /\
  (limit = 0 -> m = 1 -> queue_setup limit desired = NFail 1).
Proof.
  intros Hd Hl m. assert (0 < m < 2 ^ 31) as Hm. { unfold m. destruct (Z.eqb_spec desired 0); lia. }
  unfold queue_setup. fold m. split; [|split].
  - intros H. change (negotiate 33 limit m) with (if m <=? 0 then NFail m else if m <=? limit then NOk m else
      if 1 <? m then (let x := 2 * m in if x <? 2 ^ 31 then negotiate 32 limit x else NUndef) else NFail m).
    destruct (Z.leb_spec m 0); [lia|]. destruct (Z.leb_spec m limit); [reflexivity|lia].
  - intros H1 H2. apply nego_undef; try lia.
  - intros -> E. rewrite E. reflexivity.
Qed.
Example C101_example : queue_setup 65536 0 = NOk 64 /\ queue_setup 100 128 = NUndef.
Proof. split; reflexivity. Qed.
Close Scope Z_scope.

(** ** C102: errors of the kernel are reported by wait(). *)

(** Full claim: if the kernel finishes the transfer of a request with an error or short, and the request becomes
    ready, then wait() throws.  False: [handle_events] does not look at the result of the event. *)
Theorem C102_errors_refuted : exists n tr s r, exec no_again (init n) tr s /\ NoDup (adds tr) /\
  In (OKern r false) tr /\ In (ODone r false) tr.
Proof.
  destruct (run ([EAdd 5] ++ post1 ++ [EKern 5 false] ++ serve) (init 4)) as [[s tr]|] eqn:R;
    [|vm_compute in R; discriminate].
  exists 4, tr, s, 5. pose proof (reach_run no_again _ _ _ _ R ltac:(repeat constructor)) as H.
  split; [exact H|]. vm_compute in R. injection R as <- <-. split; [cbn; repeat constructor; cbn; lia|]. cbn. tauto.
Qed.

(** No error is ever reported, so in particular none is invented. *)
Theorem C102_no_invented_error_partial n tr s r err : exec anything (init n) tr s -> In (ODone r err) tr -> err = false.
Proof.
  intros H. induction H as [|s0 tr s1 e s2 o H IH He Hs]; [intros []|]. rewrite in_app_iff. intros [Q|Q]; [exact (IH Q)|].
  assert (forall fin evs h s s' o, hstep fin evs h s = Some (s', o) -> In (ODone r err) o -> err = false) as HH.
  { intros fin evs h s s' o' E Hi. unfold hstep in E. destruct evs as [|[q ok] evs]; [discriminate|].
    destruct h; [| |destruct (down (np s)); [|discriminate]]; injection E as _ <-; cbn in Hi; try tauto.
    destruct Hi as [Hi|[]]. congruence. }
  destruct e as [r'|r'| |again k|k|r' ok| |]; cbn in Hs.
  - destruct (calls_ok s1); [|discriminate]. injection Hs as _ <-. destruct Q as [Q|[]]. discriminate.
  - destruct (calls_ok s1); [|discriminate]. destruct (mem r' (waiting s1)); injection Hs as _ <-; [|destruct Q].
    destruct Q as [Q|[]]. discriminate.
  - destruct (mtx s1); [|discriminate]. destruct (down (nw s1)); [|discriminate]. injection Hs as _ <-. destruct Q.
  - unfold post_step in Hs. destruct (pp s1) as [|v| | |r'|r'|r'|evs h r'| |].
    + destruct (down (nw s1)); [|discriminate]. injection Hs as _ <-. destruct Q.
    + injection Hs as _ <-. destruct Q.
    + destruct (mtx s1); [discriminate|]. destruct (waiting s1); injection Hs as _ <-; destruct Q.
    + injection Hs as _ <-. destruct Q.
    + destruct (down (nf s1)); [|discriminate]. injection Hs as _ <-. destruct Q.
    + destruct again; injection Hs as _ <-; destruct Q as [Q|[]]; discriminate.
    + destruct (getevents k s1) as [[evs s3]|]; [|discriminate]. injection Hs as _ <-. destruct Q.
    + exact (HH _ _ _ _ _ _ Hs Q).
    + injection Hs as _ <-. destruct Q.
    + discriminate.
  - unfold wait_step in Hs. destruct (wp s1) as [|v| |evs|evs h|].
    + destruct (down (np s1)); [|discriminate]. injection Hs as _ <-. destruct Q.
    + injection Hs as _ <-. destruct Q.
    + destruct (getevents k s1) as [[evs s3]|]; [|discriminate]. injection Hs as _ <-. destruct Q.
    + injection Hs as _ <-. destruct Q.
    + exact (HH _ _ _ _ _ _ Hs Q).
    + discriminate.
  - destruct (mem r' (kern s1)); [|discriminate]. injection Hs as _ <-. destruct Q as [Q|[]]. discriminate.
  - destruct (calls_ok s1); [|discriminate]. injection Hs as _ <-. destruct Q.
  - destruct (destr_step s1); [|discriminate]. injection Hs as _ <-. destruct Q.
Qed.

(** ** C103: the references that the queue hands to the kernel. *)

(** Full claim: when every request is ready and nothing moves, no reference that was made for the kernel is left.
    False: every [EAGAIN] leaves one behind, and the request can never be freed. *)
Definition leak_run : list ev := [EAdd 0; EAdd 1] ++ post1 ++ repeat (EPost false 1) 4 ++
  [EPost true 1; EKern 0 true] ++ repeat (EPost false 1) 4 ++ [EPost false 1; EPost false 1; EKern 1 true] ++ serve.
Theorem C103_references_refuted : exists n tr s r, exec anything (init n) tr s /\ NoDup (adds tr) /\
  all_ready tr /\ (forall e, internal e -> step e s = None) /\ In r (ptrs s).
Proof.
  destruct (run leak_run (init 4)) as [[s tr]|] eqn:R; [|vm_compute in R; discriminate].
  exists 4, tr, s, 1.
  assert (Forall anything leak_run) as FA. { apply Forall_forall. intros; exact Logic.I. }
  pose proof (reach_run anything _ _ _ _ R FA) as H.
  split; [exact H|]. clear H. vm_compute in R. injection R as <- <-.
  split; [cbn; repeat constructor; cbn; lia|].
  split; [intros r Hr; unfold ready; cbn in *; tauto|]. split; [|cbn; tauto].
  intros [ | | |[] ?| | | |] Hi; cbn in Hi; try tauto; reflexivity.
Qed.

(** Exactly: a reference belongs to a submitted request that is not ready, or to an answer [EAGAIN]. *)
Theorem C103_references_partial n tr s r : exec anything (init n) tr s ->
  count_occ Nat.eq_dec (ptrs s) r + count_occ Nat.eq_dec (dones tr) r =
  count_occ Nat.eq_dec (submits tr) r + count_occ Nat.eq_dec (agains tr) r.
Proof.
  intros H. pose proof (inv_exec _ _ _ _ H) as I. pose proof (i_ptr _ _ _ I r) as A. pose proof (i_sub _ _ _ I r) as B.
  unfold cnt in *. lia.
Qed.
Example C103_example : exists s, run demo (init 2) = Some (s, demo_tr) /\ ptrs s = [] /\
  exists s2 tr2, run leak_run (init 4) = Some (s2, tr2) /\ ptrs s2 = [1] /\ agains tr2 = [1].
Proof.
  eexists. split; [vm_compute; reflexivity|]. split; [reflexivity|].
  eexists. eexists. split; [vm_compute; reflexivity|]. split; reflexivity.
Qed.

Print Assumptions C99_once.
Print Assumptions C99_fifo.
Print Assumptions C99_after_kernel.
Print Assumptions C99_bounded.
Print Assumptions C100_cancel_deadlock_refuted.
Print Assumptions C100_again_deadlock_refuted.
Print Assumptions C100_shutdown_refuted.
Print Assumptions C100_completes_partial.
Print Assumptions C100_no_cancel_partial.
Print Assumptions C100_destructor_partial.
Print Assumptions C101_negotiation_refuted.
Print Assumptions C101_negotiation_partial.
Print Assumptions C102_errors_refuted.
Print Assumptions C102_no_invented_error_partial.
Print Assumptions C103_references_refuted.
Print Assumptions C103_references_partial.
