(** Properties of the I/O statistics: C95 counters, C96 serial times, C97 parallel times, C98 wait times and reset. *)
From Coq Require Import ZArith List Bool Arith Permutation Lia.
From Verif Require Import IoStatsModel IoStatsSpec IoStats.
Import ListNotations.
Open Scope Z_scope.

(** ** C95: the difference of two snapshots counts the operations and bytes of the calls made in between, whatever
    the threads do in between. *)
Theorem C95_counters es m m' t t' : no_reset es -> idle m -> run es m = Some m' -> idle m' ->
  let d := sd_sub (snapshot t' (ms m')) (snapshot t (ms m)) in
  sd_reads d = u32 (over_calls (is_op false) es) /\ sd_writes d = u32 (over_calls (is_op true) es)
  /\ sd_vread d = i64 (over_calls (op_bytes false) es) /\ sd_vwritten d = i64 (over_calls (op_bytes true) es)
  /\ sd_creads d = u32 (over_calls (is_cached false) es) /\ sd_cwrites d = u32 (over_calls (is_cached true) es)
  /\ sd_cvread d = i64 (over_calls (cached_bytes false) es) /\ sd_cvwritten d = i64 (over_calls (cached_bytes true) es).
Proof.
  intros NR I R I'. destruct (counters es m m' false NR I R I') as (A1 & A2 & A3 & A4).
  destruct (counters es m m' true NR I R I') as (B1 & B2 & B3 & B4). cbn [get_dir] in *. repeat split; assumption.
Qed.
(** Two threads; a write is canceled while a read is being started. *)
Definition ex_run : list event :=
  [ECall 0 (CStart false 100); EStep 0; ECall 1 (CStart true 7); EStep 1; EStep 1; EStep 1; ETick 5; EStep 0;
   ECall 1 (CCancel true 7); EStep 1; EStep 0; ETick 3; EStep 1; EStep 1; EStep 1; ECall 1 (CCached false 9); EStep 1;
   ECall 0 (CFin false); EStep 0; ETick 2; EStep 0; EStep 0].
Example C95_example : exists m', run ex_run (minit 2 1000) = Some m' /\ idle m' /\ no_reset ex_run
  /\ map (over_calls (is_op false)) [ex_run] = [1] /\ over_calls (is_op true) ex_run = 0
  /\ get_reads (ms m') = 1 /\ get_read_volume (ms m') = 100 /\ get_writes (ms m') = 0 /\ get_cached_read_volume (ms m') = 9
  /\ times (KStart false) (log m') = [1000] /\ times (KFin false) (log m') = [1008].
Proof.
  eexists. split; [vm_compute; reflexivity|]. split; [repeat constructor|].
  split; [intro i; split; intro H; cbn in H; repeat (destruct H as [H|H]; [discriminate H|]); exact H|]. vm_compute. repeat split.
Qed.

(** The scoped timers call start and end alternately, and end last. *)
Theorem C95_scoped_timers on off now size os : paired on off (timer_life on off now size os).
Proof.
  unfold timer_life. rewrite app_assoc. destruct (timer_calls on off ((if now then [TStart size] else []) ++ os) false) as (b & l & -> & -> & P). exact P.
Qed.
Example C95_scoped_timers_example :
  timer_life (CStart true) (CFin true) true 5 [TStart 6; TStop; TStop; TStart 7] = [CStart true 5; CFin true; CStart true 7; CFin true].
Proof. reflexivity. Qed.

(** ** C96: when all operations are over, the serial times are the sums of the durations (from the timestamp of the
    start to the timestamp of the end), in every schedule. *)
Theorem C96_serial_times n t0 es m ivr ivw : no_reset es -> run es (minit n t0) = Some m -> idle m ->
  intervals (KStart false) (KFin false) (log m) ivr -> intervals (KStart true) (KFin true) (log m) ivw ->
  get_read_time (ms m) = total ivr /\ get_write_time (ms m) = total ivw.
Proof.
  intros NR R I IR IW. unfold get_read_time, get_write_time.
  assert (X : forall w ivs, intervals (KStart w) (KFin w) (log m) ivs -> t_sum (clk (get_dir w (ms m))) = total ivs).
  { intros w ivs IV. destruct (io_clock es (minit n t0) m w ivs NR (idle_init n t0) R I) as (_ & T).
    - destruct w; reflexivity.
    - intros l L. cbn in L. subst l. exact IV.
    - rewrite T. destruct w; cbn; lia. }
  split; [exact (X false ivr IR)|exact (X true ivw IW)].
Qed.
(** As many ends (or cancellations) as starts have been called: then the operations can be listed, one for each start. *)
Theorem C96_operations n t0 es m w : run es (minit n t0) = Some m -> idle m -> over_calls (starts w) es = over_calls (ends w) es ->
  exists ivs, intervals (KStart w) (KFin w) (log m) ivs /\ Z.of_nat (length ivs) = over_calls (starts w) es.
Proof.
  intros R I E. pose proof (stamps_idle (KStart w) n t0 es m R I) as H1. pose proof (stamps_idle (KFin w) n t0 es m R I) as H2.
  rewrite (over_calls_ext _ (starts w)) in H1 by (intros [v z|v|v z|v z|r|r| |]; destruct w; try destruct v; reflexivity).
  rewrite (over_calls_ext _ (ends w)) in H2 by (intros [v z|v|v z|v z|r|r| |]; destruct w; try destruct v; reflexivity).
  destruct (intervals_of (KStart w) (KFin w) (log m)) as (ivs & IV); [lia|]. exists ivs. split; [exact IV|].
  rewrite <- H1, (Permutation_length (proj1 IV)), map_length. reflexivity.
Qed.
(** two overlapping reads; the thread of the first is interrupted between its timestamp and the section *)
Definition ex_over : list event :=
  [ECall 0 (CStart false 1); EStep 0; EStep 0; EStep 0; ETick 10; ECall 0 (CFin false); EStep 0; ETick 2;
   ECall 1 (CStart false 1); EStep 1; EStep 1; EStep 1; EStep 0; EStep 0; ETick 8; ECall 1 (CFin false); EStep 1; EStep 1; EStep 1].
Example C96_example : exists m, run ex_over (minit 2 0) = Some m /\ intervals (KStart false) (KFin false) (log m) [(0, 10); (12, 20)]
  /\ get_read_time (ms m) = 18 /\ over_calls (starts false) ex_over = 2 /\ over_calls (ends false) ex_over = 2.
Proof. eexists. split; [vm_compute; reflexivity|]. split; [split; apply Permutation_refl|repeat split]. Qed.

(** ** C97: the parallel times are the periods in which at least one operation runs. *)
(** Refuted: a thread that is interrupted between its timestamp and the section lets time be counted twice: two reads,
    from 0 to 10 and from 12 to 20, give a parallel read time of 20. *)
Theorem C97_interrupted_refuted : exists es m ivr, run es (minit 2 0) = Some m /\ idle m /\ no_reset es
  /\ intervals (KStart false) (KFin false) (log m) ivr /\ times (KStart true) (log m) = [] /\ Forall (fun i => fst i <= snd i) ivr
  /\ get_pread_time (ms m) > busy 0 (clock m) ivr /\ get_pio_time (ms m) > busy 0 (clock m) ivr.
Proof.
  exists ex_over. eexists. exists [(0, 10); (12, 20)]. split; [vm_compute; reflexivity|]. split; [repeat constructor|].
  split; [intro i; split; intro H; cbn in H; repeat (destruct H as [H|H]; [discriminate H|]); exact H|].
  split; [split; apply Permutation_refl|]. split; [reflexivity|]. split; [repeat constructor; cbn; discriminate|]. split; reflexivity.
Qed.
(** Refuted: an asynchronous read that ends before the thread that posted it has entered it into the statistics
    (linuxaio_request.cpp 75-82) makes the parallel read time negative. *)
Theorem C97_negative_refuted : exists es m ivr, run es (minit 2 0) = Some m /\ idle m /\ no_reset es
  /\ intervals (KStart false) (KFin false) (log m) ivr /\ Forall (fun i => fst i <= snd i) ivr
  /\ get_pread_time (ms m) < 0 /\ get_pio_time (ms m) < 0.
Proof.
  exists [ECall 0 (CStart false 1); EStep 0; ETick 10; ECall 1 (CFin false); EStep 1; EStep 1; EStep 1; EStep 0; EStep 0].
  eexists. exists [(0, 10)]. split; [vm_compute; reflexivity|]. split; [repeat constructor|].
  split; [intro i; split; intro H; cbn in H; repeat (destruct H as [H|H]; [discriminate H|]); exact H|].
  split; [split; apply Permutation_refl|]. split; [repeat constructor; cbn; discriminate|]. split; reflexivity.
Qed.
(** Proved if no thread is interrupted inside a call; the calls of the threads may alternate in any way.  Missing: all
    other schedules, where it is false. *)
Theorem C97_parallel_times_partial n t0 es m ivr ivw : serial es -> no_reset es -> run es (minit n t0) = Some m ->
  intervals (KStart false) (KFin false) (log m) ivr -> intervals (KStart true) (KFin true) (log m) ivw ->
  Forall (fun i => fst i <= snd i) (ivr ++ ivw) ->
  get_pread_time (ms m) = busy t0 (clock m) ivr /\ get_pwrite_time (ms m) = busy t0 (clock m) ivw
  /\ get_pio_time (ms m) = busy t0 (clock m) (ivr ++ ivw).
Proof.
  intros S NR R IR IW F. apply (serial_par es (minit n t0) m (log m) ivr ivw S NR (idle_init n t0) R eq_refl); auto. intros [|]; split; reflexivity.
Qed.
Definition whole (i : nat) (c : call) : list event := ECall i c :: repeat (EStep i) (steps c).
Definition ex_serial : list event :=
  whole 0 (CStart false 1) ++ ETick 4 :: whole 1 (CStart true 1) ++ ETick 3 :: whole 0 (CFin false) ++ ETick 1 ::
  whole 0 (CStart false 1) ++ ETick 1 :: whole 1 (CFin true) ++ ETick 2 :: whole 2 (CFin false) ++ [ETick 5].
Lemma serial_whole i c es : serial es -> serial (whole i c ++ es).
Proof. intro H. exact (serial_call i c es H). Qed.
Example C97_example : serial ex_serial /\ exists m, run ex_serial (minit 3 0) = Some m
  /\ intervals (KStart false) (KFin false) (log m) [(0, 7); (8, 11)] /\ intervals (KStart true) (KFin true) (log m) [(4, 9)]
  /\ get_pread_time (ms m) = 10 /\ get_pwrite_time (ms m) = 5 /\ get_pio_time (ms m) = 11.
Proof.
  split.
  - unfold ex_serial. repeat first [apply serial_whole | apply serial_tick | apply serial_nil].
  - eexists. split; [vm_compute; reflexivity|]. repeat split; apply Permutation_refl.
Qed.

(** ** C98: the wait times, and [reset] *)
Theorem C98_wait_times n t0 es m ivr ivw : no_reset es -> run es (minit n t0) = Some m -> idle m ->
  intervals (KWait true) (KWaited true) (log m) ivr -> intervals (KWait false) (KWaited false) (log m) ivw ->
  get_wait_read_time (ms m) = total ivr /\ get_wait_write_time (ms m) = total ivw /\ get_io_wait_time (ms m) = total ivr + total ivw.
Proof.
  intros NR R I IR IW.
  assert (X : forall a b ivs, intervals a b (log m) ivs -> forall l, log m = log (minit n t0) ++ l -> intervals a b l ivs).
  { intros a b ivs H l L. cbn in L. subst l. exact H. }
  destruct (w_clock es (minit n t0) m true ivr NR (idle_init n t0) R I eq_refl (X _ _ _ IR)) as (A1 & T1).
  destruct (w_clock es (minit n t0) m false ivw NR (idle_init n t0) R I eq_refl (X _ _ _ IW)) as (A2 & T2).
  destruct (both_run es _ _ NR (idle_plains _ (idle_init n t0)) R (proj2 (proj2 (proj2 (quiet_init t0))))) as (B1 & B2).
  cbn [w_one] in *. unfold get_wait_read_time, get_wait_write_time, get_io_wait_time, pot in *. rewrite A1, A2 in B1, B2. rewrite B2 in B1. cbn in T1, T2. lia.
Qed.
Theorem C98_waits n t0 es m r : run es (minit n t0) = Some m -> idle m -> over_calls (waits r) es = over_calls (waited r) es ->
  exists ivs, intervals (KWait r) (KWaited r) (log m) ivs /\ Z.of_nat (length ivs) = over_calls (waits r) es.
Proof.
  intros R I E. pose proof (stamps_idle (KWait r) n t0 es m R I) as H1. pose proof (stamps_idle (KWaited r) n t0 es m R I) as H2.
  rewrite (over_calls_ext _ (waits r)) in H1 by (intros [v z|v|v z|v z|v|v| |]; destruct r; try destruct v; reflexivity).
  rewrite (over_calls_ext _ (waited r)) in H2 by (intros [v z|v|v z|v z|v|v| |]; destruct r; try destruct v; reflexivity).
  destruct (intervals_of (KWait r) (KWaited r) (log m)) as (ivs & IV); [lia|]. exists ivs. split; [exact IV|].
  rewrite <- H1, (Permutation_length (proj1 IV)), map_length. reflexivity.
Qed.
Definition ex_wait : list event :=
  [ECall 0 (CWait true); EStep 0; ECall 1 (CWait false); EStep 1; ETick 4; EStep 1; EStep 0; ETick 3;
   ECall 0 (CWaited true); EStep 0; EStep 0; ETick 5; ECall 1 (CWaited false); EStep 1; EStep 1].
Example C98_wait_example : exists m, run ex_wait (minit 2 0) = Some m /\ idle m
  /\ intervals (KWait true) (KWaited true) (log m) [(0, 7)] /\ intervals (KWait false) (KWaited false) (log m) [(0, 12)]
  /\ get_io_wait_time (ms m) = 19.
Proof. eexists. split; [vm_compute; reflexivity|]. split; [repeat constructor|]. repeat split; apply Permutation_refl. Qed.

(** Refuted: [reset] while a read is running; the time before the reset is counted although the counters are reset,
    and the parallel read time is more than the time since the last reset. *)
Theorem C98_reset_refuted : exists es m, run es (minit 2 0) = Some m /\ idle m /\ serial es
  /\ get_pread_time (ms m) > clock m - last_reset (ms m) /\ get_read_time (ms m) > clock m - last_reset (ms m).
Proof.
  exists (whole 0 (CStart false 1) ++ ETick 100 :: whole 1 CReset ++ ETick 1 :: whole 0 (CFin false) ++ []). eexists.
  split; [vm_compute; reflexivity|]. split; [repeat constructor|].
  split; [repeat first [apply serial_whole | apply serial_tick | apply serial_nil]|]. split; reflexivity.
Qed.
(** Proved: a reset when no operation and no wait is running makes all values zero, and from then on they describe what
    happens after the reset.  Missing: resets during operations, where it is false. *)
Theorem C98_reset_partial n t0 es1 m1 i m2 es2 m3 l ivr ivw ivwr ivww jvr jvw jvwr jvww :
  no_reset es1 -> run es1 (minit n t0) = Some m1 -> idle m1 ->
  intervals (KStart false) (KFin false) (log m1) ivr -> intervals (KStart true) (KFin true) (log m1) ivw ->
  intervals (KWait true) (KWaited true) (log m1) ivwr -> intervals (KWait false) (KWaited false) (log m1) ivww ->
  run (ECall i CReset :: repeat (EStep i) (steps CReset)) m1 = Some m2 ->
  no_reset es2 -> run es2 m2 = Some m3 -> idle m3 -> log m3 = log m2 ++ l ->
  intervals (KStart false) (KFin false) l jvr -> intervals (KStart true) (KFin true) l jvw ->
  intervals (KWait true) (KWaited true) l jvwr -> intervals (KWait false) (KWaited false) l jvww ->
  snapshot (clock m2) (ms m2) = mkSD 0 0 0 0 0 0 0 0 0 0 0 0 0 0 0 0 0
  /\ get_reads (ms m3) = u32 (over_calls (is_op false) es2) /\ get_writes (ms m3) = u32 (over_calls (is_op true) es2)
  /\ get_read_time (ms m3) = total jvr /\ get_write_time (ms m3) = total jvw
  /\ get_wait_read_time (ms m3) = total jvwr /\ get_wait_write_time (ms m3) = total jvww
  /\ get_io_wait_time (ms m3) = total jvwr + total jvww
  /\ (serial es2 -> Forall (fun i => fst i <= snd i) (jvr ++ jvw) ->
      get_pread_time (ms m3) = busy (clock m2) (clock m3) jvr /\ get_pwrite_time (ms m3) = busy (clock m2) (clock m3) jvw
      /\ get_pio_time (ms m3) = busy (clock m2) (clock m3) (jvr ++ jvw)).
Proof.
  intros NR1 R1 I1 A1 A2 A3 A4 RS NR2 R2 I3 L B1 B2 B3 B4.
  destruct (quiet_run es1 (minit n t0) m1 (log m1) ivr ivw ivwr ivww NR1 (idle_init n t0) R1 I1 eq_refl (quiet_init t0) A1 A2 A3 A4) as (Q & _).
  destruct (run_call _ _ _ _ RS) as (now & N & E). cbn [code exec] in E. subst m2.
  set (m2 := mkM _ _ _ _) in *.
  assert (I2 : idle m2) by (apply Forall_lset; [exact I1|reflexivity]).
  destruct Q as (Q1 & Q2 & Q3 & (_ & Q4)). pose proof (Q1 false) as P1. pose proof (Q1 true) as P2. pose proof (Q3 true) as P3. pose proof (Q3 false) as P4. cbn [get_dir w_one] in P1, P2, P3, P4.
  assert (QU : quiet (ms m2)).
  { repeat split.
    - intros [|]; assumption.
    - exact Q2.
    - intros [|]; assumption.
    - unfold m2, pot. cbn. rewrite Q4, P3, P4. reflexivity.
    - exact Q4. }
  destruct (quiet_run es2 m2 m3 l jvr jvw jvwr jvww NR2 I2 R2 I3 L QU B1 B2 B3 B4) as (_ & T1 & T2 & T3 & T4 & T5).
  destruct (counters es2 m2 m3 false NR2 I2 R2 I3) as (C1 & _). destruct (counters es2 m2 m3 true NR2 I2 R2 I3) as (C2 & _).
  cbn [get_dir] in C1, C2. change (ops (drd (ms m2))) with 0 in C1. change (ops (dwr (ms m2))) with 0 in C2. rewrite Z.sub_0_r in C1, C2.
  split; [unfold snapshot, m2; cbn; rewrite Z.sub_diag; reflexivity|].
  assert (U : forall w, u32 (ops (get_dir w (ms m3))) = ops (get_dir w (ms m3))).
  { assert (G : forall es m m', (forall w, 0 <= ops (get_dir w (ms m)) < 2 ^ 32) -> run es m = Some m' -> forall w, 0 <= ops (get_dir w (ms m')) < 2 ^ 32).
    { clear. induction es as [|e es IH]; intros m m' H R; cbn [run] in R; [injection R as <-; exact H|].
      destruct (step e m) as [m1|] eqn:E; [|discriminate]. apply (IH m1 m'); [|exact R]. clear IH R. intro w.
      assert (UB : forall z, 0 <= u32 z < 2 ^ 32) by (intro z; apply Z.mod_pos_bound; reflexivity).
      destruct e as [d|i c|i]; cbn [step] in E.
      - injection E as <-. apply H.
      - destruct (nth_error (thr m) i) as [[now [|]]|]; try discriminate. injection E as <-. apply H.
      - destruct (nth_error (thr m) i) as [[now [|[q|x] l0]]|]; try discriminate; injection E as <-; [apply H|]. cbn [ms].
        pose proof (H true) as H1. pose proof (H false) as H2. cbn [get_dir] in H1, H2.
        destruct x as [v z|v|v z|v z| | |r|r|v| | | |]; try destruct v; destruct w; cbn [apply get_dir set_dir drd dwr ops wait_upd set_waits set_ios]; try apply UB; try assumption; lia. }
    intro w. apply Z.mod_small. apply (G es2 m2 m3); [|exact R2]. intros [|]; cbn; lia. }
  split; [rewrite <- C1; symmetry; exact (U false)|]. split; [rewrite <- C2; symmetry; exact (U true)|].
  split; [rewrite T1; reflexivity|]. split; [rewrite T2; reflexivity|]. split; [rewrite T3; reflexivity|]. split; [rewrite T4; reflexivity|].
  split; [change (get_io_wait_time (ms m2)) with 0 in T5; lia|].
  intros S F. apply (serial_par es2 m2 m3 l jvr jvw S NR2 I2 R2 L); auto.
  - intros [|]; split; try reflexivity; assumption.
Qed.
Example C98_reset_example : exists m1 m2 m3,
  run (whole 0 (CStart false 1) ++ ETick 5 :: whole 0 (CFin false) ++ [ETick 1]) (minit 2 0) = Some m1
  /\ run (ECall 1 CReset :: repeat (EStep 1) (steps CReset)) m1 = Some m2
  /\ run (ETick 2 :: whole 0 (CStart false 1) ++ ETick 7 :: whole 0 (CFin false) ++ []) m2 = Some m3
  /\ intervals (KStart false) (KFin false) (log m1) [(0, 5)] /\ get_pread_time (ms m1) = 5
  /\ get_pread_time (ms m3) = 7 /\ get_reads (ms m3) = 1 /\ clock m3 - last_reset (ms m3) = 9.
Proof.
  eexists. eexists. eexists. split; [vm_compute; reflexivity|]. split; [vm_compute; reflexivity|]. split; [vm_compute; reflexivity|].
  repeat split; apply Permutation_refl.
Qed.

Print Assumptions C95_counters.
Print Assumptions C95_scoped_timers.
Print Assumptions C96_serial_times.
Print Assumptions C96_operations.
Print Assumptions C97_interrupted_refuted.
Print Assumptions C97_negative_refuted.
Print Assumptions C97_parallel_times_partial.
Print Assumptions C98_wait_times.
Print Assumptions C98_waits.
Print Assumptions C98_reset_refuted.
Print Assumptions C98_reset_partial.
