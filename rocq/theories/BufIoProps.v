(** C32: block_prefetcher, buf_istream.  C33: buffered_writer, buf_ostream. *)
From Coq Require Import List Bool Arith Permutation Lia.
From Verif Require Import ScheduleModel ScheduleSpec ScheduleProofs SumLib AsyncIoModel AsyncIoProofs AsyncIoRules BufIoModel BufIoSpec BufIoRules PrefetchProofs IStreamProofs BufWriterProofs OStreamProofs.
Import ListNotations.

Lemma nothing_left A (s : sstate A) a : sim A s a -> sout s = [] -> apend a = [].
Proof. intros M E. destruct (apend a) as [|r l] eqn:Ep; [reflexivity|]. exfalso. assert (C : In r (sout s)) by (apply (m_sub _ _ _ M); rewrite Ep; left; reflexivity). rewrite E in C. exact C. Qed.
Lemma disk_left A (s : sstate A) a b i v : sim A s a -> sout s = [] -> In b (sown s) -> sdisk s b i = Some v -> adisk a b i = v.
Proof. intros M E Hb H. apply (m_d2 _ _ _ M b Hb); [|exact H]. intros r Hr. apply (m_sub _ _ _ M) in Hr. rewrite E in Hr. destruct Hr. Qed.

(** A user that takes the blocks one after the other, holds at most mx of them and looks at their elements sees what is on the
    disk, for every order of completion: the prefetch order has every block once and block k among the first k + m;
    there are as many buffers as blocks or at least mx + m - 1. *)
Theorem C32_prefetcher : forall A base bids order nbuf m mx os (d : nat -> nat -> A) out, complete (length bids) order -> in_time m order -> 1 <= length bids -> 1 <= nbuf -> (length bids <= nbuf \/ mx + m <= nbuf + 1) ->
  pspec_ops A (length bids) mx (fun k => d (nth k bids 0)) os ([], 0) = Some out ->
  forall c al o, match arun (pf_run A base bids order nbuf os) (ainit_own A bids c d al) o with Done r (a, _) => r = out /\ apend a = [] /\ (forall b i, In b bids -> adisk a b i = d b i) | Error => False | Stuck => True end.
Proof.
  intros A base bids order nbuf m mx os d out H1 H2 H3 H4 H5 E c al o. pose proof (own_async A _ (pf_run A base bids order nbuf os) bids d _ (fun al => pf_run_ok A d base bids order nbuf m mx os out al H1 H2 H3 H4 H5 E) c al o) as R.
  destruct (arun _ _ o) as [r (a & o')| |]; auto. destruct R as (s & (R1 & R2 & R3 & R4) & M). split; [exact R1|]. split; [apply (nothing_left A s a M R2)|].
  intros b i Hb. apply (disk_left A s a b i _ M R2); [rewrite R3; exact Hb|rewrite (R4 b Hb); reflexivity].
Qed.
(** and no such user waits forever *)
Theorem C32_prefetcher_progress : forall A base bids order nbuf m mx os (d : nat -> nat -> A) out, complete (length bids) order -> in_time m order -> 1 <= length bids -> 1 <= nbuf -> (length bids <= nbuf \/ mx + m <= nbuf + 1) ->
  pspec_ops A (length bids) mx (fun k => d (nth k bids 0)) os ([], 0) = Some out ->
  forall c, exists al o r a, arun (pf_run A base bids order nbuf os) (ainit_own A bids c d al) o = Done r (a, []).
Proof. intros A base bids order nbuf m mx os d out H1 H2 H3 H4 H5 E. exact (own_progress A _ _ bids d _ (fun al => pf_run_ok A d base bids order nbuf m mx os out al H1 H2 H3 H4 H5 E)). Qed.

(** buf_istream over any blocks, with its own schedule (any tie-breaking): reading, looking and advancing give the elements of the blocks in order *)
Theorem C32_istream : forall A S ndisks mdev dev ch base bids nbuf os (d : nat -> nat -> A) out, 1 <= S -> 1 <= length bids -> 1 <= ndisks \/ nbuf <> 1 -> (forall b, In b bids -> dev b <= mdev) ->
  ispec_ops (elements S d bids) os = Some out ->
  forall c al o, match arun (is_run A S ndisks mdev dev ch base bids nbuf os) (ainit_own A bids c d al) o with Done r (a, _) => r = out /\ apend a = [] | Error => False | Stuck => True end.
Proof.
  intros A S ndisks mdev dev ch base bids nbuf os d out H1 H2 H3 H4 E c al o.
  pose proof (own_async A _ (is_run A S ndisks mdev dev ch base bids nbuf os) bids d _ (fun al => is_run_ok A S d ndisks mdev dev ch base bids nbuf os out al H1 H2 (is_nbuf_pos _ _ _ H2 H3) H4 E) c al o) as R.
  destruct (arun _ _ o) as [r (a & o')| |]; auto. destruct R as (s & (R1 & R2) & M). split; [exact R1|apply (nothing_left A s a M R2)].
Qed.
Theorem C32_istream_progress : forall A S ndisks mdev dev ch base bids nbuf os (d : nat -> nat -> A) out, 1 <= S -> 1 <= length bids -> 1 <= ndisks \/ nbuf <> 1 -> (forall b, In b bids -> dev b <= mdev) ->
  ispec_ops (elements S d bids) os = Some out ->
  forall c, exists al o r a, arun (is_run A S ndisks mdev dev ch base bids nbuf os) (ainit_own A bids c d al) o = Done r (a, []).
Proof. intros A S ndisks mdev dev ch base bids nbuf os d out H1 H2 H3 H4 E. exact (own_progress A _ _ bids d _ (fun al => is_run_ok A S d ndisks mdev dev ch base bids nbuf os out al H1 H2 (is_nbuf_pos _ _ _ H2 H3) H4 E)). Qed.

(** Every block handed to the writer is on disk, with the content it had when it was handed over, when the writer is destroyed; the other
    blocks are as before.  n = max(nbuf, 2) buffers, batches of max(batch, 1) blocks.  wspec_ops requires that held blocks and batch together
    leave a buffer (otherwise: C33_hang_refuted), that a block is not handed over twice between two flushes, and (keeps) that no
    block is kept over a flush (otherwise: C33_flush_keep_refuted). *)
Theorem C33_writer : forall A order offset own base nbuf batch os (d : nat -> nat -> A) st, (forall l, Permutation (order l) l) -> existsb keeps os = false ->
  wspec_ops A (Nat.max nbuf 2) (Nat.max batch 1) own os (wspec0 A d) = Some st ->
  forall c al o, match arun (bw_run A order offset base nbuf batch os) (ainit_own A own c d al) o with Done _ (a, _) => apend a = [] /\ (forall b i v, In b own -> ws_disk st b i = Some v -> adisk a b i = v) | Error => False | Stuck => True end.
Proof.
  intros A order offset own base nbuf batch os d st H1 H2 E c al o. pose proof (own_async A _ (bw_run A order offset base nbuf batch os) own d _ (fun al => bw_run_ok A order offset own d base nbuf batch os st al H1 H2 E) c al o) as R.
  destruct (arun _ _ o) as [r (a & o')| |]; auto. destruct R as (s & (R1 & R2 & R3) & M). split; [apply (nothing_left A s a M R1)|].
  intros b i v Hb Hv. apply (disk_left A s a b i v M R1); [rewrite R2; exact Hb|]. apply (R3 b Hb i v Hv).
Qed.
Theorem C33_writer_progress : forall A order offset own base nbuf batch os (d : nat -> nat -> A) st, (forall l, Permutation (order l) l) -> existsb keeps os = false ->
  wspec_ops A (Nat.max nbuf 2) (Nat.max batch 1) own os (wspec0 A d) = Some st ->
  forall c, exists al o r a, arun (bw_run A order offset base nbuf batch os) (ainit_own A own c d al) o = Done r (a, []).
Proof. intros A order offset own base nbuf batch os d st H1 H2 E. exact (own_progress A _ _ own d _ (fun al => bw_run_ok A order offset own d base nbuf batch os st al H1 H2 E)). Qed.
(** the same when flush returns *)
Theorem C33_flush : forall A order offset own base nbuf batch os (d : nat -> nat -> A) st, (forall l, Permutation (order l) l) -> existsb keeps os = false ->
  wspec_ops A (Nat.max nbuf 2) (Nat.max batch 1) own os (wspec0 A d) = Some st ->
  forall c al o, match arun (bw_ops A order offset (os ++ [BFlush A]) (bw_new base nbuf batch) []) (ainit_own A own c d al) o with Done _ (a, _) => apend a = [] /\ (forall b i v, In b own -> ws_disk st b i = Some v -> adisk a b i = v) | Error => False | Stuck => True end.
Proof.
  intros A order offset own base nbuf batch os d st H1 H2 E c al o. pose proof (own_async A _ (bw_ops A order offset (os ++ [BFlush A]) (bw_new base nbuf batch) []) own d _ (fun al => bw_flushed_ok A order offset own d base nbuf batch os st al H1 H2 E) c al o) as R.
  destruct (arun _ _ o) as [r (a & o')| |]; auto. destruct R as (s & (R1 & R2 & R3) & M). split; [apply (nothing_left A s a M R1)|].
  intros b i v Hb Hv. apply (disk_left A s a b i v M R1); [rewrite R2; exact Hb|]. apply (R3 b Hb i v Hv).
Qed.
(** buf_ostream with any number of buffers never waits forever; when it is destroyed at the end of a block, what was written is in the
    blocks, and the blocks behind are as before *)
Lemma os_run_own A order offset S bids base nbuf os (d : nat -> nat -> A) pos cont : (forall l, Permutation (order l) l) -> 1 <= S -> NoDup bids ->
  ospec_ops S (length bids) os (0, empty_block A) = Some (pos, cont) -> pos mod S = 0 ->
  forall al, ok (os_run A S order offset base bids nbuf os) (sinit_own A bids d al) (fun _ s => sout s = [] /\ sown s = bids /\
    (forall j i v, j < pos / S -> i < S -> cont (j * S + i) = Some v -> sdisk s (nth j bids 0) i = Some v) /\ (forall b i, In b bids -> ~ In b (firstn (pos / S) bids) -> sdisk s b i = Some (d b i))).
Proof.
  intros OP S1 ND E HM al. eapply ok_imp; [apply (os_run_ok A order offset S bids bids (fun b i => if mem b bids then Some (d b i) else None) base nbuf os pos cont (sinit_own A bids d al) OP S1 ND); auto|].
  - apply own_wf.
  - intros b _. apply agrees_refl.
  - intros _ s (W & F & N & K1 & K2). split; [|split; [apply (f_own _ _ _ _ _ _ F)|split; [exact K1|]]].
    + destruct (sout s) as [|r0 l0] eqn:Eo; [reflexivity|]. exfalso. assert (H0 : In r0 (sout s)) by (rewrite Eo; left; reflexivity). destruct (f_new _ _ _ _ _ _ F r0 H0) as [[]|(C & _)]. apply (N r0); [left; reflexivity|exact C].
    + intros b i Hb Nb. apply (K2 b Hb Nb). rewrite (proj2 (mem_in _ _) Hb). reflexivity.
Qed.
Theorem C33_ostream : forall A order offset S bids base nbuf os (d : nat -> nat -> A) pos cont, (forall l, Permutation (order l) l) -> 1 <= S -> NoDup bids ->
  ospec_ops S (length bids) os (0, empty_block A) = Some (pos, cont) -> pos mod S = 0 ->
  forall c al o, match arun (os_run A S order offset base bids nbuf os) (ainit_own A bids c d al) o with
    | Done _ (a, _) => apend a = [] /\ (forall j i v, j < pos / S -> i < S -> cont (j * S + i) = Some v -> adisk a (nth j bids 0) i = v) /\ (forall j i, pos / S <= j < length bids -> adisk a (nth j bids 0) i = d (nth j bids 0) i)
    | Error => False | Stuck => True end.
Proof.
  intros A order offset S bids base nbuf os d pos cont OP S1 ND E HM c al o. pose proof (own_async A _ _ bids d _ (os_run_own A order offset S bids base nbuf os d pos cont OP S1 ND E HM) c al o) as R.
  destruct (arun _ _ o) as [r (a & o')| |]; auto. destruct R as (s & (R1 & R2 & R3 & R4) & M). split; [apply (nothing_left A s a M R1)|]. split.
  - intros j i v Hj Hi Hv. destruct (Nat.lt_ge_cases j (length bids)) as [G|G].
    + apply (disk_left A s a _ i v M R1); [rewrite R2; apply nth_In, G|apply R3; assumption].
    + exfalso. assert (pos <= length bids * S); [|apply (Nat.div_le_mono _ _ S) in H; [rewrite Nat.div_mul in H by lia; lia|lia]].
      clear -E S1. assert (G : forall os p (f : block A) p' f', p <= length bids * S -> ospec_ops S (length bids) os (p, f) = Some (p', f') -> p' <= length bids * S).
      { clear E os pos cont. induction os as [|o os IH]; intros p f p' f' Hp E; [injection E as <- _; exact Hp|]. simpl in E. destruct (Nat.ltb_spec p (length bids * S)) as [G|G]; [|discriminate].
        assert (Q : forall k, k * S < length bids * S + S -> k * S <= length bids * S) by (intros k Hk; apply Nat.mul_le_mono_r; assert (k < length bids + 1) by (apply (Nat.mul_lt_mono_pos_r S); lia); lia).
        pose proof (Nat.mul_div_le p S ltac:(lia)) as Q1. pose proof (Nat.mul_div_le (p + S - 1) S ltac:(lia)) as Q2.
        destruct o; (eapply IH; [|exact E]); try lia.
        - apply Q. nia.
        - apply Q. nia. }
      apply (G os 0 (empty_block A) pos cont); [lia|exact E].
  - intros j i Hj. apply (disk_left A s a _ i _ M R1); [rewrite R2; apply nth_In; lia|]. apply R4; [apply nth_In; lia|]. intro C. apply (In_nth _ _ 0) in C. destruct C as (k & K1 & K2). rewrite firstn_length in K1.
    assert (K3 : nth k (firstn (pos / S) bids) 0 = nth k bids 0). { rewrite <- (firstn_skipn (pos / S) bids) at 2. rewrite app_nth1; [reflexivity|rewrite firstn_length; lia]. }
    rewrite K3 in K2. apply NoDup_nth in K2; [lia|exact ND|lia|lia].
Qed.
Theorem C33_ostream_progress : forall A order offset S bids base nbuf os (d : nat -> nat -> A) pos cont, (forall l, Permutation (order l) l) -> 1 <= S -> NoDup bids ->
  ospec_ops S (length bids) os (0, empty_block A) = Some (pos, cont) -> pos mod S = 0 ->
  forall c, exists al o r a, arun (os_run A S order offset base bids nbuf os) (ainit_own A bids c d al) o = Done r (a, []).
Proof. intros A order offset S bids base nbuf os d pos cont OP S1 ND E HM. exact (own_progress A _ _ bids d _ (os_run_own A order offset S bids base nbuf os d pos cont OP S1 ND E HM)). Qed.
(** what was written to a buf_ostream is what a buf_istream over the same blocks reads *)
Theorem C33_round_trip : forall A order offset S ndisks mdev dev ch base bids nbuf nbuf' (d : nat -> nat -> A) vs, (forall l, Permutation (order l) l) -> 1 <= S -> NoDup bids -> 1 <= length bids ->
  1 <= ndisks \/ nbuf' <> 1 -> (forall b, In b bids -> dev b <= mdev) -> length vs = length bids * S ->
  forall c al o, match arun (bind (os_run A S order offset base bids nbuf (map (OPut A) vs)) (fun _ => is_run A S ndisks mdev dev ch base bids nbuf' (repeat IGet (length vs)))) (ainit_own A bids c d al) o with
    Done r _ => r = vs | Error => False | Stuck => True end.
Proof.
  intros A order offset S ndisks mdev dev ch base bids nbuf nbuf' d vs H1 H2 H3 H4 H5 H6 H7 c al o.
  pose proof (own_async A _ _ bids d _ (fun al => round_trip_ok A order offset S ndisks mdev dev ch base bids nbuf nbuf' d vs al H1 H2 H3 H4 (is_nbuf_pos _ _ _ H4 H5) H6 H7) c al o) as R.
  destruct (arun _ _ o) as [r (a & o')| |]; auto. destruct R as (s & R & _). exact R.
Qed.

(** * What is not true *)
Definition id_order (l : list (nat * nat)) := l.
Definition grid (b i : nat) : nat := 100 * b + i.
Definition run_eager {R} (p : prog nat R) own al := arun p (ainit_own nat own (fun _ _ => 0) grid al) (eager p (ainit_own nat own (fun _ _ => 0) grid al)).
(** flush() puts all buffers into the list of free blocks; a block that the user still holds is handed out again: 7 is written where 1 was *)
Definition keep_ops : list (bwop nat) := [BGet _; BPut _ 0 0 1; BFlushKeep _; BGet _; BPut _ 1 0 7; BWrite _ 0 5].
Theorem C33_flush_keep_refuted : exists st c d al o r a, wspec_ops nat 3 1 [5; 6] keep_ops (wspec0 nat d) = Some st /\
  arun (bw_run nat id_order id 0 3 1 keep_ops) (ainit_own nat [5; 6] c d al) o = Done r (a, []) /\ ws_disk st 5 0 = Some 1 /\ adisk a 5 0 = 7.
Proof.
  eexists _, (fun _ _ => 0), grid, [], (eager (bw_run nat id_order id 0 3 1 keep_ops) (ainit_own nat [5; 6] (fun _ _ => 0) grid [])), tt, _.
  split; [reflexivity|]. split; [vm_compute; reflexivity|]. split; reflexivity.
Qed.
(** batches as large as the number of buffers: the second write waits for a request where there is none *)
Definition hang_ops : list (bwop nat) := [BGet _; BWrite _ 0 5; BWrite _ 0 6].
Theorem C33_hang_refuted : exists os : list (bwop nat), existsb keeps os = false /\ forall c d al, arun (bw_run nat id_order id 0 2 2 os) (ainit_own nat [5; 6] c d al) [[]] = Error /\
  forall o r s, arun (bw_run nat id_order id 0 2 2 os) (ainit_own nat [5; 6] c d al) o <> Done r s.
Proof.
  exists hang_ops. split; [reflexivity|]. intros c d al. split; [reflexivity|]. intros o r s. destruct o as [|e o]; cbn; [discriminate|]. destruct (aserves (ainit_own nat [5; 6] c d al) e); discriminate.
Qed.

Print Assumptions C32_prefetcher. Print Assumptions C32_prefetcher_progress. Print Assumptions C32_istream. Print Assumptions C32_istream_progress.
Print Assumptions C33_writer. Print Assumptions C33_writer_progress. Print Assumptions C33_flush. Print Assumptions C33_ostream. Print Assumptions C33_ostream_progress. Print Assumptions C33_round_trip.
Print Assumptions C33_flush_keep_refuted. Print Assumptions C33_hang_refuted.

(** * Examples *)
(** five blocks, order of the reads 0 2 1 4 3, two blocks held at a time *)
Definition pf_hist : list pfop := [PPull; PGet 0 1; PPull; PGet 1 0; PDone 0; PGet 0 1; PGet 1 1; PDone 1; PGet 1 0; PDone 0; PDone 1; PGet 0 1].
Example pf_meets : complete 5 [0; 2; 1; 4; 3] /\ in_time 3 [0; 2; 1; 4; 3].
Proof.
  split.
  - unfold complete. apply NoDup_Permutation; [|apply seq_NoDup|intro x; simpl; lia]. repeat constructor; simpl; lia.
  - intros p k H. do 5 (destruct p as [|p]; [simpl in H; injection H as <-; lia|]). destruct p; discriminate.
Qed.
Example pf_spec : pspec_ops nat 5 2 (fun k => grid (nth k [7; 3; 9; 4; 8] 0)) pf_hist ([], 0) = Some [701; 300; 901; 301; 400; 801].
Proof. reflexivity. Qed.
Example pf_runs : match run_eager (pf_run nat 10 [7; 3; 9; 4; 8] [0; 2; 1; 4; 3] 4 pf_hist) [7; 3; 9; 4; 8] [] with Done r _ => r = [701; 300; 901; 301; 400; 801] | _ => False end.
Proof. vm_compute. reflexivity. Qed.
(** with one buffer less the user waits for a block that nobody reads *)
Example pf_hangs : match run_eager (pf_run nat 10 [7; 3; 9; 4; 8] [0; 2; 1; 4; 3] 2 [PPull; PPull]) [7; 3; 9; 4; 8] [] with Error => True | _ => False end.
Proof. vm_compute. exact I. Qed.
Definition is_hist : list isop := [ICurrent; IIncr; IGet; IGet; ICurrent; IGet; IGet; IGet; IGet].
Example is_runs : ispec_ops (elements 2 grid [7; 3; 9; 4]) is_hist = Some [700; 701; 300; 301; 301; 900; 901; 400] /\
  match run_eager (is_run nat 2 1 1 (fun b => b mod 2) (fun _ => 0) 10 [7; 3; 9; 4] 3 is_hist) [7; 3; 9; 4] [] with Done r _ => r = [700; 701; 300; 301; 301; 900; 901; 400] | _ => False end.
Proof. split; vm_compute; reflexivity. Qed.
(** three buffers, batches of two, two blocks held *)
Definition bw_hist : list (bwop nat) := [BGet _; BPut _ 0 0 1; BPut _ 0 1 2; BGet _; BPut _ 1 0 3; BWrite _ 0 7; BPut _ 0 1 4; BFlush _; BGet _; BPut _ 0 0 5; BWrite _ 0 7; BPut _ 0 0 6; BWrite _ 0 3].
Example bw_spec : match wspec_ops nat 3 2 [7; 3; 9] bw_hist (wspec0 nat grid) with Some st => map (fun b => map (ws_disk st b) [0; 1]) [7; 3; 9] = [[Some 5; None]; [Some 6; None]; [Some 900; Some 901]] | None => False end.
Proof. vm_compute. reflexivity. Qed.
Example bw_runs : match run_eager (bw_run nat (@rev _) id 10 3 2 bw_hist) [7; 3; 9] [[]; [0]; [1]; [0]; [0]; [0]] with Done _ (a, _) => map (fun b => adisk a b 0) [7; 3; 9] = [5; 6; 900] | _ => False end.
Proof. vm_compute. reflexivity. Qed.
Definition os_hist : list (osop nat) := [OPut _ 1; OSet _ 2; OIncr _; OPut _ 3; OFill _ 9; OPut _ 4; OPut _ 5; OPut _ 6; OSet _ 8; OFlush _].
Example os_spec : match ospec_ops 3 5 os_hist (0, empty_block nat) with Some (p, f) => p = 9 /\ map f (seq 0 9) = [Some 1; Some 2; Some 3; Some 4; Some 5; Some 6; Some 8; None; None] | None => False end.
Proof. vm_compute. split; reflexivity. Qed.
Example os_runs : match run_eager (os_run nat 3 (@rev _) id 10 [7; 3; 9; 4; 8] 2 os_hist) [7; 3; 9; 4; 8] [[1]; [1]; [1]; [1]; [0]; [0]; [0]] with Done _ (a, _) => map (fun b => map (adisk a b) [0; 1; 2]) [7; 3; 4] = [[1; 2; 3]; [4; 5; 6]; [400; 401; 402]] | _ => False end.
Proof. vm_compute. reflexivity. Qed.
