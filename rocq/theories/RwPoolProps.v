(** C11, C12, C54: the block pools *)
From Coq Require Import List Bool Arith Permutation Lia.
From Verif Require Import SumLib RwPoolModel RwPoolSpec RwPoolProofs.
Import ListNotations.

(** C11: whatever the clients do and whenever requests are started, finished or cancelled, what a read
    delivers is what was last written to that block through the pool, or what was on disk initially. *)
Theorem C11_read_latest_write (V : Type) (c d : nat -> V) np nw es st os :
  run true (init c d np nw) es = Some (st, os) -> consistent d os.
Proof. intro H. exact (proj1 (run_inv V es d _ st os (init_inv V c d np nw) H)). Qed.

(** one prefetch and one write buffer; block 5 is prefetched, then overwritten twice and read from the
    write pool while its second write has not finished, then read again from disk *)
Example C11_ex :
  match run true (init (fun _ => 0) (fun _ => 9) 1 1)
    [New; New; Hint 5; Fill 2 7; Write 2 5 [SFinish 0] []; Fill 3 8; Write 3 5 [SStart 1] [SFinish 1]; New; Read 4 5;
     Serve (SStart 2); Serve (SFinish 2); WaitRead 3; New; Read 5 5; Serve (SFinish 3); WaitRead 5; Read 3 6; Serve (SFinish 4); WaitRead 3] with
  | Some (_, os) => os = [OWrote 5 7; OWrote 5 8; OGot 5 8; OGot 5 8; OGot 6 9]
  | None => False end.
Proof. vm_compute. reflexivity. Qed.
Print Assumptions C11_read_latest_write.

(** C54: without the rule that a client waits for a read before the next operation on that block, the
    statement is false: the first read takes the buffer of the unfinished write out of the pool, the second
    goes to the disk and may overtake that write. *)
Theorem C54_overlapping_reads_refuted :
  exists (c d : nat -> nat) np nw es st os, run false (init c d np nw) es = Some (st, os) /\ ~ consistent d os.
Proof.
  exists (fun _ => 0), (fun _ => 9), 0, 1, [New; New; New; Fill 1 7; Write 1 5 [] []; Read 2 5; Read 3 5; Serve (SFinish 1); WaitRead 3].
  destruct (run false (init (fun _ => 0) (fun _ => 9) 0 1) [New; New; New; Fill 1 7; Write 1 5 [] []; Read 2 5; Read 3 5; Serve (SFinish 1); WaitRead 3]) as [[st os]|] eqn:E.
  - exists st, os. split; [reflexivity|].
    assert (H : os = [OWrote 5 7; OGot 5 9]).
    { assert (X : option_map snd (run false (init (fun _ => 0) (fun _ => 9) 0 1) [New; New; New; Fill 1 7; Write 1 5 [] []; Read 2 5; Read 3 5; Serve (SFinish 1); WaitRead 3]) = Some [OWrote 5 7; OGot 5 9]) by (vm_compute; reflexivity).
      rewrite E in X. simpl in X. congruence. }
    rewrite H. simpl. intros (C & _). discriminate.
  - exfalso. assert (X : option_map snd (run false (init (fun _ => 0) (fun _ => 9) 0 1) [New; New; New; Fill 1 7; Write 1 5 [] []; Read 2 5; Read 3 5; Serve (SFinish 1); WaitRead 3]) = Some [OWrote 5 7; OGot 5 9]) by (vm_compute; reflexivity).
    rewrite E in X. discriminate.
Qed.
Print Assumptions C54_overlapping_reads_refuted.

(** C12: no buffer is in two places, and a buffer somebody may reuse or delete has no pending request. *)
Theorem C12_no_aliasing (V : Type) (c d : nat -> V) np nw es st os :
  run true (init c d np nw) es = Some (st, os) ->
  NoDup (everywhere st) /\ psize st = length (pfree st) /\
  (forall x r, reusable st x -> In r (pending st) -> q_buf r <> x).
Proof.
  intro H. destruct (run_inv V es d _ st os (init_inv V c d np nw) H) as (_ & L & I).
  exact (conj (places_nodup V L st I) (conj (proj2 I) (fun x r Hx Hr => reusable_idle V L st x r I Hx Hr))).
Qed.
Print Assumptions C12_no_aliasing.

(** Except for new and the resize functions every operation only moves buffers. *)
Theorem C12_conserved (V : Type) k (st : state V) e st' o :
  makes_buffers e = false -> step k st e = Ok st' o -> Permutation (everywhere st') (everywhere st).
Proof. exact (step_conserves V k st e st' o). Qed.
Print Assumptions C12_conserved.

(** resize_write gives the pool exactly n blocks, resize_prefetch n or as many as are busy; neither touches
    the other pool or the client's buffers. *)
Theorem C12_resize_write (V : Type) k (st : state V) n s st' o : step k st (ResizeW n s) = Ok st' o ->
  length (in_write_pool st') = n /\ in_prefetch_pool st' = in_prefetch_pool st /\ user st' = user st.
Proof. exact (resize_w_len V k st n s st' o). Qed.
Print Assumptions C12_resize_write.
Theorem C12_resize_prefetch (V : Type) (c d : nat -> V) np nw es st os n st' o :
  run true (init c d np nw) es = Some (st, os) -> step true st (ResizeP n) = Ok st' o ->
  length (in_prefetch_pool st') = Nat.max n (length (pbusy st)) /\ in_write_pool st' = in_write_pool st /\ user st' = user st.
Proof.
  intros H. destruct (run_inv V es d _ st os (init_inv V c d np nw) H) as (_ & L & I). exact (resize_p_len V true L st n st' o I).
Qed.
Print Assumptions C12_resize_prefetch.

(** the only failures are explicit steals from an empty pool *)
Theorem C12_failures (V : Type) (c d : nat -> V) np nw es st os e :
  run true (init c d np nw) es = Some (st, os) -> step true st e = Fail ->
  (exists s c, e = Steal s c /\ in_write_pool st = []) \/ (e = StealPrefetch /\ pfree st = []).
Proof.
  intros H. destruct (run_inv V es d _ st os (init_inv V c d np nw) H) as (_ & L & I). exact (step_fail V L st e I).
Qed.
Print Assumptions C12_failures.

(** a steal that waits, then a resize of both pools, after a read hit in the write pool *)
Example C12_ex :
  match run true (init (fun _ => 0) (fun _ => 9) 2 1)
    [New; Fill 3 7; Write 3 5 [] []; Hint 5; New; Write 4 6 [] []; Steal [] 0; Steal [SFinish 1] 0; Steal [SFinish 0] 0; ResizeW 3 (fun _ => ([], 0)); ResizeP 4] with
  | Some (st, _) => False
  | None => True end /\
  match run true (init (fun _ => 0) (fun _ => 9) 2 1)
    [New; Fill 3 7; Write 3 5 [] []; Hint 5; New; Write 4 6 [] []; Steal [] 0; Steal [] 0; Steal [SFinish 1] 0; ResizeW 3 (fun _ => ([], 0)); ResizeP 4] with
  | Some (st, _) => in_write_pool st = [7; 6; 5] /\ in_prefetch_pool st = [9; 8; 2; 3] /\ in_user st = [4; 0; 1]
  | None => False end.
Proof. vm_compute. repeat split. Qed.
