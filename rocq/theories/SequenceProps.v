(** C17, C18, C57: stxxl::queue is a FIFO queue, stxxl::sequence a double-ended queue, and its streams deliver its
    elements, for every schedule of the I/O requests.  C56: pushing a reference to an own element. *)
From Coq Require Import List Bool Arith Lia.
From Verif Require Import SumLib AsyncIoModel AsyncIoRules SequenceModel SequenceSpec SequenceProofs.
Import ListNotations.

(** [S] elements per block.  [c], [d]: initial contents of the buffers and the disk; [al]: the blocks the block manager
    returns; [o]: when the requests are served and what other programs do to other blocks. *)
Theorem C17_queue_fifo : forall A S, 1 <= S -> forall (os : list (sop A)) l xs,
  forallb queue_op os = true -> forallb by_value os = true -> spec_ops os [] = Some (l, xs) ->
  forall c d al o, match arun (seq_ops A S os q_init) (ainit c d al) o with
                   | Done r _ => snd r = xs | Error => False | Stuck => True end.
Proof. intros A S HS os l xs _ B H. apply (ok_async A _ _ (fun r => snd r = xs)). intro al. exact (history_ok A S HS os l xs B H al). Qed.
Theorem C17_queue_progress : forall A S, 1 <= S -> forall (os : list (sop A)) l xs,
  forallb queue_op os = true -> forallb by_value os = true -> spec_ops os [] = Some (l, xs) ->
  forall c d, exists al o r a, arun (seq_ops A S os q_init) (ainit c d al) o = Done r (a, []) /\ snd r = xs.
Proof. intros A S HS os l xs _ B H. apply (ok_async_progress A _ _ (fun r => snd r = xs)). intro al. exact (history_ok A S HS os l xs B H al). Qed.

(** includes the operations Stream and RevStream, so this is C57 too *)
Theorem C18_sequence_deque : forall A S, 1 <= S -> forall (os : list (sop A)) l xs,
  forallb by_value os = true -> spec_ops os [] = Some (l, xs) ->
  forall c d al o, match arun (seq_ops A S os q_init) (ainit c d al) o with
                   | Done r _ => snd r = xs | Error => False | Stuck => True end.
Proof. intros A S HS os l xs B H. apply (ok_async A _ _ (fun r => snd r = xs)). intro al. exact (history_ok A S HS os l xs B H al). Qed.
Theorem C18_sequence_progress : forall A S, 1 <= S -> forall (os : list (sop A)) l xs,
  forallb by_value os = true -> spec_ops os [] = Some (l, xs) ->
  forall c d, exists al o r a, arun (seq_ops A S os q_init) (ainit c d al) o = Done r (a, []) /\ snd r = xs.
Proof. intros A S HS os l xs B H. apply (ok_async_progress A _ _ (fun r => snd r = xs)). intro al. exact (history_ok A S HS os l xs B H al). Qed.

Lemma spec_ops_app A (os os' : list (sop A)) : forall l l1 xs l2 ys, spec_ops os l = Some (l1, xs) -> spec_ops os' l1 = Some (l2, ys) -> spec_ops (os ++ os') l = Some (l2, xs ++ ys).
Proof.
  induction os as [|o os IH]; intros l l1 xs l2 ys H H'; simpl in *; [injection H as <- <-; exact H'|].
  destruct (spec_op o l) as [(m & x)|]; [|discriminate]. destruct (spec_ops os m) as [(m' & xs')|] eqn:E; [|discriminate]. injection H as <- <-.
  rewrite (IH _ _ _ _ _ E H'). reflexivity.
Qed.
(** after any history: a stream, a reverse stream, and the stream again *)
Theorem C57_sequence_streams : forall A S, 1 <= S -> forall (os : list (sop A)) l xs,
  forallb by_value os = true -> spec_ops os [] = Some (l, xs) ->
  forall c d al o, match arun (seq_ops A S (os ++ [Stream; RevStream; Stream; Size]) q_init) (ainit c d al) o with
                   | Done r _ => snd r = xs ++ [OList l; OList (rev l); OList l; ONum (length l)] | Error => False | Stuck => True end.
Proof.
  intros A S HS os l xs B H. apply (ok_async A _ _ (fun r => snd r = _)). intro al. apply (history_ok A S HS _ l).
  - rewrite forallb_app, B. reflexivity.
  - apply (spec_ops_app A os _ [] l); [exact H|reflexivity].
Qed.

(** Blocks of 2 elements; all cases of the four operations. *)
Definition hist : list (sop nat) :=
  [PushFront (Val 1); PushFront (Val 2); PushFront (Val 3); PushBack (Val 4); PushBack (Val 5); PushBack (Val 6); PushBack (Val 7); PushBack (Val 8);
   Front; Back; Size; Stream; RevStream; PopBack; PopBack; PopBack; SetBack 9; Back; PopFront; PopFront; SetFront 10; Stream;
   PushFront (Val 11); PushFront (Val 12); PushFront (Val 13); PushFront (Val 14); PushFront (Val 15); Stream; PopFront; PopFront; PopFront; Front; RevStream; PopBack; PopBack; PopBack; PopBack; Size].
Definition outs {T S} (x : result (T * list (sout_ nat)) S) : option (list (sout_ nat)) := match x with Done r _ => Some (snd r) | _ => None end.
Example hist_by_value : forallb by_value hist = true /\ spec_ops hist [] <> None.
Proof. split; [reflexivity|discriminate]. Qed.
Example hist_run : outs (srun (seq_ops nat 2 hist q_init) (sinit [[3]; [4]; [5]; [3]; [7]; [9]])) = option_map snd (spec_ops hist []).
Proof. vm_compute. reflexivity. Qed.
Definition qhist : list (sop nat) :=
  [PushBack (Val 1); PushBack (Val 2); PushBack (Val 3); PushBack (Val 4); PushBack (Val 5); PopFront; Front; Back; PopFront; PopFront; PushBack (Val 6); PopFront; Front; PopFront; Front; Size].
Example qhist_run : forallb queue_op qhist = true /\ forallb by_value qhist = true /\
  outs (srun (seq_ops nat 2 qhist q_init) (sinit [[3]; [4]])) = option_map snd (spec_ops qhist []) /\ spec_ops qhist [] <> None.
Proof. vm_compute. repeat split; discriminate. Qed.

(** q.push(q.front()), the usual way to rotate a queue, appends another element: push moves the elements inside the front
    block before it reads its argument.  Blocks of 3 elements, no I/O at all. *)
Definition rotate : list (sop nat) :=
  [PushBack (Val 1); PushBack (Val 2); PushBack (Val 3); PushBack (Val 4); PushBack (Val 5); PushBack (Val 6); PopFront; PushBack RefFront; Back].
Example rotate_legal : spec_ops rotate [] = Some ([2; 3; 4; 5; 6; 2], [OUnit; OUnit; OUnit; OUnit; OUnit; OUnit; OUnit; OUnit; OVal 2]).
Proof. reflexivity. Qed.
Theorem C56_push_own_element_refuted : exists S (os : list (sop nat)) l xs, 1 <= S /\ forallb queue_op os = true /\ spec_ops os [] = Some (l, xs) /\
  forall c d, exists o r a, arun (seq_ops nat S os q_init) (ainit c d []) o = Done r a /\ snd r <> xs.
Proof.
  exists 3, rotate, [2; 3; 4; 5; 6; 2], [OUnit; OUnit; OUnit; OUnit; OUnit; OUnit; OUnit; OUnit; OVal 2].
  split; [lia|]. split; [reflexivity|]. split; [reflexivity|]. intros c d. exists (repeat [] 40). eexists. eexists. split; [vm_compute; reflexivity|]. vm_compute. discriminate.
Qed.
(** likewise s.push_front(s.back()) *)
Theorem C56_push_front_own_element_refuted : exists S (os : list (sop nat)) l xs, 1 <= S /\ spec_ops os [] = Some (l, xs) /\
  forall c d, exists o r a, arun (seq_ops nat S os q_init) (ainit c d []) o = Done r a /\ snd r <> xs.
Proof.
  exists 3, [PushFront (Val 1); PushFront (Val 2); PushFront (Val 3); PushFront (Val 4); PushFront (Val 5); PushFront (Val 6); PopBack; PushFront RefBack; Front].
  exists [2; 6; 5; 4; 3; 2], [OUnit; OUnit; OUnit; OUnit; OUnit; OUnit; OUnit; OUnit; OVal 2].
  split; [lia|]. split; [reflexivity|]. intros c d. exists (repeat [] 40). eexists. eexists. split; [vm_compute; reflexivity|]. vm_compute. discriminate.
Qed.

Print Assumptions C17_queue_fifo.
Print Assumptions C17_queue_progress.
Print Assumptions C18_sequence_deque.
Print Assumptions C18_sequence_progress.
Print Assumptions C57_sequence_streams.
Print Assumptions C56_push_own_element_refuted.
Print Assumptions C56_push_front_own_element_refuted.
