(** C126: bulk-limit sessions of the parallel priority queue. *)
From Coq Require Import List Bool Arith Lia Permutation Sorted.
From Verif Require Import OrderLib MwmergeSpec MwmergeProps MwSortModel MwSort PpqModel PpqSpec Ppq PpqTake PpqOps PpqEnough PpqProps PpqLimitModel PpqLimitSpec PpqLimit PpqLimitEnough.
Import ListNotations.
Open Scope nat_scope.

Section C.
  Variable A : Type.
  Variable lt : A -> A -> bool.
  Hypothesis SW : strict_weak lt.
  Variable mm : list (list A) -> nat -> list A * list (list A).
  Variable srt : list A -> list A.
  Variables (cap bs ebl lsz maxl : nat).
  Notation st := (st A). Notation session := (session A). Notation elements := (elements A).
  Definition lstep (c : lcall A) (i : input) (z : session) : option (lanswer A * session) :=
    match c with
    | LPush x => z <- limit_push A lt mm srt cap bs lsz maxl (mem1 i) (who i) x z ;; Some (LNothing, z)
    | LTop => r <- limit_top A lt mm srt bs ebl lsz maxl (mem1 i) (mem2 i) (arrive i) z ;; Some (LElem (fst r), snd r)
    | LPop => z <- limit_pop A lt mm srt bs ebl lsz maxl (mem1 i) (mem2 i) (arrive i) z ;; Some (LNothing, z)
    end.
  Fixpoint lrun (l : list (lcall A * input)) (z : session) : option (list (lcall A * lanswer A) * session) :=
    match l with
    | [] => Some ([], z)
    | (c, i) :: l => r <- lstep c i z ;; q <- lrun l (snd r) ;; Some ((c, fst r) :: fst q, snd q)
    end.
  Hypothesis Hmm : forall seqs n, Forall (sorted lt) seqs -> n <= length (concat seqs) -> merged lt false seqs n (fst (mm seqs n)) (snd (mm seqs n)).
  Hypothesis Hsrt : sorts lt srt.
  Hypothesis Hbs : 0 < bs.
  Lemma lrun_ok l : forall z h z', SInv A lt z -> lrun l z = Some (h, z') ->
    SInv A lt z' /\ exists bag', Permutation bag' (elements (queue A z')) /\ lconforms lt (mark A z) (elements (queue A z)) h bag'.
  Proof.
    induction l as [|(c, i) l IH]; intros z h z' Hz H; cbn [lrun] in H.
    - injection H as <- <-. split; [exact Hz|]. eexists. split; [reflexivity|constructor].
    - destruct (lstep c i z) as [(a, z1)|] eqn:E; [|discriminate]. cbn [fst snd] in H. destruct (lrun l z1) as [(h1, z2)|] eqn:E1; [|discriminate]. cbn [fst snd] in H. injection H as <- <-.
      assert (Hs : SInv A lt z1 /\ mark A z1 = mark A z /\ lallowed lt (mark A z) (elements (queue A z)) c a (elements (queue A z1))).
      { destruct c as [x| |]; cbn [lstep] in E.
        - destruct (limit_push _ _ _ _ _ _ _ _ _ _ _ _) as [z3|] eqn:E3; [|discriminate]. injection E as <- <-. exact (limit_push_ok A lt SW mm Hmm srt Hsrt cap bs lsz maxl Hbs _ _ _ _ _ Hz E3).
        - destruct (limit_top _ _ _ _ _ _ _ _ _ _ _ _) as [(x, z3)|] eqn:E3; [|discriminate]. injection E as <- <-. exact (limit_top_ok A lt SW mm Hmm srt Hsrt bs ebl lsz maxl Hbs _ _ _ _ _ _ Hz E3).
        - destruct (limit_pop _ _ _ _ _ _ _ _ _ _ _ _) as [z3|] eqn:E3; [|discriminate]. injection E as <- <-. exact (limit_pop_ok A lt SW mm Hmm srt Hsrt bs ebl lsz maxl Hbs _ _ _ _ _ Hz E3). }
      destruct Hs as (S1 & S2 & S3). destruct (IH z1 h1 z2 S1 E1) as (R1 & bag & R2 & R3). split; [exact R1|]. exists bag. split; [exact R2|]. rewrite S2 in R3. econstructor; [exact S3|exact R3].
  Qed.
  Lemma conforms_perm bag bag' h : Permutation bag bag' -> conforms lt bag h -> conforms lt bag' h.
  Proof.
    intros P H. inversion H as [|b b' c a h' H1 H2]; subst; [constructor|]. apply conforms_cons with b'; [|exact H2]. unfold allowed in *.
    assert (Hin : forall y, In y bag' -> In y bag) by (intro y; apply Permutation_in, Permutation_sym, P).
    destruct c, a; try contradiction.
    - rewrite H1. now constructor.
    - destruct H1 as (M & Q). split; [exact (minimal_perm A lt _ _ _ P M)|now rewrite Q].
    - destruct H1 as (x & M & Q). exists x. split; [exact (minimal_perm A lt _ _ _ P M)|now rewrite <- P].
    - destruct H1 as ((R1 & R2 & R3) & R4 & R5). split; [split; [exact R1|split; [now rewrite <- P|exact R3]]|]. split; [exact R4|discriminate].
    - destruct H1 as ((R1 & R2 & R3) & R4). split; [split; [exact R1|split; [now rewrite <- P|exact R3]]|exact R4].
  Qed.

  (** C126: between limit_begin and limit_end the answers are those of a bag with a limit, and the queue is as before afterwards,
      whatever memory and prefetching decide.
      Missing: calls in which an assertion fails or the buffer is read although it is empty; refuted below. *)
  Theorem C126_session_partial p l1 h1 s1 i limit z l2 h2 z' l3 h3 s3 :
    Forall (fun c => asks A (fst c)) l1 -> Forall (fun c => asks A (fst c)) l3 ->
    run A lt mm srt cap bs ebl lsz maxl l1 (empty A p) = Some (h1, s1) ->
    limit_begin A lt mm srt bs ebl lsz maxl (mem1 i) (mem2 i) (arrive i) limit s1 = Some z ->
    lrun l2 z = Some (h2, z') ->
    run A lt mm srt cap bs ebl lsz maxl l3 (limit_end A z') = Some (h3, s3) ->
    exists bag bag', Permutation bag (elements s1) /\ lconforms lt limit bag h2 bag' /\ conforms lt bag' h3.
  Proof.
    intros A1 A3 R1 B R2 R3. destruct (empty_inv A lt p) as (I0 & _).
    destruct (run_ok A lt SW mm srt cap bs ebl lsz maxl Hmm Hsrt Hbs l1 A1 _ _ _ I0 R1) as (I1 & _).
    destruct (fetch_ok A lt SW mm Hmm srt Hsrt bs ebl lsz maxl Hbs _ _ _ _ _ _ I1 B) as (S1 & S2 & S3).
    destruct (lrun_ok l2 z h2 z' S1 R2) as (S4 & bag' & P & C). exists (elements (queue A z)), bag'. split; [exact S3|]. split; [now rewrite <- S2|].
    apply (conforms_perm _ bag' h3 (Permutation_sym P)). exact (proj2 (run_ok A lt SW mm srt cap bs ebl lsz maxl Hmm Hsrt Hbs l3 A3 _ _ _ (proj1 S4) R3)).
  Qed.

  Lemma lrun_progress n l : 0 < ebl -> forall z h z', PInv A lt z -> length (elements (queue A z)) + length l <= n -> Forall (fun c => arrives n (arrive (snd c))) l ->
    lrun l z = Some (h, z') -> PInv A lt z' /\ mark A z' = mark A z /\ length (elements (queue A z')) <= n.
  Proof.
    intro He. induction l as [|(c, i) l IH]; intros z h z' Hz Hn Hl H; cbn [lrun] in H.
    - injection H as <- <-. cbn [length] in Hn. split; [exact Hz|]. split; [reflexivity|lia].
    - destruct (lstep c i z) as [(a, z1)|] eqn:E; [|discriminate]. cbn [fst snd] in H. destruct (lrun l z1) as [(h1, z2)|] eqn:E1; [|discriminate]. cbn [fst snd] in H. injection H as <- <-.
      inversion Hl as [|? ? Ha Hl']; subst. cbn [snd] in Ha. cbn [length] in Hn.
      assert (Ha' : arrives (length (elements (queue A z))) (arrive i)) by (destruct Ha as (W1 & W2); split; [exact W1|lia]).
      assert (Hs : PInv A lt z1 /\ mark A z1 = mark A z /\ length (elements (queue A z1)) <= S (length (elements (queue A z)))).
      { destruct c as [x| |]; cbn [lstep] in E.
        - destruct (limit_push _ _ _ _ _ _ _ _ _ _ _ _) as [z3|] eqn:E3; [|discriminate]. injection E as <- <-. split; [exact (push_PInv A lt SW mm Hmm srt Hsrt cap bs lsz maxl Hbs _ _ _ _ _ Hz E3)|].
          destruct (limit_push_ok A lt SW mm Hmm srt Hsrt cap bs lsz maxl Hbs _ _ _ _ _ (proj1 Hz) E3) as (_ & Q1 & Q2). split; [exact Q1|]. rewrite (Permutation_length Q2). reflexivity.
        - destruct (limit_top _ _ _ _ _ _ _ _ _ _ _ _) as [(x, z3)|] eqn:E3; [|discriminate]. injection E as <- <-. split; [exact (top_PInv A lt SW mm Hmm srt Hsrt bs ebl lsz maxl Hbs _ _ _ _ _ _ Hz Ha' He E3)|].
          destruct (limit_top_ok A lt SW mm Hmm srt Hsrt bs ebl lsz maxl Hbs _ _ _ _ _ _ (proj1 Hz) E3) as (_ & Q1 & Q2 & _). split; [exact Q1|]. cbn [snd]. rewrite (Permutation_length Q2). lia.
        - destruct (limit_pop _ _ _ _ _ _ _ _ _ _ _ _) as [z3|] eqn:E3; [|discriminate]. injection E as <- <-. split; [exact (pop_PInv A lt SW mm Hmm srt Hsrt bs ebl lsz maxl Hbs _ _ _ _ _ Hz Ha' He E3)|].
          destruct (limit_pop_ok A lt SW mm Hmm srt Hsrt bs ebl lsz maxl Hbs _ _ _ _ _ (proj1 Hz) E3) as (_ & Q1 & x & _ & _ & Q2). split; [exact Q1|]. rewrite (Permutation_length Q2). cbn [length]. lia. }
      destruct Hs as (S1 & S2 & S3). destruct (IH z1 h1 z2 S1 ltac:(lia) Hl' E1) as (R1 & R2 & R3). split; [exact R1|]. split; [congruence|exact R3].
  Qed.
  (** C126: if blocks arrive whenever waited for, limit_top completes at any point of a session,
      and so does limit_pop right after it if an element goes before the limit.
      Missing: limit_pop after a push (refuted below), and limit_push (C125). *)
  Theorem C126_progress_partial p l1 h1 s1 i limit z l2 h2 z' j :
    let n := length (elements s1) + length l2 in
    Forall (fun c => asks A (fst c)) l1 -> 0 < ebl -> arrives n (arrive i) -> Forall (fun c => arrives n (arrive (snd c))) l2 -> arrives n (arrive j) ->
    run A lt mm srt cap bs ebl lsz maxl l1 (empty A p) = Some (h1, s1) ->
    limit_begin A lt mm srt bs ebl lsz maxl (mem1 i) (mem2 i) (arrive i) limit s1 = Some z ->
    lrun l2 z = Some (h2, z') ->
    exists x z'', lstep LTop j z' = Some (LElem x, z'') /\ (lt x limit = true -> forall k, lstep LPop k z'' <> None).
  Proof.
    intros n A1 He Ai Al Aj R1 B R2. destruct (empty_inv A lt p) as (I0 & _).
    destruct (run_ok A lt SW mm srt cap bs ebl lsz maxl Hmm Hsrt Hbs l1 A1 _ _ _ I0 R1) as (I1 & _).
    assert (Ai' : arrives (length (elements s1)) (arrive i)) by (destruct Ai as (W1 & W2); split; [exact W1|unfold n in W2; lia]).
    pose proof (fetch_PInv A lt SW mm Hmm srt Hsrt bs ebl lsz maxl Hbs _ _ _ _ _ _ I1 Ai' He B) as P1.
    destruct (fetch_ok A lt SW mm Hmm srt Hsrt bs ebl lsz maxl Hbs _ _ _ _ _ _ I1 B) as (_ & S2 & S3).
    destruct (lrun_progress n l2 He z h2 z' P1) as (P2 & M2 & N2); [rewrite (Permutation_length S3); unfold n; lia|exact Al|exact R2|].
    assert (Aj' : arrives (length (elements (queue A z'))) (arrive j)) by (destruct Aj as (W1 & W2); split; [exact W1|lia]).
    pose proof (top_some A lt SW mm Hmm srt Hsrt bs ebl lsz maxl Hbs (mem1 j) (mem2 j) (arrive j) z' P2 Aj' He) as T. cbn [lstep].
    destruct (limit_top A lt mm srt bs ebl lsz maxl (mem1 j) (mem2 j) (arrive j) z') as [(x, z'')|] eqn:E; [|congruence]. exists x, z''. split; [reflexivity|]. intros Hx k.
    pose proof (top_PInv A lt SW mm Hmm srt Hsrt bs ebl lsz maxl Hbs _ _ _ _ _ _ P2 Aj' He E) as P3.
    destruct (limit_top_ok A lt SW mm Hmm srt Hsrt bs ebl lsz maxl Hbs _ _ _ _ _ _ (proj1 P2) E) as (_ & _ & _ & Q).
    assert (Hb : has_below A lt (mark A z') (elements (queue A z'))).
    { destruct Q as [((Q1 & _) & Q2)|(Q1 & _)]; [exists x; split; assumption|]. rewrite M2, S2 in Q1. subst x. rewrite (sw_irrefl _ SW) in Hx. discriminate. }
    pose proof (top_buffer A lt mm srt bs ebl lsz maxl _ _ _ _ _ _ P2 E Hb) as Hne.
    pose proof (pop_some A lt mm srt bs ebl lsz maxl (mem1 k) (mem2 k) (arrive k) z'' P3 Hne) as Hp. cbn [lstep].
    destruct (limit_pop _ _ _ _ _ _ _ _ _ _ _ _); [discriminate|congruence].
  Qed.
End C.

Notation ex_lrun cap := (lrun nat Nat.ltb ex_mm (ssort Nat.ltb) cap 2 3 64 8).
Notation ex_lstep cap := (lstep nat Nat.ltb ex_mm (ssort Nat.ltb) cap 2 3 64 8).
Notation ex_begin := (limit_begin nat Nat.ltb ex_mm (ssort Nat.ltb) 2 3 64 8 plenty plenty (repeat 1 20)).
(** limit_top, limit_push, limit_pop: the push flushed the extract buffer for lack of memory,
    so limit_pop finds it empty (assertion) although the element limit_top returned is in the queue *)
Theorem C126_flushed_buffer_refuted : exists l h s z x z', ex_run 1 l (empty nat 1) = Some (h, s) /\ ex_begin 5 s = Some z /\
  ex_lrun 1 [(LTop, ok); (LPush 9, full true)] z = Some ([(LTop, LElem x); (LPush 9, LNothing)], z') /\ x < 5 /\ In x (elements nat (queue nat z')) /\
  forall i, ex_lstep 1 LPop i z' = None.
Proof.
  exists [(Push 1, ok); (Push 2, ok); (Push 8, ok); (Push 7, ok)]. do 5 eexists. split; [vm_compute; reflexivity|]. split; [vm_compute; reflexivity|]. split; [vm_compute; reflexivity|]. split; [lia|]. split; [vm_compute; tauto|]. intro i. reflexivity.
Qed.
(** in the same state hinting the new external array is delayed until bulk_push_end (4115-4118, 4136-4140):
    with nothing hinted limit_top reads the first element of an empty buffer *)
Theorem C126_delayed_hints_refuted : exists l h s z h' z', ex_run 1 l (empty nat 1) = Some (h, s) /\ ex_begin 5 s = Some z /\
  ex_lrun 1 [(LTop, ok); (LPush 9, full true)] z = Some (h', z') /\ ex_lstep 1 LTop (Input 0 plenty plenty []) z' = None /\ ex_lstep 1 LTop ok z' <> None.
Proof.
  exists [(Push 1, ok); (Push 2, ok); (Push 8, ok); (Push 7, ok)]. do 5 eexists. split; [vm_compute; reflexivity|]. split; [vm_compute; reflexivity|]. split; [vm_compute; reflexivity|]. split; [vm_compute; reflexivity|vm_compute; discriminate].
Qed.

(** pushes that flush heaps and the buffer, more elements below the limit than the buffer takes, and the limit itself at the end *)
Definition ex_session : list (lcall nat * input) :=
  [(LTop, ok); (LPush 9, full true); (LTop, ok); (LPop, ok); (LTop, ok); (LPop, ok); (LPush 6, ok); (LTop, ok); (LPop, ok); (LTop, ok); (LPop, ok); (LTop, ok); (LPush 5, full true); (LTop, ok)].
Example C126_example : exists h s z h' z' h'' s', ex_run 2 (firstn 9 ex_program) (empty nat 2) = Some (h, s) /\ ex_begin 5 s = Some z /\
  ex_lrun 2 ex_session z = Some (h', z') /\ map snd h' = [LElem 1; LNothing; LElem 1; LNothing; LElem 2; LNothing; LNothing; LElem 3; LNothing; LElem 4; LNothing; LElem 5; LNothing; LElem 5] /\
  ex_run 2 [(Top, ok); (Pop, ok); (BulkPop 2, ok)] (limit_end nat z') = Some (h'', s') /\ map snd h'' = [Elem 5; Nothing; Elems [5; 6]].
Proof. do 7 eexists. split; [vm_compute; reflexivity|]. split; [vm_compute; reflexivity|]. split; [vm_compute; reflexivity|]. split; [vm_compute; reflexivity|]. split; vm_compute; reflexivity. Qed.

(** the flushed buffer is fetched again *)
Example C126_progress_meets h s z h' z' : ex_run 2 (firstn 8 ex_program) (empty nat 2) = Some (h, s) -> ex_begin 5 s = Some z -> ex_lrun 2 (firstn 2 ex_session) z = Some (h', z') ->
  exists x z'', ex_lstep 2 LTop ok z' = Some (LElem x, z'') /\ (Nat.ltb x 5 = true -> forall k, ex_lstep 2 LPop k z'' <> None).
Proof.
  intros H1 H2 H3. assert (Hn : length (elements nat s) = 8) by (vm_compute in H1; injection H1 as <- <-; reflexivity).
  assert (Ha : arrives 10 (repeat 1 20)) by (split; [repeat constructor|cbn; lia]).
  apply (C126_progress_partial nat Nat.ltb nat_sw ex_mm (ssort Nat.ltb) 2 2 3 64 8 ex_mm_ok ex_srt_ok ltac:(lia) 2 (firstn 8 ex_program) h s ok 5 z (firstn 2 ex_session) h' z' ok); rewrite ?Hn.
  - repeat constructor; discriminate.
  - lia.
  - exact Ha.
  - repeat constructor; cbn; lia.
  - exact Ha.
  - exact H1.
  - exact H2.
  - exact H3.
Qed.

Print Assumptions C126_session_partial.
Print Assumptions C126_progress_partial.
Print Assumptions C126_flushed_buffer_refuted.
Print Assumptions C126_delayed_hints_refuted.
