(** C124, C125: the parallel priority queue. *)
From Coq Require Import List Bool Arith Lia Permutation Sorted.
From Verif Require Import OrderLib MwmergeModel MwmergeSpec MwmergeProps MwSortModel MwSort PpqModel PpqSpec Ppq PpqTake PpqOps PpqEnough.
Import ListNotations.
Open Scope nat_scope.

(** what a call does not choose: the insertion heap, the comparisons with the memory left, the numbers of blocks that arrive *)
Record input := Input { who : nat; mem1 : dec; mem2 : dec; arrive : list nat }.

Section C.
  Variable A : Type.
  Variable lt : A -> A -> bool.
  Hypothesis SW : strict_weak lt.
  Variable mm : list (list A) -> nat -> list A * list (list A).
  Variable srt : list A -> list A.
  Variables (cap bs ebl lsz maxl : nat).
  Notation st := (st A). Notation elements := (elements A). Notation Inv := (Inv A lt).
  Definition step (c : call A) (i : input) (s : st) : option (answer A * st) :=
    match c with
    | Push x => s <- push A lt mm srt cap bs lsz maxl (mem1 i) (who i) x s ;; Some (Nothing, s)
    | Top => r <- top A lt mm ebl (arrive i) s ;; Some (Elem (fst r), snd r)
    | Pop => s <- pop A lt mm ebl (arrive i) s ;; Some (Nothing, s)
    | BulkPop n => r <- bulk_pop A lt mm srt bs ebl lsz maxl (mem1 i) (mem2 i) (arrive i) n s ;; Some (Elems (fst r), snd r)
    | BulkPopLimit v n => r <- bulk_pop_limit A lt mm srt bs lsz maxl (mem1 i) (mem2 i) (arrive i) v n s ;; Some (Range (fst (fst r)) (snd (fst r)), snd r)
    end.
  (** a program: its calls with their answers, and the state behind *)
  Fixpoint run (l : list (call A * input)) (s : st) : option (list (call A * answer A) * st) :=
    match l with
    | [] => Some ([], s)
    | (c, i) :: l => r <- step c i s ;; q <- run l (snd r) ;; Some ((c, fst r) :: fst q, snd q)
    end.
  (** a new queue for [p] threads *)
  Definition empty (p : nat) : st := St A (repeat [] p) [] [] [].
  Definition asks (c : call A) : Prop := c <> BulkPop 0.
  (** blocks arrive whenever waited for, as long as there are elements *)
  Definition served (i : input) (s : st) : Prop := Forall (fun k => 0 < k) (arrive i) /\ length (elements s) <= length (arrive i).

  Lemma empty_inv p : Inv (empty p) /\ elements (empty p) = [].
  Proof.
    split; [split; [|apply Inn_nil; constructor]|].
    - cbn. induction p; constructor; [constructor|assumption].
    - unfold PpqModel.elements. cbn. rewrite app_nil_r. induction p; [reflexivity|assumption].
  Qed.
  Hypothesis Hmm : forall seqs n, Forall (sorted lt) seqs -> n <= length (concat seqs) -> merged lt false seqs n (fst (mm seqs n)) (snd (mm seqs n)).
  Hypothesis Hsrt : sorts lt srt.
  Hypothesis Hbs : 0 < bs.
  Lemma step_ok strict c i s a s' : Inv s -> asks c -> (strict = true -> served i s) -> step c i s = Some (a, s') -> Inv s' /\ allowed lt strict (elements s) c a (elements s').
  Proof.
    intros Hi Hc Hst H. destruct c as [x| | |n|v n]; cbn [step] in H.
    - destruct (push _ _ _ _ _ _ _ _ _ _ _ _) as [s1|] eqn:E; [|discriminate]. injection H as <- <-. exact (push_ok A lt SW mm Hmm srt Hsrt cap bs lsz maxl Hbs _ _ _ _ _ Hi E).
    - destruct (top _ _ _ _ _ _) as [(x, s1)|] eqn:E; [|discriminate]. injection H as <- <-. exact (top_ok A lt SW mm Hmm ebl _ _ _ _ Hi E).
    - destruct (pop _ _ _ _ _ _) as [s1|] eqn:E; [|discriminate]. injection H as <- <-. exact (pop_ok A lt SW mm Hmm ebl _ _ _ Hi E).
    - destruct (bulk_pop _ _ _ _ _ _ _ _ _ _ _ _ _) as [(out, s1)|] eqn:E; [|discriminate]. injection H as <- <-.
      assert (Hn : 0 < n) by (destruct n; [contradiction Hc; reflexivity|lia]).
      destruct (bulk_pop_ok A lt SW mm Hmm srt Hsrt bs ebl lsz maxl Hbs _ _ _ _ _ _ _ Hi Hn E) as (H1 & H2 & H3). split; [exact H1|]. split; [exact H2|]. split; [exact H3|].
      intro Q. destruct (Hst Q) as (W1 & W2). exact (bulk_pop_enough A lt SW mm Hmm srt Hsrt bs ebl lsz maxl _ _ _ _ _ _ _ Hbs Hi W1 W2 Hn E).
    - destruct (bulk_pop_limit _ _ _ _ _ _ _ _ _ _ _ _ _) as [((out, full), s1)|] eqn:E; [|discriminate]. injection H as <- <-. cbn [fst snd].
      destruct (bulk_pop_limit_ok A lt SW mm Hmm srt Hsrt bs lsz maxl Hbs _ _ _ _ _ _ _ _ _ Hi E) as (H1 & H2 & H3 & H4 & H5). split; [exact H1|]. split; [exact H2|]. split; [exact H3|]. split; [exact H4|]. split; [exact H5|].
      intros Q Hf. destruct (Hst Q) as (W1 & W2). exact (bulk_pop_limit_enough A lt SW mm Hmm srt Hsrt bs lsz maxl _ _ _ _ _ _ _ _ _ Hbs Hi W1 W2 E Hf).
  Qed.
  Lemma run_ok l : Forall (fun c => asks (fst c)) l -> forall s h s', Inv s -> run l s = Some (h, s') -> Inv s' /\ conforms lt (elements s) h.
  Proof.
    induction 1 as [|(c, i) l Hc Hl IH]; intros s h s' Hi H; cbn [run] in H.
    - injection H as <- <-. split; [exact Hi|constructor].
    - destruct (step c i s) as [(a, s1)|] eqn:E; [|discriminate]. cbn [fst snd] in H. destruct (run l s1) as [(h1, s2)|] eqn:E1; [|discriminate]. cbn [fst snd] in H. injection H as <- <-.
      destruct (step_ok false c i s a s1 Hi Hc ltac:(discriminate) E) as (S1 & S2). destruct (IH s1 h1 s2 S1 E1) as (R1 & R2). split; [exact R1|]. econstructor; [exact S2|exact R2].
  Qed.

  (** C124: whatever memory and prefetching decide, the answers are those of a bag.
      Missing: bulk_pop with max_size = 0 (refuted below), and calls in which an assertion fails. *)
  Theorem C124_history_partial p l h s : Forall (fun c => asks (fst c)) l -> run l (empty p) = Some (h, s) -> conforms lt [] h.
  Proof. intros Hl H. destruct (empty_inv p) as (H1 & H2). rewrite <- H2. exact (proj2 (run_ok l Hl _ _ _ H1 H)). Qed.

  (** C125: if blocks arrive, a queue that is not empty answers top and pop; bulk_pop gets as many elements as it can,
      bulk_pop_limit all below the limit or max_size.
      Missing: push, bulk_pop and bulk_pop_limit complete (refuted below: merging on an external level was skipped). *)
  Theorem C125_progress_partial p l h s i : Forall (fun c => asks (fst c)) l -> run l (empty p) = Some (h, s) -> served i s ->
    (0 < ebl -> elements s <> [] -> step Top i s <> None /\ step Pop i s <> None) /\
    (forall c a s', asks c -> step c i s = Some (a, s') -> allowed lt true (elements s) c a (elements s')).
  Proof.
    intros Hl H Hs. destruct (empty_inv p) as (H1 & _). destruct (run_ok l Hl _ _ _ H1 H) as (Hi & _). split.
    - intros He Hne. destruct Hs as (W1 & W2). destruct (top_enough A lt SW mm Hmm ebl (arrive i) s Hi He W1 W2 Hne) as ((x & s1 & E1) & (s2 & E2)). cbn [step]. rewrite E1, E2. split; discriminate.
    - intros c a s' Hc E. exact (proj2 (step_ok true c i s a s' Hi Hc (fun _ => Hs) E)).
  Qed.
End C.

(** merging by the sequential algorithm of C116 *)
Definition ex_mm (s : list (list nat)) (n : nat) : list nat * list (list nat) :=
  match sequential nat Nat.ltb false false true BUBBLE (plain s) n with Some (out, r) => (out, map fst r) | None => ([], []) end.
Lemma ex_mm_ok : forall seqs n, Forall (sorted Nat.ltb) seqs -> n <= length (concat seqs) -> merged Nat.ltb false seqs n (fst (ex_mm seqs n)) (snd (ex_mm seqs n)).
Proof.
  intros seqs n Hs Hn. assert (E : map fst (plain seqs) = seqs) by (unfold plain; rewrite map_map; apply map_id).
  destruct (C116_sequential_merge nat Nat.ltb nat_sw false false true BUBBLE (plain seqs) n) as (out & r & Er & Hm & _); [now left|now rewrite E|now rewrite E|discriminate|].
  unfold ex_mm. rewrite Er. cbn [fst snd]. rewrite E in Hm. destruct Hm as (M1 & taken & M2 & _). split; [exact M1|]. exists taken. split; [exact M2|discriminate].
Qed.
Lemma ex_srt_ok : sorts Nat.ltb (ssort Nat.ltb).
Proof. intro l. split; [apply ssort_perm|apply ssort_sorted, nat_sw]. Qed.

(** c_max_external_level_size, c_max_external_levels *)
Notation ex_run cap := (run nat Nat.ltb ex_mm (ssort Nat.ltb) cap 2 3 64 8).
Notation ex_step cap := (step nat Nat.ltb ex_mm (ssort Nat.ltb) cap 2 3 64 8).
Definition plenty : dec := Dec true false (fun _ => true) (fun _ => true).
Definition short (ext : bool) : dec := Dec false false (fun _ => ext) (fun _ => true).
Definition ok : input := Input 0 plenty plenty (repeat 1 20).
Definition full (ext : bool) : input := Input 0 (short ext) (short ext) (repeat 1 20).

(** bulk_pop(out, 0) extracts elements *)
Theorem C124_bulk_pop_zero_refuted : exists l h s, ex_run 2 l (empty nat 1) = Some (h, s) /\ ~ conforms Nat.ltb [] h.
Proof.
  exists [(Push 5, ok); (Push 4, ok); (BulkPop 0, ok)], [(Push 5, Nothing); (Push 4, Nothing); (BulkPop 0, Elems [4; 5])]. eexists. split; [vm_compute; reflexivity|].
  intro H. inversion H as [|? ? ? ? ? _ H1]; subst. inversion H1 as [|? ? ? ? ? _ H2]; subst. inversion H2 as [|? ? ? ? ? H3 _]; subst. destruct H3 as (_ & H3 & _). cbn in H3. lia.
Qed.
(** merging the external arrays of a level was skipped once for lack of memory: the next time the assertion in
    check_external_level fails, since there are 65 arrays; skipping it again would do *)
Theorem C125_skipped_merge_refuted : exists l h s, Forall (fun c => asks nat (fst c)) l /\ ex_run 1 l (empty nat 1) = Some (h, s) /\
  ex_step 1 (Push 0) (full true) s = None /\ ex_step 1 (Push 0) (full false) s <> None.
Proof.
  exists (repeat (Push 7, full false) 66). eexists. eexists. split; [|split; [vm_compute; reflexivity|split; [vm_compute; reflexivity|vm_compute; discriminate]]].
  apply Forall_forall. intros c Hc. apply repeat_spec in Hc. subst c. discriminate.
Qed.

(** a pop that empties an internal array leaves it in place, so bulk_pop_limit fails its assertion in a debug build:
    memory is sufficient and nothing is on disk; a release build goes on with the right answer *)
Theorem C125_emptied_array_refuted : exists l h s, Forall (fun c => asks nat (fst c) /\ snd c = ok) l /\ ex_run 1 l (empty nat 1) = Some (h, s) /\
  served nat ok s /\ eas nat s = [] /\
  limit_asserts nat Nat.ltb ex_mm (ssort Nat.ltb) 2 64 8 plenty plenty (arrive ok) 9 s = Some false /\
  option_map fst (ex_step 1 (BulkPopLimit 9 5) ok s) = Some (Range [5; 6] true).
Proof.
  exists [(Push 5, ok); (Push 6, ok); (Top, ok); (Push 1, ok); (Push 0, ok); (Pop, ok); (Pop, ok)]. do 2 eexists. split; [repeat constructor; discriminate|]. split; [vm_compute; reflexivity|].
  split; [split; [repeat constructor|vm_compute; lia]|]. split; [vm_compute; reflexivity|]. split; vm_compute; reflexivity.
Qed.

(** heaps of two threads, external arrays, internal arrays, refilling, and all calls *)
Definition ex_program : list (call nat * input) :=
  [(Push 9, full true); (Push 3, full true); (Push 7, full true); (Push 5, full true); (Push 8, Input 1 (short true) plenty []); (Push 1, full true); (Push 6, full true); (Push 2, full true); (Push 4, ok);
   (Top, ok); (Pop, ok); (Top, ok); (BulkPop 2, ok); (Push 0, ok); (BulkPopLimit 7 3, full true); (BulkPopLimit 8 9, ok); (Top, ok); (BulkPop 5, ok)].
Example C124_example : option_map fst (ex_run 2 ex_program (empty nat 2)) =
  Some (combine (map fst ex_program) [Nothing; Nothing; Nothing; Nothing; Nothing; Nothing; Nothing; Nothing; Nothing;
   Elem 1; Nothing; Elem 2; Elems [2; 3]; Nothing; Range [0; 4; 5] false; Range [6; 7] true; Elem 8; Elems [8; 9]]).
Proof. vm_compute. reflexivity. Qed.
Example C124_example_meets h s : ex_run 2 ex_program (empty nat 2) = Some (h, s) -> conforms Nat.ltb [] h.
Proof. apply (C124_history_partial nat Nat.ltb nat_sw ex_mm (ssort Nat.ltb) 2 2 3 64 8 ex_mm_ok ex_srt_ok ltac:(lia) 2). repeat constructor; discriminate. Qed.
(** external arrays are there when top is called; with nothing hinted the assertion in refill_extract_buffer fails *)
Example C125_example : exists h s, ex_run 2 (firstn 9 ex_program) (empty nat 2) = Some (h, s) /\ served nat ok s /\ elements nat s <> [] /\ eas nat s <> [] /\
  ex_step 2 Top ok s <> None /\ ex_step 2 (BulkPop 4) ok s <> None.
Proof. eexists. eexists. split; [vm_compute; reflexivity|]. split; [split; [repeat constructor|vm_compute; lia]|]. repeat split; vm_compute; discriminate. Qed.
Example C125_not_hinted : exists h s, ex_run 1 (repeat (Push 7, full true) 3) (empty nat 1) = Some (h, s) /\ ex_step 1 Top ok s <> None /\
  ex_step 1 Top (Input 0 plenty plenty []) s = None.
Proof. eexists. eexists. split; [vm_compute; reflexivity|]. split; [vm_compute; discriminate|vm_compute; reflexivity]. Qed.

Print Assumptions C124_history_partial.
Print Assumptions C124_bulk_pop_zero_refuted.
Print Assumptions C125_progress_partial.
Print Assumptions C125_skipped_merge_refuted.
Print Assumptions C125_emptied_array_refuted.
