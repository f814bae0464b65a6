(** C127, C128: the insertion heaps of the parallel priority queue as arrays. *)
From Coq Require Import List Bool Arith Lia Permutation.
From Verif Require Import OrderLib PpqModel PpqHeapModel PpqHeapSpec PpqHeap PpqHeapRun.
Import ListNotations.
Open Scope nat_scope.

(** C127: sifting up the last element of an array whose other elements form a heap gives a heap of the same elements;
    the index returned is where the new element is, nothing before it has moved, so the root has changed only if it is 0. *)
Theorem C127_push_heap A (lt : A -> A -> bool) (SW : strict_weak lt) l x : heap lt l ->
  exists l' k, push_heap A lt (l ++ [x]) = Some (l', k) /\ heap lt l' /\ Permutation l' (x :: l) /\
    nth_error l' k = Some x /\ (forall j, j < k -> nth_error l' j = nth_error l j).
Proof. apply push_heap_ok, SW. Qed.

(** Sifting up the last [n] elements one after the other, as the end of a bulk does, never violates the precondition
    of std::push_heap and gives a heap, if the elements before them form one. *)
Theorem C127_resift A (lt : A -> A -> bool) (SW : strict_weak lt) l1 l2 : heap lt l1 ->
  exists l', resift A lt (length l2) (l1 ++ l2) = Some l' /\ heap lt l' /\ Permutation l' (l1 ++ l2).
Proof.
  intro H. apply resift_ok; auto.
  - rewrite app_length. lia.
  - rewrite app_length. replace (length l1 + length l2 - length l2) with (length l1) by lia.
    now rewrite firstn_app, Nat.sub_diag, firstn_all, app_nil_r.
Qed.

(** The root of a heap is a least element: what the winner tree compares stands for the whole heap. *)
Theorem C127_root A (lt : A -> A -> bool) (SW : strict_weak lt) l x : heap lt l -> hd_error l = Some x -> forall y, In y l -> lt y x = false.
Proof.
  intros H Hx y Hy. apply In_nth_error in Hy. destruct Hy as (i & Hi). revert y Hi.
  induction i as [i IH] using lt_wf_ind. intros y Hi. destruct i as [|i].
  - destruct l; cbn in *; try discriminate. rewrite Hi in Hx. injection Hx as ->. apply (sw_irrefl _ SW).
  - assert (L : S i < length l) by (apply nth_error_Some; congruence). pose proof (par_lt (S i) ltac:(lia)) as P.
    destruct (nth_ex l ((S i - 1) / 2) ltac:(lia)) as (z & Hz).
    apply (lefalse A lt SW y z x); [now apply (H (S i)); [lia| |]|now apply (IH ((S i - 1) / 2))].
Qed.

Definition empty_heaps (A : Type) (n : nat) : hst A := HS (repeat (PH [] 0 None) n) [] 0.

(** C128: any pushes and bulks, each naming an existing heap, run without a failing assertion, a violated precondition of
    std::push_heap, an empty heap in the winner tree when a flush makes it compare, or a wrapping counter; afterwards every heap is a heap within its capacity, the winner tree has been told
    its present root, m_heaps_size is the number of elements in the heaps, the flushed arrays are sorted and not empty, and
    heaps and flushed arrays together hold exactly what was pushed. *)
Theorem C128_bulk_pushes A (lt : A -> A -> bool) srt cap n (calls : list (hcall A)) :
  strict_weak lt -> sorts lt srt -> 0 < cap ->
  Forall (fun c => match c with HPush p _ => p < n | HBulk l => Forall (fun c => fst c < n) l end) calls ->
  exists s, hrun A lt srt cap calls (empty_heaps A n) = Some s /\
    (forall p h, nth_error (procs s) p = Some h -> heap lt (arr h) /\ length (arr h) <= cap /\ seen h = hd_error (arr h)) /\
    hsize s = length (concat (map arr (procs s))) /\
    (forall l, In l (out s) -> sorted lt l /\ l <> []) /\
    Permutation (concat (map arr (procs s)) ++ concat (out s))
      (concat (map (fun c => match c with HPush _ x => [x] | HBulk l => map snd l end) calls)).
Proof.
  intros SW Hs Hc F.
  destruct (hrun_ok A lt srt cap Hs SW Hc calls (empty_heaps A n)) as (s & E & (I1 & I2 & I3) & P).
  - cbn [empty_heaps procs]. rewrite repeat_length. exact F.
  - assert (Z : flat_map arr (repeat (@PH A [] 0 None) n) = []) by (clear; induction n; cbn; auto).
    split; [|split].
    + cbn [procs empty_heaps]. apply Forall_forall. intros h Hh. apply repeat_spec in Hh. subst h. split; [apply heap_nil|]. cbn. auto with arith.
    + unfold inheaps. cbn [procs empty_heaps hsize]. now rewrite Z.
    + constructor.
  - exists s. split; [auto|]. rewrite <- !flat_map_concat_map. split; [|split; [exact I2|split]].
    + intros p h Hh. destruct (nth_Forall _ _ _ _ I1 Hh) as (G1 & G2 & G3). auto.
    + intros l Hl. unfold outs_ok in I3. rewrite Forall_forall in I3. now apply I3.
    + unfold content, inheaps in P. rewrite P. cbn [procs out empty_heaps concat].
      assert (Z : flat_map arr (repeat (@PH A [] 0 None) n) = []) by (clear; induction n; cbn; auto).
      rewrite Z. cbn [app]. rewrite app_nil_r. apply Permutation_refl.
Qed.

(** Two heaps of capacity 3, plain pushes around a bulk that fills and flushes both heaps. *)
Definition c128_calls : list (hcall nat) :=
  [HPush 0 5; HPush 0 3; HPush 1 8; HBulk [(0, 1); (1, 9); (0, 7); (1, 2); (1, 4); (0, 6); (0, 0)]; HPush 1 1].
Example C128_runs :
  hrun nat Nat.ltb (ssort Nat.ltb) 3 c128_calls (empty_heaps nat 2)
  = Some (HS [PH [0; 7; 6] 3 (Some 0); PH [1; 4] 1 (Some 1)] [[1; 3; 5]; [2; 8; 9]] 5).
Proof. reflexivity. Qed.
Lemma ltb_sw : strict_weak Nat.ltb.
Proof.
  constructor; intros.
  - apply Nat.ltb_irrefl.
  - apply Nat.ltb_lt in H, H0. apply Nat.ltb_lt. lia.
  - apply Nat.ltb_lt in H. destruct (Nat.ltb_spec x y); [auto|]. right. apply Nat.ltb_lt. lia.
Qed.
Example C128_meets : strict_weak Nat.ltb /\ 0 < 3 /\
  Forall (fun c => match c with HPush p _ => p < 2 | HBulk l => Forall (fun c => fst c < 2) l end) c128_calls.
Proof. split; [apply ltb_sw|]. split; [lia|]. repeat constructor. Qed.
Example C128_sorts : sorts Nat.ltb (ssort Nat.ltb).
Proof. intro l. split; [apply ssort_perm|apply ssort_sorted, ltb_sw]. Qed.
(** a new root moves up three levels; another element stops below the root *)
Example C127_root_index : push_heap nat Nat.ltb ([2; 5; 3; 9; 6; 4; 8] ++ [1]) = Some ([1; 2; 3; 5; 6; 4; 8; 9], 0).
Proof. reflexivity. Qed.
Example C127_inner_index : push_heap nat Nat.ltb ([2; 5; 3; 9; 6; 4; 8] ++ [4]) = Some ([2; 4; 3; 5; 6; 4; 8; 9], 1).
Proof. reflexivity. Qed.
Example C127_meets : heap Nat.ltb [2; 5; 3; 9; 6; 4; 8].
Proof. now apply heapb_ok. Qed.
(** the precondition matters: without it the end of a bulk is undefined *)
Example C127_precondition : resift nat Nat.ltb 1 [5; 2; 7; 1] = None.
Proof. reflexivity. Qed.

Print Assumptions C127_push_heap.
Print Assumptions C127_resift.
Print Assumptions C127_root.
Print Assumptions C128_bulk_pushes.
