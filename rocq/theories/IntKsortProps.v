(** C62 the radix sort inside a run of ksort. *)
From Coq Require Import List Bool Arith NArith ZArith Lia Permutation Sorted.
From Verif Require Import SumLib OrderLib IntKsortModel IntKsortProofs IntKsortRunProofs.
Import ListNotations.

Section Theorems.
  Variable A : Type.
  Variable w : N.
  Variable std_sort : list (N * A) -> list (N * A).
  Variable key : A -> N.

  (** the order of ksort: the keys *)
  Definition by_key (x y : A) : bool := N.ltb (key x) (key y).

  (** Every run with room for at least four elements is sorted, unless the references occupy between one and two times the
      assumed cache size (refuted below). [n] is the capacity of a run, [tk] the size of a reference, [l2] the cache size. *)
  Theorem C62_run_partial n tk l2 junk (l : list A) : sorts (klt A) std_sort -> (forall x, (key x < 2 ^ w)%N) ->
    4 <= n -> Nat.log2 n <= N.to_nat w -> 8 * tk <= l2 -> n * tk / l2 <> 1 -> length l <= n ->
    exists l', ksort_run_sort A w std_sort key n tk l2 junk l = Some l' /\ Permutation l' l /\ sorted by_key l'.
  Proof. intros HS HK H4 HW H8 H1 HL. apply (ksort_run_sort_ok A w std_sort HS key HK n tk l2 junk l); assumption. Qed.

  (** Hence the run sort is an instance of the parameter of the model of ksort (SortModel, C61). *)
  Theorem C62_instance n tk l2 junk : sorts (klt A) std_sort -> (forall x, (key x < 2 ^ w)%N) ->
    4 <= n -> Nat.log2 n <= N.to_nat w -> 8 * tk <= l2 -> n * tk / l2 <> 1 ->
    exists srt, sorts by_key srt /\ forall l, length l <= n -> ksort_run_sort A w std_sort key n tk l2 junk l = Some (srt l).
  Proof.
    intros HS HK H4 HW H8 H1.
    assert (strict_weak by_key) as SW.
    { unfold by_key. constructor; intros *; rewrite ?N.ltb_irrefl, ?N.ltb_lt; try reflexivity; lia. }
    exists (fun l => match (if Nat.leb (length l) n then ksort_run_sort A w std_sort key n tk l2 junk l else None) with
                     | Some l' => l' | None => ssort by_key l end). split.
    - intro l. destruct (Nat.leb_spec (length l) n) as [L|L].
      + destruct (C62_run_partial n tk l2 junk l HS HK H4 HW H8 H1 L) as (l' & E & P & S). rewrite E. auto.
      + split; [apply ssort_perm|apply ssort_sorted, SW].
    - intros l L. rewrite (proj2 (Nat.leb_le _ _) L).
      destruct (C62_run_partial n tk l2 junk l HS HK H4 HW H8 H1 L) as (l' & E & _). rewrite E. reflexivity.
  Qed.

  (** One level: l1sort puts a sorted permutation at its destination and touches nothing else. *)
  Theorem C62_l1sort a b base cap K offset shift : sorts (klt A) std_sort -> (0 <= shift < Z.of_N w)%Z -> 0 < K ->
    (forall e, In e a -> (offset <= fst e < offset + N.of_nat K * 2 ^ Z.to_N shift)%N /\ (fst e < 2 ^ w)%N) -> base + length a <= cap ->
    exists b', l1sort A w std_sort a b base cap K offset shift = Some b' /\
      Permutation (map b' (seq base (length a))) a /\ sorted (klt A) (map b' (seq base (length a))) /\
      (forall j, j < base \/ base + length a <= j -> b' j = b j).
  Proof.
    intros HS HH HK HE HC. apply (l1sort_ok A w std_sort HS (rindex A offset shift)).
    - intros e He. destruct (HE e He) as [[H1 H2] H3]. split; [apply bucket_of_ok; assumption|apply rindex_lt; assumption].
    - exact HC.
    - intros x y _ _. apply rindex_mono.
  Qed.

  (** FALSE: if the references occupy one to two cache sizes, log_k1 is zero and the keys are shifted by their full width,
      which is undefined: no run is ever sorted.  Likewise with room for fewer than four elements. *)
  Theorem C62_shift_never n tk l2 junk (l : list A) : n * tk / l2 = 1 -> l <> [] -> ksort_run_sort A w std_sort key n tk l2 junk l = None.
  Proof. intros. apply ksort_run_sort_shift; assumption. Qed.
  Theorem C62_small_never n tk l2 junk (l : list A) : n < 4 -> l <> [] -> ksort_run_sort A w std_sort key n tk l2 junk l = None.
  Proof. intros. apply ksort_run_sort_small; assumption. Qed.
  (** with 16-byte references, the default cache size of 512 KiB and runs of 2^15 elements *)
  Theorem C62_shift_refuted : exists n, n = 2 ^ 15 /\ forall junk (l : list A), l <> [] ->
    ksort_run_sort A w std_sort key n (2 ^ 4) (2 ^ 19) junk l = None.
  Proof.
    exists (2 ^ 15). split; [reflexivity|]. intros junk l HN. apply C62_shift_never; [|exact HN].
    rewrite <- Nat.pow_add_r. change (15 + 4) with 19. apply Nat.div_same. apply Nat.pow_nonzero. discriminate.
  Qed.
End Theorems.

Section Examples.
  (** elements are numbers, the key is the number without its last decimal digit *)
  Let key (x : nat) : N := N.of_nat (x / 10).
  Let std := @ssort (N * nat) (klt nat).
  Let junk (_ : nat) : N * nat := (0%N, 0).
  Example C62_ex : ksort_run_sort nat 5 std key 20 4 32 junk [171; 32; 314; 10; 33; 35; 31; 169; 34; 0; 95]
                   = Some [0; 10; 32; 33; 35; 31; 34; 95; 169; 171; 314].
  Proof. vm_compute. reflexivity. Qed.
  Example C62_ex_hyp : 4 <= 20 /\ Nat.log2 20 <= N.to_nat 5 /\ 8 * 4 <= 32 /\ 20 * 4 / 32 <> 1 /\ sorts (klt nat) std.
  Proof.
    split; [lia|]. split; [vm_compute; lia|]. split; [lia|]. split; [discriminate|].
    intro l. split; [apply ssort_perm|apply ssort_sorted, klt_sw].
  Qed.
  (** three elements in one bucket: sort3 is used, and is not stable *)
  Example C62_ex_three : small_sort nat std [(1%N, 1); (0%N, 2); (0%N, 3)] = Some [(0%N, 3); (0%N, 2); (1%N, 1)].
  Proof. vm_compute. reflexivity. Qed.
  Example C62_ex_undefined : ksort_run_sort nat 5 std key 8 4 32 junk [1; 2; 3; 4; 5] = None.
  Proof. vm_compute. reflexivity. Qed.
End Examples.

Print Assumptions C62_run_partial.
Print Assumptions C62_instance.
Print Assumptions C62_l1sort.
Print Assumptions C62_shift_never.
Print Assumptions C62_small_never.
Print Assumptions C62_shift_refuted.
