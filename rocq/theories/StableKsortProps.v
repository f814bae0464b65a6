(** C36: stable_ksort. *)
From Coq Require Import List Bool Arith NArith ZArith Lia Permutation Sorted.
From Verif Require Import SumLib OrderLib ScanModel IntKsortModel IntKsortProofs StableKsortModel StableKsortSpec StableKsortProofs.
Import ListNotations.

(** If the keys are evenly distributed and the range starts and ends suitably, the range is sorted by key and nothing else changes (but see below: the
    order of elements with equal keys may change). *)
Theorem C36_sorts_partial : forall (A : Type) (w : N) (std_sort : list (N * A) -> list (N * A)) (key : A -> N) (B m nd tk l2 : nat) (junk : nat -> N * A),
  sorts (klt A) std_sort -> (forall x, (key x < 2 ^ w)%N) -> 0 < B -> 4 * nd + 2 <= m ->
  forall (v : list A) q first last b2, length v = q * B -> first < last -> last <= length v -> aligned A B v first last -> even A w key B m nd tk l2 (range A v first last) b2 ->
  exists l', stable_ksort A w std_sort key B m nd tk l2 junk v first last = Some (firstn first v ++ l' ++ skipn last v) /\
    Permutation l' (range A v first last) /\ sorted (by_key A key) l'.
Proof. intros A w std_sort key B m nd tk l2 junk H1 H2 H3 H4 v q first last b2. apply stable_ksort_ok; assumption. Qed.

(** FALSE in general: undefined behaviour if no key starts with some of the first bits ... *)
Theorem C36_empty_never : forall (A : Type) (w : N) (std_sort : list (N * A) -> list (N * A)) (key : A -> N) (B m nd tk l2 : nat) (junk : nat -> N * A),
  (forall x, (key x < 2 ^ w)%N) -> 0 < B -> 4 * nd + 2 <= m -> first_bits m nd <= N.to_nat w ->
  forall (v : list A) q first last k, length v = q * B -> first < last -> last <= length v -> aligned A B v first last ->
  k < 2 ^ first_bits m nd -> starting A w key (first_bits m nd) k (range A v first last) = [] ->
  stable_ksort A w std_sort key B m nd tk l2 junk v first last = None.
Proof. intros A w std_sort key B m nd tk l2 junk H1 H2 H3 H4 v q first last k. intros. eapply stable_ksort_empty; eassumption. Qed.
(** ... and if the range starts at the start of a block but does not end at the end of one. *)
Theorem C36_unaligned_never : forall (A : Type) (w : N) (std_sort : list (N * A) -> list (N * A)) (key : A -> N) (B m nd tk l2 : nat) (junk : nat -> N * A),
  0 < B -> forall (v : list A) first last, first mod B = 0 -> last mod B <> 0 -> first <= last -> stable_ksort A w std_sort key B m nd tk l2 junk v first last = None.
Proof. intros A w std_sort key B m nd tk l2 junk HB v first last. apply stable_ksort_unaligned, HB. Qed.

(** elements are numbers below 320, the key is the number without its last decimal digit *)
Definition ex_key (x : nat) : N := (N.of_nat (x / 10) mod 32)%N.
Definition ex_std := @ssort (N * nat) (klt nat).
Definition ex_junk (_ : nat) : N * nat := (0%N, 0).
Definition ex_sort (v : list nat) (first last : nat) := stable_ksort nat 5 ex_std ex_key 4 6 1 1 32 ex_junk v first last.
Definition ex_input := [11; 2; 3; 170; 162; 163; 300; 90].
Lemma ex_key_lt x : (ex_key x < 2 ^ 5)%N.
Proof. apply N.mod_upper_bound. discriminate. Qed.
Lemma ex_std_sorts : sorts (klt nat) ex_std.
Proof. intro l. split; [apply ssort_perm|apply ssort_sorted, klt_sw]. Qed.
Lemma ex_even : even nat 5 ex_key 4 6 1 1 32 ex_input 1.
Proof.
  split; [lia|]. split; [vm_compute; lia|]. intros k Hk. change (2 ^ first_bits 6 1) with 2 in Hk. destruct k as [|[|k]]; [| |lia].
  - vm_compute. repeat split; lia.
  - vm_compute. repeat split; lia.
Qed.
(** two buckets, each with two parts: all hypotheses hold *)
Example C36_ex : 4 * 1 + 2 <= 6 /\ length ex_input = 2 * 4 /\ aligned nat 4 ex_input 0 8 /\ even nat 5 ex_key 4 6 1 1 32 (range nat ex_input 0 8) 1 /\
  ex_sort ex_input 0 8 = Some [3; 2; 11; 90; 163; 162; 170; 300].
Proof. split; [lia|]. split; [reflexivity|]. split; [split; intros; [reflexivity|exfalso; apply H; reflexivity]|]. split; [exact ex_even|]. vm_compute. reflexivity. Qed.
(** in the middle of blocks *)
Example C36_ex_middle : ex_sort [7; 11; 2; 3; 170; 162; 163; 300; 90; 5; 6; 4] 1 9 = Some [7; 3; 2; 11; 90; 163; 162; 170; 300; 5; 6; 4].
Proof. vm_compute. reflexivity. Qed.

(** FALSE: not stable, although all hypotheses of C36_sorts_partial hold: three elements are sorted by sort3, which exchanges the last two if their keys
    are equal and smaller than the first one. *)
Theorem C36_stable_refuted : exists (v : list nat) first last v', length v = 2 * 4 /\ first < last /\ last <= length v /\ aligned nat 4 v first last /\
  even nat 5 ex_key 4 6 1 1 32 (range nat v first last) 1 /\ ex_sort v first last = Some v' /\ ~ stable nat ex_key (range nat v first last) (range nat v' first last).
Proof.
  exists ex_input, 0, 8, [3; 2; 11; 90; 163; 162; 170; 300]. destruct C36_ex as (_ & H1 & H2 & H3 & H4). split; [exact H1|]. split; [lia|]. split; [cbn; lia|]. split; [exact H2|]. split; [exact H3|].
  split; [exact H4|]. intro H. specialize (H 0%N). vm_compute in H. discriminate.
Qed.
(** FALSE: undefined for some inputs: all keys small; range not ended at a block boundary; one element only in the first part of a bucket *)
Theorem C36_defined_refuted : exists (v : list nat), length v = 2 * 4 /\ ex_sort v 0 8 = None /\ starting nat 5 ex_key 1 1 v = [] .
Proof. exists [11; 2; 3; 20; 41; 30; 100; 90]. split; [reflexivity|]. split; vm_compute; reflexivity. Qed.
Example C36_ex_unaligned : ex_sort ex_input 0 7 = None.
Proof. vm_compute. reflexivity. Qed.
Example C36_ex_one : ex_sort [11; 102; 103; 170; 162; 163; 300; 90] 0 8 = None.
Proof. vm_compute. reflexivity. Qed.

Print Assumptions C36_sorts_partial.
Print Assumptions C36_empty_never.
Print Assumptions C36_unaligned_never.
Print Assumptions C36_stable_refuted.
Print Assumptions C36_defined_refuted.
