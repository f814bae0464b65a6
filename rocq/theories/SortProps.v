(** C35 stxxl::sort, C61 stxxl::ksort. *)
From Coq Require Import List Bool Arith Lia Permutation Sorted.
From Verif Require Import SumLib OrderLib SortModel SortSpec SortProofs.
Import ListNotations.

Section Theorems.
  Variable A : Type.
  Variable cmp : A -> A -> bool.
  Variables minv maxv : A.
  Variable srt : list A -> list A.
  Variable B : nat.
  Variable managed : nat -> bool.
  Variable fresh : nat -> list nat -> nat -> list nat.
  Variable mf : nat -> nat -> nat.

  (** The assumptions common to all theorems: a strict weak order, a correct in-memory sort, non-empty blocks, a correct
      block manager, and a merge factor of at least two. *)
  Definition environment : Prop :=
    strict_weak cmp /\ sorts cmp srt /\ 0 < B /\ allocates managed fresh /\ (forall n m, 2 <= mf n m).
  (** a vector whose blocks all belong to the block manager or all to a file *)
  Definition given (disk : nat -> list A) (live bids : list nat) (first last : nat) : Prop :=
    manager_ok managed live /\ vector_ok managed B disk live bids /\
    ((forall b, In b bids -> managed b = true) \/ (forall b, In b bids -> managed b = false)) /\
    first <= last <= length bids * B.
  Definition slice_between (disk : nat -> list A) (bids : list nat) (first last : nat) : Prop :=
    forall x, In x (firstn (last - first) (skipn first (content disk bids))) -> between cmp minv maxv x.

  (** Sorting: except when only the start of the range is inside a block and the range does not fit into memory
      (refuted below), sort is defined, sorts the range, keeps everything else and leaks nothing. *)
  Theorem C35_sort s bids first last esz raw fac M : environment ->
    given (s_disk s) (s_live s) bids first last ->
    B * esz <= raw -> 0 < raw -> 0 < fac -> 2 * raw * fac <= M ->
    (last - first) * esz * fac < M \/ first mod B = 0 \/ last mod B <> 0 ->
    (last - first) * esz * fac < M \/ (first mod B = 0 /\ last mod B = 0) \/ slice_between (s_disk s) bids first last ->
    exists bids' s', sort A cmp minv maxv srt B managed fresh mf esz raw fac M bids first last s = Sorted bids' s' /\
      sorted_range cmp managed B (s_disk s) (s_disk s') (s_live s) (s_live s') bids bids' first last.
  Proof.
    intros (H1 & H2 & H3 & H4 & H5) (G1 & G2 & G3 & G4) K1 K2 K3 K4 K5 K6.
    destruct (sort_ok A cmp minv maxv srt B managed fresh mf H1 H2 H3 H4 H5 s bids first last esz raw fac M G1 G2 G3 G4 K1 K2 K3 K4 K5 K6)
      as (b & s' & E1 & E2 & _). exists b, s'. auto.
  Qed.

  (** A vector in a file: the file is sorted in place, if the range starts with a block or fits into memory. *)
  Theorem C35_file s bids first last esz raw fac M : environment ->
    given (s_disk s) (s_live s) bids first last ->
    B * esz <= raw -> 0 < raw -> 0 < fac -> 2 * raw * fac <= M ->
    (last - first) * esz * fac < M \/ first mod B = 0 ->
    (last - first) * esz * fac < M \/ (first mod B = 0 /\ last mod B = 0) \/ slice_between (s_disk s) bids first last ->
    (forall b, In b bids -> managed b = false) ->
    exists s', sort A cmp minv maxv srt B managed fresh mf esz raw fac M bids first last s = Sorted bids s' /\
      sorted_range cmp managed B (s_disk s) (s_disk s') (s_live s) (s_live s') bids bids first last.
  Proof.
    intros (H1 & H2 & H3 & H4 & H5) (G1 & G2 & G3 & G4) K1 K2 K3 K4 K5 K6 HU.
    destruct (sort_ok A cmp minv maxv srt B managed fresh mf H1 H2 H3 H4 H5 s bids first last esz raw fac M G1 G2 G3 G4 K1 K2 K3 K4)
      as (b & s' & E1 & E2 & E3); [tauto|exact K6|]. rewrite (E3 K5 HU) in *. exists s'. auto.
  Qed.

  (** The remaining case is undefined for every input. *)
  Theorem C35_sort_first_unaligned s bids first last esz raw fac M : environment ->
    given (s_disk s) (s_live s) bids first last ->
    B * esz <= raw -> 0 < raw -> 0 < fac -> 2 * raw * fac <= M ->
    M <= (last - first) * esz * fac -> first mod B <> 0 -> last mod B = 0 ->
    sort A cmp minv maxv srt B managed fresh mf esz raw fac M bids first last s = Undefined.
  Proof.
    intros (H1 & H2 & H3 & H4 & H5) (G1 & G2 & G3 & G4). intros.
    eapply sort_undefined; eassumption.
  Qed.

  (** Too little memory is reported. *)
  Theorem C35_sort_memory s bids first last esz raw fac M : M <= (last - first) * esz * fac -> M < 2 * raw * fac ->
    sort A cmp minv maxv srt B managed fresh mf esz raw fac M bids first last s = Bad_parameter.
  Proof.
    intros H1 H2. unfold sort. destruct (Nat.ltb_spec ((last - first) * esz * fac) M); [lia|].
    destruct (Nat.leb_spec (2 * raw * fac) M); [lia|reflexivity].
  Qed.

  (** ksort: the same, if a run has at least one block *)
  Theorem C61_ksort s bids first last esz raw ksz M : environment ->
    given (s_disk s) (s_live s) bids first last ->
    B * esz <= raw -> 0 < raw -> 2 * raw <= M ->
    (last - first) * esz < M \/ ((first mod B = 0 \/ last mod B <> 0) /\ 0 < ksort_run B raw ksz (M / raw)) ->
    (last - first) * esz < M \/ (first mod B = 0 /\ last mod B = 0) \/ slice_between (s_disk s) bids first last ->
    exists bids' s', ksort A cmp minv maxv srt B managed fresh mf esz raw ksz M bids first last s = Sorted bids' s' /\
      sorted_range cmp managed B (s_disk s) (s_disk s') (s_live s) (s_live s') bids bids' first last.
  Proof.
    intros (H1 & H2 & H3 & H4 & H5) (G1 & G2 & G3 & G4) K1 K2 K3 K4 K5.
    destruct (ksort_ok A cmp minv maxv srt B managed fresh mf H1 H2 H3 H4 H5 s bids first last esz raw ksz M G1 G2 G3 G4 K1 K2 K3 K4 K5)
      as (b & s' & E1 & E2 & _). exists b, s'. auto.
  Qed.

  (** A memory size accepted by ksort's own check for which no run has a block: division by zero, for every
      vector that does not fit into memory.  E.g. every two-block memory. *)
  Theorem C61_ksort_two_blocks s bids first last esz raw ksz M : 0 < B -> 0 < raw -> 0 < ksz ->
    2 * raw <= M < 3 * raw -> M <= (last - first) * esz -> first mod B = 0 -> last mod B = 0 ->
    ksort A cmp minv maxv srt B managed fresh mf esz raw ksz M bids first last s = Undefined.
  Proof.
    intros H1 H2 H3 H4 H5 H6 H7. unfold ksort. destruct (Nat.ltb_spec ((last - first) * esz) M); [lia|].
    destruct (Nat.leb_spec (2 * raw) M); [|lia].
    assert (M / raw = 2) as Em by (symmetry; apply Nat.div_unique with (M - raw * 2); lia).
    assert (ksort_run B raw ksz 2 = 0) as Ek.
    { unfold ksort_run. change ((2 + 1) / 2) with 1. apply Nat.div_small. nia. }
    rewrite Em. unfold sort_external. rewrite H6, H7. cbn [Nat.eqb]. unfold sort_blocks. rewrite Ek. reflexivity.
  Qed.
End Theorems.

(** A concrete environment: blocks of two numbers, identifiers from 100 on belong to the block manager. *)
  Definition ex_managed (b : nat) : bool := Nat.leb 100 b.
  Definition ex_fresh (c : nat) (live : list nat) (n : nat) : list nat := seq (S (list_max (100 :: live))) n.
  Definition ex_srt := ssort Nat.ltb.
  Definition ex_mf (n m : nat) : nat := 2.
  Lemma ex_env : environment nat Nat.ltb ex_srt 2 ex_managed ex_fresh ex_mf.
  Proof.
    assert (strict_weak Nat.ltb) as SW.
    { constructor; intros x; [apply Nat.ltb_irrefl| |].
      - intros y z H1 H2. apply Nat.ltb_lt in H1, H2. apply Nat.ltb_lt. lia.
      - intros y z H. apply Nat.ltb_lt in H. destruct (Nat.ltb_spec x y); [auto|right]. apply Nat.ltb_lt. lia. }
    split; [exact SW|]. split.
    { intro l. split; [apply ssort_perm|apply ssort_sorted, SW]. }
    split; [lia|]. split; [|intros; unfold ex_mf; lia].
    intros c live n. unfold ex_fresh. split; [apply seq_length|]. split; [apply seq_NoDup|].
    intros b Hb. apply in_seq in Hb.
    assert (forall x, In x (100 :: live) -> x <= list_max (100 :: live)) as HM.
    { intros x Hx. pose proof (proj1 (list_max_le (100 :: live) _) (Nat.le_refl _)) as F. rewrite Forall_forall in F. auto. }
    split.
    - intro Hl. specialize (HM b (or_intror Hl)). lia.
    - unfold ex_managed. apply Nat.leb_le. specialize (HM 100 (or_introl eq_refl)). lia.
  Qed.
  Definition ex_disk (b : nat) : list nat :=
    nth (b mod 100) [[90; 11]; [8; 17]; [3; 16]; [5; 12]; [4; 91]; [92; 93]] [].
  Definition ex_sort' := sort nat Nat.ltb 0 99 ex_srt 2 ex_managed ex_fresh ex_mf.
  Definition ex_ksort' := ksort nat Nat.ltb 0 99 ex_srt 2 ex_managed ex_fresh ex_mf.
  (** observed: the vector, the identifiers, the allocated blocks *)
  Definition ex_show (o : outcome nat) : option (list nat * list nat * list nat) :=
    match o with Sorted b s => Some (content (s_disk s) b, b, s_live s) | _ => None end.

(** Five blocks with two blocks of memory: five runs of one block, three merge phases. *)
Example C35_example_both_unaligned :
  ex_show (ex_sort' 1 2 1 4 [100; 101; 102; 103; 104; 105] 1 9 (mks ex_disk [100; 101; 102; 103; 104; 105; 200] 0))
  = Some ([90; 3; 4; 5; 8; 11; 12; 16; 17; 91; 92; 93], [100; 219; 220; 221; 104; 105], [219; 220; 221; 100; 104; 105; 200]).
Proof. vm_compute. reflexivity. Qed.
Example C35_example_given : given nat 2 ex_managed ex_disk [100; 101; 102; 103; 104; 105; 200] [100; 101; 102; 103; 104; 105] 1 9.
Proof.
  split; [split; [repeat constructor; cbn; intuition congruence|]|split; [constructor|split]].
  - intros b Hb. cbn in Hb. intuition (subst; reflexivity).
  - repeat constructor; cbn; intuition congruence.
  - intros b Hb. cbn in Hb. intuition (subst; reflexivity).
  - intros b Hb _. cbn in Hb. cbn. intuition (subst; auto).
  - left. intros b Hb. cbn in Hb. intuition (subst; reflexivity).
  - cbn; lia.
Qed.
Example C35_example_between : slice_between nat Nat.ltb 0 99 ex_disk [100; 101; 102; 103; 104; 105] 1 9.
Proof. intros x Hx. vm_compute in Hx. repeat (destruct Hx as [<-|Hx]; [split; left; reflexivity|]). destruct Hx. Qed.
(** in a file, start aligned, end not *)
Example C35_example_file :
  ex_show (ex_sort' 1 2 1 4 [0; 1; 2; 3; 4; 5] 2 9 (mks ex_disk [100; 200] 0))
  = Some ([90; 11; 3; 4; 5; 8; 12; 16; 17; 91; 92; 93], [0; 1; 2; 3; 4; 5], [100; 200]).
Proof. vm_compute. reflexivity. Qed.
(** in memory *)
Example C35_example_memory :
  ex_show (ex_sort' 1 2 1 40 [0; 1; 2; 3; 4; 5] 1 9 (mks ex_disk [100; 200] 0))
  = Some ([90; 3; 4; 5; 8; 11; 12; 16; 17; 91; 92; 93], [0; 1; 2; 3; 4; 5], [100; 200]).
Proof. vm_compute. reflexivity. Qed.

(** C35 for all ranges is false: start inside a block, end at a block boundary. *)
Theorem C35_sort_refuted : exists live bids first last M,
  given nat 2 ex_managed ex_disk live bids first last /\ 2 * 2 * 1 <= M /\ slice_between nat Nat.ltb 0 99 ex_disk bids first last /\
  ex_sort' 1 2 1 M bids first last (mks ex_disk live 0) = Undefined.
Proof.
  exists [100; 101; 102; 103; 104; 105; 200], [100; 101; 102; 103; 104; 105], 1, 8, 4.
  destruct C35_example_given as (G1 & G2 & G3 & G4). split; [split; [exact G1|split; [exact G2|split; [exact G3|cbn; lia]]]|]. split; [lia|]. split.
  - intros x Hx. vm_compute in Hx. repeat (destruct Hx as [<-|Hx]; [split; left; reflexivity|]). destruct Hx.
  - vm_compute. reflexivity.
Qed.

(** In a file with the start of the range inside a block, the file itself is not sorted: the vector
    refers to blocks of the block manager afterwards. *)
Theorem C35_file_refuted : exists live bids first last M bids' s',
  given nat 2 ex_managed ex_disk live bids first last /\ (forall b, In b bids -> ex_managed b = false) /\ 2 * 2 * 1 <= M /\
  slice_between nat Nat.ltb 0 99 ex_disk bids first last /\
  ex_sort' 1 2 1 M bids first last (mks ex_disk live 0) = Sorted bids' s' /\
  bids' <> bids /\ ~ sorted Nat.ltb (firstn (last - first) (skipn first (content (s_disk s') bids))).
Proof.
  exists [100; 200], [0; 1; 2; 3; 4; 5], 1, 9, 4.
  destruct (ex_sort' 1 2 1 4 [0; 1; 2; 3; 4; 5] 1 9 (mks ex_disk [100; 200] 0)) as [bids' s'| |] eqn:E; [|vm_compute in E; discriminate|vm_compute in E; discriminate].
  exists bids', s'. split; [|split; [|split; [lia|split; [|split; [reflexivity|]]]]].
  - split; [split; [repeat constructor; cbn; intuition congruence|]|split; [constructor|split]].
    + intros b Hb. cbn in Hb. intuition (subst; reflexivity).
    + repeat constructor; cbn; intuition congruence.
    + intros b Hb. cbn in Hb. intuition (subst; reflexivity).
    + intros b Hb Hm. cbn in Hb. intuition (subst; discriminate).
    + right. intros b Hb. cbn in Hb. intuition (subst; reflexivity).
    + cbn; lia.
  - intros b Hb. cbn in Hb. intuition (subst; reflexivity).
  - intros x Hx. vm_compute in Hx. repeat (destruct Hx as [<-|Hx]; [split; left; reflexivity|]). destruct Hx.
  - assert (ex_show (Sorted bids' s') = ex_show (ex_sort' 1 2 1 4 [0; 1; 2; 3; 4; 5] 1 9 (mks ex_disk [100; 200] 0))) as S by (rewrite E; reflexivity).
    assert (match ex_sort' 1 2 1 4 [0; 1; 2; 3; 4; 5] 1 9 (mks ex_disk [100; 200] 0) with Sorted _ s => content (s_disk s) [0; 1; 2; 3; 4; 5] | _ => [] end
       = [90; 3; 8; 17; 3; 16; 5; 12; 17; 91; 92; 93]) as C by (vm_compute; reflexivity).
    rewrite E in C. rewrite C. vm_compute in S. injection S as _ -> _. split; [discriminate|].
    cbn. intro H. repeat match goal with H : StronglySorted _ (_ :: _) |- _ => inversion H; clear H; subst
      | H : sorted _ (_ :: _) |- _ => inversion H; clear H; subst end.
    repeat match goal with H : Forall _ (_ :: _) |- _ => inversion H; clear H; subst end. discriminate.
Qed.

(** ... and sorting that vector again uses a freed block: the result refers to a block of the block manager
    that is not allocated. *)
Definition sort_twice : option (list nat * list nat) :=
  match ex_sort' 1 2 1 4 [0; 1; 2; 3; 4; 5] 1 9 (mks ex_disk [100; 200] 0) with
  | Sorted bids s =>
      match ex_sort' 1 2 1 4 bids 0 12 s with
      | Sorted bids' s' => Some (filter ex_managed bids', s_live s')
      | _ => None
      end
  | _ => None
  end.
Theorem C35_file_twice_refuted : exists used live, sort_twice = Some (used, live) /\ exists b, In b used /\ ~ In b live.
Proof.
  destruct sort_twice as [[used live]|] eqn:E; [|vm_compute in E; discriminate]. exists used, live. split; [reflexivity|].
  vm_compute in E. injection E as <- <-. eexists. split; [left; reflexivity|]. cbn. intuition discriminate.
Qed.

(** ksort *)
Example C61_example :
  ex_show (ex_ksort' 1 2 1 10 [100; 101; 102; 103; 104; 105] 1 11 (mks ex_disk [100; 101; 102; 103; 104; 105; 200] 0))
  = Some ([90; 3; 4; 5; 8; 11; 12; 16; 17; 91; 92; 93], [100; 222; 223; 224; 225; 105], [222; 223; 224; 225; 100; 105; 200]).
Proof. vm_compute. reflexivity. Qed.
Theorem C61_ksort_refuted : exists live bids first last M,
  given nat 2 ex_managed ex_disk live bids first last /\ 2 * 2 <= M /\ first mod 2 = 0 /\ last mod 2 = 0 /\
  slice_between nat Nat.ltb 0 99 ex_disk bids first last /\
  ex_ksort' 1 2 1 M bids first last (mks ex_disk live 0) = Undefined.
Proof.
  exists [100; 101; 102; 103; 104; 105; 200], [100; 101; 102; 103; 104; 105], 2, 8, 4.
  destruct C35_example_given as (G1 & G2 & G3 & G4). split; [split; [exact G1|split; [exact G2|split; [exact G3|cbn; lia]]]|]. split; [lia|].
  split; [reflexivity|]. split; [reflexivity|]. split.
  - intros x Hx. vm_compute in Hx. repeat (destruct Hx as [<-|Hx]; [split; left; reflexivity|]). destruct Hx.
  - vm_compute. reflexivity.
Qed.

Print Assumptions C35_sort.
Print Assumptions C35_file.
Print Assumptions C35_sort_first_unaligned.
Print Assumptions C35_sort_memory.
Print Assumptions C35_sort_refuted.
Print Assumptions C35_file_refuted.
Print Assumptions C35_file_twice_refuted.
Print Assumptions C61_ksort.
Print Assumptions C61_ksort_two_blocks.
Print Assumptions C61_ksort_refuted.
