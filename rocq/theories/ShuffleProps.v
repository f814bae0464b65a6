(** C48: random_shuffle permutes its range.  C64: random_shuffle keeps to its memory. *)
From Coq Require Import List Bool Arith NArith Lia Permutation.
From Verif Require Import ScanModel ScanSpec ShuffleModel ShuffleProofs.
Import ListNotations.

(** Full statement: for every random number generator the call returns, the elements of the range are permuted and all others kept.
    Proved here: a call that returns (for whatever recursion depth) has done exactly that, for all generators, block and page sizes, memory sizes.
    Missing: that it returns; see C48_returns, C48_endless_refuted, C48_empty_refuted and C48_page_refuted. *)
Theorem C48_permutation_partial : forall (A : Type) junk B BlockSize PageSize sz (St : Type) rnd shuffle,
  0 < B -> (0 < BlockSize)%N -> (forall k st, (0 < k -> fst (rnd k st) < k)%N) -> (forall st l, Permutation (snd (shuffle st l)) l) ->
  forall fuel st (v : list A) nb first last M st' v' e, length v = nb * B -> first <= last <= length v ->
  random_shuffle A junk B BlockSize PageSize sz St rnd shuffle fuel st v first last M = Done (st', v', e) ->
  exists l, Permutation l (range v first last) /\ v' = replaced v first last l.
Proof.
  intros A junk B bs p sz St rnd sh HB HBS Hr Hs fuel st v nb first last M st' v' e HV HR H.
  pose proof (random_shuffle_good A junk B bs p sz St rnd sh HB HBS Hr Hs fuel st v first last M nb HV HR) as G. rewrite H in G. exact G.
Qed.

(** with fewer than twelve blocks per page, no assertion fails for a range that is not empty or not aligned: the call returns or recurses for ever *)
Theorem C48_safe : forall (A : Type) junk B BlockSize PageSize sz (St : Type) rnd shuffle,
  0 < B -> (0 < BlockSize)%N -> (PageSize < 12)%N -> (forall k st, (0 < k -> fst (rnd k st) < k)%N) -> (forall st l, Permutation (snd (shuffle st l)) l) ->
  forall fuel st (v : list A) nb first last M, length v = nb * B -> first <= last <= length v -> first < last \/ first mod B <> 0 ->
  random_shuffle A junk B BlockSize PageSize sz St rnd shuffle fuel st v first last M <> Stuck.
Proof.
  intros A junk B bs p sz St rnd sh HB HBS HP Hr Hs fuel st v nb first last M HV HR HN E.
  pose proof (random_shuffle_good A junk B bs p sz St rnd sh HB HBS Hr Hs fuel st v first last M nb HV HR) as G. rewrite E in G. apply G. split; assumption.
Qed.

(** and it returns for every generator if the range fits into the memory left beside the buckets *)
Theorem C48_returns : forall (A : Type) junk B BlockSize PageSize sz (St : Type) rnd shuffle,
  0 < B -> (0 < BlockSize)%N -> (PageSize < 12)%N -> (forall k st, (0 < k -> fst (rnd k st) < k)%N) -> (forall st l, Permutation (snd (shuffle st l)) l) ->
  forall fuel st (v : list A) nb first last M, length v = nb * B -> first <= last <= length v -> first < last \/ first mod B <> 0 ->
  (let M := N.max M ((6 + PageSize) * BlockSize) in N.of_nat (last - first) * sz < M - M / (3 * BlockSize) * BlockSize - PageSize * BlockSize)%N ->
  exists x, random_shuffle A junk B BlockSize PageSize sz St rnd shuffle (S fuel) st v first last M = Done x.
Proof.
  intros A junk B bs p sz St rnd sh HB HBS HP Hr Hs fuel st v nb first last M HV HR HN HM.
  apply (random_shuffle_small A junk B bs p sz St rnd sh HB HBS Hr Hs fuel st v first last M nb HV HR HN HP).
  pose proof (memory_ge B bs p HB HBS M) as HG.
  destruct (space_exact B bs p HB HBS (memory bs p M) HP HG) as [-> _]. unfold nbuckets. cbv zeta in HM.
  replace (memory bs p M) with (N.max M ((6 + p) * bs)); [exact HM|]. unfold memory, min_memory. destruct (N.ltb_spec M (6 * bs + p * bs)); lia.
Qed.

(** a generator that always returns zero: the recursion never ends *)
Lemma endless_run : forall fuel a b c d M, (M <= 7)%N ->
  random_shuffle nat 0 1 1 1 1 unit (fun _ st => (0%N, st)) (fun st l => (st, l)) fuel tt [a; b; c; d] 0 4 M = More.
Proof.
  induction fuel as [|fuel IH]; intros a b c d M HM; [reflexivity|]. cbn [random_shuffle].
  assert (memory 1 1 M = 7%N) as ->. { unfold memory. destruct (N.ltb_spec M (min_memory 1 1)) as [L|L]; [reflexivity|]. change (min_memory 1 1) with 7%N in L. lia. }
  change (Pos.to_nat 2) with 2 in *. cbv -[random_shuffle N.le]. rewrite IH by lia. reflexivity.
Qed.
Theorem C48_endless_refuted : exists B BlockSize PageSize sz (rnd : N -> unit -> N * unit) shuffle (v : list nat) M,
  (0 < B /\ (0 < BlockSize)%N /\ (PageSize < 12)%N /\ (forall k st, (0 < k -> fst (rnd k st) < k)%N) /\ (forall st l, Permutation (snd (shuffle st l)) l)) /\
  forall fuel, random_shuffle nat 0 B BlockSize PageSize sz unit rnd shuffle fuel tt v 0 (length v) M = More.
Proof.
  exists 1, 1%N, 1%N, 1%N, (fun _ st => (0%N, st)), (fun st l => (st, l)), [1; 2; 3; 4], 7%N. split.
  - repeat split; try (exact Nat.lt_0_1 || lia); intros; cbn; [assumption|reflexivity].
  - intro fuel. apply endless_run. lia.
Qed.

(** shuffling an empty range at the start of a block opens an empty stream: an assertion fails *)
Theorem C48_empty_stuck : forall (A : Type) junk B BlockSize PageSize sz (St : Type) rnd shuffle fuel st (v : list A) M, 0 < B ->
  random_shuffle A junk B BlockSize PageSize sz St rnd shuffle (S fuel) st v 0 0 M = Stuck.
Proof.
  intros A junk B bs p sz St rnd sh fuel st v M HB. cbn [random_shuffle]. unfold open_in, end_block. rewrite Nat.div_0_l, Nat.mod_0_l by lia. cbn. reflexivity.
Qed.

Theorem C48_empty_refuted : exists B BlockSize PageSize sz (rnd : N -> unit -> N * unit) shuffle (v : list nat),
  (0 < B /\ (0 < BlockSize)%N /\ (PageSize < 12)%N /\ (forall k st, (0 < k -> fst (rnd k st) < k)%N) /\ (forall st l, Permutation (snd (shuffle st l)) l)) /\
  forall fuel M, random_shuffle nat 0 B BlockSize PageSize sz unit rnd shuffle (S fuel) tt v 0 0 M = Stuck.
Proof.
  exists 1, 1%N, 1%N, 1%N, (fun _ st => (0%N, st)), (fun st l => (st, l)), [1; 2]. split.
  - repeat split; try (exact Nat.lt_0_1 || lia); intros; cbn; [assumption|reflexivity].
  - intros. apply C48_empty_stuck. lia.
Qed.

(** with twelve blocks per page and the minimum of memory no memory is left: an empty bucket is shuffled through an empty vector *)
Theorem C48_page_refuted : exists B BlockSize PageSize sz (rnd : N -> unit -> N * unit) shuffle (v : list nat),
  (0 < B /\ (0 < BlockSize)%N /\ (forall k st, (0 < k -> fst (rnd k st) < k)%N) /\ (forall st l, Permutation (snd (shuffle st l)) l)) /\
  forall M fuel, (M <= (6 + PageSize) * BlockSize)%N -> v <> [] /\ random_shuffle nat 0 B BlockSize PageSize sz unit rnd shuffle (S (S fuel)) tt v 0 (length v) M = Stuck.
Proof.
  exists 1, 1%N, 12%N, 1%N, (fun k st => ((k - 1)%N, st)), (fun st l => (st, l)), [1; 2]. split.
  - repeat split; try (exact Nat.lt_0_1 || lia); intros; cbn; [lia|reflexivity].
  - intros M fuel HM. split; [discriminate|]. remember (S fuel) as f1 eqn:Ef. cbn [random_shuffle length].
    assert (memory 1 12 M = 18%N) as ->. { unfold memory. destruct (N.ltb_spec M (min_memory 1 12)) as [L|L]; [reflexivity|]. change (min_memory 1 12) with 18%N in L. lia. }
    cbv -[random_shuffle]. subst f1. rewrite C48_empty_stuck by lia. reflexivity.
Qed.

(** a generator that returns the numbers of a list *)
Definition C48_rnd (k : N) (st : list N) : N * list N := match st with [] => (0%N, []) | i :: st => ((if N.ltb i k then i else k - 1)%N, st) end.
Lemma C48_rnd_ok : forall k st, (0 < k -> fst (C48_rnd k st) < k)%N.
Proof. intros k [|i st] H; cbn; [exact H|]. destruct (N.ltb_spec i k); lia. Qed.
(** blocks of two elements; the range starts and ends inside blocks; the second bucket recurses *)
Example C48_ex : exists st e,
  random_shuffle nat 0 2 2 1 2 (list N) C48_rnd (fun st l => (st, rev l)) 3 [1; 1; 1; 1; 0; 1; 1; 1; 1; 1; 0; 1; 0; 1; 0; 1; 0; 1; 1]%N [100; 1; 2; 3; 4; 5; 6; 7; 8; 9; 10; 200] 1 11 20 =
  Done (st, [100; 5; 10; 8; 6; 3; 9; 7; 4; 2; 1; 200], e) /\ In (Recurse 16) e.
Proof. eexists _, _. split; [vm_compute; reflexivity|]. cbn. tauto. Qed.

(** C64: Full statement: no temporary array is larger than the memory given (or the minimum).  Proved here for runs without recursion *)
Theorem C64_memory_partial : forall (A : Type) junk B BlockSize PageSize sz (St : Type) rnd shuffle,
  0 < B -> (0 < BlockSize)%N -> (PageSize < 12)%N ->
  forall fuel st (v : list A) first last M st' v' e,
  random_shuffle A junk B BlockSize PageSize sz St rnd shuffle fuel st v first last M = Done (st', v', e) ->
  (forall M', ~ In (Recurse M') e) -> forall n, In (Array n) e -> (n < N.max M ((6 + PageSize) * BlockSize))%N.
Proof.
  intros A junk B bs p sz St rnd sh HB HBS HP fuel st v first last M st' v' e H NR n Hn.
  replace (N.max M ((6 + p) * bs)) with (memory bs p M) by (unfold memory, min_memory; destruct (N.ltb_spec M (6 * bs + p * bs)); lia).
  eapply (random_shuffle_arrays A junk B bs p sz St rnd sh); eassumption.
Qed.
(** each recursion adds a page to the memory left and never takes it away: the third bucket is shuffled in an array of 12 blocks although there are 10,
    and the second recursive call is told it may use 12 *)
Theorem C64_memory_refuted : exists B BlockSize PageSize sz (rnd : N -> list N -> N * list N) shuffle (v : list nat) st M,
  (0 < B /\ (0 < BlockSize)%N /\ (PageSize < 12)%N /\ (forall k st, (0 < k -> fst (rnd k st) < k)%N) /\ (forall st l, Permutation (snd (shuffle st l)) l)) /\
  (M = (6 + PageSize) * BlockSize)%N /\
  exists fuel st' v' e, random_shuffle nat 0 B BlockSize PageSize sz (list N) rnd shuffle fuel st v 0 (length v) M = Done (st', v', e) /\
    (exists n, In (Array n) e /\ (M < n)%N) /\ (exists M', In (Recurse M') e /\ (M < M')%N).
Proof.
  exists 1, 1%N, 4%N, 1%N, C48_rnd, (fun st l => (st, l)), (seq 0 23), ([0;0;0; 1;1;1;1;1;1;1;1; 2;2;2;2;2;2;2;2;2;2;2;2; 0;1;2; 0;1;2;3;0;1;2;3]%N), 10%N.
  split; [|split; [reflexivity|]].
  - split; [lia|]. split; [lia|]. split; [lia|]. split; [exact C48_rnd_ok|]. intros; reflexivity.
  - exists 3. eexists _, _, _. split; [vm_compute; reflexivity|]. split; [exists 12%N|exists 12%N]; (split; [cbn; tauto|lia]).
Qed.
Example C64_ex : exists st v, random_shuffle nat 0 2 2 1 1 (list N) C48_rnd (fun st l => (st, rev l)) 1 [0; 1; 1; 0; 0; 1]%N [100; 1; 2; 3; 4; 5; 6; 200] 1 7 14 =
  Done (st, v, [Array 3; Array 3]%N).
Proof. eexists _, _. vm_compute. reflexivity. Qed.

Print Assumptions C48_permutation_partial.
Print Assumptions C48_safe.
Print Assumptions C48_returns.
Print Assumptions C48_endless_refuted.
Print Assumptions C48_empty_stuck.
Print Assumptions C48_empty_refuted.
Print Assumptions C48_page_refuted.
Print Assumptions C64_memory_partial.
Print Assumptions C64_memory_refuted.
