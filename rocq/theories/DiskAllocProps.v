(** C01-C06: space management of one disk. *)
From Coq Require Import ZArith List Bool Lia.
From Verif Require Import DiskAllocModel DiskAllocSpec DiskAllocProofs.
Import ListNotations.
Local Open Scope Z_scope.

(** C01: in every reachable state (any interleaving of locked sections of
    allocating and freeing threads) live blocks are pairwise disjoint and lie
    inside the disk file; the disk is partitioned into free and live ranges. *)
Theorem C01_live_blocks_disjoint : forall cfg grow a live, 0 <= cfg -> reachable cfg grow (a, live) ->
  pairwise_disjoint live /\
  (forall r, In r live -> inside r (get_total_bytes a)) /\
  partition_of_disk (get_total_bytes a) (free_space a) live.
Proof. exact C01_main. Qed.

(** C01: a served request gets one range per block, consecutive, disjoint from
    every live block. *)
Theorem C01_new_blocks_fresh : forall cfg grow a live bs sizes a' o, 0 <= cfg -> reachable cfg grow (a, live) ->
  0 < bs -> Forall (fun z => 0 < z) sizes -> alloc_section bs sizes a = SDone a' o ->
  length o = length sizes /\
  (forall r s, In r live -> In s (combine o sizes) -> ~ overlap r s) /\
  pairwise_disjoint (combine o sizes) /\
  (forall r, In r (combine o sizes) -> inside r (get_total_bytes a')).
Proof. exact C01_fresh. Qed.

(** the configured disk always comes up, completely free *)
Theorem C02_initial_disk : forall cfg grow, 0 <= cfg -> exists a, make_alloc cfg grow = Some a /\
  get_total_bytes a = cfg /\ get_free_bytes a = cfg /\ get_used_bytes a = 0.
Proof. exact C02_init. Qed.

Theorem C02_space_accounting_exact : forall cfg grow a live, 0 <= cfg -> reachable cfg grow (a, live) ->
  get_free_bytes a = bytes_of (free_space a) /\
  get_free_bytes a + bytes_of live = get_total_bytes a /\
  get_used_bytes a = bytes_of live /\ 0 <= get_free_bytes a.
Proof. exact C02_main. Qed.

(** C03: exactly the frees that touch free bytes are refused; live blocks are
    always accepted. A refused free ([None]) changes nothing. *)
Theorem C03_double_free_detected : forall cfg grow a live, 0 <= cfg -> reachable cfg grow (a, live) ->
  (forall p n f, 0 < n -> In f (free_space a) -> overlap f (p, n) -> delete_block a (p, n) = None) /\
  (forall p n, 0 < n -> (forall f, In f (free_space a) -> ~ overlap f (p, n)) -> delete_block a (p, n) <> None) /\
  (forall r, In r live -> delete_block a r <> None) /\
  (forall r a', In r live -> delete_block a r = Some a' -> delete_block a' r = None).
Proof. exact C03_main. Qed.

(** C04: the free list is the list of maximal free ranges, and a request that
    fits into some contiguous unused range is served without growing. *)
Theorem C04_free_list_coalesced : forall cfg grow a live, 0 <= cfg -> reachable cfg grow (a, live) ->
  maximal_ranges (-1) (free_space a) /\
  (forall bs sizes p, 0 < bs -> Forall (fun z => 0 < z) sizes -> sizes <> [] ->
     inside (p, sum sizes) (get_total_bytes a) ->
     (forall r, In r live -> ~ overlap r (p, sum sizes)) ->
     exists a' o, alloc_section bs sizes a = SDone a' o /\ get_total_bytes a' = get_total_bytes a).
Proof. exact C04_main. Qed.

(** C05 is false of the code: with autogrow off a fragmented disk is enlarged. *)
Theorem C05_fixed_size_refuted : exists cfg a live bs a' o,
  reachable cfg false (a, live) /\ 0 < bs /\
  alloc_section bs [bs] a = SDone a' o /\ get_total_bytes a' > cfg.
Proof. exact C05_refuted. Qed.

(** what holds: the only growth of a fixed-size disk is by one block, for a
    one-block request, when enough bytes are free but every free range is too
    short (all other outcomes keep the size; refusal changes nothing) *)
Theorem C05_fixed_size_growth_partial : forall cfg a live bs sizes, 0 <= cfg -> reachable cfg false (a, live) ->
  0 < bs -> Forall (fun z => 0 < z) sizes ->
  match alloc_section bs sizes a with
  | SThrow a' => a' = a /\ get_free_bytes a < sum sizes
  | SSplit a' => a' = a /\ sum sizes <> bs /\ sum sizes <= get_free_bytes a /\
                 (forall r, In r (free_space a) -> snd r < sum sizes)
  | SDone a' _ =>
      get_total_bytes a' = get_total_bytes a \/
      (get_total_bytes a' = get_total_bytes a + bs /\ sum sizes = bs /\ bs <= get_free_bytes a /\
       forall r, In r (free_space a) -> snd r < bs)
  end.
Proof. exact C05_growth. Qed.

(** what holds: with a single block size that divides the configured size, the
    disk never grows *)
Theorem C05_uniform_blocks_never_grow_partial : forall B cfg es a0, 0 < B -> 0 <= cfg -> (B | cfg) ->
  make_alloc cfg false = Some a0 -> legal (a0, []) es ->
  Forall (fun e => match e with EAlloc bs sizes => bs = B /\ Forall (eq B) sizes | EFree _ => True end) es ->
  get_total_bytes (fst (run (a0, []) es)) = cfg.
Proof. exact uniform_fixed. Qed.

(** C06: a call that is not interleaved with others succeeds whenever enough
    bytes are free (or the disk may grow), however fragmented the disk is, and
    otherwise throws leaving the allocator exactly as it was. *)
Theorem C06_allocation_all_or_nothing : forall cfg grow a live bs n fuel, 0 <= cfg -> reachable cfg grow (a, live) ->
  0 < bs -> (1 <= n <= fuel)%nat ->
  (Z.of_nat n * bs <= get_free_bytes a \/ autogrow a = true ->
    exists a' o, new_blocks fuel bs (repeat bs n) a = Done a' o /\ length o = n /\
      pairwise_disjoint (live ++ combine o (repeat bs n)) /\
      (forall r, In r (combine o (repeat bs n)) -> inside r (get_total_bytes a')) /\
      get_used_bytes a' = get_used_bytes a + Z.of_nat n * bs) /\
  (get_free_bytes a < Z.of_nat n * bs -> autogrow a = false ->
    new_blocks fuel bs (repeat bs n) a = Throw a).
Proof. exact C06_main. Qed.

(** C06 fails with other threads in between: a call can throw after having
    taken blocks that nobody will ever free. *)
Theorem C06_concurrent_failure_leaks_refuted : exists cfg a live,
  reachable cfg false (a, live) /\
  exists t1 t2 t3 a1 a2 a3 a4 o,
    thread_step 1 (start_call [1; 1]) a = (t1, a1) /\
    alloc_section 1 [1] a1 = SDone a2 o /\
    thread_step 1 t1 a2 = (t2, a3) /\
    thread_step 1 t2 a3 = (t3, a4) /\
    failed t3 = true /\ got t3 <> [] /\
    get_used_bytes a4 = bytes_of live + 1 + bytes_of (got t3).
Proof. exact C06_leak. Qed.

(** a history with splitting, coalescing on both sides and a double free *)
Definition ex_history : list event :=
  [EAlloc 4 [4; 4; 4]; EFree (0, 4); EAlloc 2 [2]; EFree (8, 4); EFree (0, 2); EFree (0, 2); EFree (4, 4)].
Example C01_ex : forall a0, make_alloc 16 false = Some a0 ->
  legal (a0, []) ex_history /\ run (a0, []) (firstn 3 ex_history) =
    (mk_alloc [(2, 2); (12, 4)] 6 16 16 false, [(4, 4); (8, 4); (0, 2)]) /\
  run (a0, []) ex_history = (mk_alloc [(0, 16)] 16 16 16 false, []).
Proof.
  intros a0 E. injection E as <-. split; [|split; vm_compute; reflexivity].
  split; [split; [lia|repeat constructor; lia]|].
  split; [left; cbn; auto|].
  split; [split; [lia|repeat constructor; lia]|].
  split; [left; cbn; auto|]. split; [left; cbn; auto|].
  split; [right; split; [cbn; lia|]; exists (0, 4); cbn; split; [auto|exists 0; unfold contains; cbn; lia]|].
  split; [left; cbn; auto|]. exact I.
Qed.

Print Assumptions C01_live_blocks_disjoint.
Print Assumptions C01_new_blocks_fresh.
Print Assumptions C02_initial_disk.
Print Assumptions C02_space_accounting_exact.
Print Assumptions C03_double_free_detected.
Print Assumptions C04_free_list_coalesced.
Print Assumptions C05_fixed_size_refuted.
Print Assumptions C05_fixed_size_growth_partial.
Print Assumptions C05_uniform_blocks_never_grow_partial.
Print Assumptions C06_allocation_all_or_nothing.
Print Assumptions C06_concurrent_failure_leaks_refuted.
