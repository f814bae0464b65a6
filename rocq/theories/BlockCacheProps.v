(** * C87-C90: the block cache of the external hash map *)
From Coq Require Import Arith Bool List Lia Permutation.
From Verif Require Import BlockCacheModel BlockCacheSpec BlockCacheMach BlockCacheOps
  BlockCacheStat BlockCacheFifo.
Import ListNotations.

(** ** C87: the cache is transparent *)

(** Full statement: for every device, every order of service and every program
    of a client that keeps to the rules, every call is defined and has the
    specified result.  Missing here: devices that do not serve requests for one
    block in the order of submission, see the refutation below. *)
Theorem C87_block_cache_partial {V : Type} (csize wsize nsub : nat)
  (iter : list (nat * nat) -> list (nat * nat)) (junk d0 : nat -> list V)
  (oracle : list (list nat)) (p : list (op V)) :
  0 < csize -> 0 < wsize -> (forall l, Permutation (iter l) l) ->
  (forall b, length (junk b) = nsub) -> (forall b, length (d0 b) = nsub) ->
  conforms csize nsub sp_next (m_step true csize wsize iter)
           (m_init csize wsize junk d0 oracle) (s_init d0) p.
Proof. intros C W I J D. exact (cache_conforms csize wsize nsub iter I C W junk d0 oracle p J D). Qed.

Definition junk0 (b : nat) : list nat := [100 + b; 200 + b].
Definition disk0 (b : nat) : list nat := [10 * b; 10 * b + 1].

(** two slots, one place in the write buffer: write, evict, prefetch, retain,
    read back, flush, clear, direct write, destroy *)
Definition prog0 : list (op nat) :=
  [ OGet 0 0 1; ODirty 0; OStore 0 7; OLoad 0; OGet 1 1 0; OGet 2 2 0; OPrefetch 0;
    ORetain 0; OGet 3 0 1; OLoad 3; ODirty 1; OGet 4 3 1; OLoad 4; ORelease 0; ORelease 0;
    ODirty 3; OStore 4 5; OGet 5 3 0; OLoad 5; OFlush; OClear; OExt 4 [8; 9]; OGet 0 4 0;
    OLoad 0; OGet 1 3 1; OLoad 1; ODirty 4; OStore 0 6; ODestroy ].

Definition shown (r : res nat) : res nat + list (list nat) :=
  match r with RDisk d => inr (map d (seq 0 5)) | r => inl r end.

Example C87_block_cache_example :
  option_map (fun x => map shown (fst x))
    (m_run true 2 1 (fun l => rev l) prog0
       (m_init 2 1 junk0 disk0 [[]; [0]; []; [3; 2]; [5]])) =
  Some (map (@inl _ _)
         [ ROk; RBool true; ROk; RVal 7; ROk; ROk; ROk; RBool true; ROk; RVal 7;
           RBool false; ROk; RVal 31; RBool true; RBool false; RBool true; ROk; ROk; RVal 30 ] ++
        [ inr [[0; 7]; [10; 11]; [20; 21]; [30; 5]; [40; 41]] ] ++
        map (@inl _ _)
         [ ROk; ROk; ROk; RVal 8; ROk; RVal 5; RBool true; ROk ] ++
        [ inr [[0; 7]; [10; 11]; [20; 21]; [30; 5]; [6; 9]] ]).
Proof. vm_compute. reflexivity. Qed.

(** an exception: both slots are retained *)
Example C87_throw_example :
  option_map fst
    (m_run true 2 1 (fun l => l) [OGet 0 0 0; ORetain 0; OGet 1 1 0; ORetain 1; OGet 2 2 0; OLoad 1]
       (m_init 2 1 junk0 disk0 [])) =
  Some [ROk; RBool true; ROk; RBool true; RThrow; RVal 10].
Proof. vm_compute. reflexivity. Qed.

(** refutation for the device as it is: get_subblock reads from disk while the
    write of the same block, evicted a moment ago, is still pending *)
Definition prog1 : list (op nat) :=
  [OGet 0 0 0; ODirty 0; OStore 0 7; OGet 1 1 0; OGet 2 0 0; OLoad 2].

(** the calls keep to the rules; the results are as specified *)
Fixpoint legal_run {V} (nsub : nat) next (s : sst V) (p : list (op V)) (rs : list (res V)) : Prop :=
  match p, rs with
  | o :: p', r :: rs' => legal nsub s o /\ legal_run nsub next (next s o r) p' rs'
  | [], [] => True
  | _, _ => False
  end.

Fixpoint ok_run {V} (csize : nat) next (s : sst V) (p : list (op V)) (rs : list (res V)) : Prop :=
  match p, rs with
  | o :: p', r :: rs' => sp_ok csize s o r /\ ok_run csize next (next s o r) p' rs'
  | [], [] => True
  | _, _ => False
  end.

Lemma conforms_run {V} t csize wsize iter nsub next (p : list (op V)) : forall m s rs m',
  conforms csize nsub next (m_step t csize wsize iter) m s p ->
  m_run t csize wsize iter p m = Some (rs, m') ->
  legal_run nsub next s p rs -> ok_run csize next s p rs.
Proof.
  induction p as [|o p IH]; intros m s rs m'; cbn [conforms m_run].
  - intros _ [= <- <-]. auto.
  - intros C. destruct (m_step t csize wsize iter o m) as [[r m1]|] eqn:E; [|discriminate].
    destruct (m_run t csize wsize iter p m1) as [[rs1 m2]|] eqn:E2; [|discriminate].
    intros [= <- <-]. cbn [legal_run ok_run]. intros [L1 L2].
    destruct (C L1) as (r' & m1' & X & K & C'). inversion X; subst. split; auto.
    exact (IH _ _ _ _ C' E2 L2).
Qed.

Lemma refute {V} t csize wsize iter nsub next (p : list (op V)) m s rs :
  option_map fst (m_run t csize wsize iter p m) = Some rs ->
  legal_run nsub next s p rs -> ~ ok_run csize next s p rs ->
  ~ conforms csize nsub next (m_step t csize wsize iter) m s p.
Proof.
  intros E L N C. destruct (m_run t csize wsize iter p m) as [[rs' m']|] eqn:R; [|discriminate].
  inversion E; subst. apply N. eapply conforms_run; eauto.
Qed.

Theorem C87_block_cache_refuted :
  exists (csize wsize nsub : nat) (junk d0 : nat -> list nat) (p : list (op nat)),
    0 < csize /\ 0 < wsize /\ (forall b, length (junk b) = nsub) /\
    (forall b, length (d0 b) = nsub) /\
    ~ conforms csize nsub sp_next (m_step false csize wsize (fun l => l))
        (m_init csize wsize junk d0 []) (s_init d0) p.
Proof.
  exists 1, 2, 2, junk0, disk0, prog1.
  split; [lia|]. split; [lia|]. split; [reflexivity|]. split; [reflexivity|].
  apply (refute _ _ _ _ _ _ _ _ _ [ROk; RBool true; ROk; ROk; ROk; RVal 0]).
  - vm_compute. reflexivity.
  - cbn. repeat split; try lia; try discriminate. exists 0, 0. auto.
  - cbn. intros (_ & _ & _ & _ & _ & (v & E & H) & _). inversion E; subst.
    specialize (H 0 0 [7; 1] eq_refl eq_refl). discriminate.
Qed.

(** ** C88: a flushed cache can be used *)

(** Full statement: flush writes all dirty blocks to disk, and the blocks in the
    cache stay usable, pointers to them stay good.  The exchange of buffers with
    the write buffer leaves a slot with a strange buffer that counts as valid. *)
Theorem C88_flush_usable_refuted :
  exists (csize wsize nsub : nat) (junk d0 : nat -> list nat) (p : list (op nat)),
    0 < csize /\ 0 < wsize /\ (forall b, length (junk b) = nsub) /\
    (forall b, length (d0 b) = nsub) /\
    ~ conforms csize nsub sp_next_usable (m_step true csize wsize (fun l => l))
        (m_init csize wsize junk d0 []) (s_init d0) p.
Proof.
  exists 2, 1, 2, junk0, disk0,
    [OGet 0 0 0; ODirty 0; OStore 0 7; OLoad 0; OFlush; OGet 1 0 0; OLoad 1].
  split; [lia|]. split; [lia|]. split; [reflexivity|]. split; [reflexivity|].
  destruct (m_run true 2 1 (fun l => l)
             [OGet 0 0 0; ODirty 0; OStore 0 7; OLoad 0; OFlush] (m_init 2 1 junk0 disk0 []))
    as [[rs m]|] eqn:E; [|vm_compute in E; discriminate].
  eapply (refute _ _ _ _ _ _ _ _ _ [ROk; RBool true; ROk; RVal 7; RDisk _; ROk; RVal 102]).
  - vm_compute. reflexivity.
  - cbn. repeat split; try lia; try discriminate. exists 0, 0. auto.
  - cbn. intros (_ & _ & _ & _ & _ & _ & (v & X & H) & _). inversion X; subst.
    specialize (H 0 0 [7; 1] eq_refl eq_refl). discriminate.
Qed.

(** The true part: flush writes everything to disk; after flush and clear every
    block has the content it had.  This is how [hash_map::clear] uses it.
    Missing: use of the blocks between flush and clear. *)
Theorem C88_flush_clear_partial {V : Type} (csize wsize nsub : nat)
  (iter : list (nat * nat) -> list (nat * nat)) (junk d0 : nat -> list V)
  (oracle : list (list nat)) (p : list (op V)) (s : sst V) rs m b k r :
  0 < csize -> 0 < wsize -> (forall l, Permutation (iter l) l) ->
  (forall b, length (junk b) = nsub) -> (forall b, length (d0 b) = nsub) ->
  m_run true csize wsize iter p (m_init csize wsize junk d0 oracle) = Some (rs, m) ->
  legal_run nsub sp_next (s_init d0) p rs ->
  s = fold_left (fun s x => sp_next s (fst x) (snd x)) (combine p rs) (s_init d0) ->
  dead s = false -> k < nsub ->
  exists d v m', m_run true csize wsize iter [OFlush; OClear; OGet r b k; OLoad r] m =
                 Some ([RDisk d; ROk; ROk; RVal v], m') /\
    (forall x blk, lg s x = Some blk -> d x = blk) /\
    (forall blk, lg s b = Some blk -> nth_error blk k = Some v).
Proof.
  intros C W I J D R L -> A B.
  pose proof (C87_block_cache_partial csize wsize nsub iter junk d0 oracle
                (p ++ [OFlush; OClear; OGet r b k; OLoad r]) C W I J D) as H.
  set (s0 := s_init d0) in *. set (m0 := m_init csize wsize junk d0 oracle) in *.
  clearbody s0 m0. revert s0 m0 rs R L A H.
  induction p as [|o p IH]; intros s0 m0 rs; cbn [m_run app].
  - intros [= <- <-]. cbn [combine fold_left]. intros _ A H.
    cbn [conforms] in H.
    destruct H as (r1 & m1 & E1 & (d & -> & K1) & H); [split; [exact A|exact Logic.I]|].
    destruct H as (r2 & m2 & E2 & K2 & H); [split; [exact A|exact Logic.I]|].
    cbn [sp_ok] in K2. subst r2.
    destruct H as (r3 & m3 & E3 & K3 & H).
    { split; [exact A|]. cbn. split; auto. }
    cbn [sp_ok] in K3. destruct K3 as [->|(_ & K3)].
    2:{ exfalso. destruct K3 as (_ & l & _ & LN & HL). destruct l as [|x l]; [cbn in LN; lia|].
        specialize (HL x (or_introl eq_refl)). cbn in HL. lia. }
    destruct H as (r4 & m4 & E4 & (v & -> & K4) & _).
    { split; [exact A|]. cbn. unfold set. now rewrite Nat.eqb_refl. }
    exists d, v, m4. cbn [m_run]. rewrite E1, E2, E3, E4. split; auto. split; auto.
    intros blk LB. apply (K4 b k blk).
    + cbn. unfold set. now rewrite Nat.eqb_refl.
    + cbn. auto.
  - destruct (m_step true csize wsize iter o m0) as [[r1 m1]|] eqn:E; [|discriminate].
    destruct (m_run true csize wsize iter p m1) as [[rs1 m2]|] eqn:E2; [|discriminate].
    intros [= <- <-]. cbn [legal_run combine fold_left fst snd]. intros [L1 L2] A H.
    cbn [conforms] in H. destruct (H L1) as (r' & m' & X & K & C'). rewrite E in X.
    inversion X; subst. exact (IH _ _ _ E2 L2 A C').
Qed.

Example C88_flush_clear_example :
  option_map (fun x => map shown (fst x))
    (m_run true 2 1 (fun l => l)
       [OGet 0 0 0; ODirty 0; OStore 0 7; OFlush; OClear; OGet 1 0 0; OLoad 1]
       (m_init 2 1 junk0 disk0 [])) =
  Some [inl ROk; inl (RBool true); inl ROk;
        inr [[7; 1]; [10; 11]; [20; 21]; [30; 31]; [40; 41]]; inl ROk; inl ROk; inl (RVal 7)].
Proof. vm_compute. reflexivity. Qed.

(** ** C89: statistics *)

(** number of calls of get_subblock *)
Definition gets {V} (p : list (op V)) : nat :=
  length (filter (fun o => match o with OGet _ _ _ => true | _ => false end) p).

(** every call of get_subblock is counted once as a read and once as found or
    not found; on any device, whatever the client does *)
Theorem C89_statistics {V : Type} (ordered : bool) (csize wsize : nat)
  (iter : list (nat * nat) -> list (nat * nat)) (junk d0 : nat -> list V)
  (oracle : list (list nat)) (p : list (op V)) rs m :
  m_run ordered csize wsize iter p (m_init csize wsize junk d0 oracle) = Some (rs, m) ->
  let t := st (mc m) in
  n_read t = gets p /\ n_found t + n_not_found t = gets p /\ n_wrong t <= n_not_found t.
Proof.
  intros R t. exact (run_stat ordered csize wsize iter p _ _ _ 0 R
    (conj eq_refl (conj eq_refl (le_n 0)))).
Qed.

Example C89_statistics_example :
  option_map (fun x => st (mc (snd x)))
    (m_run true 2 1 (fun l => l) prog0 (m_init 2 1 junk0 disk0 [])) =
  Some (mkStats 2 6 8 1 2 0).
Proof. vm_compute. reflexivity. Qed.

(** Full statement: swap exchanges two caches with their statistics. *)
Theorem C89_swap_statistics_refuted :
  exists (a b : cache), fst (swap_caches a b) <> b /\ snd (swap_caches a b) <> a /\
    n_not_found (st (fst (swap_caches a b))) = n_found (st a) /\
    n_found (st (snd (swap_caches a b))) = n_not_found (st a).
Proof.
  exists (set_st (c_init 2 1) (mkStats 1 2 3 0 0 0)), (set_st (c_init 2 1) (mkStats 4 5 9 0 0 0)).
  vm_compute. repeat split; intros H; discriminate.
Qed.

(** what swap does: all other members and counters are exchanged; the result is
    the exchange iff three of the four counters found / not found agree *)
Theorem C89_swap_partial (a b : cache) :
  let (a', b') := swap_caches a b in
  a' = set_st b (mkStats (n_found (st b)) (n_found (st a)) (n_read (st b)) (n_written (st b))
                         (n_clean_forced (st b)) (n_wrong (st b))) /\
  b' = set_st a (mkStats (n_not_found (st a)) (n_not_found (st b)) (n_read (st a)) (n_written (st a))
                         (n_clean_forced (st a)) (n_wrong (st a))) /\
  (a' = b /\ b' = a <->
   n_not_found (st b) = n_found (st a) /\ n_not_found (st a) = n_found (st a)).
Proof.
  unfold swap_caches, swap_stats. split; [reflexivity|]. split; [reflexivity|].
  destruct a as [? ? ? ? ? ? ? ? ? ? [? ? ? ? ? ?]], b as [? ? ? ? ? ? ? ? ? ? [? ? ? ? ? ?]].
  cbn. split.
  - intros [H1 H2]. inversion H1; inversion H2; subst. auto.
  - intros [-> ->]. auto.
Qed.

(** ** C90: order of replacement *)

(** Full statement: the cache with the pager for least recently used blocks
    finds as many blocks as a cache that throws out the least recently used. *)
Theorem C90_lru_refuted :
  exists (csize : nat) (bs : list nat) rs (m : mach nat),
    m_run true csize 1 (fun l => l) (map (fun b => OGet 0 b 0) bs)
      (m_init csize 1 junk0 disk0 []) = Some (rs, m) /\
    n_found (st (mc m)) < hits (lru_step csize) [] bs.
Proof.
  exists 2, [0; 1; 0; 2; 0].
  destruct (m_run true 2 1 (fun l => l) (map (fun b => OGet 0 b 0) [0; 1; 0; 2; 0])
              (m_init 2 1 junk0 disk0 [])) as [[rs m]|] eqn:E; [|vm_compute in E; discriminate].
  exists rs, m. split; [reflexivity|].
  assert (X : option_map (fun x => n_found (st (mc (snd x)))) (Some (rs, m)) = Some 1).
  { rewrite <- E. vm_compute. reflexivity. }
  cbn in X. injection X as ->. vm_compute. lia.
Qed.

(** What it is instead: first in, first out. *)
Theorem C90_fifo_partial {V : Type} (ordered : bool) (csize wsize : nat)
  (iter : list (nat * nat) -> list (nat * nat)) (junk d0 : nat -> list V)
  (oracle : list (list nat)) (sub : nat -> nat) (bs : list nat) rs m :
  0 < csize ->
  m_run ordered csize wsize iter (map (fun b => OGet 0 b (sub b)) bs)
    (m_init csize wsize junk d0 oracle) = Some (rs, m) ->
  n_found (st (mc m)) = hits (fifo_step csize) [] bs.
Proof.
  intros C R.
  exact (FI_run ordered csize wsize iter sub C bs _ _ _ _ _ _ _ _ (FI_init csize wsize sub) R).
Qed.

Example C90_fifo_example :
  option_map (fun x => n_found (st (mc (snd x))))
    (m_run true 2 1 (fun l => l) (map (fun b => OGet 0 b 0) [0; 1; 0; 2; 0; 2; 0; 1])
      (m_init 2 1 junk0 disk0 [])) = Some 3 /\
  hits (fifo_step 2) [] [0; 1; 0; 2; 0; 2; 0; 1] = 3.
Proof. vm_compute. auto. Qed.

(** With retained blocks: of the blocks that are not retained the one that was
    loaded longest ago is thrown out; those that were passed are younger than
    all others afterwards, in unchanged order. *)
Theorem C90_victim_partial (ret : nat -> nat) (n : nat) (p : list nat) i p' :
  NoDup p -> n <= length p -> victim n ret p = Some (Some i, p') ->
  exists p1 p2, p = p1 ++ i :: p2 /\ ret i = 0 /\ (forall j, In j p2 -> 0 < ret j) /\
    p' = i :: p2 ++ p1.
Proof.
  intros ND L H. apply (victim_order_gen ret n p [] i p'); auto. easy.
Qed.

Example C90_victim_example :
  victim 4 (fun i => if Nat.eqb i 2 then 1 else 0) [3; 0; 1; 2] = Some (Some 1, [1; 2; 3; 0]).
Proof. reflexivity. Qed.

Print Assumptions C87_block_cache_partial.
Print Assumptions C87_block_cache_refuted.
Print Assumptions C88_flush_usable_refuted.
Print Assumptions C88_flush_clear_partial.
Print Assumptions C89_statistics.
Print Assumptions C89_swap_statistics_refuted.
Print Assumptions C89_swap_partial.
Print Assumptions C90_lru_refuted.
Print Assumptions C90_fifo_partial.
Print Assumptions C90_victim_partial.
