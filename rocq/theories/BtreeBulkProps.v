(** Property C77: constructing a map from a sorted range (BtreeBulkModel.v) is the same as inserting its
    elements one after the other; whatever program follows sees the sorted map of BtreeSpec.v. *)
From Coq Require Import List Bool Arith Lia Sorting.Sorted.
From Verif Require Import OrderLib BtreeModel BtreeSpec BtreeBase BtreeLeaf BtreeTree BtreeRoot BtreeIter BtreeProofs BtreeProps
  BtreeBulkModel BtreeBulkProofs.
Import ListNotations.

Lemma fill_ok m n d : 0 < d -> d <= 2 * n -> n <= d -> m / 2 <= m * n / d <= m.
Proof.
  intros H0 H1 H2. split.
  - apply Nat.div_le_lower_bound; [lia|]. pose proof (Nat.mul_div_le m 2 ltac:(lia)) as X.
    assert (d * (m / 2) <= 2 * n * (m / 2)) by (apply Nat.mul_le_mono_r; lia).
    assert (n * (2 * (m / 2)) <= n * m) by (apply Nat.mul_le_mono_l; lia). lia.
  - apply Nat.div_le_upper_bound; [lia|]. rewrite Nat.mul_comm. now apply Nat.mul_le_mono_r.
Qed.

(** C77: the range is sorted, maybe with several elements of equal keys, and all keys are below [kmax];
    the fill factors [lf] and [nf] are between 1/2 and 1.  Then the construction succeeds, and every
    program which could follow the insertion of the range gives the same results. *)
Theorem C77_bulk : forall {K V : Type} (cmp keqb : K -> K -> bool) (kmax : K) (vdef : V) (lmax nmax ncap : nat) (alloc : list (nat * leaf) -> nat),
  strict_weak cmp ->
  (forall a b, keqb a b = negb (cmp a b || cmp b a)) ->
  (forall s b l, In (b, l) s -> b <> alloc s) ->
  4 <= lmax -> 4 <= nmax ->
  forall lf nf, 0 < snd lf -> snd lf <= 2 * fst lf -> fst lf <= snd lf -> 0 < snd nf -> snd nf <= 2 * fst nf -> fst nf <= snd nf ->
  forall l, StronglySorted (fun a b => cmp (fst b) (fst a) = false) l -> (forall x, In x l -> cmp (fst x) kmax = true) ->
  forall os s' rs, srun cmp kmax vdef (limit lmax nmax ncap) sempty (OInsertRange l :: os) = Some (s', RUnit :: rs) ->
  exists c c', bulk_construction cmp kmax lmax nmax ncap alloc lf nf l = Some c
    /\ run cmp keqb kmax vdef lmax nmax ncap alloc c os = Some (c', rs).
Proof.
  intros K V cmp keqb kmax vdef lmax nmax ncap alloc H1 H2 H3 H4 H5 lf nf F1 F2 F3 F4 F5 F6 l HS HM os s' rs Hs.
  assert (H3' : forall s, lget s (alloc s) = None) by (apply fresh_get, H3).
  change (limit lmax nmax ncap) with (cap lmax nmax ncap) in Hs. cbn [srun sstep] in Hs.
  destruct (s_add_all cmp kmax (cap lmax nmax ncap) sempty l) as [s1|] eqn:E1; [|easy]. cbn [fst snd] in Hs.
  destruct (srun cmp kmax vdef (cap lmax nmax ncap) s1 os) as [[s2 r2]|] eqn:E2; [|easy]. injection Hs as <- <-.
  destruct (bulk_ok cmp kmax lmax nmax ncap alloc _ _ H1 H3' H4 H5 (fill_ok lmax _ _ F1 F2 F3) (fill_ok nmax _ _ F4 F5 F6) l s1 HS HM E1)
    as (c & Ec & HR).
  destruct (run_Rel cmp keqb kmax vdef lmax nmax ncap alloc H1 H2 H3' H4 H5 os c s1 s2 r2 HR E2) as (c' & Er & _).
  exists c, c'. split; [|exact Er]. unfold bulk_construction.
  apply Nat.leb_le in F2 as ->. apply Nat.leb_le in F5 as ->. exact Ec.
Qed.

(** The same, compared with a tree into which the range is inserted. *)
Theorem C77_same_as_insert : forall {K V : Type} (cmp keqb : K -> K -> bool) (kmax : K) (vdef : V) (lmax nmax ncap : nat) (alloc : list (nat * leaf) -> nat),
  strict_weak cmp ->
  (forall a b, keqb a b = negb (cmp a b || cmp b a)) ->
  (forall s b l, In (b, l) s -> b <> alloc s) ->
  4 <= lmax -> 4 <= nmax ->
  forall lf nf, 0 < snd lf -> snd lf <= 2 * fst lf -> fst lf <= snd lf -> 0 < snd nf -> snd nf <= 2 * fst nf -> fst nf <= snd nf ->
  forall l, StronglySorted (fun a b => cmp (fst b) (fst a) = false) l -> (forall x, In x l -> cmp (fst x) kmax = true) ->
  forall os s' rs, srun cmp kmax vdef (limit lmax nmax ncap) sempty (OInsertRange l :: os) = Some (s', RUnit :: rs) ->
  exists c c1 c2, bulk_construction cmp kmax lmax nmax ncap alloc lf nf l = Some c
    /\ run cmp keqb kmax vdef lmax nmax ncap alloc c os = Some (c1, rs)
    /\ run cmp keqb kmax vdef lmax nmax ncap alloc (empty kmax alloc) (OInsertRange l :: os) = Some (c2, RUnit :: rs).
Proof.
  intros. destruct (C77_bulk cmp keqb kmax vdef lmax nmax ncap alloc H H0 H1 H2 H3 lf nf H4 H5 H6 H7 H8 H9 l H10 H11 os s' rs H12) as (c & c1 & Q1 & Q2).
  destruct (C39_map cmp keqb kmax vdef lmax nmax ncap alloc H H0 H1 H2 H3 (OInsertRange l :: os) s' (RUnit :: rs) H12) as (c2 & Q3).
  exists c, c1, c2. auto.
Qed.

(** A range with equal keys, three levels of nodes, and programs using them. *)
Definition ex_range : list (nat * nat) := flat_map (fun i => [(2 * i, i); (2 * i, 7)]) (seq 0 33).
Definition ex_after : list (@op nat nat) :=
  [OFind 10; OGet 0; OInc 0; OGet 0; OErase 14; OInsert 17 1; OLower 13; OGet 2; OSize; OIndex 64; OEraseRange 0 1].
Example C77_example :
  exists c c' s' rs, bulk_construction Nat.ltb 100 4 4 5 ex_alloc (3, 5) (3, 4) ex_range = Some c
    /\ ht c = 2 /\ length (root c) = 2 /\ sz c = 33
    /\ srun Nat.ltb 100 0 (limit 4 4 5) sempty (OInsertRange ex_range :: ex_after) = Some (s', RUnit :: rs)
    /\ run Nat.ltb Nat.eqb 100 0 4 4 5 ex_alloc c ex_after = Some (c', rs) /\ length rs = 11 /\ length (sm s') = 31.
Proof. eexists _, _, _, _. repeat (split; [vm_compute; reflexivity|]). vm_compute. reflexivity. Qed.
Example C77_example_sorted : StronglySorted (fun a b => Nat.ltb (fst b) (fst a) = false) ex_range /\ (forall x, In x ex_range -> Nat.ltb (fst x) 100 = true).
Proof.
  split.
  - vm_compute. repeat (constructor; [|repeat (constructor; [reflexivity|]); constructor]). constructor.
  - apply Forall_forall. vm_compute. repeat constructor.
Qed.

(** map.h 191-192 and 213-214 document fill factors "in [0,1]"; below one half the construction fails, even
    for an empty range. *)
Theorem C77_fill_factor_refuted : exists lf nf : nat * nat,
  0 < snd lf /\ fst lf <= snd lf /\ 0 < snd nf /\ fst nf <= snd nf
  /\ exists (rs : list (@res nat nat)) s', srun Nat.ltb 100 0 (limit 4 4 5) sempty [OInsertRange []; OSize] = Some (s', RUnit :: rs)
  /\ bulk_construction Nat.ltb 100 4 4 5 ex_alloc lf nf [] = None.
Proof. exists (1, 4), (3, 4). repeat (split; [cbn; lia|]). eexists _, _. split; reflexivity. Qed.

Print Assumptions C77_bulk.
Print Assumptions C77_same_as_insert.
Print Assumptions C77_fill_factor_refuted.
