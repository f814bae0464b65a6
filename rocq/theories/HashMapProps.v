(** C40: the external hash map behaves like a map. *)
From Coq Require Import List Bool Arith NArith Lia Permutation.
From Verif Require Import OrderLib HashMapModel HashMapSpec HashMapBase HashMapStream HashMapProofs HashMapIterModel HashMapIter HashMapBkt.
Import ListNotations.

(** The order of the keys in the map: by hash value, then by the comparator. *)
Definition key_before {K} (hash : K -> N) (cmp : K -> K -> bool) (a b : K) : Prop :=
  (hash a < hash b)%N \/ hash a = hash b /\ cmp a b = true.

(** What the user has to provide: a strict weak order and an equality for the keys, a hash
    function for them that avoids the last 1024 values of uint64, nonempty subblocks.
    [fits] are the numbers of buckets that can be allocated. *)
Record hm_ok {K V : Type} (hash : K -> N) (cmp keqb : K -> K -> bool) (ss spb : nat)
    (maxb : N) (fits : N -> bool) (srt : list (K * V) -> list (K * V)) : Prop := {
  ho_cmp : strict_weak cmp;
  ho_hash : forall a b, cmp a b = false -> cmp b a = false -> hash a = hash b;
  ho_eqb : forall a b, keqb a b = negb (cmp a b) && negb (cmp b a);
  ho_ss : 0 < ss;
  ho_spb : 0 < spb;
  ho_maxb : (0 < maxb)%N;
  ho_range : forall k, (hash k < 2 ^ 64 - 2 ^ 10)%N;
  ho_fits : forall n, fits n = true -> (n < 2 ^ 53)%N;
  ho_srt : sorts (fun a b => (hash (fst a) <? hash (fst b))%N || (hash (fst a) =? hash (fst b))%N && cmp (fst a) (fst b)) srt }.

Lemma hm_params {K V} hash cmp keqb ss spb maxb fits (srt : list (K * V) -> list (K * V)) :
  hm_ok hash cmp keqb ss spb maxb fits srt -> params_ok hash cmp keqb ss spb bkt64 maxb fits srt.
Proof.
  intro H. destruct H as [H1 H2 H3 H4 H5 H6 H7 H8 H9]. constructor; try assumption.
  - intros a b Q. unfold keq in Q. apply andb_true_iff in Q. destruct Q as (Q1 & Q2).
    apply H2; apply negb_true_iff; assumption.
  - intros k n P F. apply bkt64_lt; [apply H7|exact P|apply H8, F].
  - intros k k' n Q. apply bkt64_mono, Q.
Qed.
Lemma key_before_klt {K} (hash : K -> N) cmp a b : key_before hash cmp a b <-> klt hash cmp a b = true.
Proof.
  unfold key_before, klt. rewrite orb_true_iff, andb_true_iff, N.ltb_lt, N.eqb_eq. tauto.
Qed.

Lemma FOP_impl {A} (R S : A -> A -> Prop) l : (forall a b, R a b -> S a b) -> ForallOrdPairs R l -> ForallOrdPairs S l.
Proof.
  intros H. induction 1 as [|a l F O IH]; constructor; [|exact IH]. eapply Forall_impl; [|exact F]. intros b. apply H.
Qed.

Section C40.
  Context {K V L : Type}.
  Notation E := (K * V)%type.
  Variable hash : K -> N.
  Variable cmp : K -> K -> bool.
  Variable keqb : K -> K -> bool.
  Variable kdef : K.
  Variable edef : E.
  Variable vdef : V.
  Variable ss spb inc : nat.
  Variable nbuck : L -> N -> N.
  Variable lgt : L -> N -> nat -> bool.
  Variable maxb : N.
  Variable fits : N -> bool.
  Variable junk : nat -> nat -> E.
  Variable srt : list E -> list E.
  Notation run := (run hash cmp keqb edef vdef ss spb inc bkt64 nbuck lgt maxb fits junk srt).
  Notation traverse := (@traverse K V L hash cmp kdef ss spb).
  Notation cfind := (@cfind K V L hash cmp edef ss spb bkt64).
  Notation find_next := (@find_next K V L hash cmp ss spb).
  Notation value := (@value K V L hash cmp ss spb).
  Notation before := (key_before hash cmp).
  Hypothesis HO : hm_ok hash cmp keqb ss spb maxb fits srt.

  Lemma enum_of (c : @core K V L) m : HashMapProofs.wf hash cmp ss spb bkt64 fits (mem c) (bks c) ->
    (forall k, HashMapProofs.look hash cmp ss spb bkt64 (mem c) (bks c) k = m k) ->
    exists seq, enumerates (keq cmp) m seq /\ ForallOrdPairs (fun a b => before (fst a) (fst b)) seq
      /\ forall f, length seq <= f -> traverse f c = Some seq.
  Proof.
    intros W HL. pose proof (hm_params _ _ _ _ _ _ _ _ HO) as PO.
    destruct (traverse_ok hash cmp keqb kdef edef ss spb bkt64 maxb fits junk srt PO c W) as (seq & T1 & T2 & T3 & T4).
    exists seq. assert (T2' := T2). unfold asc in T2'. apply FOP_map in T2'. split; [|split; [|exact T1]].
    - split; [|split].
      + eapply FOP_impl; [|exact T2']. intros a b. apply (klt_neq hash cmp (po_hash _ _ _ _ _ _ _ _ _ PO)).
      + intros e He. rewrite <- HL. apply T3, He.
      + intros k Hk. apply T4. rewrite HL. exact Hk.
    - eapply FOP_impl; [|exact T2']. intros a b Q. apply key_before_klt, Q.
  Qed.

  (** Every history of operations gives the results of a map, and the loop over the map afterwards
      gives every value once, in the order of the keys; the restrictions on the history are [tames]:
      keys are looked up, erased and inserted obliviously in maps with at least one value,
      [erase_oblivious] and [operator\[\]] get keys of the map, [rehash] a number of buckets that can be
      allocated. *)
  Theorem C40_hash_map_partial cap n mx l os : fits (N.of_nat n) = true -> sizes_ok nbuck fits cap -> (weights os <= cap)%N ->
    tames cmp vdef fits true sempty os ->
    exists c' rs s' m' seq, run (init n mx l) os = Some (c', rs) /\ srun (keq cmp) vdef true sempty os rs s' m'
      /\ enumerates (keq cmp) m' seq /\ ForallOrdPairs (fun a b => before (fst a) (fst b)) seq
      /\ forall f, length seq <= f -> traverse f c' = Some seq.
  Proof.
    intros F SO HW T. pose proof (hm_params _ _ _ _ _ _ _ _ HO) as PO.
    destruct (refines_tame hash cmp keqb edef vdef ss spb inc bkt64 nbuck lgt maxb fits junk srt PO cap n mx l os F SO HW T)
      as (c' & rs & s' & m' & R1 & R2 & (W & HL & _)).
    destruct (enum_of c' m' W HL) as (seq & E1 & E2 & E3). exists c', rs, s', m', seq. tauto.
  Qed.

  (** The same when every operation finds buckets and every rebuild creates some: no restriction on [operator\[\]]
      and [erase_oblivious]; [size()] may be wrong after [operator\[\]] has created a value. *)
  Theorem C40_hash_map_safe n mx l os : fits (N.of_nat n) = true ->
    safes hash cmp keqb edef vdef ss spb inc bkt64 nbuck lgt maxb fits junk srt (init n mx l) os ->
    exists c' rs s' m' seq, run (init n mx l) os = Some (c', rs) /\ srun (keq cmp) vdef true sempty os rs s' m'
      /\ enumerates (keq cmp) m' seq /\ ForallOrdPairs (fun a b => before (fst a) (fst b)) seq
      /\ forall f, length seq <= f -> traverse f c' = Some seq.
  Proof.
    intros F SF. pose proof (hm_params _ _ _ _ _ _ _ _ HO) as PO.
    destruct (refines_safe hash cmp keqb edef vdef ss spb inc bkt64 nbuck lgt maxb fits junk srt PO n mx l os F SF)
      as (c' & rs & s' & m' & R1 & R2 & (W & HL & _)).
    destruct (enum_of c' m' W HL) as (seq & E1 & E2 & E3). exists c', rs, s', m', seq. tauto.
  Qed.

  (** [++] of an iterator obtained by [find] after any such history. *)
  Theorem C40_find_next cap n mx l os : fits (N.of_nat n) = true -> sizes_ok nbuck fits cap -> (weights os <= cap)%N ->
    tames cmp vdef fits true sempty os ->
    exists c' rs s' m', run (init n mx l) os = Some (c', rs) /\ srun (keq cmp) vdef true sempty os rs s' m'
      /\ forall k it, bks c' <> [] -> cfind c' k = Some (Some it) ->
           exists z x, find_next c' {| i_sp := it; i_rd := None |} = Some z
             /\ match z with Some it' => exists e, value c' it' = Some e /\ x = Some e | None => x = None end
             /\ next_after before m' k x.
  Proof.
    intros F SO HW T. pose proof (hm_params _ _ _ _ _ _ _ _ HO) as PO.
    destruct (refines_tame hash cmp keqb edef vdef ss spb inc bkt64 nbuck lgt maxb fits junk srt PO cap n mx l os F SO HW T)
      as (c' & rs & s' & m' & R1 & R2 & (W & HL & _)).
    exists c', rs, s', m'. split; [exact R1|]. split; [exact R2|]. intros k it NE CF.
    pose proof (cfind_iat hash cmp keqb edef ss spb bkt64 maxb fits junk srt PO c' k it W NE CF) as IA.
    destruct (find_next_ok hash cmp keqb edef ss spb bkt64 maxb fits junk srt PO c' _ k W IA) as (z & Z1 & Z2).
    destruct z as [it'|]; cbn [next_is] in Z2.
    - destruct Z2 as (k1 & N1 & N2 & N3).
      destruct (iat_value hash cmp keqb edef ss spb bkt64 maxb fits junk srt PO c' W it' k1 N2) as (e & V1 & V2 & V3).
      pose proof (klt_keq_l hash cmp (po_sw _ _ _ _ _ _ _ _ _ PO) (po_hash _ _ _ _ _ _ _ _ _ PO)) as KL.
      pose proof (klt_keq_r hash cmp (po_sw _ _ _ _ _ _ _ _ _ PO) (po_hash _ _ _ _ _ _ _ _ _ PO)) as KR.
      exists (Some it'), (Some e). split; [exact Z1|]. split; [exists e; tauto|]. cbn [next_after]. split; [|split].
      + apply key_before_klt. rewrite (KR _ _ k V2). exact N1.
      + rewrite <- HL, (look_keq _ _ _ _ _ _ _ _ _ PO _ _ _ _ V2). exact V3.
      + intros k' H1 H2. rewrite <- HL. apply key_before_klt in H1, H2. apply N3; [exact H1|]. rewrite <- (KR _ _ k' V2). exact H2.
    - exists None, None. split; [exact Z1|]. split; [reflexivity|]. intros k' H. rewrite <- HL. apply Z2, key_before_klt, H.
  Qed.
End C40.

(** ** Examples *)

(** Keys and values are numbers, subblocks of two values, blocks of two subblocks; the load factor is
    given in eighths. *)
Module Ex.
  Definition hash (k : N) : N := ((k * 11400714819323198485) mod (2 ^ 64 - 2 ^ 10))%N.
  Definition nbuck (l t : N) : N := ((t * 8 + 2 * (l + 1) - 1) / (2 * (l + 1)))%N.
  Definition lgt (l t : N) (n : nat) : bool := (l * 2 * N.of_nat n <? t * 8)%N.
  Definition fits (n : N) : bool := (n <? 2 ^ 53)%N.
  Definition junk (j i : nat) : N * N := (N.of_nat (77 + j), N.of_nat i).
  Definition lt (a b : N * N) : bool :=
    (hash (fst a) <? hash (fst b))%N || (hash (fst a) =? hash (fst b))%N && (fst a <? fst b)%N.
  Definition run := @run N N N hash N.ltb N.eqb (0, 0)%N 0%N 2 2 3 bkt64 nbuck lgt (2 ^ 40)%N fits junk (ssort lt).
  Definition new n mx : @core N N N := init n mx 7%N.
  Definition traverse := @traverse N N N hash N.ltb 0%N 2 2.
  (** The results and the values in the end. *)
  Definition play n mx os : option (list res * option (list (N * N))) :=
    do x <- run (new n mx) os; Some (snd x, traverse 100 (fst x)).
End Ex.

Lemma Nlt_sw : strict_weak N.ltb.
Proof.
  split.
  - intro x. apply N.ltb_irrefl.
  - intros x y z. rewrite !N.ltb_lt. lia.
  - intros x y z. rewrite !N.ltb_lt. lia.
Qed.
Lemma Ex_lt_sw : strict_weak Ex.lt.
Proof.
  pose proof (klt_SW Ex.hash N.ltb Nlt_sw) as H. destruct H as [H1 H2 H3]. split.
  - intro x. apply H1.
  - intros x y z. apply H2.
  - intros x y z. apply H3.
Qed.
Example C40_example_hypotheses :
  hm_ok Ex.hash N.ltb N.eqb 2 2 (2 ^ 40)%N Ex.fits (ssort Ex.lt) /\ sizes_ok Ex.nbuck Ex.fits (2 ^ 50)%N /\ Ex.fits (N.of_nat 3) = true.
Proof.
  split; [|split; [|reflexivity]].
  - constructor; try lia; try reflexivity.
    + exact Nlt_sw.
    + intros a b Ha Hb. apply N.ltb_ge in Ha, Hb. f_equal. lia.
    + intros a b. destruct (N.eqb_spec a b) as [->|Q].
      * rewrite !N.ltb_irrefl. reflexivity.
      * destruct (N.ltb_spec a b); destruct (N.ltb_spec b a); try reflexivity. lia.
    + intro k. apply N.mod_lt. discriminate.
    + intros n H. apply N.ltb_lt, H.
    + intro l. split; [apply ssort_perm|apply ssort_sorted, Ex_lt_sw].
  - constructor.
    + reflexivity.
    + intros l t Ht. unfold Ex.nbuck, Ex.fits. split.
      * apply N.ltb_lt. apply N.div_lt_upper_bound; [lia|]. change (2 ^ 50)%N with 1125899906842624%N in Ht. change (2 ^ 53)%N with 9007199254740992%N. nia.
      * intro P. apply N.div_str_pos. lia.
    + intros a b H F. unfold Ex.fits in *. apply N.ltb_lt in F. apply N.ltb_lt. lia.
    + reflexivity.
Qed.

Definition C40_history : list (@op N N N) :=
  [OInsert 1 10; OInsert 2 20; OInsertObl 3 30; OInsert 1 99; OFind 1; OErase 2; OCount 2; OInsertObl 4 40;
   OInsert 5 50; OFindSet 3 33; OInsertSet 6 60 66; OEraseObl 4; OIndexSet 5 55; OSize; ORehash 9; OFind 3;
   OFindErase 1; OBulk [(7, 70); (3, 34); (7, 71)]; OCFind 3; OErase 9; OSize]%N.
(** The buffer holds two nodes, so that the values are on disk after every second operation, or
    it holds all of them. *)
Example C40_example_run :
  Ex.play 3 2 C40_history
  = Some ([RBool true; RBool true; RUnit; RBool false; RVal (Some 10); RNum 1; RNum 0; RUnit;
           RBool true; RBool true; RBool true; RUnit; RUnit; RNum 4; RUnit; RVal (Some 33);
           RBool true; RUnit; RVal (Some 34); RNum 0; RNum 4],
          Some [(5, 55); (7, 70); (6, 66); (3, 34)])%N
  /\ Ex.play 3 100 C40_history = Ex.play 3 2 C40_history.
Proof. vm_compute. split; reflexivity. Qed.

(** A history with the hypotheses of [C40_hash_map_partial]: it starts without buckets and
    inserts, overwrites, looks up and erases. *)
Example C40_example_tame :
  tames N.ltb 0%N Ex.fits true sempty
    ([OInsert 1 10; OInsertObl 2 20; OFind 1; ORehash 5; OIndexSet 2 21; OEraseObl 2; OBulk [(3, 30); (3, 31)]; OErase 3; OSize]%N : list (@op N N N)).
Proof.
  cbn [tames tame]. unfold nonempty. split; [exact I|]. intros r1 s1 m1 H1.
  assert (M1 : m1 1%N = Some 10%N). { inversion H1; subst; [reflexivity|]. exfalso. match goal with H : sempty _ <> None |- _ => apply H end. reflexivity. }
  split; [exists 1%N; congruence|]. intros r2 s2 m2 H2. inversion H2; subst; clear H2.
  split; [exists 1%N; cbn; congruence|]. intros r3 s3 m3 H3. inversion H3; subst; clear H3.
  split; [reflexivity|]. intros r4 s4 m4 H4. inversion H4; subst; clear H4.
  split; [cbn; discriminate|]. intros r5 s5 m5 H5.
  assert (M5 : m5 = sput (keq N.ltb) (sput (keq N.ltb) m1 2%N 20%N) 2%N 21%N).
  { inversion H5; subst; [reflexivity|]. exfalso. match goal with H : sput _ _ _ _ _ = None |- _ => cbn in H; discriminate end. }
  subst m5. split; [cbn; discriminate|]. intros r6 s6 m6 H6. inversion H6; subst; clear H6.
  split; [exact I|]. intros r7 s7 m7 H7. inversion H7; subst; clear H7.
  split.
  - exists 1%N. match goal with H : smerged _ _ _ _ |- _ => destruct (H 1%N) as [(_ & ->)|(e & He & Q & _)] end.
    + cbn. congruence.
    + exfalso. destruct He as [<-|[<-|[]]]; discriminate.
  - intros r8 s8 m8 H8. split; [exact I|]. intros. exact I.
Qed.

(** A history with the hypotheses of [C40_hash_map_safe], in which [operator\[\]] creates a value. *)
Example C40_example_safe : safes Ex.hash N.ltb N.eqb (0, 0)%N 0%N 2 2 3 bkt64 Ex.nbuck Ex.lgt (2 ^ 40)%N Ex.fits Ex.junk (ssort Ex.lt)
    (Ex.new 3 100) [OIndexSet 1 7; ORehash 4]%N.
Proof.
  assert (SM : forall (m : @smap N N) k, (forall k', k' <> k -> m k' = None) -> small N.ltb m).
  { intros m k H n (l & <- & L2 & L3).
    assert (Q : forall x, In x l -> x = k).
    { intros x Hx. destruct (N.eq_dec x k) as [|D]; [assumption|]. exfalso. apply (proj2 (L3 x)); [|apply H, D]. exists x. split; [exact Hx|]. unfold keq. rewrite N.ltb_irrefl. reflexivity. }
    destruct l as [|a [|b l]]; [reflexivity|reflexivity|]. exfalso. inversion L2 as [|? ? F _]; subst. inversion F as [|? ? G _]; subst.
    rewrite (Q a), (Q b) in G by (cbn; auto). unfold keq in G. rewrite N.ltb_irrefl in G. discriminate. }
  pose proof C40_example_hypotheses as (HO & _ & FT). pose proof (hm_params _ _ _ _ _ _ _ _ HO) as PO.
  cbn [safes]. assert (S1 : safe N.ltb Ex.nbuck Ex.lgt (2 ^ 40)%N Ex.fits (Ex.new 3 100)
      (look Ex.hash N.ltb 2 2 bkt64 (mem (Ex.new 3 100)) (bks (Ex.new 3 100))) (OIndexSet 1 7)%N).
  { split; [discriminate|]. intro Q. exfalso. cbn in Q. lia. }
  assert (S2 : small N.ltb (look Ex.hash N.ltb 2 2 bkt64 (mem (Ex.new 3 100)) (bks (Ex.new 3 100)))).
  { apply (SM _ 0%N). intros k' _. destruct (refines_safe Ex.hash N.ltb N.eqb (0, 0)%N 0%N 2 2 3 bkt64 Ex.nbuck Ex.lgt (2 ^ 40)%N Ex.fits Ex.junk (ssort Ex.lt) PO 3 100 7%N [] FT I)
      as (c' & rs & s' & m' & R1 & R2 & (_ & HL & _)). injection R1 as <- <-. inversion R2; subst. apply HL. }
  split; [exact S1|]. split; [exact S2|]. intros c' r E.
  split. { clear - E. vm_compute in E. injection E as <- _. split; [reflexivity|left; reflexivity]. } split; [|intros; exact I].
  destruct (refines_safe Ex.hash N.ltb N.eqb (0, 0)%N 0%N 2 2 3 bkt64 Ex.nbuck Ex.lgt (2 ^ 40)%N Ex.fits Ex.junk (ssort Ex.lt) PO 3 100 7%N [OIndexSet 1 7]%N FT)
      as (c1 & rs & s' & m' & R1 & R2 & (_ & HL & _)).
  { cbn [safes]. split; [exact S1|]. split; [exact S2|]. intros; exact I. }
  cbn [HashMapModel.run] in R1. change (init 3 100 7%N) with (Ex.new 3 100) in R1. rewrite E in R1. cbn [fst snd] in R1. injection R1 as <- <-.
  apply (SM _ 1%N). intros k' D. rewrite HL. inversion R2; subst. match goal with H : srun _ _ _ _ [] _ _ _ |- _ => inversion H; subst end.
  match goal with H : sstep _ _ _ _ _ _ _ _ |- _ => inversion H; subst end; unfold sput, keq, sempty;
    (destruct (N.ltb_spec 1 k'); destruct (N.ltb_spec k' 1); try reflexivity; lia).
Qed.
Example C40_example_safe_run : Ex.play 3 100 [OIndexSet 1 7; ORehash 4]%N = Some ([RUnit; RUnit], Some [(1, 7)])%N.
Proof. vm_compute. reflexivity. Qed.

(** ** What goes wrong *)

(** The last 1024 hash values of uint64 are mapped to a bucket that does not exist. *)
Theorem C40_high_hash_refuted :
  exists (k v : N), (k < 2 ^ 64)%N
    /\ @HashMapModel.run N N N (fun k => k) N.ltb N.eqb (0, 0)%N 0%N 2 2 3 bkt64 Ex.nbuck Ex.lgt (2 ^ 40)%N Ex.fits Ex.junk (ssort Ex.lt)
         (init 3 100 7%N) [OInsert k v] = None.
Proof. exists (2 ^ 64 - 1)%N, 5%N. split; [reflexivity|]. vm_compute. reflexivity. Qed.
(** ... for every such value and every number of buckets. *)
Theorem C40_high_hash_bucket : forall h n, (2 ^ 64 - 2 ^ 10 <= h)%N -> (h < 2 ^ 64)%N -> 0 < n -> (N.of_nat n < 2 ^ 53)%N ->
  bkt64 h n = n.
Proof. exact bkt64_high. Qed.

(** A default-constructed map has no buckets: lookups and erasures index the empty array. *)
Definition needs_bucket {K V L} (o : @op K V L) : Prop :=
  match o with
  | OFind _ | OFindSet _ _ | OFindErase _ | OCFind _ | OCount _ | OErase _ | OEraseObl _ | OInsertObl _ _ | OIndex _ | OIndexSet _ _ => True
  | _ => False
  end.
Theorem C40_no_buckets : forall {K V L} hash cmp keqb edef vdef ss spb inc bkt nbuck lgt maxb fits junk srt (c : @core K V L) o,
  bks c = [] -> bufsz c + 1 < maxbuf c -> needs_bucket o ->
  exec hash cmp keqb edef vdef ss spb inc bkt nbuck lgt maxb fits junk srt c o = None.
Proof.
  intros K V L hash cmp keqb edef vdef ss spb inc bkt nbuck lgt maxb fits junk srt c o B M NB.
  apply Nat.leb_gt in M. assert (NE : forall i, nth_error (bks c) i = None) by (intros []; rewrite B; reflexivity).
  destruct o; try contradiction; cbn [exec]; unfold find, cfind, erase, erase_oblivious, insert_oblivious, index, make_room; try rewrite M; rewrite NE; reflexivity.
Qed.
Theorem C40_default_constructed_refuted : exists o : @op N N N, Ex.run (Ex.new 0 100) [OSize; o] = None /\ Ex.play 3 100 [OSize; o] = Some ([RNum 0; RVal None], Some []).
Proof. exists (OFind 1)%N. vm_compute. split; reflexivity. Qed.
(** The same after the last value is erased and the buckets rebuilt. *)
Theorem C40_emptied_refuted : exists k v,
  Ex.play 3 100 [OInsert k v; OErase k; ORehash 0]%N = Some ([RBool true; RNum 1; RUnit], Some [])
  /\ Ex.run (Ex.new 3 100) [OInsert k v; OErase k; ORehash 0; OFind k]%N = None.
Proof. exists 1%N, 7%N. vm_compute. split; reflexivity. Qed.

(** [operator\[\]] does not count the value it creates: size() is wrong ... *)
Theorem C40_index_size_refuted : exists k v,
  Ex.play 3 100 [OIndexSet k v; OSize]%N = Some ([RUnit; RNum 0], Some [(k, v)]).
Proof. exists 1%N, 7%N. vm_compute. reflexivity. Qed.
(** ... and rebuilding then creates no bucket and loses the value. *)
Theorem C40_index_loses_refuted : exists k v,
  Ex.play 3 100 [OIndexSet k v; ORehash 0]%N = Some ([RUnit; RUnit], Some []).
Proof. exists 1%N, 7%N. vm_compute. reflexivity. Qed.

(** [erase_oblivious] of a key that is not in the map counts it: the map loses its values. *)
Theorem C40_erase_oblivious_loses_refuted : exists k v k', k <> k'
  /\ Ex.play 3 100 [OInsert k v; OEraseObl k'; ORehash 0]%N = Some ([RBool true; RUnit; RUnit], Some []).
Proof. exists 1%N, 7%N, 5%N. split; [discriminate|]. vm_compute. reflexivity. Qed.

(** [equal_range] is documented to contain the value with the key; it is empty for every key of every map. *)
Definition Ex_equal_range (n mx : nat) os k : option (list res * option (list (N * N))) :=
  do x <- Ex.run (Ex.new n mx) os;
  do p <- @equal_range N N N Ex.hash N.ltb 2 2 (0, 0)%N bkt64 (fst x) k;
  Some (snd x, @range N N N Ex.hash N.ltb 2 2 9 (fst x) p).
Theorem C40_equal_range_refuted : exists k v,
  Ex_equal_range 3 100 [OInsert k v; OFind k]%N k = Some ([RBool true; RVal (Some v)], Some []).
Proof. exists 1%N, 7%N. vm_compute. reflexivity. Qed.
Lemma it_eqb_refl {K} (cmp : K -> K -> bool) x : strict_weak cmp -> it_eqb cmp x x = true.
Proof.
  intro SW. destruct x as [x|]; [|reflexivity]. cbn [it_eqb]. rewrite Nat.eqb_refl, Nat.eqb_refl.
  destruct (is_src x); cbn [src_eqb andb]; try reflexivity. destruct (is_node x) as [k|]; [|reflexivity].
  unfold keq. rewrite (sw_irrefl _ SW). reflexivity.
Qed.
Theorem C40_equal_range_empty : forall {K V L} hash cmp ss spb edef bkt (c : @core K V L) k p f, strict_weak cmp ->
  equal_range hash cmp ss spb edef bkt c k = Some p -> range hash cmp ss spb f c p = Some [].
Proof.
  intros K V L hash cmp ss spb edef bkt c k p f SW H. unfold equal_range in H.
  destruct (HashMapModel.cfind _ _ _ _ _ _ _ _) as [x|]; [|discriminate]. injection H as <-. unfold range. cbn [fst snd].
  assert (Q : it_eqb cmp match match x with Some it => Some {| i_sp := it; i_rd := None |} | None => None end with Some it => Some (i_sp it) | None => None end x = true).
  { replace (match match x with Some it => Some {| i_sp := it; i_rd := None |} | None => None end with Some it => Some (i_sp it) | None => None end) with x by (destruct x; reflexivity).
    apply it_eqb_refl, SW. }
  destruct f; cbn [range_from]; rewrite Q; reflexivity.
Qed.

Print Assumptions C40_hash_map_partial.
Print Assumptions C40_hash_map_safe.
Print Assumptions C40_find_next.
Print Assumptions C40_high_hash_refuted.
Print Assumptions C40_high_hash_bucket.
Print Assumptions C40_no_buckets.
Print Assumptions C40_default_constructed_refuted.
Print Assumptions C40_emptied_refuted.
Print Assumptions C40_index_size_refuted.
Print Assumptions C40_index_loses_refuted.
Print Assumptions C40_erase_oblivious_loses_refuted.
Print Assumptions C40_equal_range_refuted.
Print Assumptions C40_equal_range_empty.
