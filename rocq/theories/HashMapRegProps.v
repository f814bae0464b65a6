(** C91, C92: iterators of the external hash map while the map changes. *)
From Coq Require Import List Bool Arith NArith Lia.
From Verif Require Import OrderLib HashMapModel HashMapSpec HashMapBase HashMapStream HashMapProofs HashMapIterModel HashMapIter HashMapBkt HashMapProps
  HashMapRegModel HashMapRegSpec HashMapTrack HashMapTrackOps HashMapRegBase HashMapRegStep HashMapRegEx.
Import ListNotations.

Section Ext.
  Context {K V L : Type}.
  Variable eqv : K -> K -> bool.
  Variable bef bef' : K -> K -> Prop.
  Variable vdef : V.
  Hypothesis EB : forall a b, bef a b <-> bef' a b.

  Lemma rstep_ext st (o : @rop K V L) r st' : rstep eqv bef vdef st o r st' -> rstep eqv bef' vdef st o r st'.
  Proof.
    intro H. inversion H; subst; try (econstructor; eassumption).
    - apply R_begin; [assumption|]. intros k' Q. match goal with H : forall k', bef k' _ -> _ |- _ => apply H, EB, Q end.
    - eapply R_next; [eassumption|apply EB; assumption|assumption|]. intros k2 Q1 Q2. match goal with H : forall k2, bef _ k2 -> bef k2 _ -> _ |- _ => apply H; apply EB; assumption end.
    - eapply R_next_end; [eassumption|]. intros k2 Q1. match goal with H : forall k', bef _ k' -> _ |- _ => apply H; apply EB; assumption end.
  Qed.
  Lemma rruns_ext st (os : list (@rop K V L)) rs st' : rruns eqv bef vdef st os rs st' -> rruns eqv bef' vdef st os rs st'.
  Proof. induction 1; econstructor; [apply rstep_ext; eassumption|eassumption]. Qed.
End Ext.
Lemma legals_ext {K V L} eqv (bef bef' : K -> K -> Prop) vdef tame full (os : list (@rop K V L)) : (forall a b, bef a b <-> bef' a b) ->
  forall st, legals eqv bef' vdef tame full st os -> legals eqv bef vdef tame full st os.
Proof.
  intro EB. induction os as [|o os IH]; intros st; [auto|]. intros (H1 & H2). split; [exact H1|]. intros r st' H. apply IH, (H2 r), (rstep_ext eqv bef bef' vdef EB), H.
Qed.

Section C91.
  Context {K V L : Type}.
  Notation E := (K * V)%type.
  Variable hash : K -> N.
  Variable cmp : K -> K -> bool.
  Variable keqb : K -> K -> bool.
  Variable kdef : K.
  Variable edef : E.
  Variable vdef : V.
  Variable ss spb inc : nat.
  Variable nbuck : L -> N -> N.
  Variable lgt : L -> N -> nat -> bool.
  Variable maxb : N.
  Variable fits : N -> bool.
  Variable junk : nat -> nat -> E.
  Variable srt : list E -> list E.
  Notation rrun := (rrun hash cmp keqb kdef edef vdef ss spb inc bkt64 nbuck lgt maxb fits junk srt).
  Notation before := (key_before hash cmp).
  Hypothesis HO : hm_ok hash cmp keqb ss spb maxb fits srt.

  (** Every program with two maps and any number of iterators that keeps to the rules behaves as if an
      iterator were the key it denotes: iterators survive insertion, erasure of other keys, changes of the
      number of buckets, moves of values between the buffer and the disk, bulk insertion; they become [end()]
      when their value is erased; copies are independent; [==] compares the keys; [++] goes to the next key.
      The rules are those of an STL user, except:
      [operator\[\]] is not used for a key at which there is an iterator,
      [++] is not used for an iterator that stems from [begin()] when values have been inserted since,
      an iterator that has become [end()] is not compared with one that is at a value,
      the maps are swapped only when no iterator is at a value. *)
  Theorem C91_hash_map_iterators_partial cap n0 n1 mx0 mx1 l0 l1 os :
    fits (N.of_nat n0) = true -> fits (N.of_nat n1) = true -> sizes_ok nbuck fits cap -> (rweights os <= cap)%N ->
    legals (keq cmp) before vdef (tame fits) false sinit os ->
    exists st rs s, rrun (rinit (fun a : bool => if a then init n1 mx1 l1 else init n0 mx0 l0)) os = Some (st, rs)
      /\ rruns (keq cmp) before vdef sinit os rs s.
  Proof.
    intros F0 F1 SO HW LG. pose proof (hm_params _ _ _ _ _ _ _ _ HO) as PO.
    assert (EB : forall a b, klt hash cmp a b = true <-> before a b) by (intros a b; symmetry; apply key_before_klt).
    destruct (reg_refines hash cmp keqb kdef edef vdef ss spb inc bkt64 nbuck lgt maxb fits junk srt PO cap SO n0 n1 mx0 mx1 l0 l1 os F0 F1 HW)
      as (st & rs & s & R1 & R2).
    - eapply legals_ext; [exact EB|exact LG].
    - exists st, rs, s. split; [exact R1|]. eapply rruns_ext; [exact EB|exact R2].
  Qed.
End C91.

(** ** Examples *)

Definition Ex_rplay (n mx : nat) (os : list (@rop N N N)) : option (list rres) :=
  do x <- @rrun N N N Ex.hash N.ltb N.eqb 0%N (0, 0)%N 0%N 2 2 3 bkt64 Ex.nbuck Ex.lgt (2 ^ 40)%N Ex.fits Ex.junk (ssort Ex.lt)
    (rinit (fun a : bool => if a then init n mx 7%N else init n mx 7%N)) os; Some (snd x).

(** Iterators while values move to the disk, are assigned and erased; the order of the keys is 2, 1, 3. *)
Definition C91_program : list (@rop N N N) :=
  [RInsert false 0 1 10; RInsert false 1 2 20; RMap false (ORehash 3); RGet 0; RCopy 2 0; RSet 2 11; RGet 0;
   RInsert false 3 3 30; RNext 1; RGet 1; RNext 1; RGet 1; REraseIt false 0; REq 0 2; REq 1 3;
   RMap false (OErase 3); RFind false 4 2; RGet 4; RDrop 4; RSwap; RCFind true 1 2; RGet 1; REnd true 3; REq 1 3]%N.
(** The buffer holds two nodes, or all. *)
Example C91_example_run :
  Ex_rplay 3 100 C91_program
  = Some [QB true; QB true; QR RUnit; QE (1, 10); QU; QU; QE (1, 11);
          QB true; QU; QE (1, 11); QU; QE (3, 30); QU; QB true; QB true;
          QR (RNum 1); QU; QE (2, 20); QU; QU; QU; QE (2, 20); QU; QB false]%N
  /\ Ex_rplay 3 2 C91_program = Ex_rplay 3 100 C91_program.
Proof. vm_compute. split; reflexivity. Qed.

(** The program keeps to the rules, so the theorem applies to it. *)
Example C91_example_legal : legalsN false sinit C91_program /\ (rweights C91_program <= 2 ^ 50)%N.
Proof.
  split; [|vm_compute; discriminate].
  assert (H : exists rs, fruns false finit C91_program = Some rs) by (eexists; vm_compute; reflexivity).
  destruct H as (rs & H). exact (proj1 (run_spec false _ _ H)).
Qed.
Example C91_example : exists rs s, Ex_rplay 3 2 C91_program = Some rs /\ rrunsN sinit C91_program rs s.
Proof.
  destruct C40_example_hypotheses as (HO & SO & F). destruct C91_example_legal as (LG & W).
  destruct (C91_hash_map_iterators_partial Ex.hash N.ltb N.eqb 0%N (0, 0)%N 0%N 2 2 3 Ex.nbuck Ex.lgt (2 ^ 40)%N Ex.fits Ex.junk (ssort Ex.lt) HO
    (2 ^ 50)%N 3 3 2 2 7%N 7%N C91_program F F SO W LG) as (st & rs & s & R1 & R2).
  exists rs, s. split; [|exact R2]. unfold Ex_rplay. rewrite R1. reflexivity.
Qed.

(** ** What goes wrong *)

(** [operator\[\]] moves the value to the buffer without telling the iterators:
    an iterator reads the old value from the disk. *)
Theorem C91_index_stale_refuted : exists os rs, legalsN true sinit os /\ Ex_rplay 3 100 os = Some rs /\ forall s, ~ rrunsN sinit os rs s.
Proof.
  exists [RInsert false 0 1 10; RMap false (ORehash 3); RMap false (OIndexSet 1 20); RGet 0]%N, [QB true; QR RUnit; QR RUnit; QE (1, 10)]%N.
  assert (F : fruns true finit [RInsert false 0 1 10; RMap false (ORehash 3); RMap false (OIndexSet 1 20); RGet 0]%N
              = Some [QB true; QR RUnit; QR RUnit; QE (1, 20)]%N) by (vm_compute; reflexivity).
  destruct (run_spec _ _ _ F) as (LG & U). split; [exact LG|]. split; [vm_compute; reflexivity|]. intros s H. apply U in H. discriminate H.
Qed.

(** An iterator that stems from [begin()] skips a value that is inserted behind it. *)
Theorem C91_begin_skips_refuted : exists os rs, legalsN true sinit os /\ Ex_rplay 1 100 os = Some rs /\ forall s, ~ rrunsN sinit os rs s.
Proof.
  pose (os := [RInsert false 0 1 10; RMap false (ORehash 1); RInsert false 0 8 80; RBegin false 1; RGet 1; RInsert false 2 3 30; RNext 1; RGet 1]%N : list ropN).
  exists os, [QB true; QR RUnit; QB true; QU; QE (1, 10); QB true; QU; QE (8, 80)]%N.
  assert (F : fruns true finit os = Some [QB true; QR RUnit; QB true; QU; QE (1, 10); QB true; QU; QE (3, 30)]%N) by (vm_compute; reflexivity).
  destruct (run_spec _ _ _ F) as (LG & U). split; [exact LG|]. split; [vm_compute; reflexivity|]. intros s H. apply U in H. discriminate H.
Qed.

(** An iterator whose value has been erased equals an iterator to a new value with the key, though it is [end()]. *)
Theorem C91_erased_equal_refuted : exists os rs, legalsN true sinit os /\ Ex_rplay 3 100 os = Some rs /\ forall s, ~ rrunsN sinit os rs s.
Proof.
  pose (os := [RInsert false 0 1 10; REraseIt false 0; REnd false 2; REq 0 2; RInsert false 1 1 11; REq 1 2; REq 0 1]%N : list ropN).
  exists os, [QB true; QU; QU; QB true; QB true; QB false; QB true]%N.
  assert (F : fruns true finit os = Some [QB true; QU; QU; QB true; QB true; QB false; QB false]%N) by (vm_compute; reflexivity).
  destruct (run_spec _ _ _ F) as (LG & U). split; [exact LG|]. split; [vm_compute; reflexivity|]. intros s H. apply U in H. discriminate H.
Qed.

(** ** C92: [swap] *)

(** After the maps have been swapped an iterator still refers to the map it was made for, while its registration
    has moved to the other: the value cannot be read, and the destructor does not find the registration and throws. *)
Theorem C92_swap_value_refuted : exists os rs, legalsN true sinit os /\ (forall rs' s, rrunsN sinit os rs' s -> rs' = rs)
  /\ Ex_rplay 3 100 (removelast os) = Some (removelast rs) /\ Ex_rplay 3 100 os = None.
Proof.
  pose (os := [RInsert false 0 1 10; RInsert true 1 2 20; RSwap; RGet 0]%N : list ropN).
  exists os, [QB true; QB true; QU; QE (1, 10)]%N.
  assert (F : fruns true finit os = Some [QB true; QB true; QU; QE (1, 10)]%N) by (vm_compute; reflexivity).
  destruct (run_spec _ _ _ F) as (LG & U). split; [exact LG|]. split; [exact U|]. split; vm_compute; reflexivity.
Qed.
Theorem C92_swap_destructor_refuted : exists os rs, legalsN true sinit os /\ (forall rs' s, rrunsN sinit os rs' s -> rs' = rs)
  /\ Ex_rplay 3 100 (removelast os) = Some (removelast rs) /\ Ex_rplay 3 100 os = None.
Proof.
  pose (os := [RInsert false 0 1 10; RSwap; RDrop 0]%N : list ropN).
  exists os, [QB true; QU; QU]%N.
  assert (F : fruns true finit os = Some [QB true; QU; QU]%N) by (vm_compute; reflexivity).
  destruct (run_spec _ _ _ F) as (LG & U). split; [exact LG|]. split; [exact U|]. split; vm_compute; reflexivity.
Qed.
(** Without iterators at values, [swap] exchanges the maps, at any point of a program. *)
Section C92.
  Context {K V L : Type}.
  Variable hash : K -> N.
  Variable cmp : K -> K -> bool.
  Variable keqb : K -> K -> bool.
  Variable kdef : K.
  Variable edef : K * V.
  Variable vdef : V.
  Variable ss spb inc : nat.
  Variable nbuck : L -> N -> N.
  Variable lgt : L -> N -> nat -> bool.
  Variable maxb : N.
  Variable fits : N -> bool.
  Variable junk : nat -> nat -> K * V.
  Variable srt : list (K * V) -> list (K * V).
  Notation rrun := (rrun hash cmp keqb kdef edef vdef ss spb inc bkt64 nbuck lgt maxb fits junk srt).
  Notation before := (key_before hash cmp).
  Hypothesis HO : hm_ok hash cmp keqb ss spb maxb fits srt.

  Theorem C92_swap_partial cap n0 n1 mx0 mx1 l0 l1 (os : list (@rop K V L)) : fits (N.of_nat n0) = true -> fits (N.of_nat n1) = true ->
    sizes_ok nbuck fits cap -> (rweights os <= cap)%N -> legals (keq cmp) before vdef (tame fits) false sinit os ->
    exists st rs s, rrun (rinit (fun a : bool => if a then init n1 mx1 l1 else init n0 mx0 l0)) os = Some (st, rs)
      /\ rruns (keq cmp) before vdef sinit os rs s
      /\ ((forall x, ~ is_at s x) -> exists st', rrun st [RSwap] = Some (st', [QU]) /\ forall a, cores st' a = cores st (negb a)).
  Proof.
    intros F0 F1 SO HW LG. pose proof (hm_params _ _ _ _ _ _ _ _ HO) as PO.
    assert (EB : forall a b, klt hash cmp a b = true <-> before a b) by (intros a b; symmetry; apply key_before_klt).
    destruct (run_sim hash cmp keqb kdef edef vdef ss spb inc bkt64 nbuck lgt maxb fits junk srt PO cap SO os 0%N sinit _
      (init_sim hash cmp keqb ss spb bkt64 maxb fits srt PO n0 n1 mx0 mx1 l0 l1 F0 F1)) as (st & rs & s & R1 & R2 & SM).
    - eapply legals_ext; [exact EB|exact LG].
    - lia.
    - exists st, rs, s. split; [exact R1|]. split; [eapply rruns_ext; [exact EB|exact R2]|]. intro NA.
      destruct (step_sim hash cmp keqb kdef edef vdef ss spb inc bkt64 nbuck lgt maxb fits junk srt PO cap SO (0 + rweights os)%N s st RSwap SM) as (st' & r & s' & E1 & E2 & SM').
      + right. exact NA.
      + cbn [rweight]. lia.
      + cbn [rexec] in E1. destruct (swap st) as [s1|] eqn:SW; [|discriminate]. injection E1 as <- <-. exists s1.
        split; [cbn [HashMapRegModel.rrun rexec]; rewrite SW; reflexivity|]. intro a.
        assert (FC : forall l b (x y : @mst K V L), foldo (repoint b) l x = Some y -> cores y = cores x).
        { induction l as [|i l IH]; intros b x y Q; cbn [foldo] in Q; [injection Q as <-; reflexivity|]. unfold repoint at 1 in Q. destruct (objs x i) as [o|]; [|discriminate]. apply IH in Q. exact Q. }
        unfold swap in SW. cbv zeta in SW. match type of SW with match ?t with Some _ => _ | None => _ end = _ => destruct t as [x|] eqn:Q1; [|discriminate] end.
        apply FC in Q1. apply FC in SW. rewrite SW, Q1. reflexivity.
  Qed.
End C92.
Example C92_example :
  Ex_rplay 3 100 [RInsert false 0 1 10; RInsert true 0 2 20; RDrop 0; RSwap; RCFind true 0 1; RGet 0; RCFind false 1 2; RGet 1]%N
  = Some [QB true; QB true; QU; QU; QU; QE (1, 10); QU; QE (2, 20)]%N
  /\ legalsN false sinit [RInsert false 0 1 10; RInsert true 0 2 20; RDrop 0; RSwap; RCFind true 0 1; RGet 0; RCFind false 1 2; RGet 1]%N.
Proof.
  split; [vm_compute; reflexivity|].
  assert (H : exists rs, fruns false finit [RInsert false 0 1 10; RInsert true 0 2 20; RDrop 0; RSwap; RCFind true 0 1; RGet 0; RCFind false 1 2; RGet 1]%N = Some rs) by (eexists; vm_compute; reflexivity).
  destruct H as (rs & H). exact (proj1 (run_spec false _ _ H)).
Qed.

Print Assumptions C91_hash_map_iterators_partial.
Print Assumptions C91_index_stale_refuted.
Print Assumptions C91_begin_skips_refuted.
Print Assumptions C91_erased_equal_refuted.
Print Assumptions C92_swap_value_refuted.
Print Assumptions C92_swap_destructor_refuted.
Print Assumptions C92_swap_partial.
