(** Properties of iterators over matrices. *)
From Coq Require Import List Arith Bool PeanoNat Lia ZArith Ring.
From Verif Require Import MatrixModel MatrixFeedModel MatrixSpec MatrixObjModel MatrixIterSpec MatrixIterModel MatrixIter.
Import ListNotations.

(** ** C85: a program that uses iterators prints what it prints when an iterator is just an object and a position; no block is
    released that is not acquired, and when no iterator is left every block that was acquired has been released. *)

Theorem C85_iterators_denote_positions :
  forall (R : Type) (rO rI : R) (radd rmul rsub : R -> R -> R) (ropp : R -> R),
    ring_theory rO rI radd rmul rsub ropp eq ->
    forall (B : nat), 0 < B ->
    forall (n k : nat) (cs : list (icmd R)) vs its outs,
      i_run R rO radd rmul rsub true cs (repeat None n, repeat None k) = Some ((vs, its), outs) ->
      exists st, it_run R rO radd rmul rsub ropp B cs (it_init R n k) = Some (st, outs) /\ (dead its = true -> pins R st = []).
Proof.
  intros R rO rI radd rmul rsub ropp Rth B HB n k cs vs its outs H.
  destruct (it_run_ok R rO rI radd rmul rsub ropp Rth B HB cs (it_init R n k) (repeat None n) (repeat None k) vs its outs) as (st & E & I).
  - apply it_init_ok; auto.
  - exact H.
  - exists st. split; auto. intros D. eapply dead_pins; eauto.
Qed.

(** ** Traversal *)

(** the t-th position in row-major or column-major order *)
Definition pos (col : bool) (h w t : nat) : nat * nat := if col then (t mod h, t / h) else (t / w, t mod w).
Lemma div_succ t w : 0 < w -> (t mod w + 1 < w -> S t / w = t / w /\ S t mod w = S (t mod w)) /\
  (~ t mod w + 1 < w -> S t / w = S (t / w) /\ S t mod w = 0).
Proof.
  intros Hw. pose proof (Nat.div_mod t w ltac:(lia)) as D. pose proof (Nat.mod_upper_bound t w ltac:(lia)) as U. split; intros L.
  - assert (E : S t = w * (t / w) + S (t mod w)) by lia. split.
    + symmetry. apply (Nat.div_unique _ _ _ (S (t mod w))); lia.
    + symmetry. apply (Nat.mod_unique _ _ (t / w)); lia.
  - assert (E : S t = w * S (t / w) + 0) by nia. split.
    + symmetry. apply (Nat.div_unique _ _ _ 0); lia.
    + symmetry. apply (Nat.mod_unique _ _ (S (t / w))); lia.
Qed.
Lemma next_pos col h w t : t < h * w ->
  next col h w (fst (pos col h w t)) (snd (pos col h w t)) = if S t <? h * w then Some (pos col h w (S t)) else None.
Proof.
  intros Ht. destruct (Nat.eq_dec h 0) as [->|Hh]; [lia|]. destruct (Nat.eq_dec w 0) as [->|Hw]; [lia|].
  unfold next, pos. destruct col; cbn [fst snd].
  - destruct (div_succ t h ltac:(lia)) as [S1 S2]. pose proof (Nat.div_mod t h ltac:(lia)) as D. pose proof (Nat.mod_upper_bound t h ltac:(lia)) as U.
    destruct (Nat.ltb_spec (S (t mod h)) h) as [L|L].
    + destruct (S1 ltac:(lia)) as [-> ->]. destruct (Nat.ltb_spec (S t) (h * w)); auto. exfalso.
      assert (t / h < w) by (apply Nat.div_lt_upper_bound; lia). nia.
    + destruct (S2 ltac:(lia)) as [-> ->]. assert (t / h < w) by (apply Nat.div_lt_upper_bound; lia).
      destruct (Nat.ltb_spec (S (t / h)) w), (Nat.ltb_spec (S t) (h * w)); auto; exfalso; nia.
  - destruct (div_succ t w ltac:(lia)) as [S1 S2]. pose proof (Nat.div_mod t w ltac:(lia)) as D. pose proof (Nat.mod_upper_bound t w ltac:(lia)) as U.
    destruct (Nat.ltb_spec (S (t mod w)) w) as [L|L].
    + destruct (S1 ltac:(lia)) as [-> ->]. destruct (Nat.ltb_spec (S t) (h * w)); auto. exfalso.
      assert (t / w < h) by (apply Nat.div_lt_upper_bound; lia). nia.
    + destruct (S2 ltac:(lia)) as [-> ->]. assert (t / w < h) by (apply Nat.div_lt_upper_bound; lia).
      destruct (Nat.ltb_spec (S (t / w)) h), (Nat.ltb_spec (S t) (h * w)); auto; exfalso; nia.
Qed.
Lemma prev_pos col h w t : t < h * w -> 
  prev col h w (fst (pos col h w t)) (snd (pos col h w t)) = match t with 0 => None | S t' => Some (pos col h w t') end.
Proof.
  intros Ht. destruct (Nat.eq_dec h 0) as [->|Hh]; [lia|]. destruct (Nat.eq_dec w 0) as [->|Hw]; [lia|].
  unfold prev, pos. destruct col; cbn [fst snd].
  - destruct t as [|t]; [rewrite Nat.mod_0_l, Nat.div_0_l by lia; reflexivity|].
    destruct (div_succ t h ltac:(lia)) as [S1 S2]. pose proof (Nat.mod_upper_bound t h ltac:(lia)) as U.
    destruct (Nat.ltb_spec (t mod h + 1) h) as [L|L].
    + destruct (S1 L) as [-> ->]. reflexivity.
    + destruct (S2 ltac:(lia)) as [-> ->]. do 2 f_equal. lia.
  - destruct t as [|t]; [rewrite Nat.mod_0_l, Nat.div_0_l by lia; reflexivity|].
    destruct (div_succ t w ltac:(lia)) as [S1 S2]. pose proof (Nat.mod_upper_bound t w ltac:(lia)) as U.
    destruct (Nat.ltb_spec (t mod w + 1) w) as [L|L].
    + destruct (S1 L) as [-> ->]. reflexivity.
    + destruct (S2 ltac:(lia)) as [-> ->]. do 2 f_equal. lia.
Qed.
Lemma pos_in col h w t : t < h * w -> fst (pos col h w t) < h /\ snd (pos col h w t) < w.
Proof.
  intros Ht. destruct (Nat.eq_dec h 0) as [->|Hh]; [lia|]. destruct (Nat.eq_dec w 0) as [->|Hw]; [lia|].
  unfold pos. destruct col; cbn [fst snd]; split; try (apply Nat.mod_upper_bound; lia); apply Nat.div_lt_upper_bound; lia.
Qed.

(** reading n elements with iterator 0, stepping forwards or backwards after each *)
Fixpoint read_on {R : Type} (fwd col : bool) (n : nat) : list (icmd R) :=
  match n with 0 => [] | S n' => IGet 0 :: (if fwd then INext col 0 else IPrev col 0) :: read_on fwd col n' end.

Section Walk.
  Variable R : Type.
  Variables (rO : R) (radd rmul rsub : R -> R -> R).
  Notation i_run := (i_run R rO radd rmul rsub true).
  Notation vh := (vh R). Notation vw := (vw R).
  Lemma i_run_app cs : forall ds st, i_run (cs ++ ds) st =
    match i_run cs st with
    | Some (st', o1) => match i_run ds st' with Some (st'', o2) => Some (st'', o1 ++ o2) | None => None end
    | None => None
    end.
  Proof.
    induction cs as [|c cs IH]; intros ds st; cbn [app MatrixIterSpec.i_run].
    - destruct (i_run ds st) as [[? ?]|]; reflexivity.
    - destruct (i_step R rO radd rmul rsub true c st) as [[st1 o]|]; auto. rewrite IH.
      destruct (i_run cs st1) as [[st2 o1]|]; auto. destruct (i_run ds st2) as [[? ?]|]; reflexivity.
  Qed.
  (** what reading prints *)
  Definition printed (v : mval R) (col : bool) (ts : list nat) : list (list nat * list R) :=
    flat_map (fun t => [([], [ve R v (fst (pos col (vh v) (vw v) t)) (snd (pos col (vh v) (vw v) t))]); ([], [])]) ts.
  Lemma forwards col o v vs y : obj R vs o = Some v -> forall n t, t + n = vh v * vw v -> 0 < n ->
    i_run (read_on true col n) (vs, [Some (o, Some (pos col (vh v) (vw v) t)); y]) = Some ((vs, [Some (o, None); y]), printed v col (seq t n)).
  Proof.
    intros Ho. induction n as [|n IH]; intros t Ht Hn; [lia|]. cbn [read_on MatrixIterSpec.i_run].
    cbn [i_step live nth]. destruct (pos col (vh v) (vw v) t) as [r c] eqn:Ep. rewrite Ho. cbn [i_step live nth]. rewrite Ho.
    pose proof (next_pos col (vh v) (vw v) t ltac:(lia)) as En. rewrite Ep in En. cbn [fst snd] in En. rewrite En.
    cbn [seq printed flat_map app]. rewrite Ep. cbn [fst snd].
    destruct (Nat.ltb_spec (S t) (vh v * vw v)) as [L|L]; cbn [declare length Nat.ltb Nat.leb upd].
    - rewrite (IH (S t)) by lia. reflexivity.
    - assert (n = 0) by lia. subst n. reflexivity.
  Qed.
  Lemma backwards col o v vs y : obj R vs o = Some v -> forall n, S n <= vh v * vw v ->
    i_run (read_on false col (S n)) (vs, [Some (o, Some (pos col (vh v) (vw v) n)); y]) = Some ((vs, [Some (o, None); y]), printed v col (rev (seq 0 (S n)))).
  Proof.
    intros Ho. induction n as [|n IH]; intros Ht.
    - cbn [read_on MatrixIterSpec.i_run i_step live nth]. destruct (pos col (vh v) (vw v) 0) as [r c] eqn:Ep. rewrite Ho. cbn [i_step live nth]. rewrite Ho.
      pose proof (prev_pos col (vh v) (vw v) 0 ltac:(lia)) as En. rewrite Ep in En. cbn [fst snd] in En. rewrite En.
      cbn [seq rev app printed flat_map]. rewrite Ep. reflexivity.
    - change (read_on false col (S (S n))) with ([IGet 0; IPrev col 0] ++ read_on (R:=R) false col (S n)). rewrite i_run_app.
      cbn [MatrixIterSpec.i_run i_step live nth]. destruct (pos col (vh v) (vw v) (S n)) as [r c] eqn:Ep. rewrite Ho. cbn [i_step live nth]. rewrite Ho.
      pose proof (prev_pos col (vh v) (vw v) (S n) ltac:(lia)) as En. rewrite Ep in En. cbn [fst snd] in En. rewrite En.
      cbn [declare length Nat.ltb Nat.leb upd]. rewrite IH by lia.
      replace (rev (seq 0 (S (S n)))) with (S n :: rev (seq 0 (S n))).
      + unfold printed at 2. cbn [flat_map]. rewrite Ep. cbn [fst snd app]. reflexivity.
      + rewrite (seq_S (S n)). rewrite rev_app_distr. reflexivity.
  Qed.
End Walk.

(** Row-major and column-major iterators visit all elements of a matrix that is not empty, each one once, in the order of
    their name; after the last one an iterator equals end().  Backwards it visits them in the reverse order. *)
Theorem C85_traversal_visits_every_element :
  forall (R : Type) (rO rI : R) (radd rmul rsub : R -> R -> R) (ropp : R -> R),
    ring_theory rO rI radd rmul rsub ropp eq ->
    forall (B : nat), 0 < B ->
    forall (n : nat) (cs : list (icmd R)) vs outs o v (col : bool),
      i_run R rO radd rmul rsub true cs (repeat None n, [None; None]) = Some ((vs, [None; None]), outs) ->
      obj R vs o = Some v -> 0 < vh R v -> 0 < vw R v ->
      (exists st, it_run R rO radd rmul rsub ropp B
         (cs ++ [INew 0 o 0 0] ++ read_on true col (vh R v * vw R v) ++ [IEnd 1 o; IEq 0 1]) (it_init R n 2)
       = Some (st, outs ++ [([], [])] ++ printed R v col (seq 0 (vh R v * vw R v)) ++ [([], []); ([1], [])])) /\
      (exists st, it_run R rO radd rmul rsub ropp B
         (cs ++ [INew 0 o (vh R v - 1) (vw R v - 1)] ++ read_on false col (vh R v * vw R v) ++ [IEnd 1 o; IEq 0 1]) (it_init R n 2)
       = Some (st, outs ++ [([], [])] ++ printed R v col (rev (seq 0 (vh R v * vw R v))) ++ [([], []); ([1], [])])).
Proof.
  intros R rO rI radd rmul rsub ropp Rth B HB n cs vs outs o v col Hc Ho Hh Hw.
  assert (E1 : forall (l : list (option (nat * option (nat * nat)))), i_run R rO radd rmul rsub true [IEnd 1 o; IEq 0 1] (vs, [Some (o, None); None]) =
     Some ((vs, [Some (o, None); Some (o, None)]), [([], []); ([1], [])])).
  { intros _. cbn [i_run i_step live nth]. rewrite Ho. cbn. rewrite Nat.eqb_refl. reflexivity. }
  assert (In0 : forall r c, r < vh R v -> c < vw R v -> i_run R rO radd rmul rsub true [INew 0 o r c] (vs, [None; None]) = Some ((vs, [Some (o, Some (r, c)); None]), [([], [])])).
  { intros r c Hr Hcc. cbn [i_run i_step live nth]. rewrite Ho. apply Nat.ltb_lt in Hr, Hcc. rewrite Hr, Hcc. reflexivity. }
  assert (P : 0 < vh R v * vw R v) by nia.
  split.
  - assert (S : i_run R rO radd rmul rsub true (cs ++ [INew 0 o 0 0] ++ read_on true col (vh R v * vw R v) ++ [IEnd 1 o; IEq 0 1]) (repeat None n, repeat None 2) =
      Some ((vs, [Some (o, None); Some (o, None)]), outs ++ [([], [])] ++ printed R v col (seq 0 (vh R v * vw R v)) ++ [([], []); ([1], [])])).
    { change (repeat None 2) with [@None (nat * option (nat * nat)); None]. rewrite i_run_app, Hc, i_run_app, In0 by auto. rewrite i_run_app.
      assert (P0 : pos col (vh R v) (vw R v) 0 = (0, 0)).
      { unfold pos. destruct col; rewrite ?Nat.mod_0_l, ?Nat.div_0_l by lia; reflexivity. }
      rewrite <- P0. rewrite (forwards R rO radd rmul rsub col o v vs None Ho _ 0) by lia. rewrite (E1 []). reflexivity. }
    destruct (C85_iterators_denote_positions R rO rI radd rmul rsub ropp Rth B HB n 2 _ _ _ _ S) as (st & E & _). exists st. exact E.
  - assert (S : i_run R rO radd rmul rsub true (cs ++ [INew 0 o (vh R v - 1) (vw R v - 1)] ++ read_on false col (vh R v * vw R v) ++ [IEnd 1 o; IEq 0 1]) (repeat None n, repeat None 2) =
      Some ((vs, [Some (o, None); Some (o, None)]), outs ++ [([], [])] ++ printed R v col (rev (seq 0 (vh R v * vw R v))) ++ [([], []); ([1], [])])).
    { change (repeat None 2) with [@None (nat * option (nat * nat)); None]. rewrite i_run_app, Hc, i_run_app, In0 by lia. rewrite i_run_app.
      assert (P0 : pos col (vh R v) (vw R v) (vh R v * vw R v - 1) = (vh R v - 1, vw R v - 1)).
      { unfold pos. destruct col; f_equal; symmetry.
        - apply (Nat.mod_unique _ _ (vw R v - 1)); nia.
        - apply (Nat.div_unique _ _ _ (vh R v - 1)); nia.
        - apply (Nat.div_unique _ _ _ (vw R v - 1)); nia.
        - apply (Nat.mod_unique _ _ (vh R v - 1)); nia. }
      rewrite <- P0. pose proof (backwards R rO radd rmul rsub col o v vs None Ho (vh R v * vw R v - 1) ltac:(lia)) as Eb.
      replace (S (vh R v * vw R v - 1)) with (vh R v * vw R v) in Eb by lia. rewrite Eb, (E1 []). reflexivity. }
    destruct (C85_iterators_denote_positions R rO rI radd rmul rsub ropp Rth B HB n 2 _ _ _ _ S) as (st & E & _). exists st. exact E.
Qed.

(** ** Examples *)

Notation ztest strict cs n k := (match i_run Z 0%Z Z.add Z.mul Z.sub strict cs (repeat None n, repeat None k) with Some (_, o) => Some o | None => None end).
Notation zrun B cs n k := (match it_run Z 0%Z Z.add Z.mul Z.sub Z.opp B cs (it_init Z n k) with Some (_, o) => Some o | None => None end).
(** a 3 x 3 matrix in blocks of side 2: written through iterators, copied, walked across blocks *)
Definition walk_program : list (icmd Z) :=
  [IMat (CNew 0 3 3); INew 0 0 0 0; IPut 0 5%Z; INext false 0; IPut 0 6%Z; INext false 0; IPut 0 7%Z; ICopy 1 0; INext false 0; IPut 0 8%Z;
   IGet 1; IMat (CNew 1 1 1); IMat (CSet 0 2 2 9%Z); ISetPos 1 2 2; IGet 1; IPrev true 1; IPos 1; IGet 1; IAssign 1 0; IGet 1; IEq 0 1; INext true 1; IEq 0 1;
   IDel 0; IDel 1; IMat (CTrans 0); INew 0 0 0 1; IGet 0; IEnd 1 0; IAssign 0 1; IPos 0; ISetPos 0 1 0; IGet 0; IDel 0; IDel 1].
Example C85_example :
  option_map (filter (fun o => match o with ([], []) => false | _ => true end)) (ztest true walk_program 2 2)
  = Some [([], [7%Z]); ([], [9%Z]); ([1; 2], []); ([], [0%Z]); ([], [8%Z]); ([1], []); ([0], []); ([], [8%Z]); ([], [6%Z])] /\
  zrun 2 walk_program 2 2 = ztest true walk_program 2 2 /\
  (exists st o, it_run Z 0%Z Z.add Z.mul Z.sub Z.opp 2 walk_program (it_init Z 2 2) = Some (st, o) /\ pins Z st = []).
Proof.
  split; [vm_compute; reflexivity|]. split; [vm_compute; reflexivity|].
  destruct (C85_iterators_denote_positions Z 0%Z 1%Z Z.add Z.mul Z.sub Z.opp InitialRing.Zth 2 ltac:(lia) 2 2 walk_program
    (match i_run Z 0%Z Z.add Z.mul Z.sub true walk_program (repeat None 2, repeat None 2) with Some ((v, _), _) => v | None => [] end)
    (repeat None 2)
    (match i_run Z 0%Z Z.add Z.mul Z.sub true walk_program (repeat None 2, repeat None 2) with Some (_, o) => o | None => [] end)) as (st & E & D).
  - vm_compute. reflexivity.
  - eexists st, _. split; [exact E|]. apply D. reflexivity.
Qed.
(** the traversal of a 2 x 3 matrix *)
Example C85_traversal_example :
  zrun 2 ([IMat (CNew 0 2 3); IMat (CSet 0 0 1 1%Z); IMat (CSet 0 1 0 2%Z)] ++ [INew 0 0 0 0] ++ read_on true true 6 ++ [IEnd 1 0; IEq 0 1]) 1 2
  = Some ([([], []); ([], []); ([], []); ([], [])] ++
          [([], [0%Z]); ([], []); ([], [2%Z]); ([], []); ([], [1%Z]); ([], []); ([], [0%Z]); ([], []); ([], [0%Z]); ([], []); ([], [0%Z]); ([], [])] ++
          [([], []); ([1], [])]).
Proof. vm_compute. reflexivity. Qed.

(** For a matrix of height or width 0, begin() differs from end(), and the usual loop dereferences an element that does not
    exist. *)
Theorem C85_empty_matrix_refuted :
  exists (h w : nat), h * w = 0 /\
    zrun 2 [IMat (CNew 0 h w); INew 0 0 0 0; IEnd 1 0; IEq 0 1] 1 2 = Some [([], []); ([], []); ([], []); ([0], [])] /\
    zrun 2 [IMat (CNew 0 h w); INew 0 0 0 0; IGet 0] 1 2 = None.
Proof. exists 0, 2. split; [reflexivity|]. split; vm_compute; reflexivity. Qed.

(** ** C86: iterators without the restrictions of C85 *)

(** An iterator that has read an element of one matrix is assigned an iterator over another one: it reads the element of the
    first matrix, and its destructor releases a block that it has not acquired. *)
Theorem C86_assignment_across_matrices_refuted :
  exists cs outs outs', ztest false cs 2 2 = Some outs /\ zrun 2 cs 2 2 = Some outs' /\ outs' <> outs /\
    ztest false (cs ++ [IDel 0]) 2 2 <> None /\ zrun 2 (cs ++ [IDel 0]) 2 2 = None.
Proof.
  exists [IMat (CNew 0 2 2); IMat (CNew 1 2 2); IMat (CSet 0 0 0 1%Z); IMat (CSet 1 0 0 5%Z); INew 0 0 0 0; IGet 0; INew 1 1 0 0; IAssign 0 1; IGet 0].
  eexists _, _. split; [vm_compute; reflexivity|]. split; [vm_compute; reflexivity|]. split; [congruence|].
  split; [vm_compute; congruence|vm_compute; reflexivity].
Qed.
(** A matrix is copied while there is an iterator over it: writing through the iterator changes the copy. *)
Theorem C86_write_after_copy_refuted :
  exists cs outs outs', ztest false cs 2 1 = Some outs /\ zrun 2 cs 2 1 = Some outs' /\ outs' <> outs.
Proof.
  exists [IMat (CNew 0 2 2); IMat (CSet 0 0 0 1%Z); INew 0 0 0 0; IMat (CCopy 1 0); IPut 0 7%Z; IMat (CGet 1 0 0)].
  eexists _, _. split; [vm_compute; reflexivity|]. split; [vm_compute; reflexivity|]. congruence.
Qed.
(** A matrix is copied and then changed while there is an iterator over it that has acquired a block: the destructor of the
    iterator releases a block that it has not acquired; before, the iterator reads what is no longer in the matrix. *)
Theorem C86_change_after_copy_refuted :
  exists cs outs outs', ztest false cs 2 1 = Some outs /\ zrun 2 cs 2 1 = Some outs' /\ outs' <> outs /\
    ztest false (cs ++ [IDel 0]) 2 1 <> None /\ zrun 2 (cs ++ [IDel 0]) 2 1 = None.
Proof.
  exists [IMat (CNew 0 2 2); IMat (CSet 0 0 0 1%Z); INew 0 0 0 0; IGet 0; IMat (CCopy 1 0); IMat (CSet 0 0 0 3%Z); IGet 0].
  eexists _, _. split; [vm_compute; reflexivity|]. split; [vm_compute; reflexivity|]. split; [congruence|].
  split; [vm_compute; congruence|vm_compute; reflexivity].
Qed.

(** The property without restrictions *)
Definition iterators_always_denote_positions : Prop :=
  forall (R : Type) (rO rI : R) (radd rmul rsub : R -> R -> R) (ropp : R -> R),
    ring_theory rO rI radd rmul rsub ropp eq ->
    forall (B : nat), 0 < B ->
    forall (n k : nat) (cs : list (icmd R)) vs its outs,
      i_run R rO radd rmul rsub false cs (repeat None n, repeat None k) = Some ((vs, its), outs) ->
      exists st, it_run R rO radd rmul rsub ropp B cs (it_init R n k) = Some (st, outs).
Theorem C86_iterators_refuted : ~ iterators_always_denote_positions.
Proof.
  intros H. destruct C86_write_after_copy_refuted as (cs & outs & outs' & E1 & E2 & N).
  destruct (i_run Z 0%Z Z.add Z.mul Z.sub false cs (repeat None 2, repeat None 1)) as [[[vs its] o]|] eqn:E; [|discriminate].
  injection E1 as ->. destruct (H Z 0%Z 1%Z Z.add Z.mul Z.sub Z.opp InitialRing.Zth 2 ltac:(lia) 2 1 cs vs its outs E) as (st & Es).
  rewrite Es in E2. congruence.
Qed.
(** what is true of it: programs that meet the restrictions *)
Theorem C86_iterators_partial :
  forall (R : Type) (rO rI : R) (radd rmul rsub : R -> R -> R) (ropp : R -> R),
    ring_theory rO rI radd rmul rsub ropp eq ->
    forall (B : nat), 0 < B ->
    forall (n k : nat) (cs : list (icmd R)) vs its outs,
      i_run R rO radd rmul rsub true cs (repeat None n, repeat None k) = Some ((vs, its), outs) ->
      i_run R rO radd rmul rsub false cs (repeat None n, repeat None k) = Some ((vs, its), outs) /\
      exists st, it_run R rO radd rmul rsub ropp B cs (it_init R n k) = Some (st, outs).
Proof.
  intros R rO rI radd rmul rsub ropp Rth B HB n k cs vs its outs H. split.
  - revert H. generalize (repeat (@None (mval R)) n, repeat (@None (nat * option (nat * nat))) k). generalize outs.
    induction cs as [|c cs IH]; intros out st; cbn [i_run]; auto.
    destruct (i_step R rO radd rmul rsub true c st) as [[st1 o]|] eqn:E; [|discriminate].
    assert (E' : i_step R rO radd rmul rsub false c st = Some (st1, o)).
    { destruct st as [vs0 its0]. destruct c; cbn [i_step negb orb] in *; auto.
      - destruct (idle R its0 c); [auto|discriminate].
      - destruct (live its0 k0) as [[? ?]|]; auto. destruct (live its0 a) as [[? ?]|]; auto. destruct (n0 =? n1); [auto|discriminate]. }
    rewrite E'. destruct (i_run R rO radd rmul rsub true cs st1) as [[st2 os]|] eqn:E2; [|discriminate].
    intros H. injection H as H1 H2. subst st2 out. rewrite (IH _ _ E2). reflexivity.
  - destruct (C85_iterators_denote_positions R rO rI radd rmul rsub ropp Rth B HB n k cs vs its outs H) as (st & E & _). eauto.
Qed.

Print Assumptions C85_iterators_denote_positions.
Print Assumptions C85_traversal_visits_every_element.
Print Assumptions C85_empty_matrix_refuted.
Print Assumptions C86_assignment_across_matrices_refuted.
Print Assumptions C86_write_after_copy_refuted.
Print Assumptions C86_change_after_copy_refuted.
Print Assumptions C86_iterators_refuted.
Print Assumptions C86_iterators_partial.
