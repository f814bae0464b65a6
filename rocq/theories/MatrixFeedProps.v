(** Products by algorithms 3 and 6 of matrix::multiply, the multi-level variants of Strassen-Winograd. *)
From Coq Require Import List Arith Bool PeanoNat Lia ZArith Ring.
From Verif Require Import MatrixModel MatrixFeedModel MatrixSpec MatrixObjModel MatrixObj MatrixObjStep MatrixProps.
Import ListNotations.

(** ** C84: algorithms 3 and 6 compute the product *)

Definition multi_level_correct (alg : nat) : Prop :=
  forall (R : Type) (rO rI : R) (radd rmul rsub : R -> R -> R) (ropp : R -> R),
    ring_theory rO rI radd rmul rsub ropp eq ->
    forall (B : nat), 0 < B ->
    forall (ta tb : bool) (h l w : nat) (fa fb : nat -> nat -> R) (i j : nat), i < h -> j < w ->
      exists outs, outputs R rO radd rmul rsub ropp B 3 (product alg ta tb h l w fa fb i j) = Some outs /\
        only_last outs (sum R rO radd l (fun k => rmul (fa i k) (fb k j))).

(** True if one of the three sides has at most two blocks (algorithm 3) or four blocks (algorithm 6).  Missing: more blocks. *)
Theorem C84_multi_level_partial :
  forall (R : Type) (rO rI : R) (radd rmul rsub : R -> R -> R) (ropp : R -> R),
    ring_theory rO rI radd rmul rsub ropp eq ->
    forall (B : nat), 0 < B ->
    forall (alg : nat) (ta tb : bool) (h l w : nat) (fa fb : nat -> nat -> R) (i j : nat), i < h -> j < w ->
      (alg = 3 /\ (ceil_div h B <= 2 \/ ceil_div l B <= 2 \/ ceil_div w B <= 2) \/
       alg = 6 /\ (ceil_div h B <= 4 \/ ceil_div l B <= 4 \/ ceil_div w B <= 4)) ->
      exists outs, outputs R rO radd rmul rsub ropp B 3 (product alg ta tb h l w fa fb i j) = Some outs /\
        only_last outs (sum R rO radd l (fun k => rmul (fa i k) (fb k j))).
Proof.
  intros R rO rI radd rmul rsub ropp Rth B HB alg ta tb h l w fa fb i j Hi Hj H.
  destruct (product_spec R rO radd rmul rsub (few_blocks B) alg ta tb h l w fa fb i j Hi Hj) as (outs & E1 & K).
  { unfold few_blocks. rewrite !orb_true_iff, !andb_true_iff, !orb_true_iff, !Nat.leb_le, !Nat.eqb_eq. tauto. }
  exists outs. split; auto. apply (program_ok R rO rI radd rmul rsub ropp Rth B HB (few_blocks B)); auto.
Qed.
(** whole programs that use these algorithms only for operands of few blocks *)
Theorem C84_programs_partial :
  forall (R : Type) (rO rI : R) (radd rmul rsub : R -> R -> R) (ropp : R -> R),
    ring_theory rO rI radd rmul rsub ropp eq ->
    forall (B : nat), 0 < B ->
    forall (n : nat) (cs : list (mcmd R)) (outs : list (list nat * list R)),
      spec_outputs R rO radd rmul rsub (few_blocks B) n cs = Some outs ->
      outputs R rO radd rmul rsub ropp B n cs = Some outs.
Proof. intros R rO rI radd rmul rsub ropp Rth B HB n cs outs H. apply (program_ok R rO rI radd rmul rsub ropp Rth B HB (few_blocks B)); auto. Qed.

(** the element read *)
Definition shown (outs : option (list (list nat * list Z))) : option (list nat * list Z) := option_map (fun l => last l ([], [])) outs.
Notation zsum := (sum Z 0%Z Z.add).

(** algorithm 6 with more than four blocks on each side computes the product of the first operand with itself *)
Theorem C84_block_grained_refuted : exists (h : nat) (fa fb : nat -> nat -> Z) (i j : nat), i < h /\ j < h /\
  shown (zout 1 3 (product 6 false false h h h fa fb i j)) = Some ([], [zsum h (fun k => fa i k * fa k j)%Z]) /\
  zsum h (fun k => fa i k * fa k j)%Z <> zsum h (fun k => fa i k * fb k j)%Z.
Proof. exists 5, fa, fb, 4, 3. split; [lia|]. split; [lia|]. split; [vm_compute; reflexivity|vm_compute; discriminate]. Qed.
(** ... and accesses blocks that do not exist if the operands are not square *)
Theorem C84_block_grained_sizes_refuted : exists (h l w i j : nat) (fa fb : nat -> nat -> Z), i < h /\ j < w /\
  zout 1 3 (product 6 false false h l w fa fb i j) = None.
Proof. exists 5, 9, 5, 0, 0, fa, fb. split; [lia|]. split; [lia|]. vm_compute. reflexivity. Qed.
(** algorithm 3 with a transposed operand: wrong *)
Theorem C84_transposed_refuted : exists (h i j : nat) (fa fb : nat -> nat -> Z) (x y : Z), i < h /\ j < h /\
  shown (zout 2 3 (product 3 true false h h h fa fb i j)) = Some ([], [x]) /\ x <> zsum h (fun k => fa i k * fb k j)%Z /\
  shown (zout 2 3 (product 3 false true h h h fa fb i j)) = Some ([], [y]) /\ y <> zsum h (fun k => fa i k * fb k j)%Z.
Proof.
  exists 6, 1, 2, fa, fb. eexists _, _. split; [lia|]. split; [lia|].
  split; [vm_compute; reflexivity|]. split; [vm_compute; discriminate|]. split; [vm_compute; reflexivity|vm_compute; discriminate].
Qed.
(** algorithm 3 with operands that are not square: a wrong result, and an access to blocks that do not exist *)
Theorem C84_sizes_refuted :
  (exists (h l w i j : nat) (fa fb : nat -> nat -> Z) (x : Z), i < h /\ j < w /\
     shown (zout 1 3 (product 3 false false h l w fa fb i j)) = Some ([], [x]) /\ x <> zsum l (fun k => fa i k * fb k j)%Z) /\
  (exists (h l w i j : nat) (fa fb : nat -> nat -> Z), i < h /\ j < w /\ zout 1 3 (product 3 false false h l w fa fb i j) = None).
Proof.
  split.
  - exists 5, 5, 3, 1, 2, fa, fb. eexists. split; [lia|]. split; [lia|]. split; [vm_compute; reflexivity|vm_compute; discriminate].
  - exists 3, 5, 3, 0, 0, fa, fb. split; [lia|]. split; [lia|]. vm_compute. reflexivity.
Qed.
Theorem C84_not_correct : ~ multi_level_correct 3 /\ ~ multi_level_correct 6.
Proof.
  split; intros H.
  - destruct (H Z 0%Z 1%Z Z.add Z.mul Z.sub Z.opp Zth 1 ltac:(lia) false false 3 5 3 fa fb 0 0 ltac:(lia) ltac:(lia)) as (outs & K & _).
    vm_compute in K. discriminate.
  - destruct (H Z 0%Z 1%Z Z.add Z.mul Z.sub Z.opp Zth 1 ltac:(lia) false false 5 9 5 fa fb 0 0 ltac:(lia) ltac:(lia)) as (outs & K & _).
    vm_compute in K. discriminate.
Qed.

(** ** Examples *)
(** 2 x 5 times 5 x 3 blocks, and 4 x 9 times 9 x 3 blocks *)
Example C84_example :
  shown (zout 1 3 (product 3 true true 2 5 3 fa fb 1 2)) = Some ([], [zsum 5 (fun k => fa 1 k * fb k 2)%Z]) /\
  shown (zout 1 3 (product 6 true false 4 9 3 fa fb 1 2)) = Some ([], [zsum 9 (fun k => fa 1 k * fb k 2)%Z]).
Proof. split; vm_compute; reflexivity. Qed.
(** algorithm 3 is right for square operands that are not transposed: tests, not proofs *)
Example C84_square_test :
  shown (zout 1 3 (product 3 false false 3 3 3 fa fb 1 2)) = Some ([], [zsum 3 (fun k => fa 1 k * fb k 2)%Z]) /\
  shown (zout 1 3 (product 3 false false 5 5 5 fa fb 1 2)) = Some ([], [zsum 5 (fun k => fa 1 k * fb k 2)%Z]).
Proof. split; vm_compute; reflexivity. Qed.

Print Assumptions C84_multi_level_partial.
Print Assumptions C84_programs_partial.
Print Assumptions C84_block_grained_refuted.
Print Assumptions C84_block_grained_sizes_refuted.
Print Assumptions C84_transposed_refuted.
Print Assumptions C84_sizes_refuted.
Print Assumptions C84_not_correct.
