(** C53: splitting sorted sequences at a rank.  C65: the documented rule for equal elements. *)
From Coq Require Import List Bool Arith ZArith Lia Permutation Sorted.
From Verif Require Import OrderLib MultiseqModel MultiseqSpec MultiseqProofs MultiseqResultProofs.
Import ListNotations.
Open Scope Z_scope.

(** non-empty (asserted at multiseq_selection.h:133 / 367) and short enough for the 64-bit rounding *)
Definition lengths_fit {A} (seqs : list (list A)) : Prop := Forall (fun s => (0 < length s)%nat /\ Z.of_nat (length s) < 2 ^ 62) seqs.

Theorem C53_partition : forall (A : Type) lt (seqs : list (list A)) rank, strict_weak lt -> Forall (sorted lt) seqs -> lengths_fit seqs ->
  0 <= rank <= Z.of_nat (length (concat seqs)) ->
  exists offs, multiseq_partition A lt seqs rank = Some offs /\ splits_at lt seqs rank offs.
Proof. intros A lt seqs rank SW HS HL HR. apply (partition_ok A lt SW seqs HS rank HL HR). Qed.

Theorem C53_selection : forall (A : Type) lt (seqs : list (list A)) rank, strict_weak lt -> Forall (sorted lt) seqs -> lengths_fit seqs ->
  0 <= rank < Z.of_nat (length (concat seqs)) ->
  exists v offset, multiseq_selection A lt seqs rank = Some (v, offset) /\ selects lt seqs rank v offset.
Proof. intros A lt seqs rank SW HS HL HR. apply (selection_ok A lt SW seqs HS rank HL HR). Qed.

Example C53_ex : let seqs := [[2; 5; 7; 9]; [2; 2; 8; 10; 11]; [1; 1; 1]]%nat in
  Forall (sorted Nat.ltb) seqs /\ lengths_fit seqs /\
  multiseq_partition nat Nat.ltb seqs 7 = Some [2; 2; 3] /\ multiseq_selection nat Nat.ltb seqs 5 = Some (2%nat, 2).
Proof. cbv zeta. split; [repeat constructor|]. split; [repeat constructor|]. split; vm_compute; reflexivity. Qed.

(** C65, as documented at multiseq_selection.h:78-97: "ones on the left side will be chosen from sequences with smaller number".  It does not hold. *)
Theorem C65_ties_refuted : exists (seqs : list (list nat)) rank offs, strict_weak Nat.ltb /\ Forall (sorted Nat.ltb) seqs /\ lengths_fit seqs /\
  0 <= rank <= Z.of_nat (length (concat seqs)) /\ multiseq_partition nat Nat.ltb seqs rank = Some offs /\ ~ ties_in_front Nat.ltb seqs offs.
Proof.
  exists [[2]; [2; 2]; [1]]%nat, 3, [0; 2; 1]. split.
  { split; [intro x; apply Nat.ltb_irrefl| |]; intros x y z; rewrite ?Nat.ltb_lt, ?Nat.ltb_ge; lia. }
  split; [repeat constructor|]. split; [repeat constructor|]. split; [cbn; lia|]. split; [vm_compute; reflexivity|].
  intro H. pose proof (H 0%nat 1%nat [2]%nat [2; 2]%nat 0 2 2%nat 2%nat ltac:(lia) eq_refl eq_refl eq_refl eq_refl (or_introl eq_refl) (or_introl eq_refl)) as [E|E]; vm_compute in E; discriminate E.
Qed.

Print Assumptions C53_partition.
Print Assumptions C53_selection.
Print Assumptions C65_ties_refuted.
