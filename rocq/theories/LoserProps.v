(** C34: merging with the loser tree of algo/losertree.h. *)
From Coq Require Import List Bool Arith Lia Permutation Sorted.
From Verif Require Import OrderLib LoserModel LoserSpec LoserProofs.
Import ListNotations.

(** For every strict weak order, every number of runs, run lengths and block sizes: if the
    prefetcher delivers the blocks in the (stable) order of their first elements, then taking
    any numbers [ns] of elements, one output buffer after the other, succeeds, fills every
    buffer, and yields a sorted list of smallest elements of all runs. *)
Theorem C34_merge : forall (A : Type) (lt : A -> A -> bool), strict_weak lt ->
  forall (runs : list (list (A * list A))) (ns : list nat),
    runs <> [] -> Forall (is_run lt) runs -> list_sum ns <= length (elements runs) ->
    exists t outs t',
      new_tree A lt (length runs) (map snd (ssort (trig_lt lt) (concat runs))) = Some t /\
      multi_merges A lt ns t = Some (outs, t') /\
      map (@length A) outs = ns /\
      smallest_first lt (concat outs) (elements runs).
Proof. exact merge_runs_ok. Qed.

(** Taking as many elements as there are gives a sorted permutation. *)
Theorem C34_merge_all : forall (A : Type) (lt : A -> A -> bool), strict_weak lt ->
  forall (runs : list (list (A * list A))) (ns : list nat),
    runs <> [] -> Forall (is_run lt) runs -> list_sum ns = length (elements runs) ->
    exists t outs t',
      new_tree A lt (length runs) (map snd (ssort (trig_lt lt) (concat runs))) = Some t /\
      multi_merges A lt ns t = Some (outs, t') /\
      map (@length A) outs = ns /\
      sorted lt (concat outs) /\ Permutation (concat outs) (elements runs).
Proof.
  intros A lt SW runs ns H1 H2 H3.
  destruct (merge_runs_ok A lt SW runs ns H1 H2) as (t & outs & t' & E1 & E2 & E3 & S1 & rest & P & _); [lia|].
  exists t, outs, t'. split; [exact E1|]. split; [exact E2|]. split; [exact E3|]. split; [exact S1|].
  assert (Hl : length (concat outs) = list_sum ns).
  { rewrite <- E3. clear. induction outs as [|o os IH]; [reflexivity|]. simpl. rewrite app_length. f_equal. exact IH. }
  destruct rest as [|x rest].
  - rewrite app_nil_r in P. exact P.
  - apply Permutation_length in P. rewrite app_length in P. simpl in P. lia.
Qed.

(** Pairs ordered by key only: equivalent elements are not equal. *)
Definition klt (a b : nat * nat) : bool := Nat.ltb (fst a) (fst b).
Example klt_sw : strict_weak klt.
Proof.
  constructor; unfold klt; intros; rewrite ?Nat.ltb_lt, ?Nat.ltb_ge in *; try lia.
Qed.
Definition blk (l : list (nat * nat)) : (nat * nat) * list (nat * nat) := (hd (0, 0) l, l).
(** three runs (the tree has four leaves); the blocks of run 0 all come before those of run 1,
    so that at first two cursors hold blocks of the same run *)
Definition three : list (list ((nat * nat) * list (nat * nat))) :=
  [ [blk [(1,0); (1,1)]; blk [(1,2); (3,0)]; blk [(3,1); (4,0)]];
    [blk [(7,0); (8,0)]; blk [(9,0); (9,1)]];
    [blk [(3,2); (9,2)]] ].
Example three_runs : three <> [] /\ Forall (is_run klt) three /\ list_sum [5; 5; 2] = length (elements three).
Proof.
  split; [discriminate|]. split; [|reflexivity].
  repeat (constructor; [split; [discriminate|split; [repeat constructor|]]; repeat constructor|]). constructor.
Qed.
Example three_merged :
  match new_tree _ klt 3 (map snd (ssort (trig_lt klt) (concat three))) with
  | Some t => option_map fst (multi_merges _ klt [5; 5; 2] t)
  | None => None
  end = Some [ [(1,2); (1,0); (1,1); (3,2); (3,0)]; [(3,1); (4,0); (7,0); (8,0); (9,2)]; [(9,0); (9,1)] ].
Proof. vm_compute. reflexivity. Qed.

Print Assumptions C34_merge.
Print Assumptions C34_merge_all.
