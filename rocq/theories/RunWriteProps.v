(** C73: requests of runs_creator<use_push>. *)
From Coq Require Import List Bool Arith Lia Permutation.
From Verif Require Import SumLib AsyncIoModel AsyncIoProofs AsyncIoRules SortModel RunWriteModel RunWriteSpec RunWriteProofs.
Import ListNotations.

(** For every schedule of the requests: no access conflicts with a request that is under way, the runs read back are the ones expected, all blocks
    have been freed and no request is left.  Only if clear(), allocate() and the destructor are used while no run is under way. *)
Theorem C73_runs_partial : forall (A : Type) (maxv : A) (srt : list A -> list A) (B m2 : nat), 0 < B -> 0 < m2 -> (forall l, Permutation (srt l) l) ->
  forall (os : list (wop A)) h, tells A B m2 os (mkh [] false true) = Some h -> idle A B m2 h = true ->
  forall c d al o, match arun (use_runs A maxv srt B m2 os) (ainit c d al) o with
    | Done x (a, _) => aown a = [] /\ (h_computed h = true -> x = expected A maxv srt B m2 (h_items h))
    | Error => False
    | Stuck => True
    end.
Proof.
  intros A maxv srt B m2 HB HM HS os h E Hi c d al o.
  pose proof (ok_async_sim A _ _ _ (fun al => use_runs_ok A maxv srt B m2 HB HM (fun l => Permutation_length (HS l)) os h al E Hi) c d al o) as G.
  destruct (arun _ _ o) as [x (a & o')| |]; auto. destruct G as (s & (G1 & G2 & G3) & M). split; [rewrite (m_own _ _ _ M); exact G1|exact G3].
Qed.
Theorem C73_runs_progress : forall (A : Type) (maxv : A) (srt : list A -> list A) (B m2 : nat), 0 < B -> 0 < m2 -> (forall l, Permutation (srt l) l) ->
  forall (os : list (wop A)) h, tells A B m2 os (mkh [] false true) = Some h -> idle A B m2 h = true ->
  forall c d, exists al o x a, arun (use_runs A maxv srt B m2 os) (ainit c d al) o = Done x (a, []) /\ (h_computed h = true -> x = expected A maxv srt B m2 (h_items h)).
Proof.
  intros A maxv srt B m2 HB HM HS os h E Hi. apply (ok_async_progress A _ _ (fun x => h_computed h = true -> x = expected A maxv srt B m2 (h_items h))). intro al.
  eapply ok_imp; [apply (use_runs_ok A maxv srt B m2 HB HM (fun l => Permutation_length (HS l)) os h al E Hi)|]. intros x s (_ & _ & H). exact H.
Qed.

Definition ex_ins := fix ins (x : nat) (l : list nat) := match l with [] => [x] | y :: t => if Nat.leb x y then x :: l else y :: ins x t end.
Definition ex_sort := fix go (l : list nat) := match l with [] => [] | x :: t => ex_ins x (go t) end.
Lemma ex_sort_perm l : Permutation (ex_sort l) l.
Proof.
  induction l as [|x l IH]; [reflexivity|]. cbn. transitivity (x :: ex_sort l); [|constructor; exact IH]. generalize (ex_sort l) as t. clear.
  induction t as [|y t IH]; [reflexivity|]. cbn. destruct (Nat.leb x y); [reflexivity|]. rewrite IH. apply perm_swap.
Qed.
Definition ex_zero : nat -> nat -> nat := fun _ _ => 0.
(** two runs under way, then the result; clear and a small result *)
Example C73_ex_told : tells nat 2 2 [WPush 5; WPush 3; WPush 9; WPush 1; WPush 7; WPush 4; WPush 8; WPush 2; WPush 6; WResult] (mkh [] false true)
    = Some (mkh [5; 3; 9; 1; 7; 4; 8; 2; 6] true true)
  /\ expected nat 99 ex_sort 2 2 [5; 3; 9; 1; 7; 4; 8; 2; 6] = ([], [([1; 3; 5; 9], 4); ([2; 4; 7; 8], 4); ([6; 99], 1)])
  /\ tells nat 2 2 [WPush 5; WPush 3; WPush 9; WPush 1; WPush 7; WResult; WClear; WPush 2; WPush 1; WDeallocate; WAllocate; WPush 3; WResult] (mkh [] false true) = Some (mkh [3] true true).
Proof. repeat split. Qed.
Example C73_ex_run : let p := use_runs nat 99 ex_sort 2 2 [WPush 5; WPush 3; WPush 9; WPush 1; WPush 7; WPush 4; WPush 8; WPush 2; WPush 6; WResult] in
  let i := ainit ex_zero ex_zero [[10; 11]; [12; 13]; [14]] in
  match arun p i (eager p i) with Done x _ => x = ([], [([1; 3; 5; 9], 4); ([2; 4; 7; 8], 4); ([6; 99], 1)]) | _ => False end.
Proof. vm_compute. reflexivity. Qed.

(** The destructor does not wait for the run under way: its blocks are freed and its buffers are deleted, then the write happens.
    Here block 7 belongs to somebody else already, whose value 55 is lost. *)
Theorem C73_destroy_refuted : exists (os : list (wop nat)) al o x a a',
  arun (use_runs nat 99 ex_sort 2 1 os) (ainit ex_zero ex_zero al) o = Done x (a, []) /\ aown a = [] /\
  aserves a [AOther 7 0 55; AServe 0] = Some a' /\ adisk a' 7 0 <> 55.
Proof.
  exists [WPush 1; WPush 2; WPush 3], [[7]], [[]; []; []; []; []; []; []; []; []; []; []; []; []].
  eexists. eexists. eexists. split; [vm_compute; reflexivity|]. split; [reflexivity|]. split; [vm_compute; reflexivity|]. vm_compute. discriminate.
Qed.
(** clear() frees the blocks of the run under way and leaves its requests behind: the new run gets one of the blocks, and then the old write happens. *)
Theorem C73_clear_refuted : exists (os : list (wop nat)) al o x a,
  arun (use_runs nat 99 ex_sort 1 3 ([WPush 1; WPush 2; WPush 3; WPush 4; WClear] ++ os ++ [WResult])) (ainit ex_zero ex_zero al) o = Done x (a, []) /\
  os = [WPush 5; WPush 6] /\ x = ([], [([3; 6], 2)]) /\ expected nat 99 ex_sort 1 3 [5; 6] = ([], [([5; 6], 2)]).
Proof.
  exists [WPush 5; WPush 6], [[7; 8; 9]; [9; 8]],
    [[]; []; []; []; []; []; []; []; []; []; []; []; []; []; []; []; []; []; []; []; []; []; []; []; []; []; [AServe 0]; []; []; [AServe 1]; []; [AServe 3]; [AServe 4]; [AServe 2]; []; [AServe 5]; []; []; [AServe 6]; []; []; []; []; []; []; []; []].
  eexists. eexists. split; [vm_compute; reflexivity|]. split; [reflexivity|]. split; reflexivity.
Qed.

Print Assumptions C73_runs_partial.
Print Assumptions C73_runs_progress.
Print Assumptions C73_destroy_refuted.
Print Assumptions C73_clear_refuted.
