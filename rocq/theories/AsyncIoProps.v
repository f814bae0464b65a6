(** C55: a program that waits for its requests before touching what they touch cannot observe the I/O schedule. *)
From Coq Require Import List Bool Arith.
From Verif Require Import SumLib AsyncIoModel AsyncIoProofs AsyncIoRules.
Import ListNotations.

(** If the machine that does all transfers at once finds no conflict, no use of a block that is not owned and no use of
    an uninitialised element, then for every schedule of the requests, every behaviour of other programs on other
    blocks and all initial contents, the program has the same result. *)
Theorem C55_schedule_independent : forall A R (p : prog A R) c d al o,
  srun p (sinit al) <> Error ->
  match arun p (ainit c d al) o with
  | Done r _ => exists s, srun p (sinit al) = Done r s
  | Error => False
  | Stuck => True
  end.
Proof.
  intros A R p c d al o H. pose proof (arun_sim A R p _ _ o (sim_init A c d al) H) as G.
  destruct (arun p (ainit c d al) o) as [r (a & o')| |]; auto. destruct G as (s & E & _). eauto.
Qed.

(** Two schedules, two initial contents: same result. *)
Theorem C55_same_result : forall A R (p : prog A R) al c d o r a c' d' o' r' a',
  srun p (sinit al) <> Error ->
  arun p (ainit c d al) o = Done r a -> arun p (ainit c' d' al) o' = Done r' a' -> r = r'.
Proof.
  intros A R p al c d o r a c' d' o' r' a' H E E'.
  pose proof (C55_schedule_independent A R p c d al o H) as G. rewrite E in G. destruct G as (s & G).
  pose proof (C55_schedule_independent A R p c' d' al o' H) as G'. rewrite E' in G'. destruct G' as (s' & G'). congruence.
Qed.

(** When the program ends, a block it owns, for which it has no request that was not waited for, holds exactly what the
    immediate machine says. *)
Theorem C55_disk_contents : forall A R (p : prog A R) c d al o r a o' s,
  srun p (sinit al) = Done r s -> arun p (ainit c d al) o = Done r (a, o') ->
  forall b i v, In b (sown s) -> (forall q, In q (sout s) -> a_bid q <> b) -> sdisk s b i = Some v -> adisk a b i = v.
Proof.
  intros A R p c d al o r a o' s H E b i v Hb Hq Hv.
  assert (N : srun p (sinit al) <> Error) by congruence.
  pose proof (arun_sim A R p _ _ o (sim_init A c d al) N) as G. rewrite E in G. destruct G as (s' & E' & M).
  assert (s' = s) by congruence. subst s'. apply (m_d2 _ _ _ M b); auto. intros q Hq1 _ C. apply (Hq q); [|exact C]. apply M. exact Hq1.
Qed.

(** Some schedule gets the program to its end. *)
Theorem C55_progress : forall A R (p : prog A R) c d al r s,
  srun p (sinit al) = Done r s -> exists o a, arun p (ainit c d al) o = Done r (a, []).
Proof. intros A R p c d al r s H. exact (arun_progress A R p _ _ r s (sim_init A c d al) H). Qed.

(** Without waiting the result depends on the schedule: write a block, change the buffer, read the block back. *)
Definition hasty : prog nat nat :=
  DoAlloc 1 (fun l => match l with
    | [b] => DoPut 0 0 1 (DoWrite 0 b (fun q => DoPut 0 0 2 (DoWait q (DoRead 1 b (fun q' => DoWait q' (DoGet 1 0 Ret))))))
    | _ => Err end).
Definition careful : prog nat nat :=
  DoAlloc 1 (fun l => match l with
    | [b] => DoPut 0 0 1 (DoWrite 0 b (fun q => DoWait q (DoPut 0 0 2 (DoRead 1 b (fun q' => DoWait q' (DoGet 1 0 Ret))))))
    | _ => Err end).
Definition res {R S} (x : result R S) : option R := match x with Done r _ => Some r | _ => None end.
Example hasty_differs :
  res (arun hasty (ainit (fun _ _ => 0) (fun _ _ => 0) [[7]]) [[]; []; []; [AServe 0]; []; []; [AServe 1]; []]) = Some 1 /\
  res (arun hasty (ainit (fun _ _ => 0) (fun _ _ => 0) [[7]]) [[]; []; []; []; [AServe 0]; []; [AServe 1]; []]) = Some 2 /\
  srun hasty (sinit [[7]]) = Error.
Proof. repeat split; vm_compute; reflexivity. Qed.
Example careful_does_not : res (srun careful (sinit [[7]])) = Some 1 /\
  res (arun careful (ainit (fun _ _ => 0) (fun _ _ => 0) [[7]]) [[]; []; [AOther 3 0 5]; [AServe 0]; []; []; [AServe 1]; []]) = Some 1.
Proof. split; vm_compute; reflexivity. Qed.
Print Assumptions C55_schedule_independent.
Print Assumptions C55_same_result.
Print Assumptions C55_disk_contents.
Print Assumptions C55_progress.
