(** Specification of the I/O statistics, in terms of the calls made, the timestamps taken and the time. *)
From Coq Require Import ZArith List Bool Arith Permutation.
From Verif Require Import IoStatsModel.
Import ListNotations.
Open Scope Z_scope.

(** No call is in progress. *)
Definition idle (m : mach) : Prop := Forall (fun t => snd t = []) (thr m).
Definition no_reset (es : list event) : Prop := forall i, ~ In (ECall i CReset) es /\ ~ In (ECall i CResetWait) es.

(** Sums over the calls of a run. *)
Fixpoint over_calls (f : call -> Z) (es : list event) : Z :=
  match es with
  | [] => 0
  | ECall _ c :: es => f c + over_calls f es
  | _ :: es => over_calls f es
  end.
(** operations and bytes: started but not canceled; cached *)
Definition is_op (w : bool) (c : call) : Z :=
  match c with CStart v _ => if Bool.eqb v w then 1 else 0 | CCancel v _ => if Bool.eqb v w then -1 else 0 | _ => 0 end.
Definition op_bytes (w : bool) (c : call) : Z :=
  match c with CStart v n => if Bool.eqb v w then n else 0 | CCancel v n => if Bool.eqb v w then - n else 0 | _ => 0 end.
Definition is_cached (w : bool) (c : call) : Z :=
  match c with CCached v _ => if Bool.eqb v w then 1 else 0 | _ => 0 end.
Definition cached_bytes (w : bool) (c : call) : Z :=
  match c with CCached v n => if Bool.eqb v w then n else 0 | _ => 0 end.

(** calls that start and end operations and waits *)
Definition starts (w : bool) (c : call) : Z := match c with CStart v _ => if Bool.eqb v w then 1 else 0 | _ => 0 end.
Definition ends (w : bool) (c : call) : Z :=
  match c with CFin v | CCancel v _ => if Bool.eqb v w then 1 else 0 | _ => 0 end.
Definition waits (r : bool) (c : call) : Z := match c with CWait v => if Bool.eqb v r then 1 else 0 | _ => 0 end.
Definition waited (r : bool) (c : call) : Z := match c with CWaited v => if Bool.eqb v r then 1 else 0 | _ => 0 end.

(** The times of a kind of timestamps. *)
Definition kind_eqb (a b : kind) : bool :=
  match a, b with
  | KStart v, KStart w | KFin v, KFin w | KWait v, KWait w | KWaited v, KWaited w => Bool.eqb v w
  | KReset, KReset => true
  | _, _ => false
  end.
Definition times (k : kind) (l : list (kind * Z)) : list Z := map snd (filter (fun e => kind_eqb k (fst e)) l).
(** The operations, as pairs of the time of the start and the time of the end. *)
Definition intervals (a b : kind) (l : list (kind * Z)) (ivs : list (Z * Z)) : Prop :=
  Permutation (times a l) (map fst ivs) /\ Permutation (times b l) (map snd ivs).
(** The time the operations take one after the other. *)
Definition total (ivs : list (Z * Z)) : Z := fold_right (fun i n => snd i - fst i + n) 0 ivs.
(** The number of ticks from [lo] to [hi] in which an operation runs. *)
Definition running (ivs : list (Z * Z)) (t : Z) : bool := existsb (fun i => (fst i <=? t) && (t <? snd i)) ivs.
Definition busy (lo hi : Z) (ivs : list (Z * Z)) : Z :=
  Z.of_nat (length (filter (running ivs) (map (fun k => lo + Z.of_nat k) (seq 0 (Z.to_nat (hi - lo)))))).

(** No thread is interrupted inside a call: how many steps a call has, and the runs built of whole calls. *)
Definition steps (c : call) : nat :=
  match c with
  | CStart _ _ | CFin _ => 3 | CCancel _ _ => 4 | CCached _ _ | CResetWait => 1 | CWait _ | CWaited _ => 2 | CReset => 6
  end.
Inductive serial : list event -> Prop :=
| serial_nil : serial []
| serial_tick d es : serial es -> serial (ETick d :: es)
| serial_call i c es : serial es -> serial (ECall i c :: repeat (EStep i) (steps c) ++ es).

(** The calls of a scoped timer: starts and ends alternate, beginning with a start, and the last is an end. *)
Fixpoint paired (on : Z -> call) (off : call) (l : list call) : Prop :=
  match l with
  | [] => True
  | a :: b :: l => (exists n, a = on n) /\ b = off /\ paired on off l
  | _ => False
  end.
