(** C46: addressable queues keep order and membership. *)
From Coq Require Import List Bool Arith Lia.
From Verif Require Import AddrQueueModel AddrQueueSpec AddrQueueProofs.
Import ListNotations.

(** For every history the FIFO queue answers as the list of present keys in
    order of last insertion (each key once) does; it never dereferences a dead
    iterator, and stops only at an operation that has no legal answer (top/pop
    on empty, erase through a handle of an absent key). *)
Theorem C46_fifo_queue : forall K P (keq : forall a b : K, {a = b} + {a <> b}) klt,
  strict_total klt -> forall h : list (op K P),
  match run K P (f_step K klt P) (f_new K) h with
  | Ok (_, os) => exists l, fifo_hist K P keq [] h os l /\ NoDup l
  | UB => False
  | Misuse => exists h1 a h2 os l, h = h1 ++ a :: h2 /\ fifo_hist K P keq [] h1 os l /\
                (forall l' o, ~ fifo_ref K P keq l a l' o)
  end.
Proof. exact C46_f. Qed.

(** The same for the priority queue against a partial map from keys to
    priorities: pop/top give a key of smallest priority (smallest key among
    equivalent priorities). *)
Theorem C46_priority_queue : forall K P klt, strict_total klt ->
  forall c, strict_weak c -> forall h : list (op K P),
  match run K P (p_step K klt P c) (p_new K P) h with
  | Ok (_, os) => exists m, pq_hist K P klt c (fun _ => None) h os m
  | UB => False
  | Misuse => exists h1 a h2 os m, h = h1 ++ a :: h2 /\ pq_hist K P klt c (fun _ => None) h1 os m /\
                (forall m' o, ~ pq_ref K P klt c m a m' o)
  end.
Proof. exact C46_p. Qed.

Example C46_nat_total : strict_total Nat.ltb.
Proof.
  split; [intro; apply Nat.ltb_irrefl|]. split.
  - intros a b d. rewrite !Nat.ltb_lt. lia.
  - intros a b. rewrite !Nat.ltb_ge. lia.
Qed.
Example C46_nat_weak : strict_weak Nat.ltb.
Proof.
  split; [intro; apply Nat.ltb_irrefl|]. split.
  - intros a b d. rewrite !Nat.ltb_lt. lia.
  - intros a b d. rewrite !Nat.ltb_ge. lia.
Qed.
Definition hist1 : list (op nat nat) :=
  [Insert _ _ 1 5; Insert _ _ 2 3; Insert _ _ 3 4; Insert _ _ 1 1; Erase _ _ 2; Pop _ _; Insert _ _ 4 4; Pop _ _; Pop _ _; Empty _ _].
Example C46_fifo_run :
  match run nat nat (f_step nat Nat.ltb nat) (f_new nat) hist1 with
  | Ok (_, os) => os = [OBool _ true; OBool _ true; OBool _ true; OBool _ false; OBool _ true; OKey _ 3;
                        OBool _ true; OKey _ 1; OKey _ 4; OBool _ true]
  | _ => False end.
Proof. vm_compute. reflexivity. Qed.
Example C46_pq_run :
  match run nat nat (p_step nat Nat.ltb nat Nat.ltb) (p_new nat nat) hist1 with
  | Ok (_, os) => os = [OBool _ true; OBool _ true; OBool _ true; OBool _ false; OBool _ true; OKey _ 1;
                        OBool _ true; OKey _ 3; OKey _ 4; OBool _ true]
  | _ => False end.
Proof. vm_compute. reflexivity. Qed.

Print Assumptions C46_fifo_queue.
Print Assumptions C46_priority_queue.
