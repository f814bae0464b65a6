(** C63: the scanning algorithms treat exactly the elements of their range, in order, and leave the rest of the vector alone. *)
From Coq Require Import List Bool Arith.
From Verif Require Import ScanModel ScanSpec ScanProofs.
Import ListNotations.

(** for_each calls the function object on the elements of the range in order *)
Theorem C63_for_each : forall (A St : Type) B nb (f : St -> A -> St) st (v : list A) first last,
  0 < B -> length v = nb * B -> first <= last <= length v ->
  for_each A B St f st v first last = Some (fold_left f (range v first last) st).
Proof. intros A St B nb f st v first last HB HV HR. exact (for_each_ok A B HB St f st v nb first last HV HR). Qed.

(** for_each_m replaces each element of the range by what the function object makes of it, and no other; no element is written before it was read *)
Theorem C63_for_each_m : forall (A St : Type) B nb (f : St -> A -> St * A) st (v : list A) first last,
  0 < B -> length v = nb * B -> first <= last <= length v ->
  for_each_m A B St f st v first last =
  (let (st', l) := mapped f st (range v first last) in Some (st', replaced v first last l)).
Proof.
  intros A St B nb f st v first last HB HV HR. rewrite (for_each_m_ok A B HB St f st v nb first last HV HR).
  destruct (mapped f st (range v first last)); reflexivity.
Qed.

(** generate fills the range with the results of the generator, and nothing else *)
Theorem C63_generate : forall (A St : Type) B nb (g : St -> A * St) st (v : list A) first last,
  0 < B -> length v = nb * B -> first <= last <= length v ->
  generate A B St g st v first last =
  (let (st', l) := generated g st (last - first) in Some (st', replaced v first last l)).
Proof.
  intros A St B nb g st v first last HB HV HR. rewrite (generate_ok A B HB St g st v nb first last HV HR).
  destruct (generated g st (last - first)); reflexivity.
Qed.

(** find returns the first match *)
Theorem C63_find : forall (A : Type) B nb p (v : list A) first last,
  0 < B -> length v = nb * B -> first <= last <= length v ->
  exists i, find A B p v first last = Some i /\ first_match p v first last i.
Proof. intros A B nb p v first last HB HV HR. exact (find_ok A B HB p v nb first last HV HR). Qed.

(** blocks of four; ranges that start and end inside blocks *)
Definition C63_v : list nat := [10; 11; 12; 13; 14; 15; 16; 17; 18; 19; 20; 21].
Example C63_ex_for_each : for_each nat 4 (list nat) (fun s x => s ++ [x]) [] C63_v 2 9 = Some [12; 13; 14; 15; 16; 17; 18].
Proof. reflexivity. Qed.
Example C63_ex_for_each_m : for_each_m nat 4 nat (fun s x => (S s, x * 100 + s)) 1 C63_v 3 6 =
  Some (4, [10; 11; 12; 1301; 1402; 1503; 16; 17; 18; 19; 20; 21]).
Proof. reflexivity. Qed.
Example C63_ex_generate : generate nat 4 nat (fun s => (s, S s)) 1 C63_v 3 10 = Some (8, [10; 11; 12; 1; 2; 3; 4; 5; 6; 7; 20; 21]) /\
  generate nat 4 nat (fun s => (s, S s)) 1 C63_v 1 3 = Some (3, [10; 1; 2; 13; 14; 15; 16; 17; 18; 19; 20; 21]) /\
  generate nat 4 nat (fun s => (s, S s)) 1 C63_v 4 12 = Some (9, [10; 11; 12; 13; 1; 2; 3; 4; 5; 6; 7; 8]).
Proof. repeat split; reflexivity. Qed.
Example C63_ex_find : find nat 4 (Nat.eqb 17) C63_v 3 10 = Some 7 /\ find nat 4 (Nat.eqb 19) C63_v 3 9 = Some 9 /\
  find nat 4 (Nat.eqb 11) C63_v 3 12 = Some 12.
Proof. repeat split; reflexivity. Qed.

Print Assumptions C63_for_each.
Print Assumptions C63_for_each_m.
Print Assumptions C63_generate.
Print Assumptions C63_find.
