(** Threads of a bulk flushing full insertion heaps at the same time:
    include/stxxl/bits/containers/parallel_priority_queue.h 3912-3965 called by bulk_push (2665-2673), each thread for its own heap.

    std::sort (3932) runs before the critical section, deactivate_heap (3944) inside, where the winner tree of the heaps
    (1683, WinnerModel) compares roots, insertion_heap[0], of other heaps (1642-1650).
    While a heap is being sorted its root is being written by another thread: reading it is a data race, hence no value.
    Simplified: the rest of the critical section, including the head tree, which reads the root of the winning heap as well
    (1611-1614, 1759); a step of the critical section is atomic. Sorting may bring any element to the root ([Sorted p a]),
    as a bulk does not keep the heap order; the tree is not told.
    None: a data race, or a failing assertion of the winner tree. *)
From Coq Require Import List Bool Arith.
From Verif Require Import SumLib WinnerModel.
Import ListNotations.

Section Race.
  Variable A : Type.
  Variable lt : A -> A -> bool.

  Inductive phase := Pushing | Sorting | Waiting.
  (** roots of the heaps in the tree, the tree, where each thread is *)
  Record rst := RS { roots : nat -> option A; wt : wtree; ph : nat -> phase }.
  Definition sorting (f : phase) : bool := match f with Sorting => true | _ => false end.

  Inductive event := Sort (p : nat) | Sorted (p : nat) (a : A) | Critical (p : nat).
  (** an event that thread cannot do now is left out of the schedule *)
  Definition rstep (e : event) (s : rst) : option rst :=
    match e with
    | Sort p => Some (match ph s p with Pushing => RS (roots s) (wt s) (upd (ph s) p Sorting) | _ => s end)
    | Sorted p a => Some (match ph s p with Sorting => RS (match roots s p with Some _ => upd (roots s) p (Some a) | None => roots s end) (wt s) (upd (ph s) p Waiting) | _ => s end)
    | Critical p =>
        match ph s p with
        | Waiting =>
            let mine := upd (roots s) p None in
            match deactivate_player A lt (fun q => if sorting (ph s q) then None else mine q) p (wt s) with
            | None => None
            | Some t => Some (RS mine t (upd (ph s) p Pushing))
            end
        | _ => Some s
        end
    end.
  Fixpoint rrun (l : list event) (s : rst) : option rst :=
    match l with [] => Some s | e :: l => match rstep e s with None => None | Some s => rrun l s end end.
End Race.
Arguments Sort {A}. Arguments Sorted {A}. Arguments Critical {A}.
Arguments RS {A}. Arguments roots {A}. Arguments wt {A}. Arguments ph {A}.
