(** What a user of stxxl::sorter relies on, independent of runs and merging. *)
From Coq Require Import List Bool Arith Permutation.
From Verif Require Import OrderLib SortModel SorterModel.
Import ListNotations.

Section Spec.
  Variable A : Type.
  Variable cmp : A -> A -> bool.
  Variable D raw : nat.

  (** Filling: items can be pushed.  Filled: after finish(), until sort().  Reading l: l is still to be delivered.
      Closed: after finish() or finish_clear() in the output state, until sort() or rewind(). *)
  Inductive phase := Filling | Filled | Reading (l : list A) | Closed.
  (** all items, phase, memory of the merger *)
  Record bag := mkb { b_items : list A; b_phase : phase; b_mem : nat }.
  Definition is_sorted_of (items l : list A) : Prop := Permutation items l /\ sorted cmp l.

  Inductive next : bag -> op A -> obs A -> bag -> Prop :=
  | n_push items m x : next (mkb items Filling m) (Push x) Nothing (mkb (items ++ [x]) Filling m)
  | n_sort items p m l : is_sorted_of items l -> next (mkb items p m) Sort Nothing (mkb items (Reading l) m)
  | n_sort_reuse items p m l : p = Filling \/ p = Filled -> is_sorted_of items l -> next (mkb items p m) Sort_reuse Nothing (mkb items (Reading l) m)
  | n_rewind items p m l : p <> Filling -> p <> Filled -> is_sorted_of items l -> next (mkb items p m) Rewind Nothing (mkb items (Reading l) m)
  | n_clear items p m : next (mkb items p m) Clear Nothing (mkb [] Filling m)
  | n_finish_in items p m : p = Filling \/ p = Filled -> next (mkb items p m) Finish Nothing (mkb items Filled m)
  | n_finish_out items p m : p <> Filling -> p <> Filled -> next (mkb items p m) Finish Nothing (mkb items Closed m)
  | n_finish_clear_in items p m : p = Filling \/ p = Filled -> next (mkb items p m) Finish_clear Nothing (mkb [] Filled m)
  | n_finish_clear_out items p m : p <> Filling -> p <> Filled -> next (mkb items p m) Finish_clear Nothing (mkb [] Closed m)
  | n_size_in items p m : p = Filling \/ p = Filled -> next (mkb items p m) Size (Number (length items)) (mkb items p m)
  | n_size_out items l m : next (mkb items (Reading l) m) Size (Number (length l)) (mkb items (Reading l) m)
  | n_empty items l m : next (mkb items (Reading l) m) Empty (Yes_no (Nat.eqb (length l) 0)) (mkb items (Reading l) m)
  | n_get items x l m : next (mkb items (Reading (x :: l)) m) Get (Item x) (mkb items (Reading (x :: l)) m)
  | n_next items x l m : next (mkb items (Reading (x :: l)) m) Next Nothing (mkb items (Reading l) m)
  | n_memory items p m m' : next (mkb items p m) (Set_memory m') Nothing (mkb items p m').

  (** the memory of the merger is too small for merging in several passes *)
  Definition little (m : nat) : Prop := m < (4 * D + 3) * raw.
  Definition starts_merging (o : op A) : Prop := o = Sort \/ o = Sort_reuse \/ o = Rewind.

  (** What is seen is what the bag allows: until the end, until the user does something that is not allowed, or until
      there is too little memory.  [deviates] are exceptions from [next], [fin] holds at the end. *)
  Inductive shows (deviates : bag -> op A -> obs A -> bag -> Prop) (fin : sorter A -> SortModel.st A -> Prop) : bag -> list (op A) -> list (obs A) * ending A -> Prop :=
  | s_end b t s : fin t s -> shows deviates fin b [] ([], Ends t s)
  | s_step b o v b' os vs e : next b o v b' -> shows deviates fin b' os (vs, e) -> shows deviates fin b (o :: os) (v :: vs, e)
  | s_throw b o os : starts_merging o -> little (b_mem b) -> shows deviates fin b (o :: os) ([], Throws)
  | s_not_allowed b o os r : (forall v b', ~ next b o v b') -> shows deviates fin b (o :: os) r
  | s_deviation b o v b' os vs e : deviates b o v b' -> shows deviates fin b' os (vs, e) -> shows deviates fin b (o :: os) (v :: vs, e).
  Definition exactly (_ : bag) (_ : op A) (_ : obs A) (_ : bag) : Prop := False.

  (** What the sorter does instead: size() after finish() counts too much, finish_clear() before sort() keeps the items. *)
  Inductive deviates : bag -> op A -> obs A -> bag -> Prop :=
  | d_size items m n : length items <= n <= 2 * length items -> deviates (mkb items Filled m) Size (Number n) (mkb items Filled m)
  | d_finish_clear items p m : p = Filling \/ p = Filled -> deviates (mkb items p m) Finish_clear Nothing (mkb items Filled m).

  (** When the sorter is destroyed its blocks are freed; blocks of others stay as they are. *)
  Definition tidy (s0 : SortModel.st A) (t : sorter A) (s : SortModel.st A) : Prop :=
    exists s', destroy t s = Some s' /\ Permutation (SortModel.s_live s0) (SortModel.s_live s') /\
      forall b, In b (SortModel.s_live s0) -> SortModel.s_disk s' b = SortModel.s_disk s0 b.
End Spec.
Arguments Filling {A}. Arguments Filled {A}. Arguments Reading {A}. Arguments Closed {A}.
Arguments mkb {A}. Arguments b_items {A}. Arguments b_phase {A}. Arguments b_mem {A}.
Arguments next {A}. Arguments shows {A}. Arguments is_sorted_of {A}. Arguments starts_merging {A}. Arguments exactly {A}. Arguments tidy {A}. Arguments deviates {A}.
