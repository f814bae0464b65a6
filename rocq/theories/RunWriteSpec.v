(** What the runs of runs_creator<use_push> have to be, and when the user may clear or destroy it. *)
From Coq Require Import List Bool Arith.
From Verif Require Import SortModel RunWriteModel.
Import ListNotations.

Section Spec.
  Variable A : Type.
  Variable maxv : A.
  Variable srt : list A -> list A.
  Variable B m2 : nat.

  (** items pushed since the last clear, result computed, buffers there *)
  Record told := mkh { h_items : list A; h_computed : bool; h_alloc : bool }.
  Definition idle (h : told) : bool := h_computed h || Nat.leb (length (h_items h)) (m2 * B).
  (** the allowed operations; clear() only if no run is under way *)
  Definition tell (o : wop A) (h : told) : option told :=
    match o with
    | WPush x => if negb (h_computed h) && h_alloc h then Some (mkh (h_items h ++ [x]) false true) else None
    | WResult => if h_computed h || h_alloc h then Some (mkh (h_items h) true (h_alloc h)) else None
    | WClear => if h_alloc h && idle h then Some (mkh [] false true) else None
    | WAllocate => if idle h then Some (mkh [] false true) else None
    | WDeallocate => if h_computed h || h_alloc h then Some (mkh (h_items h) true false) else None
    end.
  Fixpoint tells (os : list (wop A)) (h : told) : option told :=
    match os with [] => Some h | o :: os => match tell o h with Some h => tells os h | None => None end end.

  (** small inputs are kept; the others are cut into runs, each sorted and filled up with the greatest value *)
  Definition padded (l : list A) : list A := srt l ++ repeat maxv (blocks_of B (length l) * B - length l).
  Definition expected (items : list A) : list A * list (list A * nat) :=
    if Nat.leb (length items) B then (srt items, []) else ([], map (fun c => (padded c, length c)) (chunks (m2 * B) items)).
End Spec.
Arguments mkh {A}. Arguments h_items {A}. Arguments h_computed {A}. Arguments h_alloc {A}.
