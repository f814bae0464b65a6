(** Model of a bulk-limit session of the parallel priority queue: include/stxxl/bits/containers/parallel_priority_queue.h 3157-3270.

    Simplified: limit_push appends to an insertion heap, the heap order of which is restored in bulk_push_end (2738-2750);
    until then only its size, its elements (sorted when flushed) and whether its first element is below the limit matter.
    Heaps are sorted lists here as in PpqModel.  m_heaps_size, which lags behind during a session, only saves a flush that would find nothing.
    None: a failing assertion, or an access behind the extract buffer. *)
From Coq Require Import List Bool Arith.
From Verif Require Import OrderLib MwSortModel PpqModel.
Import ListNotations.

Section Limit.
  Variable A : Type.
  Variable lt : A -> A -> bool.
  Variable mm : list (list A) -> nat -> list A * list (list A).
  Variable srt : list A -> list A.
  Variables (cap bs ebl lsz maxl : nat).
  (** m_limit_element, m_limit_has_full_range *)
  Record session := Ses { queue : st A; mark : A; whole : bool }.

  (** 3182-3192, 3219-3231, 3248-3260: the extract buffer becomes what bulk_pop_limit extracts *)
  Definition fetch (d1 d2 : dec) (waits : list nat) (limit : A) (s : st A) : option session :=
    r <- bulk_pop_limit A lt mm srt bs lsz maxl d1 d2 waits limit ebl s ;;
    Some (Ses (St A (heaps A (snd r)) (fst (fst r)) (ias A (snd r)) (eas A (snd r))) limit (snd (fst r))).
  (** 3175-3195 *)
  Definition limit_begin (d1 d2 : dec) (waits : list nat) (limit : A) (s : st A) : option session := fetch d1 d2 waits limit s.
  (** 3198-3204 with 2634-2697; convert_eb_into_ia tells that the range is no longer in the buffer (3722-3725) *)
  Definition limit_push (d : dec) (p : nat) (x : A) (z : session) : option session :=
    if lt x (mark z) then None else
    s <- push A lt mm srt cap bs lsz maxl d p x (queue z) ;;
    Some (Ses s (mark z) (whole z && (is_nil (eb A (queue z)) || negb (is_nil (eb A s))))).
  (** 3207-3235 *)
  Definition limit_top (d1 d2 : dec) (waits : list nat) (z : session) : option (A * session) :=
    if is_nil (eb A (queue z)) && whole z then Some (mark z, z) else
    z <- (if is_nil (eb A (queue z)) then fetch d1 d2 waits (mark z) (queue z) else Some z) ;;
    x <- hd_error (eb A (queue z)) ;; Some (x, z).
  (** 3238-3261 *)
  Definition limit_pop (d1 d2 : dec) (waits : list nat) (z : session) : option session :=
    match eb A (queue z) with
    | [] => None
    | _ :: b =>
      let s := St A (heaps A (queue z)) b (ias A (queue z)) (eas A (queue z)) in
      if is_nil b && negb (whole z) then fetch d1 d2 waits (mark z) s else Some (Ses s (mark z) (whole z))
    end.
  (** 3264-3271 *)
  Definition limit_end (z : session) : st A := queue z.
End Limit.
