(** Model of the prefetch schedule (lib/algo/async_schedule.cpp).  [disks i]: get_disk(i, disks, D), at most D (asserted).
    The std::priority_queue of events returns any event with the smallest timestamp; which one is decided by [ch]. *)
From Coq Require Import List Bool Arith.
From Verif Require Import SumLib.
Import ListNotations.

Section Schedule.
Variables L m D : nat.
Variable disks : nat -> nat.

(** s_i = i + 1: blocks s_i - 1, ..., 0 have not been looked at.  s_out: the entries of o_time that were set, (block, time), last first *)
Record sim := mk_sim { s_i : nat; s_q : nat -> list nat; s_ev : list (nat * nat) (* (timestamp, iblock) *); s_old : nat; s_busy : nat -> bool; s_out : list (nat * nat) }.

(** 91-97 *)
Fixpoint fill (k : nat) (st : sim) : sim :=
  match k with
  | 0 => st
  | S k' => match s_i st with
            | 0 => st
            | S i => fill k' (mk_sim i (upd (s_q st) (disks i) (s_q st (disks i) ++ [i])) (s_ev st) (s_old st) (s_busy st) (s_out st))
            end
  end.
(** 99-106 *)
Fixpoint start (ds : list nat) (st : sim) : sim :=
  match ds with
  | [] => st
  | d :: ds' => match s_q st d with
                | [] => start ds' st
                | j :: r => start ds' (mk_sim (s_i st) (upd (s_q st) d r) ((1, j) :: s_ev st) (s_old st) (s_busy st) (s_out st))
                end
  end.
(** event_queue.top(), pop() *)
Fixpoint mintime (t : nat) (ev : list (nat * nat)) : nat := match ev with [] => t | (t', _) :: ev' => mintime (Nat.min t t') ev' end.
Fixpoint take (t c : nat) (ev : list (nat * nat)) : option ((nat * nat) * list (nat * nat)) :=
  match ev with
  | [] => None
  | e :: ev' => if Nat.eqb (fst e) t then
                  match c with
                  | 0 => Some (e, ev')
                  | S c' => match take t c' ev' with Some (e', r) => Some (e', e :: r) | None => Some (e, ev') end
                  end
                else match take t c ev' with Some (e', r) => Some (e', e :: r) | None => None end
  end.
Definition pop_event (c : nat) (ev : list (nat * nat)) : option ((nat * nat) * list (nat * nat)) :=
  match ev with [] => None | (t, _) :: _ => take (mintime t ev) c ev end.

(** 115-121 *)
Definition clear_busy (t : nat) (st : sim) : sim :=
  if Nat.eqb (s_old st) t then st else mk_sim (s_i st) (s_q st) (s_ev st) t (fun _ => false) (s_out st).
(** 124 *)
Definition put_out (t b : nat) (st : sim) : sim := mk_sim (s_i st) (s_q st) (s_ev st) (s_old st) (s_busy st) ((b, t) :: s_out st).
(** 126-147 *)
Definition look (t : nat) (st : sim) : sim :=
  match s_i st with
  | 0 => st
  | S i =>
      let d := disks i in
      if s_busy st d then mk_sim i (upd (s_q st) d (s_q st d ++ [i])) (s_ev st) (s_old st) (s_busy st) (s_out st)
      else match s_q st d with
           | j :: r => mk_sim (s_i st) (upd (s_q st) d r) ((t + 1, j) :: s_ev st) (s_old st) (upd (s_busy st) d true) (s_out st)
           | [] => mk_sim i (s_q st) ((t + 1, i) :: s_ev st) (s_old st) (upd (s_busy st) d true) (s_out st)
           end
  end.
(** 149-157 *)
Definition next_write (t b : nat) (st : sim) : sim :=
  let d := disks b in
  if s_busy st d then st
  else match s_q st d with
       | j :: r => mk_sim (s_i st) (upd (s_q st) d r) ((t + 1, j) :: s_ev st) (s_old st) (upd (s_busy st) d true) (s_out st)
       | [] => st
       end.
(** 109-163; None: an assertion failed (or the loop does not end) *)
Fixpoint loop (fuel : nat) (ch : nat -> nat) (st : sim) : option (list (nat * nat)) :=
  match s_ev st with
  | [] => if Nat.eqb (s_i st) 0 && forallb (fun d => match s_q st d with [] => true | _ => false end) (seq 0 (D + 1)) then Some (s_out st) else None
  | _ =>
      match fuel, pop_event (ch 0) (s_ev st) with
      | S f, Some ((t, b), ev) =>
          loop f (fun n => ch (S n)) (next_write t b (look t (put_out t b (clear_busy t (mk_sim (s_i st) (s_q st) ev (s_old st) (s_busy st) (s_out st))))))
      | _, _ => None
      end
  end.
(** 73-108 *)
Definition sim_start : sim := start (seq 0 (D + 1)) (fill m (mk_sim L (fun _ => []) [] 0 (fun _ => false) [])).
Definition simulate (ch : nat -> nat) : option (list (nat * nat)) := loop (L + 1) ch sim_start.

(** std::stable_sort with write_time_cmp: later times first *)
Fixpoint insert (x : nat * nat) (l : list (nat * nat)) : list (nat * nat) :=
  match l with [] => [x] | y :: l' => if Nat.ltb (snd x) (snd y) then y :: insert x l' else x :: l end.
Fixpoint stable_sort (l : list (nat * nat)) : list (nat * nat) := match l with [] => [] | x :: l' => insert x (stable_sort l') end.
(** o_time[k]; None: it was never set *)
Definition lookup (k : nat) (o : list (nat * nat)) : option nat := option_map snd (find (fun p => Nat.eqb (fst p) k) o).
Fixpoint times (ks : list nat) (o : list (nat * nat)) : option (list (nat * nat)) :=
  match ks with
  | [] => Some []
  | k :: ks' => match lookup k o, times ks' o with Some t, Some r => Some ((k, t) :: r) | _, _ => None end
  end.
(** 168-204 *)
Definition schedule (ch : nat -> nat) : option (list nat) :=
  if Nat.leb L D then Some (seq 0 L)
  else match simulate ch with
       | None => None
       | Some o => match times (seq 0 L) o with None => None | Some w => Some (map fst (stable_sort w)) end
       end.
End Schedule.
