(** Model of include/stxxl/bits/common/winner_tree.h (winner_tree, lines 42-333).

    The tree is a function from positions to players; None is invalid_key.  [w_log] is k with 2^k slots;
    m_tree.size() is 2^(k+1)-1.  The comparator m_less looks at values outside of the tree: [val i] is the
    current value of player i, None if there is no such value (for example an array that has become empty);
    comparing such a player is undefined.
    Simplified: timers; 1 << n is exact (the code shifts an int: fewer than 2^31 players).
    None is undefined behaviour. *)
From Coq Require Import List Bool Arith.
From Verif Require Import SumLib.
Import ListNotations.

Section Winner.
  Variable A : Type.
  Variable lt : A -> A -> bool.

  Definition vals := nat -> option A.
  Record wtree := mkw { w_log : nat; w_tree : nat -> option nat }.
  Definition slots (t : wtree) : nat := 2 ^ w_log t.
  Definition size (t : wtree) : nat := 2 ^ S (w_log t) - 1.
  (** the position of the leaf of a player, e.g. line 114: (m_tree.size() / 2) + index *)
  Definition leaf (t : wtree) (i : nat) : nat := size t / 2 + i.

  (** 88-95, constructor; resize_and_clear 289-294, clear 276-280, resize 282-287 *)
  Definition new_wtree (num_players : nat) : option wtree :=
    if Nat.eqb num_players 0 then None else Some (mkw (Nat.log2_up num_players) (fun _ => None)).

  (** m_less(i, j) *)
  Definition less (val : vals) (i j : nat) : option bool :=
    match val i, val j with Some a, Some b => Some (lt a b) | _, _ => None end.

  (** 226-233, 318-325: one game *)
  Definition game (val : vals) (l r : option nat) : option (option nat) :=
    match l, r with
    | None, _ => Some r
    | _, None => Some l
    | Some i, Some j => match less val i j with None => None | Some true => Some l | Some false => Some r end
    end.

  (** 223, 146: p -= (p + 1) % 2 *)
  Definition left_pos (p : nat) : nat := p - (p + 1) mod 2.

  (** 221-239, the loop of replay_on_change *)
  Fixpoint replay (fuel : nat) (val : vals) (p : nat) (top : option nat) (t : nat -> option nat) : option (nat -> option nat) :=
    if Nat.eqb p 0 then Some (upd t p top)
    else match fuel with
    | 0 => None
    | S f =>
        let t := upd t p top in
        let p := left_pos p in
        match game val (t p) (t (p + 1)) with
        | None => None
        | Some top => replay f val (p / 2) top t
        end
    end.
  (** 209-241, replay_on_change *)
  Definition replay_on_change (val : vals) (index : nat) (done : bool) (t : wtree) : option wtree :=
    if Nat.ltb (leaf t index) (size t) then
      match replay (leaf t index) val (leaf t index) (if done then None else Some index) (w_tree t) with
      | None => None
      | Some tr => Some (mkw (w_log t) tr)
      end
    else None.

  (** 243-274, double_num_slots: the loop variable is unsigned and the condition i >= 0 always true; after
      i = 0 the loop continues with i = 2^64-1, and m_tree[i] is outside of the array. *)
  Fixpoint double_loop (i : nat) (tr : nat -> option nat) : option (nat -> option nat) :=
    let tr := upd tr (i + 2 ^ Nat.log2 (i + 1)) (tr i) in
    match i with 0 => None | S i' => double_loop i' tr end.
  Definition double_num_slots (t : wtree) : option wtree :=
    match double_loop (size t - 1) (w_tree t) with
    | None => None
    | Some tr => Some (mkw (S (w_log t)) tr)        (* never reached *)
    end.

  (** 98-105, activate_player; notify_change 168-173 is the same for an index below the number of slots *)
  Definition activate_player (val : vals) (index : nat) (t : wtree) : option wtree :=
    if Nat.ltb index (slots t) then replay_on_change val index false t
    else double_num_slots t.                        (* never returns *)
  (** 107-114 *)
  Definition activate_without_replay (index : nat) (t : wtree) : option wtree :=
    if Nat.ltb index (slots t) then Some (mkw (w_log t) (upd (w_tree t) (leaf t index) (Some index)))
    else double_num_slots t.
  (** 116-122 *)
  Definition deactivate_without_replay (index : nat) (t : wtree) : option wtree :=
    if Nat.ltb index (slots t) then Some (mkw (w_log t) (upd (w_tree t) (leaf t index) None)) else None.
  (** 124-130 *)
  Definition deactivate_player (val : vals) (index : nat) (t : wtree) : option wtree :=
    if Nat.ltb index (slots t) then replay_on_change val index true t else None.

  Definition is_player (o : option nat) (index : nat) : bool := match o with Some i => Nat.eqb i index | None => false end.
  (** 144-151 *)
  Fixpoint step_loop (fuel : nat) (index p : nat) (t : nat -> option nat) : option (nat -> option nat) :=
    if andb (Nat.ltb 0 p) (is_player (t p) index) then
      match fuel with
      | 0 => None
      | S f => step_loop f index (left_pos p / 2) (upd t p None)
      end
    else Some t.
  (** 138-157, deactivate_player_step *)
  Definition deactivate_player_step (index : nat) (t : wtree) : option wtree :=
    if Nat.ltb index (slots t) then
      match step_loop (leaf t index) index (leaf t index) (w_tree t) with
      | None => None
      | Some tr => Some (mkw (w_log t) (if is_player (tr 0) index then upd tr 0 None else tr))
      end
    else None.

  (** 308-333, rebuild *)
  Fixpoint rebuild_loop (i : nat) (val : vals) (t : nat -> option nat) : option (nat -> option nat) :=
    match i with
    | 0 => Some t
    | S i =>
        match game val (t (i * 2 + 1)) (t (i * 2 + 2)) with
        | None => None
        | Some w => rebuild_loop i val (upd t i w)
        end
    end.
  Definition rebuild (val : vals) (t : wtree) : option wtree :=
    match rebuild_loop (size t / 2) val (w_tree t) with None => None | Some tr => Some (mkw (w_log t) tr) end.

  Fixpoint each {X} (f : X -> wtree -> option wtree) (l : list X) (t : wtree) : option wtree :=
    match l with [] => Some t | x :: r => match f x t with None => None | Some t => each f r t end end.

  (** 296-306 *)
  Definition resize_and_rebuild (val : vals) (num_players : nat) (t : wtree) : option wtree :=
    match new_wtree num_players with
    | None => None
    | Some t => match each activate_without_replay (seq 0 num_players) t with None => None | Some t => rebuild val t end
    end.

  (** 180-183 *)
  Definition top (t : wtree) : option nat := w_tree t 0.

  (** What a user does: values change, and the tree is told. *)
  Inductive op :=
  | Change (i : nat) (a : A)                 (* player i gets value a: activate_player or notify_change *)
  | Kill (i : nat)                           (* the value of i is gone: deactivate_player *)
  | Kills (l : list nat)                     (* several: deactivate_player_step for all, then replay_on_deactivations *)
  | Pop (a : option A)                       (* the winner gets another value or ends: replay_on_pop, deactivate_player(top()) *)
  | Batch (l : list (nat * option A))        (* activate/deactivate_without_replay, then rebuild *)
  | Clear
  | Resize (n : nat)                         (* resize_and_clear *)
  | Restart (l : list A).                    (* resize_and_rebuild *)

  Definition assign (val : vals) (l : list (nat * option A)) : vals :=
    fold_left (fun v e => upd v (fst e) (snd e)) l val.
  Definition batch_one (e : nat * option A) (t : wtree) : option wtree :=
    match snd e with Some _ => activate_without_replay (fst e) t | None => deactivate_without_replay (fst e) t end.

  Definition step (o : op) (s : vals * wtree) : option (vals * wtree) :=
    let (val, t) := s in
    let ret val r := match r with None => None | Some t => Some (val, t) end in
    match o with
    | Change i a => let val := upd val i (Some a) in ret val (activate_player val i t)
    | Kill i => let val := upd val i None in ret val (deactivate_player val i t)
    | Kills l =>
        let val := assign val (map (fun i => (i, None)) l) in
        match each deactivate_player_step l t with
        | None => None
        | Some t => ret val (each (deactivate_player val) l t)
        end
    | Pop a =>
        match top t with
        | None => None
        | Some i => let val := upd val i a in
                    ret val (match a with Some _ => replay_on_change val i false t | None => deactivate_player val i t end)
        end
    | Batch l => let val := assign val l in
                 match each batch_one l t with None => None | Some t => ret val (rebuild val t) end
    | Clear => Some (fun _ => None, mkw (w_log t) (fun _ => None))
    | Resize n => ret (fun _ => None) (new_wtree n)
    | Restart l => let val := fun i => nth_error l i in ret val (resize_and_rebuild val (length l) t)
    end.
  Fixpoint run (ops : list op) (s : vals * wtree) : option (vals * wtree) :=
    match ops with [] => Some s | o :: r => match step o s with None => None | Some s => run r s end end.
End Winner.
Arguments Change {A}. Arguments Kill {A}. Arguments Kills {A}. Arguments Pop {A}. Arguments Batch {A}.
Arguments Clear {A}. Arguments Resize {A}. Arguments Restart {A}.
