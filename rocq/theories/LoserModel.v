(** Model of include/stxxl/bits/algo/losertree.h (class loser_tree), together with the
    cursors it merges: include/stxxl/bits/algo/run_cursor.h (run_cursor2) and the cursor
    comparison include/stxxl/bits/algo/sort_helper.h lines 66-95 (run_cursor2_cmp).

    All cursors share one prefetcher.  A cursor is NOT tied to one run: when it has used up
    its block it takes the next block of the common consumption sequence, whatever run that
    block belongs to (run_cursor2::operator ++ calls prefetcher()->block_consumed).  By C32
    the prefetcher delivers the blocks in consumption order, so it is the list of the blocks
    not yet handed out.

    Simplified: a cursor is the list of elements from its position to the end of its buffer,
    so [] is "pos >= block_type::size" (empty(), and the state after make_inf()).  The array
    [entry] is a function; that only indices inside the array are used is part of the proofs
    (LoserProofs.wins_sub).  int_type is unbounded.  None is undefined behaviour: pulling a
    block from an exhausted prefetcher, or reading current() of an empty cursor. *)
From Coq Require Import List Bool Arith.
From Verif Require Import SumLib.
Import ListNotations.

Section Loser.
  Variable A : Type.
  Variable cmp : A -> A -> bool.        (* the value comparator *)

  (** sort_helper.h 83-94, run_cursor2_cmp::operator () *)
  Definition cur_cmp (a b : list A) : bool :=
    match b with
    | [] => true
    | y :: _ => match a with [] => false | x :: _ => cmp x y end
    end.

  (** losertree.h 29-33 and the prefetcher *)
  Record ltree := mk {
    t_log : nat;                  (* logK *)
    t_k : nat;                    (* k *)
    t_entry : nat -> nat;         (* entry *)
    t_cur : nat -> list A;        (* current *)
    t_src : list (list A) }.      (* blocks the prefetcher still has to deliver *)

  (** losertree.h 35-56, init_winner; the recursion depth is logK + 1 *)
  Fixpoint init_winner (fuel k : nat) (cur : nat -> list A) (root : nat) (e : nat -> nat)
    : option (nat * (nat -> nat)) :=
    match fuel with
    | 0 => None
    | S f =>
        if Nat.leb k root then Some (root - k, e) else
        match init_winner f k cur (2 * root) e with
        | None => None
        | Some (lw, e) =>
            match init_winner f k cur (2 * root + 1) e with
            | None => None
            | Some (rw, e) =>
                if cur_cmp (cur lw) (cur rw)
                then Some (lw, upd e root rw)
                else Some (rw, upd e root lw)
            end
        end
    end.

  (** losertree.h 84-89, the loop over the runs: current[i].buffer = p->pull_block() *)
  Fixpoint pull_cursors (i n : nat) (cur : nat -> list A) (src : list (list A))
    : option ((nat -> list A) * list (list A)) :=
    match n with
    | 0 => Some (cur, src)
    | S n' =>
        match src with
        | [] => None
        | b :: src' => pull_cursors (S i) n' (upd cur i b) src'
        end
    end.

  (** losertree.h 62-98, the constructor.  Cursors nruns..k-1 are make_inf() (lines 91-95);
      entry[k+i] = i is written but never read. *)
  Definition new_tree (nruns : nat) (src : list (list A)) : option ltree :=
    let logK := Nat.log2_up nruns in      (* ilog2_ceil, common/utils.h 187-192 *)
    let k := 2 ^ logK in
    match pull_cursors 0 nruns (fun _ => []) src with
    | None => None
    | Some (cur, src) =>
        match init_winner (S logK) k cur 1 (fun _ => 0) with
        | None => None
        | Some (w, e) => Some (mk logK k (upd e 0 w) cur src)
        end
    end.

  (** run_cursor.h 92-101, operator ++ after the element of the cursor has been read *)
  Definition advance (rest : list A) (src : list (list A)) : list A * list (list A) :=
    match rest with
    | _ :: _ => (rest, src)
    | [] => match src with [] => ([], []) | b :: src' => (b, src') end
    end.

  (** one comparison on the way up: losertree.h 184-190, and the macro TreeStep 130-141 *)
  Definition tree_step (cur : nat -> list A) (i : nat) (e : nat -> nat) (w : nat) : nat * (nat -> nat) :=
    if cur_cmp (cur (e i)) (cur w) then (e i, upd e i w) else (w, e).

  (** losertree.h 182-192: the node index [i] is halved *)
  Fixpoint path_k (fuel i : nat) (cur : nat -> list A) (e : nat -> nat) (w : nat)
    : option (nat * (nat -> nat)) :=
    if Nat.eqb i 0 then Some (w, e) else
    match fuel with
    | 0 => None
    | S f => let (w, e) := tree_step cur i e w in path_k f (i / 2) cur e w
    end.

  (** losertree.h 143-152: TreeStep(L) for L = LogK down to 1; the node index is computed
      from the present winner, (winnerIndex + (1 << LogK)) >> (LogK - L + 1) *)
  Fixpoint path_u (L LogK : nat) (cur : nat -> list A) (e : nat -> nat) (w : nat)
    : nat * (nat -> nat) :=
    match L with
    | 0 => (w, e)
    | S L' =>
        let (w, e) := tree_step cur ((w + 2 ^ LogK) / 2 ^ (LogK - L + 1)) e w in
        path_u L' LogK cur e w
    end.

  (** losertree.h 115-158 (multi_merge_unrolled) and 170-197 (multi_merge_k): the same loop
      with a different way up the tree *)
  Fixpoint merge_with (path : (nat -> list A) -> (nat -> nat) -> nat -> option (nat * (nat -> nat)))
    (n : nat) (w : nat) (e : nat -> nat) (cur : nat -> list A) (src : list (list A))
    : option (list A * (nat * (nat -> nat) * (nat -> list A) * list (list A))) :=
    match n with
    | 0 => Some ([], (w, e, cur, src))
    | S n' =>
        match cur w with
        | [] => None
        | x :: rest =>
            let (b, src) := advance rest src in
            let cur := upd cur w b in
            match path cur e w with
            | None => None
            | Some (w, e) =>
                match merge_with path n' w e cur src with
                | None => None
                | Some (out, s) => Some (x :: out, s)
                end
            end
        end
    end.

  (** losertree.h 160-168, multi_merge_unrolled_0 *)
  Fixpoint merge_0 (n : nat) (cur : nat -> list A) (src : list (list A))
    : option (list A * ((nat -> list A) * list (list A))) :=
    match n with
    | 0 => Some ([], (cur, src))
    | S n' =>
        match cur 0 with
        | [] => None
        | x :: rest =>
            let (b, src) := advance rest src in
            match merge_0 n' (upd cur 0 b) src with
            | None => None
            | Some (out, s) => Some (x :: out, s)
            end
        end
    end.

  (** losertree.h 200-240, multi_merge *)
  Definition multi_merge (n : nat) (t : ltree) : option (list A * ltree) :=
    if Nat.eqb (t_log t) 0 then
      match merge_0 n (t_cur t) (t_src t) with
      | None => None
      | Some (out, (cur, src)) => Some (out, mk (t_log t) (t_k t) (t_entry t) cur src)
      end
    else
      let path := if Nat.leb (t_log t) 10
                  then fun cur e w => Some (path_u (t_log t) (t_log t) cur e w)
                  else fun cur e w => path_k (S (t_log t)) ((w + t_k t) / 2) cur e w in
      match merge_with path n (t_entry t 0) (t_entry t) (t_cur t) (t_src t) with
      | None => None
      | Some (out, (w, e, cur, src)) => Some (out, mk (t_log t) (t_k t) (upd e 0 w) cur src)
      end.

  (** A caller: several output blocks one after the other (sort.h 476-491) *)
  Fixpoint multi_merges (ns : list nat) (t : ltree) : option (list (list A) * ltree) :=
    match ns with
    | [] => Some ([], t)
    | n :: ns' =>
        match multi_merge n t with
        | None => None
        | Some (out, t) =>
            match multi_merges ns' t with
            | None => None
            | Some (outs, t) => Some (out :: outs, t)
            end
        end
    end.
End Loser.

Arguments t_log {A}. Arguments t_k {A}. Arguments t_entry {A}. Arguments t_cur {A}. Arguments t_src {A}.
Arguments mk {A}. Arguments advance {A}. Arguments pull_cursors {A}.
