(** Model of include/stxxl/bits/algo/sort.h (stxxl::sort and namespace sort_local) and of the parts of
    include/stxxl/bits/algo/ksort.h that are the same up to the size of a run and the comparison
    (ksort_blocks 530-695, merge_runs 440-528, ksort 726-1034), and of
    include/stxxl/bits/algo/inmemsort.h (stl_in_memory_sort).

    Modelled: which block is read, written, allocated and deleted, with which content; runs,
    triggers, merge phases, padding of the first and last block, block identifiers of the vector.
    Parameters: [srt] is the in-memory sort (std::sort, or classify/l1sort/write_out of ksort),
    [fresh c live n] are the identifiers given by the [c]-th call of block_manager::new_blocks,
    [mf] is optimal_merge_factor (floating point), [managed b] is BID::is_managed().
    Simplified: the reads and writes of create_runs (56-194, double buffering with a read started by the
    completion handler of a write) and of merge_runs happen one after the other; that prefetching and
    buffered writing deliver the same is C32, C33.  A run is read completely before the next is
    written.  Cached pages of the vector have been flushed (line 692).
    None is undefined behaviour: access behind the end of an array, reading an empty cursor,
    division by zero, deleting a block that is not allocated. *)
From Coq Require Import List Bool Arith.
From Verif Require Import SumLib OrderLib LoserModel.
Import ListNotations.

Fixpoint chunk {X} (fuel n : nat) (l : list X) : list (list X) :=
  match fuel with
  | 0 => []
  | S f => match l with [] => [] | _ => firstn n l :: chunk f n (skipn n l) end
  end.
(** consecutive pieces of n elements, the last one may be shorter *)
Definition chunks {X} (n : nat) (l : list X) : list (list X) := chunk (length l) n l.
(** consecutive pieces of given lengths *)
Fixpoint splits {X} (ns : list nat) (l : list X) : list (list X) :=
  match ns with [] => [] | n :: r => firstn n l :: splits r (skipn n l) end.

Definition obind {X Y} (x : option X) (f : X -> option Y) : option Y := match x with Some v => f v | None => None end.
Notation "'do' x <- e ; f" := (obind e (fun x => f)) (at level 200, x pattern, e at level 100, f at level 200).

Section Sort.
  Variable A : Type.
  Variable cmp : A -> A -> bool.
  Variables minv maxv : A.                               (* cmp.min_value(), cmp.max_value() *)
  Variable srt : list A -> list A.
  Variable B : nat.                                      (* block_type::size *)
  Variable managed : nat -> bool.
  Variable fresh : nat -> list nat -> nat -> list nat.
  Variable mf : nat -> nat -> nat.

  Record st := mks {
    s_disk : nat -> list A;       (* content of every block *)
    s_live : list nat;            (* allocated blocks of the block manager *)
    s_calls : nat }.

  (** block_manager.h 114-156, new_blocks *)
  Definition new_blocks (n : nat) (s : st) : list nat * st :=
    let bs := fresh (s_calls s) (s_live s) n in (bs, mks (s_disk s) (bs ++ s_live s) (S (s_calls s))).
  (** block_manager.h 238-255, delete_block: blocks of a file of the user are left alone *)
  Definition delete_block (b : nat) (s : st) : option st :=
    if managed b then
      if existsb (Nat.eqb b) (s_live s) then Some (mks (s_disk s) (remove Nat.eq_dec b (s_live s)) (s_calls s)) else None
    else Some s.
  Fixpoint delete_blocks (bs : list nat) (s : st) : option st :=
    match bs with [] => Some s | b :: r => do s <- delete_block b s; delete_blocks r s end.
  (** typed_block.h, block.write(bid) and wait *)
  Definition write (b : nat) (c : list A) (s : st) : st := mks (upd (s_disk s) b c) (s_live s) (s_calls s).

  Notation run := (list (nat * A)).                      (* simple_vector<trigger_entry>: bid, value *)

  (** sort.h 146-163, 184-190: write the blocks of a run and note the triggers (Blocks[i][0]) *)
  Fixpoint write_run (bids : list nat) (blocks : list (list A)) (s : st) : option (run * st) :=
    match bids, blocks with
    | b :: bids', (x :: c) :: blocks' =>
        do (r, s) <- write_run bids' blocks' (write b (x :: c) s); Some ((b, x) :: r, s)
    | [], [] => Some ([], s)
    | _, _ => None
    end.

  (** sort.h 64-206, create_runs: for every run read its blocks, delete them, sort, write.
      ksort.h 170-284. *)
  Fixpoint create_runs (input : list nat) (runs : list (list nat)) (s : st) : option (list run * st) :=
    match runs with
    | [] => Some ([], s)
    | bids :: runs' =>
        let ins := firstn (length bids) input in
        let data := concat (map (s_disk s) ins) in
        do s <- delete_blocks ins s;
        do (r, s) <- write_run bids (chunks B (srt data)) s;
        do (rs, s) <- create_runs (skipn (length bids) input) runs' s;
        Some (r :: rs, s)
    end.

  Definition trigger_cmp (a b : nat * A) : bool := cmp (snd a) (snd b).

  (** sort.h 476-491, the native merging loop; ksort.h 509-514 *)
  Fixpoint merge_out (bids : list nat) (t : ltree A) (s : st) : option (run * st) :=
    match bids with
    | [] => Some ([], s)
    | b :: bids' =>
        do (o, t) <- multi_merge A cmp B t;
        match o with
        | [] => None
        | x :: _ => do (r, s) <- merge_out bids' t (write b o s); Some ((b, x) :: r, s)
        end
    end.

  (** sort.h 303-506, merge_runs (native merging procedure) *)
  Definition merge_runs (in_runs : list run) (out_bids : list nat) (s : st) : option (run * st) :=
    let consume_seq := ssort trigger_cmp (concat in_runs) in
    do t <- new_tree A cmp (length in_runs) (map (fun e => s_disk s (fst e)) consume_seq);
    do (r, s) <- merge_out out_bids t s;
    do s <- delete_blocks (map fst (concat in_runs)) s;
    Some (r, s).

  (** sort.h 614-628, the loop merging the groups of a phase *)
  Fixpoint merge_groups (groups : list (list run)) (outs : list (list nat)) (s : st) : option (list run * st) :=
    match groups, outs with
    | g :: groups', o :: outs' =>
        do (r, s) <- merge_runs g o s;
        do (rs, s) <- merge_groups groups' outs' s;
        Some (r :: rs, s)
    | [], [] => Some ([], s)
    | _, _ => None
    end.

  Definition group_size (g : list run) : nat := length (concat g).

  (** sort.h 590-611, bids of the runs of a phase: the file is reused for the last phase *)
  Definition replace_managed (i : nat) (bids : list nat) (s : st) : option (list nat * st) :=
    match nth_error bids i with
    | None => None
    | Some b =>
        if managed b then
          let (bs, s) := new_blocks 1 s in
          match bs with [b'] => Some (firstn i bids ++ b' :: skipn (i + 1) bids, s) | _ => None end
        else Some (bids, s)
    end.
  Definition phase_bids (input : list nat) (n : nat) (groups : list (list run)) (s : st)
    : option (list (list nat) * st) :=
    match groups, input with
    | [g], b0 :: _ =>
        if andb (Nat.eqb (group_size g) n) (negb (managed b0)) then
          do (bids, s) <- replace_managed 0 input s;
          do (bids, s) <- replace_managed (n - 1) bids s;
          Some ([bids], s)
        else let (bs, s) := new_blocks n s in Some (splits (map group_size groups) bs, s)
    | _, _ => let (bs, s) := new_blocks n s in Some (splits (map group_size groups) bs, s)
    end.

  (** sort.h 562-634, the merge phases *)
  Fixpoint merge_phases (fuel : nat) (input : list nat) (n f : nat) (runs : list run) (s : st) : option (run * st) :=
    match runs with
    | [] => None
    | [r] => Some (r, s)
    | _ =>
        match fuel with
        | 0 => None
        | S fuel' =>
            let groups := chunks f runs in
            do (outs, s) <- phase_bids input n groups s;
            do (rs, s) <- merge_groups groups outs s;
            merge_phases fuel' input n f rs s
        end
    end.

  (** sort.h 541-545, one new_blocks call per run *)
  Fixpoint alloc_runs (sizes : list nat) (s : st) : list (list nat) * st :=
    match sizes with
    | [] => ([], s)
    | n :: r => let (bs, s) := new_blocks n s in let (rs, s) := alloc_runs r s in (bs :: rs, s)
    end.

  (** sort.h 508-648, sort_blocks; [m2] blocks per run.  With fewer than two runs create_runs
      accesses runs[1] (line 106). *)
  Definition sort_blocks (input : list nat) (m2 m : nat) (s : st) : option (run * st) :=
    let n := length input in
    if Nat.eqb m2 0 then None else
    let sizes := repeat m2 (n / m2) ++ (if Nat.eqb (n mod m2) 0 then [] else [n mod m2]) in
    let nruns := length sizes in
    if Nat.ltb nruns 2 then None else
    let (bids, s) := alloc_runs sizes s in
    do (runs, s) <- create_runs input bids s;
    merge_phases nruns input n (mf nruns m) runs s.

  (** the vector: its block identifiers *)
  Definition set_bid (i b : nat) (bids : list nat) : option (list nat) :=
    if Nat.ltb i (length bids) then Some (firstn i bids ++ b :: skipn (i + 1) bids) else None.
  Fixpoint set_bids (i : nat) (bs : list nat) (bids : list nat) : option (list nat) :=
    match bs with [] => Some bids | b :: r => do bids <- set_bid i b bids; set_bids (i + 1) r bids end.
  (** elements [from, to) of [c] replaced by those of [d] *)
  Definition patch (from to : nat) (d c : list A) : list A :=
    firstn from c ++ firstn (to - from) (skipn from d) ++ skipn to c.

  (** inmemsort.h 28-58, stl_in_memory_sort *)
  Fixpoint write_blocks (bids : list nat) (blocks : list (list A)) (s : st) : st :=
    match bids, blocks with b :: r, c :: cs => write_blocks r cs (write b c s) | _, _ => s end.
  Definition in_memory_sort (bids : list nat) (first last : nat) (s : st) : option (list nat * st) :=
    let nblocks := last / B - first / B + (if Nat.eqb (last mod B) 0 then 0 else 1) in
    let bs := firstn nblocks (skipn (first / B) bids) in
    if Nat.eqb (length bs) nblocks then
      let data := concat (map (s_disk s) bs) in
      let correction := if Nat.eqb (last mod B) 0 then 0 else B - last mod B in
      let from := first mod B in
      let to := nblocks * B - correction in
      let sorted := firstn from data ++ srt (firstn (to - from) (skipn from data)) ++ skipn to data in
      Some (bids, write_blocks bs (chunks B sorted) s)
    else None.

  (** padding of the first block (sort.h 715-729) and of the last block (731-737) *)
  Definition pad_first (k : nat) (c : list A) : list A := repeat minv k ++ skipn k c.
  Definition pad_last (k : nat) (c : list A) : list A := firstn k c ++ repeat maxv (B - k).

  Definition first_entry (r : run) : option nat := match r with [] => None | e :: _ => Some (fst e) end.
  Definition last_entry (r : run) : option nat := option_map fst (nth_error r (length r - 1)).
  Definition new_block (s : st) : option (nat * st) :=
    let (bs, s) := new_blocks 1 s in match bs with [b] => Some (b, s) | _ => None end.

  (** sort.h 684-1000 after the choice of the in-memory sort; [m] blocks of memory, [m2] blocks per run.
      [bids]: the block identifiers of the whole vector; first, last: element positions. *)
  Definition sort_external (m2 m : nat) (bids : list nat) (first last : nat) (s : st) : option (list nat * st) :=
    let fb := first / B in
    let lb := last / B in
    let fo := first mod B in
    let lo := last mod B in
    if Nat.eqb fo 0 then
      if Nat.eqb lo 0 then                                                   (* 963-985 *)
        let n := lb - fb in
        do (out, s) <- sort_blocks (firstn n (skipn fb bids)) m2 m s;
        do bids <- set_bids fb (map fst out) bids;
        Some (bids, s)
      else                                                                    (* 896-961 *)
        do old_last <- nth_error bids lb;
        do (last_bid, s) <- new_block s;
        let s := write last_bid (pad_last lo (s_disk s old_last)) s in
        let n := lb - fb + 1 in
        do bids <- set_bid lb last_bid bids;
        do (out, s) <- sort_blocks (firstn n (skipn fb bids)) m2 m s;
        do ol <- last_entry out;
        let s := write old_last (patch 0 lo (s_disk s ol) (s_disk s old_last)) s in
        do s <- delete_block ol s;
        do bids <- set_bid lb old_last bids;
        do bids <- set_bids fb (firstn (lb - fb) (map fst out)) bids;
        Some (bids, s)
    else
      if Nat.eqb lo 0 then                                                    (* 818-891 *)
        do old_first <- nth_error bids fb;
        do (first_bid, s) <- new_block s;
        let s := write first_bid (pad_first fo (s_disk s old_first)) s in
        let n := lb - fb in
        do bids <- set_bid fb first_bid bids;
        do (out, s) <- sort_blocks (firstn n (skipn fb bids)) m2 m s;
        do of <- first_entry out;
        let s := write old_first (patch fo B (s_disk s of) (s_disk s old_first)) s in
        do s <- delete_block of s;
        do bids <- set_bid fb old_first bids;
        do bids <- set_bids (fb + 1) (firstn (lb - (fb + 1)) (skipn 1 (map fst out))) bids;
        (* 882: *cur_bid = ( *it).bid  after the loop has reached last.bid() *)
        do e <- nth_error (map fst out) (1 + (lb - (fb + 1)));
        do bids <- set_bid lb e bids;
        Some (bids, s)
      else                                                                    (* 706-816 *)
        do old_first <- nth_error bids fb;
        do old_last <- nth_error bids lb;
        do (first_bid, s) <- new_block s;
        do (last_bid, s) <- new_block s;
        let s := write first_bid (pad_first fo (s_disk s old_first)) s in
        let s := write last_bid (pad_last lo (s_disk s old_last)) s in
        let n := lb - fb + 1 in
        do bids <- set_bid fb first_bid bids;
        do bids <- set_bid lb last_bid bids;
        do (out, s) <- sort_blocks (firstn n (skipn fb bids)) m2 m s;
        do of <- first_entry out;
        do ol <- last_entry out;
        let s := write old_first (patch fo B (s_disk s of) (s_disk s old_first)) s in
        let s := write old_last (patch 0 lo (s_disk s ol) (s_disk s old_last)) s in
        do s <- delete_block of s;
        do s <- delete_block ol s;
        do bids <- set_bid fb old_first bids;
        do bids <- set_bid lb old_last bids;
        do bids <- set_bids (fb + 1) (firstn (lb - (fb + 1)) (skipn 1 (map fst out))) bids;
        Some (bids, s).

  Inductive outcome := Sorted (bids : list nat) (s : st) | Bad_parameter | Undefined.
  Definition defined (x : option (list nat * st)) : outcome := match x with Some (b, s) => Sorted b s | None => Undefined end.

  (** sort.h 668-700: esz is sizeof(value_type), raw is block_type::raw_size, fac is sort_memory_usage_factor(),
      M the memory in bytes *)
  Definition sort (esz raw fac M : nat) (bids : list nat) (first last : nat) (s : st) : outcome :=
    if Nat.ltb ((last - first) * esz * fac) M then defined (in_memory_sort bids first last s)
    else if Nat.leb (2 * raw * fac) M then
      let m := M / fac / raw in
      defined (sort_external (m / 2) m bids first last s)
    else Bad_parameter.

  (** ksort.h 726-760 and 545-550: no memory usage factor, only an assertion on M, and runs shortened for
      the keys; ksz is sizeof(type_key) *)
  Definition ksort_run (raw ksz m : nat) : nat := ((m + 1) / 2) * raw / (raw + B * ksz).
  Definition ksort (esz raw ksz M : nat) (bids : list nat) (first last : nat) (s : st) : outcome :=
    if Nat.ltb ((last - first) * esz) M then defined (in_memory_sort bids first last s)
    else if Nat.leb (2 * raw) M then
      let m := M / raw in
      defined (sort_external (ksort_run raw ksz m) m bids first last s)
    else Undefined.
End Sort.

Arguments mks {A}. Arguments s_disk {A}. Arguments s_live {A}. Arguments s_calls {A}.
Arguments write {A}. Arguments new_blocks {A}. Arguments delete_block {A}. Arguments delete_blocks {A}.
Arguments Sorted {A}. Arguments Bad_parameter {A}. Arguments Undefined {A}. Arguments patch {A}.
