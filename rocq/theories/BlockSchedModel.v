(** Model of include/stxxl/bits/mng/block_scheduler.h: swappable_block (34-229), block_scheduler (246-514),
    block_scheduler_algorithm_online_lru (579-723), block_scheduler_algorithm_simulation (727-872),
    block_scheduler_algorithm_offline_lfd (876-1101), and of include/stxxl/bits/common/addressable_queues.h.
    A block has [S] elements; internal blocks are buffers with the numbers 1, 2, ...; buffer 0 belongs to the user of the
    scheduler.  Pointers are numbers of buffers, NULL is [None]; an invalid BID is [None].
    fill_default of the block type: [fdef = None] does nothing (196), [Some v] sets every element to v, as the subclass in
    matrix_low_level does.  Failed assertions are [Err].
    Not modelled: block_scheduler_algorithm_offline_lru_prefetching (1105-1838), the choice of the disk for a new block,
    bit widths except in the priorities, error messages, I/O errors. *)
From Coq Require Import List Bool Arith NArith ZArith.
From Verif Require Import SumLib AsyncIoModel.
Import ListNotations.
Local Open Scope prog_scope.

(** 48-51, 62-63 *)
Record sblock := mk_sb { sb_ext : option nat; sb_int : option nat; sb_dirty : bool; sb_ref : nat }.
Definition sb_new : sblock := mk_sb None None false 0.
Definition isS {X} (o : option X) : bool := match o with Some _ => true | None => false end.
(** 68-93 *)
Definition is_internal (s : sblock) : bool := isS (sb_int s).
Definition has_ext (s : sblock) : bool := isS (sb_ext s).
Definition is_external (s : sblock) : bool := has_ext s && negb (sb_dirty s).
Definition is_acquired (s : sblock) : bool := Nat.ltb 0 (sb_ref s).
Definition is_evictable (s : sblock) : bool := negb (is_acquired s) && is_internal s.
Definition is_initialized (s : sblock) : bool := is_internal s || is_external s.

(** 268-289 *)
Inductive bop := OpAcquire | OpAcquireUninit | OpRelease | OpReleaseDirty | OpDeinit | OpInit | OpExtract.
Record pse := mk_pse { ps_op : bop; ps_id : nat; ps_time : N }.

(** the algorithm object that is in use, with its data.
    Lru: addressable_fifo_queue (593), front first.  Lfd: addressable_priority_queue (925) of (priority, block), not
    ordered here, and next_use (934).  Sim: stack (746), top first, and 747-749, prediction_sequence (527) *)
Inductive algo :=
| Lru (q : list nat)
| Lfd (q : list (N * nat)) (next : list (bool * N))
| Sim (st : list nat) (time : N) (last_release : bool) (counts : list Z) (ps : list pse).

(** [b_made] internal blocks have been allocated: remaining_internal_blocks = max_internal_blocks - b_made.
    b_free: free_internal_blocks, top first.  b_fsb: free_swappable_blocks.  b_user: the BIDs that the user of the
    scheduler holds. *)
Record bsched := mk_bs {
  b_made : nat; b_free : list nat; b_sb : list sblock; b_fsb : list nat; b_algo : algo; b_user : list (option nat) }.
Definition with_sb (t : bsched) (l : list sblock) : bsched := mk_bs (b_made t) (b_free t) l (b_fsb t) (b_algo t) (b_user t).
Definition with_algo (t : bsched) (g : algo) : bsched := mk_bs (b_made t) (b_free t) (b_sb t) (b_fsb t) g (b_user t).
Definition with_free (t : bsched) (l : list nat) : bsched := mk_bs (b_made t) l (b_sb t) (b_fsb t) (b_algo t) (b_user t).
Definition with_fsb (t : bsched) (l : list nat) : bsched := mk_bs (b_made t) (b_free t) (b_sb t) l (b_algo t) (b_user t).
Definition with_user (t : bsched) (l : list (option nat)) : bsched := mk_bs (b_made t) (b_free t) (b_sb t) (b_fsb t) (b_algo t) l.
Definition set_nth {X} (l : list X) (i : nat) (x : X) : list X := firstn i l ++ x :: skipn (S i) l.
Definition set_sb (t : bsched) (i : nat) (s : sblock) : bsched := with_sb t (set_nth (b_sb t) i s).

(** * The queues *)
Definition remove_id (i : nat) (q : list nat) : list nat := filter (fun j => negb (Nat.eqb j i)) q.
(** addressable_fifo_queue::insert, 54-65 *)
Definition fifo_insert (i : nat) (q : list nat) : list nat := remove_id i q ++ [i].
Definition pq_erase (i : nat) (q : list (N * nat)) : list (N * nat) := filter (fun x => negb (Nat.eqb (snd x) i)) q.
(** addressable_priority_queue::insert, 155-166 *)
Definition pq_insert (i : nat) (p : N) (q : list (N * nat)) : list (N * nat) := pq_erase i q ++ [(p, i)].
(** 115-124 with priority::operator <, 920-921: the larger number comes first, then the smaller block *)
Definition pq_before (x y : N * nat) : bool := N.ltb (fst y) (fst x) || (N.eqb (fst x) (fst y) && Nat.ltb (snd x) (snd y)).
Fixpoint pq_top (x : N * nat) (q : list (N * nat)) : N * nat :=
  match q with [] => x | y :: r => pq_top (if pq_before y x then y else x) r end.
(** 192-200 *)
Definition pq_pop (q : list (N * nat)) : option (nat * list (N * nat)) :=
  match q with [] => None | x :: r => Some (snd (pq_top x r), pq_erase (snd (pq_top x r)) q) end.
(** evictable_blocks_empty, evictable_blocks_pop: 639-643, 784-792, 1011-1015 *)
Definition algo_pop (g : algo) : option (nat * algo) :=
  match g with
  | Lru (i :: q) => Some (i, Lru q)
  | Lfd q nu => match pq_pop q with Some (i, q') => Some (i, Lfd q' nu) | None => None end
  | Sim (i :: st) t l c ps => Some (i, Sim st t l c ps)
  | _ => None
  end.
Definition algo_size (g : algo) : nat := match g with Lru q => length q | Lfd q _ => length q | Sim st _ _ _ _ => length st end.
(** evictable_blocks.erase *)
Definition algo_erase (i : nat) (g : algo) : algo :=
  match g with Lru q => Lru (remove_id i q) | Lfd q nu => Lfd (pq_erase i q) nu | Sim _ _ _ _ _ => g end.
(** the blocks popped one after the other, with fuel *)
Fixpoint drain (f : nat) (g : algo) : list nat :=
  match f with
  | 0 => []
  | S f' => match algo_pop g with Some (i, g') => i :: drain f' g' | None => [] end
  end.

(** * Priorities, 898-922 (64 bit) *)
Definition two64 : N := 18446744073709551616%N.
Definition b2n (b : bool) : N := if b then 1%N else 0%N.
Definition priority (s : sblock) (t : bool * N) : N :=
  if fst t then ((snd t * 4) mod two64 + b2n (negb (sb_dirty s)) * 2 + b2n (has_ext s))%N
  else ((two64 - 4) + snd t)%N.
(** 953-985, the loop from the end of the sequence *)
Fixpoint lfd_scan (ps : list pse) : (nat -> bool * N) * list (bool * N) :=
  match ps with
  | [] => (fun _ => (false, 1%N), [])
  | e :: r =>
      let m := fst (lfd_scan r) in let nu := snd (lfd_scan r) in
      match ps_op e with
      | OpAcquire | OpAcquireUninit => (upd m (ps_id e) (true, ps_time e), nu)
      | OpRelease | OpReleaseDirty => (m, m (ps_id e) :: nu)
      | OpDeinit => (upd m (ps_id e) (false, 0%N), nu)
      | OpInit => (upd m (ps_id e) (false, 3%N), nu)
      | OpExtract => (upd m (ps_id e) (false, 2%N), nu)
      end
  end.
(** get_prediction_sequence, 571-572 *)
Definition algo_ps (g : algo) : list pse := match g with Sim _ _ _ _ ps => ps | _ => [] end.

Section Sched.
Variable A : Type.
Variable S : nat.          (* elements of a block *)
Variable fdef : option A.
Variable maxb : nat.       (* max_internal_blocks *)
Variable batch : nat.      (* max_internal_blocks_alloc_at_once *)
Notation prog := (prog A).

Inductive op :=
| BAlloc | BFree (i : nat)
| BAcquire (i : nat) (uninit : bool) | BRelease (i : nat) (dirty : bool)
| BDeinit (i : nat) | BInit (i slot : nat) | BExtract (i : nat)
| BIsInit (i : nat)
| BGet (i j : nat) | BSet (i j : nat) (v : A)        (* an element of an acquired block *)
| BFlush | BLru | BLfd | BSim                        (* delete switch_algorithm_to(new ...) *)
| BStep                                              (* explicit_timestep *)
| BNewExt (vs : list A) | BReadExt (slot j : nat).   (* the user makes an external block; reads from one *)
Inductive out := OUnit | ONum (n : nat) | OVal (v : A) | OBool (b : bool).

Definition at_sb {R} (t : bsched) (i : nat) (k : sblock -> prog R) : prog R :=
  match nth_error (b_sb t) i with Some s => k s | None => Err end.

(** * swappable_block *)
(** clean_async, 156-168; the request if there is one *)
Definition clean_async (s : sblock) : prog (sblock * option nat) :=
  if sb_dirty s then
    match sb_int s with
    | None => Err
    | Some x =>
        match sb_ext s with
        | Some b => DoWrite x b (fun q => Ret (mk_sb (sb_ext s) (sb_int s) false (sb_ref s), Some q))
        | None => DoAlloc 1 (fun l => match l with
                    | [b] => DoWrite x b (fun q => Ret (mk_sb (Some b) (sb_int s) false (sb_ref s), Some q))
                    | _ => Err end)
        end
    end
  else Ret (s, None).
(** 171-176 *)
Definition clean_sync (s : sblock) : prog sblock :=
  let* r := clean_async s in
  match snd r with Some q => DoWait q (Ret (fst r)) | None => Ret (fst r) end.
(** 187-194 *)
Definition detach (s : sblock) : prog (sblock * nat) :=
  if negb (is_evictable s) then Err else
  let* s' := clean_sync s in
  match sb_int s' with Some x => Ret (mk_sb (sb_ext s') None (sb_dirty s') (sb_ref s'), x) | None => Err end.
(** 180-184 *)
Definition attach (s : sblock) (x : nat) : prog sblock :=
  if is_internal s then Err else Ret (mk_sb (sb_ext s) (Some x) (sb_dirty s) (sb_ref s)).
(** 104-109 *)
Definition sb_acquire (s : sblock) : prog sblock :=
  if is_internal s then Ret (mk_sb (sb_ext s) (sb_int s) (sb_dirty s) (sb_ref s + 1)) else Err.
(** 137-151 *)
Definition read_sync (s : sblock) : prog sblock :=
  match sb_int s, sb_ext s with
  | Some x, Some b => DoRead x b (fun q => DoWait q (Ret (mk_sb (sb_ext s) (sb_int s) false (sb_ref s))))
  | _, _ => Err
  end.
Fixpoint fill (v : A) (x n : nat) (k : prog unit) : prog unit :=
  match n with 0 => k | Datatypes.S n' => DoPut x n' v (fill v x n' k) end.
Definition fill_default (s : sblock) : prog unit :=
  match fdef with
  | None => Ret tt
  | Some v => match sb_int s with Some x => fill v x S (Ret tt) | None => Err end
  end.
(** 199-210; the internal block it had *)
Definition sb_deinit (s : sblock) : prog (sblock * option nat) :=
  if is_acquired s then Err else
  match sb_ext s with
  | Some b => DoFree [b] (Ret (mk_sb None None false (sb_ref s), sb_int s))
  | None => Ret (mk_sb None None false (sb_ref s), sb_int s)
  end.

(** * block_scheduler *)
(** 310-336 *)
Definition take_free (t : bsched) : option (nat * bsched) :=
  match b_free t with
  | x :: l => Some (x, with_free t l)
  | [] =>
      if Nat.ltb (b_made t) maxb then
        let n := Nat.min batch (maxb - b_made t) in
        Some (b_made t + 1, mk_bs (b_made t + n) (seq (b_made t + 2) (n - 1)) (b_sb t) (b_fsb t) (b_algo t) (b_user t))
      else None
  end.
(** 338-340 *)
Definition give_free (t : bsched) (x : nat) : bsched := with_free t (x :: b_free t).
(** 595-603 and 936-944 *)
Definition get_free (t : bsched) : prog (nat * bsched) :=
  match take_free t with
  | Some r => Ret r
  | None =>
      match algo_pop (b_algo t) with
      | None => Err
      | Some (i, g) =>
          at_sb t i (fun s =>
          let* r := detach s in
          Ret (snd r, with_algo (set_sb t i (fst r)) g))
      end
  end.
Definition evict_insert (t : bsched) (i : nat) (s : sblock) : prog bsched :=
  match b_algo t with
  | Lru q => Ret (with_algo t (Lru (fifo_insert i q)))
  | Lfd q (u :: nu) => Ret (with_algo t (Lfd (pq_insert i (priority s u) q) (u :: nu)))
  | _ => Err
  end.
(** 645-679, 1017-1051 *)
Definition attach_free (t : bsched) (i : nat) (s : sblock) : prog (sblock * bsched) :=
  let* r := get_free t in
  let* s' := attach s (fst r) in
  Ret (s', snd r).
Definition real_acquire (i : nat) (uninit : bool) (t : bsched) : prog bsched :=
  at_sb t i (fun s =>
  if is_internal s then
    let* s' := sb_acquire s in
    Ret (set_sb (if is_acquired s then t else with_algo t (algo_erase i (b_algo t))) i s')
  else if is_initialized s then
    let* r := attach_free t i s in
    let* s' := (if uninit then Ret (fst r) else read_sync (fst r)) in
    let* s'' := sb_acquire s' in
    Ret (set_sb (snd r) i s'')
  else
    let* r := attach_free t i s in
    let* s' := sb_acquire (fst r) in
    let* _ := (if uninit then Ret tt else fill_default s') in
    Ret (set_sb (snd r) i s')).
(** the constructor of online_lru, 608-618 *)
Definition to_lru (g : algo) : algo := Lru (fold_left (fun q i => fifo_insert i q) (drain (algo_size g) g) []).
(** the constructor of offline_lfd, 949-1000 *)
Definition to_lfd (t : bsched) : algo :=
  let m := fst (lfd_scan (algo_ps (b_algo t))) in
  let nu := snd (lfd_scan (algo_ps (b_algo t))) in
  Lfd (fold_left (fun q i => pq_insert i (match nth_error (b_sb t) i with Some s => priority s (m i) | None => 0%N end) q)
                 (drain (algo_size (b_algo t)) (b_algo t)) []) nu.
(** the constructor of simulation, 755-779 *)
Definition to_sim (t : bsched) : algo :=
  Sim (rev (drain (algo_size (b_algo t)) (b_algo t))) 0%N false
      (map (fun s => if is_initialized s then 1%Z else 0%Z) (b_sb t)) [].
(** make_dirty_if, release: 96-100, 112-116 *)
Definition sb_release (s : sblock) (dirty : bool) : prog sblock :=
  if is_acquired s then Ret (mk_sb (sb_ext s) (sb_int s) (dirty || sb_dirty s) (sb_ref s - 1)) else Err.
(** 681-695, 1068-1081 *)
Definition release_body (i : nat) (dirty : bool) (t : bsched) : prog bsched :=
  at_sb t i (fun s =>
  let* s' := sb_release s dirty in
  if is_acquired s' then Ret (set_sb t i s')
  else if sb_dirty s' || is_external s' then evict_insert (set_sb t i s') i s'
  else
    let* r := detach s' in
    Ret (give_free (set_sb t i (fst r)) (snd r))).
Definition real_release (i : nat) (dirty : bool) (t : bsched) : prog bsched :=
  match b_algo t with
  | Lfd q [] => release_body i dirty (with_algo t (to_lru (b_algo t)))        (* 1055-1067 *)
  | Lfd q (u :: nu) =>
      let* t' := release_body i dirty t in
      match b_algo t' with                                                     (* next_use.pop_front(), 1081 *)
      | Lfd q' (_ :: nu') => Ret (with_algo t' (Lfd q' nu'))
      | _ => Err
      end
  | _ => release_body i dirty t
  end.
(** 697-704, 1083-1090 *)
Definition real_deinit (i : nat) (t : bsched) : prog bsched :=
  at_sb t i (fun s =>
  let* r := sb_deinit s in
  let t1 := if is_evictable s then with_algo t (algo_erase i (b_algo t)) else t in
  let t2 := set_sb t1 i (fst r) in
  Ret (match snd r with Some x => give_free t2 x | None => t2 end)).
(** 214-218, 706-710; the scheduler takes the external block over *)
Definition real_init (i slot : nat) (t : bsched) : prog bsched :=
  match nth_error (b_user t) slot with
  | Some (Some b) =>
      at_sb t i (fun s =>
      if is_initialized s then Err else
      Ret (with_user (set_sb t i (mk_sb (Some b) (sb_int s) (sb_dirty s) (sb_ref s))) (set_nth (b_user t) slot None)))
  | _ => Err
  end.
(** 222-228, 712-722; the user gets the external block *)
Definition real_extract (i : nat) (t : bsched) : prog bsched :=
  at_sb t i (fun s =>
  let t1 := if is_evictable s then with_algo t (algo_erase i (b_algo t)) else t in
  let* r := (if is_internal s then let* r := detach s in Ret (fst r, give_free t1 (snd r)) else Ret (s, t1)) in
  if is_internal (fst r) then Err else
  Ret (with_user (set_sb (snd r) i (mk_sb None (sb_int (fst r)) (sb_dirty (fst r)) (sb_ref (fst r))))
                 (b_user t ++ [sb_ext (fst r)]))).

(** * simulation, 794-871 *)
Definition record (o : bop) (i : nat) (c : Z -> Z) (g : algo) : option algo :=
  match g with
  | Sim st tm lr cs ps =>
      match nth_error cs i with
      | None => None
      | Some z =>
          let cs' := set_nth cs i (c z) in
          match o with
          | OpAcquire | OpAcquireUninit => Some (Sim st tm false cs' (ps ++ [mk_pse o i tm]))
          | OpRelease | OpReleaseDirty =>
              let tm' := if lr then tm else (tm + 1)%N in Some (Sim st tm' true cs' (ps ++ [mk_pse o i tm']))
          | _ => Some (Sim st tm lr cs' (ps ++ [mk_pse o i tm]))
          end
      end
  | _ => None
  end.
Definition sim_op (o : bop) (i : nat) (c : Z -> Z) (t : bsched) : prog bsched :=
  match record o i c (b_algo t) with Some g => Ret (with_algo t g) | None => Err end.
Definition is_sim (g : algo) : bool := match g with Sim _ _ _ _ _ => true | _ => false end.

Definition acquire (i : nat) (uninit : bool) (t : bsched) : prog bsched :=
  if is_sim (b_algo t) then sim_op (if uninit then OpAcquireUninit else OpAcquire) i (fun z => z + 1)%Z t
  else real_acquire i uninit t.
Definition release (i : nat) (dirty : bool) (t : bsched) : prog bsched :=
  if is_sim (b_algo t) then sim_op (if dirty then OpReleaseDirty else OpRelease) i (fun z => z - 1 + (if dirty then 1 else 0))%Z t
  else real_release i dirty t.
Definition deinitialize (i : nat) (t : bsched) : prog bsched :=
  if is_sim (b_algo t) then sim_op OpDeinit i (fun _ => 0%Z) t else real_deinit i t.
Definition initialize (i slot : nat) (t : bsched) : prog bsched :=
  if is_sim (b_algo t) then sim_op OpInit i (fun _ => 1%Z) t else real_init i slot t.
Definition extract (i : nat) (t : bsched) : prog bsched :=
  if is_sim (b_algo t) then
    let* t' := sim_op OpExtract i (fun _ => 0%Z) t in Ret (with_user t' (b_user t' ++ [None]))
  else real_extract i t.
(** 568-569, 861-864 *)
Definition initialized (i : nat) (t : bsched) : prog bool :=
  match b_algo t with
  | Sim _ _ _ cs _ => match nth_error cs i with Some z => Ret (Z.ltb 0 z) | None => Err end
  | _ => at_sb t i (fun s => Ret (is_initialized s))
  end.

(** 445-461, 856-859 *)
Definition min_of (x : nat) (l : list nat) : nat := fold_left Nat.min l x.
Fixpoint remove_one (x : nat) (l : list nat) : list nat :=
  match l with [] => [] | y :: r => if Nat.eqb y x then r else y :: remove_one x r end.
Definition allocate (t : bsched) : nat * bsched :=
  match b_fsb t with
  | x :: l => (min_of x l, with_fsb t (remove_one (min_of x l) (b_fsb t)))
  | [] =>
      (length (b_sb t),
       with_algo (with_sb t (b_sb t ++ [sb_new]))
         (match b_algo t with Sim st tm lr cs ps => Sim st tm lr (cs ++ [0%Z]) ps | g => g end))
  end.
(** 465-469 *)
Definition free_block (i : nat) (t : bsched) : prog bsched :=
  let* t' := deinitialize i t in Ret (with_fsb t' (i :: b_fsb t')).
(** 497-513 *)
Fixpoint flush_loop (f : nat) (t : bsched) (qs : list nat) : prog (bsched * list nat) :=
  match f with
  | 0 => if Nat.eqb (algo_size (b_algo t)) 0 then Ret (t, qs) else Err
  | Datatypes.S f' =>
      match algo_pop (b_algo t) with
      | None => Ret (t, qs)
      | Some (i, g) =>
          at_sb t i (fun s =>
          let* r := clean_async s in
          let* r2 := detach (fst r) in
          flush_loop f' (give_free (with_algo (set_sb t i (fst r2)) g) (snd r2)) (match snd r with Some q => q :: qs | None => qs end))
      end
  end.
Definition flush (t : bsched) : prog bsched :=
  let* r := flush_loop (algo_size (b_algo t)) t [] in
  wait_all (snd r) (Ret (fst r)).

(** get_internal_block, 437-438 and 119-130 *)
Definition elem_of (t : bsched) (i : nat) (k : nat -> prog (bsched * out)) : prog (bsched * out) :=
  at_sb t i (fun s => if is_acquired s then match sb_int s with Some x => k x | None => Err end else Err).
(** what the user does with a block of his own *)
Fixpoint put_all (x j : nat) (vs : list A) (k : prog (bsched * out)) : prog (bsched * out) :=
  match vs with [] => k | v :: r => DoPut x j v (put_all x (j + 1) r k) end.

Definition unit_out (p : prog bsched) : prog (bsched * out) := let* t := p in Ret (t, OUnit).
Definition run_op (o : op) (t : bsched) : prog (bsched * out) :=
  match o with
  | BAlloc => Ret (snd (allocate t), ONum (fst (allocate t)))
  | BFree i => unit_out (free_block i t)
  | BAcquire i u => unit_out (acquire i u t)
  | BRelease i d => unit_out (release i d t)
  | BDeinit i => unit_out (deinitialize i t)
  | BInit i s => unit_out (initialize i s t)
  | BExtract i => unit_out (extract i t)
  | BIsInit i => let* b := initialized i t in Ret (t, OBool b)
  | BGet i j => elem_of t i (fun x => if Nat.ltb j S then DoGet x j (fun v => Ret (t, OVal v)) else Err)
  | BSet i j v => elem_of t i (fun x => if Nat.ltb j S then DoPut x j v (Ret (t, OUnit)) else Err)
  | BFlush => unit_out (flush t)
  | BLru => Ret (with_algo t (to_lru (b_algo t)), OUnit)
  | BLfd => Ret (with_algo t (to_lfd t), OUnit)
  | BSim => Ret (with_algo t (to_sim t), OUnit)
  | BStep => Ret (match b_algo t with Sim st tm lr cs ps => with_algo t (Sim st (tm + 1)%N lr cs ps) | _ => t end, OUnit)
  | BNewExt vs => DoAlloc 1 (fun l => match l with
                    | [b] => put_all 0 0 vs (DoWrite 0 b (fun q => DoWait q (Ret (with_user t (b_user t ++ [Some b]), OUnit))))
                    | _ => Err end)
  | BReadExt s j =>
      match nth_error (b_user t) s with
      | Some (Some b) => if Nat.ltb j S then DoRead 0 b (fun q => DoWait q (DoGet 0 j (fun v => Ret (t, OVal v)))) else Err
      | _ => Err
      end
  end.
Fixpoint run_ops (os : list op) (t : bsched) : prog (bsched * list out) :=
  match os with
  | [] => Ret (t, [])
  | o :: r => let* x := run_op o t in let* y := run_ops r (fst x) in Ret (fst y, snd x :: snd y)
  end.
(** 345-352 *)
Definition bs_init : bsched := mk_bs 0 [] [] [] (Lru []) [].

(** ~block_scheduler, 354-385, with the destructors of the algorithms, 629-637, 772-783, 1001-1009 *)
Fixpoint deinit_all (skip : bool) (is : list nat) (t : bsched) : prog bsched :=
  match is with
  | [] => Ret t
  | i :: r =>
      at_sb t i (fun s =>
      if skip && is_acquired s then deinit_all skip r t else
      let* x := sb_deinit s in
      deinit_all skip r (match snd x with Some y => give_free (set_sb t i (fst x)) y | None => set_sb t i (fst x) end))
  end.
Definition destroy (t : bsched) : prog bsched :=
  let* t1 := deinit_all false (drain (algo_size (b_algo t)) (b_algo t)) t in
  if Nat.eqb (length (b_fsb t1)) (length (b_sb t1)) then Ret t1 else deinit_all true (seq 0 (length (b_sb t1))) t1.
End Sched.

Arguments BAlloc {A}. Arguments BFree {A}. Arguments BAcquire {A}. Arguments BRelease {A}. Arguments BDeinit {A}. Arguments BInit {A}.
Arguments BExtract {A}. Arguments BIsInit {A}. Arguments BGet {A}. Arguments BSet {A}. Arguments BFlush {A}. Arguments BLru {A}.
Arguments BLfd {A}. Arguments BSim {A}. Arguments BStep {A}. Arguments BNewExt {A}. Arguments BReadExt {A}.
Arguments OUnit {A}. Arguments ONum {A}. Arguments OVal {A}. Arguments OBool {A}.
