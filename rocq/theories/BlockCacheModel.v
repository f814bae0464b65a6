(** * Model of the block cache of the external hash map

    Source: [/repo/include/stxxl/bits/containers/hash_map/block_cache.h] and
    the pager [/repo/include/stxxl/bits/containers/pager.h] 62-100.

    The model keeps the three things a sequential picture of a cache would
    hide:

    - memory: block buffers have identities, [blocks_] and the buffers of the
      write buffer are arrays of pointers which are exchanged, and a client
      holds a pointer into a buffer (buffer, subblock);
    - time: reads and writes are requests in a queue; they take effect when
      the device serves them, at any moment between submission and the wait;
    - order: [ordered] says whether the device serves two requests for the
      same block in the order of their submission.

    Simplifications: arrays are functions on indices, the free blocks, the
    pager and the map are lists; a block id is a number and different numbers
    are disjoint regions (storage and offset are not modelled, subblock [s] of
    block [b] is the region at [offset + s * raw_size]); [cancel] either comes
    too late or removes the request; the order in which the unordered map is
    traversed is the parameter [iter]; exceptions of the I/O layer are not
    modelled. *)
From Coq Require Import Arith Bool List Lia.
Import ListNotations.

Definition upd {A} (f : nat -> A) (i : nat) (v : A) : nat -> A :=
  fun j => if Nat.eqb j i then v else f j.

(** replace the element at a position of a list *)
Fixpoint lset {A} (l : list A) (i : nat) (v : A) : list A :=
  match l, i with
  | [], _ => []
  | _ :: l', 0 => v :: l'
  | x :: l', S i' => x :: lset l' i' v
  end.

Section Model.
Context {V : Type}.

(** ** Device: requests, queue, service *)

(** read a block into a buffer, read one subblock, write a buffer; [QExt] is a
    write by a writer with its own buffers *)
Inductive rq :=
| QRead (buf b : nat)
| QSub (buf b s : nat)
| QWrite (buf b : nat)
| QExt (b : nat) (blk : list V).

Definition rq_bid (r : rq) : nat :=
  match r with QRead _ b | QSub _ b _ | QWrite _ b | QExt b _ => b end.

Record dev := mkDev {
  heap : nat -> list V;          (** buffers in memory *)
  disk : nat -> list V;          (** blocks on disk *)
  queue : list (nat * rq);       (** requests not yet served, by submission *)
  nextq : nat;                   (** next request number *)
  orc : list (list nat)          (** what the device does before each wait *)
}.

Definition submit (r : rq) (d : dev) : nat * dev :=
  (nextq d, mkDev (heap d) (disk d) (queue d ++ [(nextq d, r)])
                  (S (nextq d)) (orc d)).

Definition exec (r : rq) (d : dev) : dev :=
  match r with
  | QRead buf b =>
      mkDev (upd (heap d) buf (disk d b)) (disk d) (queue d) (nextq d) (orc d)
  | QSub buf b s =>
      match nth_error (disk d b) s with
      | Some v => mkDev (upd (heap d) buf (lset (heap d buf) s v))
                        (disk d) (queue d) (nextq d) (orc d)
      | None => d
      end
  | QWrite buf b =>
      mkDev (heap d) (upd (disk d) b (heap d buf)) (queue d) (nextq d) (orc d)
  | QExt b blk =>
      mkDev (heap d) (upd (disk d) b blk) (queue d) (nextq d) (orc d)
  end.

Definition set_queue (d : dev) (q : list (nat * rq)) : dev :=
  mkDev (heap d) (disk d) q (nextq d) (orc d).

Definition set_orc (d : dev) (o : list (list nat)) : dev :=
  mkDev (heap d) (disk d) (queue d) (nextq d) o.

Definition lookup (id : nat) (q : list (nat * rq)) : option rq :=
  option_map snd (find (fun x => Nat.eqb (fst x) id) q).

Definition drop (id : nat) (q : list (nat * rq)) : list (nat * rq) :=
  filter (fun x => negb (Nat.eqb (fst x) id)) q.

(** serve one pending request *)
Definition serve (id : nat) (d : dev) : dev :=
  match lookup id (queue d) with
  | Some r => exec r (set_queue d (drop id (queue d)))
  | None => d
  end.

Variable ordered : bool.

(** the request that is served next when [id] is wanted: [id] itself, or, if
    requests for one block are served in order, the oldest one for its block *)
Definition oldest (b : nat) (q : list (nat * rq)) : option nat :=
  option_map fst (find (fun x => Nat.eqb (rq_bid (snd x)) b) q).

Fixpoint force (n : nat) (id : nat) (d : dev) : dev :=
  match n with
  | 0 => d
  | S n' =>
      match lookup id (queue d) with
      | None => d
      | Some r =>
          if ordered then
            match oldest (rq_bid r) (queue d) with
            | Some id' => force n' id (serve id' d)
            | None => d
            end
          else serve id d
      end
  end.

Definition force_all (ids : list nat) (d : dev) : dev :=
  fold_left (fun d id => force (S (length (queue d))) id d) ids d.

(** anything may happen before a wait *)
Definition drift (d : dev) : dev :=
  match orc d with
  | [] => d
  | ids :: o => force_all ids (set_orc d o)
  end.

(** request::wait *)
Definition wait (id : nat) (d : dev) : dev :=
  let d := drift d in force (S (length (queue d))) id d.

(** request::cancel, then wait: if the request has not been served it is
    removed *)
Definition cancel (id : nat) (d : dev) : dev :=
  let d := drift d in set_queue d (drop id (queue d)).

Definition wait_opt (r : option nat) (d : dev) : dev :=
  match r with Some id => wait id d | None => d end.

(** ** Write buffer *)

(** block_cache_write_buffer (block_cache.h 42-45) *)
Record wbuf := mkWb {
  w_blocks : nat -> nat;         (** [blocks_]: buffer of each place *)
  w_reqs : nat -> option nat;    (** [reqs_] *)
  w_free : list nat;             (** [free_blocks_], top first *)
  w_busy : list nat              (** [busy_blocks_], front first *)
}.

(** block_cache_write_buffer::write (62-83); [None]: [front()] of an empty
    list *)
Definition wb_write (buf b : nat) (w : wbuf) (d : dev)
  : option (nat * wbuf * dev) :=
  let r :=
    match w_free w with
    | [] =>
        match w_busy w with
        | [] => None
        | i :: busy => Some (mkWb (w_blocks w) (w_reqs w) [i] busy,
                             wait_opt (w_reqs w i) d)
        end
    | _ :: _ => Some (w, d)
    end in
  match r with
  | None => None
  | Some (w, d) =>
      match w_free w with
      | [] => None
      | i :: free =>
          let (id, d) := submit (QWrite buf b) d in
          Some (w_blocks w i,
                mkWb (upd (w_blocks w) i buf) (upd (w_reqs w) i (Some id))
                     free (w_busy w ++ [i]),
                d)
      end
  end.

(** block_cache_write_buffer::flush (85-97) *)
Definition wb_flush (wsize : nat) (w : wbuf) (d : dev) : wbuf * dev :=
  (mkWb (w_blocks w) (w_reqs w) (rev (seq 0 wsize)) [],
   fold_left (fun d i => wait_opt (w_reqs w i) d) (w_busy w) d).

(** ** Cache *)

(** [valid_subblock_]: the whole block or one subblock *)
Inductive valid := VAll | VSub (s : nat).

Record stats := mkStats {
  n_found : nat; n_not_found : nat; n_read : nat;
  n_written : nat; n_clean_forced : nat; n_wrong : nat
}.

Definition st_found (s : stats) :=
  mkStats (S (n_found s)) (n_not_found s) (S (n_read s))
          (n_written s) (n_clean_forced s) (n_wrong s).
Definition st_wrong (s : stats) :=
  mkStats (n_found s) (S (n_not_found s)) (S (n_read s))
          (n_written s) (n_clean_forced s) (S (n_wrong s)).
Definition st_miss (s : stats) :=
  mkStats (n_found s) (S (n_not_found s)) (S (n_read s))
          (n_written s) (n_clean_forced s) (n_wrong s).
Definition st_written (s : stats) :=
  mkStats (n_found s) (n_not_found s) (n_read s)
          (S (n_written s)) (n_clean_forced s) (n_wrong s).
Definition st_clean (s : stats) :=
  mkStats (n_found s) (n_not_found s) (n_read s)
          (n_written s) (S (n_clean_forced s)) (n_wrong s).

(** block_cache (163-190) *)
Record cache := mkCache {
  wb : wbuf;
  blocks : nat -> nat;           (** buffer of each slot *)
  bids : nat -> nat;
  retain : nat -> nat;
  dirty : nat -> bool;
  validity : nat -> valid;
  free : list nat;               (** [free_blocks_], top first *)
  reqs : nat -> option nat;
  bmap : list (nat * nat);       (** [bid_map_] *)
  pager : list nat;              (** history, most recent first *)
  st : stats
}.

Variable csize wsize nsub : nat.
Variable iter : list (nat * nat) -> list (nat * nat).

(** constructor (195-217): buffers [0 .. csize-1] for the cache, the following
    [wsize] for the write buffer *)
Definition c_init : cache :=
  mkCache (mkWb (fun i => csize + i) (fun _ => None) (rev (seq 0 wsize)) [])
          (fun i => i) (fun _ => 0) (fun _ => 0) (fun _ => false)
          (fun _ => VSub 0) (rev (seq 0 csize)) (fun _ => None) []
          (seq 0 csize) (mkStats 0 0 0 0 0 0).

Definition bfind (b : nat) (m : list (nat * nat)) : option nat :=
  option_map snd (find (fun x => Nat.eqb (fst x) b) m).

Definition berase (b : nat) (m : list (nat * nat)) : list (nat * nat) :=
  filter (fun x => negb (Nat.eqb (fst x) b)) m.

(** lru_pager::hit (pager.h 84-88) *)
Definition hit (i : nat) (p : list nat) : list nat :=
  i :: filter (fun j => negb (Nat.eqb j i)) p.

(** the search of kick_block (252-268): [Some (Some i)] a victim, [Some None]
    the exception, [None] [back()] of an empty list *)
Fixpoint victim (n : nat) (ret : nat -> nat) (p : list nat)
  : option (option nat * list nat) :=
  match rev p with
  | [] => None
  | i :: _ =>
      match n with
      | 0 => Some (None, p)
      | S n' =>
          let p := hit i p in
          if Nat.ltb 0 (ret i) then victim n' ret p else Some (Some i, p)
      end
  end.

Definition set_pager (c : cache) (p : list nat) : cache :=
  mkCache (wb c) (blocks c) (bids c) (retain c) (dirty c) (validity c)
          (free c) (reqs c) (bmap c) p (st c).
Definition set_st (c : cache) (s : stats) : cache :=
  mkCache (wb c) (blocks c) (bids c) (retain c) (dirty c) (validity c)
          (free c) (reqs c) (bmap c) (pager c) s.
Definition set_retain (c : cache) (r : nat -> nat) : cache :=
  mkCache (wb c) (blocks c) (bids c) r (dirty c) (validity c)
          (free c) (reqs c) (bmap c) (pager c) (st c).
Definition set_dirty (c : cache) (r : nat -> bool) : cache :=
  mkCache (wb c) (blocks c) (bids c) (retain c) r (validity c)
          (free c) (reqs c) (bmap c) (pager c) (st c).
Definition set_wb (c : cache) (w : wbuf) (bl : nat -> nat) : cache :=
  mkCache w bl (bids c) (retain c) (dirty c) (validity c)
          (free c) (reqs c) (bmap c) (pager c) (st c).
Definition set_load (c : cache) (v : nat -> valid) (r : nat -> option nat) : cache :=
  mkCache (wb c) (blocks c) (bids c) (retain c) (dirty c) v
          (free c) r (bmap c) (pager c) (st c).

(** outcome of an operation that may have to make room *)
Inductive out (A : Type) := Done (a : A) | Thrown | Undefined.
Arguments Done {A} a.
Arguments Thrown {A}.
Arguments Undefined {A}.

(** block_cache::kick_block (250-287) *)
Definition kick_block (c : cache) (d : dev) : out unit * cache * dev :=
  match victim csize (retain c) (pager c) with
  | None => (Undefined, c, d)
  | Some (None, p) => (Thrown, set_pager c p, d)
  | Some (Some i, p) =>
      let c := set_pager c p in
      let d := match validity c i with
               | VAll => wait_opt (reqs c i) d
               | VSub _ => d
               end in
      let r :=
        if dirty c i then
          match wb_write (blocks c i) (bids c i) (wb c) d with
          | None => None
          | Some (buf, w, d) =>
              Some (set_st (set_wb c w (upd (blocks c) i buf)) (st_written (st c)), d)
          end
        else Some (set_st c (st_clean (st c)), d) in
      match r with
      | None => (Undefined, c, d)
      | Some (c, d) =>
          (Done tt,
           mkCache (wb c) (blocks c) (bids c) (retain c) (dirty c) (validity c)
                   (i :: free c) (reqs c) (berase (bids c i) (bmap c)) (pager c)
                   (st c), d)
      end
  end.

(** making room for block [b]: get_subblock 406-415, prefetch_block 454-462;
    the result is the slot *)
Definition place (b : nat) (c : cache) (d : dev) : out nat * cache * dev :=
  let '(o, c, d) :=
    match free c with
    | [] => kick_block c d
    | _ :: _ => (Done tt, c, d)
    end in
  match o with
  | Thrown => (Thrown, c, d)
  | Undefined => (Undefined, c, d)
  | Done _ =>
      match free c with
      | [] => (Undefined, c, d)
      | i :: fr =>
          (Done i,
           mkCache (wb c) (blocks c) (upd (bids c) i b) (upd (retain c) i 0)
                   (upd (dirty c) i false) (validity c) fr (reqs c)
                   ((b, i) :: bmap c) (pager c) (st c), d)
      end
  end.

(** block_cache::retain_block (296-305) *)
Definition retain_block (b : nat) (c : cache) : bool * cache :=
  match bfind b (bmap c) with
  | None => (false, c)
  | Some i => (true, set_retain c (upd (retain c) i (S (retain c i))))
  end.

(** block_cache::release_block (313-325) *)
Definition release_block (b : nat) (c : cache) : bool * cache :=
  match bfind b (bmap c) with
  | None => (false, c)
  | Some i =>
      if Nat.eqb (retain c i) 0 then (false, c)
      else (true, set_retain c (upd (retain c) i (retain c i - 1)))
  end.

(** block_cache::make_dirty (331-353) *)
Definition make_dirty (b : nat) (c : cache) (d : dev) : bool * cache * dev :=
  match bfind b (bmap c) with
  | None => (false, c, d)
  | Some i =>
      let (c, d) :=
        match validity c i with
        | VAll => (c, d)
        | VSub _ =>
            let (id, d) := submit (QRead (blocks c i) b) d in
            (set_load c (upd (validity c) i VAll) (upd (reqs c) i (Some id)), d)
        end in
      let d := wait_opt (reqs c i) d in
      (true, set_dirty c (upd (dirty c) i true), d)
  end.

(** loading one subblock (get_subblock 418-428); the result is the pointer *)
Definition load_sub (b s i : nat) (c : cache) (d : dev)
  : (nat * nat) * cache * dev :=
  let (id, d) := submit (QSub (blocks c i) b s) d in
  let d := wait id d in
  ((blocks c i, s),
   set_pager (set_load c (upd (validity c) i (VSub s)) (reqs c)) (hit i (pager c)),
   d).

(** block_cache::get_subblock (361-429) *)
Definition get_subblock (b s : nat) (c : cache) (d : dev)
  : out (nat * nat) * cache * dev :=
  match bfind b (bmap c) with
  | Some i =>
      match validity c i with
      | VAll => (Done (blocks c i, s), set_st c (st_found (st c)),
                 wait_opt (reqs c i) d)
      | VSub s' =>
          if Nat.eqb s' s
          then (Done (blocks c i, s), set_st c (st_found (st c)), d)
          else let '(p, c, d) := load_sub b s i (set_st c (st_wrong (st c))) d in
               (Done p, c, d)
      end
  | None =>
      let '(o, c, d) := place b (set_st c (st_miss (st c))) d in
      match o with
      | Done i => let '(p, c, d) := load_sub b s i c d in (Done p, c, d)
      | Thrown => (Thrown, c, d)
      | Undefined => (Undefined, c, d)
      end
  end.

(** the tail of prefetch_block (465-468) *)
Definition load_all (b i : nat) (c : cache) (d : dev) : cache * dev :=
  let (id, d) := submit (QRead (blocks c i) b) d in
  (set_pager (set_load c (upd (validity c) i VAll) (upd (reqs c) i (Some id)))
             (hit i (pager c)), d).

(** block_cache::prefetch_block (433-469) *)
Definition prefetch_block (b : nat) (c : cache) (d : dev) : out unit * cache * dev :=
  match bfind b (bmap c) with
  | Some i =>
      match validity c i with
      | VAll => (Done tt, set_pager c (hit i (pager c)), d)
      | VSub _ => let (c, d) := load_all b i c d in (Done tt, c, d)
      end
  | None =>
      let '(o, c, d) := place b c d in
      match o with
      | Done i => let (c, d) := load_all b i c d in (Done tt, c, d)
      | Thrown => (Thrown, c, d)
      | Undefined => (Undefined, c, d)
      end
  end.

(** one round of block_cache::flush (474-485) *)
Definition flush_one (x : nat * nat) (r : option (cache * dev))
  : option (cache * dev) :=
  match r with
  | None => None
  | Some (c, d) =>
      let i := snd x in
      if dirty c i then
        match wb_write (blocks c i) (bids c i) (wb c) d with
        | None => None
        | Some (buf, w, d) =>
            Some (set_dirty (set_wb c w (upd (blocks c) i buf))
                            (upd (dirty c) i false), d)
        end
      else Some (c, d)
  end.

(** block_cache::flush (472-487) *)
Definition flush (c : cache) (d : dev) : option (cache * dev) :=
  match fold_left (fun r x => flush_one x r) (iter (bmap c)) (Some (c, d)) with
  | None => None
  | Some (c, d) =>
      let (w, d) := wb_flush wsize (wb c) d in
      Some (set_wb c w (blocks c), d)
  end.

(** block_cache::clear (490-503) *)
Definition clear (c : cache) (d : dev) : cache * dev :=
  (mkCache (wb c) (blocks c) (bids c) (retain c) (dirty c) (validity c)
           (rev (seq 0 csize)) (reqs c) [] (pager c) (st c),
   fold_left (fun d i => match reqs c i with
                         | Some id => cancel id d
                         | None => d
                         end) (seq 0 csize) d).

(** one round of the destructor (229-241) *)
Definition destroy_one (x : nat * nat) (r : option (cache * dev))
  : option (cache * dev) :=
  match r with
  | None => None
  | Some (c, d) =>
      let i := snd x in
      let d := wait_opt (reqs c i) d in
      if dirty c i then
        match wb_write (blocks c i) (bids c i) (wb c) d with
        | None => None
        | Some (buf, w, d) => Some (set_wb c w (upd (blocks c) i buf), d)
        end
      else Some (c, d)
  end.

(** block_cache::~block_cache (225-246) and then the destructor of the write
    buffer (107-112), whose flush finds nothing to do *)
Definition destroy (c : cache) (d : dev) : option dev :=
  match fold_left (fun r x => destroy_one x r) (iter (bmap c)) (Some (c, d)) with
  | None => None
  | Some (c, d) => Some (snd (wb_flush wsize (wb c) d))
  end.

(** block_cache::swap (530-552): all members are exchanged, the statistics by
    the statements as they stand *)
Definition swap_stats (a b : stats) : stats * stats :=
  (mkStats (n_found b) (n_found a) (n_read b)
           (n_written b) (n_clean_forced b) (n_wrong b),
   mkStats (n_not_found a) (n_not_found b) (n_read a)
           (n_written a) (n_clean_forced a) (n_wrong a)).

Definition swap_caches (a b : cache) : cache * cache :=
  let (sa, sb) := swap_stats (st a) (st b) in (set_st b sa, set_st a sb).

End Model.

Arguments Done {A} a.
Arguments Thrown {A}.
Arguments Undefined {A}.
Arguments rq V : clear implicits.
Arguments dev V : clear implicits.
