(** Model of the block pools.  Sources under /repo/include/stxxl/bits/mng:
      write_pool.h (91-289), prefetch_pool.h (30-365), read_write_pool.h (25-200).

    Buffers, block ids and requests are numbered; contents are of an arbitrary
    type [V].  A request that has been issued is in [pending] until it has
    finished; the disk threads may start and finish requests at any time: events
    [Start], [Finish], and the lists [s] that operations with an internal wait
    take as a parameter.  Reads and writes are in different queues, so a read
    may overtake a write and vice versa; writes of one block finish in the order
    of issue (one queue per disk, first in first out: request_queue_impl_qwqr.cpp).
    A write takes the content of its buffer when it finishes, a read fills its
    buffer when it finishes.  cancel succeeds exactly when the request has not
    been started (see IoQueueProps.C27_cancel_answer).

    The client owns buffers ([user]); [Some (q, b)] marks a buffer obtained by
    read(b) whose request q was not waited for yet.  An operation the client
    must not call (a buffer it does not own or with an unfinished request; an
    operation on a block whose read it has not waited for) gives [Misuse].
    Not modelled: destructors, swap, the deprecated functions, I/O errors. *)
From Coq Require Import List Bool Arith.
From Verif Require Import SumLib.
Import ListNotations.

Record req := mk_req { q_id : nat; q_write : bool; q_buf : nat; q_bid : nat; q_started : bool }.

Section Pool.
Variable V : Type.
(** whether a client has to wait for the request of a read before the next operation on that block *)
Variable strict : bool.

Record state := mk_state {
  cont : nat -> V;                          (** content of buffers *)
  disk : nat -> V;                          (** content of blocks on disk *)
  pending : list req;                       (** issued and not finished, oldest first *)
  nreq : nat;                               (** next request number *)
  nbuf : nat;                               (** next buffer number (operator new) *)
  wfree : list nat;                         (** write_pool::free_blocks, back first *)
  wbusy : list (option nat * nat * nat);    (** write_pool::busy_blocks: bid (None: storage = 0), block, request *)
  pfree : list nat;                         (** prefetch_pool::free_blocks, back first *)
  psize : nat;                              (** prefetch_pool::free_blocks_size *)
  pbusy : list (nat * nat * nat);           (** prefetch_pool::busy_blocks: bid, block, request *)
  user : list (nat * option (nat * nat)) }. (** buffers of the client: buffer, (request, bid) *)

Inductive obs := OWrote (b : nat) (v : V) | OGot (b : nat) (v : V).
Inductive outcome := Ok (s : state) (o : list obs) | Blocked | Fail | Misuse.

Definition is_pending (st : state) (q : nat) : bool := existsb (fun r => Nat.eqb (q_id r) q) (pending st).

(** * the disk threads *)
Inductive sev := SStart (q : nat) | SFinish (q : nat).
Definition find_req (l : list req) (q : nat) : option req := find (fun r => Nat.eqb (q_id r) q) l.
Definition writes (b : nat) (l : list req) : list req := filter (fun r => q_write r && Nat.eqb (q_bid r) b) l.
Definition drop_req (l : list req) (q : nat) : list req := filter (fun r => negb (Nat.eqb (q_id r) q)) l.
Definition start_req (l : list req) (q : nat) : list req :=
  map (fun r => if Nat.eqb (q_id r) q then mk_req (q_id r) (q_write r) (q_buf r) (q_bid r) true else r) l.
(** first write of its block *)
Definition first_write (l : list req) (r : req) : bool :=
  match writes (q_bid r) l with x :: _ => Nat.eqb (q_id x) (q_id r) | [] => false end.

Definition set_io st c d p n := mk_state c d p n (nbuf st) (wfree st) (wbusy st) (pfree st) (psize st) (pbusy st) (user st).
Definition serve (st : state) (e : sev) : option state :=
  match e with
  | SStart q => Some (set_io st (cont st) (disk st) (start_req (pending st) q) (nreq st))
  | SFinish q =>
      match find_req (pending st) q with
      | None => None
      | Some r =>
          if q_write r then
            if first_write (pending st) r
            then Some (set_io st (cont st) (upd (disk st) (q_bid r) (cont st (q_buf r))) (drop_req (pending st) q) (nreq st))
            else None
          else Some (set_io st (upd (cont st) (q_buf r) (disk st (q_bid r))) (disk st) (drop_req (pending st) q) (nreq st))
      end
  end.
Fixpoint serves (st : state) (s : list sev) : option state :=
  match s with
  | [] => Some st
  | e :: l => match serve st e with Some st' => serves st' l | None => None end
  end.

(** block->write(bid) / block->read(bid) *)
Definition issue (st : state) (w : bool) (x b : nat) : state * nat :=
  (set_io st (cont st) (disk st) (pending st ++ [mk_req (nreq st) w x b false]) (S (nreq st)), nreq st).
(** request::cancel *)
Definition cancel (st : state) (q : nat) : state :=
  match find_req (pending st) q with
  | Some r => if q_started r then st else set_io st (cont st) (disk st) (drop_req (pending st) q) (nreq st)
  | None => st
  end.

Definition set_w st f b := mk_state (cont st) (disk st) (pending st) (nreq st) (nbuf st) f b (pfree st) (psize st) (pbusy st) (user st).
Definition set_p st f n b := mk_state (cont st) (disk st) (pending st) (nreq st) (nbuf st) (wfree st) (wbusy st) f n b (user st).
Definition set_user st u := mk_state (cont st) (disk st) (pending st) (nreq st) (nbuf st) (wfree st) (wbusy st) (pfree st) (psize st) (pbusy st) u.
Definition set_nbuf st n := mk_state (cont st) (disk st) (pending st) (nreq st) n (wfree st) (wbusy st) (pfree st) (psize st) (pbusy st) (user st).
Definition set_cont st c := mk_state c (disk st) (pending st) (nreq st) (nbuf st) (wfree st) (wbusy st) (pfree st) (psize st) (pbusy st) (user st).

Definition is_bid (b : nat) (o : option nat) : bool := match o with Some c => Nat.eqb c b | None => false end.

(** * write_pool *)
(** write_pool.h:119-130: requests of entries with this bid are cancelled and their bid is invalidated *)
Fixpoint cancel_stale (st : state) (l : list (option nat * nat * nat)) (b : nat) : state :=
  match l with
  | [] => st
  | (o, _, q) :: t => cancel_stale (if is_bid b o then cancel st q else st) t b
  end.
Definition mark_stale (b : nat) (e : option nat * nat * nat) : option nat * nat * nat :=
  match e with (o, x, q) => ((if is_bid b o then None else o), x, q) end.
(** write_pool.h:116-135 *)
Definition w_write (st : state) (x b : nat) : state :=
  let st1 := cancel_stale st (wbusy st) b in
  let st2 := set_w st1 (wfree st1) (map (mark_stale b) (wbusy st1)) in
  let '(st3, q) := issue st2 true x b in
  set_w st3 (wfree st3) (wbusy st3 ++ [(Some b, x, q)]).
(** write_pool.h:196-204 *)
Definition has_request (st : state) (b : nat) : bool := existsb (fun e => is_bid b (fst (fst e))) (wbusy st).
(** write_pool.h:224-244: first entry with the bid *)
Fixpoint take_bid (b : nat) (l : list (option nat * nat * nat)) : option (nat * nat * list (option nat * nat * nat)) :=
  match l with
  | [] => None
  | (o, x, q) :: t => if is_bid b o then Some (x, q, t)
                      else match take_bid b t with Some (y, p, t') => Some (y, p, (o, x, q) :: t') | None => None end
  end.
(** write_pool.h:246-251 *)
Definition w_add (st : state) (x : nat) : state := set_w st (x :: wfree st) (wbusy st).
(** write_pool.h:254-271: finished entries become free *)
Definition check_all_busy (st : state) : state :=
  set_w st (map (fun e => snd (fst e)) (rev (filter (fun e => negb (is_pending st (snd e))) (wbusy st))) ++ wfree st)
           (filter (fun e => is_pending st (snd e)) (wbusy st)).
Fixpoint remove_at {A} (n : nat) (l : list A) : option (A * list A) :=
  match l, n with
  | [], _ => None
  | x :: t, O => Some (x, t)
  | x :: t, S m => match remove_at m t with Some (y, t') => Some (y, x :: t') | None => None end
  end.
Inductive stolen := SOk (st : state) (x : nat) | SBlocked | SFail.
(** write_pool.h:139-159; wait_any returns the finished entry number [c] (any finished one: C30) *)
Definition w_steal (st : state) (s : list sev) (c : nat) : stolen :=
  match wfree st with
  | x :: f => SOk (set_w st f (wbusy st)) x
  | [] =>
      match wbusy st with
      | [] => SFail                                       (* STXXL_ASSERT(size() > 0) *)
      | _ =>
        match serves st s with
        | None => SBlocked
        | Some st1 =>
          match remove_at c (wbusy st1) with
          | Some ((_, x, q), l) => if is_pending st1 q then SBlocked
                                   else SOk (check_all_busy (set_w st1 (wfree st1) l)) x
          | None => SBlocked
          end
        end
      end
  end.

(** * prefetch_pool *)
Fixpoint p_take (b : nat) (l : list (nat * nat * nat)) : option (nat * nat * list (nat * nat * nat)) :=
  match l with
  | [] => None
  | (c, x, q) :: t => if Nat.eqb c b then Some (x, q, t)
                      else match p_take b t with Some (y, p, t') => Some (y, p, (c, x, q) :: t') | None => None end
  end.
(** prefetch_pool.h:200-228: hint(bid, w_pool) *)
Definition p_hint (st : state) (b : nat) : option state :=
  match p_take b (pbusy st) with
  | Some _ => Some st
  | None =>
      if Nat.eqb (psize st) 0 then Some st else
      match pfree st with
      | [] => None                                        (* back() of an empty list *)
      | x :: f =>
          match take_bid b (wbusy st) with
          | Some (y, q, l) => Some (set_p (set_w st (x :: wfree st) l) f (pred (psize st)) ((b, y, q) :: pbusy st))
          | None => let '(st1, q) := issue (set_p st f (pred (psize st)) (pbusy st)) false x b in
                    Some (set_p st1 (pfree st1) (psize st1) ((b, x, q) :: pbusy st1))
          end
      end
  end.
Definition req_is_read (st : state) (q : nat) : bool :=
  match find_req (pending st) q with Some r => negb (q_write r) | None => false end.
(** prefetch_pool.h:231-247; [s] happens during the wait.  For a finished request cancel has no effect. *)
Definition p_invalidate (st : state) (b : nat) (s : list sev) : option (state * bool) :=
  match p_take b (pbusy st) with
  | None => Some (st, false)
  | Some (x, q, l) =>
      let st1 := if req_is_read st q then cancel st q else st in
      match serves st1 s with
      | None => None
      | Some st2 => if is_pending st2 q then None
                    else Some (set_p st2 (x :: pfree st2) (S (psize st2)) l, true)
      end
  end.
(** prefetch_pool.h:304-336: read(block, bid, w_pool) *)
Definition p_read (st : state) (x b : nat) : state * nat * nat :=
  match p_take b (pbusy st) with
  | Some (y, q, l) => (set_p st (x :: pfree st) (S (psize st)) l, y, q)
  | None =>
      match take_bid b (wbusy st) with
      | Some (y, q, l) => (set_w st (x :: wfree st) l, y, q)
      | None => let '(st1, q) := issue st false x b in (st1, x, q)
      end
  end.

(** * the client *)
Fixpoint u_take (x : nat) (l : list (nat * option (nat * nat))) : option (option (nat * nat) * list (nat * option (nat * nat))) :=
  match l with
  | [] => None
  | (y, o) :: t => if Nat.eqb y x then Some (o, t)
                   else match u_take x t with Some (p, t') => Some (p, (y, o) :: t') | None => None end
  end.
(** the client has not yet waited for a read of b *)
Definition awaiting (st : state) (b : nat) : bool :=
  existsb (fun e => match snd e with Some (_, c) => Nat.eqb c b | None => false end) (user st).

Inductive event :=
| Serve (e : sev)
| New                                       (** new block_type *)
| Fill (x : nat) (v : V)                    (** the client changes a buffer *)
| Write (x b : nat) (s1 s2 : list sev)      (** read_write_pool::write; [s1] before, [s2] in the wait of invalidate *)
| Read (x b : nat)
| WaitRead (x : nat)                        (** wait for the request of a read *)
| Hint (b : nat)
| Invalidate (b : nat) (s : list sev)
| Steal (s : list sev) (c : nat)
| Add (x : nat) | AddPrefetch (x : nat) | StealPrefetch
| ResizeW (n : nat) (s : nat -> list sev * nat)
| ResizeP (n : nat).

Fixpoint grow_w (st : state) (n : nat) : state :=
  match n with O => st | S m => grow_w (set_nbuf (w_add st (nbuf st)) (S (nbuf st))) m end.
Fixpoint shrink_w (st : state) (n : nat) (s : nat -> list sev * nat) : outcome :=
  match n with
  | O => Ok st []
  | S m => match w_steal st (fst (s n)) (snd (s n)) with
           | SOk st' _ => shrink_w st' m s      (* delete steal() *)
           | SBlocked => Blocked | SFail => Fail end
  end.
Fixpoint grow_p (st : state) (n : nat) : state :=
  match n with O => st | S m => grow_p (set_nbuf (set_p st (nbuf st :: pfree st) (psize st) (pbusy st)) (S (nbuf st))) m end.
Fixpoint shrink_p (st : state) (n : nat) : outcome :=
  match n with
  | O => Ok st []
  | S m => if Nat.eqb (psize st) 0 then Ok st []
           else match pfree st with
                | [] => Fail
                | _ :: f => shrink_p (set_p st f (pred (psize st)) (pbusy st)) m end
  end.
Definition wsize (st : state) : nat := length (wfree st) + length (wbusy st).
Definition psz (st : state) : nat := psize st + length (pbusy st).

Definition step (st : state) (e : event) : outcome :=
  match e with
  | Serve e => match serve st e with Some st' => Ok st' [] | None => Blocked end
  | New => Ok (set_nbuf (set_user st ((nbuf st, None) :: user st)) (S (nbuf st))) []
  | Fill x v => match u_take x (user st) with
                | Some (None, _) => Ok (set_cont st (upd (cont st) x v)) []
                | _ => Misuse end
  | Write x b s1 s2 =>
      if strict && awaiting st b then Misuse else
      match u_take x (user st) with
      | Some (None, u) =>
          match serves (set_user st u) s1 with
          | None => Blocked
          | Some st1 =>
              match p_invalidate (w_write st1 x b) b s2 with
              | None => Blocked
              | Some (st2, hit) =>
                  if hit then match p_hint st2 b with Some st3 => Ok st3 [OWrote b (cont st x)] | None => Fail end
                  else Ok st2 [OWrote b (cont st x)]
              end
          end
      | _ => Misuse end
  | Read x b =>
      if strict && awaiting st b then Misuse else
      match u_take x (user st) with
      | Some (None, u) => let '(st1, y, q) := p_read (set_user st u) x b in
                          Ok (set_user st1 ((y, Some (q, b)) :: user st1)) []
      | _ => Misuse end
  | WaitRead x =>
      match u_take x (user st) with
      | Some (Some (q, b), u) => if is_pending st q then Blocked
                                 else Ok (set_user st ((x, None) :: u)) [OGot b (cont st x)]
      | _ => Misuse end
  | Hint b => if strict && awaiting st b then Misuse else
              match p_hint st b with Some st' => Ok st' [] | None => Fail end
  | Invalidate b s => if strict && awaiting st b then Misuse else
              match p_invalidate st b s with Some (st', _) => Ok st' [] | None => Blocked end
  | Steal s c => match w_steal st s c with
                 | SOk st' x => Ok (set_user st' ((x, None) :: user st')) []
                 | SBlocked => Blocked | SFail => Fail end
  | Add x => match u_take x (user st) with
             | Some (None, u) => Ok (w_add (set_user st u) x) []
             | _ => Misuse end
  | AddPrefetch x => match u_take x (user st) with
             | Some (None, u) => Ok (set_p (set_user st u) (x :: pfree st) (S (psize st)) (pbusy st)) []
             | _ => Misuse end
  | StealPrefetch => match pfree st with
             | [] => Fail                                  (* STXXL_CHECK(!free_blocks.empty()) *)
             | x :: f => Ok (set_user (set_p st f (pred (psize st)) (pbusy st)) ((x, None) :: user st)) [] end
  | ResizeW n s => if Nat.leb (wsize st) n then Ok (grow_w st (n - wsize st)) []
                   else shrink_w st (wsize st - n) s
  | ResizeP n => if Nat.leb (psz st) n
                 then let d := n - psz st in
                      let st' := grow_p st d in Ok (set_p st' (pfree st') (psize st' + d) (pbusy st')) []
                 else shrink_p st (psz st - n)
  end.

(** read_write_pool(np, nw), prefetch_pool.h:67-74, write_pool.h:60-67 *)
Definition init (c d : nat -> V) (np nw : nat) : state :=
  mk_state c d [] 0 (nw + np) (seq 0 nw) [] (seq nw np) np [] [].

Fixpoint run (st : state) (es : list event) : option (state * list obs) :=
  match es with
  | [] => Some (st, [])
  | e :: l => match step st e with
              | Ok st' o => match run st' l with Some (st'', o') => Some (st'', o ++ o') | None => None end
              | _ => None end
  end.
End Pool.

Arguments cont {V}.
Arguments disk {V}.
Arguments pending {V}.
Arguments nreq {V}.
Arguments nbuf {V}.
Arguments wfree {V}.
Arguments wbusy {V}.
Arguments pfree {V}.
Arguments psize {V}.
Arguments pbusy {V}.
Arguments user {V}.
Arguments mk_state {V}.
Arguments OWrote {V}.
Arguments OGot {V}.
Arguments Ok {V}.
Arguments Blocked {V}.
Arguments Fail {V}.
Arguments Misuse {V}.
Arguments is_pending {V}.
Arguments set_io {V}.
Arguments serve {V}.
Arguments serves {V}.
Arguments issue {V}.
Arguments cancel {V}.
Arguments set_w {V}.
Arguments set_p {V}.
Arguments set_user {V}.
Arguments set_nbuf {V}.
Arguments set_cont {V}.
Arguments cancel_stale {V}.
Arguments w_write {V}.
Arguments has_request {V}.
Arguments w_add {V}.
Arguments check_all_busy {V}.
Arguments SOk {V}.
Arguments SBlocked {V}.
Arguments SFail {V}.
Arguments w_steal {V}.
Arguments p_hint {V}.
Arguments req_is_read {V}.
Arguments p_invalidate {V}.
Arguments p_read {V}.
Arguments awaiting {V}.
Arguments Serve {V}.
Arguments New {V}.
Arguments Fill {V}.
Arguments Write {V}.
Arguments Read {V}.
Arguments WaitRead {V}.
Arguments Hint {V}.
Arguments Invalidate {V}.
Arguments Steal {V}.
Arguments Add {V}.
Arguments AddPrefetch {V}.
Arguments StealPrefetch {V}.
Arguments ResizeW {V}.
Arguments ResizeP {V}.
Arguments grow_w {V}.
Arguments shrink_w {V}.
Arguments grow_p {V}.
Arguments shrink_p {V}.
Arguments wsize {V}.
Arguments psz {V}.
Arguments step {V}.
Arguments init {V}.
Arguments run {V}.
