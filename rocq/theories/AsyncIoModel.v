(** Programs that use blocks, buffers and asynchronous requests.

    Sources: typed_block.h:246-267 (block.read(bid), block.write(bid) issue a request),
    request.h/request_with_waiters (wait, poll), request_operations.h:34-41 (wait_all), 104-141 (wait_any, as specified in C30),
    block_manager.h:264-349 (new_blocks, delete_blocks).

    A [prog] is a program in terms of these primitives and of accesses to the elements of its buffers.  It has two
    interpretations:
    - [arun], the asynchronous machine: requests that have been issued are served at arbitrary times, in arbitrary
      order, as the schedule says; a write takes the content of the buffer when it is served, a read fills it when
      it is served; what poll and wait_any answer is decided by the environment (a poll may say no although the request
      was served); other programs may change the blocks that this one does not own at any time; new blocks and new
      buffers have arbitrary contents.
    - [srun], a machine that does every transfer at once, knows which elements are uninitialised, and stops with
      [Error] if an access conflicts with a request that was not waited for, if a block is used that is not owned, or
      if an uninitialised element is looked at.
    Containers are written as programs; AsyncIoProofs shows that if [srun] does not stop with [Error], then [arun] has
    the same results for every schedule. *)
From Coq Require Import List Bool Arith.
From Verif Require Import SumLib.
Import ListNotations.

Record areq := mk_areq { a_id : nat; a_write : bool; a_buf : nat; a_bid : nat }.

Section Io.
Variable A : Type.   (* element of a block *)

Inductive prog (R : Type) : Type :=
| Ret (r : R)
| Err                                              (* failed assertion, undefined behaviour *)
| DoWrite (x b : nat) (k : nat -> prog R)          (* buffer x -> write(b) *)
| DoRead (x b : nat) (k : nat -> prog R)
| DoWait (q : nat) (k : prog R)
| DoGet (x i : nat) (k : A -> prog R)              (* element i of buffer x *)
| DoPut (x i : nat) (v : A) (k : prog R)
| DoCopy (x i y j : nat) (k : prog R)              (* element j of buffer y = element i of buffer x, whatever it is *)
| DoAlloc (n : nat) (k : list nat -> prog R)       (* new_blocks *)
| DoFree (bs : list nat) (k : prog R)              (* delete_blocks *)
| DoPoll (q : nat) (k : bool -> prog R)
| DoWaitAny (qs : list nat) (k : nat -> prog R).   (* index of a finished request; no requests: waits for ever, an error *)
Arguments Ret {R}. Arguments Err {R}. Arguments DoWrite {R}. Arguments DoRead {R}. Arguments DoWait {R}.
Arguments DoGet {R}. Arguments DoPut {R}. Arguments DoCopy {R}. Arguments DoAlloc {R}. Arguments DoFree {R}.
Arguments DoPoll {R}. Arguments DoWaitAny {R}.

Fixpoint bind {R S} (p : prog R) (f : R -> prog S) : prog S :=
  match p with
  | Ret r => f r
  | Err => Err
  | DoWrite x b k => DoWrite x b (fun q => bind (k q) f)
  | DoRead x b k => DoRead x b (fun q => bind (k q) f)
  | DoWait q k => DoWait q (bind k f)
  | DoGet x i k => DoGet x i (fun v => bind (k v) f)
  | DoPut x i v k => DoPut x i v (bind k f)
  | DoCopy x i y j k => DoCopy x i y j (bind k f)
  | DoAlloc n k => DoAlloc n (fun l => bind (k l) f)
  | DoFree bs k => DoFree bs (bind k f)
  | DoPoll q k => DoPoll q (fun b => bind (k b) f)
  | DoWaitAny qs k => DoWaitAny qs (fun i => bind (k i) f)
  end.

(** wait_all *)
Fixpoint wait_all {R} (qs : list nat) (k : prog R) : prog R :=
  match qs with [] => k | q :: l => DoWait q (wait_all l k) end.
(** several writes / reads *)
Fixpoint write_all {R} (xs bs : list nat) (k : list nat -> prog R) : prog R :=
  match xs, bs with
  | x :: xs', b :: bs' => DoWrite x b (fun q => write_all xs' bs' (fun qs => k (q :: qs)))
  | _, _ => k []
  end.
Fixpoint read_all {R} (xs bs : list nat) (k : list nat -> prog R) : prog R :=
  match xs, bs with
  | x :: xs', b :: bs' => DoRead x b (fun q => read_all xs' bs' (fun qs => k (q :: qs)))
  | _, _ => k []
  end.

Inductive result (R S : Type) := Done (r : R) (s : S) | Error | Stuck.
Arguments Done {R S}. Arguments Error {R S}. Arguments Stuck {R S}.

Fixpoint mem (b : nat) (l : list nat) : bool := match l with [] => false | c :: t => Nat.eqb c b || mem b t end.
Fixpoint nodup (l : list nat) : bool := match l with [] => true | c :: t => negb (mem c t) && nodup t end.
Definition disjointb (l m : list nat) : bool := forallb (fun b => negb (mem b m)) l.
(** what the block manager may return: n different blocks that are not in use *)
Definition good_alloc (n : nat) (own l : list nat) : bool := Nat.eqb (length l) n && nodup l && disjointb l own.
Definition without (bs l : list nat) : list nat := filter (fun b => negb (mem b bs)) l.

Definition upd2 {B} (f : nat -> nat -> B) (x i : nat) (v : B) : nat -> nat -> B := upd f x (upd (f x) i v).
Definition drop_id (q : nat) (l : list areq) : list areq := filter (fun r => negb (Nat.eqb (a_id r) q)) l.

(** answers of the environment to poll and wait_any come from the same list as new blocks *)
Definition says_yes (l : list nat) : bool := match l with [] => false | _ => true end.
Definition index (l : list nat) : nat := hd 0 l.

(** * The asynchronous machine *)
Record astate := mk_astate {
  acont : nat -> nat -> A; adisk : nat -> nat -> A; apend : list areq; aown : list nat; anext : nat; aalloc : list (list nat) }.
Inductive aev := AServe (q : nat) | AOther (b i : nat) (v : A).

Definition aserve (st : astate) (e : aev) : option astate :=
  match e with
  | AServe q =>
      match find (fun r => Nat.eqb (a_id r) q) (apend st) with
      | None => None
      | Some r => Some (if a_write r
          then mk_astate (acont st) (upd (adisk st) (a_bid r) (acont st (a_buf r))) (drop_id q (apend st)) (aown st) (anext st) (aalloc st)
          else mk_astate (upd (acont st) (a_buf r) (adisk st (a_bid r))) (adisk st) (drop_id q (apend st)) (aown st) (anext st) (aalloc st))
      end
  | AOther b i v => if mem b (aown st) then None
                    else Some (mk_astate (acont st) (upd2 (adisk st) b i v) (apend st) (aown st) (anext st) (aalloc st))
  end.
Fixpoint aserves (st : astate) (s : list aev) : option astate :=
  match s with [] => Some st | e :: l => match aserve st e with Some st' => aserves st' l | None => None end end.
Definition aissue (st : astate) (w : bool) (x b : nat) : astate :=
  mk_astate (acont st) (adisk st) (apend st ++ [mk_areq (anext st) w x b]) (aown st) (S (anext st)) (aalloc st).

(** the schedule [o] has what happens before each primitive *)
Fixpoint arun {R} (p : prog R) (st : astate) (o : list (list aev)) : result R (astate * list (list aev)) :=
  match p with
  | Ret r => Done r (st, o)
  | Err => Error
  | _ =>
    match o with
    | [] => Stuck
    | s :: o' =>
      match aserves st s with
      | None => Stuck
      | Some st =>
        match p with
        | Ret r => Done r (st, o')
        | Err => Error
        | DoWrite x b k => arun (k (anext st)) (aissue st true x b) o'
        | DoRead x b k => arun (k (anext st)) (aissue st false x b) o'
        | DoWait q k => if existsb (fun r => Nat.eqb (a_id r) q) (apend st) then Stuck else arun k st o'
        | DoGet x i k => arun (k (acont st x i)) st o'
        | DoPut x i v k => arun k (mk_astate (upd2 (acont st) x i v) (adisk st) (apend st) (aown st) (anext st) (aalloc st)) o'
        | DoCopy x i y j k => arun k (mk_astate (upd2 (acont st) y j (acont st x i)) (adisk st) (apend st) (aown st) (anext st) (aalloc st)) o'
        | DoAlloc n k =>
            match aalloc st with
            | [] => Stuck
            | l :: al => if good_alloc n (aown st) l
                         then arun (k l) (mk_astate (acont st) (adisk st) (apend st) (l ++ aown st) (anext st) al) o'
                         else Stuck
            end
        | DoFree bs k => arun k (mk_astate (acont st) (adisk st) (apend st) (without bs (aown st)) (anext st) (aalloc st)) o'
        | DoPoll q k =>
            match aalloc st with
            | [] => Stuck
            | l :: al => if says_yes l && existsb (fun r => Nat.eqb (a_id r) q) (apend st) then Stuck
                         else arun (k (says_yes l)) (mk_astate (acont st) (adisk st) (apend st) (aown st) (anext st) al) o'
            end
        | DoWaitAny qs k =>
            match qs, aalloc st with
            | [], _ => Error
            | _, [] => Stuck
            | _, l :: al => match nth_error qs (index l) with
                            | None => Stuck
                            | Some q => if existsb (fun r => Nat.eqb (a_id r) q) (apend st) then Stuck
                                        else arun (k (index l)) (mk_astate (acont st) (adisk st) (apend st) (aown st) (anext st) al) o'
                            end
            end
        end
      end
    end
  end.

(** * The immediate machine *)
Record sstate := mk_sstate {
  scont : nat -> nat -> option A; sdisk : nat -> nat -> option A; sout : list areq; sown : list nat; snext : nat; salloc : list (list nat) }.
(** requests that were issued and not waited for *)
Definition on_buf (x : nat) (r : areq) : bool := Nat.eqb (a_buf r) x.
Definition on_bid (b : nat) (r : areq) : bool := Nat.eqb (a_bid r) b.
Definition reads (p : areq -> bool) (r : areq) : bool := negb (a_write r) && p r.
Definition writes (p : areq -> bool) (r : areq) : bool := a_write r && p r.

Fixpoint srun {R} (p : prog R) (st : sstate) : result R sstate :=
  match p with
  | Ret r => Done r st
  | Err => Error
  | DoWrite x b k =>
      if negb (mem b (sown st)) || existsb (reads (on_buf x)) (sout st) || existsb (on_bid b) (sout st) then Error
      else srun (k (snext st)) (mk_sstate (scont st) (upd (sdisk st) b (scont st x)) (sout st ++ [mk_areq (snext st) true x b]) (sown st) (S (snext st)) (salloc st))
  | DoRead x b k =>
      if negb (mem b (sown st)) || existsb (on_buf x) (sout st) || existsb (writes (on_bid b)) (sout st) then Error
      else srun (k (snext st)) (mk_sstate (upd (scont st) x (sdisk st b)) (sdisk st) (sout st ++ [mk_areq (snext st) false x b]) (sown st) (S (snext st)) (salloc st))
  | DoWait q k => srun k (mk_sstate (scont st) (sdisk st) (drop_id q (sout st)) (sown st) (snext st) (salloc st))
  | DoGet x i k =>
      if existsb (reads (on_buf x)) (sout st) then Error
      else match scont st x i with None => Error | Some v => srun (k v) st end
  | DoPut x i v k =>
      if existsb (on_buf x) (sout st) then Error
      else srun k (mk_sstate (upd2 (scont st) x i (Some v)) (sdisk st) (sout st) (sown st) (snext st) (salloc st))
  | DoCopy x i y j k =>
      if existsb (reads (on_buf x)) (sout st) || existsb (on_buf y) (sout st) then Error
      else srun k (mk_sstate (upd2 (scont st) y j (scont st x i)) (sdisk st) (sout st) (sown st) (snext st) (salloc st))
  | DoAlloc n k =>
      match salloc st with
      | [] => Stuck
      | l :: al => if good_alloc n (sown st) l
                   then srun (k l) (mk_sstate (scont st) (fun b => if mem b l then (fun _ => None) else sdisk st b) (sout st) (l ++ sown st) (snext st) al)
                   else Stuck
      end
  | DoFree bs k =>
      if negb (nodup bs) || existsb (fun b => negb (mem b (sown st))) bs || existsb (fun r => mem (a_bid r) bs) (sout st) then Error
      else srun k (mk_sstate (scont st) (sdisk st) (sout st) (without bs (sown st)) (snext st) (salloc st))
  | DoPoll q k =>
      match salloc st with
      | [] => Stuck
      | l :: al => srun (k (says_yes l)) (mk_sstate (scont st) (sdisk st) (if says_yes l then drop_id q (sout st) else sout st) (sown st) (snext st) al)
      end
  | DoWaitAny qs k =>
      match qs, salloc st with
      | [], _ => Error
      | _, [] => Stuck
      | _, l :: al => match nth_error qs (index l) with
                      | None => Stuck
                      | Some q => srun (k (index l)) (mk_sstate (scont st) (sdisk st) (drop_id q (sout st)) (sown st) (snext st) al)
                      end
      end
  end.

(** the schedule that serves every request before the next primitive; used to run the asynchronous machine in examples *)
Fixpoint eager {R} (p : prog R) (st : astate) : list (list aev) :=
  let s := map (fun r => AServe (a_id r)) (apend st) in
  match aserves st s with
  | None => []
  | Some st =>
    match p with
    | Ret _ | Err => []
    | DoWrite x b k => s :: eager (k (anext st)) (aissue st true x b)
    | DoRead x b k => s :: eager (k (anext st)) (aissue st false x b)
    | DoWait q k => s :: eager k st
    | DoGet x i k => s :: eager (k (acont st x i)) st
    | DoPut x i v k => s :: eager k (mk_astate (upd2 (acont st) x i v) (adisk st) (apend st) (aown st) (anext st) (aalloc st))
    | DoCopy x i y j k => s :: eager k (mk_astate (upd2 (acont st) y j (acont st x i)) (adisk st) (apend st) (aown st) (anext st) (aalloc st))
    | DoAlloc n k =>
        match aalloc st with
        | [] => []
        | l :: al => s :: eager (k l) (mk_astate (acont st) (adisk st) (apend st) (l ++ aown st) (anext st) al)
        end
    | DoFree bs k => s :: eager k (mk_astate (acont st) (adisk st) (apend st) (without bs (aown st)) (anext st) (aalloc st))
    | DoPoll q k =>
        match aalloc st with [] => [] | l :: al => s :: eager (k (says_yes l)) (mk_astate (acont st) (adisk st) (apend st) (aown st) (anext st) al) end
    | DoWaitAny qs k =>
        match aalloc st with [] => [] | l :: al => s :: eager (k (index l)) (mk_astate (acont st) (adisk st) (apend st) (aown st) (anext st) al) end
    end
  end.

(** initial states: nothing owned, no requests, contents unknown *)
Definition ainit (c d : nat -> nat -> A) (al : list (list nat)) : astate := mk_astate c d [] [] 0 al.
Definition sinit (al : list (list nat)) : sstate := mk_sstate (fun _ _ => None) (fun _ _ => None) [] [] 0 al.
End Io.

Arguments Ret {A R}. Arguments Err {A R}. Arguments DoWrite {A R}. Arguments DoRead {A R}. Arguments DoWait {A R}.
Arguments DoGet {A R}. Arguments DoPut {A R}. Arguments DoCopy {A R}. Arguments DoAlloc {A R}. Arguments DoFree {A R}.
Arguments DoPoll {A R}. Arguments DoWaitAny {A R}.
Arguments bind {A R S}. Arguments wait_all {A R}. Arguments write_all {A R}. Arguments read_all {A R}.
Arguments Done {R S}. Arguments Error {R S}. Arguments Stuck {R S}.
Arguments mk_astate {A}. Arguments acont {A}. Arguments adisk {A}. Arguments apend {A}. Arguments aown {A}. Arguments anext {A}. Arguments aalloc {A}.
Arguments AServe {A}. Arguments AOther {A}. Arguments aserve {A}. Arguments aserves {A}. Arguments aissue {A}. Arguments arun {A R}. Arguments eager {A R}.
Arguments mk_sstate {A}. Arguments scont {A}. Arguments sdisk {A}. Arguments sout {A}. Arguments sown {A}. Arguments snext {A}. Arguments salloc {A}.
Arguments srun {A R}. Arguments ainit {A}. Arguments sinit {A}.

Declare Scope prog_scope.
Notation "'let*' x ':=' p 'in' q" := (bind p (fun x => q)) (at level 61, x pattern, p at next level, right associativity) : prog_scope.
