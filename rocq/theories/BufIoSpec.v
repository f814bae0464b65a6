(** Specification of buffered block I/O. *)
From Coq Require Import List Bool Arith.
From Verif Require Import BufIoModel.
Import ListNotations.

(** * Prefetcher
    The user sees a sequence of L blocks and takes them one after the other; it may hold at most [mx] of them at a time.
    held: numbers of the blocks held, c: the next block.  [None]: not allowed. *)
Section Prefetch.
Variable A : Type.
Variables L mx : nat.
Variable content : nat -> nat -> A.
Definition pspec_op (o : pfop) (st : list nat * nat) : option (list nat * nat * list A) :=
  let (held, c) := st in
  match o with
  | PPull => if Nat.ltb c L && Nat.ltb (length held) mx then Some (held ++ [c], c + 1, []) else None
  | PDone h => match nth_error held h with
               | None => None
               | Some _ => Some (if Nat.ltb c L then (replace_at h c held, c + 1, []) else (remove_at h held, c, []))
               end
  | PGet h i => match nth_error held h with None => None | Some k => Some (held, c, [content k i]) end
  end.
Fixpoint pspec_ops (os : list pfop) (st : list nat * nat) : option (list A) :=
  match os with
  | [] => Some []
  | o :: os' => match pspec_op o st with
                | None => None
                | Some (st', x) => match pspec_ops os' st' with Some y => Some (x ++ y) | None => None end
                end
  end.
End Prefetch.

(** * Writer
    held: what the user has put into the blocks it holds; disk: what the blocks on disk are to contain, None: anything;
    recent: blocks handed over since the last flush (these must not be handed over again); cnt: the size of the batch *)
Definition block (A : Type) := nat -> option A.
Definition bput {A} (f : block A) (i : nat) (v : A) : block A := fun j => if Nat.eqb j i then Some v else f j.
Record wspec (A : Type) := mk_ws { ws_held : list (block A); ws_disk : nat -> block A; ws_recent : list nat; ws_cnt : nat }.
Arguments mk_ws {A}. Arguments ws_held {A}. Arguments ws_disk {A}. Arguments ws_recent {A}. Arguments ws_cnt {A}.
Definition store {A} (f : nat -> block A) (k : nat) (c : block A) : nat -> block A := fun k' => if Nat.eqb k' k then c else f k'.
Section Writer.
Variable A : Type.
Variables n b : nat.       (* buffers, batch size *)
Variable own : list nat.   (* blocks that may be written *)
Definition empty_block : block A := fun _ => None.
Definition wspec_op (o : bwop A) (st : wspec A) : option (wspec A) :=
  match o with
  | BGet _ => if Nat.ltb (length (ws_held st) + ws_cnt st) n then Some (mk_ws (ws_held st ++ [empty_block]) (ws_disk st) (ws_recent st) (ws_cnt st)) else None
  | BPut _ h i v => match nth_error (ws_held st) h with
                    | None => None
                    | Some f => Some (mk_ws (replace_at h (bput f i v) (ws_held st)) (ws_disk st) (ws_recent st) (ws_cnt st))
                    end
  | BWrite _ h k =>
      let cnt := if Nat.leb b (ws_cnt st) then 1 else ws_cnt st + 1 in
      match nth_error (ws_held st) h with
      | None => None
      | Some f => if Nat.leb (length (ws_held st) + cnt) n && existsb (Nat.eqb k) own && negb (existsb (Nat.eqb k) (ws_recent st))
                  then Some (mk_ws (replace_at h empty_block (ws_held st)) (store (ws_disk st) k f) (k :: ws_recent st) cnt) else None
      end
  | BFlush _ => Some (mk_ws [] (ws_disk st) [] 0)
  | BFlushKeep _ => Some (mk_ws (ws_held st) (ws_disk st) [] 0)
  end.
Fixpoint wspec_ops (os : list (bwop A)) (st : wspec A) : option (wspec A) :=
  match os with [] => Some st | o :: os' => match wspec_op o st with None => None | Some st' => wspec_ops os' st' end end.
Definition wspec0 (d : nat -> nat -> A) : wspec A := mk_ws [] (fun k i => Some (d k i)) [] 0.
End Writer.
(** the user forgets the blocks it holds when it flushes *)
Definition keeps {A} (o : bwop A) : bool := match o with BFlushKeep _ => true | _ => false end.

(** * Streams: the elements of a sequence of blocks *)
Definition elements {A} (S : nat) (d : nat -> nat -> A) (bids : list nat) : list A := flat_map (fun b => map (d b) (seq 0 S)) bids.
(** an input stream: a position in the list of elements *)
Fixpoint ispec_ops {A} (l : list A) (os : list isop) : option (list A) :=
  match os with
  | [] => Some []
  | o :: os' => match l with
                | [] => None
                | v :: l' => match o with
                             | IGet => option_map (cons v) (ispec_ops l' os')
                             | ICurrent => option_map (cons v) (ispec_ops l os')
                             | IIncr => ispec_ops l' os'
                             end
                end
  end.
(** an output stream of L blocks of S elements: a position, and the elements written; what was not written is undefined *)
Definition ospec_op {A} (S L : nat) (o : osop A) (st : nat * block A) : option (nat * block A) :=
  let (p, f) := st in
  if Nat.ltb p (L * S) then
    match o with
    | OPut _ v => Some (p + 1, bput f p v)
    | OSet _ v => Some (p, bput f p v)
    | OIncr _ => Some (p + 1, f)
    | OFill _ v => let e := (p + S - 1) / S * S in Some (e, fun q => if Nat.leb p q && Nat.ltb q e then Some v else f q)
    | OFlush _ => Some ((p / S + 1) * S, f)
    end
  else None.
Fixpoint ospec_ops {A} (S L : nat) (os : list (osop A)) (st : nat * block A) : option (nat * block A) :=
  match os with [] => Some st | o :: os' => match ospec_op S L o st with None => None | Some st' => ospec_ops S L os' st' end end.
