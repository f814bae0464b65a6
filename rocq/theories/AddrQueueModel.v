(** Model of stxxl::addressable_fifo_queue and addressable_priority_queue.
    Source: /repo/include/stxxl/bits/common/addressable_queues.h.

    Both classes keep a container of values ([vals]) and a std::map [meta] from
    a key to an iterator into [vals].  Iterators are node identities; erasing
    through an iterator whose node is gone is the outcome [UB].  Keys are
    compared with [klt] (operator<), as std::map does.  A handle (iterator into
    [meta]) is represented by the key of the node it designates; using a handle
    whose key is not in the map is [Misuse] (the caller's error), as is top/pop
    on an empty queue. *)
From Coq Require Import List Bool Arith.
Import ListNotations.

Inductive result (A : Type) := Ok (a : A) | UB | Misuse.
Arguments Ok {A} a.  Arguments UB {A}.  Arguments Misuse {A}.

Section Queues.
Variable K : Type.
Variable klt : K -> K -> bool.
(** equivalence under operator<, which is what std::map::find uses *)
Definition keqv (a b : K) : bool := negb (klt a b) && negb (klt b a).

(** std::map<KeyType, iterator>: association list, at most one entry per key *)
Notation meta_t := (list (K * nat)).
Definition meta_find (m : meta_t) (k : K) : option nat :=
  match find (fun e => keqv (fst e) k) m with Some e => Some (snd e) | None => None end.
Definition meta_erase (m : meta_t) (k : K) : meta_t :=
  filter (fun e => negb (keqv (fst e) k)) m.
(** r.first->second = ei: the node keeps its key *)
Definition meta_assign (m : meta_t) (k : K) (i : nat) : meta_t :=
  map (fun e => if keqv (fst e) k then (fst e, i) else e) m.

(** * addressable_fifo_queue, lines 26-105 *)
Record fifo := mk_fifo {
  f_vals : list (nat * K);   (** 34: std::list, node identity and value *)
  f_meta : meta_t;           (** 35 *)
  f_next : nat }.            (** next node identity *)

(** 42 *)
Definition f_new : fifo := mk_fifo [] [] 0.
(** 47-48 *)
Definition f_empty (q : fifo) : bool := match f_vals q with [] => true | _ => false end.

(** std::list::erase(iterator) *)
Definition node_erase {V} (l : list (nat * V)) (i : nat) : option (list (nat * V)) :=
  if existsb (fun e => Nat.eqb (fst e) i) l
  then Some (filter (fun e => negb (Nat.eqb (fst e) i)) l) else None.

(** 55-66 insert; the bool says whether the element is new *)
Definition f_insert (q : fifo) (e : K) : result (fifo * bool) :=
  let ei := f_next q in
  let vals := f_vals q ++ [(ei, e)] in
  match meta_find (f_meta q) e with
  | None => Ok (mk_fifo vals (f_meta q ++ [(e, ei)]) (S ei), true)
  | Some old => match node_erase vals old with
                | Some vals' => Ok (mk_fifo vals' (meta_assign (f_meta q) e ei) (S ei), false)
                | None => UB
                end
  end.

(** 71-79 erase(key) *)
Definition f_erase (q : fifo) (e : K) : result (fifo * bool) :=
  match meta_find (f_meta q) e with
  | None => Ok (q, false)
  | Some i => match node_erase (f_vals q) i with
              | Some vals' => Ok (mk_fifo vals' (meta_erase (f_meta q) e) (f_next q), true)
              | None => UB
              end
  end.

(** 83-87 erase(handle) *)
Definition f_erase_handle (q : fifo) (h : K) : result fifo :=
  match meta_find (f_meta q) h with
  | None => Misuse
  | Some i => match node_erase (f_vals q) i with
              | Some vals' => Ok (mk_fifo vals' (meta_erase (f_meta q) h) (f_next q))
              | None => UB
              end
  end.

(** 91-92 *)
Definition f_top (q : fifo) : result K :=
  match f_vals q with [] => Misuse | (_, e) :: _ => Ok e end.

(** 96-103 *)
Definition f_pop (q : fifo) : result (fifo * K) :=
  match f_vals q with
  | [] => Misuse
  | (_, e) :: r => Ok (mk_fifo r (meta_erase (f_meta q) e) (f_next q), e)
  end.

(** * addressable_priority_queue, lines 111-199 *)
Variable P : Type.
Variable c : P -> P -> bool.   (** template parameter Cmp *)

(** 114-123 struct cmp *)
Definition pcmp (l r : P * K) : bool :=
  c (fst l) (fst r) || (negb (c (fst r) (fst l)) && klt (snd l) (snd r)).

Notation node := (nat * (P * K))%type.
Record pq := mk_pq {
  p_vals : list node;   (** 130: std::set in iteration order, with node identities *)
  p_meta : meta_t;      (** 131 *)
  p_next : nat }.

(** 138 *)
Definition p_new : pq := mk_pq [] [] 0.
(** 143-144 *)
Definition p_empty (q : pq) : bool := match p_vals q with [] => true | _ => false end.

(** std::set::insert of [x] with new node [i]: (set, iterator, inserted?) *)
Fixpoint set_insert (l : list node) (i : nat) (x : P * K) : list node * nat * bool :=
  match l with
  | [] => ([(i, x)], i, true)
  | (j, y) :: r =>
      if pcmp x y then ((i, x) :: l, i, true)
      else if pcmp y x then
        let '(r', it, b) := set_insert r i x in ((j, y) :: r', it, b)
      else (l, j, false)
  end.

(** 150-161 insert *)
Definition p_insert (q : pq) (e : K) (o : P) : result (pq * bool) :=
  let '(vals, it, s_second) := set_insert (p_vals q) (p_next q) (o, e) in
  match meta_find (p_meta q) e with
  | None => Ok (mk_pq vals (p_meta q ++ [(e, it)]) (S (p_next q)), true)
  | Some old =>
      if s_second
      then match node_erase vals old with
           | Some vals' => Ok (mk_pq vals' (meta_assign (p_meta q) e it) (S (p_next q)), false)
           | None => UB
           end
      else Ok (mk_pq vals (p_meta q) (S (p_next q)), false)
  end.

(** 166-174 *)
Definition p_erase (q : pq) (e : K) : result (pq * bool) :=
  match meta_find (p_meta q) e with
  | None => Ok (q, false)
  | Some i => match node_erase (p_vals q) i with
              | Some vals' => Ok (mk_pq vals' (meta_erase (p_meta q) e) (p_next q), true)
              | None => UB
              end
  end.

(** 178-182 *)
Definition p_erase_handle (q : pq) (h : K) : result pq :=
  match meta_find (p_meta q) h with
  | None => Misuse
  | Some i => match node_erase (p_vals q) i with
              | Some vals' => Ok (mk_pq vals' (meta_erase (p_meta q) h) (p_next q))
              | None => UB
              end
  end.

(** 186-187 *)
Definition p_top (q : pq) : result K :=
  match p_vals q with [] => Misuse | (_, (_, e)) :: _ => Ok e end.

(** 191-198 *)
Definition p_pop (q : pq) : result (pq * K) :=
  match p_vals q with
  | [] => Misuse
  | (_, (_, e)) :: r => Ok (mk_pq r (meta_erase (p_meta q) e) (p_next q), e)
  end.

(** * Histories *)
Inductive op := Insert (k : K) (o : P) | Erase (k : K) | EraseHandle (k : K) | Top | Pop | Empty.
Inductive out := ONone | OBool (b : bool) | OKey (k : K).

(** the priority argument is ignored by the FIFO queue *)
Definition f_step (q : fifo) (a : op) : result (fifo * out) :=
  match a with
  | Insert k _ => match f_insert q k with Ok (q', b) => Ok (q', OBool b) | UB => UB | Misuse => Misuse end
  | Erase k => match f_erase q k with Ok (q', b) => Ok (q', OBool b) | UB => UB | Misuse => Misuse end
  | EraseHandle k => match f_erase_handle q k with Ok q' => Ok (q', ONone) | UB => UB | Misuse => Misuse end
  | Top => match f_top q with Ok k => Ok (q, OKey k) | UB => UB | Misuse => Misuse end
  | Pop => match f_pop q with Ok (q', k) => Ok (q', OKey k) | UB => UB | Misuse => Misuse end
  | Empty => Ok (q, OBool (f_empty q))
  end.
Definition p_step (q : pq) (a : op) : result (pq * out) :=
  match a with
  | Insert k o => match p_insert q k o with Ok (q', b) => Ok (q', OBool b) | UB => UB | Misuse => Misuse end
  | Erase k => match p_erase q k with Ok (q', b) => Ok (q', OBool b) | UB => UB | Misuse => Misuse end
  | EraseHandle k => match p_erase_handle q k with Ok q' => Ok (q', ONone) | UB => UB | Misuse => Misuse end
  | Top => match p_top q with Ok k => Ok (q, OKey k) | UB => UB | Misuse => Misuse end
  | Pop => match p_pop q with Ok (q', k) => Ok (q', OKey k) | UB => UB | Misuse => Misuse end
  | Empty => Ok (q, OBool (p_empty q))
  end.

Fixpoint run {Q} (stepf : Q -> op -> result (Q * out)) (q : Q) (h : list op) : result (Q * list out) :=
  match h with
  | [] => Ok (q, [])
  | a :: r => match stepf q a with
              | Ok (q', x) => match run stepf q' r with
                              | Ok (q'', xs) => Ok (q'', x :: xs)
                              | UB => UB | Misuse => Misuse end
              | UB => UB | Misuse => Misuse end
  end.
End Queues.
