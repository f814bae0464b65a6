(** Model of the external-memory hash map of
    /repo/include/stxxl/bits/containers/hash_map/ : the class [hash_map]
    (hash_map.h), its nodes, buckets, reader, writer and value stream (util.h).

    A map is an array of buckets.  Every bucket has a chain of nodes in internal
    memory, sorted by (hash, key), and a run of values on disk, sorted in the
    same way.  A node hides the value with the same key on disk; a node marked
    as deleted hides it without replacing it.

    Simplifications.
    - The block cache is transparent: a block of [mem] is what the cache gives
      for the block with that number in [bids_].
    - The value stream is computed as a whole before the values are written.
      The code interleaves both; it reads old blocks and writes new ones.
    - A node pointer is the key of the node: keys of a chain are different, and
      nodes are freed only by [_rebuild_buckets], [insert] of a range, [clear].
    - [None] is an outcome that C++ leaves undefined, a failed assertion, or
      [std::bad_alloc].
    - Counters of type uint64 are numbers below 2^64 and wrap around; indices
      of buckets, blocks and values in blocks do not. *)
From Coq Require Import List Bool Arith NArith Lia.
Import ListNotations.

Notation "'do' x <- e ; f" := (match e with Some x => f | None => None end)
  (at level 200, x pattern, e at level 100, f at level 200, right associativity).

Definition lset {A} (l : list A) (i : nat) (x : A) : list A := firstn i l ++ x :: skipn (S i) l.
Definition lins {A} (l : list A) (i : nat) (x : A) : list A := firstn i l ++ x :: skipn i l.

Section HashMap.
  Context {K V L : Type}.
  Notation E := (K * V)%type.

  (** Template parameters: hash function, comparator, [key ==], default
      constructed value and mapped value (hash_map.h 50-140). *)
  Variable hash : K -> N.
  Variable cmp : K -> K -> bool.
  Variable keqb : K -> K -> bool.
  Variable edef : E.
  Variable vdef : V.
  (** [subblock_size], [subblocks_per_block] (hash_map.h 103-107); [increase_] of the writer (util.h 349). *)
  Variable ss spb inc : nat.
  (** [_bkt_num] as a function of the hash value and the number of buckets (hash_map.h 945-953). *)
  Variable bkt : N -> nat -> nat.
  (** [ceil(num_total / (subblock_size * opt_load_factor))] (hash_map.h 1122, 1322), and
      [load_factor() > opt_load_factor_] for a number of values and of buckets (hash_map.h 807, 816). *)
  Variable nbuck : L -> N -> N.
  Variable lgt : L -> N -> nat -> bool.
  (** [max_bucket_count()] (hash_map.h 796); whether a vector of so many buckets can be allocated. *)
  Variable maxb : N.
  Variable fits : N -> bool.
  (** What the j-th buffer of the writer contains before it is filled. *)
  Variable junk : nat -> nat -> E.
  (** [stream::sort] by [Cmp] (hash_map.h 1260-1285): order by (hash, key). *)
  Variable srt : list E -> list E.

  (** hash_map.h 1425-1433 [_lt], 1438 [_leq], 1444 [_eq]. *)
  Definition klt (a b : K) : bool := (hash a <? hash b)%N || ((hash a =? hash b)%N && cmp a b).
  Definition kleq (a b : K) : bool := negb (klt b a).
  Definition keq (a b : K) : bool := negb (cmp a b) && negb (cmp b a).

  (** util.h 30-69: [node], [bucket]. *)
  Record node := { nval : E; ndel : bool }.
  Definition nkey (n : node) : K := fst (nval n).
  Record bucket := { blist : list node; bn : nat; bblk : nat; bsub : nat }.
  Definition bucket0 : bucket := {| blist := []; bn := 0; bblk := 0; bsub := 0 |}.

  (** The members of [hash_map] (hash_map.h 140-163). *)
  Record core := { bks : list bucket; mem : list (list E); bufsz : nat; maxbuf : nat;
                   obl : bool; ntot : N; lf : L }.

  Definition set_bks c x := {| bks := x; mem := mem c; bufsz := bufsz c; maxbuf := maxbuf c;
                               obl := obl c; ntot := ntot c; lf := lf c |}.
  Definition set_mem c x := {| bks := bks c; mem := x; bufsz := bufsz c; maxbuf := maxbuf c;
                               obl := obl c; ntot := ntot c; lf := lf c |}.
  Definition set_bufsz c x := {| bks := bks c; mem := mem c; bufsz := x; maxbuf := maxbuf c;
                               obl := obl c; ntot := ntot c; lf := lf c |}.
  Definition set_obl c x := {| bks := bks c; mem := mem c; bufsz := bufsz c; maxbuf := maxbuf c;
                               obl := x; ntot := ntot c; lf := lf c |}.
  Definition set_ntot c x := {| bks := bks c; mem := mem c; bufsz := bufsz c; maxbuf := maxbuf c;
                               obl := obl c; ntot := x; lf := lf c |}.

  Definition U64 : N := (2 ^ 64)%N.
  Definition uinc (t : N) : N := ((t + 1) mod U64)%N.
  Definition udec (t : N) : N := ((t + (U64 - 1)) mod U64)%N.

  (** The constructor (hash_map.h 175-196); [mx] is [max_buffer_size_] in nodes. *)
  Definition init (n : nat) (mx : nat) (l : L) : core :=
    {| bks := repeat bucket0 n; mem := []; bufsz := 0; maxbuf := mx; obl := false; ntot := 0%N; lf := l |}.

  (** Where an iterator points: members of [hash_map_iterator_base] (iterator.h 57-88). *)
  Inductive source := Internal | External | Unknown.
  Record itspec := { is_b : nat; is_node : option K; is_ext : nat; is_src : source;
                     is_valid : bool; is_key : K }.
  (** What an operation does to the iterators, in order: creates the returned one
      ([None] is [end()]), or calls a function of [iterator_map]. *)
  Inductive ev :=
  | EMk (it : option itspec)
  | E2int (b : nat) (k : K)
  | E2end (b : nat) (k : K)
  | E2ext (bo : nat) (k : K) (bnew ie : nat)
  | EAllEnd.

  (** ** Chains *)

  (** hash_map.h 964-976 [_find_key_internal]: number of leading nodes not after the key;
      the node returned is the last of them. *)
  Fixpoint fki (l : list node) (k : K) : nat :=
    match l with
    | [] => 0
    | n :: l' => if kleq (nkey n) k then S (fki l' k) else 0
    end.
  Definition fnode (l : list node) (k : K) : option node :=
    match fki l k with 0 => None | S p => nth_error l p end.
  (** [node && _eq(node->value_.first, key)]: the node with the key. *)
  Definition hit (l : list node) (k : K) : option node :=
    match fnode l k with
    | Some n => if keq (nkey n) k then Some n else None
    | None => None
    end.
  (** The pointer of the returned node. *)
  Definition pnode (l : list node) (k : K) : option K :=
    match fnode l k with Some n => Some (nkey n) | None => None end.

  Definition upd_bucket (c : core) (i : nat) (b : bucket) : core := set_bks c (lset (bks c) i b).
  Definition set_list (b : bucket) (l : list node) : bucket :=
    {| blist := l; bn := bn b; bblk := bblk b; bsub := bsub b |}.
  (** Overwrite the found node; link a new node behind it (hash_map.h 351-354 and alike). *)
  Definition put_node (c : core) (i : nat) (b : bucket) (k : K) (n : node) : core :=
    upd_bucket c i (set_list b (lset (blist b) (fki (blist b) k - 1) n)).
  Definition ins_node (c : core) (i : nat) (b : bucket) (k : K) (n : node) : core :=
    upd_bucket c i (set_list b (lins (blist b) (fki (blist b) k) n)).

  (** ** External part of a bucket *)

  (** hash_map.h 1031-1047 [_load_subblock]. *)
  Definition load_subblock (m : list (list E)) (b : bucket) (w : nat) : option (list E) :=
    do blk <- nth_error m (bblk b + (bsub b + w) / spb);
    Some (firstn ss (skipn (((bsub b + w) mod spb) * ss) blk)).

  (** The binary search of hash_map.h 1003-1011. *)
  Fixpoint bsearch (fuel : nat) (sb : list E) (k : K) (lo hi : nat) : option nat :=
    match fuel with
    | 0 => None
    | S f =>
      if lo + 1 =? hi then Some lo
      else let mid := (lo + hi) / 2 in
           do e <- nth_error sb mid;
           if kleq (fst e) k then bsearch f sb k mid hi else bsearch f sb k lo mid
    end.

  (** hash_map.h 982-1023 [_find_key_external]: index and value, or [n_external_] and [value_type()]. *)
  Fixpoint fke_loop (m : list (list E)) (b : bucket) (k : K) (nsub cnt i : nat) : option (nat * E) :=
    match cnt with
    | 0 => Some (bn b, edef)
    | S cnt' =>
      do sb <- load_subblock m b i;
      let nv := if i + 1 <? nsub then ss else bn b - i * ss in
      do last <- nth_error sb (nv - 1);
      if klt (fst last) k then fke_loop m b k nsub cnt' (S i)
      else do lo <- bsearch (S nv) sb k 0 nv;
           do e <- nth_error sb lo;
           if keq (fst e) k then Some (i * ss + lo, e) else Some (bn b, edef)
    end.
  Definition fke (m : list (list E)) (b : bucket) (k : K) : option (nat * E) :=
    let nsub := bn b / ss + (if bn b mod ss =? 0 then 0 else 1) in
    fke_loop m b k nsub nsub 0.
  (** [i_external < bucket.n_external_ && _eq(ext_value.first, key)] (hash_map.h 340 and alike). *)
  Definition fke_hit (b : bucket) (k : K) (r : nat * E) : bool := (fst r <? bn b) && keq (fst (snd r)) k.

  (** ** The reader (util.h 84-298): number of the block and of the value in it. *)

  Notation rpos := (nat * nat)%type.
  Definition rinit : rpos := (0, 0).
  (** util.h 193-196. *)
  Definition rvalue (m : list (list E)) (r : rpos) : option E :=
    do blk <- nth_error m (fst r); nth_error blk (snd r).
  (** util.h 211-255. *)
  Definition rnext (m : list (list E)) (r : rpos) : rpos :=
    if fst r =? length m then r
    else if snd r + 1 <? spb * ss then (fst r, snd r + 1) else (S (fst r), 0).
  (** util.h 265-297; going back never ends at the block asked for. *)
  Definition rskip (m : list (list E)) (r : rpos) (b s : nat) : option rpos :=
    if fst r =? length m then Some r
    else if b =? length m then Some r
    else if b <? fst r then None
    else Some (b, s * ss).

  (** ** The value stream (util.h 464-577) *)

  Record hv := { hval : E; hb : nat }.
  (** Values of one bucket (util.h 515-551): chain, next external index, reader. *)
  Fixpoint stream_bucket (fuel : nat) (m : list (list E)) (i : nat) (ns : list node) (ie ne : nat) (r : rpos)
    : option (list hv * rpos) :=
    match fuel with
    | 0 => None
    | S f =>
      match ns with
      | n :: ns' =>
        if ie <? ne then
          do e <- rvalue m r;
          if kleq (nkey n) (fst e) then
            let same := keq (nkey n) (fst e) in
            let r' := if same then rnext m r else r in
            let ie' := if same then S ie else ie in
            do x <- stream_bucket f m i ns' ie' ne r';
            Some (if ndel n then x else ({| hval := nval n; hb := i |} :: fst x, snd x))
          else
            do x <- stream_bucket f m i ns (S ie) ne (rnext m r);
            Some ({| hval := e; hb := i |} :: fst x, snd x)
        else
          do x <- stream_bucket f m i ns' ie ne r;
          Some (if ndel n then x else ({| hval := nval n; hb := i |} :: fst x, snd x))
      | [] =>
        if ie <? ne then
          do e <- rvalue m r;
          do x <- stream_bucket f m i [] (S ie) ne (rnext m r);
          Some ({| hval := e; hb := i |} :: fst x, snd x)
        else Some ([], r)
      end
    end.
  (** The buckets in turn (util.h 553-563). *)
  Fixpoint stream_buckets (m : list (list E)) (i : nat) (bs : list bucket) (r : rpos) : option (list hv) :=
    match bs with
    | [] => Some []
    | b :: bs' =>
      do x <- stream_bucket (S (length (blist b) + bn b)) m i (blist b) 0 (bn b) r;
      match bs' with
      | [] => Some (fst x)
      | b' :: _ =>
        do r' <- rskip m (snd x) (bblk b') (bsub b');
        do y <- stream_buckets m (S i) bs' r';
        Some (fst x ++ y)
      end
    end.
  Definition values (c : core) : option (list hv) := stream_buckets (mem c) 0 (bks c) rinit.

  (** ** The writer (util.h 301-422) *)

  Record writer := { wdone : list (list E); wcur : list E; wi : nat; wbids : nat }.
  Definition fresh (j : nat) : list E := map (junk j) (seq 0 (spb * ss)).
  Definition winit : writer := {| wdone := []; wcur := fresh 0; wi := 0; wbids := 0 |}.
  (** Allocate, write the current block, take another buffer (util.h 377-390, 406-415). *)
  Definition wwrite (w : writer) (cur : list E) : writer :=
    {| wdone := wdone w ++ [cur]; wcur := fresh (S (length (wdone w))); wi := 0;
       wbids := if length (wdone w) =? wbids w then wbids w + inc else wbids w |}.
  (** util.h 367-391 [append]. *)
  Definition wappend (w : writer) (e : E) : writer :=
    let cur := lset (wcur w) (wi w) e in
    if wi w + 1 <? spb * ss
    then {| wdone := wdone w; wcur := cur; wi := wi w + 1; wbids := wbids w |}
    else wwrite w cur.
  (** util.h 395-399 [finish_subblock]. *)
  Definition wfinish (w : writer) : writer :=
    wappend {| wdone := wdone w; wcur := wcur w; wi := (wi w / ss + 1) * ss - 1; wbids := wbids w |} edef.
  (** util.h 402-415 [flush]. *)
  Definition wflush (w : writer) : writer := wwrite w (wcur w).
  (** The blocks after [flush] and the destructor, which flushes again (util.h 354-357);
      blocks allocated in advance contain anything. *)
  Definition wmem (w : writer) : list (list E) :=
    let w' := wflush (wflush w) in
    wdone w' ++ map fresh (seq (length (wdone w')) (wbids w' - length (wdone w'))).

  (** ** Rebuilding *)

  (** hash_map.h 1063-1107 [HashingStream]: the leading values of bucket [i] of [n]. *)
  Fixpoint take_bucket {A} (key : A -> K) (n i : nat) (vs : list A) : list A * list A :=
    match vs with
    | [] => ([], [])
    | v :: vs' =>
      if bkt (hash (key v)) n =? i
      then let x := take_bucket key n i vs' in (v :: fst x, snd x)
      else ([], vs)
    end.
  Definition hkey (h : hv) : K := fst (hval h).

  (** The inner loop of hash_map.h 1162-1172: events and values. *)
  Fixpoint fix_ext (i ie : nat) (vs : list hv) : list ev :=
    match vs with
    | [] => []
    | h :: vs' => E2ext (hb h) (hkey h) i ie :: fix_ext i (S ie) vs'
    end.
  Definition mk_bucket (w : writer) (n : nat) : bucket :=
    {| blist := []; bn := n; bblk := length (wdone w); bsub := wi w / ss |}.
  (** The loop over the new buckets (hash_map.h 1154-1178). *)
  Fixpoint dist (n i cnt : nat) (vs : list hv) (w : writer) : list bucket * writer * list ev :=
    match cnt with
    | 0 => ([], w, [])
    | S cnt' =>
      let x := take_bucket hkey n i vs in
      let w1 := wfinish (fold_left wappend (map hval (fst x)) w) in
      let y := dist n (S i) cnt' (snd x) w1 in
      (mk_bucket w (length (fst x)) :: fst (fst y), snd (fst y), fix_ext i 0 (fst x) ++ snd y)
    end.
  Definition tot (bs : list bucket) : N := fold_left (fun t b => (t + N.of_nat (bn b))%N) bs 0%N.

  (** hash_map.h 1110-1193 [_rebuild_buckets]. *)
  Definition n_new (c : core) (ndes : N) : N :=
    let n := nbuck (lf c) (ntot c) in if (n <? ndes)%N then N.min ndes maxb else n.
  Definition rebuild (c : core) (ndes : N) : option (core * list ev) :=
    let n := n_new c ndes in
    if fits n then
      do vs <- values c;
      let x := dist (N.to_nat n) 0 (N.to_nat n) vs winit in
      Some ({| bks := fst (fst x); mem := wmem (snd (fst x)); bufsz := 0; maxbuf := maxbuf c;
               obl := false; ntot := tot (fst (fst x)); lf := lf c |}, snd x)
    else None.

  (** ** Insertion of a range (hash_map.h 1200-1420) *)

  (** hash_map.h 1200-1222 [UniqueValueStream]. *)
  Fixpoint drop_same (k : K) (l : list E) : list E :=
    match l with
    | [] => []
    | e :: l' => if keqb k (fst e) then drop_same k l' else l
    end.
  Fixpoint unique (fuel : nat) (l : list E) : list E :=
    match fuel, l with
    | S f, e :: l' => e :: unique f (drop_same (fst e) l')
    | _, _ => []
    end.
  (** hash_map.h 1355-1403: old and new values of one bucket, the number of values written so far. *)
  Fixpoint bmerge (fuel i ie : nat) (os : list hv) (ns : list E) : list E * list ev :=
    match fuel with
    | 0 => ([], [])
    | S f =>
      match os, ns with
      | o :: os', e :: ns' =>
        if (hash (hkey o) <? hash (fst e))%N || ((hash (hkey o) =? hash (fst e))%N && cmp (hkey o) (fst e)) then
          let x := bmerge f i (S ie) os' ns in
          (hval o :: fst x, E2ext (hb o) (hkey o) i ie :: snd x)
        else if keq (hkey o) (fst e) then
          let x := bmerge f i (S ie) os' ns' in
          (e :: fst x, E2ext (hb o) (hkey o) i ie :: snd x)
        else
          let x := bmerge f i (S ie) os ns' in (e :: fst x, snd x)
      | o :: os', [] =>
        let x := bmerge f i (S ie) os' [] in
        (hval o :: fst x, E2ext (hb o) (hkey o) i ie :: snd x)
      | [], e :: ns' => let x := bmerge f i (S ie) [] ns' in (e :: fst x, snd x)
      | [], [] => ([], [])
      end
    end.
  Fixpoint dist2 (n i cnt : nat) (os : list hv) (ns : list E) (w : writer) : list bucket * writer * list ev :=
    match cnt with
    | 0 => ([], w, [])
    | S cnt' =>
      let xo := take_bucket hkey n i os in
      let xn := take_bucket fst n i ns in
      let z := bmerge (S (length (fst xo) + length (fst xn))) i 0 (fst xo) (fst xn) in
      let w1 := wfinish (fold_left wappend (fst z) w) in
      let y := dist2 n (S i) cnt' (snd xo) (snd xn) w1 in
      (mk_bucket w (length (fst z)) :: fst (fst y), snd (fst y), snd z ++ snd y)
    end.
  Definition bulk (c : core) (l : list E) : option (core * list ev) :=
    let n := N.min (nbuck (lf c) ((ntot c + N.of_nat (length l)) mod U64)%N) maxb in
    if fits n then
      do vs <- values c;
      let sl := srt l in
      let x := dist2 (N.to_nat n) 0 (N.to_nat n) vs (unique (length sl) sl) winit in
      Some ({| bks := fst (fst x); mem := wmem (snd (fst x)); bufsz := 0; maxbuf := maxbuf c;
               obl := false; ntot := tot (fst (fst x)); lf := lf c |}, snd x)
    else None.

  (** ** Operations *)

  Definition b_of (c : core) (k : K) : nat := bkt (hash k) (length (bks c)).
  Definition mk_int (i : nat) (k : K) : itspec :=
    {| is_b := i; is_node := Some k; is_ext := 0; is_src := Internal; is_valid := false; is_key := k |}.

  (** [++buffer_size_; if (buffer_size_ >= max_buffer_size_) _rebuild_buckets();] (hash_map.h 360-363 and alike). *)
  Definition grow (c : core) : option (core * list ev) :=
    let c' := set_bufsz c (S (bufsz c)) in
    if maxbuf c' <=? bufsz c' then rebuild c' 0%N else Some (c', []).

  (** hash_map.h 310-368 [insert]. *)
  Definition insert (c : core) (k : K) (v : V) : option (core * list ev * bool) :=
    do x <- (if length (bks c) =? 0 then rebuild c 128%N else Some (c, []));
    let '(c0, e0) := x in
    let i := b_of c0 k in
    do b <- nth_error (bks c0) i;
    match hit (blist b) k with
    | Some n =>
      if ndel n
      then Some (set_ntot (put_node c0 i b k {| nval := (k, v); ndel := false |}) (uinc (ntot c0)),
                 e0 ++ [EMk (Some (mk_int i k))], true)
      else Some (c0, e0 ++ [EMk (Some {| is_b := i; is_node := Some (nkey n); is_ext := 0; is_src := Internal;
                                              is_valid := false; is_key := k |})], false)
    | None =>
      do r <- fke (mem c0) b k;
      if fke_hit b k r
      then Some (c0, e0 ++ [EMk (Some {| is_b := i; is_node := pnode (blist b) k; is_ext := fst r;
                                         is_src := External; is_valid := true; is_key := k |})], false)
      else
        let c1 := ins_node (set_ntot c0 (uinc (ntot c0))) i b k {| nval := (k, v); ndel := false |} in
        do y <- grow c1;
        Some (fst y, e0 ++ EMk (Some (mk_int i k)) :: snd y, true)
    end.

  (** hash_map.h 374-416 [insert_oblivious]. *)
  Definition insert_oblivious (c : core) (k : K) (v : V) : option (core * list ev) :=
    let i := b_of c k in
    do b <- nth_error (bks c) i;
    match hit (blist b) k with
    | Some n =>
      let c1 := if ndel n then set_ntot c (uinc (ntot c)) else c in
      Some (put_node c1 i b k {| nval := (k, v); ndel := false |}, [EMk (Some (mk_int i k))])
    | None =>
      let c1 := ins_node (set_obl (set_ntot c (uinc (ntot c))) true) i b k {| nval := (k, v); ndel := false |} in
      do y <- grow c1;
      Some (fst y, E2int i k :: EMk (Some (mk_int i k)) :: snd y)
    end.

  (** hash_map.h 420-446 [erase] of an iterator, given by its members. *)
  Definition erase_it (c : core) (it : itspec) : option (core * list ev) :=
    let c0 := set_ntot c (udec (ntot c)) in
    do b <- nth_error (bks c0) (is_b it);
    match is_src it with
    | Internal =>
      do k <- is_node it;
      do n <- hit (blist b) k;
      Some (put_node c0 (is_b it) b k {| nval := nval n; ndel := true |}, [E2end (is_b it) (is_key it)])
    | _ =>
      match hit (blist b) (is_key it) with
      | Some _ => None
      | None =>
        do y <- grow (ins_node c0 (is_b it) b (is_key it) {| nval := (is_key it, vdef); ndel := true |});
        Some (fst y, E2end (is_b it) (is_key it) :: snd y)
      end
    end.

  (** hash_map.h 451-499 [erase] of a key. *)
  Definition erase (c : core) (k : K) : option (core * list ev * bool) :=
    let i := b_of c k in
    do b <- nth_error (bks c) i;
    match hit (blist b) k with
    | Some n =>
      if ndel n then Some (c, [], false)
      else Some (set_ntot (put_node c i b k {| nval := nval n; ndel := true |}) (udec (ntot c)), [E2end i k], true)
    | None =>
      do r <- fke (mem c) b k;
      if fke_hit b k r then
        do y <- grow (ins_node (set_ntot c (udec (ntot c))) i b k {| nval := (k, vdef); ndel := true |});
        Some (fst y, E2end i k :: snd y, true)
      else Some (c, [], false)
    end.

  (** hash_map.h 503-537 [erase_oblivious]. *)
  Definition erase_oblivious (c : core) (k : K) : option (core * list ev) :=
    let i := b_of c k in
    do b <- nth_error (bks c) i;
    match hit (blist b) k with
    | Some n =>
      if ndel n then Some (c, [])
      else Some (put_node (set_ntot c (udec (ntot c))) i b k {| nval := nval n; ndel := true |}, [E2end i k])
    | None =>
      do y <- grow (ins_node (set_obl (set_ntot c (udec (ntot c))) true) i b k {| nval := (k, vdef); ndel := true |});
      Some (fst y, E2end i k :: snd y)
    end.

  (** hash_map.h 540-566 [clear]. *)
  Definition clear (c : core) : core * list ev :=
    ({| bks := map (fun _ => bucket0) (bks c); mem := []; bufsz := 0; maxbuf := maxbuf c;
        obl := false; ntot := 0%N; lf := lf c |}, [EAllEnd]).

  (** The check (mark star) of hash_map.h 628 and 747. *)
  Definition make_room (c : core) : option (core * list ev) :=
    if maxbuf c <=? bufsz c + 1 then rebuild c 0%N else Some (c, []).

  (** hash_map.h 626-676 [find], non-const. *)
  Definition find (c : core) (k : K) : option (core * list ev * option itspec) :=
    do x <- make_room c;
    let '(c0, e0) := x in
    let i := b_of c0 k in
    do b <- nth_error (bks c0) i;
    match hit (blist b) k with
    | Some n =>
      let r := if ndel n then None
               else Some {| is_b := i; is_node := Some (nkey n); is_ext := 0; is_src := Internal;
                            is_valid := false; is_key := k |} in
      Some (c0, e0 ++ [EMk r], r)
    | None =>
      do r <- fke (mem c0) b k;
      if fke_hit b k r then
        let c1 := ins_node c0 i b k {| nval := snd r; ndel := false |} in
        let it := Some {| is_b := i; is_node := Some (fst (snd r)); is_ext := fst r + 1; is_src := Internal;
                          is_valid := true; is_key := k |} in
        Some (set_bufsz c1 (S (bufsz c1)), e0 ++ [E2int i (fst (snd r)); EMk it], it)
      else Some (c0, e0 ++ [EMk None], None)
    end.

  (** hash_map.h 680-713 [find], const. *)
  Definition cfind (c : core) (k : K) : option (option itspec) :=
    let i := b_of c k in
    do b <- nth_error (bks c) i;
    match hit (blist b) k with
    | Some n =>
      Some (if ndel n then None
            else Some {| is_b := i; is_node := Some (nkey n); is_ext := 0; is_src := Internal;
                         is_valid := false; is_key := k |})
    | None =>
      do r <- fke (mem c) b k;
      Some (if fke_hit b k r
            then Some {| is_b := i; is_node := pnode (blist b) k; is_ext := fst r; is_src := External;
                         is_valid := true; is_key := k |}
            else None)
    end.

  (** hash_map.h 745-793 [operator\[\]]; the reference is to the node with the key. *)
  Definition index (c : core) (k : K) : option (core * list ev * itspec) :=
    do x <- make_room c;
    let '(c0, e0) := x in
    let i := b_of c0 k in
    do b <- nth_error (bks c0) i;
    match hit (blist b) k with
    | Some n =>
      Some (if ndel n
            then set_ntot (put_node c0 i b k {| nval := (nkey n, vdef); ndel := false |}) (uinc (ntot c0))
            else c0, e0, mk_int i (nkey n))
    | None =>
      do r <- fke (mem c0) b k;
      let e := if fke_hit b k r then snd r else (k, vdef) in
      let c1 := ins_node c0 i b k {| nval := e; ndel := false |} in
      Some (set_bufsz c1 (S (bufsz c1)), e0, mk_int i (fst e))
    end.

  (** hash_map.h 250-275 [_make_conscious], 281-286 [size]. *)
  Definition size (c : core) : option (core * N) :=
    if obl c then
      do vs <- values c;
      let t := N.of_nat (length vs) in
      Some (set_obl (set_ntot c t) false, t)
    else Some (c, ntot c).

  (** hash_map.h 812-817 [opt_load_factor(z)], 840-845 [max_buffer_size(n)]. *)
  Definition set_load (c : core) (l : L) : option (core * list ev) :=
    let c' := {| bks := bks c; mem := mem c; bufsz := bufsz c; maxbuf := maxbuf c;
                 obl := obl c; ntot := ntot c; lf := l |} in
    if lgt l (ntot c) (length (bks c)) then rebuild c' 0%N else Some (c', []).
  Definition set_maxbuf (c : core) (n : nat) : option (core * list ev) :=
    let c' := {| bks := bks c; mem := mem c; bufsz := bufsz c; maxbuf := n;
                 obl := obl c; ntot := ntot c; lf := lf c |} in
    if n <=? bufsz c then rebuild c' 0%N else Some (c', []).

  (** ** Through iterators: [operator*] of iterator.h 455-470, with a new reader
      (iterator.h 186-228, [ext_valid_] holds). *)
  Definition it_pos (c : core) (b : bucket) (ie : nat) : rpos := Nat.iter ie (rnext (mem c)) (bblk b, bsub b * ss).
  Definition deref (c : core) (it : itspec) : option E :=
    do b <- nth_error (bks c) (is_b it);
    match is_src it with
    | Internal => do k <- is_node it; do n <- hit (blist b) k; Some (nval n)
    | _ => rvalue (mem c) (it_pos c b (is_ext it))
    end.
  (** Assigning to [second] of the referenced value. *)
  Definition assign (c : core) (it : itspec) (v : V) : option core :=
    do b <- nth_error (bks c) (is_b it);
    match is_src it with
    | Internal =>
      do k <- is_node it; do n <- hit (blist b) k;
      Some (put_node c (is_b it) b k {| nval := (nkey n, v); ndel := ndel n |})
    | _ =>
      let p := it_pos c b (is_ext it) in
      do blk <- nth_error (mem c) (fst p);
      do e <- nth_error blk (snd p);
      Some (set_mem c (lset (mem c) (fst p) (lset blk (snd p) (fst e, v))))
    end.

  (** ** Histories *)

  Inductive op :=
  | OInsert (k : K) (v : V)
  | OInsertObl (k : K) (v : V)
  | OErase (k : K)
  | OEraseObl (k : K)
  | OClear
  | OFind (k : K)                (* it = find(k); it != end() ? it->second : none *)
  | OFindSet (k : K) (v : V)     (* it = find(k); if (it != end()) it->second = v *)
  | OFindErase (k : K)           (* it = find(k); if (it != end()) erase(it) *)
  | OInsertSet (k : K) (v w : V) (* insert(k, v).first->second = w *)
  | OCFind (k : K)               (* the same for const find *)
  | OCount (k : K)
  | OIndex (k : K)               (* m[k] *)
  | OIndexSet (k : K) (v : V)    (* m[k] = v *)
  | OSize
  | ORehash (n : N)
  | OLoad (l : L)
  | OMaxBuf (n : nat)
  | OBulk (l : list E).
  Inductive res := RUnit | RBool (b : bool) | RVal (v : option V) | RNum (n : N).

  Definition ret (x : option (core * list ev)) (r : res) : option (core * res) :=
    do y <- x; Some (fst y, r).
  (** The iterator returned by [insert] after the events: the last event that concerns it. *)
  Definition follow (it : itspec) (e : ev) : itspec :=
    match e with
    | E2ext bo k bnew ie =>
      if (bo =? is_b it) && keq k (is_key it)
      then {| is_b := bnew; is_node := None; is_ext := ie; is_src := External; is_valid := true; is_key := is_key it |}
      else it
    | _ => it
    end.
  Fixpoint returned (es : list ev) : option itspec :=
    match es with
    | [] => None
    | EMk (Some it) :: es' => Some (fold_left follow es' it)
    | _ :: es' => returned es'
    end.

  Definition exec (c : core) (o : op) : option (core * res) :=
    match o with
    | OInsert k v => do x <- insert c k v; Some (fst (fst x), RBool (snd x))
    | OInsertObl k v => ret (insert_oblivious c k v) RUnit
    | OErase k => do x <- erase c k; Some (fst (fst x), RNum (if snd x then 1 else 0)%N)
    | OEraseObl k => ret (erase_oblivious c k) RUnit
    | OClear => ret (Some (clear c)) RUnit
    | OFind k =>
      do x <- find c k;
      match snd x with
      | None => Some (fst (fst x), RVal None)
      | Some it => do e <- deref (fst (fst x)) it; Some (fst (fst x), RVal (Some (snd e)))
      end
    | OFindSet k v =>
      do x <- find c k;
      match snd x with
      | None => Some (fst (fst x), RBool false)
      | Some it => do c' <- assign (fst (fst x)) it v; Some (c', RBool true)
      end
    | OFindErase k =>
      do x <- find c k;
      match snd x with
      | None => Some (fst (fst x), RBool false)
      | Some it => ret (erase_it (fst (fst x)) it) (RBool true)
      end
    | OInsertSet k v w =>
      do x <- insert c k v;
      do it <- returned (snd (fst x));
      do c' <- assign (fst (fst x)) it w; Some (c', RBool (snd x))
    | OCFind k =>
      do r <- cfind c k;
      match r with
      | None => Some (c, RVal None)
      | Some it => do e <- deref c it; Some (c, RVal (Some (snd e)))
      end
    | OCount k => do r <- cfind c k; Some (c, RNum (match r with None => 0 | Some _ => 1 end)%N)
    | OIndex k => do x <- index c k; do e <- deref (fst (fst x)) (snd x); Some (fst (fst x), RVal (Some (snd e)))
    | OIndexSet k v => do x <- index c k; do c' <- assign (fst (fst x)) (snd x) v; Some (c', RUnit)
    | OSize => do x <- size c; Some (fst x, RNum (snd x))
    | ORehash n => ret (rebuild c n) RUnit
    | OLoad l => ret (set_load c l) RUnit
    | OMaxBuf n => ret (set_maxbuf c n) RUnit
    | OBulk l => ret (bulk c l) RUnit
    end.

  Fixpoint run (c : core) (os : list op) : option (core * list res) :=
    match os with
    | [] => Some (c, [])
    | o :: os' => do x <- exec c o; do y <- run (fst x) os'; Some (fst y, snd x :: snd y)
    end.
End HashMap.
