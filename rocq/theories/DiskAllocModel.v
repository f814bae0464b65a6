(** Model of stxxl::disk_allocator.
    Source: /repo/include/stxxl/bits/mng/disk_allocator.h and
    /repo/lib/mng/disk_allocator.cpp.

    Simplifications: byte counts are unbounded integers (int64 in the code);
    [storage->set_size] always succeeds and its effect is recorded only through
    [disk_bytes] (the file size the allocator maintains); diagnostic output is
    omitted. *)
From Coq Require Import ZArith List Bool.
Import ListNotations.
Local Open Scope Z_scope.

(** disk_allocator.h:44 [place]: (position, size) *)
Notation region := (Z * Z)%type.

(** disk_allocator.h:56-64 [sortseq] = std::map<int64,int64>, here the list of
    its entries in key order *)
Notation sortseq := (list region).

(** std::map::operator[] assignment *)
Fixpoint map_set (m : sortseq) (k v : Z) : sortseq :=
  match m with
  | [] => [(k, v)]
  | (k', v') :: r => if k <? k' then (k, v) :: m
                     else if k =? k' then (k, v) :: r
                     else (k', v') :: map_set r k v
  end.
(** std::map::erase *)
Definition map_erase (m : sortseq) (k : Z) : sortseq :=
  filter (fun e => negb (fst e =? k)) m.

(** disk_allocator.h:56-64 data members ([mutex], [storage] left out) *)
Record alloc := mk_alloc {
  free_space : sortseq;
  free_bytes : Z;
  disk_bytes : Z;
  cfg_bytes : Z;
  autogrow : bool }.

(** disk_allocator.cpp:66-160 [add_free_region]; [None] = bad_ext_alloc thrown
    (before any change).  Iterators are represented by the entries they point
    to; [before]/[after] is the split at upper_bound(region_pos). *)
Definition add_free_region (a : alloc) (block_pos block_size : Z) : option alloc :=
  let fs := free_space a in
  let finish (m : sortseq) (rpos rsize : Z) :=
    Some (mk_alloc (map_set m rpos rsize) (free_bytes a + block_size)
            (disk_bytes a) (cfg_bytes a) (autogrow a)) in
  match fs with
  | [] => finish fs block_pos block_size
  | first :: _ =>
    let before := filter (fun e => fst e <=? block_pos) fs in
    let after := filter (fun e => block_pos <? fst e) fs in
    let succ := hd_error after in
    (* lines 79-80: pred = succ, decremented unless succ == begin() *)
    let pred := match before with [] => first | _ => last before first end in
    (* lines 83-86: double deallocation inside the predecessor *)
    if (fst pred <=? block_pos) && (block_pos <? fst pred + snd pred) then None else
    match succ with
    | None =>
      (* lines 95-110: succ == end() *)
      if fst pred + snd pred =? block_pos
      then finish (map_erase fs (fst pred)) (fst pred) (block_size + snd pred)
      else finish fs block_pos block_size
    | Some s =>
      (* lines 90-93: overlap with the successor *)
      if (block_pos <=? fst s) && (fst s <? block_pos + block_size) then None else
      if (1 <? Z.of_nat (length fs)) then
        (* lines 113-144 *)
        let succ_is_not_the_first := match before with [] => false | _ => true end in
        let '(m1, size1) :=
          if fst s =? block_pos + block_size
          then (map_erase fs (fst s), block_size + snd s) else (fs, block_size) in
        if succ_is_not_the_first && (fst pred + snd pred =? block_pos)
        then finish (map_erase m1 (fst pred)) (fst pred) (size1 + snd pred)
        else finish m1 block_pos size1
      else
        (* lines 145-153 *)
        if fst s =? block_pos + block_size
        then finish (map_erase fs (fst s)) block_pos (block_size + snd s)
        else finish fs block_pos block_size
    end
  end.

(** disk_allocator.h:77-85 [grow_file] *)
Definition grow_file (a : alloc) (extend_bytes : Z) : option alloc :=
  if extend_bytes =? 0 then Some a else
  match add_free_region a (disk_bytes a) extend_bytes with
  | None => None
  | Some a' => Some (mk_alloc (free_space a') (free_bytes a') (disk_bytes a' + extend_bytes)
                       (cfg_bytes a') (autogrow a'))
  end.

(** disk_allocator.h:88-97 constructor *)
Definition empty_alloc (cfg : Z) (grow : bool) : alloc := mk_alloc [] 0 0 cfg grow.
Definition make_alloc (cfg : Z) (grow : bool) : option alloc := grow_file (empty_alloc cfg grow) cfg.

(** disk_allocator.h:106-119 getters *)
Definition get_free_bytes (a : alloc) : Z := free_bytes a.
Definition get_used_bytes (a : alloc) : Z := disk_bytes a - free_bytes a.
Definition get_total_bytes (a : alloc) : Z := disk_bytes a.

(** disk_allocator.h:139-149 [delete_block] *)
Definition delete_block (a : alloc) (r : region) : option alloc := add_free_region a (fst r) (snd r).

Definition sum (l : list Z) : Z := fold_right Z.add 0 l.

(** disk_allocator.h:46-54, 191-193 first fit *)
Definition first_fit (fs : sortseq) (size : Z) : option region :=
  find (fun e => size <=? snd e) fs.

(** disk_allocator.h:223-227: consecutive offsets *)
Fixpoint offsets_from (pos : Z) (sizes : list Z) : list Z :=
  match sizes with [] => [] | s :: r => pos :: offsets_from (pos + s) r end.

(** disk_allocator.h:215-231: carve the request out of [space] *)
Definition take_region (a : alloc) (space : region) (sizes : list Z) : alloc * list Z :=
  let req := sum sizes in
  let m := map_erase (free_space a) (fst space) in
  let m' := if req <? snd space then map_set m (fst space + req) (snd space - req) else m in
  (mk_alloc m' (free_bytes a - req) (disk_bytes a) (cfg_bytes a) (autogrow a),
   offsets_from (fst space) sizes).

(** Result of the locked section of [new_blocks]. *)
Inductive section_result :=
| SDone (a : alloc) (offsets : list Z)   (* served *)
| SSplit (a : alloc)                     (* mutex released, request is halved *)
| SThrow (a : alloc).                    (* bad_ext_alloc *)

(** disk_allocator.h:153-238 the part of [new_blocks] that runs under the
    mutex; [BlockSize] is the template parameter, [sizes] the sizes of the
    requested blocks (all equal to [BlockSize] unless [BlockSize] = 0) *)
Definition alloc_section (BlockSize : Z) (sizes : list Z) (a : alloc) : section_result :=
  let req := sum sizes in
  let grown := if free_bytes a <? req
               then if autogrow a then grow_file a req else None
               else Some a in
  match grown with
  | None => SThrow a
  | Some a1 =>
    match first_fit (free_space a1) req with
    | Some sp => let '(a', o) := take_region a1 sp sizes in SDone a' o
    | None =>
      if req =? BlockSize then
        match grow_file a1 BlockSize with
        | None => SThrow a1
        | Some a2 =>
          match first_fit (free_space a2) req with
          | Some sp => let '(a', o) := take_region a2 sp sizes in SDone a' o
          | None => SSplit a2
          end
        end
      else SSplit a1
    end
  end.

Inductive result :=
| Done (a : alloc) (offsets : list Z)
| Throw (a : alloc)
| Diverge.

(** disk_allocator.h:152-246 the whole of [new_blocks], executed without
    interference; the recursion is fuelled, [Diverge] = fuel exhausted.
    On an exception in the second half the first half stays allocated. *)
Fixpoint new_blocks (fuel : nat) (BlockSize : Z) (sizes : list Z) (a : alloc) : result :=
  match fuel with
  | O => Diverge
  | S fuel' =>
    match alloc_section BlockSize sizes a with
    | SDone a' o => Done a' o
    | SThrow a' => Throw a'
    | SSplit a' =>
      let mid := Nat.div2 (length sizes) in
      match new_blocks fuel' BlockSize (firstn mid sizes) a' with
      | Done a1 o1 =>
        match new_blocks fuel' BlockSize (skipn mid sizes) a1 with
        | Done a2 o2 => Done a2 (o1 ++ o2)
        | r => r
        end
      | r => r
      end
    end
  end.

(** Histories at the granularity of mutex-protected sections: an arbitrary
    interleaving of allocating and freeing threads is a list of these. *)
Inductive event :=
| EAlloc (BlockSize : Z) (sizes : list Z)   (* one locked section of some new_blocks *)
| EFree (r : region)                        (* delete_block *).

(** allocator together with the blocks handed out and not yet freed *)
Definition sys := (alloc * list region)%type.

Definition region_eqb (r s : region) : bool := (fst r =? fst s) && (snd r =? snd s).
Fixpoint remove1 (r : region) (l : list region) : list region :=
  match l with [] => [] | x :: t => if region_eqb r x then t else x :: remove1 r t end.

(** (client-side bookkeeping of what is live; not code of the library) *)
Definition exec (s : sys) (e : event) : sys :=
  let '(a, live) := s in
  match e with
  | EAlloc bs sizes =>
    match alloc_section bs sizes a with
    | SDone a' o => (a', live ++ combine o sizes)
    | SSplit a' | SThrow a' => (a', live)
    end
  | EFree r =>
    match delete_block a r with
    | Some a' => (a', remove1 r live)
    | None => (a, live)
    end
  end.
Definition run (s : sys) (es : list event) : sys := fold_left exec es s.

(** A thread executing one call of [new_blocks] (disk_allocator.h:152-246) with
    other threads running between its locked sections: the recursion is a
    stack of requests still to be served. *)
Record thread := mk_thread { todo : list (list Z); got : list region; failed : bool }.
Definition start_call (sizes : list Z) : thread := mk_thread [sizes] [] false.
(** one locked section of the call; on an exception the blocks obtained so far
    are not returned to anybody *)
Definition thread_step (BlockSize : Z) (t : thread) (a : alloc) : thread * alloc :=
  match todo t with
  | [] => (t, a)
  | sizes :: rest =>
    match alloc_section BlockSize sizes a with
    | SDone a' o => (mk_thread rest (got t ++ combine o sizes) false, a')
    | SThrow a' => (mk_thread [] (got t) true, a')
    | SSplit a' =>
      let mid := Nat.div2 (length sizes) in
      (mk_thread (firstn mid sizes :: skipn mid sizes :: rest) (got t) false, a')
    end
  end.
