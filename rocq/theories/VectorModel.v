(** Model of stxxl::vector (include/stxxl/bits/containers/vector.h) and the pagers (pager.h).
    [S] = block_type::size, [P] = page_size, [N] = numpages().  Sizes are unbounded (in the code 64 bits).  The cache
    block number i of m_cache is buffer v_base + i, where v_base changes whenever a new cache is allocated.  Only vectors on
    blocks of the block manager (m_from == NULL; the length arithmetic of file-backed vectors is in DblIndexModel, C21).
    assert()s are checked; table accesses out of bounds are errors.  Not modelled: I/O errors, swap, copy construction,
    export_files, iterators (they call the functions below with their offset). *)
From Coq Require Import List Bool Arith.
From Verif Require Import SumLib AsyncIoModel.
Import ListNotations.
Local Open Scope prog_scope.

(** utils.h:199-207 *)
Definition div_ceil (n d : nat) : nat := n / d + (if Nat.eqb (n mod d) 0 then 0 else 1).
(** std::vector::resize(n, v) *)
Definition lresize {B} (n : nat) (v : B) (l : list B) : list B := firstn n l ++ repeat v (n - length l).
(** l[i] = v, for i < l.size() *)
Fixpoint lset {B} (i : nat) (v : B) (l : list B) : list B :=
  match l, i with [], _ => [] | _ :: l', 0 => v :: l' | x :: l', Datatypes.S i' => x :: lset i' v l' end.

(** m_page_status, 913 *)
Inductive status := Valid | Uninit | Dirty.

Inductive vop (A : Type) :=
  | VPush (v : A) | VPop
  | VGet (i : nat)                    (* const operator [] *)
  | VGetM (i : nat)                   (* x = v[i] with the non-const operator [] *)
  | VSet (i : nat) (v : A)            (* v[i] = x *)
  | VAssign (rhs_first : bool) (i j : nat) (* v[i] = v[j]: the two references are computed in either order, then the element is copied *)
  | VPushOwn (j : nat)                (* v.push_back(v[j]) *)
  | VResize (n : nat) | VShrink (n : nat) (* resize(n), resize(n, true) *)
  | VReserve (n : nat) | VClear | VFlush | VSize | VCapacity
  | VDropCache                        (* deallocate_page_cache(); allocate_page_cache() *)
  | VReopen                           (* flush(); from now on use another vector that got the blocks by set_content() *)
  | VWriteBlock (k : nat) (vs : list A). (* flush(); somebody writes block k; block_externally_updated() *)
Inductive vout (A : Type) := VUnit | VVal (v : A) | VNum (n : nat).
Arguments VPush {A}. Arguments VPop {A}. Arguments VGet {A}. Arguments VGetM {A}. Arguments VSet {A}. Arguments VAssign {A}. Arguments VPushOwn {A}.
Arguments VResize {A}. Arguments VShrink {A}. Arguments VReserve {A}. Arguments VClear {A}. Arguments VFlush {A}. Arguments VSize {A}. Arguments VCapacity {A}.
Arguments VDropCache {A}. Arguments VReopen {A}. Arguments VWriteBlock {A}.
Arguments VUnit {A}. Arguments VVal {A}. Arguments VNum {A}.

Section Vector.
Variable A : Type.
Variables S P N : nat.
(** the pager: kick() and hit() *)
Variable PT : Type.
Variable pinit : PT.
Variable kick : PT -> nat * PT.
Variable hit : nat -> PT -> PT.
Notation prog := (prog A).

Record vst := mk_v { v_size : nat; v_bids : list nat; v_status : list status; v_pts : list (option nat); v_stp : list nat;
                     v_free : list nat; v_pager : PT; v_base : nat }.
Definition with_status t st := mk_v (v_size t) (v_bids t) st (v_pts t) (v_stp t) (v_free t) (v_pager t) (v_base t).
Definition with_size t n := mk_v n (v_bids t) (v_status t) (v_pts t) (v_stp t) (v_free t) (v_pager t) (v_base t).
Definition with_pager t p := mk_v (v_size t) (v_bids t) (v_status t) (v_pts t) (v_stp t) (v_free t) p (v_base t).
Definition with_map t pts stp free := mk_v (v_size t) (v_bids t) (v_status t) pts stp free (v_pager t) (v_base t).

(** 953-976 with n = 0; m_slot_to_page is not initialised, its entries are not used before they are set *)
Definition v_init (base : nat) : vst := mk_v 0 [] [] [] (repeat 0 N) (seq 0 N) pinit base.

(** the blocks of page p: from p * page_size to min(p * page_size + page_size, m_bids.size()) *)
Definition page_bids (t : vst) (p : nat) : list nat := firstn P (skipn (p * P) (v_bids t)).
Definition slot_bufs (t : vst) (slot n : nat) : list nat := seq (v_base t + slot * P) n.

(** 1599-1616 *)
Definition read_page (p slot : nat) (t : vst) : prog unit :=
  match nth_error (v_status t) p with
  | None => Err
  | Some Uninit => Ret tt
  | Some _ =>
      let bs := page_bids t p in
      if Nat.eqb (length bs) 0 then Err
      else read_all (slot_bufs t slot (length bs)) bs (fun qs => wait_all qs (Ret tt))
  end.
(** 1617-1637 *)
Definition write_page (p slot : nat) (t : vst) : prog vst :=
  match nth_error (v_status t) p with
  | None => Err
  | Some Dirty =>
      let bs := page_bids t p in
      if Nat.eqb (length bs) 0 then Err
      else write_all (slot_bufs t slot (length bs)) bs (fun qs => wait_all qs (Ret (with_status t (lset p Valid (v_status t)))))
  | Some _ => Ret t
  end.

(** 1646-1693 (mark) and 1731-1770 (not mark); the reference returned is a buffer and an index.
    blocked_index_type(offset): C51 *)
Definition locate (mark : bool) (i : nat) (t : vst) : prog (vst * (nat * nat)) :=
  let p := i / (S * P) in
  let ret slot t :=
    let t := if mark then with_status t (lset p Dirty (v_status t)) else t in
    Ret (t, (v_base t + slot * P + (i / S) mod P, i mod S)) in
  match nth_error (v_pts t) p with
  | None => Err
  | Some (Some slot) => ret slot (with_pager t (hit slot (v_pager t)))
  | Some None =>
      match v_free t with
      | [] =>
          let (slot, pg) := kick (v_pager t) in
          match nth_error (v_stp t) slot with
          | None => Err
          | Some old =>
              if Nat.leb (length (v_pts t)) old then Err else
              let t := with_pager t (hit slot pg) in
              let t := with_map t (lset old None (lset p (Some slot) (v_pts t))) (lset slot p (v_stp t)) [] in
              let* t := write_page old slot t in
              let* _ := read_page p slot t in
              ret slot t
          end
      | slot :: free =>
          let t := with_pager t (hit slot (v_pager t)) in
          if Nat.leb (length (v_stp t)) slot then Err else
          let t := with_map t (lset p (Some slot) (v_pts t)) (lset slot p (v_stp t)) free in
          let* _ := read_page p slot t in
          ret slot t
      end
  end.

(** 1057-1088 *)
Definition reserve (n : nat) (t : vst) : prog vst :=
  if Nat.leb n (length (v_bids t) * S) then Ret t else
  let nb := div_ceil n S in
  let np := div_ceil nb P in
  DoAlloc (nb - length (v_bids t)) (fun bs =>
  Ret (mk_v (v_size t) (v_bids t ++ bs) (lresize np Uninit (v_status t)) (lresize np None (v_pts t)) (v_stp t) (v_free t) (v_pager t) (v_base t))).
(** 1118-1124, the loop over the pages is *)
Fixpoint evict (is : list nat) (t : vst) : vst :=
  match is with
  | [] => t
  | i :: is' =>
      let t := match nth_error (v_pts t) i with
               | Some (Some slot) => with_map t (lset i None (v_pts t)) (v_stp t) (v_free t ++ [slot])
               | _ => t end in
      evict is' (with_status t (lset i Uninit (v_status t)))
  end.
(** 1112-1127 *)
Definition resize (n : nat) (t : vst) : prog vst :=
  let* t := reserve n t in
  let first := div_ceil n (S * P) in
  let t := if Nat.ltb n (v_size t) then evict (seq first (length (v_status t) - first)) t else t in
  Ret (with_size t n).
(** 1130-1166; m_bm->delete_blocks gets the empty range m_bids.begin() + old_bids_size .. m_bids.end() *)
Definition resize_shrink (n : nat) (t : vst) : prog vst :=
  let nb := div_ceil n S in
  let* t :=
    (if Nat.ltb (length (v_bids t)) nb then reserve n t
     else if Nat.ltb nb (length (v_bids t)) then
       let np := div_ceil nb P in
       DoFree (skipn (length (v_bids t)) (v_bids t)) (
       Ret (mk_v (v_size t) (firstn nb (v_bids t)) (firstn np (v_status t) ++ repeat Valid (length (v_status t) - np)) (v_pts t) (v_stp t) (v_free t) (v_pager t) (v_base t)))
     else Ret t) in
  Ret (with_size t n).
(** 1175-1188 *)
Definition clear (t : vst) : prog vst :=
  DoFree (v_bids t) (Ret (mk_v 0 [] [] [] (v_stp t) (seq 0 N) (v_pager t) (v_base t))).
(** 1194-1203 *)
Definition set (i : nat) (v : A) (t : vst) : prog vst :=
  let* r := locate true i t in DoPut (fst (snd r)) (snd (snd r)) v (Ret (fst r)).
Definition get (mark : bool) (i : nat) (t : vst) : prog (vst * A) :=
  let* r := locate mark i t in DoGet (fst (snd r)) (snd (snd r)) (fun v => Ret (fst r, v)).
Definition push_back (v : A) (t : vst) : prog vst :=
  let* t' := resize (v_size t + 1) t in set (v_size t) v t'.
Definition pop_back (t : vst) : prog vst := if Nat.eqb (v_size t) 0 then Err else resize (v_size t - 1) t.
(** v[i] = v[j] and push_back(v[j]) *)
Definition assign (rhs_first : bool) (i j : nat) (t : vst) : prog vst :=
  if rhs_first then
    let* rj := locate true j t in let* ri := locate true i (fst rj) in
    DoCopy (fst (snd rj)) (snd (snd rj)) (fst (snd ri)) (snd (snd ri)) (Ret (fst ri))
  else
    let* ri := locate true i t in let* rj := locate true j (fst ri) in
    DoCopy (fst (snd rj)) (snd (snd rj)) (fst (snd ri)) (snd (snd ri)) (Ret (fst rj)).
Definition push_own (j : nat) (t : vst) : prog vst :=
  let* rj := locate true j t in
  let n := v_size (fst rj) in
  let* t := resize (n + 1) (fst rj) in
  let* ri := locate true n t in
  DoCopy (fst (snd rj)) (snd (snd rj)) (fst (snd ri)) (snd (snd ri)) (Ret (fst ri)).
(** 1445-1471; [used] is non_free_slots *)
Fixpoint flush_slots (used : nat -> bool) (is : list nat) (t : vst) : prog vst :=
  match is with
  | [] => Ret t
  | i :: is' =>
      let t := with_map t (v_pts t) (v_stp t) (v_free t ++ [i]) in
      if used i then
        match nth_error (v_stp t) i with
        | None => Err
        | Some p =>
            let* t := write_page p i t in
            if Nat.leb (length (v_pts t)) p then Err
            else flush_slots used is' (with_map t (lset p None (v_pts t)) (v_stp t) (v_free t))
        end
      else flush_slots used is' t
  end.
Definition flush (t : vst) : prog vst :=
  flush_slots (fun i => negb (mem i (v_free t))) (seq 0 N) (with_map t (v_pts t) (v_stp t) []).
(** 1696-1713 *)
Definition page_updated (p : nat) (t : vst) : prog vst :=
  match nth_error (v_status t) p, nth_error (v_pts t) p with
  | Some Dirty, _ | None, _ | _, None => Err
  | Some _, Some m =>
      let t := match m with Some slot => with_map t (lset p None (v_pts t)) (v_stp t) (v_free t ++ [slot]) | None => t end in
      Ret (with_status t (lset p Valid (v_status t)))
  end.
(** 1038-1043, 1029-1034 *)
Definition drop_cache (t : vst) : prog vst :=
  let* t := flush t in
  Ret (mk_v (v_size t) (v_bids t) (v_status t) (v_pts t) (v_stp t) (v_free t) (v_pager t) (v_base t + N * P)).
(** 1553-1563 on a new vector *)
Definition set_content (bids : list nat) (n base : nat) : prog vst :=
  if negb (Nat.eqb (length bids) (div_ceil n S)) then Err else
  let np := div_ceil (length bids) P in
  Ret (mk_v n bids (repeat Valid np) (repeat None np) (repeat 0 N) (seq 0 N) pinit base).
(** the blocks of the vector that are in use *)
Definition reopen (t : vst) : prog vst :=
  let* t := flush t in set_content (firstn (div_ceil (v_size t) S) (v_bids t)) (v_size t) (v_base t + N * P).
(** put the list into the buffer, from index i on *)
Fixpoint fill {R} (x i : nat) (vs : list A) (k : prog R) : prog R :=
  match vs with [] => k | v :: vs' => DoPut x i v (fill x (i + 1) vs' k) end.
Definition write_block (j : nat) (vs : list A) (t : vst) : prog vst :=
  let* t := flush t in
  let x := v_base t + N * P in
  match nth_error (v_bids t) j with
  | None => Err
  | Some b => fill x 0 vs (DoWrite x b (fun q => DoWait q (page_updated (j / P) t)))
  end.
(** 1480-1513 *)
Definition destroy (t : vst) : prog unit := let* t := flush t in DoFree (v_bids t) (Ret tt).

Definition vec_op (o : vop A) (t : vst) : prog (vst * vout A) :=
  match o with
  | VPush v => let* t := push_back v t in Ret (t, VUnit)
  | VPop => let* t := pop_back t in Ret (t, VUnit)
  | VGet i => let* r := get false i t in Ret (fst r, VVal (snd r))
  | VGetM i => let* r := get true i t in Ret (fst r, VVal (snd r))
  | VSet i v => let* t := set i v t in Ret (t, VUnit)
  | VAssign b i j => let* t := assign b i j t in Ret (t, VUnit)
  | VPushOwn j => let* t := push_own j t in Ret (t, VUnit)
  | VResize n => let* t := resize n t in Ret (t, VUnit)
  | VShrink n => let* t := resize_shrink n t in Ret (t, VUnit)
  | VReserve n => let* t := reserve n t in Ret (t, VUnit)
  | VClear => let* t := clear t in Ret (t, VUnit)
  | VFlush => let* t := flush t in Ret (t, VUnit)
  | VSize => Ret (t, VNum (v_size t))
  | VCapacity => Ret (t, VNum (length (v_bids t) * S))
  | VDropCache => let* t := drop_cache t in Ret (t, VUnit)
  | VReopen => let* t := reopen t in Ret (t, VUnit)
  | VWriteBlock k vs => let* t := write_block k vs t in Ret (t, VUnit)
  end.
Fixpoint vec_ops (os : list (vop A)) (t : vst) : prog (vst * list (vout A)) :=
  match os with
  | [] => Ret (t, [])
  | o :: l => let* r := vec_op o t in let* r' := vec_ops l (fst r) in Ret (fst r', snd r :: snd r')
  end.
End Vector.
Arguments mk_v {PT}. Arguments v_size {PT}. Arguments v_bids {PT}. Arguments v_status {PT}. Arguments v_pts {PT}. Arguments v_stp {PT}. Arguments v_free {PT}.
Arguments v_pager {PT}. Arguments v_base {PT}. Arguments with_status {PT}. Arguments with_size {PT}. Arguments with_pager {PT}. Arguments with_map {PT}.

(** lru_pager, pager.h:67-108: the history, last hit first *)
Definition lru_init (n : nat) : list nat := seq 0 n.
Definition lru_kick (h : list nat) : nat * list nat := (last h 0, h).
Definition lru_hit (i : nat) (h : list nat) : list nat := i :: filter (fun j => negb (Nat.eqb j i)) h.
(** random_pager, pager.h:33-60: the numbers the generator will return (rnd(n) < n) *)
Definition rnd_kick (h : nat -> nat) : nat * (nat -> nat) := (h 0, fun i => h (i + 1)).
Definition rnd_hit (i : nat) (h : nat -> nat) : nat -> nat := h.
