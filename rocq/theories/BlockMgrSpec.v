(** What a user of the block manager expects. *)
From Coq Require Import ZArith List.
From Verif Require Import DiskAllocModel DiskAllocSpec BlockMgrModel.
Import ListNotations.
Local Open Scope Z_scope.

(** two held blocks collide: same disk, overlapping bytes *)
Definition collide (x y : bid * Z) : Prop :=
  exists d, bid_storage (fst x) = Disk d /\ bid_storage (fst y) = Disk d /\
            overlap (bid_offset (fst x), snd x) (bid_offset (fst y), snd y).
Definition no_collision (l : list (bid * Z)) : Prop := ForallOrdPairs (fun x y => ~ collide x y) l.

(** the block lies on an existing disk, inside its file *)
Definition block_inside (m : manager) (x : bid * Z) : Prop :=
  exists d a, bid_storage (fst x) = Disk d /\ nth_error (disks m) d = Some a /\
              inside (bid_offset (fst x), snd x) (get_total_bytes a).

Definition held_bytes (s : bm_sys) : Z := fold_right (fun x n => snd x + n) 0 (held s).
Definition lost_bytes (s : bm_sys) : Z := fold_right (fun x n => snd (snd x) + n) 0 (lost s).

(** the sequence of states of a history *)
Fixpoint trace (s : bm_sys) (es : list bm_event) : list bm_sys :=
  s :: match es with [] => [] | e :: r => trace (bm_exec s e) r end.
(** bytes ever handed out: every increase of the held bytes counts *)
Fixpoint ever_allocated (s : bm_sys) (es : list bm_event) : Z :=
  match es with
  | [] => 0
  | e :: r => Z.max 0 (held_bytes (bm_exec s e) - held_bytes s) + ever_allocated (bm_exec s e) r
  end.
Definition high_water (l : list bm_sys) : Z := fold_right (fun s n => Z.max (held_bytes s) n) 0 l.

(** strategies name existing disks; frees return held blocks, or are no-ops
    (invalid or unmanaged BID), or hit bytes that are already free *)
Definition bm_legal_event (s : bm_sys) (e : bm_event) : Prop :=
  match e with
  | BAlloc bs n f off => 0 < bs /\ forall i, (i < n)%nat -> (f (off + i) < length (disks (mgr s)))%nat
  | BFree bs b =>
      In (b, bs) (held s) \/
      (bid_storage b = NoStorage \/ bid_storage b = OwnFile) \/
      (0 < bs /\ exists d a r, bid_storage b = Disk d /\ nth_error (disks (mgr s)) d = Some a /\
                  In r (free_space a) /\ overlap r (bid_offset b, bs))
  end.
Fixpoint bm_legal (s : bm_sys) (es : list bm_event) : Prop :=
  match es with [] => True | e :: r => bm_legal_event s e /\ bm_legal (bm_exec s e) r end.

Definition bm_start (m : manager) : bm_sys := mk_sys m [] [].
Definition bm_reachable (cfg : list (Z * bool)) (s : bm_sys) : Prop :=
  exists m es, make_manager cfg = Some m /\ bm_legal (bm_start m) es /\ bm_run (bm_start m) es = s.

(** number of blocks of the request that the strategy puts on disk d *)
Definition demand (f : nat -> nat) (off n d : nat) : nat :=
  length (filter (fun i => Nat.eqb (f i) d) (seq off n)).
