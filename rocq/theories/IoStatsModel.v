(** Model of the I/O statistics: include/stxxl/bits/io/iostats.h 43-390, lib/io/iostats.cpp 29-330.

    Simplified: time is counted in ticks ([Z]) and computed exactly, the code uses [double] seconds; the numbers
    of running operations [acc_*] (int) do not overflow.  The singleton, the output operators and the wait log
    are not modelled.  A thread runs the calls of the statistics one after another; inside a call it can be
    interrupted before every [timestamp()] and before every section that is protected by a mutex.  The sections
    are atomic. *)
From Coq Require Import ZArith List Bool Arith.
Import ListNotations.
Open Scope Z_scope.

(** [unsigned] (iostats.h 46, 48) and [int64] (47, 49): conversions after an operation. *)
Definition u32 (z : Z) : Z := z mod 2 ^ 32.
Definition i64 (z : Z) : Z := (z + 2 ^ 63) mod 2 ^ 64 - 2 ^ 63.

(** The four variables of one clock, e.g. [t_reads], [p_reads], [p_begin_read], [acc_reads]
    (iostats.h 50-64). *)
Record tim := mkT { t_sum : Z; p_sum : Z; p_begin : Z; acc : Z }.

(** iostats.cpp 197-200 and its copies 135-138, 258-261, 264-267, 271-274; [d] is [+1] ([acc++]) or [-1]
    ([acc--], 228-231, 166-169, 285-288, 291-294, 297-300). *)
Definition tim_upd (d now : Z) (x : tim) : tim :=
  let diff := now - p_begin x in
  mkT (t_sum x + acc x * diff) (p_sum x + (if acc x =? 0 then 0 else diff)) now (acc x + d).

(** [p_ios], [p_begin_io], [acc_ios] (iostats.h 53-54, 62). *)
Record par := mkP { q_sum : Z; q_begin : Z; q_acc : Z }.
(** iostats.cpp 143-145, 174-176, 205-207, 236-238. *)
Definition par_upd (d now : Z) (x : par) : par :=
  let diff := now - q_begin x in
  mkP (q_sum x + (if q_acc x =? 0 then 0 else diff)) now (q_acc x + d).

(** The counters of one direction (iostats.h 46-49). *)
Record dir := mkD { ops : Z; vol : Z; c_ops : Z; c_vol : Z; clk : tim }.

Record stats := mkS { drd : dir; dwr : dir; ios : par; w_all : tim; w_rd : tim; w_wr : tim; last_reset : Z }.

(** iostats.cpp 29-60. *)
Definition tim0 := mkT 0 0 0 0.
Definition stats0 (now : Z) : stats := mkS (mkD 0 0 0 0 tim0) (mkD 0 0 0 0 tim0) (mkP 0 0 0) tim0 tim0 tim0 now.

Definition get_dir (w : bool) (s : stats) : dir := if w then dwr s else drd s.
Definition set_dir (w : bool) (x : dir) (s : stats) : stats :=
  if w then mkS (drd s) x (ios s) (w_all s) (w_rd s) (w_wr s) (last_reset s)
  else mkS x (dwr s) (ios s) (w_all s) (w_rd s) (w_wr s) (last_reset s).
Definition set_ios (x : par) (s : stats) : stats :=
  mkS (drd s) (dwr s) x (w_all s) (w_rd s) (w_wr s) (last_reset s).
Definition set_waits (a r w : tim) (s : stats) : stats :=
  mkS (drd s) (dwr s) (ios s) a r w (last_reset s).
Definition zero_tim (x : tim) : tim := mkT 0 0 (p_begin x) (acc x).

(** The sections protected by a mutex, and the last statement of [reset].  [w]: write; [r]: [WAIT_OP_READ]. *)
Inductive sec :=
| XStart (w : bool) (size : Z)    (* 131-138, 193-200 *)
| XFin (w : bool)                 (* 164-169, 226-231 *)
| XCancel (w : bool) (size : Z)   (* 152-155, 214-217 *)
| XCached (w : bool) (size : Z)   (* 182-185, 244-247 *)
| XIoStart                        (* 141-145, 203-207 *)
| XIoFin                          (* 172-176, 234-238 *)
| XWait (r : bool)                (* 256-275 *)
| XWaited (r : bool)              (* 283-301 *)
| XReset (w : bool)               (* 66-78, 81-93 *)
| XIoReset                        (* 96-103 *)
| XWaitReset                      (* 106-118 *)
| XWaitReset1                     (* 318-326 *)
| XLast.                          (* 121 *)

Definition wait_upd (d now : Z) (r : bool) (s : stats) : stats :=
  set_waits (tim_upd d now (w_all s))
    (if r then tim_upd d now (w_rd s) else w_rd s)
    (if r then w_wr s else tim_upd d now (w_wr s)) s.

Definition apply (now : Z) (x : sec) (s : stats) : stats :=
  match x with
  | XStart w n => let d := get_dir w s in
      set_dir w (mkD (u32 (ops d + 1)) (i64 (vol d + n)) (c_ops d) (c_vol d) (tim_upd 1 now (clk d))) s
  | XFin w => let d := get_dir w s in
      set_dir w (mkD (ops d) (vol d) (c_ops d) (c_vol d) (tim_upd (-1) now (clk d))) s
  | XCancel w n => let d := get_dir w s in
      set_dir w (mkD (u32 (ops d - 1)) (i64 (vol d - n)) (c_ops d) (c_vol d) (clk d)) s
  | XCached w n => let d := get_dir w s in
      set_dir w (mkD (ops d) (vol d) (u32 (c_ops d + 1)) (i64 (c_vol d + n)) (clk d)) s
  | XIoStart => set_ios (par_upd 1 now (ios s)) s
  | XIoFin => set_ios (par_upd (-1) now (ios s)) s
  | XWait r => wait_upd 1 now r s
  | XWaited r => wait_upd (-1) now r s
  | XReset w => set_dir w (mkD 0 0 0 0 (zero_tim (clk (get_dir w s)))) s
  | XIoReset => set_ios (mkP 0 (q_begin (ios s)) (q_acc (ios s))) s
  | XWaitReset => set_waits (zero_tim (w_all s)) (zero_tim (w_rd s)) (zero_tim (w_wr s)) s
  | XWaitReset1 => set_waits (zero_tim (w_all s)) (w_rd s) (w_wr s) s
  | XLast => mkS (drd s) (dwr s) (ios s) (w_all s) (w_rd s) (w_wr s) now
  end.

(** The functions of the class.  [CStart] stands for [read_started(size)] and also for
    linuxaio_request::post (lib/io/linuxaio_request.cpp 66-91), which takes the time, submits the operation
    and passes the time on. *)
Inductive call :=
| CStart (w : bool) (size : Z)    (* 126-147, 188-209 *)
| CFin (w : bool)                 (* 160-178, 222-240 *)
| CCancel (w : bool) (size : Z)   (* 149-158, 211-220 *)
| CCached (w : bool) (size : Z)   (* 180-186, 242-248 *)
| CWait (r : bool)                (* 252-277 *)
| CWaited (r : bool)              (* 279-311 *)
| CReset                          (* 63-122 *)
| CResetWait.                     (* 314-328 *)

(** What a timestamp is taken for. *)
Inductive kind := KStart (w : bool) | KFin (w : bool) | KWait (r : bool) | KWaited (r : bool) | KReset.
(** A thread takes a timestamp, or runs a section. *)
Inductive mic := MStamp (k : kind) | MSec (x : sec).

Definition code (c : call) : list mic :=
  match c with
  | CStart w n => [MStamp (KStart w); MSec (XStart w n); MSec XIoStart]
  | CFin w => [MStamp (KFin w); MSec (XFin w); MSec XIoFin]
  | CCancel w n => [MSec (XCancel w n); MStamp (KFin w); MSec (XFin w); MSec XIoFin]
  | CCached w n => [MSec (XCached w n)]
  | CWait r => [MStamp (KWait r); MSec (XWait r)]
  | CWaited r => [MStamp (KWaited r); MSec (XWaited r)]
  | CReset => [MSec (XReset false); MSec (XReset true); MSec XIoReset; MSec XWaitReset; MStamp KReset; MSec XLast]
  | CResetWait => [MSec XWaitReset1]
  end.

(** The machine: the statistics, the clock of the computer, the threads (the timestamp in the local variable
    [now], the rest of the call) and the timestamps taken so far, with their purpose. *)
Record mach := mkM { ms : stats; clock : Z; thr : list (Z * list mic); log : list (kind * Z) }.
Inductive event := ETick (d : nat) | ECall (i : nat) (c : call) | EStep (i : nat).

Fixpoint lset {A} (l : list A) (i : nat) (a : A) : list A :=
  match l, i with
  | [], _ => []
  | _ :: l, O => a :: l
  | b :: l, S i => b :: lset l i a
  end.

(** [None]: the event is not possible. *)
Definition step (e : event) (m : mach) : option mach :=
  match e with
  | ETick d => Some (mkM (ms m) (clock m + Z.of_nat d) (thr m) (log m))
  | ECall i c =>
    match nth_error (thr m) i with
    | Some (now, []) => Some (mkM (ms m) (clock m) (lset (thr m) i (now, code c)) (log m))
    | _ => None
    end
  | EStep i =>
    match nth_error (thr m) i with
    | Some (now, MStamp k :: l) =>
        Some (mkM (ms m) (clock m) (lset (thr m) i (clock m, l)) (log m ++ [(k, clock m)]))
    | Some (now, MSec x :: l) =>
        Some (mkM (apply now x (ms m)) (clock m) (lset (thr m) i (now, l)) (log m))
    | _ => None
    end
  end.
Fixpoint run (es : list event) (m : mach) : option mach :=
  match es with
  | [] => Some m
  | e :: es => match step e m with Some m' => run es m' | None => None end
  end.
(** The program starts at time [t] with [n] threads. *)
Definition minit (n : nat) (t : Z) : mach := mkM (stats0 t) t (repeat (0, []) n) [].

(** The getters, iostats.h 263-379. *)
Definition get_reads (s : stats) := ops (drd s).
Definition get_writes (s : stats) := ops (dwr s).
Definition get_read_volume (s : stats) := vol (drd s).
Definition get_written_volume (s : stats) := vol (dwr s).
Definition get_cached_reads (s : stats) := c_ops (drd s).
Definition get_cached_writes (s : stats) := c_ops (dwr s).
Definition get_cached_read_volume (s : stats) := c_vol (drd s).
Definition get_cached_written_volume (s : stats) := c_vol (dwr s).
Definition get_read_time (s : stats) := t_sum (clk (drd s)).
Definition get_write_time (s : stats) := t_sum (clk (dwr s)).
Definition get_pread_time (s : stats) := p_sum (clk (drd s)).
Definition get_pwrite_time (s : stats) := p_sum (clk (dwr s)).
Definition get_pio_time (s : stats) := q_sum (ios s).
Definition get_io_wait_time (s : stats) := t_sum (w_all s).
Definition get_wait_read_time (s : stats) := t_sum (w_rd s).
Definition get_wait_write_time (s : stats) := t_sum (w_wr s).

(** iostats.h 428-534 [stats_data]: a snapshot (470-488) at time [now], and the difference (513-534).  The snapshot
    reads the variables without the mutexes; it is modelled for moments when no call is in progress. *)
Record sdata := mkSD { sd_reads : Z; sd_writes : Z; sd_vread : Z; sd_vwritten : Z; sd_creads : Z; sd_cwrites : Z;
  sd_cvread : Z; sd_cvwritten : Z; sd_treads : Z; sd_twrites : Z; sd_preads : Z; sd_pwrites : Z; sd_pios : Z;
  sd_twait : Z; sd_twait_read : Z; sd_twait_write : Z; sd_elapsed : Z }.
Definition snapshot (now : Z) (s : stats) : sdata :=
  mkSD (get_reads s) (get_writes s) (get_read_volume s) (get_written_volume s) (get_cached_reads s)
    (get_cached_writes s) (get_cached_read_volume s) (get_cached_written_volume s) (get_read_time s)
    (get_write_time s) (get_pread_time s) (get_pwrite_time s) (get_pio_time s) (get_io_wait_time s)
    (get_wait_read_time s) (get_wait_write_time s) (now - last_reset s).
Definition sd_sub (s a : sdata) : sdata :=
  mkSD (u32 (sd_reads s - sd_reads a)) (u32 (sd_writes s - sd_writes a)) (i64 (sd_vread s - sd_vread a))
    (i64 (sd_vwritten s - sd_vwritten a)) (u32 (sd_creads s - sd_creads a)) (u32 (sd_cwrites s - sd_cwrites a))
    (i64 (sd_cvread s - sd_cvread a)) (i64 (sd_cvwritten s - sd_cvwritten a)) (sd_treads s - sd_treads a)
    (sd_twrites s - sd_twrites a) (sd_preads s - sd_preads a) (sd_pwrites s - sd_pwrites a)
    (sd_pios s - sd_pios a) (sd_twait s - sd_twait a) (sd_twait_read s - sd_twait_read a)
    (sd_twait_write s - sd_twait_write a) (sd_elapsed s - sd_elapsed a).

(** The scoped timers (iostats.h 77-128, 130-173, 175-218, 220-262): constructor, [start], [stop], destructor.
    [on] are the calls made by [start], [off] those made by [stop]; the answer are the calls of the statistics. *)
Inductive top := TStart (size : Z) | TStop.
Definition timer_op (on : Z -> call) (off : call) (running : bool) (o : top) : bool * list call :=
  match o with
  | TStart n => if running then (true, []) else (true, [on n])
  | TStop => if running then (false, [off]) else (false, [])
  end.
Fixpoint timer_ops (on : Z -> call) (off : call) (running : bool) (os : list top) : bool * list call :=
  match os with
  | [] => (running, [])
  | o :: os => let (r, c) := timer_op on off running o in
               let (r', c') := timer_ops on off r os in (r', c ++ c')
  end.
(** The life of a timer: the constructor starts it (a [scoped_wait_timer] only if [now] is given as true), the
    destructor stops it. *)
Definition timer_life (on : Z -> call) (off : call) (now : bool) (size : Z) (os : list top) : list call :=
  snd (timer_ops on off false ((if now then [TStart size] else []) ++ os ++ [TStop])).
