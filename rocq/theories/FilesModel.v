(** Model of the file implementations.  Sources under /repo:
      lib/io/syscall_file.cpp 26-111, lib/io/ufs_file_base.cpp 32-128 (open), 130-165 (after_open), 167-178 (close),
      198-256 (size, set_size), lib/io/mmap_file.cpp 25-64, lib/io/mem_file.cpp 22-88,
      lib/io/fileperblock_file.cpp 43-92, 117-130, include/stxxl/bits/io/fileperblock_file.h 58-62.

    A file of the operating system is the list of its bytes.  Every read and write call transfers as many bytes as
    the kernel likes (an answer: 0 is an error or nothing transferred).  A mapping behind the last page of the file
    raises SIGBUS on access ([SCrash]).  Memory without a defined value is [None].  Simplified: fd_mutex (every
    serve is atomic), O_DIRECT alignment, statistics and device nodes are left out (set_size of a device
    node or of a file opened RDONLY: parameter [resizable]); the page size and STXXL_BLOCK_ALIGN are parameters. *)
From Coq Require Import String Ascii List Arith Bool Lia.
Import ListNotations.

Notation byte := nat.
Inductive status := SOk | SThrow | SCrash | SFuel.

(** The kernel: lseek and read, lseek and write, ftruncate. *)
Definition k_read (off n : nat) (c : list byte) : list byte := firstn n (skipn off c).
Definition k_write (off : nat) (data c : list byte) : list byte :=
  match data with
  | [] => c
  | _ => firstn off (c ++ repeat 0 (off - length c)) ++ data ++ skipn (off + length data) c
  end.
Definition k_truncate (n : nat) (c : list byte) : list byte := firstn n c ++ repeat 0 (n - length c).

(** syscall_file.cpp 35-87, READ; [ans]: answers of the kernel to the successive calls. *)
Fixpoint read_loop (fuel : nat) (ans : nat -> nat) (c : list byte) (off bytes : nat) : status * list byte :=
  match bytes with
  | O => (SOk, [])
  | _ =>
    match fuel with
    | O => (SFuel, [])
    | S f =>
      let got := k_read off (Nat.min bytes (ans 0)) c in
      match got with
      | [] => (SThrow, [])
      | _ =>
        let rc := length got in
        if (0 <? bytes - rc) && (off + rc =? length c) then (SOk, got ++ repeat 0 (bytes - rc))
        else let '(s, rest) := read_loop f (fun i => ans (S i)) c (off + rc) (bytes - rc) in (s, got ++ rest)
      end
    end
  end.
Definition sys_read (ans : nat -> nat) (off n : nat) (c : list byte) : status * list byte :=
  read_loop n ans c off n.
(** 88-110, WRITE: the content afterwards. *)
Fixpoint write_loop (fuel : nat) (ans : nat -> nat) (c : list byte) (off : nat) (data : list byte) : status * list byte :=
  match data with
  | [] => (SOk, c)
  | _ =>
    match fuel with
    | O => (SFuel, c)
    | S f =>
      let rc := Nat.min (length data) (ans 0) in
      if rc =? 0 then (SThrow, c)
      else write_loop f (fun i => ans (S i)) (k_write off (firstn rc data) c) (off + rc) (skipn rc data)
    end
  end.
Definition sys_write (ans : nat -> nat) (off : nat) (data c : list byte) : status * list byte :=
  write_loop (length data) ans c off data.
(** ufs_file_base.cpp 198-256; [resizable]: not RDONLY and not a device. *)
Definition ufs_size (c : list byte) : nat := length c.
Definition ufs_set_size (resizable : bool) (n : nat) (c : list byte) : list byte :=
  if resizable then k_truncate n c else c.

(** mmap_file.cpp 25-64: [mapped]: end of the last page of the file. *)
Definition mapped (page : nat) (c : list byte) : nat := ((length c + (page - 1)) / page) * page.
Definition mmap_ok (page off n : nat) : bool := negb (n =? 0) && (off mod page =? 0).
Definition mmap_read (page off n : nat) (c : list byte) : status * list byte :=
  if negb (mmap_ok page off n) then (SThrow, [])
  else if mapped page c <? off + n then (SCrash, [])
  else let got := k_read off n c in (SOk, got ++ repeat 0 (n - length got)).
Definition mmap_write (page off : nat) (data c : list byte) : status * list byte :=
  if negb (mmap_ok page off (length data)) then (SThrow, c)
  else if mapped page c <? off + length data then (SCrash, c)
  else (SOk, k_write off (firstn (length c - off) data) c).

(** mem_file.cpp 22-38, 57-64; [None] for the whole: outside the memory (undefined behaviour). *)
Definition mem_read (off n : nat) (m : list (option byte)) : option (list (option byte)) :=
  if off + n <=? length m then Some (firstn n (skipn off m)) else None.
Definition mem_write (off : nat) (data : list byte) (m : list (option byte)) : option (list (option byte)) :=
  if off + length data <=? length m
  then Some (firstn off m ++ map Some data ++ skipn (off + length data) m) else None.
Definition mem_set_size (n : nat) (m : list (option byte)) : list (option byte) :=
  firstn n m ++ repeat None (n - length m).
(** mem_file.cpp 66-88. *)
Definition mem_blank (off n : nat) (m : list (option byte)) : option (list (option byte)) :=
  if off + n <=? length m then Some (firstn off m ++ repeat None n ++ skipn (off + n) m) else None.
Fixpoint discard_loop (fuel align off size : nat) (m : list (option byte)) : option (list (option byte)) :=
  match fuel with
  | O => None
  | S f =>
    if align <=? size
    then match mem_blank off align m with
         | Some m' => discard_loop f align (off + align) (size - align) m'
         | None => None
         end
    else if 0 <? size then mem_blank off size m else Some m
  end.
Definition mem_discard (align off size : nat) (m : list (option byte)) : option (list (option byte)) :=
  discard_loop (S size) align off size m.

(** fileperblock_file.cpp: the files by their offset, and [current_size]. *)
Record fpb := mkFpb { blocks : nat -> option (list byte); current_size : nat }.
Definition fpb0 : fpb := mkFpb (fun _ => None) 0.
Definition set_block (o : nat) (b : option (list byte)) (f : fpb) : fpb :=
  mkFpb (fun x => if x =? o then b else blocks f x) (current_size f).
(** 77-84: open (with CREAT), set_size, serve at 0. *)
Definition fpb_open (creat : bool) (o n : nat) (f : fpb) : option (list byte) :=
  match blocks f o with
  | Some c => Some (k_truncate n c)
  | None => if creat then Some (k_truncate n []) else None
  end.
Definition fpb_read (creat : bool) (ans : nat -> nat) (o n : nat) (f : fpb) : status * list byte * fpb :=
  match fpb_open creat o n f with
  | None => (SThrow, [], f)
  | Some c => let '(s, d) := sys_read ans 0 n c in (s, d, set_block o (Some c) f)
  end.
Definition fpb_write (creat : bool) (ans : nat -> nat) (o : nat) (data : list byte) (f : fpb) : status * fpb :=
  match fpb_open creat o (length data) f with
  | None => (SThrow, f)
  | Some c => let '(s, c') := sys_write ans 0 data c in (s, set_block o (Some c') f)
  end.
(** 117-130: remove; an error is only printed. *)
Definition fpb_discard (o : nat) (f : fpb) : fpb := set_block o None f.
(** fileperblock_file.h 58-62. *)
Definition fpb_set_size (n : nat) (f : fpb) : fpb := mkFpb (blocks f) n.
Definition fpb_size (f : fpb) : nat := current_size f.
(** A new object for the same files (43-58). *)
Definition fpb_reopen (f : fpb) : fpb := mkFpb (blocks f) 0.
(** 68-75: setw(20) and setfill('0'); [digits20]: the digits, the most significant one first. *)
Fixpoint digits_go (fuel n : nat) (acc : list ascii) : list ascii :=
  match fuel with
  | O => acc
  | S f =>
    let acc' := ascii_of_nat (48 + n mod 10) :: acc in if n / 10 =? 0 then acc' else digits_go f (n / 10) acc'
  end.
Definition filename_for_block (prefix : list ascii) (offset : nat) : list ascii :=
  let d := digits_go 20 offset [] in
  prefix ++ list_ascii_of_string "_fpb_" ++ repeat "0"%char (20 - length d) ++ d.
Definition lock_name (prefix : list ascii) : list ascii := prefix ++ list_ascii_of_string "_fpb_lock".

(** Opening and closing, ufs_file_base.cpp 32-178.  [open1], [open2]: answers to the open calls. *)
Inductive open_answer := Opened | Einval | Other.
Record mode := mkMode { m_direct : bool; m_require : bool; m_nolock : bool }.
(** [fds]: descriptors this object opened and nobody closed; [fd]: the member file_des, with [odirect]. *)
Record ufs := mkUfs { fds : nat; fd : bool; odirect : bool }.
Definition ufs_after_open (fstat_ok lock_ok : bool) (m : mode) (od : bool) : status * ufs :=
  if negb fstat_ok then (SThrow, mkUfs 1 true od)
  else if m_nolock m then (SOk, mkUfs 1 true od)
  else if lock_ok then (SOk, mkUfs 1 true od) else (SThrow, mkUfs 1 true od).
Definition ufs_construct (m : mode) (open1 open2 : open_answer) (fstat_ok lock_ok : bool) : status * ufs :=
  let od := m_direct m || m_require m in
  match open1 with
  | Opened => ufs_after_open fstat_ok lock_ok m od
  | e =>
    if m_direct m && negb (m_require m) && match e with Einval => true | _ => false end
    then match open2 with
         | Opened => ufs_after_open fstat_ok lock_ok m false
         | _ => (SThrow, mkUfs 0 false false)
         end
    else (SThrow, mkUfs 0 false false)
  end.
(** 167-178 on Linux, where a failing close releases the descriptor nevertheless; number of close calls made. *)
Definition ufs_close (ok : bool) (u : ufs) : status * ufs * nat :=
  if negb (fd u) then (SOk, u, 0)
  else if ok then (SOk, mkUfs (pred (fds u)) false (odirect u), 1)
  else (SThrow, mkUfs (pred (fds u)) true (odirect u), 1).
