(** Model of the disk configuration.  Sources under /repo:
      include/stxxl/bits/common/utils.h 53-91 ([split]), lib/common/utils.cpp 24-92 ([parse_SI_IEC_size])
      lib/mng/config.cpp 55-320, 322-450, 452-493 ([C]), include/stxxl/bits/mng/config.h 112-269
      lib/io/create_file.cpp 59-68, lib/mng/block_manager.cpp 46-56.

    Strings are lists of characters.  Simplified: strings contain no NUL; [unsigned long] has 64 bits, [int] and
    [unsigned int] 32; the separator of [split] is one character (all callers in the library); the search
    for the configuration file ([find_config]) and the file system are not modelled, a configuration file is the
    list of its lines; exceptions are the results [Runtime] (std::runtime_error) and [OutOfRange]
    (std::out_of_range, thrown by [std::string::substr]). *)
From Coq Require Import String Ascii ZArith List Bool.
Import ListNotations.
Open Scope Z_scope.

Notation str := (list ascii).
Definition L (s : string) : str := list_ascii_of_string s.
Fixpoint str_eqb (a b : str) : bool :=
  match a, b with
  | [], [] => true
  | x :: a', y :: b' => Ascii.eqb x y && str_eqb a' b'
  | _, _ => false
  end.
Definition code (c : ascii) : Z := Z.of_N (N_of_ascii c).
Definition is (c : ascii) (s : string) : bool := existsb (Ascii.eqb c) (L s).

(** utils.h 55-91; [limit]: [Some n] for [limit_fields = n], [None] for the default (never reached). *)
Definition more (limit : option nat) : bool := match limit with Some 1%nat => false | _ => true end.
Definition one_less (limit : option nat) : option nat :=
  match limit with Some (S (S n)) => Some (S n) | l => l end.
Fixpoint split_go (sep : ascii) (limit : option nat) (s : str) : list str :=
  match s with
  | [] => [[]]
  | c :: t =>
    if Ascii.eqb c sep && more limit then [] :: split_go sep (one_less limit) t
    else match split_go sep limit t with h :: r => (c :: h) :: r | [] => [[c]] end
  end.
Definition pad (min : nat) (l : list str) : list str := l ++ repeat [] (min - length l).
Definition split (s : str) (sep : ascii) (min : nat) (limit : option nat) : list str :=
  match s with [] => repeat [] min | _ => pad min (split_go sep limit s) end.

(** [strtoul(s, &endptr, 10)] of the C library: value and rest; no digits: value 0 and the whole string.  Too
    large numbers give the largest value; a minus sign negates modulo 2^64. *)
Definition is_space (c : ascii) : bool := (code c =? 32) || ((9 <=? code c) && (code c <=? 13)).
Definition digit (c : ascii) : option Z :=
  if (48 <=? code c) && (code c <=? 57) then Some (code c - 48) else None.
Fixpoint skip_space (s : str) : str :=
  match s with c :: t => if is_space c then skip_space t else s | [] => [] end.
Fixpoint digits (s : str) (acc : Z) : Z * str :=
  match s with
  | c :: t => match digit c with Some d => digits t (10 * acc + d) | None => (acc, s) end
  | [] => (acc, [])
  end.
Definition sign (s : str) : bool * str :=
  match s with
  | c :: t => if is c "-" then (true, t) else if is c "+" then (false, t) else (false, s)
  | [] => (false, [])
  end.
Definition strtoul (s : str) : Z * str :=
  let '(neg, s1) := sign (skip_space s) in
  match s1 with
  | c :: _ =>
    match digit c with
    | None => (0, s)
    | Some _ =>
      let '(v, rest) := digits s1 0 in
      (if 2 ^ 64 <=? v then 2 ^ 64 - 1 else if neg then (- v) mod 2 ^ 64 else v, rest)
    end
  | [] => (0, s)
  end.

(** utils.cpp 30, 85. *)
Fixpoint skip_blanks (s : str) : str :=
  match s with c :: t => if is c " " then skip_blanks t else s | [] => [] end.
(** 36-45: power and rest. *)
Definition power_of (s : str) : nat * str :=
  match s with
  | c :: t =>
    if is c "kK" then (1%nat, t) else if is c "mM" then (2%nat, t) else if is c "gG" then (3%nat, t)
    else if is c "tT" then (4%nat, t) else if is c "pP" then (5%nat, t) else (0%nat, s)
  | [] => (0%nat, [])
  end.
(** 48-49. *)
Definition base_of (power : nat) (s : str) : Z * str :=
  match s with
  | c :: t => if is c "iI" && negb (power =? 0)%nat then (1024, t) else (1000, s)
  | [] => (1000, [])
  end.
(** 58-81. *)
Definition default_unit (u : ascii) : nat * Z :=
  if is u "k" then (1%nat, 1000) else if is u "m" then (2%nat, 1000) else if is u "g" then (3%nat, 1000)
  else if is u "t" then (4%nat, 1000) else if is u "p" then (5%nat, 1000)
  else if is u "K" then (1%nat, 1024) else if is u "M" then (2%nat, 1024) else if is u "G" then (3%nat, 1024)
  else if is u "T" then (4%nat, 1024) else if is u "P" then (5%nat, 1024) else (0%nat, 1000).
(** 52-82: power, base and rest. *)
Definition unit_of (s : str) (power : nat) (base : Z) (def_unit : ascii) : nat * Z * str :=
  match s with
  | c :: t =>
    if is c "bB" then (power, base, t)
    else if (power =? 0)%nat then (default_unit def_unit, s) else (power, base, s)
  | [] => if (power =? 0)%nat then (default_unit def_unit, s) else (power, base, s)
  end.
(** 88-89: [size *= base], uint64. *)
Fixpoint times (size : Z) (power : nat) (base : Z) : Z :=
  match power with O => size | S p => times ((size * base) mod 2 ^ 64) p base end.
(** 24-92. *)
Definition parse_size (s : str) (def_unit : ascii) : bool * Z :=
  let '(n, r1) := strtoul s in
  let '(power, r2) := power_of (skip_blanks r1) in
  let '(base, r3) := base_of power r2 in
  let '(power', base', r4) := unit_of r3 power base def_unit in
  (match skip_blanks r4 with [] => true | _ => false end, times n power' base').

(** config.h 34-107. *)
Inductive direct_type := DIRECT_OFF | DIRECT_TRY | DIRECT_ON.
Record disk := mkDisk {
  path : str; size : Z; io_impl : str; autogrow : bool; delete_on_exit : bool; direct : direct_type; flash : bool;
  queue : Z; device_id : Z; raw_device : bool; unlink_on_open : bool; queue_length : Z }.
Inductive result (A : Type) := Ok (a : A) | Runtime | OutOfRange.
Arguments Ok {A}. Arguments Runtime {A}. Arguments OutOfRange {A}.

Definition DEFAULT_QUEUE : Z := -1.
Definition DEFAULT_LINUXAIO_QUEUE : Z := -2.
Definition DEFAULT_DEVICE_ID : Z := 2 ^ 32 - 1.
(** [(int)] of an [unsigned long]; conversion to [unsigned int]. *)
Definition to_int (z : Z) : Z := (z + 2 ^ 31) mod 2 ^ 32 - 2 ^ 31.
Definition to_unsigned (z : Z) : Z := z mod 2 ^ 32.

Definition set_autogrow (b : bool) (c : disk) : disk :=
  mkDisk (path c) (size c) (io_impl c) b (delete_on_exit c) (direct c) (flash c) (queue c) (device_id c) (raw_device c) (unlink_on_open c) (queue_length c).
Definition set_delete (b : bool) (c : disk) : disk :=
  mkDisk (path c) (size c) (io_impl c) (autogrow c) b (direct c) (flash c) (queue c) (device_id c) (raw_device c) (unlink_on_open c) (queue_length c).
Definition set_direct (b : direct_type) (c : disk) : disk :=
  mkDisk (path c) (size c) (io_impl c) (autogrow c) (delete_on_exit c) b (flash c) (queue c) (device_id c) (raw_device c) (unlink_on_open c) (queue_length c).
Definition set_queue (q : Z) (c : disk) : disk :=
  mkDisk (path c) (size c) (io_impl c) (autogrow c) (delete_on_exit c) (direct c) (flash c) q (device_id c) (raw_device c) (unlink_on_open c) (queue_length c).
Definition set_device (d : Z) (c : disk) : disk :=
  mkDisk (path c) (size c) (io_impl c) (autogrow c) (delete_on_exit c) (direct c) (flash c) (queue c) d (raw_device c) (unlink_on_open c) (queue_length c).
Definition set_raw (b : bool) (c : disk) : disk :=
  mkDisk (path c) (size c) (io_impl c) (autogrow c) (delete_on_exit c) (direct c) (flash c) (queue c) (device_id c) b (unlink_on_open c) (queue_length c).
Definition set_unlink (b : bool) (c : disk) : disk :=
  mkDisk (path c) (size c) (io_impl c) (autogrow c) (delete_on_exit c) (direct c) (flash c) (queue c) (device_id c) (raw_device c) b (queue_length c).
Definition set_qlen (q : Z) (c : disk) : disk :=
  mkDisk (path c) (size c) (io_impl c) (autogrow c) (delete_on_exit c) (direct c) (flash c) (queue c) (device_id c) (raw_device c) (unlink_on_open c) q.
Definition set_impl (s : str) (c : disk) : disk :=
  mkDisk (path c) (size c) s (autogrow c) (delete_on_exit c) (direct c) (flash c) (queue c) (device_id c) (raw_device c) (unlink_on_open c) (queue_length c).

Definition eqs (a : str) (s : string) : bool := str_eqb a (L s).
(** C 395-400, 410-415, 419-424. *)
Definition number (s : str) : option Z := let '(v, rest) := strtoul s in match rest with [] => Some v | _ => None end.

(** One option, C 345-448. *)
Definition option_step (p : str) (c : disk) : result disk :=
  let eq := split p "=" 2 (Some 2%nat) in
  let k := nth 0 eq [] in let v := nth 1 eq [] in
  let impl := io_impl c in
  if eqs p "" then Ok c
  else if eqs p "autogrow" || eqs p "noautogrow" || eqs k "autogrow" then
    (if eqs p "autogrow" then Ok (set_autogrow true c)
     else if eqs p "noautogrow" then Ok (set_autogrow false c)
     else if eqs v "off" then Ok (set_autogrow false c)
     else if eqs v "on" then Ok (set_autogrow true c)
     else if eqs v "no" then Ok (set_autogrow false c)
     else if eqs v "yes" then Ok (set_autogrow true c)
     else Runtime)
  else if eqs p "delete" || eqs p "delete_on_exit" then Ok (set_delete true c)
  else if eqs p "direct" || eqs p "nodirect" || eqs k "direct" then
    (if eqs p "direct" then Ok (set_direct DIRECT_ON c)
     else if eqs p "nodirect" then Ok (set_direct DIRECT_OFF c)
     else if eqs v "off" then Ok (set_direct DIRECT_OFF c)
     else if eqs v "try" then Ok (set_direct DIRECT_TRY c)
     else if eqs v "on" then Ok (set_direct DIRECT_ON c)
     else if eqs v "no" then Ok (set_direct DIRECT_OFF c)
     else if eqs v "yes" then Ok (set_direct DIRECT_ON c)
     else Runtime)
  else if eqs k "queue" then
    (if eqs impl "linuxaio" then Runtime
     else match number v with Some n => Ok (set_queue (to_int n) c) | None => Runtime end)
  else if eqs k "queue_length" then
    (if negb (eqs impl "linuxaio") then Runtime
     else match number v with Some n => Ok (set_qlen (to_int n) c) | None => Runtime end)
  else if eqs k "device_id" || eqs k "devid" then
    match number v with Some n => Ok (set_device (to_unsigned (to_int n)) c) | None => Runtime end
  else if eqs p "raw_device" then (if eqs impl "syscall" then Ok (set_raw true c) else Runtime)
  else if eqs p "unlink" || eqs p "unlink_on_open" then
    (if eqs impl "syscall" || eqs impl "linuxaio" || eqs impl "mmap" || eqs impl "wbtl"
     then Ok (set_unlink true c) else Runtime)
  else Runtime.
Fixpoint options (ps : list str) (c : disk) : result disk :=
  match ps with
  | [] => Ok c
  | p :: t => match option_step p c with Ok c' => options t c' | Runtime => Runtime | OutOfRange => OutOfRange end
  end.

(** [find(' ')]: the text before the first blank and the text after it. *)
Fixpoint cut_blank (s : str) : option (str * str) :=
  match s with
  | [] => None
  | c :: t =>
    if is c " " then Some ([], t)
    else match cut_blank t with Some (a, b) => Some (c :: a, b) | None => None end
  end.
(** C 322-450; 325-327 throws when there is nothing but blanks. *)
Definition parse_fileio (c : disk) : result disk :=
  match skip_blanks (io_impl c) with
  | [] => OutOfRange
  | s =>
    match cut_blank s with
    | None => Ok (set_impl s c)
    | Some (impl, params) => options (split params " " 0 None) (set_impl impl c)
    end
  end.

(** C 213-224 and the defaults 277-283. *)
Definition disk0 : disk :=
  mkDisk [] 0 [] true false DIRECT_TRY false DEFAULT_QUEUE DEFAULT_DEVICE_ID false false 0.
(** C 226-242. *)
Definition disk_config (p : str) (sz : Z) (impl : str) : result disk :=
  parse_fileio (mkDisk p sz impl true false DIRECT_TRY false DEFAULT_QUEUE DEFAULT_DEVICE_ID false false 0).

(** C 293-304: the first ### becomes the process id. *)
Fixpoint replace_pid (pid : str) (s : str) : str :=
  match s with
  | [] => []
  | c :: t =>
    match s with
    | a :: b :: d :: rest => if is a "#" && is b "#" && is d "#" then pid ++ rest else c :: replace_pid pid t
    | _ => s
    end
  end.

(** C 259-320, on the object [c]. *)
Definition parse_line (pid : str) (line : str) (c : disk) : result disk :=
  let eqf := split line "=" 2 (Some 2%nat) in
  let k := nth 0 eqf [] in
  match (if eqs k "disk" then Some false else if eqs k "flash" then Some true else None) with
  | None => Runtime
  | Some fl =>
    let cm := split (nth 1 eqf []) "," 3 (Some 3%nat) in
    match parse_size (nth 1 cm []) "M" with
    | (false, _) => Runtime
    | (true, sz) =>
      parse_fileio (mkDisk (replace_pid pid (nth 0 cm [])) sz (nth 2 cm []) true (sz =? 0) DIRECT_TRY fl
        DEFAULT_QUEUE DEFAULT_DEVICE_ID (raw_device c) false (queue_length c))
    end
  end.

(** Output of an integer, base ten ([std::ostream]); 10 digits hold 32 bits. *)
Definition ascii_digit (d : Z) : ascii := ascii_of_N (Z.to_N (48 + d)).
Fixpoint dec_go (fuel : nat) (n : Z) (acc : str) : str :=
  match fuel with
  | O => acc
  | S f => let acc' := ascii_digit (n mod 10) :: acc in if n / 10 =? 0 then acc' else dec_go f (n / 10) acc'
  end.
Definition dec (n : Z) : str := if n <? 0 then L "-" ++ dec_go 10 (- n) [] else dec_go 10 n [].

(** C 452-493. *)
Definition fileio_string (c : disk) : str :=
  io_impl c
  ++ (if autogrow c then [] else L " autogrow=no")
  ++ (if delete_on_exit c then L " delete_on_exit" else [])
  ++ match direct c with DIRECT_OFF => L " direct=off" | DIRECT_TRY => [] | DIRECT_ON => L " direct=on" end
  ++ (if flash c then L " flash" else [])
  ++ (if negb (queue c =? DEFAULT_QUEUE) && negb (queue c =? DEFAULT_LINUXAIO_QUEUE) then L " queue=" ++ dec (queue c) else [])
  ++ (if negb (device_id c =? DEFAULT_DEVICE_ID) then L " devid=" ++ dec (device_id c) else [])
  ++ (if raw_device c then L " raw_device" else [])
  ++ (if unlink_on_open c then L " unlink_on_open" else [])
  ++ (if negb (queue_length c =? 0) then L " queue_length=" ++ dec (queue_length c) else []).

(** The singleton, config.h 112-136; [None]: the variable has no defined value. *)
Record config := mkConfig { disks : list disk; first_flash : option nat; initialized : bool; max_device : option Z }.
Definition config0 : config := mkConfig [] None false None.

(** C 152-164: regular disks and flash disks of a file. *)
Fixpoint read_lines (pid : str) (lines : list str) : result (list disk * list disk) :=
  match lines with
  | [] => Ok ([], [])
  | l :: t =>
    match l with
    | [] => read_lines pid t
    | c :: _ =>
      if is c "#" then read_lines pid t
      else
        match parse_line pid l disk0 with
        | Ok d =>
          match read_lines pid t with
          | Ok (reg, fls) => Ok (if flash d then (reg, d :: fls) else (d :: reg, fls))
          | Runtime => Runtime | OutOfRange => OutOfRange
          end
        | Runtime => Runtime | OutOfRange => OutOfRange
        end
    end
  end.
(** C 142-175 ([file = None]: it cannot be opened, 116-140). *)
Definition default_disk : disk :=
  mkDisk (L "/var/tmp/stxxl") (1000 * 1024 * 1024) (L "syscall") true true DIRECT_TRY false DEFAULT_QUEUE DEFAULT_DEVICE_ID false false 0.
Definition load_default (g : config) : config :=
  let ds := disks g ++ [default_disk] in mkConfig ds (Some (length ds)) (initialized g) (max_device g).
Definition load_config_file (pid : str) (file : option (list str)) (g : config) : result config :=
  match file with
  | None => Ok (load_default g)
  | Some lines =>
    match read_lines pid lines with
    | Ok (reg, fls) =>
      let ds := (disks g ++ reg) ++ fls in
      match ds with
      | [] => Runtime
      | _ => Ok (mkConfig ds (Some (length (disks g ++ reg))) (initialized g) (max_device g))
      end
    | Runtime => Runtime | OutOfRange => OutOfRange
    end
  end.
(** C 152-164 when a line throws: the regular disks of the lines before it stay in the list. *)
Fixpoint pushed (pid : str) (lines : list str) : list disk :=
  match lines with
  | [] => []
  | l :: t =>
    match l with
    | [] => pushed pid t
    | c :: _ =>
      if is c "#" then pushed pid t
      else match parse_line pid l disk0 with
           | Ok d => if flash d then pushed pid t else d :: pushed pid t
           | Runtime | OutOfRange => []
           end
    end
  end.
(** The object after [load_config_file], with or without an exception. *)
Definition after_load (pid : str) (file : option (list str)) (g : config) : config :=
  match load_config_file pid file g with
  | Ok g' => g'
  | Runtime | OutOfRange =>
    let ds := disks g ++ match file with Some lines => pushed pid lines | None => [] end in
    mkConfig ds
      match file with
      | Some lines => match read_lines pid lines with Ok _ => Some (length ds) | Runtime | OutOfRange => first_flash g end
      | None => first_flash g
      end (initialized g) (max_device g)
  end.
(** config.h 170-174. *)
Definition add_disk (d : disk) (g : config) : config :=
  mkConfig (disks g ++ [d]) (first_flash g) (initialized g) (max_device g).
(** C 55-66; [file]: the file found by [find_config]. *)
Definition initialize (pid : str) (file : option (list str)) (g : config) : result config :=
  match (match disks g with [] => load_config_file pid file g | _ => Ok g end) with
  | Ok g' => Ok (mkConfig (disks g') (first_flash g') true (Some 0))
  | Runtime => Runtime | OutOfRange => OutOfRange
  end.
(** config.h 211-223. *)
Definition regular_disk_range (g : config) : option (nat * nat) :=
  match first_flash g with Some f => Some (0%nat, f) | None => None end.
Definition flash_range (g : config) : option (nat * nat) :=
  match first_flash g with Some f => Some (f, length (disks g)) | None => None end.

(** create_file.cpp 61-68 with C 184-194: the device id of the created file; [None]: undefined value read. *)
Definition assign_device (d : disk) (g : config) : option (disk * config) :=
  match max_device g with
  | None => None
  | Some m =>
    if device_id d =? DEFAULT_DEVICE_ID
    then Some (set_device m d, mkConfig (disks g) (first_flash g) (initialized g) (Some (to_unsigned (m + 1))))
    else let n := to_unsigned (device_id d + 1) in
         Some (d, mkConfig (disks g) (first_flash g) (initialized g) (Some (if m <? n then n else m)))
  end.
(** block_manager.cpp 46-56 and create_file.cpp 119: queues and device ids of all disks. *)
Definition assign_queue (i : Z) (d : disk) : disk :=
  let d1 := if queue d =? DEFAULT_QUEUE then set_queue i d else d in
  if eqs (io_impl d1) "linuxaio" then set_queue DEFAULT_LINUXAIO_QUEUE d1 else d1.
Fixpoint open_disks (i : Z) (ds : list disk) (g : config) : option (list disk * config) :=
  match ds with
  | [] => Some ([], g)
  | d :: t =>
    match assign_device (assign_queue i d) g with
    | None => None
    | Some (d', g') =>
      match open_disks (i + 1) t g' with Some (l, g2) => Some (d' :: l, g2) | None => None end
    end
  end.
