(** Specification of the disk configuration. *)
From Coq Require Import String Ascii ZArith List Bool.
From Verif Require Import ConfigModel.
Import ListNotations.
Open Scope Z_scope.

(** Decimal numbers. *)
Definition is_digit (c : ascii) : Prop := In c (list_ascii_of_string "0123456789").
Fixpoint decval_from (acc : Z) (s : list ascii) : Z :=
  match s with [] => acc | c :: t => decval_from (10 * acc + (Z.of_N (N_of_ascii c) - 48)) t end.
Definition decval (s : list ascii) : Z := decval_from 0 s.
Definition number_text (s : list ascii) : Prop := s <> [] /\ Forall is_digit s.

(** Units: bytes; k, M, G, T, P (powers of ten) and Ki, Mi, Gi, Ti, Pi (powers of two), in either case, with or
    without a final b. *)
Definition cases (l : list string) : list (list ascii) := map list_ascii_of_string l.
Definition bytes_suffix : list (list ascii) := cases [""; "b"; "B"]%string.
Definition letter_units (letters : list string) (power : Z) : list (list ascii * Z) :=
  flat_map (fun l => flat_map (fun b =>
    [ (l ++ b, 1000 ^ power); (l ++ list_ascii_of_string "i" ++ b, 1024 ^ power);
      (l ++ list_ascii_of_string "I" ++ b, 1024 ^ power) ]) bytes_suffix) (cases letters).
Definition units : list (list ascii * Z) :=
  [ (list_ascii_of_string "b", 1); (list_ascii_of_string "B", 1) ]
  ++ letter_units ["k"; "K"]%string 1 ++ letter_units ["m"; "M"]%string 2 ++ letter_units ["g"; "G"]%string 3
  ++ letter_units ["t"; "T"]%string 4 ++ letter_units ["p"; "P"]%string 5.
(** Default units: small letters are powers of ten, capital letters powers of two, everything else is bytes. *)
Definition default_units : list (ascii * Z) :=
  [ ("k"%char, 1000); ("m"%char, 1000 ^ 2); ("g"%char, 1000 ^ 3); ("t"%char, 1000 ^ 4); ("p"%char, 1000 ^ 5);
    ("K"%char, 1024); ("M"%char, 1024 ^ 2); ("G"%char, 1024 ^ 3); ("T"%char, 1024 ^ 4); ("P"%char, 1024 ^ 5) ].
Definition unit_factor (def_unit : ascii) (u : list ascii) (f : Z) : Prop :=
  In (u, f) units \/
  u = [] /\ (In (def_unit, f) default_units \/ (f = 1 /\ forall g, ~ In (def_unit, g) default_units)).

(** A size: number, blanks, unit, blanks. *)
Definition size_text (def_unit : ascii) (s : list ascii) (number factor : Z) : Prop :=
  exists ds j u k, number_text ds /\ decval ds = number /\ unit_factor def_unit u factor /\
    s = ds ++ repeat " "%char j ++ u ++ repeat " "%char k.

(** Options that can be written down for a fileio. *)
Definition no_char (c : ascii) (s : list ascii) : Prop := ~ In c s.
Definition named (s : list ascii) (n : string) : Prop := s = list_ascii_of_string n.
Definition writable (c : disk) : Prop :=
  io_impl c <> [] /\ no_char " "%char (io_impl c) /\
  (- 2 ^ 31 <= queue c < 2 ^ 31 /\ queue c <> -2 /\ (queue c = -1 \/ ~ named (io_impl c) "linuxaio")) /\
  0 <= device_id c < 2 ^ 32 /\
  (raw_device c = true -> named (io_impl c) "syscall") /\
  (unlink_on_open c = true -> named (io_impl c) "syscall" \/ named (io_impl c) "linuxaio" \/
     named (io_impl c) "mmap" \/ named (io_impl c) "wbtl") /\
  - 2 ^ 31 <= queue_length c < 2 ^ 31 /\ (queue_length c = 0 \/ named (io_impl c) "linuxaio").

(** Joining fields. *)
Fixpoint join (sep : ascii) (l : list (list ascii)) : list ascii :=
  match l with
  | [] => []
  | [x] => x
  | x :: t => x ++ sep :: join sep t
  end.

(** The path with the first ### replaced by the process id. *)
Definition hashes : list ascii := list_ascii_of_string "###".
Definition pid_path (pid p p' : list ascii) : Prop :=
  (p' = p /\ forall a b, p <> a ++ hashes ++ b) \/
  (exists a b, p = a ++ hashes ++ b /\ p' = a ++ pid ++ b /\
     forall a' b', p = a' ++ hashes ++ b' -> (length a <= length a')%nat).

(** Lines of a configuration file that describe a disk. *)
Definition describes (line : list ascii) : bool :=
  match line with [] => false | c :: _ => negb (Ascii.eqb c "#") end.

(** Names of options. *)
Definition plain_options : list (list ascii) :=
  cases [""; "autogrow"; "noautogrow"; "autogrow=off"; "autogrow=on"; "autogrow=no"; "autogrow=yes";
         "delete"; "delete_on_exit"; "direct"; "nodirect"; "direct=off"; "direct=try"; "direct=on"; "direct=no";
         "direct=yes"; "raw_device"; "unlink"; "unlink_on_open"]%string.
Definition value_options : list (list ascii) := cases ["queue"; "queue_length"; "device_id"; "devid"]%string.
Definition option_text (p : list ascii) : Prop :=
  In p plain_options \/ exists k, In k value_options /\ (p = k \/ exists v, p = k ++ "="%char :: v).
