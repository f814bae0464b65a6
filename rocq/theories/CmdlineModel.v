(** Model of the command line parser.  Sources under /repo:
      include/stxxl/bits/common/cmdline.h 49-382 ([H], the arguments), 417-447, 483-770 (adding them)
      lib/common/cmdline.cpp 22-60 (output_wrap), 96-126 (the calls of it), 160-304 (process) ([C]).

    Strings are lists of characters (see ConfigModel).  An argument holds a reference to a variable of the user: the
    variables are a store, [dest] is the number of the variable.  Messages are not modelled.  Numbers that do not fit
    into the variable are undefined behaviour of sscanf ([Undefined]).  Left out: argument_double. *)
From Coq Require Import String Ascii ZArith List Bool.
From Verif Require Import ConfigModel.
Import ListNotations.
Open Scope nat_scope.

(** H 49-113, 359-361. *)
Inductive kind := Flag | Int | Uint | Bytes32 | Bytes64 | Str | StrList.
Inductive value := VBool (b : bool) | VNum (z : Z) | VStr (s : str) | VList (l : list str).
Record arg := mkArg { key : option ascii; longkey : str; keytype : str; desc : str; kd : kind; required : bool; dest : nat }.
Definition repeated (a : arg) : bool := match kd a with StrList => true | _ => false end.
Notation store := (nat -> value).
Definition set (d : nat) (v : value) (st : store) : store := fun x => if Nat.eqb x d then v else st x.

(** sscanf with %d and %u: sign, magnitude; the rest of the string is not looked at. *)
Definition scan (s : str) : option (bool * Z) :=
  let '(neg, s1) := sign (skip_space s) in
  match s1 with
  | c :: _ => match digit c with Some _ => Some (neg, fst (digits s1 0)) | None => None end
  | [] => None
  end.
Inductive scanned := SNone | SUndefined | SValue (z : Z).
Definition scan_d (s : str) : scanned :=
  match scan s with
  | None => SNone
  | Some (neg, v) =>
    let z := (if neg then - v else v)%Z in
    if ((- 2 ^ 31 <=? z) && (z <? 2 ^ 31))%Z then SValue z else SUndefined
  end.
Definition scan_u (s : str) : scanned :=
  match scan s with
  | None => SNone
  | Some (neg, v) =>
    if (v <? 2 ^ 32)%Z then SValue ((if neg then - v else v) mod 2 ^ 32)%Z else SUndefined
  end.

(** [process] of an argument: the variables afterwards and the arguments left, or failure with the variables.
    H 132-137, 160-170, 194-204, 262-273, 298-307, 332-338, 364-370. *)
Inductive processed := PDone (st : store) (argv : list str) | PFail (st : store) | PUndefined.
Definition arg_process (a : arg) (st : store) (argv : list str) : processed :=
  match kd a with
  | Flag => PDone (set (dest a) (VBool true) st) argv
  | k =>
    match argv with
    | [] => PFail st
    | s :: rest =>
      let number r := match r with
        | SNone => PFail st
        | SUndefined => PUndefined
        | SValue z => PDone (set (dest a) (VNum z) st) rest
        end in
      match k with
      | Int => number (scan_d s)
      | Uint => number (scan_u s)
      | Bytes32 =>
        let '(ok, v) := parse_size s zero in
        if ok then
          let st' := set (dest a) (VNum (v mod 2 ^ 32)%Z) st in
          if (v mod 2 ^ 32 =? v)%Z then PDone st' rest else PFail st'
        else PFail st
      | Bytes64 =>
        let '(ok, v) := parse_size s zero in
        let st' := set (dest a) (VNum v) st in
        if ok then PDone st' rest else PFail st'
      | Str => PDone (set (dest a) (VStr s) st) rest
      | _ => PDone (set (dest a) (VList (match st (dest a) with VList l => l | _ => [] end ++ [s])) st) rest
      end
    end
  end.

(** C 160-304.  [found]: the parameters with m_found, kept by the object from call to call. *)
Inductive outcome := Accepted | Rejected | Help | Undefined | Fuel.
Definition help_word (s : str) : bool := str_eqb s (L "-h") || str_eqb s (L "--help").
(** 286-296. *)
Definition missing (params : list arg) (found : list nat) : bool :=
  existsb (fun j => match nth_error params j with
                    | Some p => required p && negb (existsb (Nat.eqb j) found)
                    | None => false
                    end) (seq 0 (length params)).
(** 176-284. *)
Fixpoint loop (fuel : nat) (opts params : list arg) (ended : bool) (i : nat) (found : list nat) (st : store) (argv : list str)
  : outcome * list nat * store :=
  match argv with
  | [] => (if missing params found then Rejected else Accepted, found, st)
  | a :: rest =>
    match fuel with
    | O => (Fuel, found, st)
    | S f =>
      let option o :=
        match arg_process o st rest with
        | PDone st' rest' => loop f opts params ended i found st' rest'
        | PFail st' => (Rejected, found, st')
        | PUndefined => (Undefined, found, st)
        end in
      let parameter :=
        match nth_error params i with
        | Some p =>
          match arg_process p st argv with
          | PDone st' rest' => loop f opts params ended (if repeated p then i else S i) (i :: found) st' rest'
          | PFail st' => (Rejected, found, st')
          | PUndefined => (Undefined, found, st)
          end
        | None => (Rejected, found, st)
        end in
      match a with
      | c :: a1 =>
        if is c "-" && negb ended then
          match a1 with
          | [] => loop f opts params ended i found st rest
          | c1 :: a2 =>
            if is c1 "-" then
              if (match a2 with c2 :: _ => is c2 "-" | [] => false end)
              then loop f opts params true i found st rest
              else match find (fun o => str_eqb a2 (longkey o)) opts with
                   | Some o => option o
                   | None => (Rejected, found, st)
                   end
            else match find (fun o => match key o with Some k => Ascii.eqb c1 k | None => false end) opts with
                 | Some o => option o
                 | None => (Rejected, found, st)
                 end
          end
        else parameter
      | [] => parameter
      end
    end
  end.
(** 160-174: the program name is already removed. *)
Definition process (opts params : list arg) (found : list nat) (st : store) (argv : list str) : outcome * list nat * store :=
  if existsb help_word argv then (Help, found, st)
  else loop (S (length argv)) opts params false 0 found st argv.

(** C 22-60, output_wrap: the lines with their indentation; [None]: not finished after [fuel] lines.
    [room]: wraplen - current - indent (33-39); result: to - t and lspace - t. *)
Definition newline : ascii := "010"%char.
Fixpoint wrap_scan (room : nat) (s : str) (k lspace : nat) : nat * nat :=
  match s, room with
  | c :: t, S r => if Ascii.eqb c newline then (k, lspace) else wrap_scan r t (S k) (if is c " " then k else lspace)
  | _, _ => (k, lspace)
  end.
(** 30-43. *)
Definition wrap_to (room : nat) (s : str) : nat :=
  let '(k, lspace) := wrap_scan room s 0 0 in
  match skipn k s with
  | c :: _ => if negb (Ascii.eqb c newline) && negb (Nat.eqb lspace 0) then S lspace else k
  | [] => k
  end.
Fixpoint wrap (fuel : nat) (wraplen rest_ind nl_ind indent current : nat) (s : str) : option (list (nat * str)) :=
  match s with
  | [] => Some []
  | _ =>
    match fuel with
    | O => None
    | S f =>
      let n := wrap_to (wraplen - (current + indent)) s in
      let line := (indent, firstn n s) in
      match (match skipn n s with
             | c :: t => if Ascii.eqb c newline then wrap f wraplen rest_ind nl_ind nl_ind 0 t
                         else wrap f wraplen rest_ind nl_ind rest_ind 0 (c :: t)
             | [] => Some []
             end) with
      | Some l => Some (line :: l)
      | None => None
      end
    end
  end.
Definition output_wrap (fuel : nat) (text : str) (wraplen indent_first indent_rest current indent_newline : nat) :=
  wrap fuel wraplen indent_rest indent_newline indent_first current text.

(** H 88-112, 417-428, 441-447. *)
Definition param_text (a : arg) : str := longkey a ++ match keytype a with [] => [] | k => L " " ++ k end.
Definition option_text (a : arg) : str :=
  match key a with Some c => L "-" ++ c :: L ", " | None => [] end ++ L "--" ++ longkey a
  ++ match keytype a with [] => [] | k => L " " ++ k end.
Definition maxlong (text : arg -> str) (l : list arg) : nat :=
  fold_left (fun m a => Nat.max (length (text a) + 2) m) l 8.
(** C 96-126: the descriptions of the options (or parameters), 80 columns. *)
Definition linewrap : nat := 80.
Fixpoint usage (fuel : nat) (max : nat) (l : list arg) : option (list (list (nat * str))) :=
  match l with
  | [] => Some []
  | a :: t =>
    match output_wrap fuel (desc a) linewrap 0 (max + 2) (max + 2) 8, usage fuel max t with
    | Some x, Some y => Some (x :: y)
    | _, _ => None
    end
  end.
Definition usage_options (fuel : nat) (opts : list arg) := usage fuel (maxlong option_text opts) opts.
Definition usage_params (fuel : nat) (params : list arg) := usage fuel (maxlong param_text params) params.
