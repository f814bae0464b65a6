(** Specification of command lines: a command line is a list of items. *)
From Coq Require Import String Ascii ZArith List Bool.
From Verif Require Import ConfigModel ConfigSpec CmdlineModel.
Import ListNotations.
Open Scope nat_scope.

(** ** Texts of values *)
Definition white (c : ascii) : Prop := In (nat_of_ascii c) [9; 10; 11; 12; 13; 32].
Definition sign_text (s : str) (neg : bool) : Prop := (s = [] /\ neg = false) \/ (s = ["+"%char] /\ neg = false) \/ (s = ["-"%char] /\ neg = true).
(** What is documented: numbers, sizes with units, strings. *)
Definition means (k : kind) (old : value) (s : str) (v : value) : Prop :=
  match k with
  | Flag => False
  | Int => exists sg neg ds, s = sg ++ ds /\ sign_text sg neg /\ number_text ds /\
      let z := (if neg then - decval ds else decval ds)%Z in (- 2 ^ 31 <= z < 2 ^ 31)%Z /\ v = VNum z
  | Uint => number_text s /\ (decval s < 2 ^ 32)%Z /\ v = VNum (decval s)
  | Bytes32 => exists n f, size_text zero s n f /\ (n < 2 ^ 64)%Z /\ (n * f < 2 ^ 32)%Z /\ v = VNum (n * f)
  | Bytes64 => exists n f, size_text zero s n f /\ (n < 2 ^ 64)%Z /\ (n * f < 2 ^ 64)%Z /\ v = VNum (n * f)
  | Str => v = VStr s
  | StrList => v = VList (match old with VList l => l | _ => [] end ++ [s])
  end.
(** What is accepted: white space before and anything behind a number, also negative ones for unsigned variables; sizes
    see C104. *)
Definition accepts (k : kind) (old : value) (s : str) (v : value) : Prop :=
  match k with
  | Int => exists sp sg neg ds junk, s = sp ++ sg ++ ds ++ junk /\ Forall white sp /\ sign_text sg neg /\ number_text ds /\
      (forall c t, junk = c :: t -> ~ is_digit c) /\
      let z := (if neg then - decval ds else decval ds)%Z in (- 2 ^ 31 <= z < 2 ^ 31)%Z /\ v = VNum z
  | Uint => exists sp sg neg ds junk, s = sp ++ sg ++ ds ++ junk /\ Forall white sp /\ sign_text sg neg /\ number_text ds /\
      (forall c t, junk = c :: t -> ~ is_digit c) /\ (decval ds < 2 ^ 32)%Z /\
      v = VNum ((if neg then - decval ds else decval ds) mod 2 ^ 32)
  | Bytes32 => exists n, parse_size s zero = (true, n) /\ (0 <= n < 2 ^ 32)%Z /\ v = VNum n
  | Bytes64 => exists n, parse_size s zero = (true, n) /\ v = VNum n
  | _ => means k old s v
  end.

(** ** Items *)
Inductive item :=
| ILong (name : str) (text : option str)
| IShort (c : ascii) (ignored : str) (text : option str)
| IParam (text : str)
| IDash
| IEnd (ignored : str).
Definition texts (t : option str) : list str := match t with Some s => [s] | None => [] end.
Definition render (x : item) : list str :=
  match x with
  | ILong n t => (list_ascii_of_string "--" ++ n) :: texts t
  | IShort c g t => ("-"%char :: c :: g) :: texts t
  | IParam s => [s]
  | IDash => [list_ascii_of_string "-"]
  | IEnd g => [list_ascii_of_string "---" ++ g]
  end.
Definition dash_first (s : str) : Prop := exists t, s = "-"%char :: t.
Definition first (P : arg -> Prop) (o : arg) (opts : list arg) : Prop :=
  exists l1 l2, opts = l1 ++ o :: l2 /\ P o /\ Forall (fun x => ~ P x) l1.
Definition update (st : nat -> value) (d : nat) (v : value) : nat -> value := fun x => if x =? d then v else st x.
Definition gives (R : kind -> value -> str -> value -> Prop) (o : arg) (t : option str) (st st' : nat -> value) : Prop :=
  match kd o with
  | Flag => t = None /\ st' = update st (dest o) (VBool true)
  | k => exists s v, t = Some s /\ R k (st (dest o)) s v /\ st' = update st (dest o) v
  end.
(** [line R opts params ended i st items given st']: the items are in order, from parameter [i] on; [given]: the
    parameters that get a value. *)
Inductive line (R : kind -> value -> str -> value -> Prop) (opts params : list arg)
  : bool -> nat -> (nat -> value) -> list item -> list nat -> (nat -> value) -> Prop :=
| L_nil e i st : line R opts params e i st [] [] st
| L_long i st n t o st1 l g st2 : first (fun x => longkey x = n) o opts -> ~ dash_first n -> gives R o t st st1 ->
    line R opts params false i st1 l g st2 -> line R opts params false i st (ILong n t :: l) g st2
| L_short i st c ig t o st1 l g st2 : first (fun x => key x = Some c) o opts -> c <> "-"%char -> gives R o t st st1 ->
    line R opts params false i st1 l g st2 -> line R opts params false i st (IShort c ig t :: l) g st2
| L_param e i st s p v l g st2 : (e = true \/ ~ dash_first s) -> nth_error params i = Some p -> R (kd p) (st (dest p)) s v ->
    line R opts params e (if match kd p with StrList => true | _ => false end then i else S i) (update st (dest p) v) l g st2 ->
    line R opts params e i st (IParam s :: l) (i :: g) st2
| L_dash i st l g st2 : line R opts params false i st l g st2 -> line R opts params false i st (IDash :: l) g st2
| L_end i st ig l g st2 : line R opts params true i st l g st2 -> line R opts params false i st (IEnd ig :: l) g st2.
Definition complete (params : list arg) (given : list nat) : Prop :=
  forall j p, nth_error params j = Some p -> required p = true -> In j given.
Definition asks_help (argv : list str) : Prop := In (list_ascii_of_string "-h") argv \/ In (list_ascii_of_string "--help") argv.
(** Without the forms that are not documented. *)
Definition documented (x : item) : Prop :=
  match x with IShort _ g _ => g = [] | IDash | IEnd _ => False | _ => True end.

(** ** Wrapping *)
(** [broken rest nl ind text lines]: the lines, with their indentations, are the text from indentation [ind] on, broken
    at newlines (which are removed) and elsewhere: after a space, or in a word that is all of the line (but a leading
    space). *)
Inductive broken (rest nl : nat) : nat -> str -> list (nat * str) -> Prop :=
| B_nil i : broken rest nl i [] []
| B_line i l s ls : ~ In "010"%char l -> s = [] \/ (exists l', l = l' ++ [" "%char]) \/ ~ In " "%char (tl l) ->
    broken rest nl rest s ls -> broken rest nl i (l ++ s) ((i, l) :: ls)
| B_newline i l s ls : ~ In "010"%char l -> broken rest nl nl s ls -> broken rest nl i (l ++ "010"%char :: s) ((i, l) :: ls).
Definition narrow (width : nat) (x : nat * str) : Prop := fst x + length (snd x) <= width.
