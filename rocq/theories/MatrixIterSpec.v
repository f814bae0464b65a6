(** What programs with iterators over matrices should print: an iterator is a matrix object and a position in it, or no
    position.  Independent of the model. *)
From Coq Require Import List Arith Bool PeanoNat.
From Verif Require Import MatrixSpec.
Import ListNotations.

(** Statements; iterators are numbered like objects.  begin() is the position (0, 0). *)
Inductive icmd (R : Type) :=
| IMat (c : mcmd R)                  (* a statement over the objects *)
| INew (k o r c : nat)               (* iterator k = o(r, c) *)
| IEnd (k o : nat)                   (* iterator k = o.end() *)
| ICopy (k a : nat)                  (* iterator k(a) *)
| IAssign (k a : nat)                (* k = a *)
| IDel (k : nat)                     (* ~iterator *)
| ISetRow (k r : nat) | ISetCol (k c : nat) | ISetPos (k r c : nat)
| INext (col : bool) (k : nat)       (* ++k of a row-major (false) or column-major (true) iterator *)
| IPrev (col : bool) (k : nat)       (* --k *)
| IGet (k : nat)                     (* value of *k *)
| IPut (k : nat) (x : R)             (* *k = x *)
| IPos (k : nat)                     (* row and column; nothing if empty *)
| IEq (k a : nat).                   (* k == a *)
Arguments IMat {R}. Arguments INew {R}. Arguments IEnd {R}. Arguments ICopy {R}. Arguments IAssign {R}. Arguments IDel {R}.
Arguments ISetRow {R}. Arguments ISetCol {R}. Arguments ISetPos {R}. Arguments INext {R}. Arguments IPrev {R}.
Arguments IGet {R}. Arguments IPut {R}. Arguments IPos {R}. Arguments IEq {R}.

Section IterSpec.
  Variable R : Type.
  Variables (rO : R) (radd rmul rsub : R -> R -> R).

  Notation sit := (nat * option (nat * nat))%type.
  Notation vals := (list (option (mval R))).
  Notation obj := (obj R). Notation vh := (vh R). Notation vw := (vw R).

  (** the next position of an h x w matrix *)
  Definition next (col : bool) (h w r c : nat) : option (nat * nat) :=
    if col then if S r <? h then Some (S r, c) else if S c <? w then Some (0, S c) else None
    else if S c <? w then Some (r, S c) else if S r <? h then Some (S r, 0) else None.
  Definition prev (col : bool) (h w r c : nat) : option (nat * nat) :=
    if col then match r, c with S r', _ => Some (r', c) | 0, S c' => Some (h - 1, c') | 0, 0 => None end
    else match c, r with S c', _ => Some (r, c') | 0, S r' => Some (r', w - 1) | 0, 0 => None end.

  Definition live (its : list (option sit)) (k : nat) : option sit := nth k its None.
  Definition declare (its : list (option sit)) (k : nat) (x : option sit) : option (list (option sit)) :=
    if k <? length its then Some (upd its k x) else None.
  Definition dead (its : list (option sit)) : bool := forallb (fun x => match x with Some _ => false | None => true end) its.
  (** the objects that a statement replaces, resizes, or shares with another object *)
  Definition touches (c : mcmd R) : list nat :=
    match c with
    | CNew o _ _ | CDel o | CZero o | CTrans o | CAdd o _ _ | CSub o _ _ | CScale o _ _ | CMul _ o _ _ | CMulBy o _ => [o]
    | CCopy o a => [o; a]
    | CSet _ _ _ _ | CAddTo _ _ | CSubTo _ _ | CScaleBy _ _ | CGet _ _ _ | CDims _ | CCol _ _ | CRow _ _ => []
    end.
  (** a statement over objects may be executed while there are iterators over other objects, a product only while there is
      no iterator *)
  Definition idle (its : list (option sit)) (c : mcmd R) : bool :=
    match c with
    | CMul _ _ _ _ | CMulBy _ _ => dead its
    | _ => forallb (fun x => match x with Some (o, _) => negb (existsb (Nat.eqb o) (touches c)) | None => true end) its
    end.
  Definition same_pos (p q : option (nat * nat)) : bool :=
    match p, q with
    | Some (r, c), Some (r', c') => (r =? r') && (c =? c')
    | None, None => true
    | _, _ => false
    end.

  Notation state := (vals * list (option sit))%type.
  Notation out := (list nat * list R)%type.
  (** None if the statement may not be executed: positions must be inside, an empty iterator may not be moved, except to a
      position, nor dereferenced.  If strict, an iterator may be assigned only an iterator over the same object, and a
      statement over objects must be [idle]. *)
  Variable strict : bool.
  Definition i_step (c : icmd R) (st : state) : option (state * out) :=
    let '(vs, its) := st in
    let set k x := match declare its k x with Some its' => Some ((vs, its'), ([], [])) | None => None end in
    let inside o r c := match obj vs o with Some v => (r <? vh v) && (c <? vw v) | None => false end in
    match c with
    | IMat c =>
      if negb strict || idle its c then match s_step R rO radd rmul rsub any_size c vs with Some (vs', o) => Some ((vs', its), o) | None => None end
      else None
    | INew k o r c =>
      match live its k with Some _ => None | None => if inside o r c then set k (Some (o, Some (r, c))) else None end
    | IEnd k o =>
      match live its k, obj vs o with None, Some _ => set k (Some (o, None)) | _, _ => None end
    | ICopy k a =>
      match live its k, live its a with None, Some p => set k (Some p) | _, _ => None end
    | IAssign k a =>
      match live its k, live its a with Some (o, _), Some (o', p) => if negb strict || (o =? o') then set k (Some (o', p)) else None | _, _ => None end
    | IDel k => match live its k with Some _ => set k None | None => None end
    | ISetRow k r =>
      match live its k with Some (o, Some (_, c)) => if inside o r c then set k (Some (o, Some (r, c))) else None | _ => None end
    | ISetCol k c =>
      match live its k with Some (o, Some (r, _)) => if inside o r c then set k (Some (o, Some (r, c))) else None | _ => None end
    | ISetPos k r c =>
      match live its k with Some (o, _) => if inside o r c then set k (Some (o, Some (r, c))) else None | _ => None end
    | INext col k =>
      match live its k with
      | Some (o, Some (r, c)) => match obj vs o with Some v => set k (Some (o, next col (vh v) (vw v) r c)) | None => None end
      | _ => None
      end
    | IPrev col k =>
      match live its k with
      | Some (o, Some (r, c)) => match obj vs o with Some v => set k (Some (o, prev col (vh v) (vw v) r c)) | None => None end
      | _ => None
      end
    | IGet k =>
      match live its k with
      | Some (o, Some (r, c)) => match obj vs o with Some v => Some ((vs, its), ([], [ve R v r c])) | None => None end
      | _ => None
      end
    | IPut k x =>
      match live its k with
      | Some (o, Some (r, c)) => match obj vs o with Some v => Some ((upd vs o (Some (v_set R v r c x)), its), ([], [])) | None => None end
      | _ => None
      end
    | IPos k =>
      match live its k with
      | Some (_, Some (r, c)) => Some ((vs, its), ([r; c], []))
      | Some (_, None) => Some ((vs, its), ([], []))
      | None => None
      end
    | IEq k a =>
      match live its k, live its a with
      | Some (o, p), Some (o', p') => Some ((vs, its), ([if (o =? o') && same_pos p p' then 1 else 0], []))
      | _, _ => None
      end
    end.
  Fixpoint i_run (cs : list (icmd R)) (st : state) : option (state * list out) :=
    match cs with
    | [] => Some (st, [])
    | c :: cs' =>
      match i_step c st with
      | Some (st', o) => match i_run cs' st' with Some (st'', outs) => Some (st'', o :: outs) | None => None end
      | None => None
      end
    end.
End IterSpec.
