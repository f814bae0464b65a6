(** What readers of a sequence of blocks mean: each is at a position; reading gives the current value
    of the block.  Independent of the cache. *)
From Coq Require Import List Bool Arith.
From Verif Require Import BufReaderModel.
Import ListNotations.

(** Whether other users of the cache can take the block from a reader: [Kept] no, [Fresh] it has not
    happened yet, [Lost] it may have happened. *)
Inductive qual := Kept | Fresh | Lost.

Section Spec.
Context {E : Type}.
Variable ss nsub csize : nat.
Notation bop := (@bop E).
Notation bres := (@bres E).

Record pos := mkPos {
  p_bids : list nat;
  p_cur : nat;
  p_i : nat;           (* index of the value in the block *)
  p_q : qual;
  p_w : bool           (* a value of the block has been assigned *)
}.
Record tst := mkT {
  t_mem : nat -> list E;              (* the values of each block *)
  t_rd : nat -> option pos;
  t_open : nat                        (* number of readers *)
}.
Definition t_init (d : nat -> list E) : tst := mkT d (fun _ => None) 0.

Definition lose (p : pos) : pos :=
  mkPos (p_bids p) (p_cur p) (p_i p) (match p_q p with Fresh => Lost | q => q end) (p_w p).
(** All readers but [x]. *)
Definition disturb (x : nat) (t : tst) : tst :=
  mkT (t_mem t) (fun y => if y =? x then t_rd t y else option_map lose (t_rd t y)) (t_open t).
Definition disturb_all (t : tst) : tst := mkT (t_mem t) (fun y => option_map lose (t_rd t y)) (t_open t).
Definition move (t : tst) (x : nat) (p : pos) : tst :=
  mkT (t_mem t) (fun y => if y =? x then Some p else t_rd t y) (t_open t).
Definition block (p : pos) : option nat := nth_error (p_bids p) (p_cur p).

Definition set_at (l : list E) (i : nat) (e : E) : list E := firstn i l ++ match skipn i l with [] => [] | _ :: r => e :: r end.
(** The next value. *)
Definition next (p : pos) : bool * pos :=
  if p_cur p =? length (p_bids p) then (false, p)
  else if S (p_i p) <? nsub * ss
  then (true, mkPos (p_bids p) (p_cur p) (S (p_i p))
          (if S (p_i p) mod ss =? 0 then match p_q p with Lost => if p_w p then Lost else Fresh | q => q end else p_q p) (p_w p))
  else (negb (S (p_cur p) =? length (p_bids p)), mkPos (p_bids p) (S (p_cur p)) 0 Fresh false).
Definition next_subblock (p : pos) : bool * pos :=
  next (mkPos (p_bids p) (p_cur p) ((p_i p / ss + 1) * ss - 1) (p_q p) (p_w p)).
Definition skip (p : pos) (j isub : nat) : pos :=
  if p_cur p =? length (p_bids p) then p
  else mkPos (p_bids p) j (isub * ss)
         (if (j =? p_cur p) && p_w p then match p_q p with Lost => Lost | _ => Kept end else Kept) ((j =? p_cur p) && p_w p).

Inductive tstep : tst -> bop -> bres -> tst -> Prop :=
| T_open t x l isub pf : tstep t (BOpen x l isub pf) BU
    (let t' := move (disturb x t) x (mkPos l 0 (isub * ss) Kept false) in mkT (t_mem t') (t_rd t') (S (t_open t)))
| T_enable t x p : t_rd t x = Some p -> tstep t (BEnable x) BU (disturb_all t)
| T_const t x p b e : t_rd t x = Some p -> block p = Some b -> nth_error (t_mem t b) (p_i p) = Some e -> tstep t (BConst x) (BV e) t
| T_set t x p b e : t_rd t x = Some p -> block p = Some b ->
    tstep t (BSet x e) BU
      (let t' := move t x (mkPos (p_bids p) (p_cur p) (p_i p) (p_q p) true) in
       mkT (fun c => if c =? b then set_at (t_mem t b) (p_i p) e else t_mem t c) (t_rd t') (t_open t))
| T_inc t x p : t_rd t x = Some p -> tstep t (BInc x) (BB (fst (next p))) (move (disturb x t) x (snd (next p)))
| T_next t x p : t_rd t x = Some p -> tstep t (BNext x) BU (move (disturb x t) x (snd (next_subblock p)))
| T_skip t x p j isub : t_rd t x = Some p -> tstep t (BSkip x j isub) BU (move (disturb x t) x (skip p j isub))
| T_close t x p : t_rd t x = Some p -> tstep t (BClose x) BU (mkT (t_mem t) (fun y => if y =? x then None else t_rd t y) (t_open t - 1))
| T_other t b s : tstep t (BOther b s) (BL (firstn ss (skipn (s * ss) (t_mem t b)))) (disturb_all t)
| T_env t ids : tstep t (BEnv ids) BU t.

Inductive truns : tst -> list bop -> list bres -> Prop :=
| TR_nil t : truns t [] []
| TR_cons t o r t1 os rs : tstep t o r t1 -> truns t1 os rs -> truns t (o :: os) (r :: rs).

(** No reader but [x] is in block [b]. *)
Definition alone (t : tst) (x b : nat) : Prop := forall y p, y <> x -> t_rd t y = Some p -> block p <> Some b.
(** The rules; [full]: those that the interface suggests. *)
Definition legal (full : bool) (t : tst) (o : bop) : Prop :=
  match o with
  | BOpen x l isub pf => t_rd t x = None /\ isub < nsub /\ S (S (t_open t)) <= csize
      /\ (full = true \/ forall b, nth_error l 0 = Some b -> alone t x b)
  | BEnable x | BClose x => t_rd t x <> None
  | BConst x | BSet x _ => exists p, t_rd t x = Some p /\ block p <> None /\ (full = true \/ p_q p <> Lost)
  | BInc x => exists p, t_rd t x = Some p
      /\ (full = true \/ S (p_i p) < nsub * ss \/ forall b, nth_error (p_bids p) (S (p_cur p)) = Some b -> alone t x b)
  | BNext x => exists p, t_rd t x = Some p
      /\ (full = true \/ (p_i p / ss + 1) * ss < nsub * ss \/ forall b, nth_error (p_bids p) (S (p_cur p)) = Some b -> alone t x b)
  | BSkip x j isub => exists p, t_rd t x = Some p /\ p_cur p <= j /\ isub < nsub
      /\ (full = true /\ j <= length (p_bids p)
          \/ j < length (p_bids p) /\ forall b, nth_error (p_bids p) j = Some b -> alone t x b)
  | BOther _ s => s < nsub
  | BEnv _ => True
  end.
Fixpoint legals (full : bool) (t : tst) (os : list bop) : Prop :=
  match os with
  | [] => True
  | o :: os' => legal full t o /\ forall r t', tstep t o r t' -> legals full t' os'
  end.
End Spec.
