(** Specification of files: a size and a byte at every offset (zero behind the end). *)
From Coq Require Import List Arith Bool.
Import ListNotations.

Record afile := mkA { asize : nat; at_ : nat -> nat }.
Definition a_write (off : nat) (data : list nat) (a : afile) : afile :=
  mkA (match data with [] => asize a | _ => Nat.max (asize a) (off + length data) end)
      (fun i => if (off <=? i) && (i <? off + length data) then nth (i - off) data 0 else at_ a i).
Definition a_read (off n : nat) (a : afile) : list nat := map (at_ a) (seq off n).
Definition a_resize (n : nat) (a : afile) : afile := mkA n (fun i => if i <? n then at_ a i else 0).

(** The list [c] of bytes shows the file [a]. *)
Definition shows (c : list nat) (a : afile) : Prop := length c = asize a /\ forall i, nth i c 0 = at_ a i.
(** Memory with undefined bytes: the defined ones are those of the file. *)
Definition agrees (m : list (option nat)) (a : afile) : Prop :=
  length m = asize a /\ forall i b, nth_error m i = Some (Some b) -> at_ a i = b.

(** Programs of block accesses. *)
Inductive op := Write (off : nat) (data : list nat) | Read (off n : nat) | Resize (n : nat).
Definition a_step (o : op) (a : afile) : afile * list nat :=
  match o with
  | Write off data => (a_write off data a, [])
  | Read off n => (a, a_read off n a)
  | Resize n => (a_resize n a, [])
  end.
(** Accesses that start at a page, are not empty and stay inside the file. *)
Definition inside (page : nat) (o : op) (a : afile) : Prop :=
  match o with
  | Write off data => data <> [] /\ off mod page = 0 /\ off + length data <= asize a
  | Read off n => n <> 0 /\ off mod page = 0 /\ off + n <= asize a
  | Resize _ => True
  end.
Fixpoint all_inside (page : nat) (p : list op) (a : afile) : Prop :=
  match p with [] => True | o :: t => inside page o a /\ all_inside page t (fst (a_step o a)) end.
Fixpoint a_run (p : list op) (a : afile) : list (list nat) :=
  match p with [] => [] | o :: t => snd (a_step o a) :: a_run t (fst (a_step o a)) end.

(** Block devices: one block of fixed length at every offset that is used. *)
Inductive bop := BWrite (o : nat) (data : list nat) | BRead (o : nat) | BDiscard (o : nat).
Definition b_step (len : nat -> nat) (p : bop) (b : nat -> list nat) : (nat -> list nat) * list nat :=
  match p with
  | BWrite o data => (fun x => if x =? o then data else b x, [])
  | BRead o => (b, b o)
  | BDiscard o => (fun x => if x =? o then repeat 0 (len o) else b x, [])
  end.
Fixpoint b_run (len : nat -> nat) (p : list bop) (b : nat -> list nat) : list (list nat) :=
  match p with [] => [] | o :: t => snd (b_step len o b) :: b_run len t (fst (b_step len o b)) end.
Definition fits (len : nat -> nat) (p : bop) : Prop :=
  match p with BWrite o data => length data = len o | _ => True end.

(** Memory: which bytes are defined is part of the specification; bytes gained by growing are not. *)
Record dfile := mkD { dsize : nat; dat : nat -> option nat }.
Definition d_step (o : op) (d : dfile) : dfile * list (option nat) :=
  match o with
  | Write off data => (mkD (dsize d) (fun i => if (off <=? i) && (i <? off + length data) then nth_error data (i - off) else dat d i), [])
  | Read off n => (d, map (dat d) (seq off n))
  | Resize n => (mkD n (fun i => if i <? n then dat d i else None), [])
  end.
Fixpoint d_run (p : list op) (d : dfile) : list (list (option nat)) :=
  match p with [] => [] | o :: t => snd (d_step o d) :: d_run t (fst (d_step o d)) end.
Definition d_shows (m : list (option nat)) (d : dfile) : Prop := length m = dsize d /\ forall i, nth i m None = dat d i.
(** Accesses inside the memory. *)
Fixpoint d_inside (p : list op) (size : nat) : Prop :=
  match p with
  | [] => True
  | Write off data :: t => off + length data <= size /\ d_inside t size
  | Read off n :: t => off + n <= size /\ d_inside t size
  | Resize n :: t => d_inside t n
  end.
