(** What a cache of [n] nodes promises: nodes behave as if they were always in memory; a pointer to a node is
    usable as long as the node is fixed, or fewer than [n] other nodes were requested or fixed since
    the node was requested last. *)
From Coq Require Import List Bool Arith.
From Verif Require Import NodeCacheModel.
Import ListNotations.

Section Spec.
  Variable D : Type.
  Variable dinit : D.
  Variable n : nat.

  (** A pointer: its node, whether writing is allowed, and the other nodes that were fixed when its
      node was requested last or requested since; or a pointer that must not be used. *)
  Inductive sptr := P (b : nat) (w : bool) (others : list nat) | Bad.
  (** The content of each node, the fixed nodes, the pointers. *)
  Record sstate := { sm : list (nat * D); fx : list nat; sp : list sptr }.

  Definition mem (b : nat) (l : list nat) : bool := existsb (Nat.eqb b) l.
  Definition add (b : nat) (l : list nat) : list nat := if mem b l then l else b :: l.
  Definition del (b : nat) (l : list nat) : list nat := filter (fun x => negb (x =? b)) l.
  Definition getd (m : list (nat * D)) (b : nat) : option D := option_map snd (find (fun e => fst e =? b) m).
  Definition setd (m : list (nat * D)) (b : nat) (v : D) : list (nat * D) := map (fun e => if fst e =? b then (b, v) else e) m.

  (** Node [b] is requested while the nodes of [f] are fixed; [own]: what happens to pointers
      to [b] itself. *)
  Definition touch (f : list nat) (b : nat) (own : nat -> bool -> list nat -> sptr) (p : sptr) : sptr :=
    match p with
    | P b' w o =>
      if b' =? b then own b' w o
      else let o' := add b o in if mem b' f || (length o' <? n) then P b' w o' else Bad
    | Bad => Bad
    end.
  (** Another request for [b] makes its pointers good as new. *)
  Definition renew (f : list nat) (b : nat) (w : bool) (o : list nat) : sptr := P b w (del b f).

  Definition s_get (s : sstate) (b : nat) (fix_ w : bool) : option (sstate * res D) :=
    do _ <- getd (sm s) b;
    if length (del b (fx s)) <? n then
      let f := if fix_ then b :: del b (fx s) else del b (fx s) in
      Some ({| sm := sm s; fx := f; sp := map (touch (fx s) b (renew f)) (sp s) ++ [P b w (del b f)] |}, RUnit D)
    else None.

  (** [None]: the program may not do this. *)
  Definition sstep (s : sstate) (o : op D) : option (sstate * res D) :=
    match o with
    | ONew _ b =>
      match getd (sm s) b with
      | Some _ => None
      | None =>
        if length (fx s) <? n
        then Some ({| sm := (b, dinit) :: sm s; fx := fx s; sp := map (touch (fx s) b (fun _ _ _ => Bad)) (sp s) ++ [P b true (fx s)] |}, RUnit D)
        else None
      end
    | OGet _ b fix_ => s_get s b fix_ true
    | OGetConst _ b fix_ => s_get s b fix_ false
    | ORead _ i => match nth_error (sp s) i with
                   | Some (P b _ _) => do v <- getd (sm s) b; Some (s, RNode D (b, v))
                   | _ => None
                   end
    | OWrite _ i v => match nth_error (sp s) i with
                      | Some (P b true _) => Some ({| sm := setd (sm s) b v; fx := fx s; sp := sp s |}, RUnit D)
                      | _ => None
                      end
    | ODelete _ b =>
      do _ <- getd (sm s) b;
      Some ({| sm := filter (fun e => negb (fst e =? b)) (sm s); fx := del b (fx s);
               sp := map (fun p => match p with P b' _ _ => if b' =? b then Bad else p | Bad => Bad end) (sp s) |}, RUnit D)
    | OPrefetch _ b =>
      do _ <- getd (sm s) b;
      Some ({| sm := sm s; fx := fx s; sp := map (touch (fx s) b P) (sp s) |}, RUnit D)
    | OUnfix _ b => if mem b (fx s) then Some ({| sm := sm s; fx := del b (fx s); sp := sp s |}, RUnit D) else None
    end.
  Fixpoint srun (s : sstate) (os : list (op D)) : option (sstate * list (res D)) :=
    match os with
    | [] => Some (s, [])
    | o :: os' => do x <- sstep s o; do y <- srun (fst x) os'; Some (fst y, snd x :: snd y)
    end.
  Definition sempty : sstate := {| sm := []; fx := []; sp := [] |}.
End Spec.
