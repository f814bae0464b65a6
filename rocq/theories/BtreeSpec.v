(** What a sorted map does (std::map with the restrictions of stxxl::map): a list of elements
    in the order of their keys, and iterators which are on an element, at the end, or invalid. *)
From Coq Require Import List Bool Arith.
From Verif Require Import BtreeModel.
Import ListNotations.

Section Spec.
  Context {K V : Type}.
  Notation E := (K * V)%type.
  Variable cmp : K -> K -> bool.
  (** No key is above [kmax]; the map holds fewer than [limit] elements. *)
  Variable kmax : K.
  Variable vdef : V.
  Variable limit : nat.

  Inductive sit := At (k : K) | End | Bad.
  Record sstate := { sm : list E; si : list sit }.

  Definition same (a b : K) : bool := negb (cmp a b) && negb (cmp b a).
  Definition s_has (m : list E) (k : K) : bool := existsb (fun e => same (fst e) k) m.
  Definition s_put (m : list E) (x : E) : list E :=
    if s_has m (fst x) then m
    else filter (fun e => cmp (fst e) (fst x)) m ++ x :: filter (fun e => cmp (fst x) (fst e)) m.
  Definition s_first (l : list E) : sit := match l with [] => End | e :: _ => At (fst e) end.
  Definition s_find (m : list E) (k : K) : sit := s_first (filter (fun e => same (fst e) k) m).
  Definition s_lower (m : list E) (k : K) : sit := s_first (filter (fun e => negb (cmp (fst e) k)) m).
  Definition s_upper (m : list E) (k : K) : sit := s_first (filter (fun e => cmp k (fst e)) m).
  Definition s_last (l : list E) : option sit := match rev l with [] => None | e :: _ => Some (At (fst e)) end.
  Definition s_next (m : list E) (i : sit) : option sit := match i with At k => Some (s_upper m k) | _ => None end.
  Definition s_prev (m : list E) (i : sit) : option sit :=
    match i with At k => s_last (filter (fun e => cmp (fst e) k) m) | End => s_last m | Bad => None end.
  Definition s_get (m : list E) (i : sit) : option E :=
    match i with At k => hd_error (filter (fun e => same (fst e) k) m) | _ => None end.
  Definition s_set (m : list E) (k : K) (v : V) : list E :=
    map (fun e => if same (fst e) k then (fst e, v) else e) m.

  (** Elements with property [q] disappear; iterators on them become invalid. *)
  Definition s_remove (q : K -> bool) (s : sstate) : sstate :=
    {| sm := filter (fun e => negb (q (fst e))) (sm s);
       si := map (fun i => match i with At k => if q k then Bad else i | _ => i end) (si s) |}.
  Definition s_clear (s : sstate) : sstate := {| sm := []; si := map (fun _ => Bad) (si s) |}.

  (** The keys from [a] up to [b]; [None] if [a] is behind [b]. *)
  Definition s_range (a b : sit) : option (K -> bool) :=
    match a, b with
    | At ka, At kb => if cmp kb ka then None else Some (fun k => negb (cmp k ka) && cmp k kb)
    | At ka, End => Some (fun k => negb (cmp k ka))
    | End, End => Some (fun _ => false)
    | _, _ => None
    end.
  Definition s_all (m : list E) (a b : sit) : bool :=
    match b with
    | End => match a with At ka => negb (existsb (fun e => cmp (fst e) ka) m) | End => match m with [] => true | _ => false end | Bad => false end
    | _ => false
    end.

  Definition s_eq (a b : sit) : option bool :=
    match a, b with
    | At x, At y => Some (same x y)
    | End, End => Some true
    | At _, End | End, At _ => Some false
    | _, _ => None
    end.

  Definition ok_key (k : K) : bool := negb (cmp kmax k).
  Definition s_add (s : sstate) (x : E) : option sstate :=
    let m := s_put (sm s) x in
    if ok_key (fst x) && (length m <? limit) then Some {| sm := m; si := si s |} else None.
  Fixpoint s_add_all (s : sstate) (l : list E) : option sstate :=
    match l with [] => Some s | x :: l' => do s' <- s_add s x; s_add_all s' l' end.
  Definition s_new (s : sstate) (i : sit) : sstate := {| sm := sm s; si := si s ++ [i] |}.
  Definition s_put_it (s : sstate) (n : nat) (i : sit) : sstate := {| sm := sm s; si := firstn n (si s) ++ i :: skipn (S n) (si s) |}.

  (** [None]: the program may not do this. *)
  Definition sstep (s : sstate) (o : @op K V) : option (sstate * @res K V) :=
    match o with
    | OInsert k v => do s' <- s_add s (k, v); Some (s_new s' (s_find (sm s') k), RBool (negb (s_has (sm s) k)))
    | OIndex k => do s' <- s_add s (k, vdef); do e <- s_get (sm s') (At k); Some (s', RElem e)
    | OIndexSet k v => do s' <- s_add s (k, vdef); Some ({| sm := s_set (sm s') k v; si := si s' |}, RUnit)
    | OInsertRange l => do s' <- s_add_all s l; Some (s', RUnit)
    | OFind k => if ok_key k then Some (s_new s (s_find (sm s) k), RUnit) else None
    | OLower k => if ok_key k then Some (s_new s (s_lower (sm s) k), RUnit) else None
    | OUpper k => if cmp k kmax then Some (s_new s (s_upper (sm s) k), RUnit) else None
    | OBegin => Some (s_new s (s_first (sm s)), RUnit)
    | OEnd => Some (s_new s End, RUnit)
    | OEqualRange k => if ok_key k then Some (s_new (s_new s (s_lower (sm s) k)) (s_upper (sm s) k), RUnit) else None
    | OCount k => if ok_key k then Some (s, RNum (length (filter (fun e => same (fst e) k) (sm s)))) else None
    | OInc i => do a <- nth_error (si s) i; do b <- s_next (sm s) a; Some (s_put_it s i b, RUnit)
    | ODec i => do a <- nth_error (si s) i; do b <- s_prev (sm s) a; Some (s_put_it s i b, RUnit)
    | OGet i => do a <- nth_error (si s) i; do e <- s_get (sm s) a; Some (s, RElem e)
    | OSet i v =>
      do a <- nth_error (si s) i;
      match a with At k => Some ({| sm := s_set (sm s) k v; si := si s |}, RUnit) | _ => None end
    | OEq i j => do a <- nth_error (si s) i; do b <- nth_error (si s) j; do r <- s_eq a b; Some (s, RBool r)
    | OErase k => if ok_key k then Some (s_remove (same k) s, RNum (length (filter (fun e => same (fst e) k) (sm s)))) else None
    | OEraseIt i =>
      do a <- nth_error (si s) i;
      match a with At k => Some (s_remove (same k) s, RUnit) | _ => None end
    | OEraseRange i j =>
      do a <- nth_error (si s) i; do b <- nth_error (si s) j; do q <- s_range a b;
      Some (if s_all (sm s) a b then s_clear s else s_remove q s, RUnit)
    | OClear => Some (s_clear s, RUnit)
    | OSize => Some (s, RNum (length (sm s)))
    end.
  Fixpoint srun (s : sstate) (os : list (@op K V)) : option (sstate * list (@res K V)) :=
    match os with
    | [] => Some (s, [])
    | o :: os' => do x <- sstep s o; do y <- srun (fst x) os'; Some (fst y, snd x :: snd y)
    end.
  Definition sempty : sstate := {| sm := []; si := [] |}.
End Spec.
