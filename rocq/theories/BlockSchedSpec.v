(** A swappable block holds data or not; while it is acquired its elements can be read and changed.  What was changed is
    kept if one of the releases said so ("dirty").  [None] as an element: nothing is promised about it. *)
From Coq Require Import List Bool Arith.
From Verif Require Import BlockSchedModel.
Import ListNotations.

(** k_dirty: released as dirty since it was acquired; k_set: the elements that were set since it was acquired *)
Record blk (A : Type) := mk_blk { k_valid : bool; k_refs : nat; k_dirty : bool; k_cont : list (option A); k_set : list nat }.
Arguments mk_blk {A}. Arguments k_valid {A}. Arguments k_refs {A}. Arguments k_dirty {A}. Arguments k_cont {A}. Arguments k_set {A}.
(** s_sim: what the blocks would be like, while the scheduler simulates.  s_user: external blocks of the user. *)
Record spec (A : Type) := mk_spec { s_blk : list (blk A); s_free : list nat; s_sim : option (list (blk A)); s_user : list (option (list (option A))) }.
Arguments mk_spec {A}. Arguments s_blk {A}. Arguments s_free {A}. Arguments s_sim {A}. Arguments s_user {A}.

Fixpoint mark {X} (l : list X) (i : nat) (x : X) : list X :=
  match l, i with [], _ => [] | _ :: r, 0 => x :: r | y :: r, S j => y :: mark r j x end.
Definition forget {A} (c : list (option A)) (js : list nat) : list (option A) := fold_left (fun c j => mark c j None) js c.
Fixpoint among (i : nat) (l : list nat) : bool := match l with [] => false | j :: r => Nat.eqb j i || among i r end.
Definition smallest (x : nat) (l : list nat) : nat := fold_right Nat.min x l.
Fixpoint take_out (x : nat) (l : list nat) : list nat := match l with [] => [] | y :: r => if Nat.eqb y x then r else y :: take_out x r end.

Section Spec.
Variable A : Type.
Variable S : nat.
Variable fdef : option A.
Variable maxb : nat.

Definition blk_new : blk A := mk_blk false 0 false (repeat None S) [].
Definition blk_acquire (uninit : bool) (k : blk A) : blk A :=
  match k_refs k with
  | 0 => mk_blk (k_valid k) 1 false
                (if uninit then repeat None S else if k_valid k then k_cont k else repeat fdef S) []
  | Datatypes.S n => mk_blk (k_valid k) (Datatypes.S (Datatypes.S n)) (k_dirty k) (k_cont k) (k_set k)
  end.
Definition blk_release (dirty : bool) (k : blk A) : option (blk A) :=
  match k_refs k with
  | 0 => None
  | 1 => let d := dirty || k_dirty k in
         Some (mk_blk (k_valid k || dirty) 0 false (if d then k_cont k else forget (k_cont k) (k_set k)) [])
  | Datatypes.S n => Some (mk_blk (k_valid k || dirty) n (dirty || k_dirty k) (k_cont k) (k_set k))
  end.
Definition blk_init (c : list (option A)) (k : blk A) : option (blk A) :=
  if k_valid k || negb (Nat.eqb (k_refs k) 0) then None else Some (mk_blk true 0 false c []).
(** no longer holds data *)
Definition blk_drop (k : blk A) : option (blk A) := if Nat.eqb (k_refs k) 0 then Some blk_new else None.
Definition in_use (l : list (blk A)) : nat := length (filter (fun k => negb (Nat.eqb (k_refs k) 0)) l).

(** the blocks that the operations apply to *)
Definition now (x : spec A) : list (blk A) := match s_sim x with Some l => l | None => s_blk x end.
Definition with_now (x : spec A) (l : list (blk A)) : spec A :=
  match s_sim x with
  | Some _ => mk_spec (s_blk x) (s_free x) (Some l) (s_user x)
  | None => mk_spec l (s_free x) None (s_user x)
  end.
(** block i, if it was not given back *)
Definition blk_at (x : spec A) (i : nat) : option (blk A) := if among i (s_free x) then None else nth_error (now x) i.
Definition upd_at (x : spec A) (i : nat) (k : option (blk A)) : option (spec A) :=
  match k with Some k' => Some (with_now x (mark (now x) i k')) | None => None end.
Definition simulating (x : spec A) : bool := match s_sim x with Some _ => true | None => false end.

(** [None]: a call outside of its precondition, or an element is read about which nothing is promised *)
Definition spec_op (o : op A) (x : spec A) : option (spec A * out A) :=
  let done (y : option (spec A)) := match y with Some y' => Some (y', OUnit) | None => None end in
  match o with
  | BAlloc =>
      match s_free x with
      | [] => Some (mk_spec (s_blk x ++ [blk_new]) [] (match s_sim x with Some l => Some (l ++ [blk_new]) | None => None end) (s_user x),
                    ONum (length (s_blk x)))
      | i :: l => Some (mk_spec (s_blk x) (take_out (smallest i l) (s_free x)) (s_sim x) (s_user x), ONum (smallest i l))
      end
  | BFree i =>
      match blk_at x i, nth_error (s_blk x) i with
      | Some k, Some r =>
          if simulating x && (k_valid r || negb (Nat.eqb (k_refs r) 0)) then None else
          match upd_at x i (blk_drop k) with
          | Some y => Some (mk_spec (s_blk y) (i :: s_free y) (s_sim y) (s_user y), OUnit)
          | None => None
          end
      | _, _ => None
      end
  | BAcquire i u =>
      match blk_at x i with
      | Some k => if negb (simulating x) && Nat.eqb (k_refs k) 0 && negb (Nat.ltb (in_use (s_blk x)) maxb) then None
                  else done (upd_at x i (Some (blk_acquire u k)))
      | None => None
      end
  | BRelease i d => match blk_at x i with Some k => done (upd_at x i (blk_release d k)) | None => None end
  | BDeinit i => match blk_at x i with Some k => done (upd_at x i (blk_drop k)) | None => None end
  | BInit i s =>
      match blk_at x i with
      | Some k => if simulating x then done (upd_at x i (blk_init (repeat None S) k)) else
                  match nth_error (s_user x) s with
                  | Some (Some c) =>
                      match upd_at x i (blk_init c k) with
                      | Some y => Some (mk_spec (s_blk y) (s_free y) (s_sim y) (mark (s_user y) s None), OUnit)
                      | None => None
                      end
                  | _ => None
                  end
      | None => None
      end
  | BExtract i =>
      match blk_at x i with
      | Some k => if negb (k_valid k) then None else
                  match upd_at x i (blk_drop k) with
                  | Some y => Some (mk_spec (s_blk y) (s_free y) (s_sim y)
                                            (s_user y ++ [if simulating x then None else Some (k_cont k)]), OUnit)
                  | None => None
                  end
      | None => None
      end
  | BIsInit i => match blk_at x i with Some k => Some (x, OBool (k_valid k || negb (Nat.eqb (k_refs k) 0))) | None => None end
  | BGet i j =>
      match blk_at x i with
      | Some k => if simulating x || Nat.eqb (k_refs k) 0 then None else
                  match nth_error (k_cont k) j with Some (Some v) => Some (x, OVal v) | _ => None end
      | None => None
      end
  | BSet i j v =>
      match blk_at x i with
      | Some k => if simulating x || Nat.eqb (k_refs k) 0 || negb (Nat.ltb j S) then None else
                  done (upd_at x i (Some (mk_blk (k_valid k) (k_refs k) (k_dirty k) (mark (k_cont k) j (Some v)) (j :: k_set k))))
      | None => None
      end
  | BFlush | BStep => Some (x, OUnit)
  | BLru | BLfd => Some (mk_spec (s_blk x) (s_free x) None (s_user x), OUnit)
  | BSim => if Nat.eqb (in_use (s_blk x)) 0 then Some (mk_spec (s_blk x) (s_free x) (Some (s_blk x)) (s_user x), OUnit) else None
  | BNewExt vs => if Nat.eqb (length vs) S then Some (mk_spec (s_blk x) (s_free x) (s_sim x) (s_user x ++ [Some (map Some vs)]), OUnit) else None
  | BReadExt s j =>
      match nth_error (s_user x) s with
      | Some (Some c) => match nth_error c j with Some (Some v) => Some (x, OVal v) | _ => None end
      | _ => None
      end
  end.
Fixpoint spec_ops (os : list (op A)) (x : spec A) : option (spec A * list (out A)) :=
  match os with
  | [] => Some (x, [])
  | o :: r => match spec_op o x with
              | None => None
              | Some (x1, y) => match spec_ops r x1 with Some (x2, ys) => Some (x2, y :: ys) | None => None end
              end
  end.
Definition spec_init : spec A := mk_spec [] [] None [].
End Spec.
