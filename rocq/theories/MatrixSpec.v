(** What programs over matrix objects should compute: matrices are values, every object is independent of every other.
    Independent of the model. *)
From Coq Require Import List Arith Bool PeanoNat.
Import ListNotations.

(** Statements of a program over matrix objects, which are numbered.  The results of operators are assigned to the object
    [o], which may be one of the operands. *)
Inductive mcmd (R : Type) :=
| CNew (o h w : nat)                 (* o = matrix(bs, h, w) *)
| CCopy (o a : nat)                  (* o = a *)
| CDel (o : nat)                     (* ~matrix *)
| CSet (o i j : nat) (x : R)         (* *o(i, j) = x *)
| CZero (o : nat)                    (* o.set_zero() *)
| CTrans (o : nat)                   (* o.transpose() *)
| CAdd (o a b : nat)                 (* o = a + b *)
| CSub (o a b : nat)                 (* o = a - b *)
| CScale (o a : nat) (x : R)         (* o = a * x *)
| CMul (alg o a b : nat)             (* o = a.multiply(b, alg) *)
| CAddTo (o b : nat)                 (* o += b *)
| CSubTo (o b : nat)                 (* o -= b *)
| CScaleBy (o : nat) (x : R)         (* o *= x *)
| CMulBy (o b : nat)                 (* o *= b *)
| CGet (o i j : nat)                 (* value of *o(i, j) of a const o *)
| CDims (o : nat)                    (* o.get_height(), o.get_width() *)
| CCol (o : nat) (x : list R)        (* o * x, x a column vector *)
| CRow (o : nat) (y : list R).       (* o.multiply_from_left(y), y a row vector *)
Arguments CNew {R}. Arguments CCopy {R}. Arguments CDel {R}. Arguments CSet {R}. Arguments CZero {R}. Arguments CTrans {R}.
Arguments CAdd {R}. Arguments CSub {R}. Arguments CScale {R}. Arguments CMul {R}. Arguments CAddTo {R}. Arguments CSubTo {R}.
Arguments CScaleBy {R}. Arguments CMulBy {R}. Arguments CGet {R}. Arguments CDims {R}. Arguments CCol {R}. Arguments CRow {R}.

Section Spec.
  Variable R : Type.
  Variables (rO : R) (radd rmul rsub : R -> R -> R).

  Record mval := mk_mval { vh : nat; vw : nat; ve : nat -> nat -> R }.

  Fixpoint sum (n : nat) (f : nat -> R) : R := match n with 0 => rO | S m => radd (sum m f) (f m) end.
  Definition v_zero (h w : nat) : mval := mk_mval h w (fun _ _ => rO).
  Definition v_set (a : mval) (i j : nat) (x : R) : mval :=
    mk_mval (vh a) (vw a) (fun i' j' => if (i' =? i) && (j' =? j) then x else ve a i' j').
  Definition v_trans (a : mval) : mval := mk_mval (vw a) (vh a) (fun i j => ve a j i).
  Definition v_op (f : R -> R -> R) (a b : mval) : mval := mk_mval (vh a) (vw a) (fun i j => f (ve a i j) (ve b i j)).
  Definition v_scale (a : mval) (x : R) : mval := mk_mval (vh a) (vw a) (fun i j => rmul (ve a i j) x).
  Definition v_mul (a b : mval) : mval :=
    mk_mval (vh a) (vw b) (fun i j => sum (vw a) (fun k => rmul (ve a i k) (ve b k j))).
  (** A x and y A *)
  Definition v_col (a : mval) (x : list R) : list R :=
    map (fun i => sum (vw a) (fun k => rmul (nth k x rO) (ve a i k))) (seq 0 (vh a)).
  Definition v_row (a : mval) (y : list R) : list R :=
    map (fun j => sum (vh a) (fun k => rmul (ve a k j) (nth k y rO))) (seq 0 (vw a)).
  (** the product of a column vector and a row vector *)
  Definition v_outer (l r : list R) : mval :=
    mk_mval (length l) (length r) (fun i j => rmul (nth i l rO) (nth j r rO)).

  Notation vals := (list (option mval)).
  Fixpoint upd {X : Type} (l : list X) (i : nat) (x : X) : list X :=
    match l, i with
    | [], _ => []
    | _ :: l', 0 => x :: l'
    | y :: l', S i' => y :: upd l' i' x
    end.
  (** the statement may be executed only if the object exists and the sizes fit: None if not *)
  Definition s_store (vs : vals) (o : nat) (v : option mval) : option (vals * (list nat * list R)) :=
    if o <? length vs then Some (upd vs o v, ([], [])) else None.
  Definition same (a b : mval) : bool := (vh a =? vh b) && (vw a =? vw b).
  (** the products that may be asked for: the number of the algorithm, height and width of the first, width of the second
      operand *)
  Variable allowed : nat -> nat -> nat -> nat -> bool.
  Definition obj (vs : vals) (o : nat) : option mval := nth o vs None.
  Definition s_step (c : mcmd R) (vs : vals) : option (vals * (list nat * list R)) :=
    match c with
    | CNew o h w => s_store vs o (Some (v_zero h w))
    | CCopy o a => match obj vs a with Some v => s_store vs o (Some v) | None => None end
    | CDel o => s_store vs o None
    | CSet o i j x =>
      match obj vs o with
      | Some v => if (i <? vh v) && (j <? vw v) then s_store vs o (Some (v_set v i j x)) else None
      | None => None
      end
    | CZero o => match obj vs o with Some v => s_store vs o (Some (v_zero (vh v) (vw v))) | None => None end
    | CTrans o => match obj vs o with Some v => s_store vs o (Some (v_trans v)) | None => None end
    | CAdd o a b =>
      match obj vs a, obj vs b with
      | Some v, Some w => if same v w then s_store vs o (Some (v_op radd v w)) else None
      | _, _ => None
      end
    | CSub o a b =>
      match obj vs a, obj vs b with
      | Some v, Some w => if same v w then s_store vs o (Some (v_op rsub v w)) else None
      | _, _ => None
      end
    | CScale o a x => match obj vs a with Some v => s_store vs o (Some (v_scale v x)) | None => None end
    | CMul alg o a b =>
      match obj vs a, obj vs b with
      | Some v, Some w => if allowed alg (vh v) (vw v) (vw w) && (vw v =? vh w) then s_store vs o (Some (v_mul v w)) else None
      | _, _ => None
      end
    | CAddTo o b =>
      match obj vs o, obj vs b with
      | Some v, Some w => if same v w then s_store vs o (Some (v_op radd v w)) else None
      | _, _ => None
      end
    | CSubTo o b =>
      match obj vs o, obj vs b with
      | Some v, Some w => if same v w then s_store vs o (Some (v_op rsub v w)) else None
      | _, _ => None
      end
    | CScaleBy o x => match obj vs o with Some v => s_store vs o (Some (v_scale v x)) | None => None end
    | CMulBy o b =>
      match obj vs o, obj vs b with
      | Some v, Some w => if vw v =? vh w then s_store vs o (Some (v_mul v w)) else None
      | _, _ => None
      end
    | CGet o i j =>
      match obj vs o with
      | Some v => if (i <? vh v) && (j <? vw v) then Some (vs, ([], [ve v i j])) else None
      | None => None
      end
    | CDims o => match obj vs o with Some v => Some (vs, ([vh v; vw v], [])) | None => None end
    | CCol o x =>
      match obj vs o with Some v => if length x =? vw v then Some (vs, ([], v_col v x)) else None | None => None end
    | CRow o y =>
      match obj vs o with Some v => if length y =? vh v then Some (vs, ([], v_row v y)) else None | None => None end
    end.
  (** the outputs of a program that starts with n object variables; None if a statement may not be executed *)
  Fixpoint s_run (cs : list (mcmd R)) (vs : vals) : option (list (list nat * list R)) :=
    match cs with
    | [] => Some []
    | c :: cs' =>
      match s_step c vs with
      | Some (vs', out) => match s_run cs' vs' with Some outs => Some (out :: outs) | None => None end
      | None => None
      end
    end.
  Definition spec_outputs (n : nat) (cs : list (mcmd R)) : option (list (list nat * list R)) := s_run cs (repeat None n).
End Spec.

(** algorithms that may be used for all sizes *)
Definition known (alg : nat) : bool := (alg =? 0) || (alg =? 1) || (alg =? 2) || (alg =? 4) || (alg =? 5).
Definition any_size (alg h l w : nat) : bool := known alg.
(** algorithms 3 and 6 for operands of few blocks: a side of n elements has [ceil_div n B] blocks *)
Definition ceil_div (n B : nat) : nat := (n + (B - 1)) / B.
Definition few_blocks (B : nat) (alg h l w : nat) : bool :=
  known alg ||
  ((alg =? 3) && ((ceil_div h B <=? 2) || (ceil_div l B <=? 2) || (ceil_div w B <=? 2))) ||
  ((alg =? 6) && ((ceil_div h B <=? 4) || (ceil_div l B <=? 4) || (ceil_div w B <=? 4))).
