(** Model of include/stxxl/bits/parallel/multiseq_selection.h (multiseq_partition 98-329, multiseq_selection 347-545) and of
    round_up_to_power_of_two, include/stxxl/bits/common/utils.h 254-262, for 64-bit integers.

    The sequences are lists; a and b are the arrays of the code, indexed by the sequence.  Integers are unbounded except in
    round_up_to_power_of_two.  std::sort with lcomp is a stable sort (lcomp is total on the samples, so there is one result only), a
    std::priority_queue is the list of its entries from which the greatest (unique for the same reason) is taken.  None is an access
    outside a sequence, an empty queue accessed, a failed assertion or an exception. *)
From Coq Require Import List Bool Arith ZArith.
From Verif Require Import SumLib OrderLib.
Import ListNotations.

Definition mbind {X Y} (x : option X) (f : X -> option Y) : option Y := match x with Some v => f v | None => None end.
Notation "'let*' x := e 'in' f" := (mbind e (fun x => f)) (at level 200, x pattern, e at level 100, f at level 200).

(** utils.h 254-262; k = 1, 2, 4, ..., 32 *)
Definition smear (n k : Z) : Z := Z.lor n (Z.shiftr n k).
Definition round_up_to_power_of_two (n : Z) : Z := (fold_left smear [1; 2; 4; 8; 16; 32] (n - 1) + 1)%Z.

Section Multiseq.
  Variable A : Type.
  Variable lt : A -> A -> bool.
  Variable seqs : list (list A).

  Definition m : nat := length seqs.
  Definition seqlen (i : nat) : Z := Z.of_nat (length (nth i seqs [])).
  (** S(i)[k] *)
  Definition at_ (i : nat) (k : Z) : option A := if Z.ltb k 0 then None else nth_error (nth i seqs []) (Z.to_nat k).
  (** a loop over all sequences *)
  Fixpoint iter {X} (is : list nat) (f : nat -> X -> option X) (x : X) : option X :=
    match is with [] => Some x | i :: is => let* x := f i x in iter is f x end.

  (** 35-82: lexicographic; lexicographic_rev is the converse *)
  Definition lcomp (p q : A * nat) : bool :=
    if lt (fst p) (fst q) then true else if lt (fst q) (fst p) then false else Nat.ltb (snd p) (snd q).

  (** std::priority_queue: top and pop, where [less] is the comparator *)
  Fixpoint extract (less : A * nat -> A * nat -> bool) (q : list (A * nat)) : option (A * nat * list (A * nat)) :=
    match q with
    | [] => None
    | x :: q => match extract less q with
                | None => Some (x, [])
                | Some (y, r) => if less y x then Some (x, y :: r) else Some (y, x :: r)
                end
    end.

  Definition arrays := ((nat -> Z) * (nat -> Z))%type.
  Open Scope Z_scope.

  (** 175-198 *)
  Definition sample_of (n : Z) (i : nat) (s : list (A * nat)) : option (list (A * nat)) :=
    if n <? seqlen i then let* x := at_ i n in Some (s ++ [(x, i)]) else Some s.
  Definition infinity_of (n : Z) (i : nat) (s : list (A * nat)) : option (list (A * nat)) :=
    if seqlen i <=? n then let* x := at_ i 0 in Some (s ++ [(x, i)]) else Some s.
  Fixpoint take_left (k : nat) (n : Z) (sample : list (A * nat)) (a : nat -> Z) : option ((nat -> Z) * list (A * nat)) :=
    match k with
    | O => Some (a, sample)
    | S k => match sample with
             | [] => None
             | (x, i) :: rest => if n + 1 <=? seqlen i then take_left k n rest (upd a i (a i + (n + 1))) else Some (a, sample)
             end
    end.
  Definition initial (rank l : Z) : option arrays :=
    let n := l / 2 in
    let* sample := iter (seq 0 m) (sample_of n) [] in
    let* sample := iter (seq 0 m) (infinity_of n) (ssort lcomp sample) in
    let localrank := rank / l in
    let* (a, rest) := take_left (Z.to_nat localrank) n sample (fun _ => 0) in
    let b := fold_left (fun b p => upd b (snd p) (b (snd p) - (n + 1))) rest (fun _ => l) in
    Some (a, b).

  (** 206-220; [rear]: favor rear sequences (the partition does, the selection does not) *)
  Definition left_max (rear : bool) (a : nat -> Z) (i : nat) (lmax : option A) : option (option A) :=
    if 0 <? a i then
      let* x := at_ i (a i - 1) in
      Some (Some (match lmax with
                  | None => x
                  | Some y => if (if rear then negb (lt x y) else lt y x) then x else y
                  end))
    else Some lmax.
  (** 222-229 *)
  Definition refine_one (n : Z) (lmax : option A) (i : nat) (s : arrays) : option arrays :=
    let (a, b) := s in
    let middle := (b i + a i) / 2 in
    let* c := (match lmax with
               | None => Some false
               | Some y => if middle <? seqlen i then let* x := at_ i middle in Some (lt x y) else Some false
               end) in
    if c then Some (upd a i (Z.min (a i + n + 1) (seqlen i)), b) else Some (a, upd b i (b i - (n + 1))).
  (** 237-260 *)
  Definition queue_right (b : nat -> Z) (i : nat) (q : list (A * nat)) : option (list (A * nat)) :=
    if b i <? seqlen i then let* x := at_ i (b i) in Some ((x, i) :: q) else Some q.
  Fixpoint move_left (skew : nat) (n : Z) (q : list (A * nat)) (s : arrays) : option arrays :=
    match skew with
    | O => Some s
    | S skew =>
        let (a, b) := s in
        match q with
        | [] => Some s
        | _ :: _ =>
            let* (p, q) := extract (fun x y => lcomp y x) q in
            let source := snd p in
            let a := upd a source (Z.min (a source + n + 1) (seqlen source)) in
            let b := upd b source (b source + (n + 1)) in
            let* q := queue_right b source q in
            move_left skew n q (a, b)
        end
    end.
  (** 261-284 *)
  Definition queue_left (a : nat -> Z) (i : nat) (q : list (A * nat)) : option (list (A * nat)) :=
    if 0 <? a i then let* x := at_ i (a i - 1) in Some ((x, i) :: q) else Some q.
  Fixpoint move_right (skew : nat) (n : Z) (q : list (A * nat)) (s : arrays) : option arrays :=
    match skew with
    | O => Some s
    | S skew =>
        let (a, b) := s in
        let* (p, q) := extract lcomp q in
        let source := snd p in
        let a := upd a source (a source - (n + 1)) in
        let b := upd b source (b source - (n + 1)) in
        let* q := queue_left a source q in
        move_right skew n q (a, b)
    end.
  (** 202-285 *)
  Fixpoint refine (fuel : nat) (rear : bool) (rank n : Z) (s : arrays) : option arrays :=
    if 0 <? n then
      match fuel with
      | O => None
      | S fuel =>
          let n := n / 2 in
          let* lmax := iter (seq 0 m) (left_max rear (fst s)) None in
          let* s := iter (seq 0 m) (refine_one n lmax) s in
          let leftsize := sumf m (fun i => fst s i / (n + 1)) in
          let skew := rank / (n + 1) - leftsize in
          let* s :=
            (if 0 <? skew then
               let* q := iter (seq 0 m) (queue_right (snd s)) [] in
               move_left (Z.to_nat skew) n q s
             else if skew <? 0 then
               let* q := iter (seq 0 m) (queue_left (fst s)) [] in
               move_right (Z.to_nat (- skew)) n q s
             else Some s) in
          refine fuel rear rank n s
      end
    else Some s.

  Definition nmax : Z := fold_left (fun x i => Z.max x (seqlen i)) (seq 1 (m - 1)) (seqlen 0).
  Definition split (rear : bool) (rank : Z) : option arrays :=
    let l := round_up_to_power_of_two (nmax + 1) - 1 in
    let* s := initial rank l in
    let n := l / 2 in
    refine (Z.to_nat n) rear rank n s.

  (** 98-329; the offsets in the sequences *)
  Definition multiseq_partition (rank : Z) : option (list Z) :=
    let N := sumf m seqlen in
    if existsb (fun s => Nat.eqb (length s) 0) seqs then None                (* 133 *)
    else if rank =? N then Some (map seqlen (seq 0 m))
    else if negb ((0 <=? rank) && (rank <? N)) then None                       (* 143 *)
    else
      let* s := split true rank in
      Some (map (fst s) (seq 0 m)).

  (** 303-341 *)
  Definition right_min (b : nat -> Z) (i : nat) (minright : option A) : option (option A) :=
    if b i <? seqlen i then
      let* x := at_ i (b i) in
      Some (Some (match minright with None => x | Some y => if lt x y then x else y end))
    else Some minright.
  (** std::lower_bound *)
  Fixpoint lower_bound (l : list A) (v : A) : Z :=
    match l with [] => 0 | x :: l => if lt x v then 1 + lower_bound l v else 0 end.
  (** 347-545; the element and the offset *)
  Definition multiseq_selection (rank : Z) : option (A * Z) :=
    let N := sumf m seqlen in
    if negb ((0 <=? rank) && (rank <? N)) then None                            (* 374 *)
    else
      let* s := split false rank in
      let* maxleft := iter (seq 0 m) (left_max false (fst s)) None in
      let* minright := iter (seq 0 m) (right_min (snd s)) None in
      let* v := minright in
      if match maxleft with None => true | Some x => lt v x end then Some (v, 0)
      else Some (v, sumf m (fun i => fst s i - lower_bound (nth i seqs []) v)).
End Multiseq.
