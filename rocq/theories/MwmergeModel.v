(** Model of sequential multiway merging: include/stxxl/bits/parallel/multiway_merge.h 58-1340,
    include/stxxl/bits/parallel/merge.h 48-170 and the loser trees of
    include/stxxl/bits/parallel/losertree.h (guarded and unguarded, stable and not stable).

    An iterator pair is the list of the elements from first to second together with the list
    of the readable elements from second on.  Reading an element that is not there, moving a
    first iterator behind its second one, using source -1 as an index and dereferencing the
    null pointer are the outcome None.
    Simplified: lengths and indices are unbounded; the output is a list; std::lower_bound,
    std::upper_bound and std::copy stand for their specification; a pointer to a key is the
    key; round_up_to_power_of_two is the power of two it stands for (its bits: C53). *)
From Coq Require Import List Bool Arith ZArith.
From Verif Require Import SumLib.
Import ListNotations.

Definition bind {X Y} (o : option X) (f : X -> option Y) : option Y := match o with Some x => f x | None => None end.
Notation "x <- o ;; e" := (bind o (fun x => e)) (at level 61, o at next level, right associativity).
Notation "' p <- o ;; e" := (bind o (fun p => e)) (at level 61, p pattern, o at next level, right associativity).

Fixpoint setn {X} (i : nat) (v : X) (l : list X) : list X :=
  match l, i with
  | [], _ => []
  | _ :: l', 0 => v :: l'
  | x :: l', S i' => x :: setn i' v l'
  end.

Section Merge.
  Variable A : Type.
  Variable lt : A -> A -> bool.
  (** elements before second, elements behind *)
  Notation rng := (list A * list A)%type.
  Notation seqs := (list (list A * list A)).
  Definition get (s : seqs) (i : nat) : rng := nth i s ([], []).

  (** multiway_merge.h 104-107, 192-195: the element at the iterator *)
  Definition read (r : rng) : option A := hd_error (fst r ++ snd r).
  (** reading the first element of sequence i and moving its iterator; 431-434, 619-622, 977-979, 1056-1057 *)
  Definition take (i : nat) (s : seqs) : option (A * seqs) :=
    match get s i with (x :: r, b) => Some (x, setn i (r, b) s) | ([], _) => None end.

  (** 124-131, 139-146: operators of guarded_iterator *)
  Definition less_g (a b : rng) : option bool :=
    match fst a, fst b with
    | [], [] => Some true
    | [], _ :: _ => Some false
    | _ :: _, [] => Some true
    | x :: _, y :: _ => Some (lt x y)
    end.
  Definition leq_g (a b : rng) : option bool :=
    match fst a, fst b with
    | [], [] => Some false
    | _ :: _, [] => Some true
    | [], _ :: _ => Some false
    | x :: _, y :: _ => Some (negb (lt y x))
    end.
  (** 212-215, 223-226: operators of unguarded_iterator *)
  Definition less_u (a b : rng) : option bool := x <- read a ;; y <- read b ;; Some (lt x y).
  Definition leq_u (a b : rng) : option bool := x <- read a ;; y <- read b ;; Some (negb (lt y x)).
  (** [g]: the iterators are guarded; [le]: the operator is <= and not < *)
  Definition op (g le : bool) (a b : rng) : option bool :=
    if g then (if le then leq_g a b else less_g a b) else (if le then leq_u a b else less_u a b).

  (** 429-438, 616-626: after sequence [a] has moved, its place among the others *)
  Fixpoint place (g : bool) (s : seqs) (a : nat) (ops : list bool) (others : list nat) : option (list nat) :=
    match others, ops with
    | [], [] => Some [a]
    | b :: others', c :: ops' =>
        t <- op g c (get s a) (get s b) ;;
        if t then Some (a :: others) else l <- place g s a ops' others' ;; Some (b :: l)
    | _, _ => None
    end.

  (** 440-445 *)
  Definition table3 : list (list nat * list bool) :=
    [ ([0; 1; 2], [true; true]);
      ([1; 2; 0], [true; false]);
      ([2; 0; 1], [false; false]);
      ([1; 0; 2], [false; true]);
      ([0; 2; 1], [true; true]);
      ([2; 1; 0], [false; false]) ].
  (** 628-651 *)
  Definition table4 : list (list nat * list bool) :=
    [ ([0; 1; 2; 3], [true; true; true]);
      ([0; 1; 3; 2], [true; true; true]);
      ([0; 2; 1; 3], [true; true; true]);
      ([0; 2; 3; 1], [true; true; true]);
      ([0; 3; 1; 2], [true; true; true]);
      ([0; 3; 2; 1], [true; true; true]);
      ([1; 0; 2; 3], [false; true; true]);
      ([1; 0; 3; 2], [false; true; true]);
      ([1; 2; 0; 3], [true; false; true]);
      ([1; 2; 3; 0], [true; true; false]);
      ([1; 3; 0; 2], [true; false; true]);
      ([1; 3; 2; 0], [true; true; false]);
      ([2; 0; 1; 3], [false; false; true]);
      ([2; 0; 3; 1], [false; true; false]);
      ([2; 1; 0; 3], [false; false; true]);
      ([2; 1; 3; 0], [false; true; false]);
      ([2; 3; 0; 1], [true; false; false]);
      ([2; 3; 1; 0], [true; false; false]);
      ([3; 0; 1; 2], [false; false; false]);
      ([3; 0; 2; 1], [false; false; false]);
      ([3; 1; 0; 2], [false; false; false]);
      ([3; 1; 2; 0], [false; false; false]);
      ([3; 2; 0; 1], [false; false; false]);
      ([3; 2; 1; 0], [false; false; false]) ].
  Definition lookup (table : list (list nat * list bool)) (label : list nat) : option (list bool) :=
    option_map snd (find (fun e => if list_eq_dec Nat.eq_dec (fst e) label then true else false) table).

  (** The labels: 429-438 tests length before it compares, 616-626 ([late]) at the next label *)
  Fixpoint run (late g : bool) (table : list (list nat * list bool)) (len : nat) (label : list nat) (s : seqs)
    : option (list A * seqs) :=
    match len with
    | 0 => Some ([], s)
    | S n =>
        match label with
        | [] => None
        | a :: others =>
            '(x, s) <- take a s ;;
            if negb late && Nat.eqb n 0 then Some ([x], s) else
            ops <- lookup table label ;;
            label <- place g s a ops others ;;
            '(out, s) <- run late g table n label s ;;
            Some (x :: out, s)
        end
    end.

  (** 407-427 *)
  Definition start3 (g : bool) (s : seqs) : option (list nat) :=
    let le i j := op g true (get s i) (get s j) in
    let ls i j := op g false (get s i) (get s j) in
    t01 <- le 0 1 ;;
    if t01 : bool then
      t12 <- le 1 2 ;;
      if t12 : bool then Some [0; 1; 2] else
      t20 <- ls 2 0 ;;
      if t20 : bool then Some [2; 0; 1] else Some [0; 2; 1]
    else
      t12 <- le 1 2 ;;
      if t12 : bool then
        t02 <- le 0 2 ;;
        if t02 : bool then Some [1; 0; 2] else Some [1; 2; 0]
      else Some [2; 1; 0].

  (** 384-463 *)
  Definition merge3 (g : bool) (s : seqs) (len : nat) : option (list A * seqs) :=
    if Nat.eqb len 0 then Some ([], s) else
    label <- start3 g s ;; run false g table3 len label s.

  (** 586-592 *)
  Definition decision (g : bool) (s : seqs) (a b c d : nat) : option (list nat) :=
    let ls i j := op g false (get s i) (get s j) in
    t <- ls d a ;; if t : bool then Some [d; a; b; c] else
    t <- ls d b ;; if t : bool then Some [a; d; b; c] else
    t <- ls d c ;; if t : bool then Some [a; b; d; c] else Some [a; b; c; d].
  (** 594-614 *)
  Definition start4 (g : bool) (s : seqs) : option (list nat) :=
    let le i j := op g true (get s i) (get s j) in
    let ls i j := op g false (get s i) (get s j) in
    t01 <- le 0 1 ;;
    if t01 : bool then
      t12 <- le 1 2 ;;
      if t12 : bool then decision g s 0 1 2 3 else
      t20 <- ls 2 0 ;;
      if t20 : bool then decision g s 2 0 1 3 else decision g s 0 2 1 3
    else
      t12 <- le 1 2 ;;
      if t12 : bool then
        t02 <- le 0 2 ;;
        if t02 : bool then decision g s 1 0 2 3 else decision g s 1 2 0 3
      else decision g s 2 1 0 3.
  (** 562-672 *)
  Definition merge4 (g : bool) (s : seqs) (len : nat) : option (list A * seqs) :=
    if Nat.eqb len 0 then Some ([], s) else
    label <- start4 g s ;; run true g table4 len label s.

  (** std::copy(first, first + len, target); first += len.  Simplified: leaving the sequence is None. *)
  Definition copyn (len : nat) (l : list A) : option (list A * list A) :=
    if Nat.leb len (length l) then Some (firstn len l, skipn len l) else None.

  (** merge.h 96-139 (merge_advance_movc, called by merge_advance 161-169) *)
  Fixpoint adv2 (len : nat) (l1 l2 : list A) : option (list A * list A * list A) :=
    match len, l1, l2 with
    | S n, x :: r1, y :: r2 =>
        if lt y x then '(out, l1', l2') <- adv2 n l1 r2 ;; Some (y :: out, l1', l2')
        else '(out, l1', l2') <- adv2 n r1 l2 ;; Some (x :: out, l1', l2')
    | _, _ :: _, _ => '(out, l1') <- copyn len l1 ;; Some (out, l1', l2)
    | _, [], _ => '(out, l2') <- copyn len l2 ;; Some (out, l1, l2')
    end.
  Definition merge_advance (i j : nat) (s : seqs) (len : nat) : option (list A * seqs) :=
    '(out, l1, l2) <- adv2 len (fst (get s i)) (fst (get s j)) ;;
    Some (out, setn j (l2, snd (get s j)) (setn i (l1, snd (get s i)) s)).

  Definition total (s : seqs) : nat := list_sum (map (fun r => length (fst r)) s).

  (** std::lower_bound / std::upper_bound on a sorted sequence: the elements from the bound on *)
  Fixpoint from_lower (mn : A) (l : list A) : list A :=
    match l with [] => [] | x :: l' => if lt x mn then from_lower mn l' else l end.
  Fixpoint from_upper (mn : A) (l : list A) : list A :=
    match l with [] => [] | x :: l' => if lt mn x then l else from_upper mn l' end.

  (** 264-282: inl is the number of an empty sequence, inr the smallest last element and its sequence *)
  Fixpoint scan (i : nat) (mn : A) (mi : nat) (s : seqs) : nat + (A * nat) :=
    match s with
    | [] => inr (mn, mi)
    | (l, _) :: s' =>
        match rev l with
        | [] => inl i
        | v :: _ => if lt v mn then scan (S i) v i s' else scan (S i) mn mi s'
        end
    end.
  (** 284-308 *)
  Fixpoint overhang (stable : bool) (i : nat) (mn : A) (mi : nat) (s : seqs) : nat :=
    match s with
    | [] => 0
    | (l, _) :: s' =>
        length (if Nat.leb i mi && stable then from_upper mn l else from_lower mn l) + overhang stable (S i) mn mi s'
    end.
  (** 243-309, prepare_unguarded; None as overhang is -1 *)
  Definition prepare (stable : bool) (s : seqs) : option (option nat * nat) :=
    match s with
    | [] => None
    | (l, _) :: s' =>
        match rev l with
        | [] => Some (None, 0)
        | v :: _ =>
            match scan 1 v 0 s' with
            | inl i => Some (None, i)
            | inr (mn, mi) => Some (Some (overhang stable 0 mn mi s), mi)
            end
        end
    end.

  (** 470-532 *)
  Definition merge3_combined (s : seqs) (len : nat) : option (list A * seqs) :=
    '(ov, mi) <- prepare true s ;;
    '(out, s, todo) <- (match ov with
                        | Some ov => let n := Nat.min len (total s - ov) in '(out, s) <- merge3 false s n ;; Some (out, s, len - n)
                        | None => Some ([], s, len)
                        end) ;;
    '(out', s) <- (match mi with
                   | 0 => merge_advance 1 2 s todo
                   | 1 => merge_advance 0 2 s todo
                   | 2 => merge_advance 0 1 s todo
                   | _ => None
                   end) ;;
    Some (out ++ out', s).

  (** 679-727 *)
  Definition merge4_combined (s : seqs) (len : nat) : option (list A * seqs) :=
    '(ov, mi) <- prepare true s ;;
    '(out, s, todo) <- (match ov with
                        | Some ov => let n := Nat.min len (total s - ov) in '(out, s) <- merge4 false s n ;; Some (out, s, len - n)
                        | None => Some ([], s, len)
                        end) ;;
    '(out', one_missing) <- merge3 true (firstn mi s ++ skipn (S mi) s) todo ;;
    Some (out ++ out', firstn mi one_missing ++ get s mi :: skipn mi one_missing).

  (** 748-911 (multiway_merge_bubble).  pl[0..nrp) and source[0..nrp) are one list.  What lies behind nrp is never used, but
      source[1] is read at 811 when nrp is 1 (it may not have been written); both branches do the same then. *)
  Notation queue := (list (A * nat)).
  (** 787-788 and 861-862 of the stable mode, 798 and 898 of the other *)
  Definition sooner (stable : bool) (a b : A * nat) : bool :=
    lt (fst a) (fst b) || (stable && (negb (lt (fst b) (fst a)) && Nat.ltb (snd a) (snd b))).
  (** 771-781 *)
  Fixpoint heads (i : nat) (s : seqs) : queue :=
    match s with
    | [] => []
    | (x :: _, _) :: s' => (x, i) :: heads (S i) s'
    | ([], _) :: s' => heads (S i) s'
    end.
  (** one pass of the inner loops 786-792, 797-802 *)
  Fixpoint pass (stable : bool) (q : queue) : queue :=
    match q with
    | [] => []
    | a :: q' => match pass stable q' with
                 | b :: r => if sooner stable b a then b :: a :: r else a :: b :: r
                 | [] => [a]
                 end
    end.
  Fixpoint bubble_sort (stable : bool) (n : nat) (q : queue) : queue :=
    match n with
    | 0 => q
    | S n' => match pass stable q with [] => [] | a :: r => a :: bubble_sort stable n' r end
    end.
  (** the condition of the inner while loops 811-814, 838 and 876 *)
  Definition goes_on (stable : bool) (q : queue) : bool :=
    match q with
    | a :: b :: _ => if stable && negb (Nat.ltb (snd a) (snd b)) then lt (fst a) (fst b) else negb (lt (fst b) (fst a))
    | _ => true
    end.
  (** 814-833, 838-856, 876-894 *)
  Fixpoint bubble_inner (stable : bool) (len : nat) (q : queue) (s : seqs) : option (list A * queue * seqs * nat) :=
    match len, q with
    | S n, (x, i) :: q' =>
        if goes_on stable q then
          '(_, s) <- take i s ;;
          match fst (get s i) with
          | [] => Some ([x], q', s, n)
          | y :: _ => '(out, q, s, n) <- bubble_inner stable n ((y, i) :: q') s ;; Some (x :: out, q, s, n)
          end
        else Some ([], q, s, len)
    | _, _ => Some ([], q, s, len)
    end.
  (** 860-867, 897-903 *)
  Fixpoint sink (stable : bool) (a : A * nat) (q : queue) : queue :=
    match q with
    | b :: q' => if sooner stable b a then b :: sink stable a q' else a :: q
    | [] => [a]
    end.
  Definition sinks (stable : bool) (q : queue) : queue := match q with [] => [] | a :: q' => sink stable a q' end.
  (** 809-869, 873-904 *)
  Fixpoint bubble_outer (stable : bool) (fuel len : nat) (q : queue) (s : seqs) : option (list A * seqs) :=
    match len, q with
    | S _, _ :: _ =>
        match fuel with
        | 0 => None
        | S f =>
            '(out, q, s, n) <- bubble_inner stable len q s ;;
            '(out', s) <- bubble_outer stable f n (sinks stable q) s ;;
            Some (out ++ out', s)
        end
    | _, _ => Some ([], s)
    end.
  (** 748-911 *)
  Definition merge_bubble (stable : bool) (s : seqs) (len : nat) : option (list A * seqs) :=
    let q := heads 0 s in
    bubble_outer stable len len (bubble_sort stable (length q) q) s.

  (** losertree.h 54-62, 504-512, 726-732, 905-911; unguarded trees have no flag, it is false there.
      Simplified: the key of a player with the flag is any element; no comparison reads it. *)
  Record node := mkN { sup : bool; src : Z; key : A }.

  (** 214-215, 644-645: guarded, not stable; is the loser [l] at the node smaller than [p]? *)
  Definition test_gu (l p : node) : bool := sup p || (negb (sup l) && lt (key l) (key p)).
  (** 268-271, 695-698: guarded, stable *)
  Definition test_gs (l p : node) : bool :=
    (sup p && (negb (sup l) || Z.ltb (src l) (src p))) ||
    (negb (sup p) && negb (sup l) && (lt (key l) (key p) || (negb (lt (key p) (key l)) && Z.ltb (src l) (src p)))).
  (** 839, 1017: unguarded, not stable *)
  Definition test_uu (l p : node) : bool := lt (key l) (key p).
  (** 1056-1057: LoserTreePointerUnguarded<true> *)
  Definition test_usp (l p : node) : bool := lt (key l) (key p) || (negb (lt (key p) (key l)) && Z.ltb (src l) (src p)).
  (** 877: LoserTreeCopyUnguarded<true> *)
  Definition test_usc (l p : node) : bool := negb (lt (key p) (key l)) && Z.ltb (src l) (src p).
  (** 155-156, 588-589: does the left player win at the start?  794, 971 *)
  Definition left_g (l r : node) : bool := sup r || (negb (sup l) && negb (lt (key r) (key l))).
  Definition left_u (l r : node) : bool := negb (lt (key r) (key l)).

  (** 145-166, 578-599, 784-804, 961-981 *)
  Fixpoint init_winner (left_wins : node -> node -> bool) (fuel k root : nat) (t : nat -> node) : option (nat * (nat -> node)) :=
    match fuel with
    | 0 => None
    | S f =>
        if Nat.leb k root then Some (root, t) else
        '(a, t) <- init_winner left_wins f k (2 * root) t ;;
        '(b, t) <- init_winner left_wins f k (2 * root + 1) t ;;
        if left_wins (t a) (t b) then Some (a, upd t root (t b)) else Some (b, upd t root (t a))
    end.

  (** the loops of delete_min_insert, 211-222, 266-278, 641-651, 692-705, 836-845, 875-884, 1014-1023, 1053-1063 *)
  Fixpoint climb (test : node -> node -> bool) (fuel pos : nat) (p : node) (t : nat -> node) : option (node * (nat -> node)) :=
    if Nat.eqb pos 0 then Some (p, t) else
    match fuel with
    | 0 => None
    | S f => if test (t pos) p then climb test f (pos / 2) (t pos) (upd t pos p) else climb test f (pos / 2) p t
    end.

  (** the loops 972-987 and 1047-1067 of multiway_merge.h; [feed] is the next player of a source *)
  Fixpoint lt_loop (test : node -> node -> bool) (feed : rng -> option (bool * A)) (L n : nat) (t : nat -> node) (s : seqs)
    : option (list A * seqs) :=
    match n with
    | 0 => Some ([], s)
    | S n =>
        let source := src (t 0) in
        if Z.ltb source 0 then None else
        '(x, s) <- take (Z.to_nat source) s ;;
        '(f, y) <- feed (get s (Z.to_nat source)) ;;
        '(p, t) <- climb test (S L) ((2 ^ L + Z.to_nat source) / 2) (mkN f source y) t ;;
        '(out, s) <- lt_loop test feed L n (upd t 0 p) s ;;
        Some (x :: out, s)
    end.

  (** a guarded tree gets [d] with the flag when a sequence is exhausted, multiway_merge.h 960-966 and 982-986 *)
  Definition feed_g (d : A) (r : rng) : option (bool * A) :=
    match fst r with [] => Some (true, d) | y :: _ => Some (false, y) end.
  (** an unguarded tree gets whatever is there, 1030 and 1066 *)
  Definition feed_u (r : rng) : option (bool * A) := y <- read r ;; Some (false, y).

  (** the players at the leaves; [fill] is the player behind the last source *)
  Fixpoint players (feed : rng -> option (bool * A)) (i : nat) (s : seqs) : option (list node) :=
    match s with
    | [] => Some []
    | r :: s' => '(f, y) <- feed r ;; l <- players feed (S i) s' ;; Some (mkN f (Z.of_nat i) y :: l)
    end.
  (** the constructors losertree.h 76-91, 524-536, 744-756, 923-935 with insert_start, init and the loops over the elements *)
  Definition tree_merge (test left_wins : node -> node -> bool) (feed : rng -> option (bool * A)) (fill : node) (s : seqs) (len : nat)
    : option (list A * seqs) :=
    let L := Nat.log2_up (length s) in
    pl <- players feed 0 s ;;
    '(w, t) <- init_winner left_wins (S L) (2 ^ L) 1 (fun p => nth (p - 2 ^ L) pl fill) ;;
    lt_loop test feed L (Nat.min (total s) len) (upd t 0 (t w)) s.

  (** 952-958: the first element of the first sequence that is not empty *)
  Fixpoint arbitrary (s : seqs) : option A :=
    match s with [] => None | (x :: _, _) :: _ => Some x | ([], _) :: s' => arbitrary s' end.
  (** 930-990 *)
  Definition merge_tree (stable : bool) (s : seqs) (len : nat) : option (list A * seqs) :=
    d <- arbitrary s ;;
    tree_merge (if stable then test_gs else test_gu) left_g (feed_g d) (mkN true (-1) d) s len.

  (** 1011-1070; [copy]: the elements are of one of the types 1113-1122 *)
  Definition merge_tree_unguarded (stable copy : bool) (s : seqs) (len : nat) : option (list A * seqs) :=
    sentinel <- hd_error (rev (fst (get s 0))) ;;
    tree_merge (if stable then (if copy then test_usc else test_usp) else test_uu) left_u feed_u (mkN false (-1) sentinel) s len.

  (** 1131-1178 *)
  Definition merge_tree_combined (stable copy : bool) (s : seqs) (len : nat) : option (list A * seqs) :=
    '(ov, _) <- prepare stable s ;;
    '(out, s, todo) <- (match ov with
                        | Some ov => let n := Nat.min len (total s - ov) in
                                     '(out, s) <- merge_tree_unguarded stable copy s n ;; Some (out, s, len - n)
                        | None => Some ([], s, len)
                        end) ;;
    '(out', s) <- merge_tree stable s todo ;;
    Some (out ++ out', s).

  (** 1199-1200, 1211-1212: the ends are moved behind the sentinels and back *)
  Fixpoint ends_out (s : seqs) : option seqs :=
    match s with
    | [] => Some []
    | (l, z :: b) :: s' => s' <- ends_out s' ;; Some ((l ++ [z], b) :: s')
    | (_, []) :: _ => None
    end.
  Fixpoint ends_in (s : seqs) : option seqs :=
    match s with
    | [] => Some []
    | (l, b) :: s' => match rev l with [] => None | z :: r => s' <- ends_in s' ;; Some ((rev r, z :: b) :: s') end
    end.
  (** 1185-1215 *)
  Definition merge_tree_sentinel (stable copy : bool) (s : seqs) (len : nat) : option (list A * seqs) :=
    s <- ends_out s ;;
    '(out, s) <- merge_tree_unguarded stable copy s len ;;
    s <- ends_in s ;;
    Some (out, s).

  (** settings.h 78; MWM_ALGORITHM_LAST, for which 1331 is an assertion, is left out *)
  Inductive algorithm := BUBBLE | LOSER_TREE | LOSER_TREE_COMBINED | LOSER_TREE_SENTINEL.

  (** 1236-1340 *)
  Definition sequential (stable sentinels copy : bool) (alg : algorithm) (s : seqs) (len : nat) : option (list A * seqs) :=
    let alg := match alg with LOSER_TREE_SENTINEL => if sentinels then alg else LOSER_TREE_COMBINED | _ => alg end in
    match length s with
    | 0 => Some ([], s)
    | 1 => '(out, l) <- copyn len (fst (get s 0)) ;; Some (out, [(l, snd (get s 0))])
    | 2 => merge_advance 0 1 s len
    | 3 => match alg with
           | LOSER_TREE_COMBINED => merge3_combined s len
           | LOSER_TREE_SENTINEL => merge3 false s len
           | _ => merge3 true s len
           end
    | 4 => match alg with
           | LOSER_TREE_COMBINED => merge4_combined s len
           | LOSER_TREE_SENTINEL => merge4 false s len
           | _ => merge4 true s len
           end
    | _ => match alg with
           | BUBBLE => merge_bubble stable s len
           | LOSER_TREE => merge_tree stable s len
           | LOSER_TREE_COMBINED => merge_tree_combined stable copy s len
           | LOSER_TREE_SENTINEL => merge_tree_sentinel stable copy s len
           end
    end.
End Merge.
Arguments get {A}. Arguments take {A}. Arguments total {A}. Arguments mkN {A}. Arguments sup {A}. Arguments src {A}. Arguments key {A}.
