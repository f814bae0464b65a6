(** Properties of the external-memory matrix: products, objects as values, construction from two vectors. *)
From Coq Require Import List Arith Bool PeanoNat Lia ZArith Ring.
From Verif Require Import MatrixModel MatrixBase MatrixProofs MatrixVec MatrixSpec MatrixObjModel MatrixObj MatrixObjStep.
Import ListNotations.

(** ** C81: every program over matrix objects computes what the same program over matrix values computes, whatever blocks the
    objects share, whichever side of the blocks is transposed, whichever of the five algorithms is chosen. *)

Theorem C81_matrix_objects_are_values :
  forall (R : Type) (rO rI : R) (radd rmul rsub : R -> R -> R) (ropp : R -> R),
    ring_theory rO rI radd rmul rsub ropp eq ->
    forall (B : nat), 0 < B ->
    forall (n : nat) (cs : list (mcmd R)) (outs : list (list nat * list R)),
      spec_outputs R rO radd rmul rsub any_size n cs = Some outs ->
      outputs R rO radd rmul rsub ropp B n cs = Some outs.
Proof.
  intros R rO rI radd rmul rsub ropp Rth B HB n cs outs H. apply (program_ok R rO rI radd rmul rsub ropp Rth B HB any_size); [|exact H].
  intros alg h l w K. unfold few_blocks. unfold any_size in K. rewrite K. reflexivity.
Qed.

(** ** C82: products *)

(** the statements that store the elements [f i j] *)
Definition fill {R : Type} (o h w : nat) (f : nat -> nat -> R) : list (mcmd R) :=
  map (fun p => CSet o (fst p) (snd p) (f (fst p) (snd p))) (list_prod (seq 0 h) (seq 0 w)).

Section Prod.
  Variable R : Type.
  Variables (rO : R) (radd rmul rsub : R -> R -> R).
  Variable allowed : nat -> nat -> nat -> nat -> bool.
  Notation s_run := (s_run R rO radd rmul rsub allowed).

  (** statements without output that keep the sizes *)
  Fixpoint s_final (cs : list (mcmd R)) (vs : list (option (mval R))) : option (list (option (mval R))) :=
    match cs with
    | [] => Some vs
    | c :: cs' => match s_step R rO radd rmul rsub allowed c vs with Some (vs', _) => s_final cs' vs' | None => None end
    end.
  Lemma s_run_app cs : forall ds vs, s_run (cs ++ ds) vs =
    match s_run cs vs, s_final cs vs with
    | Some o1, Some vs' => match s_run ds vs' with Some o2 => Some (o1 ++ o2) | None => None end
    | _, _ => None
    end.
  Proof.
    induction cs as [|c cs IH]; intros ds vs; cbn [app MatrixSpec.s_run s_final].
    - destruct (s_run ds vs); reflexivity.
    - destruct (s_step R rO radd rmul rsub allowed c vs) as [[vs' out]|]; auto. rewrite IH.
      destruct (s_run cs vs') as [o1|]; auto. destruct (s_final cs vs') as [vs''|]; auto. destruct (s_run ds vs''); reflexivity.
  Qed.

  Lemma fill_run (o h w : nat) f ps : forall vs v, o < length vs -> nth o vs None = Some v -> vh R v = h -> vw R v = w ->
    (forall p, In p ps -> fst p < h /\ snd p < w) ->
    exists v', vh R v' = h /\ vw R v' = w /\
      (forall i j, ve R v' i j = if existsb (fun p => (fst p =? i) && (snd p =? j)) ps then f i j else ve R v i j) /\
      s_run (map (fun p => CSet o (fst p) (snd p) (f (fst p) (snd p))) ps) vs = Some (map (fun _ => ([], [])) ps) /\
      s_final (map (fun p => CSet o (fst p) (snd p) (f (fst p) (snd p))) ps) vs = Some (upd vs o (Some v')).
  Proof.
    induction ps as [|p ps IH]; intros vs v Lo Ev Hh Hw Hin.
    - exists v. cbn. split; auto. split; auto. split; auto. split; auto. rewrite <- Ev, upd_same. reflexivity.
    - destruct (Hin p (or_introl eq_refl)) as [P1 P2].
      set (v1 := v_set R v (fst p) (snd p) (f (fst p) (snd p))).
      destruct (IH (upd vs o (Some v1)) v1) as (v' & K1 & K2 & K3 & K4 & K5); auto.
      + rewrite upd_length. auto.
      + rewrite nth_upd, Nat.eqb_refl by auto. reflexivity.
      + intros q Hq. apply Hin. right; auto.
      + assert (St : s_step R rO radd rmul rsub allowed (CSet o (fst p) (snd p) (f (fst p) (snd p))) vs = Some (upd vs o (Some v1), ([], []))).
        { cbn [s_step]. unfold obj. rewrite Ev, Hh, Hw. destruct (Nat.ltb_spec (fst p) h); [|lia]. destruct (Nat.ltb_spec (snd p) w); [|lia]. cbn [andb].
          unfold s_store. destruct (Nat.ltb_spec o (length vs)); [|lia]. reflexivity. }
        exists v'. split; auto. split; auto. split; [|split].
        * intros i j. rewrite K3. cbn [existsb]. destruct (existsb _ ps); [rewrite orb_true_r; reflexivity|]. rewrite orb_false_r.
          unfold v1. cbn [ve v_set]. rewrite (Nat.eqb_sym i), (Nat.eqb_sym j).
          destruct (Nat.eqb_spec (fst p) i) as [E1|]; cbn [andb]; auto. destruct (Nat.eqb_spec (snd p) j) as [E2|]; congruence.
        * cbn [map MatrixSpec.s_run]. rewrite St, K4. reflexivity.
        * cbn [map s_final]. rewrite St, K5. f_equal. clear. generalize (Some v'), (Some v1). intros x y. revert o.
          induction vs as [|z l IHl]; intros [|k]; cbn; auto. f_equal. auto.
  Qed.
  Lemma fill_all (o h w : nat) f vs v : o < length vs -> nth o vs None = Some v -> vh R v = h -> vw R v = w ->
    exists v', vh R v' = h /\ vw R v' = w /\ (forall i j, i < h -> j < w -> ve R v' i j = f i j) /\
      s_run (fill o h w f) vs = Some (map (fun _ => ([], [])) (fill o h w f)) /\ s_final (fill o h w f) vs = Some (upd vs o (Some v')).
  Proof.
    intros Lo Ev Hh Hw. unfold fill.
    destruct (fill_run o h w f (list_prod (seq 0 h) (seq 0 w)) vs v) as (v' & K1 & K2 & K3 & K4 & K5); auto.
    { intros [a b] Hp. apply in_prod_iff in Hp. rewrite !in_seq in Hp. cbn. lia. }
    exists v'. split; auto. split; auto. split; [|split; auto].
    - intros i j Hi Hj. rewrite K3.
      replace (existsb (fun p => (fst p =? i) && (snd p =? j)) (list_prod (seq 0 h) (seq 0 w))) with true; auto.
      symmetry. apply existsb_exists. exists (i, j). split.
      + apply in_prod_iff. rewrite !in_seq. lia.
      + cbn. rewrite !Nat.eqb_refl. reflexivity.
    - rewrite K4. rewrite map_map. reflexivity.
  Qed.
  Lemma sum_ext n (f g : nat -> R) : (forall k, k < n -> f k = g k) -> sum R rO radd n f = sum R rO radd n g.
  Proof. induction n; intros H; cbn; auto. rewrite IHn, (H n) by auto. reflexivity. Qed.
End Prod.

(** the program: create and fill a and b, transpose them if the flag is set, c = a.multiply(b, alg), read c(i, j) *)
Definition trans_if {R : Type} (t : bool) (o : nat) : list (mcmd R) := if t then [CTrans o] else [].
Definition product {R : Type} (alg : nat) (ta tb : bool) (h l w : nat) (fa fb : nat -> nat -> R) (i j : nat) : list (mcmd R) :=
  (CNew 0 (if ta then l else h) (if ta then h else l) :: fill 0 (if ta then l else h) (if ta then h else l) (fun i k => if ta then fa k i else fa i k))
  ++ trans_if ta 0
  ++ (CNew 1 (if tb then w else l) (if tb then l else w) :: fill 1 (if tb then w else l) (if tb then l else w) (fun k j => if tb then fb j k else fb k j))
  ++ trans_if tb 1
  ++ [CMul alg 2 0 1; CGet 2 i j].

(** what the program prints: nothing but the element read in the end *)
Definition only_last {R : Type} (outs : list (list nat * list R)) (x : R) : Prop :=
  exists n, outs = repeat ([], []) n ++ [([], [x])].

Lemma repeat_map {X Y : Type} (y : Y) (l : list X) : map (fun _ => y) l = repeat y (length l).
Proof. induction l; cbn; congruence. Qed.

Section Prod2.
  Variable R : Type.
  Variables (rO : R) (radd rmul rsub : R -> R -> R).
  Variable allowed : nat -> nat -> nat -> nat -> bool.
  Notation s_run := (s_run R rO radd rmul rsub allowed).
  Notation s_final := (s_final R rO radd rmul rsub allowed).

  Lemma operand_run t o h w f vs : o < length vs ->
    exists v' n, vh R v' = h /\ vw R v' = w /\ (forall i j, i < h -> j < w -> ve R v' i j = f i j) /\
      let cs := (CNew o (if t : bool then w else h) (if t then h else w)
                 :: fill o (if t then w else h) (if t then h else w) (fun i k => if t then f k i else f i k)) ++ trans_if t o in
      s_run cs vs = Some (repeat ([], []) n) /\ s_final cs vs = Some (upd vs o (Some v')).
  Proof.
    intros Lo. set (h' := if t then w else h). set (w' := if t then h else w).
    set (vs1 := upd vs o (Some (v_zero R rO h' w'))).
    assert (S1 : s_step R rO radd rmul rsub allowed (CNew o h' w') vs = Some (vs1, ([], []))).
    { cbn [s_step]. unfold s_store. destruct (Nat.ltb_spec o (length vs)); [|lia]. reflexivity. }
    destruct (fill_all R rO radd rmul rsub allowed o h' w' (fun i k => if t then f k i else f i k) vs1 (v_zero R rO h' w')) as (v1 & K1 & K2 & K3 & K4 & K5); auto.
    { unfold vs1. rewrite upd_length. auto. } { unfold vs1. rewrite nth_upd, Nat.eqb_refl by auto. reflexivity. }
    assert (Up : forall x y : option (mval R), upd (upd vs o x) o y = upd vs o y).
    { intros x y. clear. revert o. induction vs as [|z l IHl]; intros [|k]; cbn; auto. f_equal. auto. }
    assert (Fin : forall cs ds us vs', s_final cs us = Some vs' -> s_final (cs ++ ds) us = s_final ds vs').
    { clear. induction cs as [|c cs IH]; intros ds us vs' H; cbn [app MatrixProps.s_final] in *; [congruence|].
      destruct (s_step R rO radd rmul rsub allowed c us) as [[us' out]|]; [|discriminate]. auto. }
    destruct t.
    - exists (v_trans R v1), (S (length (fill o h' w' (fun i k => f k i)) + 1)).
      cbn [MatrixSpec.vh MatrixSpec.vw MatrixSpec.ve v_trans]. split; auto. split; auto. split; [intros; apply K3; auto|].
      assert (S2 : s_step R rO radd rmul rsub allowed (CTrans o) (upd vs1 o (Some v1)) = Some (upd vs o (Some (v_trans R v1)), ([], []))).
      { cbn [s_step]. unfold obj. unfold vs1. rewrite Up. rewrite nth_upd, Nat.eqb_refl by auto. unfold s_store. rewrite upd_length.
        destruct (Nat.ltb_spec o (length vs)); [|lia]. rewrite Up. reflexivity. }
      cbv zeta. cbn [app trans_if MatrixSpec.s_run MatrixProps.s_final]. rewrite S1. split.
      + rewrite s_run_app, K4, K5. cbn [MatrixSpec.s_run]. rewrite S2. rewrite repeat_map. cbn [repeat]. rewrite repeat_app. reflexivity.
      + rewrite (Fin _ _ _ _ K5). cbn [MatrixProps.s_final]. rewrite S2. reflexivity.
    - exists v1, (S (length (fill o h' w' (fun i k => f i k)))). split; auto. split; auto. split; auto.
      cbv zeta. cbn [app trans_if]. rewrite app_nil_r. cbn [MatrixSpec.s_run MatrixProps.s_final]. rewrite S1. split.
      + rewrite K4, repeat_map. reflexivity.
      + rewrite K5. unfold vs1. rewrite Up. reflexivity.
  Qed.
End Prod2.

(** products by an algorithm that is allowed *)
Lemma product_spec (R : Type) (rO : R) (radd rmul rsub : R -> R -> R) allowed alg ta tb h l w (fa fb : nat -> nat -> R) i j :
  i < h -> j < w -> allowed alg h l w = true ->
  exists outs, spec_outputs R rO radd rmul rsub allowed 3 (product alg ta tb h l w fa fb i j) = Some outs /\
    only_last outs (sum R rO radd l (fun k => rmul (fa i k) (fb k j))).
Proof.
  intros Hi Hj Kn.
  destruct (operand_run R rO radd rmul rsub allowed ta 0 h l fa [None; None; None]) as (v1 & n1 & A1 & A2 & A3 & A4 & A5); [cbn; lia|].
  destruct (operand_run R rO radd rmul rsub allowed tb 1 l w fb [Some v1; None; None]) as (v2 & n2 & B1 & B2 & B3 & B4 & B5); [cbn; lia|].
  cbv zeta in *. cbn [upd] in A5, B5.
  exists (repeat ([], []) (n1 + (n2 + 1)) ++ [([], [sum R rO radd l (fun k => rmul (fa i k) (fb k j))])]). split; [|eexists; reflexivity].
  unfold spec_outputs, product. cbn [repeat].
  rewrite app_assoc, s_run_app, A4, A5. rewrite app_assoc, s_run_app, B4, B5.
  assert (E1 : s_step R rO radd rmul rsub allowed (CMul alg 2 0 1) [Some v1; Some v2; None] = Some ([Some v1; Some v2; Some (v_mul R rO radd rmul v1 v2)], ([], []))).
  { cbn [s_step obj nth]. rewrite A1, A2, B1, B2, Kn, Nat.eqb_refl. reflexivity. }
  assert (E2 : s_step R rO radd rmul rsub allowed (CGet 2 i j) [Some v1; Some v2; Some (v_mul R rO radd rmul v1 v2)]
    = Some ([Some v1; Some v2; Some (v_mul R rO radd rmul v1 v2)], ([], [sum R rO radd l (fun k => rmul (fa i k) (fb k j))]))).
  { cbn [s_step obj nth]. cbn [vh vw ve v_mul]. rewrite A1, B2, A2.
    destruct (Nat.ltb_spec i h); [|lia]. destruct (Nat.ltb_spec j w); [|lia]. cbn [andb]. do 4 f_equal.
    apply sum_ext. intros k Hk. rewrite A3, B3 by auto. reflexivity. }
  cbn [s_run]. rewrite E1, E2. rewrite !repeat_app. rewrite <- !app_assoc. reflexivity.
Qed.

Theorem C82_products :
  forall (R : Type) (rO rI : R) (radd rmul rsub : R -> R -> R) (ropp : R -> R),
    ring_theory rO rI radd rmul rsub ropp eq ->
    forall (B : nat), 0 < B ->
    forall (alg : nat), In alg [0; 1; 2; 4; 5] ->
    forall (ta tb : bool) (h l w : nat) (fa fb : nat -> nat -> R) (i j : nat), i < h -> j < w ->
      exists outs, outputs R rO radd rmul rsub ropp B 3 (product alg ta tb h l w fa fb i j) = Some outs /\
        only_last outs (sum R rO radd l (fun k => rmul (fa i k) (fb k j))).
Proof.
  intros R rO rI radd rmul rsub ropp Rth B HB alg Ha ta tb h l w fa fb i j Hi Hj.
  destruct (product_spec R rO radd rmul rsub any_size alg ta tb h l w fa fb i j Hi Hj) as (outs & E1 & K).
  { cbn in Ha. decompose [or] Ha; subst; try reflexivity; tauto. }
  exists outs. split; auto. apply (C81_matrix_objects_are_values R rO rI radd rmul rsub ropp Rth B HB). exact E1.
Qed.

(** the algorithm is not observable *)
Fixpoint with_alg {R : Type} (alg : nat) (cs : list (mcmd R)) : list (mcmd R) :=
  match cs with
  | [] => []
  | CMul _ o a b :: cs' => CMul alg o a b :: with_alg alg cs'
  | c :: cs' => c :: with_alg alg cs'
  end.
Lemma with_alg_spec R rO radd rmul rsub alg cs : known alg = true -> forall vs outs,
  s_run R rO radd rmul rsub any_size cs vs = Some outs -> s_run R rO radd rmul rsub any_size (with_alg alg cs) vs = Some outs.
Proof.
  intros Hk. induction cs as [|c cs IH]; intros vs outs H; [exact H|].
  assert (G : exists c', with_alg alg (c :: cs) = c' :: with_alg alg cs /\
    forall r, s_step R rO radd rmul rsub any_size c vs = Some r -> s_step R rO radd rmul rsub any_size c' vs = Some r).
  { destruct c; cbn [with_alg]; eexists; (split; [reflexivity|]); auto. intros r. cbn [s_step]. destruct (obj R vs a); auto. destruct (obj R vs b); auto.
    unfold any_size. rewrite Hk. destruct (known alg0); [auto|discriminate]. }
  destruct G as (c' & -> & G). cbn [s_run] in *. destruct (s_step R rO radd rmul rsub any_size c vs) as [[vs' out]|]; [|discriminate].
  rewrite (G _ eq_refl). destruct (s_run R rO radd rmul rsub any_size cs vs') as [o|] eqn:E; [|discriminate]. rewrite (IH _ _ E). exact H.
Qed.
Theorem C82_algorithm_not_observable :
  forall (R : Type) (rO rI : R) (radd rmul rsub : R -> R -> R) (ropp : R -> R),
    ring_theory rO rI radd rmul rsub ropp eq ->
    forall (B : nat), 0 < B ->
    forall (alg : nat), In alg [0; 1; 2; 4; 5] ->
    forall (n : nat) (cs : list (mcmd R)) (outs : list (list nat * list R)),
      spec_outputs R rO radd rmul rsub any_size n cs = Some outs ->
      outputs R rO radd rmul rsub ropp B n (with_alg alg cs) = outputs R rO radd rmul rsub ropp B n cs.
Proof.
  intros R rO rI radd rmul rsub ropp Rth B HB alg Ha n cs outs H.
  assert (Kn : known alg = true) by (cbn in Ha; decompose [or] Ha; subst; try reflexivity; tauto).
  rewrite (C81_matrix_objects_are_values R rO rI radd rmul rsub ropp Rth B HB n cs outs H).
  apply (C81_matrix_objects_are_values R rO rI radd rmul rsub ropp Rth B HB). apply with_alg_spec; auto.
Qed.

(** ** C83: the constructor from a column vector and a row vector *)

(** the value read at (i, j) *)
Definition elem_at {R : Type} (rO : R) (B : nat) (r : option (matrix * list (option (list R)))) (i j : nat) : option R :=
  match r with
  | Some (m, s) => match get_elem R rO B (md m) i j s with Some (x, _) => Some x | None => None end
  | None => None
  end.
(** the statement: elements are the products *)
Definition from_vectors_correct (R : Type) (rO : R) (radd rmul : R -> R -> R) (B : nat) : Prop :=
  forall (junk l r : list R) (s : list (option (list R))) (i j : nat), i < length l -> j < length r ->
    elem_at rO B (m_from_vectors R rO radd rmul B junk l r s) i j = Some (ve R (v_outer R rO rmul l r) i j).

(** the true part: the sizes are right, and every element is zero *)
Theorem C83_from_vectors_partial :
  forall (R : Type) (rO rI : R) (radd rmul rsub : R -> R -> R) (ropp : R -> R),
    ring_theory rO rI radd rmul rsub ropp eq ->
    forall (B : nat), 0 < B ->
    forall (junk l r : list R) (s : list (option (list R))),
      exists m s', m_from_vectors R rO radd rmul B junk l r s = Some (m, s') /\ mh m = length l /\ mw m = length r /\
        forall i j, i < length l -> j < length r -> elem_at rO B (Some (m, s')) i j = Some rO.
Proof.
  intros R rO rI radd rmul rsub ropp Rth B HB junk l r s. unfold m_from_vectors.
  destruct (new_spec R rO B (length l) (length r) s) as (M & s1 & E1 & X & D & W & J & O & Z). rewrite E1. cbn [md].
  destruct (rec_from R rO rI radd rmul rsub ropp Rth B junk (S (ht M + wd M)) M l r 0 0 s1) as (s2 & E2 & L2 & F2); auto.
  rewrite E2. eexists _, s2. split; [reflexivity|]. cbn [mh mw]. split; auto. split; auto.
  intros i j Hi Hj. unfold elem_at, get_elem, elem_block. cbn [md]. destruct D as [D1 D2].
  assert (HI : i / B < ht M) by (rewrite D1; apply blocks_for_lt; auto).
  assert (HJ : j / B < wd M) by (rewrite D2; apply blocks_for_lt; auto).
  rewrite (at_idn (length s1)) by auto. f_equal. rewrite acquired_val. unfold elem_index.
  rewrite F2 by (apply W; auto). apply (Z (i / B) (j / B) (i mod B) (j mod B) HI HJ).
Qed.
Theorem C83_from_vectors_refuted : exists l r : list Z,
  forall B junk s, 0 < B -> elem_at 0%Z B (m_from_vectors Z 0%Z Z.add Z.mul B junk l r s) 0 0 = Some 0%Z /\
    ve Z (v_outer Z 0%Z Z.mul l r) 0 0 = 6%Z.
Proof.
  exists [2%Z], [3%Z]. intros B junk s HB. split; [|reflexivity].
  destruct (C83_from_vectors_partial Z 0%Z 1%Z Z.add Z.mul Z.sub Z.opp Zth B HB junk [2%Z] [3%Z] s) as (m & s' & E1 & _ & _ & K).
  rewrite E1. apply K; cbn; lia.
Qed.
Theorem C83_not_correct : ~ (forall B, 0 < B -> from_vectors_correct Z 0%Z Z.add Z.mul B).
Proof.
  intros H. specialize (H 1 ltac:(lia)). destruct C83_from_vectors_refuted as (l & r & K).
  specialize (H [] [2%Z] [3%Z] [] 0 0 ltac:(cbn; lia) ltac:(cbn; lia)). vm_compute in H. discriminate.
Qed.

(** ** Examples *)

Notation zout := (outputs Z 0%Z Z.add Z.mul Z.sub Z.opp).
Notation zspec := (spec_outputs Z 0%Z Z.add Z.mul Z.sub any_size).
Definition fa (i j : nat) : Z := Z.of_nat (3 * i + j) - 4.
Definition fb (i j : nat) : Z := Z.of_nat (i * i) - Z.of_nat (2 * j).

(** blocks of side 1, 5 x 4 times 4 x 6 blocks: the Strassen-Winograd recursion runs once and an odd row is left over *)
Example C82_example : forall alg, In alg [0; 1; 2; 4; 5] ->
  option_map (fun outs => last outs ([], [])) (zout 1 3 (product alg false true 5 4 6 fa fb 4 3)) = Some ([], [(-80)%Z]).
Proof. intros alg Ha. cbn in Ha. decompose [or] Ha; subst; try tauto; vm_compute; reflexivity. Qed.
(** blocks of side 2 that are not full, 9 x 7 times 7 x 11 elements *)
Example C82_example_2 : forall alg, In alg [2; 4; 5] ->
  option_map (fun outs => last outs ([], [])) (zout 2 3 (product alg true false 9 7 11 fa fb 8 10)) = Some ([], [(-959)%Z]).
Proof. intros alg Ha. cbn in Ha. decompose [or] Ha; subst; try tauto; vm_compute; reflexivity. Qed.

(** objects 0 and 1 share their blocks until 1 is transposed; 0 += 0; 1 -= a transposed matrix; a zero matrix times a matrix *)
Definition sharing : list (mcmd Z) :=
  [CNew 0 3 3] ++ fill 0 3 3 fa ++
  [CCopy 1 0; CTrans 1; CGet 0 0 2; CGet 1 0 2; CAddTo 0 0; CGet 0 0 2; CGet 1 2 0;
   CCopy 2 1; CSubTo 1 2; CGet 1 1 0; CGet 2 1 0; CMulBy 2 0; CGet 2 1 1; CScaleBy 2 (-1)%Z; CGet 2 1 1;
   CSet 2 1 1 5%Z; CCopy 3 2; CZero 3; CGet 2 1 1; CGet 3 1 1; CDims 3; CCol 0 [1; 2; 3]%Z; CRow 1 [1; 2; 3]%Z;
   CMul 4 3 1 0; CGet 3 2 2; CSub 3 0 2; CGet 3 1 1; CDel 2; CScale 2 0 3%Z; CGet 2 2 2].
Example C81_example : zout 2 4 sharing = zspec 4 sharing /\
  option_map (fun outs => filter (fun o => negb (match o with ([], []) => true | _ => false end)) outs) (zspec 4 sharing)
  = Some [([], [-2]%Z); ([], [2]%Z); ([], [-4]%Z); ([], [-2]%Z); ([], [0]%Z); ([], [-3]%Z); ([], [36]%Z); ([], [-36]%Z);
          ([], [5]%Z); ([], [0]%Z); ([3; 3], []); ([], [-32; 4; 40]%Z); ([], [0; 0; 0]%Z); ([], [0]%Z); ([], [-5]%Z); ([], [24]%Z)].
Proof. split; vm_compute; reflexivity. Qed.

Print Assumptions C81_matrix_objects_are_values.
Print Assumptions C82_products.
Print Assumptions C82_algorithm_not_observable.
Print Assumptions C83_from_vectors_partial.
Print Assumptions C83_from_vectors_refuted.
Print Assumptions C83_not_correct.
