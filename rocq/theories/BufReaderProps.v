(** C93: buffered readers of the hash map over the block cache. *)
From Coq Require Import List Bool Arith Lia Permutation.
From Verif Require Import BlockCacheModel BlockCacheSpec BlockCacheMach BufReaderModel BufReaderSpec BufReader.
Import ListNotations.

(** The full statement is [C93_full]: any number of readers fewer than the blocks of the cache, at
    any positions, next to other users of the cache, read the values of the blocks and their assignments are not lost. *)
Definition C93_full (full : bool) : Prop :=
  forall (E : Type) (ss nsub csize wsize page pages : nat) (iter : list (nat * nat) -> list (nat * nat))
    (junk d0 : nat -> list (list E)) (oracle : list (list nat)) (os : list bop),
  0 < ss -> 0 < csize -> 0 < wsize -> (forall l, Permutation (iter l) l) ->
  (forall b, length (junk b) = nsub) -> (forall b, length (d0 b) = nsub) -> (forall b, Forall (fun l => length l = ss) (d0 b)) ->
  legals ss nsub csize full (t_init (fun b => concat (d0 b))) os ->
  exists rs, bruns (m_step true csize wsize iter) ss nsub page pages (binit (m_init csize wsize junk d0 oracle)) os = Some rs
    /\ truns ss nsub (t_init (fun b => concat (d0 b))) os rs.

(** What is missing: programs that the rules with [full = false] exclude, see the refutations. *)
Theorem C93_readers_partial : C93_full false.
Proof.
  intros E ss nsub csize wsize page pages iter junk d0 oracle os S0 C W IP J D F L.
  destruct (init_sim ss nsub csize wsize C W junk d0 oracle J D F) as [I H].
  exact (run_sim ss nsub csize S0 wsize page pages iter IP C W os _ _ _ _ I H L).
Qed.

(** ** The specification is a function *)
Section Fun.
Context {E : Type}.
Variable ss nsub csize : nat.
Definition fstep (t : @tst E) (o : @bop E) : option (@bres E * tst) :=
  match o with
  | BOpen x l isub pf => Some (BU, let t' := move (disturb x t) x (mkPos l 0 (isub * ss) Kept false) in mkT (t_mem t') (t_rd t') (S (t_open t)))
  | BEnable x => match t_rd t x with Some p => Some (BU, disturb_all t) | None => None end
  | BConst x => match t_rd t x with
                | Some p => match block p with
                            | Some b => match nth_error (t_mem t b) (p_i p) with Some e => Some (BV e, t) | None => None end
                            | None => None end
                | None => None end
  | BSet x e => match t_rd t x with
                | Some p => match block p with
                            | Some b => Some (BU, let t' := move t x (mkPos (p_bids p) (p_cur p) (p_i p) (p_q p) true) in
                                       mkT (fun c => if c =? b then set_at (t_mem t b) (p_i p) e else t_mem t c) (t_rd t') (t_open t))
                            | None => None end
                | None => None end
  | BInc x => match t_rd t x with Some p => Some (BB (fst (next ss nsub p)), move (disturb x t) x (snd (next ss nsub p))) | None => None end
  | BNext x => match t_rd t x with Some p => Some (BU, move (disturb x t) x (snd (next_subblock ss nsub p))) | None => None end
  | BSkip x j isub => match t_rd t x with Some p => Some (BU, move (disturb x t) x (skip ss p j isub)) | None => None end
  | BClose x => match t_rd t x with Some p => Some (BU, mkT (t_mem t) (fun y => if y =? x then None else t_rd t y) (t_open t - 1)) | None => None end
  | BOther b s => Some (BL (firstn ss (skipn (s * ss) (t_mem t b))), disturb_all t)
  | BEnv ids => Some (BU, t)
  end.
Lemma fstep_spec t o r t' : tstep ss nsub t o r t' -> fstep t o = Some (r, t').
Proof. intros H. destruct H; cbn [fstep]; rewrite ?H, ?H0, ?H1; reflexivity. Qed.
Fixpoint fruns (t : @tst E) (os : list (@bop E)) : option (list (@bres E)) :=
  match os with
  | [] => Some []
  | o :: os' => match fstep t o with
                | Some (r, t') => match fruns t' os' with Some rs => Some (r :: rs) | None => None end
                | None => None
                end
  end.
Lemma truns_cons (t : @tst E) o os rs : truns ss nsub t (o :: os) rs -> exists r t1 rs1, rs = r :: rs1 /\ tstep ss nsub t o r t1 /\ truns ss nsub t1 os rs1.
Proof. intros H. inversion H; subst. eauto 8. Qed.
Lemma fruns_spec t os rs : truns ss nsub t os rs -> fruns t os = Some rs.
Proof.
  intros H. induction H as [|t o r t1 os rs H1 H2 IH]; [reflexivity|]. cbn [fruns]. rewrite (fstep_spec _ _ _ _ H1), IH. reflexivity.
Qed.
Fixpoint flegals (full : bool) (t : @tst E) (os : list (@bop E)) : Prop :=
  match os with
  | [] => True
  | o :: os' => legal ss nsub csize full t o /\ match fstep t o with Some (_, t') => flegals full t' os' | None => True end
  end.
Lemma flegals_spec full os : forall t, flegals full t os -> legals ss nsub csize full t os.
Proof.
  induction os as [|o os IH]; intros t; [easy|]. cbn [flegals legals]. intros [L F]. split; auto. intros r t' H.
  rewrite (fstep_spec _ _ _ _ H) in F. auto.
Qed.
End Fun.

(** ** Scanning: one reader, nobody else *)
Section Scan.
Context {E : Type}.
Variable ss nsub csize : nat.
Hypothesis spos : 0 < ss.
Hypothesis npos : 0 < nsub.
Variable mem : nat -> list E.
Hypothesis mlen : forall b, length (mem b) = nsub * ss.
Definition left (p : pos) : list E :=
  match block p with Some b => skipn (p_i p) (mem b) ++ concat (map mem (skipn (S (p_cur p)) (p_bids p))) | None => [] end.
Definition scan (n : nat) : list (@bop E) := concat (repeat [BConst 0; BInc 0] n).
Fixpoint seen (vs : list E) : list (@bres E) :=
  match vs with [] => [] | e :: vs' => BV e :: BB (match vs' with [] => false | _ => true end) :: seen vs' end.

Lemma skip_nth {A} (l : list A) i e : nth_error l i = Some e -> skipn i l = e :: skipn (S i) l.
Proof. revert i. induction l as [|a l IH]; intros [|i] H; try discriminate; cbn in *; [congruence|]. now apply IH. Qed.

Lemma left_next p b e : block p = Some b -> nth_error (mem b) (p_i p) = Some e ->
  left p = e :: left (snd (next ss nsub p)) /\ fst (next ss nsub p) = (match left (snd (next ss nsub p)) with [] => false | _ => true end)
  /\ (p_q p <> Lost -> p_q (snd (next ss nsub p)) <> Lost).
Proof.
  intros B NE. unfold left at 1. rewrite B, (skip_nth _ _ _ NE). unfold block in B.
  assert (L : p_cur p < length (p_bids p)) by (apply nth_error_Some; congruence).
  assert (LI : p_i p < nsub * ss) by (rewrite <- (mlen b); apply nth_error_Some; congruence).
  unfold next. destruct (Nat.eqb_spec (p_cur p) (length (p_bids p))) as [|_]; [lia|].
  destruct (Nat.ltb_spec (S (p_i p)) (nsub * ss)) as [K|K]; cbn [fst snd].
  - unfold left, block. cbn [p_bids p_cur p_i]. rewrite B. split; [reflexivity|]. split.
    + destruct (skipn (S (p_i p)) (mem b)) eqn:Q; [|reflexivity]. apply (f_equal (@length E)) in Q. rewrite skipn_length, mlen in Q. cbn in Q. lia.
    + cbn. destruct (S (p_i p) mod ss =? 0), (p_q p); easy.
  - rewrite (skipn_all2 (mem b)) by (rewrite mlen; lia). unfold left, block. cbn [p_bids p_cur p_i app].
    destruct (nth_error (p_bids p) (S (p_cur p))) as [b'|] eqn:B'.
    + rewrite (skip_nth _ _ _ B'). cbn [skipn map concat app]. split; [reflexivity|]. split; [|easy].
      assert (S (p_cur p) < length (p_bids p)) by (apply nth_error_Some; congruence).
      destruct (Nat.eqb_spec (S (p_cur p)) (length (p_bids p))); [lia|]. cbn.
      destruct (mem b') eqn:Q; [|reflexivity]. pose proof (mlen b') as Q'. rewrite Q in Q'. cbn in Q'. lia.
    + apply nth_error_None in B'. rewrite skipn_all2 by lia. split; [reflexivity|]. split; [|easy].
      destruct (Nat.eqb_spec (S (p_cur p)) (length (p_bids p))); [reflexivity|lia].
Qed.

Lemma scan_ok n : forall t p, t_mem t = mem -> t_rd t 0 = Some p -> (forall y, y <> 0 -> t_rd t y = None) -> p_q p <> Lost ->
  (forall b, block p = Some b -> p_i p < nsub * ss) -> n = length (left p) ->
  legals ss nsub csize false t (scan n) /\ (forall rs, truns ss nsub t (scan n) rs -> rs = seen (left p)).
Proof.
  induction n as [|n IH]; intros t p M X O NL LI N.
  - destruct (left p); [|discriminate]. split; [exact I|]. intros rs H. inversion H. reflexivity.
  - destruct (block p) as [b|] eqn:B; [|unfold left in N; rewrite B in N; discriminate].
    specialize (LI b eq_refl).
    destruct (nth_error (mem b) (p_i p)) as [e|] eqn:NE; [|apply nth_error_None in NE; rewrite mlen in NE; lia].
    destruct (left_next p b e B NE) as (E1 & E2 & E3). rewrite E1 in N. cbn [length] in N. injection N as N.
    set (q := snd (next ss nsub p)) in *.
    destruct (IH (move (disturb 0 t) 0 q) q) as [A1 A2]; auto.
    { cbn. intros y Y. apply Nat.eqb_neq in Y. rewrite Y. apply Nat.eqb_neq in Y. now rewrite (O y Y). }
    { intros c C. unfold q, next in *. destruct (_ =? _); [|destruct (Nat.ltb_spec (S (p_i p)) (nsub * ss))]; cbn [snd p_i] in *; nia. }
    split.
    + change (scan (S n)) with (@BConst E 0 :: @BInc E 0 :: scan n). cbn [legals]. split.
      { exists p. repeat split; auto. congruence. }
      intros r t' H. apply fstep_spec in H. cbn [fstep] in H. rewrite X, B, M, NE in H. injection H as <- <-. split.
      { exists p. split; auto. right. right. intros c _ y z Y Z. rewrite (O y Y) in Z. discriminate. }
      intros r t' H. apply fstep_spec in H. cbn [fstep] in H. rewrite X in H. injection H as <- <-. exact A1.
    + change (scan (S n)) with (@BConst E 0 :: @BInc E 0 :: scan n). intros rs H.
      apply truns_cons in H. destruct H as (r1 & t1 & rs1 & -> & T1 & R1). apply fstep_spec in T1. cbn [fstep] in T1. rewrite X, B, M, NE in T1. injection T1 as <- <-.
      apply truns_cons in R1. destruct R1 as (r2 & t2 & rs2 & -> & T2 & R2). apply fstep_spec in T2. cbn [fstep] in T2. rewrite X in T2. injection T2 as <- <-.
      rewrite E1. cbn [seen]. fold q in R2 |- *. rewrite <- E2. f_equal. f_equal. exact (A2 rs2 R2).
Qed.
End Scan.

(** A reader that nobody disturbs reads all values of its blocks in their order, with and without prefetching. *)
Theorem C93_scan : forall (E : Type) (ss nsub csize wsize page pages : nat) (iter : list (nat * nat) -> list (nat * nat))
    (junk d0 : nat -> list (list E)) (oracle : list (list nat)) (l : list nat) (pf : bool),
  0 < ss -> 0 < nsub -> 2 <= csize -> 0 < wsize -> (forall l, Permutation (iter l) l) ->
  (forall b, length (junk b) = nsub) -> (forall b, length (d0 b) = nsub) -> (forall b, Forall (fun l => length l = ss) (d0 b)) ->
  let vs := concat (map (fun b => concat (d0 b)) l) in
  bruns (m_step true csize wsize iter) ss nsub page pages (binit (m_init csize wsize junk d0 oracle)) (BOpen 0 l 0 pf :: scan (length vs))
  = Some (BU :: seen vs).
Proof.
  intros E ss nsub csize wsize page pages iter junk d0 oracle l pf S0 N0 C W IP J D F vs.
  set (mem := fun b => concat (d0 b)).
  assert (ML : forall b, length (mem b) = nsub * ss).
  { intros b. unfold mem. specialize (F b). rewrite <- (D b). clear - F. induction F as [|u d L F IH]; [reflexivity|]. cbn. rewrite app_length, IH, L. lia. }
  set (p := mkPos l 0 (0 * ss) Kept false).
  assert (LV : left mem p = vs).
  { unfold left, p, block, vs. cbn [p_bids p_cur p_i]. destruct l; reflexivity. }
  set (t1 := let t' := move (disturb 0 (t_init mem)) 0 p in mkT (t_mem t') (t_rd t') (S (t_open (t_init mem)))).
  destruct (scan_ok ss nsub csize S0 N0 mem ML (length vs) t1 p) as [A1 A2]; auto.
  { intros y Y. cbn. apply Nat.eqb_neq in Y. now rewrite Y. }
  { easy. }
  { intros b _. cbn. nia. }
  { now rewrite LV. }
  rewrite LV in A2.
  destruct (C93_readers_partial E ss nsub csize wsize page pages iter junk d0 oracle (BOpen 0 l 0 pf :: scan (length vs))) as (rs & R1 & R2); auto; [lia| |].
  - cbn [legals]. split.
    + cbn. repeat split; auto. right. easy.
    + intros r t' H. apply fstep_spec in H. cbn [fstep] in H. injection H as <- <-. exact A1.
  - rewrite R1. f_equal. apply truns_cons in R2. destruct R2 as (r1 & t2 & rs1 & -> & T1 & Q1). apply fstep_spec in T1. cbn [fstep] in T1. injection T1 as <- <-.
    f_equal. exact (A2 rs1 Q1).
Qed.

(** ** Examples *)
Definition disk3 (b : nat) : list (list nat) := [[10 * b; 10 * b + 1]; [10 * b + 2; 10 * b + 3]].
Definition junk3 (b : nat) : list (list nat) := [[100 + b; 200 + b]; [300 + b; 400 + b]].
Definition play (c w : nat) (os : list (@bop nat)) : option (list (@bres nat)) :=
  bruns (m_step true c w (fun l => l)) 2 2 1 1 (binit (m_init c w junk3 disk3 [])) os.
Definition meant (os : list (@bop nat)) : option (list (@bres nat)) := fruns 2 2 (t_init (fun b => concat (disk3 b))) os.

Ltac rules :=
  cbn; repeat match goal with
  | |- _ /\ _ => split
  | |- exists p : pos, Some ?q = Some p /\ _ => exists q; cbn
  | |- true = true \/ _ => left; reflexivity
  | |- false = true \/ _ => right
  | |- True => exact I
  end; try reflexivity; try lia; try discriminate.

Definition prog93 : list (@bop nat) :=
  [BOpen 0 [1; 2; 3] 0 true; BConst 0; BOpen 1 [4; 5] 1 false; BSet 1 77; BOther 7 0; BOther 8 0; BInc 0; BInc 0; BInc 0; BInc 0; BConst 0;
   BEnv [0; 1]; BSet 0 66; BOther 2 0; BConst 1; BSkip 0 2 1; BConst 0; BClose 1; BOther 4 1; BNext 0; BClose 0].
Example C93_example_legal : legals 2 2 3 false (t_init (fun b => concat (disk3 b))) prog93.
Proof.
  apply flegals_spec. unfold prog93. rules.
  all: try (left; lia).
  all: try (right; intros b [= <-] y p D; destruct y as [|[|y]]; cbn; try congruence; intros [= <-]; discriminate).
  all: try (intros b [= <-] y p D; destruct y as [|[|y]]; cbn; try congruence; intros [= <-]; discriminate).
  all: try (right; split; [lia|]; intros b [= <-] y p D; destruct y as [|[|y]]; cbn; try congruence; intros [= <-]; discriminate).
  all: try (right; intros b H; discriminate H).
Qed.
Example C93_example : play 3 1 prog93 = meant prog93 /\ meant prog93 =
  Some [BU; BV 10; BU; BU; BL [70; 71]; BL [80; 81]; BB true; BB true; BB true; BB true; BV 20;
        BU; BU; BL [66; 21]; BV 77; BU; BV 32; BU; BL [77; 43]; BU; BU].
Proof. vm_compute. split; reflexivity. Qed.
Example C93_scan_example : play 2 1 (BOpen 0 [3; 1] 0 true :: scan 8) = Some (BU :: seen [30; 31; 32; 33; 10; 11; 12; 13]).
Proof. vm_compute. reflexivity. Qed.

Lemma refute os (c w : nat) : 0 < c -> 0 < w -> legals 2 2 c true (t_init (fun b => concat (disk3 b))) os -> play c w os <> meant os -> ~ C93_full true.
Proof.
  intros C W L N H.
  destruct (H nat 2 2 c w 1 1 (fun l => l) junk3 disk3 [] os) as (rs & R1 & R2); auto.
  - intros b. repeat constructor.
  - apply N. unfold play, meant. rewrite R1. symmetry. now apply fruns_spec.
Qed.

(** Each of the following programs breaks another of the rules that [full = true] drops. *)

(** [operator++] into a block retains it before it is loaded: it is not retained, and other users of the cache take it away. *)
Definition prog93a : list (@bop nat) := [BOpen 0 [1; 2] 1 false; BInc 0; BInc 0; BConst 0; BOther 7 0; BOther 8 0; BConst 0].
Theorem C93_increment_refuted :
  legals 2 2 2 true (t_init (fun b => concat (disk3 b))) prog93a /\ play 2 1 prog93a <> meant prog93a /\ ~ C93_full true.
Proof.
  assert (L : legals 2 2 2 true (t_init (fun b => concat (disk3 b))) prog93a) by (apply flegals_spec; unfold prog93a; rules).
  assert (N : play 2 1 prog93a <> meant prog93a) by (vm_compute; discriminate).
  split; [exact L|]. split; [exact N|]. exact (refute _ 2 1 ltac:(lia) ltac:(lia) L N).
Qed.

(** The constructor releases the block that another reader has retained. *)
Definition prog93c : list (@bop nat) :=
  [BOpen 0 [1] 0 false; BOpen 1 [1] 1 false; BConst 1; BClose 1; BConst 0; BOther 7 0; BOther 8 0; BOther 9 0; BConst 0].
Theorem C93_two_readers_refuted :
  legals 2 2 3 true (t_init (fun b => concat (disk3 b))) prog93c /\ play 3 1 prog93c <> meant prog93c /\ ~ C93_full true.
Proof.
  assert (L : legals 2 2 3 true (t_init (fun b => concat (disk3 b))) prog93c) by (apply flegals_spec; unfold prog93c; rules).
  assert (N : play 3 1 prog93c <> meant prog93c) by (vm_compute; discriminate).
  split; [exact L|]. split; [exact N|]. exact (refute _ 3 1 ltac:(lia) ltac:(lia) L N).
Qed.

(** [skip_to] to the end leaves the iterator at the block that it has released; the destructor releases it again. *)
Definition prog93d : list (@bop nat) :=
  [BOpen 0 [1] 0 false; BSkip 0 1 0; BOpen 1 [1; 2] 0 false; BConst 1; BClose 0; BOther 7 0; BOther 8 0; BOther 9 0; BConst 1].
Theorem C93_skip_to_end_refuted :
  legals 2 2 3 true (t_init (fun b => concat (disk3 b))) prog93d /\ play 3 1 prog93d <> meant prog93d /\ ~ C93_full true.
Proof.
  assert (L : legals 2 2 3 true (t_init (fun b => concat (disk3 b))) prog93d) by (apply flegals_spec; unfold prog93d; rules).
  assert (N : play 3 1 prog93d <> meant prog93d) by (vm_compute; discriminate).
  split; [exact L|]. split; [exact N|]. exact (refute _ 3 1 ltac:(lia) ltac:(lia) L N).
Qed.

(** The flag [dirty_] survives the eviction of the block: the second assignment is lost although its
    subblock has just been loaded. *)
Definition prog93e : list (@bop nat) :=
  [BOpen 0 [1; 2] 1 false; BInc 0; BInc 0; BSet 0 66; BOther 7 0; BOther 8 0; BInc 0; BInc 0; BConst 0; BSet 0 67; BConst 0;
   BOther 7 0; BOther 8 0; BOther 2 1].
Theorem C93_assignment_lost_refuted :
  legals 2 2 2 true (t_init (fun b => concat (disk3 b))) prog93e /\ play 2 1 prog93e <> meant prog93e /\ ~ C93_full true.
Proof.
  assert (L : legals 2 2 2 true (t_init (fun b => concat (disk3 b))) prog93e) by (apply flegals_spec; unfold prog93e; rules).
  assert (N : play 2 1 prog93e <> meant prog93e) by (vm_compute; discriminate).
  split; [exact L|]. split; [exact N|]. exact (refute _ 2 1 ltac:(lia) ltac:(lia) L N).
Qed.
(** What happens. *)
Example C93_refuted_results :
  (play 2 1 prog93a = Some [BU; BB true; BB true; BV 20; BL [70; 71]; BL [80; 81]; BV 80])
  /\ option_map (fun rs => last rs BU) (play 3 1 prog93c) = Some (BV 90) /\ option_map (fun rs => last rs BU) (meant prog93c) = Some (BV 10)
  /\ option_map (fun rs => last rs BU) (play 3 1 prog93d) = Some (BV 90) /\ option_map (fun rs => last rs BU) (meant prog93d) = Some (BV 10)
  /\ option_map (fun rs => last rs BU) (play 2 1 prog93e) = Some (BL [22; 23]) /\ option_map (fun rs => last rs BU) (meant prog93e) = Some (BL [67; 23]).
Proof. vm_compute. repeat split; reflexivity. Qed.

Print Assumptions C93_readers_partial.
Print Assumptions C93_scan.
Print Assumptions C93_increment_refuted.
Print Assumptions C93_two_readers_refuted.
Print Assumptions C93_skip_to_end_refuted.
Print Assumptions C93_assignment_lost_refuted.
