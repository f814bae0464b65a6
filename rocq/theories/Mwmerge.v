(** Proofs about multiway merging, part one: repeatedly taking a smallest head is merging;
    the three- and four-way merges with their labels; merging two sequences. *)
From Coq Require Import List Bool Arith ZArith Lia Permutation Sorted.
From Verif Require Import SumLib OrderLib MwmergeModel MwmergeSpec.
Import ListNotations.

Lemma setn_length {X} (l : list X) : forall i v, length (setn i v l) = length l.
Proof. induction l as [|x l IH]; intros [|i] v; cbn; [reflexivity..|]. now rewrite IH. Qed.
Lemma setn_same {X} (l : list X) d : forall i v, i < length l -> nth i (setn i v l) d = v.
Proof. induction l as [|x l IH]; intros [|i] v H; cbn in *; try lia; [reflexivity|]. apply IH. lia. Qed.
Lemma setn_other {X} (l : list X) d : forall i j v, j <> i -> nth j (setn i v l) d = nth j l d.
Proof.
  induction l as [|x l IH]; intros i j v H; [destruct i, j; reflexivity|].
  destruct i, j; cbn; try congruence; try reflexivity. apply IH. congruence.
Qed.
Lemma setn_map {X Y} (f : X -> Y) (l : list X) : forall i v, map f (setn i v l) = setn i (f v) (map f l).
Proof. induction l as [|x l IH]; intros [|i] v; cbn; [reflexivity..|]. now rewrite IH. Qed.
Lemma setn_id {X} (l : list X) d : forall i, setn i (nth i l d) l = l.
Proof. induction l as [|x l IH]; intros [|i]; cbn; [reflexivity..|]. now rewrite IH. Qed.
Lemma in_concat_nth {X} (y : X) ls : In y (concat ls) <-> exists j, In y (nth j ls []).
Proof.
  split.
  - induction ls as [|l ls IH]; cbn; [tauto|]. intro H. apply in_app_or in H. destruct H as [H|H]; [exists 0; exact H|].
    destruct (IH H) as (j & Hj). exists (S j). exact Hj.
  - intros (j & H). revert j H. induction ls as [|l ls IH]; intros [|j] H; cbn in *; try tauto; apply in_or_app; [left; exact H|right; exact (IH _ H)].
Qed.
Lemma concat_setn_perm {X} (x : X) ls : forall i, i < length ls -> Permutation (concat (setn i (x :: nth i ls []) ls)) (x :: concat ls).
Proof.
  induction ls as [|l ls IH]; intros [|i] H; cbn in *; try lia; [apply Permutation_refl|].
  eapply Permutation_trans; [apply Permutation_app_head, IH; lia|]. symmetry. apply Permutation_middle.
Qed.
Lemma concat_setn_filter {X} (p : X -> bool) x ls : forall i, i < length ls ->
  (p x = true -> forall j y, j < i -> In y (nth j ls []) -> p y = false) ->
  filter p (concat (setn i (x :: nth i ls []) ls)) = filter p (x :: concat ls).
Proof.
  induction ls as [|l ls IH]; intros [|i] H Hp; cbn [length setn nth concat] in *; try lia; [reflexivity|].
  rewrite filter_app, IH; [|lia|intros E j y Hj Hy; exact (Hp E (S j) y ltac:(lia) Hy)].
  cbn [filter]. rewrite filter_app. destruct (p x) eqn:E; [|reflexivity].
  assert (Z : filter p l = []).
  { pose proof (fun y => Hp eq_refl 0 y ltac:(lia)) as Q. cbn in Q. clear -Q. induction l as [|y l IH]; [reflexivity|].
    cbn. rewrite (Q y (or_introl eq_refl)). apply IH. intros; apply Q; now right. }
  rewrite Z. reflexivity.
Qed.

Section Steps.
  Variable A : Type.
  Variable lt : A -> A -> bool.
  Hypothesis SW : strict_weak lt.
  Variable stable : bool.

  (** the head [x] of sequence [i] may be taken *)
  Definition head_min (ls : list (list A)) (i : nat) (x : A) : Prop :=
    forall j y r, nth j ls [] = y :: r -> le lt x y /\ (stable = true -> j < i -> lt x y = true).
  Inductive steps : list (list A) -> list A -> list (list A) -> Prop :=
  | steps_nil ls : steps ls [] ls
  | steps_cons ls i x r out ls' : nth i ls [] = x :: r -> head_min ls i x -> steps (setn i r ls) out ls' -> steps ls (x :: out) ls'.

  Lemma nth_in_range {X} (ls : list (list X)) i x r : nth i ls [] = x :: r -> i < length ls.
  Proof. intro H. destruct (Nat.lt_ge_cases i (length ls)) as [L|L]; [exact L|]. rewrite nth_overflow in H by exact L. discriminate. Qed.

  Lemma steps_app ls o1 ls1 o2 ls2 : steps ls o1 ls1 -> steps ls1 o2 ls2 -> steps ls (o1 ++ o2) ls2.
  Proof. induction 1; intro H2; cbn; [exact H2|]. econstructor; eauto. Qed.

  Lemma sorted_setn ls i x r : Forall (sorted lt) ls -> nth i ls [] = x :: r -> Forall (sorted lt) (setn i r ls).
  Proof.
    revert i. induction ls as [|l ls IH]; intros [|i] H E; cbn in *; try discriminate; inversion H as [|? ? H1 H2]; subst; constructor; try assumption.
    - inversion H1; assumption.
    - exact (IH i H2 E).
  Qed.
  Lemma sorted_nth ls i : Forall (sorted lt) ls -> sorted lt (nth i ls []).
  Proof.
    intro H. destruct (Nat.lt_ge_cases i (length ls)) as [L|L]; [|rewrite nth_overflow by exact L; constructor].
    rewrite Forall_forall in H. apply H, nth_In, L.
  Qed.
  Lemma min_all ls i x : Forall (sorted lt) ls -> head_min ls i x -> forall j y, In y (nth j ls []) ->
    le lt x y /\ (stable = true -> j < i -> lt x y = true).
  Proof.
    intros Hs Hm j y Hy. pose proof (sorted_nth ls j Hs) as Hj. destruct (nth j ls []) as [|z l] eqn:E; [contradiction|].
    destruct (Hm j z l E) as (H1 & H2). pose proof (sorted_hd _ _ SW z l y Hj Hy) as H3.
    split; [exact (le_trans _ _ SW _ _ _ H1 H3)|]. intros St Hji. specialize (H2 St Hji).
    destruct (sw_incomp _ SW x y z H2) as [Q|Q]; [exact Q|]. unfold le in H3. congruence.
  Qed.

  Lemma steps_length ls out ls' : steps ls out ls' -> length out + length (concat ls') = length (concat ls) /\ length ls' = length ls.
  Proof.
    induction 1 as [ls|ls i x r out ls' E Hm Hs [IH1 IH2]]; [split; reflexivity|].
    rewrite setn_length in IH2. split; [|exact IH2]. cbn [length plus]. rewrite IH1.
    pose proof (nth_in_range _ _ _ _ E) as Hi. rewrite <- (setn_id ls [] i) at 2. rewrite E.
    pose proof (concat_setn_perm x (setn i r ls) i ltac:(rewrite setn_length; exact Hi)) as P. rewrite setn_same in P by exact Hi.
    apply Permutation_length in P. cbn in P.
    replace (setn i (x :: r) (setn i r ls)) with (setn i (x :: r) ls) in P; [lia|].
    clear. revert i. induction ls as [|l ls IH]; intros [|i]; cbn; [reflexivity..|]. now rewrite <- IH.
  Qed.

  Theorem steps_merged ls out ls' : Forall (sorted lt) ls -> steps ls out ls' -> merged lt stable ls (length out) out ls'.
  Proof.
    intros Hs H. induction H as [ls|ls i x r out ls' E Hm Hst IH].
    - split; [reflexivity|]. exists (repeat [] (length ls)).
      assert (R : forall i, nth i (repeat (@nil A) (length ls)) [] = []).
      { intro i. generalize (length ls) as m. intro m. revert i. induction m as [|m IH]; intros [|i]; cbn; auto. }
      assert (C : concat (repeat (@nil A) (length ls)) = []) by (generalize (length ls); intro m; induction m; cbn; auto).
      split; [|intros _].
      + split; [apply repeat_length|]. split; [reflexivity|]. split; [intro i; rewrite R; reflexivity|].
        split; [constructor|]. rewrite C. split; [constructor|]. intros x y [].
      + split; [intro z; rewrite C; reflexivity|]. intros i j x y _ _ Hy. rewrite R in Hy. destruct Hy.
    - pose proof (nth_in_range _ _ _ _ E) as Hi.
      destruct (IH (sorted_setn _ _ _ _ Hs E)) as (_ & taken & (L1 & L2 & N & So & P & Be) & St). clear IH.
      rewrite setn_length in L1, L2.
      assert (Sub : forall j y, In y (nth j (setn i r ls) []) -> In y (nth j ls [])).
      { intros j y Hy. destruct (Nat.eq_dec j i) as [->|D]; [rewrite setn_same in Hy by exact Hi; rewrite E; now right|].
        rewrite setn_other in Hy by exact D. exact Hy. }
      pose proof (min_all ls i x Hs Hm) as Mi.
      assert (Tin : forall j y, In y (nth j taken []) -> In y (nth j ls [])).
      { intros j y Hy. apply Sub. rewrite N. apply in_or_app. now left. }
      assert (Rin : forall j y, In y (nth j ls' []) -> In y (nth j ls [])).
      { intros j y Hy. apply Sub. rewrite N. apply in_or_app. now right. }
      split; [reflexivity|]. exists (setn i (x :: nth i taken []) taken). split; [|intro Hstb].
      + split; [rewrite setn_length; exact L1|]. split; [exact L2|]. split; [|split; [|split]].
        * intro j. specialize (N j). destruct (Nat.eq_dec j i) as [->|D].
          -- rewrite setn_same in N by exact Hi. rewrite setn_same by lia. rewrite E, N. reflexivity.
          -- rewrite setn_other in N by exact D. rewrite setn_other by exact D. exact N.
        * constructor; [exact So|]. apply Forall_forall. intros y Hy. apply (Permutation_in _ P), in_concat_nth in Hy.
          destruct Hy as (j & Hy). apply (Mi j), Tin, Hy.
        * etransitivity; [apply perm_skip, P|]. symmetry. apply concat_setn_perm. lia.
        * intros u y Hu Hy. apply (Permutation_in _ (concat_setn_perm x taken i ltac:(lia))) in Hu. destruct Hu as [<-|Hu]; [|exact (Be u y Hu Hy)].
          apply in_concat_nth in Hy. destruct Hy as (j & Hy). apply (Mi j), Rin, Hy.
      + destruct (St Hstb) as (S1 & S2). split.
        * intro z. rewrite concat_setn_filter; [cbn [filter]; rewrite S1; reflexivity|lia|].
          intros Ez j y Hj Hy. apply Tin in Hy. pose proof (proj2 (Mi j y Hy) Hstb Hj) as Lxy.
          unfold equiv in *. apply andb_prop in Ez. destruct Ez as (E1 & E2). apply negb_true_iff in E1, E2.
          destruct (lt z y) eqn:E3; [reflexivity|]. destruct (sw_incomp _ SW x z y Lxy); congruence.
        * intros a b u y Hab Hu Hy. destruct (Nat.eq_dec b i) as [->|D].
          -- rewrite setn_same in Hy by lia. destruct Hy as [<-|Hy]; [|exact (S2 a i u y Hab Hu Hy)].
             exact (proj2 (Mi a u (Rin a u Hu)) Hstb Hab).
          -- rewrite setn_other in Hy by exact D. exact (S2 a b u y Hab Hu Hy).
  Qed.
End Steps.
Arguments steps {A}. Arguments head_min {A}.

Lemma steps_weaken {A} (lt : A -> A -> bool) b ls o ls' : steps lt true ls o ls' -> steps lt b ls o ls'.
Proof.
  induction 1 as [|ls i x r out ls' E Hm Hs IH]; [constructor|]. econstructor; [exact E| |exact IH].
  intros j y r' Ej. destruct (Hm j y r' Ej) as (H1 & H2). split; [exact H1|]. intros _. exact (H2 eq_refl).
Qed.

Section Labels.
  Variable A : Type.
  Variable lt : A -> A -> bool.
  Hypothesis SW : strict_weak lt.
  Notation rng := (list A * list A)%type.
  Notation seqs := (list (list A * list A)).

  Lemma get_map (s : seqs) i : nth i (map fst s) [] = fst (get s i).
  Proof. unfold get. change (@nil A) with (fst (@nil A, @nil A)) at 1. apply map_nth. Qed.
  Lemma get_map_snd (s : seqs) i : nth i (map snd s) [] = snd (get s i).
  Proof. unfold get. change (@nil A) with (snd (@nil A, @nil A)) at 1. apply map_nth. Qed.
  Lemma total_concat (s : seqs) : total s = length (concat (map fst s)).
  Proof. unfold total. induction s as [|r s IH]; [reflexivity|]. cbn [map list_sum fold_right concat]. rewrite app_length, <- IH. reflexivity. Qed.
  Lemma take_some (s : seqs) i x r b : get s i = (x :: r, b) -> take i s = Some (x, setn i (r, b) s).
  Proof. unfold take. intros ->. reflexivity. Qed.
  Lemma in_range (s : seqs) i x r b : get s i = (x :: r, b) -> i < length s.
  Proof. unfold get. intro H. destruct (Nat.lt_ge_cases i (length s)) as [L|L]; [exact L|]. rewrite nth_overflow in H by exact L. discriminate. Qed.
  Lemma set_fst (s : seqs) i r b : map fst (setn i (r, b) s) = setn i r (map fst s).
  Proof. apply setn_map. Qed.
  Lemma set_snd (s : seqs) i l r b : get s i = (l, b) -> map snd (setn i (r, b) s) = map snd s.
  Proof.
    intro H. rewrite setn_map. cbn. pose proof (get_map_snd s i) as E. rewrite H in E. cbn in E. rewrite <- E. apply setn_id.
  Qed.

  (** order of two players by their visible heads *)
  Definition hprec (i j : nat) (a b : option A) : Prop :=
    match a, b with
    | _, None => True
    | None, Some _ => False
    | Some x, Some y => le lt x y /\ (lt x y = true \/ i < j)
    end.
  Lemma hprec_trans i j k a b c : hprec i j a b -> hprec j k b c -> hprec i k a c.
  Proof.
    destruct a as [x|], b as [y|], c as [z|]; cbn; try tauto. intros (H1 & H2) (H3 & H4).
    split; [exact (le_trans _ _ SW _ _ _ H1 H3)|]. destruct H2 as [H2|H2], H4 as [H4|H4].
    - left. exact (sw_trans _ SW _ _ _ H2 H4).
    - left. destruct (sw_incomp _ SW x z y H2) as [Q|Q]; [exact Q|]. unfold le in H3. congruence.
    - left. destruct (sw_incomp _ SW y x z H4) as [Q|Q]; [|exact Q]. unfold le in H1. congruence.
    - right. lia.
  Qed.

  (** what an iterator sees: a guarded one the sequence, an unguarded one also what is behind it *)
  Definition sees (g : bool) (r : rng) : option A := if g then hd_error (fst r) else read A r.
  Definition visible (g : bool) (r : rng) : Prop := g = true \/ sees g r <> None.
  Lemma op_ok g i j a b : i <> j -> visible g a -> visible g b ->
    exists t, op A lt g (Nat.ltb i j) a b = Some t /\ (if t then hprec i j (sees g a) (sees g b) else hprec j i (sees g b) (sees g a)).
  Proof.
    intros D Va Vb. unfold op, sees. destruct g.
    - destruct (Nat.ltb_spec i j) as [L|L]; unfold leq_g, less_g; destruct (fst a) as [|x ?], (fst b) as [|y ?]; cbn; eexists; (split; [reflexivity|]); cbn; try exact I.
      + destruct (lt y x) eqn:E; cbn; split; auto. apply sw_asym; assumption.
      + destruct (lt x y) eqn:E; cbn; split; auto; [apply sw_asym; assumption|right; lia].
    - destruct Va as [Va|Va], Vb as [Vb|Vb]; try discriminate. unfold sees in *.
      unfold leq_u, less_u. destruct (read A a) as [x|]; [|congruence]. destruct (read A b) as [y|]; [|congruence]. cbn [bind].
      destruct (Nat.ltb_spec i j) as [L|L]; eexists; (split; [reflexivity|]).
      + destruct (lt y x) eqn:E; cbn; split; auto. apply sw_asym; assumption.
      + destruct (lt x y) eqn:E; cbn; split; auto; [apply sw_asym; assumption|right; lia].
  Qed.

  Definition prec (g : bool) (s : seqs) (i j : nat) : Prop := hprec i j (sees g (get s i)) (sees g (get s j)).
  Definition ordered (g : bool) (s : seqs) (label : list nat) : Prop := ForallOrdPairs (prec g s) label.

  Fixpoint inserts (a : nat) (l : list nat) : list (list nat) :=
    (a :: l) :: match l with [] => [] | b :: l' => map (cons b) (inserts a l') end.

  Lemma place_ok g s a : forall others, Forall (fun b => b <> a) others -> (forall i, In i (a :: others) -> visible g (get s i)) -> ordered g s others ->
    exists l, place A lt g s a (map (Nat.ltb a) others) others = Some l /\ ordered g s l /\ In l (inserts a others) /\ (forall i, In i l <-> In i (a :: others)).
  Proof.
    induction others as [|b others IH]; intros Hd Hv Ho; cbn [place map].
    - eexists. split; [reflexivity|]. split; [repeat constructor|]. split; [now left|tauto].
    - inversion Hd as [|? ? Hb Hd']; subst. inversion Ho as [|? ? Hf Ho']; subst.
      destruct (op_ok g a b (get s a) (get s b) ltac:(congruence) (Hv a (or_introl eq_refl)) (Hv b (or_intror (or_introl eq_refl)))) as (t & -> & Ht).
      cbn [bind]. destruct t.
      + eexists. split; [reflexivity|]. split; [|split; [now left|tauto]].
        constructor; [|exact Ho]. constructor; [exact Ht|]. rewrite Forall_forall in *. intros c Hc. exact (hprec_trans _ _ _ _ _ _ Ht (Hf c Hc)).
      + destruct (IH Hd' ltac:(intros i [<-|Hi]; apply Hv; cbn; auto) Ho') as (l & -> & Hl & Hi & Hin). cbn [bind].
        eexists. split; [reflexivity|]. split; [|split].
        * constructor; [|exact Hl]. rewrite Forall_forall in *. intros c Hc. apply Hin in Hc. destruct Hc as [<-|Hc]; [exact Ht|exact (Hf c Hc)].
        * right. apply in_map. exact Hi.
        * intro i. cbn. rewrite (Hin i). cbn. tauto.
  Qed.

  (** the labels form a complete table with the right operators *)
  Definition entry_ok (k : nat) (table : list (list nat * list bool)) (label : list nat) : bool :=
    match label, lookup table label with
    | a :: others, Some ops =>
        (if list_eq_dec Bool.bool_dec ops (map (Nat.ltb a) others) then true else false) &&
        forallb (fun b => negb (Nat.eqb b a)) others &&
        forallb (fun l => match lookup table l with Some _ => true | None => false end) (inserts a others) &&
        forallb (fun j => existsb (Nat.eqb j) label) (seq 0 k) && forallb (fun j => Nat.ltb j k) label
    | _, _ => false
    end.
  Lemma entry_in k table label : forallb (fun e => entry_ok k table (fst e)) table = true -> lookup table label <> None -> entry_ok k table label = true.
  Proof.
    intros Hf Hl. unfold lookup in Hl. destruct (find _ table) as [e|] eqn:E; [|cbn in Hl; congruence].
    apply find_some in E. destruct E as (Hin & He). rewrite forallb_forall in Hf. specialize (Hf e Hin). cbn in He.
    destruct (list_eq_dec Nat.eq_dec (fst e) label) as [<-|]; [exact Hf|discriminate].
  Qed.

  Lemma sees_real g (r : rng) x l : fst r = x :: l -> sees g r = Some x.
  Proof. unfold sees, read. intros ->. destruct g; reflexivity. Qed.

  Section Run.
    Variables (late g : bool) (k : nat) (table : list (list nat * list bool)).
    Hypothesis Htab : forallb (fun e => entry_ok k table (fst e)) table = true.
    (** what holds of the sequences while [n] more elements are to be taken *)
    Variable I : nat -> seqs -> Prop.
    Hypothesis Ivis : forall n s i, I n s -> 0 < n \/ late = true -> i < k -> length s = k -> visible g (get s i).
    Hypothesis Istep : forall n s a x r b, I (S n) s -> get s a = (x :: r, b) -> head_min lt true (map fst s) a x -> I n (setn a (r, b) s).
    (** an element of a sequence is seen before what lies behind any other *)
    Hypothesis Ireal : forall n s i j y r, I (S n) s -> length s = k -> i < k -> j < k -> fst (get s j) = y :: r -> prec g s i j -> fst (get s i) <> [].

    Lemma run_ok : forall len label s, length s = k -> I len s -> lookup table label <> None -> ordered g s label -> len <= total s ->
      exists out s', run A lt late g table len label s = Some (out, s') /\ steps lt true (map fst s) out (map fst s') /\ length out = len /\ map snd s' = map snd s.
    Proof.
      induction len as [|n IH]; intros label s Hk HP Hl Ho Ht.
      { exists [], s. cbn. repeat split; constructor. }
      pose proof (entry_in _ _ _ Htab Hl) as He. unfold entry_ok in He. destruct label as [|a others]; [discriminate|].
      destruct (lookup table (a :: others)) as [ops|] eqn:El; [|discriminate]. repeat (apply andb_prop in He; destruct He as (He & ?H)).
      destruct (list_eq_dec Bool.bool_dec ops (map (Nat.ltb a) others)) as [->|]; [|discriminate].
      rewrite forallb_forall in H, H0, H1, H2. inversion Ho as [|? ? Hf Ho']; subst. rewrite Forall_forall in Hf.
      assert (Hcover : forall j, j < length s -> In j (a :: others)).
      { intros j Hj. specialize (H0 j ltac:(apply in_seq; lia)). apply existsb_exists in H0. destruct H0 as (j' & Hj' & E). apply Nat.eqb_eq in E. subst. exact Hj'. }
      assert (Hlt : forall j, In j (a :: others) -> j < length s) by (intros j Hj; specialize (H j Hj); apply Nat.ltb_lt in H; exact H).
      assert (Ha : a < length s) by (apply Hlt; now left).
      assert (Hmin : forall j, j < length s -> j <> a -> prec g s a j).
      { intros j Hj D. apply Hcover in Hj. destruct Hj as [->|Hj]; [congruence|]. exact (Hf j Hj). }
      assert (Hne : fst (get s a) <> []).
      { intro E. assert (Z : concat (map fst s) = []).
        { destruct (concat (map fst s)) as [|y l] eqn:Ec; [reflexivity|]. exfalso.
          assert (Hy : In y (concat (map fst s))) by (rewrite Ec; now left). apply in_concat_nth in Hy. destruct Hy as (j & Hy). rewrite get_map in Hy.
          destruct (fst (get s j)) as [|y' r'] eqn:Ej; [contradiction|]. destruct (get s j) as [lj bj] eqn:Gj. cbn in Ej. subst lj.
          pose proof (in_range _ _ _ _ _ Gj) as Hj. destruct (Nat.eq_dec j a) as [->|D]; [rewrite Gj in E; discriminate|].
          apply (Ireal n s a j y' r'); [exact HP|reflexivity|exact Ha|exact Hj|rewrite Gj; reflexivity|exact (Hmin j Hj D)|exact E]. }
        rewrite total_concat, Z in Ht. cbn in Ht. lia. }
      destruct (get s a) as [[|x r] b] eqn:Ga; [cbn in Hne; congruence|].
      set (s1 := setn a (r, b) s).
      assert (Hm : head_min lt true (map fst s) a x).
      { intros j y l Ej. rewrite get_map in Ej. destruct (get s j) as [lj bj] eqn:Gj. cbn in Ej. subst lj.
        pose proof (in_range _ _ _ _ _ Gj) as Hj. destruct (Nat.eq_dec j a) as [->|D].
        - rewrite Ga in Gj. injection Gj as -> _ _. split; [apply le_refl, SW|lia].
        - specialize (Hmin j Hj D). unfold prec in Hmin. rewrite (sees_real g (get s a) x r), (sees_real g (get s j) y l) in Hmin by (rewrite ?Ga, ?Gj; reflexivity).
          destruct Hmin as (M1 & M2). split; [exact M1|]. intros _ Hja. destruct M2; [assumption|lia]. }
      assert (Ea : nth a (map fst s) [] = x :: r) by (rewrite get_map, Ga; reflexivity).
      assert (Hstep : forall out ls', steps lt true (map fst s1) out ls' -> steps lt true (map fst s) (x :: out) ls').
      { intros out ls' Hs. econstructor; [exact Ea|exact Hm|]. unfold s1 in Hs. rewrite set_fst in Hs. exact Hs. }
      assert (Hsnd : map snd s1 = map snd s) by (apply (set_snd s a (x :: r) r b Ga)).
      assert (Htot : total s = S (total s1)).
      { rewrite !total_concat. pose proof (steps_length _ lt true _ _ _ (Hstep [] _ (steps_nil _ _ _ _))) as (Q & _). cbn in Q. lia. }
      cbn [run]. rewrite (take_some _ _ _ _ _ Ga). cbn [bind]. fold s1.
      destruct (negb late && Nat.eqb n 0) eqn:Eend.
      { apply andb_prop in Eend. destruct Eend as (_ & Eend). apply Nat.eqb_eq in Eend. subst n. exists [x], s1. split; [reflexivity|].
        split; [apply Hstep; constructor|]. split; [reflexivity|exact Hsnd]. }
      rewrite El. cbn [bind].
      assert (Hs1 : length s1 = length s) by apply setn_length.
      pose proof (Istep n s a x r b HP Ga Hm) as HP1. fold s1 in HP1.
      destruct (place_ok g s1 a others) as (l & Epl & Hol & Hil & Hinl).
      - apply Forall_forall. intros b' Hb' ->. specialize (H2 a Hb'). rewrite Nat.eqb_refl in H2. discriminate.
      - intros i Hi. apply (Ivis n s1 i HP1); [|apply Hlt, Hi|exact Hs1].
        destruct late; [right; reflexivity|]. left. cbn in Eend. destruct n; [discriminate|lia].
      - assert (X : forall i, In i others -> get s1 i = get s i).
        { intros i Hi. unfold s1, get. apply setn_other. intros ->. specialize (H2 a Hi). rewrite Nat.eqb_refl in H2. discriminate. }
        clear -Ho' X. induction others as [|c others IH]; [constructor|]. inversion Ho' as [|? ? Hf Ho]; subst. constructor.
        + rewrite Forall_forall in *. intros d Hd. unfold prec. rewrite !X by (cbn; auto). exact (Hf d Hd).
        + apply IH; [exact Ho|]. intros; apply X. now right.
      - rewrite Epl. cbn [bind].
        destruct (IH l s1) as (out & s' & -> & Hst & Hlen & Hb').
        + lia.
        + exact HP1.
        + specialize (H1 l Hil). destruct (lookup table l); [discriminate|discriminate H1].
        + exact Hol.
        + lia.
        + exists (x :: out), s'. cbn [bind]. split; [reflexivity|]. split; [apply Hstep, Hst|]. split; [cbn; congruence|congruence].
    Qed.
  End Run.

  Lemma table3_ok : forallb (fun e => entry_ok 3 table3 (fst e)) table3 = true.
  Proof. vm_compute. reflexivity. Qed.
  Lemma table4_ok : forallb (fun e => entry_ok 4 table4 (fst e)) table4 = true.
  Proof. vm_compute. reflexivity. Qed.

  Ltac tst g s Hv i j c := let t := fresh "t" in let E := fresh "E" in let H := fresh "H" in
    destruct (op_ok g i j (get s i) (get s j) ltac:(discriminate) (Hv i ltac:(lia)) (Hv j ltac:(lia))) as (t & E & H);
    change (Nat.ltb i j) with c in E; rewrite E; clear E; cbn [bind]; destruct t.
  Ltac prec_tac := first [assumption | eapply hprec_trans; eassumption].
  Ltac ord_tac := repeat first [apply FOP_nil | apply FOP_cons | apply Forall_nil | apply Forall_cons]; prec_tac.

  Lemma start3_ok g s : (forall i, i < 3 -> visible g (get s i)) ->
    exists l, start3 A lt g s = Some l /\ ordered g s l /\ lookup table3 l <> None.
  Proof.
    intro Hv. unfold start3. cbv zeta.
    tst g s Hv 0 1 true; tst g s Hv 1 2 true; [| tst g s Hv 2 0 false | tst g s Hv 0 2 true | ];
      (eexists; split; [reflexivity|]; split; [|vm_compute; discriminate]; unfold ordered; ord_tac).
  Qed.

  Lemma decision_ok g s a b c : (forall i, i < 4 -> visible g (get s i)) -> a < 3 -> b < 3 -> c < 3 -> ordered g s [a; b; c] ->
    exists l, decision A lt g s a b c 3 = Some l /\ ordered g s l /\ In l (inserts 3 [a; b; c]).
  Proof.
    intros Hv Ha Hb Hc Ho. unfold decision. cbv zeta.
    inversion Ho as [|? ? F1 O1]; subst. inversion O1 as [|? ? F2 O2]; subst. inversion F1 as [|? ? P1 F3]; subst. inversion F3 as [|? ? P2 _]; subst. inversion F2 as [|? ? P3 _]; subst.
    clear Ho O1 F1 F2 F3 O2.
    assert (T : forall i, i < 3 -> exists t, op A lt g false (get s 3) (get s i) = Some t /\ if t then prec g s 3 i else prec g s i 3).
    { intros i Hi. destruct (op_ok g 3 i (get s 3) (get s i) ltac:(lia) (Hv 3 ltac:(lia)) (Hv i ltac:(lia))) as (t & E & H).
      replace (Nat.ltb 3 i) with false in E by (symmetry; apply Nat.ltb_ge; lia). eauto. }
    destruct (T a Ha) as (ta & -> & Hta). cbn [bind]. destruct ta; [eexists; split; [reflexivity|]; split; [|cbn; auto]; unfold ordered, prec in *; ord_tac|].
    destruct (T b Hb) as (tb & -> & Htb). cbn [bind]. destruct tb; [eexists; split; [reflexivity|]; split; [|cbn; auto]; unfold ordered, prec in *; ord_tac|].
    destruct (T c Hc) as (tc & -> & Htc). cbn [bind]. destruct tc; (eexists; split; [reflexivity|]; split; [|cbn; auto]; unfold ordered, prec in *; ord_tac).
  Qed.

  Lemma start4_ok g s : (forall i, i < 4 -> visible g (get s i)) ->
    exists l, start4 A lt g s = Some l /\ ordered g s l /\ lookup table4 l <> None.
  Proof.
    intro Hv.
    assert (D : forall a b c, a < 3 -> b < 3 -> c < 3 -> forallb (fun l => match lookup table4 l with Some _ => true | None => false end) (inserts 3 [a; b; c]) = true ->
      ordered g s [a; b; c] -> exists l, decision A lt g s a b c 3 = Some l /\ ordered g s l /\ lookup table4 l <> None).
    { intros a b c Ha Hb Hc Ht Ho. destruct (decision_ok g s a b c Hv Ha Hb Hc Ho) as (l & E & Hl & Hi). exists l. split; [exact E|]. split; [exact Hl|].
      rewrite forallb_forall in Ht. specialize (Ht l Hi). destruct (lookup table4 l); [discriminate|discriminate Ht]. }
    unfold start4. cbv zeta.
    tst g s Hv 0 1 true; tst g s Hv 1 2 true; [| tst g s Hv 2 0 false | tst g s Hv 0 2 true | ];
      (apply D; [lia|lia|lia|vm_compute; reflexivity|unfold ordered; ord_tac]).
  Qed.

  (** what a merging function has to do *)
  Definition takes (stable : bool) (s : seqs) (len : nat) (r : option (list A * seqs)) : Prop :=
    exists out s', r = Some (out, s') /\ steps lt stable (map fst s) out (map fst s') /\ length out = len /\ map snd s' = map snd s.

  Section Variants.
    Variable g : bool.
    Variable I : nat -> seqs -> Prop.
    Hypothesis Istep : forall n s a x r b, I (S n) s -> get s a = (x :: r, b) -> head_min lt true (map fst s) a x -> I n (setn a (r, b) s).

    Lemma merge3_ok s len : length s = 3 ->
      (forall n s i, I n s -> 0 < n \/ false = true -> i < 3 -> length s = 3 -> visible g (get s i)) ->
      (forall n s i j y r, I (S n) s -> length s = 3 -> i < 3 -> j < 3 -> fst (get s j) = y :: r -> prec g s i j -> fst (get s i) <> []) ->
      I len s -> len <= total s -> takes true s len (merge3 A lt g s len).
    Proof.
      intros Hl Iv Ir Hi Ht. unfold merge3. destruct (Nat.eqb_spec len 0) as [->|D]; [exists [], s; repeat split; constructor|].
      destruct (start3_ok g s) as (l & -> & Ho & Hk); [intros i H3; apply (Iv len s i Hi); [lia|exact H3|exact Hl]|]. cbn [bind].
      exact (run_ok false g 3 table3 table3_ok I Iv Istep Ir len l s Hl Hi Hk Ho Ht).
    Qed.
    Lemma merge4_ok s len : length s = 4 ->
      (forall n s i, I n s -> 0 < n \/ true = true -> i < 4 -> length s = 4 -> visible g (get s i)) ->
      (forall n s i j y r, I (S n) s -> length s = 4 -> i < 4 -> j < 4 -> fst (get s j) = y :: r -> prec g s i j -> fst (get s i) <> []) ->
      I len s -> len <= total s -> takes true s len (merge4 A lt g s len).
    Proof.
      intros Hl Iv Ir Hi Ht. unfold merge4. destruct (Nat.eqb_spec len 0) as [->|D]; [exists [], s; repeat split; constructor|].
      destruct (start4_ok g s) as (l & -> & Ho & Hk); [intros i H3; apply (Iv len s i Hi); [lia|exact H3|exact Hl]|]. cbn [bind].
      exact (run_ok true g 4 table4 table4_ok I Iv Istep Ir len l s Hl Hi Hk Ho Ht).
    Qed.
  End Variants.

  Lemma prec_real s i j y r : fst (get s j) = y :: r -> prec true s i j -> fst (get s i) <> [].
  Proof. unfold prec, sees. intros -> H E. rewrite E in H. exact H. Qed.
  Theorem merge3_guarded s len : length s = 3 -> len <= total s -> takes true s len (merge3 A lt true s len).
  Proof.
    intros Hl Ht. apply (merge3_ok true (fun _ _ => True)); auto; [intros; now left|]. intros n s0 i j y r _ _ _ _. apply prec_real.
  Qed.
  Theorem merge4_guarded s len : length s = 4 -> len <= total s -> takes true s len (merge4 A lt true s len).
  Proof.
    intros Hl Ht. apply (merge4_ok true (fun _ _ => True)); auto; [intros; now left|]. intros n s0 i j y r _ _ _ _. apply prec_real.
  Qed.

  (** a sentinel behind every sequence, greater than all elements *)
  Definition guarded_by (all : list A) (r : rng) : Prop := exists z b, snd r = z :: b /\ incl (fst r) all /\ (forall x, In x all -> lt x z = true).
  Definition sentinelled (s : seqs) : Prop := Forall (guarded_by (concat (map fst s))) s.
  Lemma sentinel_get all s i : Forall (guarded_by all) s -> i < length s -> guarded_by all (get s i).
  Proof. intros H Hi. rewrite Forall_forall in H. apply H, nth_In, Hi. Qed.
  Lemma sentinel_step all s a x r b : Forall (guarded_by all) s -> get s a = (x :: r, b) -> Forall (guarded_by all) (setn a (r, b) s).
  Proof.
    intros H Ga. pose proof (in_range _ _ _ _ _ Ga) as Ha. apply Forall_forall. intros q Hq. apply (In_nth _ _ ([], [])) in Hq. destruct Hq as (i & Hi & Eq).
    rewrite setn_length in Hi. destruct (Nat.eq_dec i a) as [->|D].
    - rewrite setn_same in Eq by exact Ha. subst q. destruct (sentinel_get _ _ _ H Ha) as (z & b' & Z & Inc & Gt). rewrite Ga in Z, Inc. cbn in Z, Inc.
      exists z, b'. split; [exact Z|]. split; [|exact Gt]. intros u Hu. apply Inc. now right.
    - rewrite setn_other in Eq by exact D. subst q. apply (sentinel_get _ _ _ H Hi).
  Qed.
  Lemma sentinel_vis all r : guarded_by all r -> visible false r.
  Proof. intros (z & b & E & _). right. unfold sees, read. rewrite E. destruct (fst r); discriminate. Qed.
  Lemma sentinel_real all s i j y r : guarded_by all (get s i) -> guarded_by all (get s j) -> fst (get s j) = y :: r -> prec false s i j -> fst (get s i) <> [].
  Proof.
    intros (z & b & Ez & _ & Gt) (z' & b' & Ez' & Inc & _) Ej. unfold prec, sees, read. rewrite Ej. intros H E. rewrite E, Ez in H. cbn in H. destruct H as (H & _).
    unfold le in H. rewrite (Gt y) in H; [discriminate|]. apply Inc. rewrite Ej. now left.
  Qed.
  Theorem merge3_sentinel s len : length s = 3 -> len <= total s -> sentinelled s -> takes true s len (merge3 A lt false s len).
  Proof.
    intros Hl Ht Hs. apply (merge3_ok false (fun _ s' => Forall (guarded_by (concat (map fst s))) s')); auto.
    - intros n s0 a x r b Hi Ga _. exact (sentinel_step _ _ _ _ _ _ Hi Ga).
    - intros n s0 i Hi _ Hk H0. apply (sentinel_vis (concat (map fst s))), sentinel_get; [exact Hi|lia].
    - intros n s0 i j y r Hi H0 H1 H2. apply (sentinel_real (concat (map fst s))); apply sentinel_get; auto; lia.
  Qed.
  Theorem merge4_sentinel s len : length s = 4 -> len <= total s -> sentinelled s -> takes true s len (merge4 A lt false s len).
  Proof.
    intros Hl Ht Hs. apply (merge4_ok false (fun _ s' => Forall (guarded_by (concat (map fst s))) s')); auto.
    - intros n s0 a x r b Hi Ga _. exact (sentinel_step _ _ _ _ _ _ Hi Ga).
    - intros n s0 i Hi _ Hk H0. apply (sentinel_vis (concat (map fst s))), sentinel_get; [exact Hi|lia].
    - intros n s0 i j y r Hi H0 H1 H2. apply (sentinel_real (concat (map fst s))); apply sentinel_get; auto; lia.
  Qed.

  (** no sequence is used up by fewer than [n] elements *)
  Definition lasting (n : nat) (ls : list (list A)) : Prop :=
    forall o ls', steps lt true ls o ls' -> length o < n -> forall i, i < length ls -> nth i ls' [] <> [].
  Lemma lasting_step n s a x r b : lasting (S n) (map fst s) -> get s a = (x :: r, b) -> head_min lt true (map fst s) a x -> lasting n (map fst (setn a (r, b) s)).
  Proof.
    intros H Ga Hm o ls' Hs Ho i Hi. rewrite set_fst in Hs, Hi. rewrite setn_length in Hi.
    apply (H (x :: o) ls'); [|cbn; lia|exact Hi]. apply (steps_cons _ _ _ _ a x r); [rewrite get_map, Ga; reflexivity|exact Hm|exact Hs].
  Qed.
  Lemma lasting_now n s i : lasting (S n) (map fst s) -> i < length s -> fst (get s i) <> [].
  Proof. intros H Hi. rewrite <- get_map. apply (H [] (map fst s)); [constructor|cbn; lia|rewrite map_length; exact Hi]. Qed.
  Theorem merge3_lasting s len : length s = 3 -> len <= total s -> lasting len (map fst s) -> takes true s len (merge3 A lt false s len).
  Proof.
    intros Hl Ht Hs. apply (merge3_ok false (fun n s' => lasting n (map fst s'))); auto.
    - intros n s0 a x r b Hi Ga Hm. exact (lasting_step _ _ _ _ _ _ Hi Ga Hm).
    - intros n s0 i Hi [Hn|Hn] Hk H0; [|discriminate]. destruct n; [lia|]. right. unfold sees, read. pose proof (lasting_now _ _ i Hi ltac:(lia)) as Q. destruct (fst (get s0 i)); [congruence|discriminate].
    - intros n s0 i j y r Hi H0 H1 H2 _ _. apply (lasting_now _ _ _ Hi). lia.
  Qed.
  (** the four-way merge needs something readable behind the sequences *)
  Theorem merge4_lasting s len : length s = 4 -> len <= total s -> lasting len (map fst s) -> Forall (fun r => snd r <> []) s -> takes true s len (merge4 A lt false s len).
  Proof.
    intros Hl Ht Hs Hb. apply (merge4_ok false (fun n s' => lasting n (map fst s') /\ map snd s' = map snd s)); auto.
    - intros n s0 a x r b (Hi & Hsnd) Ga Hm. split; [exact (lasting_step _ _ _ _ _ _ Hi Ga Hm)|]. rewrite <- Hsnd. exact (set_snd _ _ _ _ _ Ga).
    - intros n s0 i (Hi & Hsnd) _ Hk H0. right. unfold sees, read. rewrite <- (get_map_snd s0), Hsnd, get_map_snd.
      rewrite Forall_forall in Hb. assert (Q : snd (get s i) <> []) by (apply Hb, nth_In; lia). destruct (fst (get s0 i)); [|discriminate]. destruct (snd (get s i)); [congruence|discriminate].
    - intros n s0 i j y r (Hi & _) H0 H1 H2 _ _. apply (lasting_now _ _ _ Hi). lia.
  Qed.
End Labels.
