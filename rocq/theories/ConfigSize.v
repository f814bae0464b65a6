(** Sizes and fields: the laws of [parse_SI_IEC_size] and [split]. *)
From Coq Require Import String Ascii ZArith List Bool Lia.
From Verif Require Import ConfigModel ConfigSpec Config.
Import ListNotations.
Open Scope Z_scope.

Lemma decval_nonneg ds : Forall is_digit ds -> 0 <= decval ds.
Proof. intros F. apply (decval_from_mono ds F 0). lia. Qed.

Lemma unit_not_digit u ut f k c t : unit_factor u ut f -> ut ++ repeat " "%char k = c :: t -> ~ is_digit c.
Proof.
  intros [H|[-> _]] E Hd.
  - assert (forallb (fun y => match fst y with c :: _ => match digit c with None => true | _ => false end | [] => false end) units = true) as A
      by (vm_compute; reflexivity).
    rewrite forallb_forall in A. apply A in H. cbn [fst] in H. destruct ut as [|c' ut]; [discriminate|].
    cbn in E. injection E as -> _. rewrite (proj1 (digit_some c Hd)) in H. discriminate.
  - destruct k; cbn in E; [discriminate|]. injection E as <- <-. cbn in Hd.
    repeat (destruct Hd as [Hd|Hd]; [discriminate Hd|]). destruct Hd.
Qed.

Lemma parse_size_text u s n f : size_text u s n f ->
  parse_size s u = (true, (Z.min n (2 ^ 64 - 1) * f) mod 2 ^ 64).
Proof.
  intros (ds & j & ut & k & Hds & <- & Hu & ->). rewrite parse_size_tail.
  assert (0 <= decval ds) as P by (apply decval_nonneg, Hds).
  rewrite strtoul_digits; [|exact Hds|].
  2:{ intros c t E. destruct j; cbn in E; [exact (unit_not_digit _ _ _ _ _ _ Hu E)|].
      injection E as <- <-. intros Hd. cbn in Hd. repeat (destruct Hd as [Hd|Hd]; [discriminate Hd|]). destruct Hd. }
  cbn [fst snd].
  assert (forall n r, tail_of u n (repeat " "%char j ++ r) = tail_of u n r) as ->.
  { intros n r. unfold tail_of. now rewrite skip_blanks_repeat. }
  replace (if 2 ^ 64 <=? decval ds then 2 ^ 64 - 1 else decval ds) with (Z.min (decval ds) (2 ^ 64 - 1)).
  2:{ destruct (2 ^ 64 <=? decval ds) eqn:E; lia. }
  apply tail_units; [lia|exact Hu].
Qed.

Lemma is_cases c s : is c s = true -> In c (list_ascii_of_string s).
Proof.
  unfold is. intros H. apply existsb_exists in H. destruct H as (x & Hx & E). apply Ascii.eqb_eq in E. now subst.
Qed.

Lemma default_unit_in u : exists f, In (u, f) default_units \/ (f = 1 /\ forall g, ~ In (u, g) default_units).
Proof.
  destruct (existsb (fun x => Ascii.eqb u (fst x)) default_units) eqn:E.
  - apply existsb_exists in E. destruct E as ([c f] & Hin & E). apply Ascii.eqb_eq in E. cbn in E. subst c.
    exists f. now left.
  - exists 1. right. split; [reflexivity|]. intros g H.
    assert (existsb (fun x => Ascii.eqb u (fst x)) default_units = true); [|congruence].
    apply existsb_exists. exists (u, g). split; [exact H|apply Ascii.eqb_refl].
Qed.

(** What can follow the number of an accepted size. *)
Lemma accepted_tail u n r v : tail_of u n r = (true, v) -> exists j ut f k,
  unit_factor u ut f /\ r = repeat " "%char j ++ ut ++ repeat " "%char k.
Proof.
  unfold tail_of. destruct (skip_blanks_split r) as [j Er]. set (r1 := skip_blanks r) in *. clearbody r1.
  destruct (power_of r1) as [p r2] eqn:E2. destruct (base_of p r2) as [b r3] eqn:E3.
  destruct (unit_of r3 p b u) as [[p' b'] r4] eqn:E4. intros [= E5 _].
  destruct (skip_blanks_split r4) as [k E6]. destruct (skip_blanks r4); [|discriminate]. rewrite app_nil_r in E6.
  exists j.
  assert (exists ut f, unit_factor u ut f /\ r1 = ut ++ repeat " "%char k) as (ut & f & H1 & H2).
  2:{ exists ut, f, k. split; [exact H1|]. rewrite Er. now rewrite H2. }
  clear Er E5.
  (* the characters taken by each stage *)
  assert (exists pl, r1 = pl ++ r2 /\ (p = 0%nat /\ pl = [] \/
     (p = 1%nat /\ In pl (cases ["k";"K"]%string)) \/ (p = 2%nat /\ In pl (cases ["m";"M"]%string)) \/
     (p = 3%nat /\ In pl (cases ["g";"G"]%string)) \/ (p = 4%nat /\ In pl (cases ["t";"T"]%string)) \/
     (p = 5%nat /\ In pl (cases ["p";"P"]%string)))) as (pl & -> & Hp).
  { destruct r1 as [|c t]; cbn [power_of] in E2; [injection E2 as <- <-; exists []; tauto|].
    repeat match type of E2 with (if is c ?s then _ else _) = _ =>
      let B := fresh "B" in destruct (is c s) eqn:B;
      [apply is_cases in B; injection E2 as <- <-; exists [c]; split; [reflexivity|];
       cbn in B |- *; destruct B as [<-|[<-|[]]]; tauto|] end.
    injection E2 as <- <-. exists []. tauto. }
  clear E2.
  assert (exists il, r2 = il ++ r3 /\ (il = [] \/ p <> 0%nat /\ In il (cases ["i";"I"]%string))) as (il & -> & Hi).
  { destruct r2 as [|c t]; cbn [base_of] in E3; [injection E3 as <- <-; exists []; tauto|].
    destruct (is c "iI") eqn:B; cbn [andb] in E3.
    - destruct (p =? 0)%nat eqn:P; cbn [negb] in E3; injection E3 as <- <-; [exists []; tauto|].
      apply Nat.eqb_neq in P. apply is_cases in B. exists [c]. split; [reflexivity|]. right. split; [exact P|].
      cbn in B |- *. destruct B as [<-|[<-|[]]]; tauto.
    - injection E3 as <- <-. exists []. tauto. }
  clear E3.
  assert (exists bl, r3 = bl ++ r4 /\ (bl = [] \/ In bl (cases ["b";"B"]%string))) as (bl & -> & Hb).
  { destruct r3 as [|c t]; cbn [unit_of] in E4.
    - exists []. destruct (p =? 0)%nat; injection E4 as _ <-; tauto.
    - destruct (is c "bB") eqn:B.
      + injection E4 as _ _ <-. apply is_cases in B. exists [c]. split; [reflexivity|]. right.
        cbn in B |- *. destruct B as [<-|[<-|[]]]; tauto.
      + exists []. destruct (p =? 0)%nat; injection E4 as _ <-; tauto. }
  clear E4. rewrite E6.
  assert ((exists f, In (pl ++ il ++ bl, f) units) \/ pl ++ il ++ bl = []) as H.
  { destruct Hp as [[-> ->]|Hp].
    - destruct Hi as [->|[Hi _]]; [|congruence]. destruct Hb as [->|Hb]; [right; reflexivity|]. left. exists 1.
      cbn in Hb. destruct Hb as [<-|[<-|[]]]; [left; reflexivity|right; left; reflexivity].
    - left.
      assert (forall x, existsb (fun y => str_eqb x (fst y)) units = true -> exists f, In (x, f) units) as Q.
      { intros x Hx. apply existsb_exists in Hx. destruct Hx as ([y f] & Hy & E). apply str_eqb_eq in E. cbn in E.
        subst y. now exists f. }
      apply Q. clear Q.
      assert (In il (cases [""; "i"; "I"]%string)) as Hi'.
      { destruct Hi as [->|[_ Hi]]; [left; reflexivity|right; exact Hi]. }
      assert (In bl (cases [""; "b"; "B"]%string)) as Hb'.
      { destruct Hb as [->|Hb]; [left; reflexivity|right; exact Hb]. }
      assert (In pl (cases ["k"; "K"; "m"; "M"; "g"; "G"; "t"; "T"; "p"; "P"]%string)) as Hp'.
      { cbn in Hp |- *. tauto. }
      clear - Hi' Hb' Hp'. cbn in Hi', Hb', Hp'.
      repeat (destruct Hp' as [<-|Hp']; [destruct Hi' as [<-|[<-|[<-|[]]]]; destruct Hb' as [<-|[<-|[<-|[]]]];
        vm_compute; reflexivity|]). destruct Hp'. }
  exists (pl ++ il ++ bl). destruct H as [[f H]|H].
  - exists f. split; [now left|]. now rewrite <- !app_assoc.
  - destruct (default_unit_in u) as [f Hf]. exists f. split; [right; now split|]. now rewrite <- !app_assoc.
Qed.

Lemma parse_size_accepted u c s v : is_digit c -> parse_size (c :: s) u = (true, v) ->
  exists n f, size_text u (c :: s) n f /\ v = (Z.min n (2 ^ 64 - 1) * f) mod 2 ^ 64.
Proof.
  intros Hc H. destruct (digits_split (c :: s)) as (ds & r & E & F & R).
  assert (number_text ds) as N.
  { split; [|exact F]. intros ->. cbn in E. symmetry in E. exact (R _ _ E Hc). }
  pose proof H as H0. rewrite parse_size_tail, E, strtoul_digits in H0 by assumption. cbn [fst snd] in H0.
  apply accepted_tail in H0. destruct H0 as (j & ut & f & k & Hu & Er).
  exists (decval ds), f. assert (size_text u (c :: s) (decval ds) f) as T.
  { exists ds, j, ut, k. repeat split; try apply N; try exact Hu. now rewrite E, Er. }
  split; [exact T|]. apply parse_size_text in T. rewrite H in T. now injection T.
Qed.

(** ** Fields *)
Lemma split_go_nonempty sep s : forall limit, split_go sep limit s <> [].
Proof.
  induction s as [|c s IH]; intros limit; cbn; [discriminate|].
  destruct (Ascii.eqb c sep && more limit); [discriminate|]. destruct (split_go sep limit s); discriminate.
Qed.

Lemma join_cons sep h r : join sep (h :: r) = h ++ match r with [] => [] | _ => sep :: join sep r end.
Proof. destruct r; cbn [join]; [now rewrite app_nil_r|reflexivity]. Qed.

Lemma split_go_join sep s : forall limit, join sep (split_go sep limit s) = s.
Proof.
  induction s as [|c s IH]; intros limit; [reflexivity|]. cbn [split_go].
  destruct (Ascii.eqb c sep && more limit) eqn:B.
  - apply andb_true_iff in B. destruct B as [B _]. apply Ascii.eqb_eq in B. subst c.
    rewrite join_cons. specialize (IH (one_less limit)). pose proof (split_go_nonempty sep s (one_less limit)) as N.
    destruct (split_go sep (one_less limit) s); [congruence|]. cbn [app]. now rewrite IH.
  - specialize (IH limit). pose proof (split_go_nonempty sep s limit) as N.
    destruct (split_go sep limit s) as [|h r]; [congruence|]. rewrite join_cons in *. cbn [app]. now rewrite IH.
Qed.

Lemma split_go_limit sep s : forall n, (length (split_go sep (Some (S n)) s) <= S n)%nat.
Proof.
  induction s as [|c s IH]; intros n; cbn [split_go]; [cbn; lia|].
  destruct (Ascii.eqb c sep && more (Some (S n))) eqn:B.
  - apply andb_true_iff in B. destruct B as [_ B]. destruct n as [|n]; [discriminate|]. cbn [one_less length].
    specialize (IH n). lia.
  - specialize (IH n). destruct (split_go sep (Some (S n)) s); cbn [length] in *; lia.
Qed.

Lemma split_go_one sep s : split_go sep (Some 1%nat) s = [s].
Proof. induction s as [|c s IH]; [reflexivity|]. cbn [split_go more]. rewrite andb_false_r, IH. reflexivity. Qed.

(** Fields before the last one have no separator; the last one only if the limit is reached. *)
Lemma split_go_clean sep s : forall limit i x, nth_error (split_go sep limit s) i = Some x ->
  (S i < length (split_go sep limit s))%nat \/ limit = None \/
  (exists n, limit = Some n /\ length (split_go sep limit s) < n)%nat -> ~ In sep x.
Proof.
  induction s as [|c s IH]; intros limit i x E C; cbn [split_go] in *.
  - destruct i as [|[|?]]; cbn in E; try discriminate. injection E as <-. intros [].
  - destruct (Ascii.eqb c sep && more limit) eqn:B.
    + destruct i as [|i]; cbn in E; [injection E as <-; intros []|].
      apply (IH (one_less limit) i x E). cbn [length] in C.
      destruct C as [C|[->|(n & -> & C)]]; [left; lia|right; left; reflexivity|].
      destruct n as [|[|n]]; [lia|lia|]. right. right. exists (S n). split; [reflexivity|]. cbn [one_less] in *. lia.
    + specialize (IH limit). pose proof (split_go_nonempty sep s limit) as N.
      destruct (split_go sep limit s) as [|h r] eqn:Esp; [congruence|].
      destruct i as [|i]; cbn in E.
      * injection E as <-. specialize (IH 0%nat h eq_refl).
        intros [->|Hin]; [|apply IH; [cbn [length] in *; exact C|exact Hin]].
        rewrite Ascii.eqb_refl in B. cbn in B. destruct limit as [[|[|n]]|]; cbn in B; try discriminate.
        destruct C as [C|[C|(n & [= <-] & C)]]; [|discriminate|cbn in C; lia].
        assert (h :: r = [s]) as Q by (rewrite <- Esp; apply split_go_one).
        injection Q as _ ->. cbn in C. lia.
      * apply (IH (S i) x); [exact E|exact C].
Qed.

