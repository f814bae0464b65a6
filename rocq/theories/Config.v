(** Proofs about the disk configuration. *)
From Coq Require Import String Ascii ZArith List Bool Lia.
From Verif Require Import ConfigModel ConfigSpec.
Import ListNotations.
Open Scope Z_scope.

Lemma str_eqb_eq a b : str_eqb a b = true <-> a = b.
Proof.
  revert b. induction a as [|x a IH]; intros [|y b]; cbn; split; intros H; try discriminate; try reflexivity.
  - apply andb_true_iff in H. destruct H as [H1 H2]. apply Ascii.eqb_eq in H1. apply IH in H2. now subst.
  - injection H as -> ->. rewrite Ascii.eqb_refl. now apply IH.
Qed.

(** ** Numbers *)
Lemma digit_some c : is_digit c -> digit c = Some (Z.of_N (N_of_ascii c) - 48) /\ 0 <= Z.of_N (N_of_ascii c) - 48 <= 9
  /\ is_space c = false /\ is c "-" = false /\ is c "+" = false.
Proof.
  intros H. cbn in H.
  repeat (destruct H as [<-|H]; [vm_compute; repeat split; congruence|]). destruct H.
Qed.
Lemma digit_inv c d : digit c = Some d -> is_digit c.
Proof.
  destruct c as [[] [] [] [] [] [] [] []]; vm_compute; intros H; try discriminate; tauto.
Qed.

Lemma decval_from_mono s : Forall is_digit s -> forall acc, 0 <= acc -> acc <= decval_from acc s.
Proof.
  induction 1 as [|c s Hc Hs IH]; intros acc Ha; cbn [decval_from]; [lia|].
  destruct (digit_some c Hc) as (_ & B & _). specialize (IH (10 * acc + (Z.of_N (N_of_ascii c) - 48)) ltac:(lia)). lia.
Qed.

Lemma digits_all ds : Forall is_digit ds -> forall rest acc, (forall c t, rest = c :: t -> ~ is_digit c) ->
  digits (ds ++ rest) acc = (decval_from acc ds, rest).
Proof.
  induction 1 as [|c s Hc Hs IH]; intros rest acc Hr; cbn [digits app decval_from].
  - destruct rest as [|c t]; [reflexivity|]. cbn. destruct (digit c) eqn:D; [|reflexivity].
    exfalso. exact (Hr c t eq_refl (digit_inv _ _ D)).
  - rewrite (proj1 (digit_some c Hc)). apply IH. exact Hr.
Qed.

Lemma digits_split (s : str) : exists ds rest, s = ds ++ rest /\ Forall is_digit ds /\
  (forall c t, rest = c :: t -> ~ is_digit c).
Proof.
  induction s as [|c s IH].
  - exists [], []. repeat split; [constructor|discriminate].
  - destruct (digit c) eqn:D.
    + destruct IH as (ds & rest & -> & F & R). exists (c :: ds), rest. repeat split; [|exact R].
      constructor; [exact (digit_inv _ _ D)|exact F].
    + exists [], (c :: s). repeat split; [constructor|]. intros x t [= <- <-] Hd.
      rewrite (proj1 (digit_some c Hd)) in D. discriminate.
Qed.

Lemma strtoul_digits ds rest : number_text ds -> (forall c t, rest = c :: t -> ~ is_digit c) ->
  strtoul (ds ++ rest) = (if 2 ^ 64 <=? decval ds then 2 ^ 64 - 1 else decval ds, rest).
Proof.
  intros [Hn F] R. destruct ds as [|c ds]; [congruence|]. pose proof F as F0. inversion F as [|x y Hc Hs E]; subst.
  destruct (digit_some c Hc) as (D & B & S & M & P). unfold strtoul.
  assert (skip_space ((c :: ds) ++ rest) = (c :: ds) ++ rest) as ->. { cbn. now rewrite S. }
  assert (sign ((c :: ds) ++ rest) = (false, (c :: ds) ++ rest)) as ->. { cbn [app sign]. now rewrite M, P. }
  cbn [app]. rewrite D. change (c :: ds ++ rest) with ((c :: ds) ++ rest). rewrite (digits_all (c :: ds) F0 rest 0 R).
  reflexivity.
Qed.

(** ** Sizes *)
Lemma times_spec p : forall n base, 0 <= n < 2 ^ 64 -> times n p base = (n * base ^ Z.of_nat p) mod 2 ^ 64.
Proof.
  induction p as [|p IH]; intros n base Hn; cbn [times].
  - change (base ^ Z.of_nat 0) with 1. rewrite Z.mul_1_r, Z.mod_small; lia.
  - rewrite IH by (apply Z.mod_pos_bound; lia). rewrite Nat2Z.inj_succ, Z.pow_succ_r by lia.
    rewrite Z.mul_mod_idemp_l by lia. f_equal. ring.
Qed.

Lemma skip_blanks_repeat j s : skip_blanks (repeat " "%char j ++ s) = skip_blanks s.
Proof. induction j; [reflexivity|]. exact IHj. Qed.
Lemma skip_blanks_all j : skip_blanks (repeat " "%char j) = [].
Proof. rewrite <- (app_nil_r (repeat _ j)), skip_blanks_repeat. reflexivity. Qed.
Lemma is_blank c : is c " " = true -> c = " "%char.
Proof. unfold is. cbn. rewrite orb_false_r. apply Ascii.eqb_eq. Qed.
Lemma skip_blanks_split s : exists j, s = repeat " "%char j ++ skip_blanks s.
Proof.
  induction s as [|c s [j IH]]; [exists 0%nat; reflexivity|]. cbn [skip_blanks].
  destruct (is c " ") eqn:B; [|exists 0%nat; reflexivity]. apply is_blank in B. subst c.
  exists (S j). cbn [repeat app]. now rewrite <- IH.
Qed.

Definition tail_of (def_unit : ascii) (n : Z) (r1 : str) : bool * Z :=
  let '(power, r2) := power_of (skip_blanks r1) in
  let '(base, r3) := base_of power r2 in
  let '(power', base', r4) := unit_of r3 power base def_unit in
  (match skip_blanks r4 with [] => true | _ => false end, times n power' base').

Lemma parse_size_tail s u : parse_size s u = tail_of u (fst (strtoul s)) (snd (strtoul s)).
Proof. unfold parse_size, tail_of. destruct (strtoul s). reflexivity. Qed.

Lemma default_unit_spec u f : (In (u, f) default_units \/ (f = 1 /\ forall g, ~ In (u, g) default_units)) ->
  f = snd (default_unit u) ^ Z.of_nat (fst (default_unit u)).
Proof.
  intros [H|[-> H]].
  - vm_compute in H. repeat (destruct H as [H|H]; [injection H as <- <-; reflexivity|]). destruct H.
  - assert (existsb (fun x => Ascii.eqb u (fst x)) default_units = true -> False) as H1.
    { intros E. apply existsb_exists in E. destruct E as ([c g] & Hin & E). apply Ascii.eqb_eq in E. cbn [fst] in E.
      subst c. exact (H g Hin). }
    unfold default_unit.
    repeat match goal with |- context [is u ?s] =>
      let B := fresh in destruct (is u s) eqn:B;
      [exfalso; unfold is in B; cbn in B; rewrite orb_false_r in B; apply Ascii.eqb_eq in B; subst u;
       apply H1; reflexivity|] end.
    reflexivity.
Qed.

Lemma tail_units u n ut f k : 0 <= n < 2 ^ 64 -> unit_factor u ut f ->
  tail_of u n (ut ++ repeat " "%char k) = (true, (n * f) mod 2 ^ 64).
Proof.
  intros Hn [H|[-> H]].
  - assert (forall p b, tail_of u n (ut ++ repeat " "%char k) = (true, times n p b) -> f = b ^ Z.of_nat p ->
      tail_of u n (ut ++ repeat " "%char k) = (true, (n * f) mod 2 ^ 64)) as Q.
    { intros p b -> ->. rewrite times_spec by exact Hn. reflexivity. }
    assert (skip_blanks (repeat " "%char k) = []) as Hk by apply skip_blanks_all.
    assert (forall p b, (forall k, tail_of u n (ut ++ repeat " "%char k) =
       (match skip_blanks (repeat " "%char k) with [] => true | _ => false end, times n p b)) -> f = b ^ Z.of_nat p ->
       tail_of u n (ut ++ repeat " "%char k) = (true, (n * f) mod 2 ^ 64)) as Q2.
    { intros p b E. apply Q. rewrite E, Hk. reflexivity. }
    clear Q Hk. vm_compute in H.
    repeat (destruct H as [H|H];
      [injection H as <- <-;
       lazymatch type of Q2 with context [?f = _ ^ _] =>
         lazymatch eval vm_compute in f with
         | 1 => apply (Q2 0%nat 1000) | 1000 => apply (Q2 1%nat 1000) | 1024 => apply (Q2 1%nat 1024)
         | 1000000 => apply (Q2 2%nat 1000) | 1048576 => apply (Q2 2%nat 1024)
         | 1000000000 => apply (Q2 3%nat 1000) | 1073741824 => apply (Q2 3%nat 1024)
         | 1000000000000 => apply (Q2 4%nat 1000) | 1099511627776 => apply (Q2 4%nat 1024)
         | 1000000000000000 => apply (Q2 5%nat 1000) | _ => apply (Q2 5%nat 1024)
         end end; [intros [|?]; reflexivity|reflexivity]|]). destruct H.
  - unfold tail_of. cbn [app]. rewrite skip_blanks_all. cbn [power_of base_of unit_of Nat.eqb].
    rewrite (default_unit_spec _ _ H). destruct (default_unit u) as [p b]. cbn [fst snd skip_blanks].
    rewrite times_spec by exact Hn. reflexivity.
Qed.
