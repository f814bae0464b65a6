(** Histories of pushes and bulk pushes: proofs. *)
From Coq Require Import List Bool Arith Lia Permutation.
From Verif Require Import OrderLib PpqModel PpqHeapModel PpqHeapSpec PpqHeap.
Import ListNotations.

Lemma set_Forall {X} (P : X -> Prop) (l : list X) : forall n x, Forall P l -> P x -> Forall P (set_nth n x l).
Proof. induction l as [|y l IH]; intros [|n] x H Hx; cbn; auto; inversion H; subst; constructor; auto. Qed.
Lemma nth_Forall {X} (P : X -> Prop) (l : list X) n x : Forall P l -> nth_error l n = Some x -> P x.
Proof. intros H E. rewrite Forall_forall in H. apply H. eapply nth_error_In; eauto. Qed.
Lemma nth_ex {X} (l : list X) n : n < length l -> exists x, nth_error l n = Some x.
Proof. intro H. destruct (nth_error l n) eqn:E; [eauto|apply nth_error_None in E; lia]. Qed.
Lemma perm_fm {X Y} (f : X -> list Y) l l' : Permutation l l' -> Permutation (flat_map f l) (flat_map f l').
Proof.
  induction 1; cbn; auto.
  - now apply Permutation_app_head.
  - rewrite !app_assoc. apply Permutation_app_tail, Permutation_app_comm.
  - etransitivity; eauto.
Qed.

Section Run.
  Variable A : Type.
  Variable lt : A -> A -> bool.
  Variable srt : list A -> list A.
  Variable cap : nat.
  Notation pheap := (pheap A). Notation hst := (hst A).
  Fixpoint sumadd (l : list pheap) : nat := match l with [] => 0 | h :: l => added h + sumadd l end.
  Lemma sumadd_app a b : sumadd (a ++ b) = sumadd a + sumadd b.
  Proof. induction a; cbn; lia. Qed.
  Definition inheaps (s : hst) : list A := flat_map arr (procs s).
  Definition content (s : hst) : list A := inheaps s ++ concat (out s).
  Definition outs_ok (s : hst) : Prop := Forall (fun l => sorted lt l /\ l <> []) (out s).
  Definition good (h : pheap) : Prop := heap lt (arr h) /\ seen h = hd_error (arr h) /\ length (arr h) <= cap.
  Definition HInv (s : hst) : Prop := Forall good (procs s) /\ hsize s = length (inheaps s) /\ outs_ok s.
  Definition bgood (h : pheap) : Prop :=
    added h <= length (arr h) /\ heap lt (firstn (length (arr h) - added h) (arr h)) /\ (arr h = [] -> seen h = None) /\ length (arr h) <= cap.
  Definition BInv (s : hst) : Prop := Forall bgood (procs s) /\ hsize s + sumadd (procs s) = length (inheaps s) /\ outs_ok s.

  Lemma set_fm l p (h h' : pheap) : nth_error l p = Some h -> Permutation (arr h ++ flat_map arr (set_nth p h' l)) (arr h' ++ flat_map arr l).
  Proof. intro E. exact (perm_fm arr _ _ (set_perm l p h' h E)). Qed.
  Lemma set_sum l : forall p (h h' : pheap), nth_error l p = Some h -> added h + sumadd (set_nth p h' l) = added h' + sumadd l.
  Proof.
    induction l as [|z l IH]; intros [|p] h h' E; cbn in *; try discriminate; [injection E as ->; lia|].
    specialize (IH p h h' E). lia.
  Qed.
  Lemma heap_nil : heap lt (@nil A).
  Proof. intros [|i] x y _ H; discriminate. Qed.
  Definition rooted (h : pheap) : Prop := arr h = [] -> seen h = None.
  Lemma rootless_no l : Forall rooted l -> rootless A l = false.
  Proof.
    intro H. unfold rootless. induction H as [|h l R _ IH]; cbn; auto. rewrite IH, orb_false_r.
    destruct (arr h) eqn:E; cbn; auto. now rewrite (R E).
  Qed.
  Lemma good_rooted h : good h -> rooted h.
  Proof. intros (_ & G & _) E. now rewrite G, E. Qed.
  Lemma bgood_rooted h : bgood h -> rooted h.
  Proof. intros (_ & _ & G & _). exact G. Qed.
  Hypothesis Hsrt : sorts lt srt.

  Lemma flush_ok p s h : nth_error (procs s) p = Some h -> arr h <> [] -> length (arr h) <= hsize s -> outs_ok s -> Forall rooted (procs s) ->
    exists s', flush_heap A srt p s = Some s' /\ procs s' = set_nth p (PH [] (added h) None) (procs s) /\
      hsize s' + length (arr h) = hsize s /\ outs_ok s' /\ Permutation (content s') (content s) /\
      length (inheaps s') + length (arr h) = length (inheaps s).
  Proof.
    intros E N L O RT. unfold flush_heap. rewrite E. destruct (is_nil (arr h)) eqn:Z; [destruct (arr h); [congruence|discriminate]|].
    destruct (Nat.ltb_spec (hsize s) (length (arr h))); [lia|]. cbv zeta.
    rewrite rootless_no by (apply set_Forall; [auto|intros _; reflexivity]).
    pose proof (set_fm (procs s) p h (PH [] (added h) None) E) as P. cbn [arr app] in P.
    eexists. split; [reflexivity|]. cbn [procs hsize out]. destruct (Hsrt (arr h)) as (Q1 & Q2).
    split; [auto|]. split; [lia|]. split; [|split].
    - unfold outs_ok. cbn [out]. apply Forall_app. split; [auto|]. constructor; [|auto]. split; [auto|]. intro X. rewrite X in Q1. apply Permutation_nil in Q1. congruence.
    - unfold content, inheaps. cbn [procs out]. rewrite concat_app. cbn [concat]. rewrite app_nil_r, Q1, <- P.
      rewrite app_assoc. rewrite Permutation_app_comm. now rewrite app_assoc.
    - unfold inheaps. cbn [procs]. apply Permutation_length in P. rewrite app_length in P. lia.
  Qed.

  Hypothesis SW : strict_weak lt.
  Hypothesis Hcap : 0 < cap.

  Lemma in_len s p h : nth_error (procs s) p = Some h -> length (arr h) <= length (inheaps s).
  Proof. intro E. destruct (nth_error_split _ _ E) as (a & b & X & _). unfold inheaps. rewrite X, flat_map_app, app_length. cbn. rewrite app_length. lia. Qed.
  Lemma in_add l p h : nth_error l p = Some h -> added h <= sumadd l.
  Proof. intro E. pose proof (set_sum l p h (PH [] 0 None) E). cbn in *. lia. Qed.

  Lemma hpush_ok p x s : p < length (procs s) -> HInv s ->
    exists s', hpush A lt srt cap p x s = Some s' /\ HInv s' /\ length (procs s') = length (procs s) /\ Permutation (content s') (x :: content s).
  Proof.
    intros Hp (G & C & O). destruct (nth_ex _ _ Hp) as (h & E). unfold hpush. rewrite E. pose proof (nth_Forall _ _ _ _ G E) as (G1 & G2 & G3).
    assert (F : exists s1 h1, (if Nat.leb cap (length (arr h)) then flush_heap A srt p s else Some s) = Some s1 /\ HInv s1 /\
      length (procs s1) = length (procs s) /\ Permutation (content s1) (content s) /\ nth_error (procs s1) p = Some h1 /\ length (arr h1) < cap).
    { destruct (Nat.leb_spec cap (length (arr h))).
      - pose proof (in_len s p h E).
        destruct (flush_ok p s h E) as (s1 & R1 & R2 & R3 & R4 & R5 & R6); [intro Z; rewrite Z in *; cbn in *; lia|lia|auto|eapply Forall_impl; [apply good_rooted|auto]|].
        exists s1, (PH [] (added h) None). split; [auto|]. split; [|split; [|split; [auto|split]]].
        + split; [|split; [lia|auto]]. rewrite R2. apply set_Forall; auto. split; [apply heap_nil|]. cbn. auto with arith.
        + now rewrite R2, set_len.
        + now rewrite R2, set_get, Nat.eqb_refl, E.
        + cbn. lia.
      - exists s, h. split; [auto|]. repeat split; auto. }
    destruct F as (s1 & h1 & -> & (I1 & I2 & I3) & L & P & E1 & B). rewrite E1.
    pose proof (nth_Forall _ _ _ _ I1 E1) as (K1 & K2 & K3).
    destruct (push_heap_ok A lt SW (arr h1) x K1) as (l' & k & -> & R2 & R3 & R4 & R5). cbn [fst snd].
    set (h' := PH l' (added h1) (if Nat.eqb (length l') 1 || Nat.eqb k 0 then hd_error l' else seen h1)).
    pose proof (set_fm (procs s1) p h1 h' E1) as Q. cbn [arr h'] in Q. rewrite R3 in Q.
    assert (Q' : Permutation (flat_map arr (set_nth p h' (procs s1))) (x :: flat_map arr (procs s1))).
    { apply (Permutation_app_inv_l (arr h1)). rewrite Q. cbn. apply Permutation_middle. }
    eexists. split; [reflexivity|]. split; [|split].
    - split; [|split].
      + cbn [procs]. apply set_Forall; auto. unfold h'. split; [auto|]. cbn [arr seen]. split.
        * destruct (Nat.eqb_spec (length l') 1); cbn [orb]; [auto|]. destruct (Nat.eqb_spec k 0); [auto|].
          rewrite K2. specialize (R5 0 ltac:(lia)). destruct l', (arr h1); cbn in *; congruence.
        * apply Permutation_length in R3. cbn in R3. lia.
      + cbn [hsize]. unfold inheaps in *. cbn [procs]. rewrite (Permutation_length Q'). cbn. lia.
      + exact I3.
    - cbn [procs]. now rewrite set_len.
    - rewrite <- P. unfold content, inheaps. cbn [procs out]. now rewrite Q'.
  Qed.

  Lemma bulk_push_ok p x s : p < length (procs s) -> BInv s ->
    exists s', bulk_push A srt cap p x s = Some s' /\ BInv s' /\ length (procs s') = length (procs s) /\ Permutation (content s') (x :: content s).
  Proof.
    intros Hp (G & C & O). destruct (nth_ex _ _ Hp) as (h & E). unfold bulk_push. rewrite E. pose proof (nth_Forall _ _ _ _ G E) as (G1 & G2 & G3 & G4).
    assert (F : exists s1 h1, (if Nat.leb cap (length (arr h)) then flush_heap A srt p (HS (set_nth p (PH (arr h) 0 (seen h)) (procs s)) (out s) (hsize s + added h)) else Some s) = Some s1 /\ BInv s1 /\
      length (procs s1) = length (procs s) /\ Permutation (content s1) (content s) /\ nth_error (procs s1) p = Some h1 /\ length (arr h1) < cap).
    { destruct (Nat.leb_spec cap (length (arr h))).
      - set (s0 := HS (set_nth p (PH (arr h) 0 (seen h)) (procs s)) (out s) (hsize s + added h)).
        assert (E0 : nth_error (procs s0) p = Some (PH (arr h) 0 (seen h))) by (cbn; now rewrite set_get, Nat.eqb_refl, E).
        pose proof (set_sum (procs s) p h (PH (arr h) 0 (seen h)) E) as S0. cbn [added] in S0.
        pose proof (set_fm (procs s) p h (PH (arr h) 0 (seen h)) E) as P0. cbn [arr] in P0. apply Permutation_app_inv_l in P0.
        assert (L0 : length (inheaps s0) = length (inheaps s)) by (apply Permutation_length, P0).
        (* what is counted covers this heap: the others hold at least their uncounted elements *)
        assert (W : length (arr h) <= hsize s + added h).
        { destruct (nth_error_split _ _ E) as (a & b & X & _). unfold inheaps in C. rewrite X in C, G.
          rewrite flat_map_app, sumadd_app, app_length in C. cbn in C. rewrite app_length in C.
          assert (T : forall l, Forall bgood l -> sumadd l <= length (flat_map arr l)).
          { induction 1 as [|z l (Z & _) _ IH]; cbn; [lia|]. rewrite app_length. lia. }
          apply Forall_app in G. destruct G as (Ga & Gb). inversion Gb; subst. pose proof (T a Ga). pose proof (T b ltac:(auto)). lia. }
        destruct (flush_ok p s0 _ E0) as (s1 & R1 & R2 & R3 & R4 & R5 & R6); [cbn; intro Z; rewrite Z in *; cbn in *; lia|cbn; lia|exact O|cbn; apply set_Forall; [eapply Forall_impl; [apply bgood_rooted|auto]|exact G3]|].
        cbn [arr added] in *. unfold s0 in R2. cbn [procs] in R2. rewrite set_set in R2.
        exists s1, (PH [] 0 None). split; [auto|]. split; [|split; [|split; [|split]]].
        + split; [|split; [|auto]].
          * rewrite R2. apply set_Forall; auto. split; [cbn; lia|]. split; [apply heap_nil|]. cbn. auto with arith.
          * pose proof (set_sum (procs s) p h (PH [] 0 None) E) as S1. cbn [added] in S1. rewrite R2. unfold s0 in R3. cbn [hsize] in R3. lia.
        + now rewrite R2, set_len.
        + rewrite R5. unfold content, inheaps, s0. cbn [procs out]. now rewrite P0.
        + now rewrite R2, set_get, Nat.eqb_refl, E.
        + cbn. lia.
      - exists s, h. split; [auto|]. repeat split; auto. }
    destruct F as (s1 & h1 & -> & (I1 & I2 & I3) & L & P & E1 & B). rewrite E1.
    destruct (Nat.ltb_spec (length (arr h1)) cap); [cbn [negb]|lia].
    pose proof (nth_Forall _ _ _ _ I1 E1) as (K1 & K2 & K3 & K4).
    set (h' := PH (arr h1 ++ [x]) (S (added h1)) (seen h1)).
    pose proof (set_fm (procs s1) p h1 h' E1) as Q. cbn [arr h'] in Q.
    assert (Q' : Permutation (flat_map arr (set_nth p h' (procs s1))) (x :: flat_map arr (procs s1))).
    { apply (Permutation_app_inv_l (arr h1)). rewrite Q. now rewrite <- app_assoc. }
    pose proof (set_sum (procs s1) p h1 h' E1) as S1. cbn [added h'] in S1.
    eexists. split; [reflexivity|]. split; [|split].
    - split; [|split].
      + cbn [procs]. apply set_Forall; auto. unfold h'. split; cbn [arr added seen]; rewrite app_length; cbn [length]; [lia|].
        split; [|split; [intro Z; destruct (arr h1); discriminate|lia]].
        replace (length (arr h1) + 1 - S (added h1)) with (length (arr h1) - added h1) by lia.
        rewrite firstn_app. replace (length (arr h1) - added h1 - length (arr h1)) with 0 by lia. cbn [firstn]. now rewrite app_nil_r.
      + cbn [hsize procs]. unfold inheaps in *. cbn [procs]. rewrite (Permutation_length Q'). cbn [length]. lia.
      + exact I3.
    - cbn [procs]. now rewrite set_len.
    - rewrite <- P. unfold content, inheaps. cbn [procs out]. now rewrite Q'.
  Qed.

  Lemma bulk_pushes_ok l : forall s, Forall (fun c => fst c < length (procs s)) l -> BInv s ->
    exists s', bulk_pushes A srt cap l s = Some s' /\ BInv s' /\ length (procs s') = length (procs s) /\ Permutation (content s') (map snd l ++ content s).
  Proof.
    induction l as [|(p, x) l IH]; intros s F I; cbn [bulk_pushes].
    - exists s. auto.
    - inversion F as [|? ? Hp Fl]; subst. cbn in Hp. destruct (bulk_push_ok p x s Hp I) as (s1 & -> & I1 & L1 & P1).
      destruct (IH s1) as (s2 & -> & I2 & L2 & P2); [now rewrite L1|auto|].
      exists s2. split; [auto|]. split; [auto|]. split; [congruence|]. rewrite P2, P1. cbn. symmetry. apply Permutation_middle.
  Qed.

  Lemma begin_ok s : HInv s -> BInv (bulk_begin A s) /\ content (bulk_begin A s) = content s /\ length (procs (bulk_begin A s)) = length (procs s).
  Proof.
    intros (G & C & O).
    assert (F : flat_map arr (map (fun h => PH (arr h) 0 (seen h)) (procs s)) = flat_map arr (procs s)) by (clear; induction (procs s); cbn; congruence).
    assert (Z : sumadd (map (fun h => PH (arr h) 0 (seen h)) (procs s)) = 0) by (clear; induction (procs s); cbn; auto).
    split; [split; [|split]|split].
    - cbn [procs bulk_begin]. apply Forall_map. eapply Forall_impl; [|exact G]. intros h (G1 & G2 & G3). split; cbn; [lia|].
      rewrite Nat.sub_0_r, firstn_all. split; [auto|]. split; [intro Y; now rewrite G2, Y|auto].
    - unfold inheaps. cbn [procs hsize bulk_begin]. rewrite Z, F, C. unfold inheaps. lia.
    - exact O.
    - unfold content, inheaps. cbn [procs out bulk_begin]. now rewrite F.
    - cbn. apply map_length.
  Qed.

  Lemma end_heaps_ok l : Forall bgood l -> exists l', end_heaps A lt l = Some (l', sumadd l) /\ Forall good l' /\ length l' = length l /\ Permutation (flat_map arr l') (flat_map arr l).
  Proof.
    induction 1 as [|h l (B1 & B2 & B3 & B4) _ (l' & E & G & L & P)]; cbn [end_heaps]; [exists []; auto|].
    destruct (resift_ok A lt SW (added h) (arr h) B1 B2) as (q & -> & Q2 & Q3). rewrite E. eexists. split; [reflexivity|].
    split; [|split; [cbn; auto|cbn; rewrite Q3; now apply Permutation_app_head]].
    constructor; [|auto]. split; [auto|]. cbn. split; [|rewrite (Permutation_length Q3); auto].
    destruct q; cbn [is_nil]; auto. apply B3. now apply Permutation_nil.
  Qed.

  Definition pushed (c : hcall A) : list A := match c with HPush _ x => [x] | HBulk l => map snd l end.
  Definition names (n : nat) (c : hcall A) : Prop := match c with HPush p _ => p < n | HBulk l => Forall (fun c => fst c < n) l end.

  Lemma hstep_ok c s : names (length (procs s)) c -> HInv s ->
    exists s', hstep A lt srt cap c s = Some s' /\ HInv s' /\ length (procs s') = length (procs s) /\ Permutation (content s') (pushed c ++ content s).
  Proof.
    intros N I. destruct c as [p x|l]; cbn [hstep names pushed] in *; [exact (hpush_ok p x s N I)|].
    destruct (begin_ok s I) as (B & EC & EL). destruct (bulk_pushes_ok l (bulk_begin A s)) as (s1 & -> & (I1 & I2 & I3) & L & P); [now rewrite EL|auto|].
    unfold bulk_end. destruct (end_heaps_ok _ I1) as (l' & -> & G & L' & P'). cbn [fst snd]. eexists. split; [reflexivity|]. split; [split; [|split]|split].
    - exact G.
    - cbn [hsize]. rewrite I2. unfold inheaps. cbn [procs]. symmetry. now apply Permutation_length.
    - exact I3.
    - cbn [procs]. congruence.
    - rewrite <- EC, <- P. unfold content, inheaps. cbn [procs out]. now rewrite P'.
  Qed.
  Lemma hrun_ok l : forall s, Forall (names (length (procs s))) l -> HInv s ->
    exists s', hrun A lt srt cap l s = Some s' /\ HInv s' /\ Permutation (content s') (flat_map pushed l ++ content s).
  Proof.
    induction l as [|c l IH]; intros s F I; cbn [hrun]; [exists s; auto|].
    inversion F; subst. destruct (hstep_ok c s ltac:(auto) I) as (s1 & -> & I1 & L1 & P1).
    destruct (IH s1) as (s2 & -> & I2 & P2); [now rewrite L1|auto|]. exists s2. split; [auto|]. split; [auto|].
    rewrite P2, P1. cbn. rewrite !app_assoc. apply Permutation_app_tail, Permutation_app_comm.
  Qed.
End Run.
