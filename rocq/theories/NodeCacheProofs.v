(** The cache of the B+-tree keeps its promise. *)
From Coq Require Import List Bool Arith Lia Permutation.
From Verif Require Import NodeCacheModel NodeCacheSpec.
Import ListNotations.

(** ** Lists *)
Lemma nset_length {A} (l : list A) i x : i < length l -> length (nset l i x) = length l.
Proof. intros H. unfold nset. rewrite app_length. cbn [length]. rewrite firstn_length, skipn_length. lia. Qed.
Lemma nset_nth {A} (l : list A) i x j : i < length l -> nth_error (nset l i x) j = if j =? i then Some x else nth_error l j.
Proof.
  intros H. unfold nset. destruct (Nat.eqb_spec j i) as [->|N].
  - rewrite nth_error_app2; rewrite firstn_length_le by lia; [now rewrite Nat.sub_diag|lia].
  - destruct (Nat.lt_ge_cases j i) as [L|L].
    + rewrite nth_error_app1 by (rewrite firstn_length_le; lia). rewrite <- (firstn_skipn i l) at 2. rewrite nth_error_app1 by (rewrite firstn_length_le; lia). easy.
    + rewrite nth_error_app2; rewrite firstn_length_le by lia; [|lia].
      rewrite <- (firstn_skipn (S i) l) at 2. rewrite nth_error_app2; rewrite firstn_length_le by lia; [|lia].
      destruct (j - i) as [|q] eqn:Eq; [lia|]. cbn [nth_error]. f_equal. lia.
Qed.
Lemma aget_adel {A} (l : list (nat * A)) k k' : aget (adel l k) k' = if k' =? k then None else aget l k'.
Proof.
  unfold adel. induction l as [|[c m] s IH]; cbn [filter fst aget]; [now destruct (k' =? k)|].
  destruct (Nat.eqb_spec c k) as [->|N']; cbn [negb aget].
  - rewrite IH. destruct (Nat.eqb_spec k' k); easy.
  - rewrite IH. destruct (Nat.eqb_spec k' c) as [->|]; [|easy]. now apply Nat.eqb_neq in N' as ->.
Qed.
Lemma aget_aput {A} (l : list (nat * A)) k x k' : aget (aput l k x) k' = if k' =? k then Some x else aget l k'.
Proof. unfold aput. cbn [aget]. rewrite aget_adel. now destruct (k' =? k). Qed.
Lemma aget_In {A} (l : list (nat * A)) k x : aget l k = Some x -> In (k, x) l.
Proof.
  induction l as [|[c m] s IH]; cbn; [easy|]. destruct (Nat.eqb_spec k c) as [->|N]; [intros [= ->]; now left|]. intros H; right; auto.
Qed.
Lemma In_aget {A} (l : list (nat * A)) k x : NoDup (map fst l) -> In (k, x) l -> aget l k = Some x.
Proof.
  induction l as [|[c m] s IH]; cbn [map fst aget]; [easy|]. intros H. apply NoDup_cons_iff in H as [H1 H2]. intros [[= -> ->]|Hi].
  - now rewrite Nat.eqb_refl.
  - destruct (Nat.eqb_spec k c) as [->|N]; [|auto]. exfalso. apply H1. apply in_map_iff. now exists (c, x).
Qed.
Lemma adel_none {A} (l : list (nat * A)) k : aget l k = None -> adel l k = l.
Proof.
  unfold adel. induction l as [|[c m] s IH]; cbn [filter fst aget]; [easy|]. rewrite (Nat.eqb_sym c). destruct (Nat.eqb_spec k c); [easy|].
  intros H. cbn [negb]. now rewrite IH.
Qed.
Lemma adel_perm {A} (l : list (nat * A)) k x : NoDup (map fst l) -> aget l k = Some x -> Permutation l ((k, x) :: adel l k).
Proof.
  induction l as [|[c m] s IH]; cbn [map fst aget]; [easy|]. intros H. apply NoDup_cons_iff in H as [H1 H2].
  unfold adel. cbn [filter fst]. rewrite (Nat.eqb_sym c). destruct (Nat.eqb_spec k c) as [->|N]; cbn [negb].
  - intros [= ->]. constructor. fold (adel s c). rewrite adel_none; [reflexivity|].
    destruct (aget s c) eqn:E; [|easy]. apply aget_In in E. exfalso. apply H1. apply in_map_iff. now exists (c, a).
  - intros H. rewrite (IH H2 H) at 1. fold (adel s k). apply perm_swap.
Qed.
Lemma adel_keys {A} (l : list (nat * A)) k : NoDup (map fst l) -> NoDup (map fst (adel l k)).
Proof.
  unfold adel. induction l as [|[c m] s IH]; cbn [map fst filter]; [easy|]. intros H. apply NoDup_cons_iff in H as [H1 H2].
  destruct (c =? k); cbn [negb]; [auto|]. cbn [map fst]. constructor; [|auto]. intros X. apply H1.
  apply in_map_iff in X as (y & <- & Y). apply filter_In in Y. apply in_map. tauto.
Qed.
Lemma aput_keys {A} (l : list (nat * A)) k x : NoDup (map fst l) -> NoDup (map fst (aput l k x)).
Proof.
  intros H. unfold aput. cbn [map fst]. constructor; [|now apply adel_keys]. intros X. apply in_map_iff in X as ([a b] & E & Y).
  cbn in E. subst a. unfold adel in Y. apply filter_In in Y as [_ Y]. cbn in Y. now rewrite Nat.eqb_refl in Y.
Qed.

Lemma mem_In b l : mem b l = true <-> In b l.
Proof.
  unfold mem. rewrite existsb_exists. split; [intros (x & H & E); apply Nat.eqb_eq in E; now subst|].
  intros H. exists b. split; [easy|]. apply Nat.eqb_refl.
Qed.
Lemma add_In x b l : In x (add b l) <-> x = b \/ In x l.
Proof.
  unfold add. destruct (mem b l) eqn:E; cbn.
  - apply mem_In in E. split; [auto|]. intros [->|]; auto.
  - split; intros [->|]; auto.
Qed.
Lemma add_NoDup b l : NoDup l -> NoDup (add b l).
Proof. intros H. unfold add. destruct (mem b l) eqn:E; [easy|]. constructor; [|easy]. intros X. apply mem_In in X. congruence. Qed.
Lemma del_In x b l : In x (del b l) <-> x <> b /\ In x l.
Proof. unfold del. rewrite filter_In, negb_true_iff, Nat.eqb_neq. tauto. Qed.
Lemma del_NoDup b l : NoDup l -> NoDup (del b l).
Proof. apply NoDup_filter. Qed.
Lemma del_none b l : ~ In b l -> del b l = l.
Proof.
  unfold del. induction l as [|x l IH]; cbn; [easy|]. intros H. destruct (Nat.eqb_spec x b) as [->|]; [tauto|]. cbn. now rewrite IH by tauto.
Qed.

(** ** Usage history *)
Definition ahead (h : list nat) (a b : nat) : Prop := exists h1 h2, h = h1 ++ b :: h2 /\ In a h1.
Lemma split_unique (h1 h2 g1 g2 : list nat) x : NoDup (h1 ++ x :: h2) -> h1 ++ x :: h2 = g1 ++ x :: g2 -> h1 = g1 /\ h2 = g2.
Proof.
  revert g1. induction h1 as [|a h1 IH]; intros g1 H E.
  - destruct g1 as [|b g1]; cbn in *; [now injection E as ->|]. injection E as <- E. apply NoDup_cons_iff in H as [H _]. exfalso. apply H. rewrite E.
    rewrite in_app_iff. right. now left.
  - destruct g1 as [|b g1]; cbn in *.
    + injection E as -> E. apply NoDup_cons_iff in H as [H _]. exfalso. apply H. rewrite in_app_iff. right. now left.
    + injection E as <- E. apply NoDup_cons_iff in H as [_ H]. destruct (IH g1 H E) as [-> ->]. easy.
Qed.
Lemma hit_split h1 h2 i : NoDup (h1 ++ i :: h2) -> hit (h1 ++ i :: h2) i = i :: h1 ++ h2.
Proof.
  intros H. unfold hit. f_equal. apply NoDup_remove_2 in H. rewrite in_app_iff in H.
  rewrite remove_app. cbn [remove]. destruct (Nat.eq_dec i i); [|easy]. rewrite !notin_remove by tauto. easy.
Qed.
Lemma hit_perm h i : NoDup h -> In i h -> Permutation (hit h i) h.
Proof. intros H Hi. apply in_split in Hi as (h1 & h2 & ->). rewrite hit_split by easy. apply Permutation_middle. Qed.
Lemma ahead_hit h i a b : NoDup h -> In i h -> ahead (hit h i) a b -> b <> i /\ (a = i \/ ahead h a b).
Proof.
  intros H Hi (g1 & g2 & E & Ha). apply in_split in Hi as (h1 & h2 & ->). rewrite hit_split in E by easy.
  assert (H' : NoDup (i :: h1 ++ h2)). { eapply Permutation_NoDup; [|exact H]. symmetry. apply Permutation_middle. }
  destruct g1 as [|c g1]; [easy|]. injection E as <- E. apply NoDup_cons_iff in H' as [H1 H2].
  assert (Hb : In b (h1 ++ h2)) by (rewrite E, in_app_iff; right; now left).
  split; [now intros ->|]. destruct Ha as [->|Ha]; [now left|]. right.
  assert (X : exists p q, h1 ++ i :: h2 = p ++ b :: q /\ incl g1 p).
  { destruct (in_app_iff h1 h2 b) as [[Hb1|Hb2] _]; [easy| |].
    - apply in_split in Hb1 as (p & q & ->). rewrite <- app_assoc in E. cbn in E. rewrite <- app_assoc in H2. cbn in H2.
      apply split_unique in E as [<- <-]; [|easy]. exists p, (q ++ i :: h2). rewrite <- app_assoc. cbn. split; [easy|]. apply incl_refl.
    - apply in_split in Hb2 as (p & q & ->). rewrite app_assoc in E, H2. apply split_unique in E as [<- <-]; [|easy].
      exists (h1 ++ i :: p), q. rewrite <- app_assoc. cbn. split; [easy|]. intros z Hz. rewrite in_app_iff in *. cbn. tauto. }
  destruct X as (p & q & E2 & I2). exists p, q. split; [easy|]. now apply I2.
Qed.

Section Proofs.
  Variable D : Type.
  Variable dinit : D.
  Notation blk := (nat * D)%type.
  Notation disk := (list (nat * option blk)).
  Notation cache := (cache D).
  Variable N : nat.

  Lemma kick_snoc h z : kick (h ++ [z]) = Some z.
  Proof. unfold kick. now rewrite rev_app_distr. Qed.

  Lemma kick_loop_ok (c : cache) v h2 : forall h1 tries, hist D c = h1 ++ v :: h2 -> NoDup (h1 ++ v :: h2) ->
    (forall i, In i h2 -> nth_error (fixed D c) i = Some true) -> nth_error (fixed D c) v = Some false -> length h2 < tries ->
    kick_loop D tries c = Some (set_hist D c (v :: h2 ++ h1), Some v).
  Proof.
    remember (length h2) as n eqn:En. revert c h2 En. induction n as [|n IH]; intros c h2 En h1 tries Hh ND Hf Hv Ht.
    - destruct h2; [|easy]. destruct tries as [|t]; [lia|]. cbn [kick_loop]. rewrite Hh at 1. rewrite kick_snoc. rewrite Hv.
      rewrite Hh, hit_split by easy. now rewrite app_nil_r.
    - assert (Nh : h2 <> []) by (intros ->; easy). destruct (exists_last Nh) as (h3 & z & ->).
      destruct tries as [|t]; [lia|]. cbn [kick_loop].
      replace (h1 ++ v :: h3 ++ [z]) with ((h1 ++ v :: h3) ++ [z]) in * by now rewrite <- app_assoc.
      rewrite Hh at 1. rewrite kick_snoc. rewrite Hf by (rewrite in_app_iff; right; now left).
      rewrite Hh, hit_split by easy. rewrite app_nil_r.
      rewrite app_length in En. cbn in En.
      rewrite (IH (set_hist D c (z :: h1 ++ v :: h3)) h3 ltac:(lia) (z :: h1) t); cbn [hist set_hist fixed]; auto.
      + now rewrite <- app_assoc.
      + eapply Permutation_NoDup; [|exact ND]. rewrite <- (app_nil_r ((h1 ++ v :: h3) ++ [z])), <- app_assoc. cbn. symmetry. 
        rewrite <- (app_nil_r (h1 ++ v :: h3)) at 1. apply Permutation_middle.
      + intros i Hi. apply Hf. rewrite in_app_iff. now left.
      + lia.
  Qed.
  Lemma kick_loop_full (c : cache) h2 : forall h1, hist D c = h1 ++ h2 -> NoDup (h1 ++ h2) ->
    (forall i, In i h2 -> nth_error (fixed D c) i = Some true) -> 
    kick_loop D (length h2) c = Some (set_hist D c (h2 ++ h1), None).
  Proof.
    remember (length h2) as n eqn:En. revert c h2 En. induction n as [|n IH]; intros c h2 En h1 Hh ND Hf.
    - destruct h2; [|easy]. rewrite app_nil_r in Hh. cbn [kick_loop app]. rewrite <- Hh. now destruct c.
    - assert (Nh : h2 <> []) by (intros ->; easy). destruct (exists_last Nh) as (h3 & z & ->).
      cbn [kick_loop]. rewrite app_assoc in Hh, ND. rewrite Hh at 1. rewrite kick_snoc. rewrite Hf by (rewrite in_app_iff; right; now left).
      rewrite Hh, hit_split by easy. rewrite app_nil_r.
      rewrite app_length in En. cbn in En.
      rewrite (IH (set_hist D c (z :: h1 ++ h3)) h3 ltac:(lia) (z :: h1)); cbn [hist set_hist fixed]; auto.
      + now rewrite <- app_assoc.
      + eapply Permutation_NoDup; [|exact ND]. symmetry. apply Permutation_cons_append.
      + intros i Hi. apply Hf. rewrite in_app_iff. now left.
  Qed.

  (** ** Invariant; the places in [hl] are neither free nor used. *)
  Record CI (hl : list nat) (c : cache) (d : disk) (m : list (nat * D)) (f : list nat) : Prop := {
    ci_nodes : length (nodes D c) = N;
    ci_fixed : length (fixed D c) = N;
    ci_dirty : length (dirty D c) = N;
    ci_frames : Permutation (map snd (b2n D c) ++ freel D c ++ hl) (seq 0 N);
    ci_keys : NoDup (map fst (b2n D c));
    ci_hist : Permutation (hist D c) (seq 0 N);
    ci_in : forall b k, aget (b2n D c) b = Some k -> exists v, getd D m b = Some v /\ nth_error (nodes D c) k = Some (b, v)
              /\ (nth_error (dirty D c) k = Some true \/ aget d b = Some (Some (b, v)));
    ci_out : forall b v, getd D m b = Some v -> aget (b2n D c) b = None -> aget d b = Some (Some (b, v));
    ci_all : forall b, aget d b = None <-> getd D m b = None;
    ci_fx : forall k, nth_error (fixed D c) k = Some true -> exists b, In b f /\ aget (b2n D c) b = Some k;
    ci_xf : forall b, In b f -> exists k, aget (b2n D c) b = Some k /\ nth_error (fixed D c) k = Some true;
    ci_fnd : NoDup f }.

  Lemma CI_lt hl c d m f b k : CI hl c d m f -> aget (b2n D c) b = Some k -> k < N.
  Proof.
    intros H Hb. apply aget_In in Hb. assert (X : In k (seq 0 N)); [|apply in_seq in X; lia].
    eapply Permutation_in; [apply H|]. rewrite in_app_iff. left. apply in_map_iff. now exists (b, k).
  Qed.
  Lemma CI_nd hl c d m f : CI hl c d m f -> NoDup (map snd (b2n D c) ++ freel D c ++ hl).
  Proof. intros H. eapply Permutation_NoDup; [symmetry; apply H|apply seq_NoDup]. Qed.
  Lemma CI_inj hl c d m f b b' k : CI hl c d m f -> aget (b2n D c) b = Some k -> aget (b2n D c) b' = Some k -> b = b'.
  Proof.
    intros H H1 H2. pose proof (CI_nd _ _ _ _ _ H) as ND. apply aget_In in H1, H2.
    apply in_split in H1 as (p & q & E). rewrite E in H2, ND. rewrite map_app in ND. cbn [map snd] in ND.
    apply in_app_iff in H2 as [H2|[[= ->]|H2]]; [|easy|]; exfalso; rewrite <- !app_assoc in ND; cbn in ND; apply NoDup_remove_2 in ND; apply ND; rewrite !in_app_iff.
    - left. apply in_map_iff. now exists (b', k).
    - right. left. apply in_map_iff. now exists (b', k).
  Qed.
  Lemma CI_hole c d m f k b : CI [k] c d m f -> aget (b2n D c) b <> Some k.
  Proof.
    intros H Hb. pose proof (CI_nd _ _ _ _ _ H) as ND. apply aget_In in Hb.
    rewrite app_assoc in ND. apply NoDup_remove_2 in ND. apply ND. rewrite app_nil_r, in_app_iff. left. apply in_map_iff. now exists (b, k).
  Qed.
  Lemma CI_hist_nd hl c d m f : CI hl c d m f -> NoDup (hist D c).
  Proof. intros H. eapply Permutation_NoDup; [symmetry; apply (ci_hist _ _ _ _ _ H)|apply seq_NoDup]. Qed.
  Lemma CI_hist_in hl c d m f k : CI hl c d m f -> In k (hist D c) <-> k < N.
  Proof.
    intros H. split.
    - intros Hk. assert (X : In k (seq 0 N)) by (eapply Permutation_in; [apply (ci_hist _ _ _ _ _ H)|easy]). apply in_seq in X. lia.
    - intros Hk. eapply Permutation_in; [symmetry; apply (ci_hist _ _ _ _ _ H)|]. apply in_seq. lia.
  Qed.
  Lemma CI_count hl c d m f k : CI hl c d m f -> CI hl (count D c k) d m f.
  Proof. intros []. now constructor. Qed.

  Definition PO (c : cache) (b k : nat) (o : list nat) : Prop :=
    aget (b2n D c) b = Some k /\ NoDup o
    /\ forall b' k', aget (b2n D c) b' = Some k' -> k' <> k -> ahead (hist D c) k' k \/ nth_error (fixed D c) k' = Some true -> In b' o.

  Lemma CI_unfixed hl c d m f : CI hl c d m f -> length f < N -> exists k, In k (hist D c) /\ nth_error (fixed D c) k = Some false.
  Proof.
    intros H Hl.
    destruct (existsb (fun k => match nth_error (fixed D c) k with Some false => true | _ => false end) (hist D c)) eqn:E.
    - apply existsb_exists in E as (k & H1 & H2). exists k. split; [easy|]. now destruct (nth_error (fixed D c) k) as [[|]|].
    - exfalso.
      assert (X : forall k, k < N -> nth_error (fixed D c) k = Some true).
      { intros k Hk. destruct (nth_error (fixed D c) k) as [[|]|] eqn:E2; [easy| |].
        - assert (Y : existsb (fun k => match nth_error (fixed D c) k with Some false => true | _ => false end) (hist D c) = true); [|congruence].
          apply existsb_exists. exists k. split; [now apply (CI_hist_in _ _ _ _ _ _ H)|]. now rewrite E2.
        - apply nth_error_None in E2. rewrite (ci_fixed _ _ _ _ _ H) in E2. lia. }
      assert (Y : incl (seq 0 N) (map (fun b => match aget (b2n D c) b with Some k => k | None => 0 end) f)).
      { intros k Hk. apply in_seq in Hk. destruct (ci_fx _ _ _ _ _ H k (X k ltac:(lia))) as (b & Hb & Eb).
        apply in_map_iff. exists b. now rewrite Eb. }
      apply NoDup_incl_length in Y; [|apply seq_NoDup]. rewrite map_length, seq_length in Y. lia.
  Qed.

  Lemma last_unfixed (fl : list bool) h : (exists k, In k h /\ nth_error fl k = Some false) -> (forall k, In k h -> k < length fl) ->
    exists h1 v h2, h = h1 ++ v :: h2 /\ nth_error fl v = Some false /\ forall i, In i h2 -> nth_error fl i = Some true.
  Proof.
    induction h as [|x h IH]; intros (k & Hk & Ek) Hlt; [easy|].
    destruct (existsb (fun k => match nth_error fl k with Some false => true | _ => false end) h) eqn:E.
    - apply existsb_exists in E as (j & J1 & J2). destruct IH as (h1 & v & h2 & -> & H1 & H2).
      + exists j. split; [easy|]. now destruct (nth_error fl j) as [[|]|].
      + intros; apply Hlt; now right.
      + exists (x :: h1), v, h2. easy.
    - destruct Hk as [->|Hk].
      + exists [], k, h. split; [easy|]. split; [easy|]. intros i Hi. destruct (nth_error fl i) as [[|]|] eqn:E2; [easy| |].
        * assert (Y : existsb (fun k => match nth_error fl k with Some false => true | _ => false end) h = true); [|congruence].
          apply existsb_exists. exists i. now rewrite E2.
        * apply nth_error_None in E2. specialize (Hlt i (or_intror Hi)). lia.
      + assert (Y : existsb (fun k => match nth_error fl k with Some false => true | _ => false end) h = true); [|congruence].
        apply existsb_exists. exists k. now rewrite Ek.
  Qed.

  (** A place for block [x] which is not in the cache. *)
  Lemma get_room_ok chk c d m f x : CI [] c d m f -> aget (b2n D c) x = None -> length f < N ->
    exists c1 d1 k, get_room D chk c d = Some (c1, d1, Some k) /\ CI [k] c1 d1 m f /\ fixed D c1 = fixed D c /\ nodes D c1 = nodes D c
      /\ dirty D c1 = dirty D c /\ nth_error (fixed D c) k = Some false /\ (exists h, hist D c1 = k :: h)
      /\ (forall b, aget (b2n D c) b = None -> aget (b2n D c1) b = None)
      /\ (forall b, aget d b = None -> aget d1 b = None)
      /\ (forall b k0 o, PO c b k0 o -> In b f \/ length (add x o) < N -> PO c1 b k0 o).
  Proof.
    intros H Hx Hf. unfold get_room. destruct (freel D c) as [|k l] eqn:Ef.
    - (* kick *)
      unfold make_room.
      destruct (last_unfixed (fixed D c) (hist D c) (CI_unfixed _ _ _ _ _ H Hf)) as (h1 & v & h2 & Eh & Hv & Hh2).
      { intros k Hk. apply (CI_hist_in _ _ _ _ _ _ H) in Hk. now rewrite (ci_fixed _ _ _ _ _ H). }
      pose proof (CI_hist_nd _ _ _ _ _ H) as NDh. rewrite Eh in NDh.
      assert (Lh : length (hist D c) = N) by (rewrite (Permutation_length (ci_hist _ _ _ _ _ H)); apply seq_length).
      rewrite (kick_loop_ok c v h2 h1 (size D c) Eh NDh Hh2 Hv).
      2:{ unfold size. rewrite (ci_nodes _ _ _ _ _ H), <- Lh, Eh, app_length. cbn. lia. }
      cbn [fst snd].
      assert (Lv : v < N). { apply (CI_hist_in _ _ _ _ _ _ H). rewrite Eh, in_app_iff. right. now left. }
      (* the node in this place *)
      assert (Hb : exists bv, aget (b2n D c) bv = Some v).
      { assert (X : In v (map snd (b2n D c) ++ freel D c ++ [])).
        { eapply Permutation_in; [symmetry; apply H|]. apply in_seq. lia. }
        rewrite Ef, in_app_iff in X. destruct X as [X|[]]. apply in_map_iff in X as ([bv v'] & E & Y). cbn in E. subst v'.
        exists bv. apply In_aget; [apply H|easy]. }
      destruct Hb as (bv & Hbv). destruct (ci_in _ _ _ _ _ H bv v Hbv) as (w & Hw & Hnv & Hdv). rewrite Hnv.
      destruct (nth_error (dirty D c) v) as [dt|] eqn:Edt. 2:{ apply nth_error_None in Edt. rewrite (ci_dirty _ _ _ _ _ H) in Edt. lia. }
      assert (Hsv : exists d', (if dt then save D d (bv, w) else Some d) = Some d'
        /\ aget d' bv = Some (Some (bv, w)) /\ (forall b, b <> bv -> aget d' b = aget d b)).
      { destruct dt.
        - unfold save. cbn [fst]. destruct (aget d bv) as [o|] eqn:Eo.
          + eexists. split; [reflexivity|]. rewrite aget_aput, Nat.eqb_refl. split; [easy|]. intros b Hb. rewrite aget_aput. now apply Nat.eqb_neq in Hb as ->.
          + apply (ci_all _ _ _ _ _ H) in Eo. congruence.
        - exists d. destruct Hdv as [Hdv|Hdv]; easy. }
      destruct Hsv as (d' & -> & Hd1 & Hd2). cbn [fst b2n count set_hist].
      rewrite Hbv. replace (if chk then Some v else Some 0) with (Some (if chk then v else 0)) by now destruct chk.
      exists (set_b2n D (count D (set_hist D c (v :: h2 ++ h1)) (if dt then NWritten else NCleanForced)) (adel (b2n D c) bv)), d', v.
      split; [easy|]. split; [|repeat (split; [easy|])].
      + constructor; cbn [nodes fixed dirty freel b2n hist set_b2n count set_hist]; try apply H.
        * rewrite Ef. cbn [app].
          assert (X : Permutation (map snd (b2n D c)) (v :: map snd (adel (b2n D c) bv))).
          { change (v :: map snd (adel (b2n D c) bv)) with (map snd ((bv, v) :: adel (b2n D c) bv)). apply Permutation_map. apply adel_perm; [apply H|easy]. }
          pose proof (ci_frames _ _ _ _ _ H) as Y. rewrite Ef, !app_nil_r in Y. rewrite <- Y, X. symmetry. apply Permutation_cons_append.
        * apply adel_keys, H.
        * rewrite <- (ci_hist _ _ _ _ _ H), Eh. rewrite (Permutation_app_comm h1). cbn. constructor. easy.
        * intros b k Hk. rewrite aget_adel in Hk. destruct (Nat.eqb_spec b bv) as [->|Nb]; [easy|].
          destruct (ci_in _ _ _ _ _ H b k Hk) as (u & U1 & U2 & U3). exists u. rewrite Hd2 by easy. easy.
        * intros b u Hu Hn. rewrite aget_adel in Hn. destruct (Nat.eqb_spec b bv) as [->|Nb]; [congruence|].
          rewrite Hd2 by easy. now apply (ci_out _ _ _ _ _ H).
        * intros b. destruct (Nat.eq_dec b bv) as [->|Nb]; [rewrite Hd1, Hw; easy|]. rewrite Hd2 by easy. apply H.
        * intros k Hk. destruct (ci_fx _ _ _ _ _ H k Hk) as (b & B1 & B2). exists b. split; [easy|]. rewrite aget_adel.
          destruct (Nat.eqb_spec b bv) as [->|Nb]; [|easy]. rewrite Hbv in B2. injection B2 as <-. congruence.
        * intros b B1. destruct (ci_xf _ _ _ _ _ H b B1) as (k & B2 & B3). exists k. split; [|easy]. rewrite aget_adel.
          destruct (Nat.eqb_spec b bv) as [->|Nb]; [|easy]. rewrite Hbv in B2. injection B2 as <-. congruence.
      + split; [now eexists|]. split; [|split].
        * intros b Hb. cbn. rewrite aget_adel. now destruct (b =? bv).
        * intros b Hb. destruct (Nat.eq_dec b bv) as [->|Nb]; [|now rewrite Hd2]. apply (ci_all _ _ _ _ _ H) in Hb. congruence.
        * intros b k0 o (P1 & P2 & P3) Hval.
          assert (Nbv : b <> bv).
          { intros ->. rewrite Hbv in P1. injection P1 as <-. destruct Hval as [Hval|Hval].
            - destruct (ci_xf _ _ _ _ _ H bv Hval) as (k & B2 & B3). rewrite Hbv in B2. injection B2 as <-. congruence.
            - assert (Y : incl (x :: map fst (adel (b2n D c) bv)) (add x o)).
              { intros z [<-|Hz]; [apply add_In; now left|]. apply add_In. right.
                apply in_map_iff in Hz as ([z' kz] & E & Hz). cbn in E. subst z'.
                assert (Hz2 := Hz). unfold adel in Hz2. apply filter_In in Hz2 as [Hz2 Hz3]. cbn in Hz3.
                assert (Gz : aget (b2n D c) z = Some kz) by (apply In_aget; [apply H|easy]).
                assert (Nk : kz <> v). { intros ->. apply negb_true_iff, Nat.eqb_neq in Hz3. apply Hz3. eapply CI_inj; eauto. }
                apply (P3 z kz Gz Nk). pose proof (CI_lt _ _ _ _ _ _ _ H Gz) as Lz. apply (CI_hist_in _ _ _ _ _ _ H) in Lz. rewrite Eh in Lz.
                apply in_app_iff in Lz as [Lz|[Lz|Lz]]; [left|congruence|right; auto]. exists h1, h2. easy. }
              apply NoDup_incl_length in Y.
              + cbn [length] in Y. rewrite map_length in Y.
                pose proof (Permutation_length (adel_perm _ _ _ (ci_keys _ _ _ _ _ H) Hbv)) as L1. cbn in L1.
                pose proof (Permutation_length (ci_frames _ _ _ _ _ H)) as L2. rewrite Ef, !app_length, map_length, seq_length in L2. cbn in L2. lia.
              + constructor; [|apply adel_keys, H]. intros Z. apply in_map_iff in Z as ([z' kz] & E & Hz). cbn in E. subst z'.
                unfold adel in Hz. apply filter_In in Hz as [Hz _]. apply In_aget in Hz; [congruence|apply H]. }
          unfold PO. cbn [b2n set_b2n hist set_hist count fixed]. split; [|split; [easy|]].
          -- rewrite aget_adel. now apply Nat.eqb_neq in Nbv as ->.
          -- intros b' k' G1 G2 G3. rewrite aget_adel in G1. destruct (Nat.eqb_spec b' bv) as [->|Nb']; [easy|].
             apply (P3 b' k' G1 G2). destruct G3 as [(g1 & g2 & E1 & E2)|G3]; [|now right].
             assert (Nv : k0 <> v). { intros ->. apply Nbv. eapply CI_inj; eauto. }
             assert (Nv' : k' <> v). { intros ->. apply Nb'. eapply CI_inj; eauto. }
             destruct g1 as [|a g1]; [now injection E1|]. injection E1 as <- E1. destruct E2 as [E2|E2]; [congruence|].
             (* ahead in h2 ++ h1 *)
             assert (Hk : In k' (h2 ++ h1)) by (rewrite E1, in_app_iff; now left).
             apply in_app_iff in Hk as [Hk|Hk]; [right; auto|].
             left. 
             assert (ND2 : NoDup (h2 ++ h1)).
             { apply NoDup_remove_1 in NDh. eapply Permutation_NoDup; [apply Permutation_app_comm|exact NDh]. }
             assert (Hk0 : In k0 (h2 ++ h1)) by (rewrite E1, in_app_iff; right; now left).
             apply in_app_iff in Hk0 as [Hk0|Hk0].
             ++ (* k0 in h2, then k' too *)
                exfalso. apply in_split in Hk0 as (p & q & ->). rewrite <- app_assoc in E1, ND2. cbn in E1, ND2.
                apply split_unique in E1 as [<- _]; [|easy].
                apply (in_split k' h1) in Hk as (p' & q' & ->). 
                assert (ND3 := ND2). replace (p ++ k0 :: q ++ p' ++ k' :: q') with ((p ++ k0 :: q ++ p') ++ k' :: q') in ND3 by (rewrite <- !app_assoc; cbn; now rewrite <- app_assoc).
                apply NoDup_remove_2 in ND3. apply ND3. rewrite !in_app_iff. left. now left.
             ++ apply in_split in Hk0 as (p & q & E3). rewrite E3, app_assoc in E1, ND2. apply split_unique in E1 as [<- _]; [|easy].
                apply in_app_iff in E2 as [E2|E2].
                ** exfalso. rewrite E3 in Hk. rewrite <- app_assoc in ND2.
                   destruct (in_split k' h2 E2) as (p' & q' & ->). rewrite <- app_assoc in ND2. cbn in ND2. apply NoDup_remove_2 in ND2. apply ND2.
                   rewrite !in_app_iff. right. right. apply in_app_iff in Hk. easy.
                ** exists p, (q ++ v :: h2). rewrite Eh, E3, <- app_assoc. easy.
    - (* a free place *)
      assert (Lk : k < N).
      { assert (X : In k (seq 0 N)); [|apply in_seq in X; lia]. eapply Permutation_in; [apply H|]. rewrite Ef, !in_app_iff. right. left. now left. }
      assert (Nk : forall b, aget (b2n D c) b <> Some k).
      { intros b Hb. pose proof (CI_nd _ _ _ _ _ H) as ND. rewrite Ef in ND. cbn in ND. apply NoDup_remove_2 in ND. apply ND. rewrite in_app_iff. left.
        apply in_map_iff. exists (b, k). split; [easy|]. now apply aget_In. }
      destruct (nth_error (fixed D c) k) as [[|]|] eqn:Efx.
      + exfalso. destruct (ci_fx _ _ _ _ _ H k Efx) as (b & _ & B2). now apply Nk in B2.
      + pose proof (CI_hist_nd _ _ _ _ _ H) as NDh.
        assert (Ih : In k (hist D c)) by now apply (CI_hist_in _ _ _ _ _ _ H).
        eexists _, _, _. split; [reflexivity|]. split; [|repeat (split; [easy|])].
        * constructor; cbn [nodes fixed dirty freel b2n hist set_freel set_hist]; try apply H.
          -- pose proof (ci_frames _ _ _ _ _ H) as Y. rewrite Ef, app_nil_r in Y. rewrite <- Y. apply Permutation_app_head. symmetry. apply Permutation_cons_append.
          -- rewrite hit_perm by easy. apply H.
        * split; [now eexists|]. split; [easy|]. split; [easy|].
          intros b k0 o (P1 & P2 & P3) _. split; [easy|]. split; [easy|]. cbn [b2n set_freel set_hist hist fixed].
          intros b' k' G1 G2 G3. apply (P3 b' k' G1 G2). destruct G3 as [G3|G3]; [|now right].
          apply ahead_hit in G3 as [_ [->|G3]]; [|now left|easy|easy]. now apply Nk in G1.
      + apply nth_error_None in Efx. rewrite (ci_fixed _ _ _ _ _ H) in Efx. lia.
  Qed.

  (** The place [k] is filled with block [b]. *)
  Lemma fill_ok c1 d1 m f k b v fxv dt c3 d3 m3 h :
    CI [k] c1 d1 m f -> aget (b2n D c1) b = None -> k < N -> nth_error (fixed D c1) k = Some false -> hist D c1 = k :: h ->
    length (nodes D c3) = N -> length (fixed D c3) = N -> length (dirty D c3) = N ->
    (forall j, nth_error (nodes D c3) j = if j =? k then Some (b, v) else nth_error (nodes D c1) j) ->
    (forall j, nth_error (fixed D c3) j = if j =? k then Some fxv else nth_error (fixed D c1) j) ->
    (forall j, nth_error (dirty D c3) j = if j =? k then Some dt else nth_error (dirty D c1) j) ->
    freel D c3 = freel D c1 -> b2n D c3 = aput (b2n D c1) b k -> hist D c3 = hist D c1 ->
    getd D m3 b = Some v -> (forall b', b' <> b -> getd D m3 b' = getd D m b') ->
    aget d3 b <> None -> (forall b', b' <> b -> aget d3 b' = aget d1 b') -> (dt = true \/ aget d3 b = Some (Some (b, v))) ->
    CI [] c3 d3 m3 (if fxv then b :: f else f) /\ full D c3 = true
    /\ PO c3 b k f
    /\ (forall b0 k0 o, PO c1 b0 k0 o -> PO c3 b0 k0 (add b o) /\ nth_error (dirty D c3) k0 = nth_error (dirty D c1) k0).
  Proof.
    intros H Hb Lk Hfk Hh Ln Lf Ld En Ef Ed Efr Eb Ehi Em1 Em2 Ed1 Ed2 Ed3.
    assert (Nb : ~ In b f). { intros X. destruct (ci_xf _ _ _ _ _ H b X) as (k' & X1 & _). congruence. }
    assert (Ead : adel (b2n D c1) b = b2n D c1) by now apply adel_none.
    assert (Hg : forall b', aget (b2n D c3) b' = if b' =? b then Some k else aget (b2n D c1) b') by (intros; rewrite Eb; apply aget_aput).
    assert (Nk : forall b', aget (b2n D c1) b' <> Some k) by (intros b'; eapply CI_hole; eauto).
    assert (Hneq : forall b' k', aget (b2n D c1) b' = Some k' -> (k' =? k) = false). { intros b' k' G. apply Nat.eqb_neq. intros ->. now apply Nk in G. }
    assert (Hneb : forall b' k', aget (b2n D c1) b' = Some k' -> (b' =? b) = false). { intros b' k' G. apply Nat.eqb_neq. intros ->. congruence. }
    assert (C : CI [] c3 d3 m3 (if fxv then b :: f else f)).
    { constructor; auto.
      - rewrite Efr, Eb. unfold aput. rewrite Ead. cbn [map snd]. rewrite app_nil_r. rewrite <- (ci_frames _ _ _ _ _ H).
        rewrite !app_assoc. cbn. apply Permutation_cons_append.
      - rewrite Eb. apply aput_keys, H.
      - rewrite Ehi. apply H.
      - intros b' k' G. rewrite Hg in G. destruct (Nat.eqb_spec b' b) as [->|Nb'].
        + injection G as <-. exists v. split; [easy|]. rewrite En, Ed, Nat.eqb_refl. split; [easy|]. destruct Ed3 as [->|]; auto.
        + destruct (ci_in _ _ _ _ _ H b' k' G) as (u & U1 & U2 & U3). exists u. rewrite En, Ed, (Hneq _ _ G), Em2, Ed2 by easy. easy.
      - intros b' u Hu G. rewrite Hg in G. destruct (Nat.eqb_spec b' b) as [->|Nb']; [easy|]. rewrite Ed2 by easy. apply (ci_out _ _ _ _ _ H); [|easy].
        now rewrite <- Em2.
      - intros b'. destruct (Nat.eq_dec b' b) as [->|Nb']; [rewrite Em1; easy|]. rewrite Ed2, Em2 by easy. apply H.
      - intros j Hj. rewrite Ef in Hj. destruct (Nat.eqb_spec j k) as [Ej|Nj]; [subst j|].
        + injection Hj as ->. exists b. split; [now left|]. now rewrite Hg, Nat.eqb_refl.
        + destruct (ci_fx _ _ _ _ _ H j Hj) as (b' & B1 & B2). exists b'. split; [destruct fxv; [now right|easy]|].
          now rewrite Hg, (Hneb _ _ B2).
      - intros b' B. assert (X : b' = b /\ fxv = true \/ In b' f). { destruct fxv; [|now right]. destruct B as [->|B]; [now left|now right]. }
        destruct X as [[-> ->]|X].
        + exists k. rewrite Hg, Ef, !Nat.eqb_refl. easy.
        + destruct (ci_xf _ _ _ _ _ H b' X) as (j & J1 & J2). exists j. rewrite Hg, Ef, (Hneb _ _ J1), (Hneq _ _ J1). easy.
      - destruct fxv; [|apply H]. constructor; [easy|apply H]. }
    split; [exact C|]. split; [|split].
    - unfold full, size. rewrite Ln. pose proof (Permutation_length (ci_frames _ _ _ _ _ C)) as L.
      rewrite !app_length, map_length, seq_length in L. cbn in L. apply Nat.eqb_eq. lia.
    - split; [now rewrite Hg, Nat.eqb_refl|]. split; [apply H|]. intros b' k' G1 G2 G3. destruct G3 as [(g1 & g2 & E1 & E2)|G3].
      + exfalso. rewrite Ehi, Hh in E1. assert (ND : NoDup (k :: h)) by (rewrite <- Hh; eapply CI_hist_nd; eauto).
        destruct g1 as [|a g1]; [easy|]. injection E1 as <- E1. apply NoDup_cons_iff in ND as [ND _]. apply ND. rewrite E1, in_app_iff. right. now left.
      + rewrite Ef in G3. apply Nat.eqb_neq in G2. rewrite G2 in G3. destruct (ci_fx _ _ _ _ _ H k' G3) as (b2 & B1 & B2).
        rewrite Hg in G1. destruct (Nat.eqb_spec b' b) as [->|]; [injection G1 as <-; now rewrite Nat.eqb_refl in G2|].
        now rewrite (CI_inj _ _ _ _ _ _ _ _ H G1 B2).
    - intros b0 k0 o (P1 & P2 & P3). split; [|now rewrite Ed, (Hneq _ _ P1)].
      split; [now rewrite Hg, (Hneb _ _ P1)|]. split; [now apply add_NoDup|]. intros b' k' G1 G2 G3. apply add_In.
      rewrite Hg in G1. destruct (Nat.eqb_spec b' b) as [->|Nb']; [now left|right].
      apply (P3 b' k' G1 G2). rewrite Ehi in G3. rewrite Ef, (Hneq _ _ G1) in G3. easy.
  Qed.

  (** ** Refinement *)
  Definition PR (c : cache) (p : sptr) (k : nat) : Prop :=
    match p with P b w o => PO c b k o /\ (w = true -> nth_error (dirty D c) k = Some true) | Bad => True end.
  Record Rel (s : sstate D) (t : state D) : Prop := {
    rl_ci : CI [] (ca D t) (di D t) (sm D s) (fx D s);
    rl_pt : Forall2 (PR (ca D t)) (sp D s) (ptrs D t) }.

  Lemma Forall2_mapl {A B} (R R' : A -> B -> Prop) g l1 l2 : Forall2 R l1 l2 -> (forall a b, R a b -> R' (g a) b) -> Forall2 R' (map g l1) l2.
  Proof. intros H X. induction H; cbn; constructor; auto. Qed.
  Lemma Forall2_impl {A B} (R R' : A -> B -> Prop) l1 l2 : Forall2 R l1 l2 -> (forall a b, R a b -> R' a b) -> Forall2 R' l1 l2.
  Proof. intros H X. induction H; constructor; auto. Qed.
  Lemma Forall2_nth {A B} (R : A -> B -> Prop) l1 l2 i a : Forall2 R l1 l2 -> nth_error l1 i = Some a -> exists b, nth_error l2 i = Some b /\ R a b.
  Proof. intros H. revert i. induction H; intros [|i]; cbn; try easy; [intros [= <-]; eauto|auto]. Qed.

  Lemma touch_place c1 c3 fxs f0 b (own : nat -> bool -> list nat -> sptr) c :
    (forall b0 k0 o, PO c b0 k0 o -> In b0 f0 \/ length (add b o) < N -> PO c1 b0 k0 o) ->
    dirty D c1 = dirty D c -> fxs = f0 ->
    (forall b0 k0 o, PO c1 b0 k0 o -> PO c3 b0 k0 (add b o) /\ nth_error (dirty D c3) k0 = nth_error (dirty D c1) k0) ->
    aget (b2n D c) b = None ->
    forall p k, PR c p k -> PR c3 (touch N fxs b own p) k.
  Proof.
    intros H1 Hd -> H2 Hb p k Hp. destruct p as [b0 w o|]; [|easy]. cbn [touch PR] in *. destruct Hp as [Hp Hw].
    destruct (Nat.eqb_spec b0 b) as [->|Nb]. { destruct Hp as (Hp & _). congruence. }
    destruct (mem b0 f0 || (length (add b o) <? N)) eqn:E; [|easy].
    apply orb_true_iff in E. rewrite mem_In, Nat.ltb_lt in E. destruct (H2 b0 k o) as [G1 G2]; [now apply H1|].
    split; [easy|]. intros W. rewrite G2, Hd. auto.
  Qed.

  (** A missing block is put into the cache. *)
  Lemma place_ok c d m f b v fxv wr : CI [] c d m f -> aget (b2n D c) b = None -> getd D m b = Some v -> length f < N ->
    exists c3 d3 k, place D c d b fxv wr = Some (c3, d3, Some k) /\ CI [] c3 d3 m (if fxv then b :: f else f)
      /\ PO c3 b k f /\ nth_error (dirty D c3) k = Some wr
      /\ forall own p j, PR c p j -> PR c3 (touch N f b own p) j.
  Proof.
    intros H Hb Hv Hf. destruct (get_room_ok false c d m f b H Hb Hf) as (c1 & d1 & k & E & C1 & F1 & F2 & F3 & Fk & (h & Fh) & FN & _ & FP).
    assert (Lk : k < N). { apply (CI_hist_in _ _ _ _ _ _ C1). rewrite Fh. now left. }
    unfold place. rewrite E. unfold load.
    assert (Hd : aget d1 b = Some (Some (b, v))) by (apply (ci_out _ _ _ _ _ C1); auto). rewrite Hd. cbn [fst]. rewrite Nat.eqb_refl.
    pose proof (ci_nodes _ _ _ _ _ C1) as L1. pose proof (ci_fixed _ _ _ _ _ C1) as L2. pose proof (ci_dirty _ _ _ _ _ C1) as L3.
    match goal with |- context [full D ?x] => set (c3 := x) end.
    assert (Q := fill_ok c1 d1 m f k b v fxv wr c3 d1 m h C1).
    assert (Q' : CI [] c3 d1 m (if fxv then b :: f else f) /\ full D c3 = true /\ PO c3 b k f
      /\ (forall b0 k0 o, PO c1 b0 k0 o -> PO c3 b0 k0 (add b o) /\ nth_error (dirty D c3) k0 = nth_error (dirty D c1) k0)).
    { apply Q; subst c3; cbn [nodes fixed dirty freel b2n hist set_b2n set_nodes set_fixed set_dirty];
      rewrite ?nset_length; auto; try (intros; apply nset_nth; lia); try congruence; try lia. }
    destruct Q' as (G1 & G2 & G3 & G4).
    rewrite G2. eexists _, _, _. split; [reflexivity|]. split; [exact G1|]. split; [exact G3|]. split.
    - unfold c3. cbn [dirty set_dirty]. rewrite nset_nth, Nat.eqb_refl by (cbn; lia). easy.
    - intros own. eapply touch_place; eauto.
  Qed.

  Lemma getd_setd (m : list (nat * D)) b v b' : getd D (setd D m b v) b' = if b' =? b then match getd D m b with Some _ => Some v | None => None end else getd D m b'.
  Proof.
    unfold getd, setd. induction m as [|[x u] m IH]; cbn [map find fst option_map]; [now destruct (b' =? b)|].
    destruct (Nat.eqb_spec x b) as [->|Nx]; cbn [fst].
    - rewrite (Nat.eqb_sym b b'). destruct (Nat.eqb_spec b' b) as [Eb|]; cbn; [easy|]. exact IH.
    - destruct (Nat.eqb_spec x b') as [Ex|Nx']; cbn.
      + subst x. now apply Nat.eqb_neq in Nx as ->.
      + exact IH.
  Qed.
  Lemma getd_del (m : list (nat * D)) b b' : getd D (filter (fun e => negb (fst e =? b)) m) b' = if b' =? b then None else getd D m b'.
  Proof.
    unfold getd. induction m as [|[x u] m IH]; cbn [filter find fst option_map]; [now destruct (b' =? b)|].
    destruct (Nat.eqb_spec x b) as [->|Nx]; cbn [negb find fst].
    - rewrite IH. rewrite (Nat.eqb_sym b b'). now destruct (Nat.eqb_spec b' b).
    - destruct (Nat.eqb_spec x b') as [Ex|Nx']; cbn; [|exact IH]. subst x. now apply Nat.eqb_neq in Nx as ->.
  Qed.

  Lemma get_ok s t b fxv w s' r : Rel s t -> s_get D N s b fxv w = Some (s', r) ->
    exists t', got D t (get_node D (ca D t) (di D t) b fxv w) = Some (t', r) /\ Rel s' t'.
  Proof.
    intros [H HP] E. unfold s_get in E. destruct (getd D (sm D s) b) as [v|] eqn:Ev; [|easy].
    destruct (Nat.ltb_spec (length (del b (fx D s))) N) as [Hl|]; [|easy]. injection E as <- <-.
    set (f := fx D s) in *. set (c := ca D t) in *.
    unfold get_node. cbn [b2n count]. destruct (aget (b2n D c) b) as [k|] eqn:Eb.
    - (* in the cache *)
      pose proof (CI_lt _ _ _ _ _ _ _ H Eb) as Lk. pose proof (CI_hist_nd _ _ _ _ _ H) as NDh.
      assert (Ih : In k (hist D c)) by now apply (CI_hist_in _ _ _ _ _ _ H).
      pose proof (ci_nodes _ _ _ _ _ H) as L1. pose proof (ci_fixed _ _ _ _ _ H) as L2. pose proof (ci_dirty _ _ _ _ _ H) as L3.
      unfold got. eexists. split; [reflexivity|].
      set (f' := if fxv then b :: del b f else del b f).
      match goal with |- Rel _ {| ca := ?x |} => set (c2 := x) end.
      assert (Q1 : nodes D c2 = nodes D c) by (subst c2; now destruct w).
      assert (Q2 : fixed D c2 = nset (fixed D c) k fxv) by (subst c2; now destruct w).
      assert (Q3 : forall j, nth_error (dirty D c2) j = if w && (j =? k) then Some true else nth_error (dirty D c) j).
      { subst c2. intros j. destruct w; cbn [dirty set_dirty set_hist set_fixed count andb]; [|easy]. rewrite nset_nth by lia. easy. }
      assert (Q3' : length (dirty D c2) = N). { subst c2. destruct w; cbn [dirty set_dirty set_hist set_fixed count]; rewrite ?nset_length; lia. }
      assert (Q4 : freel D c2 = freel D c) by (subst c2; now destruct w).
      assert (Q5 : b2n D c2 = b2n D c) by (subst c2; now destruct w).
      assert (Q6 : hist D c2 = hit (hist D c) k) by (subst c2; now destruct w).
      clearbody c2.
      assert (Inf : forall x, In x f' <-> (x = b /\ fxv = true) \/ (x <> b /\ In x f)).
      { intros x. unfold f'. destruct fxv; cbn [In]; rewrite del_In; intuition congruence. }
      assert (C : CI [] c2 (di D t) (sm D s) f').
      { constructor; rewrite ?Q1, ?Q4, ?Q5, ?Q6; try apply H; auto.
        - rewrite Q2, nset_length; lia.
        - rewrite hit_perm by easy. apply H.
        - intros b' k' G. destruct (ci_in _ _ _ _ _ H b' k' G) as (u & U1 & U2 & U3). exists u. rewrite Q3. destruct (w && (k' =? k)); auto.
        - intros j Hj. rewrite Q2, nset_nth in Hj by lia. destruct (Nat.eqb_spec j k) as [Ej|Nj]; [subst j|].
          + injection Hj as ->. exists b. split; [apply Inf; now left|easy].
          + destruct (ci_fx _ _ _ _ _ H j Hj) as (b' & B1 & B2). exists b'. split; [|easy]. apply Inf. right. split; [|easy]. intros ->. congruence.
        - intros b' B. apply Inf in B as [[-> ->]|[B1 B2]].
          + exists k. split; [easy|]. rewrite Q2, nset_nth, Nat.eqb_refl by lia. easy.
          + destruct (ci_xf _ _ _ _ _ H b' B2) as (j & J1 & J2). exists j. split; [easy|]. rewrite Q2, nset_nth by lia.
            destruct (Nat.eqb_spec j k) as [->|]; [|easy]. exfalso. apply B1. eapply CI_inj; eauto.
        - unfold f'. destruct fxv; [constructor|]; try apply del_NoDup, H. rewrite del_In. tauto. }
      assert (Pb : PO c2 b k (del b f')).
      { split; [now rewrite Q5|]. split; [apply del_NoDup, C|]. rewrite Q5, Q6. intros b' k' G1 G2 [G3|G3].
        - exfalso. apply ahead_hit in G3; tauto.
        - rewrite del_In. destruct (ci_fx _ _ _ _ _ C k' G3) as (b2 & B1 & B2). rewrite Q5 in B2.
          rewrite (CI_inj _ _ _ _ _ _ _ _ H G1 B2). split; [|easy]. intros ->. congruence. }
      constructor; cbn [ca di sm fx sp ptrs]; [exact C|].
      apply Forall2_app.
      + eapply Forall2_mapl; [exact HP|]. intros [b0 w0 o|] k0 Hp; [|easy]. cbn [touch PR] in *. fold c in Hp. destruct Hp as [Hp Hw].
        destruct (Nat.eqb_spec b0 b) as [->|Nb].
        * assert (k0 = k) by (destruct Hp as (X & _); congruence). subst k0. cbn [renew PR]. fold f'. split; [easy|].
          intros W. rewrite Q3. destruct (w && (k =? k)); auto.
        * destruct (mem b0 f || (length (add b o) <? N)) eqn:E; [|easy]. cbn [PR].
          destruct Hp as (P1 & P2 & P3). split.
          -- split; [now rewrite Q5|]. split; [now apply add_NoDup|]. rewrite Q5, Q6. intros b' k' G1 G2 G3. apply add_In.
             destruct (Nat.eq_dec b' b) as [->|Nb']; [now left|right]. apply (P3 b' k' G1 G2).
             assert (Nk : k' <> k). { intros ->. apply Nb'. exact (CI_inj _ _ _ _ _ _ _ _ H G1 Eb). }
             destruct G3 as [G3|G3].
             ++ apply ahead_hit in G3 as [_ [->|G3]]; [easy|now left|easy|easy].
             ++ right. rewrite Q2, nset_nth in G3 by lia. apply Nat.eqb_neq in Nk. now rewrite Nk in G3.
          -- intros W. rewrite Q3. destruct (w && (k0 =? k)); auto.
      + constructor; [|constructor]. cbn [PR]. fold f'. split; [easy|]. intros ->. rewrite Q3, Nat.eqb_refl. easy.
    - (* not in the cache *)
      assert (Nb : ~ In b f). { intros X. destruct (ci_xf _ _ _ _ _ H b X) as (k' & X1 & _). fold c in X1. congruence. }
      rewrite (del_none _ _ Nb) in *.
      assert (H' : CI [] (count D (count D c NRead) NNotFound) (di D t) (sm D s) f) by (apply CI_count, CI_count, H).
      destruct (place_ok _ _ _ _ b v fxv w H' Eb Ev Hl) as (c3 & d3 & k & E & C & Pb & Pd & Pt).
      rewrite E. unfold got. eexists. split; [reflexivity|].
      set (f' := if fxv then b :: f else f) in *.
      constructor; cbn [ca di sm fx sp ptrs]; [exact C|].
      apply Forall2_app.
      + eapply Forall2_mapl; [exact HP|]. intros a k0 Ha. apply Pt. exact Ha.
      + constructor; [|constructor]. cbn [PR]. replace (del b f') with f; [|].
        * split; [easy|]. now intros ->.
        * unfold f'. destruct fxv; [|symmetry; now apply del_none]. cbn. rewrite Nat.eqb_refl. cbn. symmetry. now apply del_none.
  Qed.

  Lemma step_ok s t o s' r : Rel s t -> sstep D dinit N s o = Some (s', r) -> exists t', step D dinit t o = Some (t', r) /\ Rel s' t'.
  Proof.
    intros HR E. destruct o as [b|b fxv|b fxv|i|i x|b|b|b]; cbn [sstep step] in *.
    - (* new *)
      destruct HR as [H HP]. destruct (getd D (sm D s) b) as [v|] eqn:Ev; [easy|].
      destruct (Nat.ltb_spec (length (fx D s)) N) as [Hl|]; [|easy]. injection E as <- <-.
      set (f := fx D s) in *. set (c := ca D t) in *.
      assert (Eb : aget (b2n D c) b = None).
      { destruct (aget (b2n D c) b) as [k|] eqn:G; [|easy]. destruct (ci_in _ _ _ _ _ H b k G) as (u & U & _). congruence. }
      assert (Edb : aget (di D t) b = None) by now apply (ci_all _ _ _ _ _ H).
      unfold get_new_node.
      destruct (get_room_ok true (count D c NCreated) (di D t) (sm D s) f b (CI_count _ _ _ _ _ _ H) Eb Hl) as (c1 & d1 & k & E & C1 & F1 & F2 & F3 & Fk & (h & Fh) & FN & FD & FP).
      rewrite E. rewrite (FD b Edb).
      assert (Lk : k < N). { apply (CI_hist_in _ _ _ _ _ _ C1). rewrite Fh. now left. }
      pose proof (ci_nodes _ _ _ _ _ C1) as L1. pose proof (ci_fixed _ _ _ _ _ C1) as L2. pose proof (ci_dirty _ _ _ _ _ C1) as L3.
      match goal with |- context [full D ?x] => set (c3 := x) end.
      assert (Fk1 : nth_error (fixed D c1) k = Some false) by (rewrite F1; exact Fk).
      assert (Q := fill_ok c1 d1 (sm D s) f k b dinit false true c3 (aput d1 b None) ((b, dinit) :: sm D s) h C1).
      assert (Q' : CI [] c3 (aput d1 b None) ((b, dinit) :: sm D s) f /\ full D c3 = true /\ PO c3 b k f
        /\ (forall b0 k0 o, PO c1 b0 k0 o -> PO c3 b0 k0 (add b o) /\ nth_error (dirty D c3) k0 = nth_error (dirty D c1) k0)).
      { apply Q; subst c3; cbn [nodes fixed dirty freel b2n hist set_b2n set_nodes set_fixed set_dirty];
        rewrite ?nset_length; auto; try (intros; apply nset_nth; lia); try congruence; try lia.
      { intros j. destruct (Nat.eqb_spec j k) as [->|]; easy. }
      { unfold getd. cbn. now rewrite Nat.eqb_refl. }
      { intros b' Nb'. unfold getd. cbn [find fst]. rewrite Nat.eqb_sym. now apply Nat.eqb_neq in Nb' as ->. }
      { rewrite aget_aput, Nat.eqb_refl. easy. }
      { intros b' Nb'. rewrite aget_aput. now apply Nat.eqb_neq in Nb' as ->. } }
      destruct Q' as (G1 & G2 & G3 & G4). rewrite G2. cbn [got]. eexists. split; [reflexivity|].
      constructor; cbn [ca di sm fx sp ptrs]; [exact G1|].
      apply Forall2_app.
      + eapply Forall2_mapl; [exact HP|]. fold c. eapply touch_place; [exact FP|exact F3|reflexivity|exact G4|exact Eb].
      + constructor; [|constructor]. cbn [PR]. split; [exact G3|]. intros _. unfold c3. cbn [dirty set_dirty set_nodes set_b2n]. rewrite nset_nth by lia. now rewrite Nat.eqb_refl.
    - eapply get_ok; eauto.
    - eapply get_ok; eauto.
    - (* read *)
      destruct HR as [H HP]. destruct (nth_error (sp D s) i) as [[b w o|]|] eqn:Ei; try easy.
      destruct (getd D (sm D s) b) as [v|] eqn:Ev; [|easy]. injection E as <- <-.
      destruct (Forall2_nth _ _ _ _ _ HP Ei) as (k & -> & (P1 & _) & _). destruct (ci_in _ _ _ _ _ H b k P1) as (u & U1 & -> & _).
      eexists. split; [|constructor; eauto]. congruence.
    - (* write *)
      destruct HR as [H HP]. destruct (nth_error (sp D s) i) as [[b [|] o|]|] eqn:Ei; try easy. injection E as <- <-.
      destruct (Forall2_nth _ _ _ _ _ HP Ei) as (k & -> & (P1 & _) & Pw). destruct (ci_in _ _ _ _ _ H b k P1) as (u & U1 & U2 & _). rewrite U2.
      eexists. split; [reflexivity|]. pose proof (CI_lt _ _ _ _ _ _ _ H P1) as Lk. specialize (Pw eq_refl).
      pose proof (ci_nodes _ _ _ _ _ H) as L1.
      constructor; cbn [ca di sm fx sp ptrs fst].
      + constructor; cbn [nodes fixed dirty freel b2n hist set_nodes]; try apply H.
        * rewrite nset_length; lia.
        * intros b' k' G. rewrite nset_nth by lia. rewrite getd_setd. destruct (ci_in _ _ _ _ _ H b' k' G) as (w & W1 & W2 & W3).
          destruct (Nat.eqb_spec b' b) as [->|Nb].
          -- rewrite P1 in G. injection G as <-. rewrite Nat.eqb_refl, U1. exists x. auto.
          -- destruct (Nat.eqb_spec k' k) as [->|]; [exfalso; apply Nb; eapply CI_inj; eauto|]. eauto.
        * intros b' v'. rewrite getd_setd. destruct (Nat.eqb_spec b' b) as [->|Nb]; [congruence|]. apply H.
        * intros b'. rewrite getd_setd. destruct (Nat.eqb_spec b' b) as [->|Nb]; [|apply H]. rewrite U1. rewrite (ci_all _ _ _ _ _ H), U1. easy.
      + exact HP.
    - (* delete *)
      destruct HR as [H HP]. destruct (getd D (sm D s) b) as [v|] eqn:Ev; [|easy]. injection E as <- <-.
      unfold delete_node. destruct (aget (di D t) b) as [ob|] eqn:Ed. 2:{ apply (ci_all _ _ _ _ _ H) in Ed. congruence. }
      eexists. split; [reflexivity|]. set (c := ca D t) in *. cbn [fst snd].
      assert (Hd : forall b', aget (adel (di D t) b) b' = None <-> getd D (filter (fun e => negb (fst e =? b)) (sm D s)) b' = None).
      { intros b'. rewrite aget_adel, getd_del. destruct (b' =? b); [easy|apply H]. }
      destruct (aget (b2n D c) b) as [k|] eqn:Eb.
      + pose proof (CI_lt _ _ _ _ _ _ _ H Eb) as Lk. pose proof (ci_fixed _ _ _ _ _ H) as L2.
        assert (Nk : forall b' k', b' <> b -> aget (b2n D c) b' = Some k' -> (k' =? k) = false).
        { intros b' k' Nb G. apply Nat.eqb_neq. intros ->. apply Nb. eapply CI_inj; eauto. }
        constructor; cbn [ca di sm fx sp ptrs fst].
        * constructor; cbn [nodes fixed dirty freel b2n hist set_nodes set_fixed set_b2n set_freel count]; try apply H; auto.
          -- rewrite nset_length; lia.
          -- pose proof (ci_frames _ _ _ _ _ H) as Y. fold c in Y. rewrite <- Y. rewrite (Permutation_map snd (adel_perm _ _ _ (ci_keys _ _ _ _ _ H) Eb)).
             cbn [map snd app]. fold c. symmetry. apply Permutation_middle.
          -- apply adel_keys, H.
          -- intros b' k' G. rewrite aget_adel in G. rewrite getd_del, aget_adel. destruct (Nat.eqb_spec b' b) as [->|Nb]; [easy|]. apply H, G.
          -- intros b' v' G1 G2. rewrite ?aget_adel in G2. rewrite aget_adel. rewrite getd_del in G1. destruct (Nat.eqb_spec b' b) as [->|Nb]; [easy|]. now apply (ci_out _ _ _ _ _ H).
          -- intros j Hj. rewrite nset_nth in Hj by lia. destruct (Nat.eqb_spec j k) as [Ej|Nj]; [easy|].
             destruct (ci_fx _ _ _ _ _ H j Hj) as (b' & B1 & B2). exists b'. rewrite del_In, aget_adel.
             assert (Nb : b' <> b) by (intros ->; fold c in B2; congruence). split; [easy|]. now apply Nat.eqb_neq in Nb as ->.
          -- intros b' B. apply del_In in B as [B1 B2]. destruct (ci_xf _ _ _ _ _ H b' B2) as (j & J1 & J2). exists j.
             rewrite aget_adel, nset_nth by lia. rewrite (Nk _ _ B1 J1). split; [|easy]. now apply Nat.eqb_neq in B1 as ->.
          -- apply del_NoDup, H.
        * eapply Forall2_mapl; [exact HP|]. intros [b0 w o|] k0 Hp; [|easy]. destruct (Nat.eqb_spec b0 b) as [->|Nb]; [easy|].
          cbn [PR] in *. fold c in Hp. destruct Hp as [(P1 & P2 & P3) Hw]. split; [|exact Hw].
          split; [cbn; rewrite aget_adel; now apply Nat.eqb_neq in Nb as ->|]. split; [easy|].
          cbn [b2n hist fixed count set_fixed set_b2n set_freel]. intros b' k' G1 G2 G3. rewrite aget_adel in G1. destruct (Nat.eqb_spec b' b) as [->|Nb']; [easy|].
          apply (P3 b' k' G1 G2). destruct G3 as [G3|G3]; [now left|right]. rewrite nset_nth in G3 by lia. now rewrite (Nk _ _ Nb' G1) in G3.
      + constructor; cbn [ca di sm fx sp ptrs fst].
        * assert (Nb0 : ~ In b (fx D s)). { intros X. destruct (ci_xf _ _ _ _ _ H b X) as (k' & X1 & _). fold c in X1. congruence. }
          rewrite (del_none _ _ Nb0). constructor; cbn [nodes fixed dirty freel b2n hist count]; try apply H; auto.
          -- intros b' k' G. assert (Nb : b' <> b) by congruence. rewrite getd_del, aget_adel. apply Nat.eqb_neq in Nb as ->. apply H, G.
          -- intros b' v' G1 G2. rewrite ?aget_adel in G2. rewrite aget_adel. rewrite getd_del in G1. destruct (Nat.eqb_spec b' b) as [->|Nb]; [easy|]. now apply (ci_out _ _ _ _ _ H).
        * eapply Forall2_mapl; [exact HP|]. intros [b0 w o|] k0 Hp; [|easy]. now destruct (b0 =? b).
    - (* prefetch *)
      destruct HR as [H HP]. destruct (getd D (sm D s) b) as [v|] eqn:Ev; [|easy]. injection E as <- <-.
      unfold prefetch_node. set (c := ca D t) in *. set (f := fx D s) in *.
      assert (Hsame : forall c', b2n D c' = b2n D c -> hist D c' = hist D c -> fixed D c' = fixed D c -> dirty D c' = dirty D c ->
        (aget (b2n D c) b <> None \/ True) -> Forall2 (PR c') (map (touch N f b P) (sp D s)) (ptrs D t)).
      { intros c' Q1 Q2 Q3 Q4 _. eapply Forall2_mapl; [exact HP|]. intros [b0 w o|] k0 Hp; [|easy]. cbn [touch PR] in *. fold c in Hp.
        destruct Hp as [(P1 & P2 & P3) Hw]. unfold PO.
        destruct (b0 =? b); [|destruct (mem b0 f || (length (add b o) <? N)); [|easy]]; cbn [PR]; unfold PO; rewrite Q1, Q2, Q3, Q4; split; auto.
        split; [easy|]. split; [now apply add_NoDup|]. intros. apply add_In. right. eauto. }
      destruct (aget (b2n D c) b) as [k|] eqn:Eb.
      + eexists. split; [reflexivity|]. constructor; cbn [ca di sm fx sp ptrs fst snd]; [exact H|]. apply Hsame; auto.
      + destruct (Nat.lt_ge_cases (length f) N) as [Hl|Hl].
        * destruct (place_ok _ _ _ _ b v false false H Eb Ev Hl) as (c3 & d3 & k & E & C & Pb & Pd & Pt).
          fold c in E. rewrite E. eexists. split; [reflexivity|]. constructor; cbn [ca di sm fx sp ptrs fst snd]; [exact C|].
          eapply Forall2_mapl; [exact HP|]. intros a k0 Ha. apply Pt. exact Ha.
        * (* everything is fixed *)
          assert (Hall : forall k, In k (hist D c) -> nth_error (fixed D c) k = Some true).
          { intros k Hk. apply (CI_hist_in _ _ _ _ _ _ H) in Hk.
            assert (X : incl (seq 0 N) (map (fun b => match aget (b2n D c) b with Some k => k | None => 0 end) f)).
            { apply NoDup_length_incl.
              - assert (Y : forall l, NoDup l -> incl l f -> NoDup (map (fun b => match aget (b2n D c) b with Some k => k | None => 0 end) l)).
                { induction l as [|a l IH]; intros N1 N2; cbn; constructor.
                  - intros Z. apply in_map_iff in Z as (a' & E & Z). apply NoDup_cons_iff in N1 as [N1 _].
                    destruct (ci_xf _ _ _ _ _ H a (N2 a (or_introl eq_refl))) as (j & J1 & _).
                    destruct (ci_xf _ _ _ _ _ H a' (N2 a' (or_intror Z))) as (j' & J1' & _). fold c in J1, J1'. rewrite J1, J1' in E. subst j'.
                    apply N1. rewrite (CI_inj _ _ _ _ _ _ _ _ H J1 J1'). easy.
                  - apply NoDup_cons_iff in N1 as [_ N1]. apply IH; [easy|]. intros z Hz. apply N2. now right. }
                apply Y; [apply H|apply incl_refl].
              - rewrite map_length, seq_length. easy.
              - intros z Hz. apply in_map_iff in Hz as (a & <- & Ha). destruct (ci_xf _ _ _ _ _ H a Ha) as (j & J1 & _). fold c in J1. rewrite J1.
                apply in_seq. pose proof (CI_lt _ _ _ _ _ _ _ H J1). lia. }
            specialize (X k ltac:(apply in_seq; lia)). apply in_map_iff in X as (a & E & Ha).
            destruct (ci_xf _ _ _ _ _ H a Ha) as (j & J1 & J2). fold c in J1. rewrite J1 in E. now subst j. }
          unfold place, get_room. fold c. destruct (freel D c) as [|q l] eqn:Efr.
          -- unfold make_room. assert (Lh : length (hist D c) = N) by (rewrite (Permutation_length (ci_hist _ _ _ _ _ H)); apply seq_length).
             replace (size D c) with (length (hist D c)) by (rewrite Lh; unfold size; symmetry; apply H).
             rewrite (kick_loop_full c (hist D c) [] eq_refl (CI_hist_nd _ _ _ _ _ H) Hall). cbn [fst snd]. rewrite app_nil_r.
             eexists. split; [reflexivity|]. constructor; cbn [ca di sm fx sp ptrs fst snd].
             ++ destruct c; exact H.
             ++ apply Hsame; auto.
          -- exfalso. assert (Lq : q < N).
             { assert (X : In q (seq 0 N)); [|apply in_seq in X; lia]. eapply Permutation_in; [apply H|]. fold c. rewrite Efr, !in_app_iff. right. left. now left. }
             apply (CI_hist_in _ _ _ _ _ _ H) in Lq. apply Hall in Lq. destruct (ci_fx _ _ _ _ _ H q Lq) as (a & _ & A2).
             pose proof (CI_nd _ _ _ _ _ H) as ND. fold c in ND, A2. rewrite Efr in ND. cbn in ND. apply NoDup_remove_2 in ND. apply ND. rewrite in_app_iff. left.
             apply in_map_iff. exists (a, q). split; [easy|]. now apply aget_In.
    - (* unfix *)
      destruct HR as [H HP]. destruct (mem b (fx D s)) eqn:Em; [|easy]. injection E as <- <-. apply mem_In in Em.
      destruct (ci_xf _ _ _ _ _ H b Em) as (k & K1 & K2). unfold unfix_node. rewrite K1. eexists. split; [reflexivity|].
      pose proof (CI_lt _ _ _ _ _ _ _ H K1) as Lk. pose proof (ci_fixed _ _ _ _ _ H) as L2.
      constructor; cbn [ca di sm fx sp ptrs].
      + constructor; cbn [nodes fixed dirty freel b2n hist set_fixed]; try apply H.
        * rewrite nset_length; lia.
        * intros j Hj. rewrite nset_nth in Hj by lia. destruct (Nat.eqb_spec j k) as [Ej|Nj]; [easy|].
          destruct (ci_fx _ _ _ _ _ H j Hj) as (b' & B1 & B2). exists b'. rewrite del_In. split; [|easy]. split; [|easy]. intros ->. congruence.
        * intros b' B. apply del_In in B as [B1 B2]. destruct (ci_xf _ _ _ _ _ H b' B2) as (j & J1 & J2). exists j. split; [easy|].
          rewrite nset_nth by lia. destruct (Nat.eqb_spec j k) as [->|]; [|easy]. exfalso. apply B1. eapply CI_inj; eauto.
        * apply del_NoDup, H.
      + eapply Forall2_impl; [exact HP|]. intros [b0 w o|] k0 Hp; [|easy]. cbn [PR] in *. destruct Hp as [(P1 & P2 & P3) Hw]. split; [|exact Hw].
        split; [easy|]. split; [easy|]. cbn [b2n hist fixed set_fixed]. intros b' k' G1 G2 G3. apply (P3 b' k' G1 G2).
        destruct G3 as [G3|G3]; [now left|right]. rewrite nset_nth in G3 by lia. now destruct (k' =? k).
  Qed.

  Lemma run_ok os : forall s t s' rs, Rel s t -> srun D dinit N s os = Some (s', rs) -> exists t', run D dinit t os = Some (t', rs) /\ Rel s' t'.
  Proof.
    induction os as [|o os IH]; intros s t s' rs HR E; cbn [srun run] in *.
    - injection E as <- <-. eauto.
    - destruct (sstep D dinit N s o) as [[s1 r]|] eqn:E1; [|easy]. cbn [fst snd] in E.
      destruct (srun D dinit N s1 os) as [[s2 rs2]|] eqn:E2; [|easy]. cbn [fst snd] in E. injection E as <- <-.
      destruct (step_ok _ _ _ _ _ HR E1) as (t1 & -> & HR1). cbn [fst snd]. destruct (IH _ _ _ _ HR1 E2) as (t2 & -> & HR2). cbn [fst snd]. eauto.
  Qed.

  Lemma init_ok c : init D dinit N = Some c -> Rel (sempty D) {| ca := c; di := []; ptrs := [] |}.
  Proof.
    unfold init. destruct (N <? 3); [easy|]. intros [= <-]. constructor; [|constructor]. cbn [ca di sempty sm fx].
    constructor; cbn [nodes fixed dirty freel b2n hist map snd app]; rewrite ?repeat_length; try easy.
    - rewrite app_nil_r. symmetry. apply Permutation_rev.
    - constructor.
    - intros k Hk. apply nth_error_In in Hk. apply repeat_spec in Hk. easy.
    - constructor.
  Qed.

  (** The destructor. *)
  Lemma save_all_ok (c : cache) (m : list (nat * D)) : forall l d, NoDup (map fst l) ->
    (forall b k, In (b, k) l -> exists v, getd D m b = Some v /\ nth_error (nodes D c) k = Some (b, v)
              /\ (nth_error (dirty D c) k = Some true \/ nth_error (dirty D c) k = Some false /\ aget d b = Some (Some (b, v)))) ->
    (forall b k, In (b, k) l -> aget d b <> None) ->
    exists d', save_all D l c d = Some d' /\ (forall b, ~ In b (map fst l) -> aget d' b = aget d b)
      /\ (forall b, In b (map fst l) -> exists v, getd D m b = Some v /\ aget d' b = Some (Some (b, v))).
  Proof.
    induction l as [|[b k] l IH]; intros d ND H1 H2; cbn [save_all].
    - exists d. split; [easy|]. split; [easy|]. easy.
    - cbn [map fst] in ND. apply NoDup_cons_iff in ND as [ND1 ND2].
      destruct (H1 b k (or_introl eq_refl)) as (v & V1 & V2 & V3). rewrite V2.
      assert (X : exists dt d1, nth_error (dirty D c) k = Some dt /\ (if dt then save D d (b, v) else Some d) = Some d1 /\ aget d1 b = Some (Some (b, v)) /\ forall b', b' <> b -> aget d1 b' = aget d b').
      { destruct V3 as [V3|[V3 V4]].
        - exists true. unfold save. cbn [fst]. destruct (aget d b) eqn:Ed; [|exfalso; eapply H2; [now left|easy]].
          eexists. split; [easy|]. split; [easy|]. rewrite aget_aput, Nat.eqb_refl. split; [easy|]. intros b' Nb. rewrite aget_aput. now apply Nat.eqb_neq in Nb as ->.
        - exists false, d. easy. }
      destruct X as (dt & d1 & -> & -> & X1 & X2).
      assert (Nl : forall b' k', In (b', k') l -> b' <> b). { intros b' k' Hi ->. apply ND1. apply in_map_iff. now exists (b, k'). }
      destruct (IH d1 ND2) as (d' & -> & Y1 & Y2).
      + intros b' k' Hi. rewrite X2 by eauto. apply H1. now right.
      + intros b' k' Hi. rewrite X2 by eauto. eapply H2. right. eauto.
      + exists d'. split; [easy|]. split.
        * intros b' Hb. cbn in Hb. rewrite Y1 by tauto. apply X2. intros ->. tauto.
        * intros b' [<-|Hb]; [|auto]. exists v. split; [easy|]. rewrite Y1 by easy. easy.
  Qed.
  Lemma destroy_ok s t : Rel s t -> exists d', destroy D (ca D t) (di D t) = Some d' /\
    forall b, aget d' b = match getd D (sm D s) b with Some v => Some (Some (b, v)) | None => None end.
  Proof.
    intros [H _]. unfold destroy.
    destruct (save_all_ok (ca D t) (sm D s) (b2n D (ca D t)) (di D t)) as (d' & E & Y1 & Y2).
    - apply H.
    - intros b k Hi. apply In_aget in Hi; [|apply H]. destruct (ci_in _ _ _ _ _ H b k Hi) as (v & V1 & V2 & V3). exists v. split; [easy|]. split; [easy|].
      destruct (nth_error (dirty D (ca D t)) k) as [[|]|] eqn:Ed; [now left| |].
      + right. destruct V3; [easy|easy].
      + apply nth_error_None in Ed. rewrite (ci_dirty _ _ _ _ _ H) in Ed. pose proof (CI_lt _ _ _ _ _ _ _ H Hi). lia.
    - intros b k Hi. apply In_aget in Hi; [|apply H]. destruct (ci_in _ _ _ _ _ H b k Hi) as (v & V1 & _). intros X. apply (ci_all _ _ _ _ _ H) in X. congruence.
    - exists d'. split; [exact E|]. intros b. destruct (in_dec Nat.eq_dec b (map fst (b2n D (ca D t)))) as [Hi|Hi].
      + destruct (Y2 b Hi) as (v & -> & ->). easy.
      + rewrite Y1 by easy. destruct (getd D (sm D s) b) as [v|] eqn:Ev; [|now apply H].
        apply (ci_out _ _ _ _ _ H); [easy|]. destruct (aget (b2n D (ca D t)) b) as [k|] eqn:G; [|easy]. exfalso. apply Hi. apply aget_In in G.
        apply in_map_iff. now exists (b, k).
  Qed.
End Proofs.

(** ** Statistics *)
Section Stats.
  Variable D : Type.
  Variable dinit : D.
  Definition reads (os : list (op D)) : nat := length (filter (fun o => match o with OGet _ _ _ | OGetConst _ _ _ => true | _ => false end) os).
  Lemma kick_loop_st n : forall (c : cache D) r, kick_loop D n c = Some r -> st D (fst r) = st D c.
  Proof.
    induction n as [|n IH]; intros c r; cbn [kick_loop]; [now intros [= <-]|].
    destruct (kick (hist D c)) as [k|]; [|easy]. destruct (nth_error (fixed D c) k) as [[|]|]; [| |easy].
    - intros H. apply IH in H. exact H.
    - now intros [= <-].
  Qed.
  Definition same_rd (a b : counter -> nat) : Prop := a NRead = b NRead /\ a NFound = b NFound /\ a NNotFound = b NNotFound.
  Lemma get_room_st chk (c : cache D) d c1 d1 o : get_room D chk c d = Some (c1, d1, o) -> same_rd (st D c1) (st D c).
  Proof.
    unfold get_room. destruct (freel D c) as [|k l].
    - unfold make_room. destruct (kick_loop D (size D c) c) as [[c' [k|]]|] eqn:E; cbn [fst snd]; [| |easy].
      + apply kick_loop_st in E. cbn in E. destruct (nth_error (nodes D c) k); [|easy]. destruct (nth_error (dirty D c) k) as [dt|]; [|easy].
        destruct (if dt then _ else _); [|easy]. destruct (if chk then _ else _); [|easy]. intros [= <- <- <-]. cbn. rewrite E. unfold same_rd, bump. now destruct dt.
      + apply kick_loop_st in E. cbn in E. intros [= <- <- <-]. now rewrite E.
    - destruct (nth_error (fixed D c) k) as [[|]|]; [easy| |easy]. intros [= <- <- <-]. easy.
  Qed.
  Lemma place_st (c : cache D) d b fx wr c1 d1 o : place D c d b fx wr = Some (c1, d1, o) -> same_rd (st D c1) (st D c).
  Proof.
    unfold place. destruct (get_room D false c d) as [[[c' d'] [k|]]|] eqn:E; [| |easy].
    - apply get_room_st in E. destruct (load D d' b); [|easy]. destruct (full D _); [|easy]. intros [= <- <- <-]. exact E.
    - apply get_room_st in E. intros [= <- <- <-]. exact E.
  Qed.
  Lemma step_st (t : state D) o t' r : step D dinit t o = Some (t', r) ->
    let a := st D (ca D t) in let a' := st D (ca D t') in
    a' NRead = a NRead + reads [o] /\ a' NFound + a' NNotFound = a NFound + a NNotFound + reads [o].
  Proof.
    assert (G : forall b fx wr, got D t (get_node D (ca D t) (di D t) b fx wr) = Some (t', r) ->
      let a := st D (ca D t) in let a' := st D (ca D t') in a' NRead = a NRead + 1 /\ a' NFound + a' NNotFound = a NFound + a NNotFound + 1).
    { intros b fx wr. unfold got, get_node. cbn [b2n count]. destruct (aget (b2n D (ca D t)) b) as [k|].
      - intros [= <- _]. cbn [ca]. destruct wr; cbn; unfold bump; cbn; lia.
      - destruct (place D _ (di D t) b fx wr) as [[[c1 d1] o1]|] eqn:E; [|easy]. apply place_st in E. destruct E as (E1 & E2 & E3).
        assert (X : ca D t' = c1 -> let a := st D (ca D t) in let a' := st D (ca D t') in a' NRead = a NRead + 1 /\ a' NFound + a' NNotFound = a NFound + a NNotFound + 1).
        { intros ->. cbv zeta. rewrite E1, E2, E3. cbn. unfold bump. cbn. lia. }
        destruct o1; intros [= <- _]; apply X; easy. }
    destruct o as [b|b fxv|b fxv|i|i x|b|b|b]; cbn [step].
    - unfold got, get_new_node. destruct (get_room D true _ _) as [[[c1 d1] [k|]]|] eqn:E; [| |easy].
      + apply get_room_st in E. destruct E as (E1 & E2 & E3). destruct (aget d1 b); [easy|]. destruct (full D _); [|easy]. intros [= <- _]. cbn in *.
        unfold bump in *. cbn in *. lia.
      + apply get_room_st in E. destruct E as (E1 & E2 & E3). intros [= <- _]. cbn in *. unfold bump in *. cbn in *. lia.
    - apply G.
    - apply G.
    - destruct (nth_error (ptrs D t) i) as [k|]; [|easy]. destruct (nth_error _ k); [|easy]. intros [= <- _]. cbn. lia.
    - destruct (nth_error (ptrs D t) i) as [k|]; [|easy]. destruct (nth_error _ k); [|easy]. intros [= <- _]. cbn. lia.
    - unfold delete_node. destruct (aget (di D t) b); [|easy]. intros [= <- _]. cbn. destruct (aget (b2n D (ca D t)) b); cbn; unfold bump; cbn; lia.
    - unfold prefetch_node. destruct (aget (b2n D (ca D t)) b); [intros [= <- _]; cbn; lia|].
      destruct (place D _ _ b false false) as [[[c1 d1] o1]|] eqn:E; [|easy]. apply place_st in E. destruct E as (E1 & E2 & E3). intros [= <- _]. cbn. lia.
    - unfold unfix_node. destruct (aget (b2n D (ca D t)) b); [|easy]. intros [= <- _]. cbn. lia.
  Qed.
  Lemma run_st os : forall (t : state D) t' rs, run D dinit t os = Some (t', rs) ->
    let a := st D (ca D t) in let a' := st D (ca D t') in
    a' NRead = a NRead + reads os /\ a' NFound + a' NNotFound = a NFound + a NNotFound + reads os.
  Proof.
    induction os as [|o os IH]; intros t t' rs; cbn [run].
    - intros [= <- _]. cbn. lia.
    - destruct (step D dinit t o) as [[t1 r]|] eqn:E; [|easy]. cbn [fst snd]. destruct (run D dinit t1 os) as [[t2 rs2]|] eqn:E2; [|easy]. intros [= <- _].
      apply step_st in E. apply IH in E2. cbv zeta in *. unfold reads in *. cbn [filter] in *. destruct o; cbn [length] in *; lia.
  Qed.
End Stats.
