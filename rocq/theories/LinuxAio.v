(** Invariants of the queue of Linux asynchronous I/O. *)
From Coq Require Import List Bool Arith Lia ZArith.
From Verif Require Import LinuxAioModel LinuxAioSpec.
Import ListNotations.

Definition cnt (x : nat) (l : list nat) : nat := count_occ Nat.eq_dec l x.
Fixpoint ids (l : list kev) : list nat := match l with [] => [] | e :: t => fst e :: ids t end.

Lemma cnt_app x a b : cnt x (a ++ b) = cnt x a + cnt x b.
Proof. apply count_occ_app. Qed.
Lemma cnt_cons x a l : cnt x (a :: l) = (if Nat.eq_dec a x then 1 else 0) + cnt x l.
Proof. unfold cnt; cbn. destruct (Nat.eq_dec a x); lia. Qed.
Lemma cnt_nil x : cnt x [] = 0. Proof. reflexivity. Qed.
Arguments cnt : simpl never.
Lemma ids_app a b : ids (a ++ b) = ids a ++ ids b. Proof. induction a; cbn; congruence. Qed.
Lemma mem_in r l : mem r l = true <-> In r l.
Proof.
  unfold mem. rewrite existsb_exists. split.
  - intros (x & H & E). apply Nat.eqb_eq in E. now subst.
  - intros H. exists r. split; [exact H|apply Nat.eqb_refl].
Qed.
Lemma cnt_erase x r l : In r l -> cnt x (erase r l) + (if Nat.eq_dec r x then 1 else 0) = cnt x l.
Proof.
  induction l as [|a l IH]; cbn; [tauto|]. intros H. destruct (Nat.eqb_spec a r) as [->|N].
  - rewrite cnt_cons. destruct (Nat.eq_dec r x); lia.
  - destruct H as [E|H]; [congruence|]. rewrite !cnt_cons. specialize (IH H). lia.
Qed.
Lemma len_erase r l : In r l -> S (length (erase r l)) = length l.
Proof.
  induction l as [|a l IH]; cbn; [tauto|]. intros H. destruct (Nat.eqb_spec a r) as [->|N]; [reflexivity|].
  destruct H as [E|H]; [congruence|]. cbn. now rewrite (IH H).
Qed.
Lemma cnt_in x l : In x l <-> cnt x l > 0.
Proof. apply count_occ_In. Qed.

Lemma adds_app a b : adds (a ++ b) = adds a ++ adds b.
Proof. induction a as [|[] a IH]; cbn; congruence. Qed.
Lemma cancels_app a b : cancels (a ++ b) = cancels a ++ cancels b.
Proof. induction a as [|[] a IH]; cbn; congruence. Qed.
Lemma submits_app a b : submits (a ++ b) = submits a ++ submits b.
Proof. induction a as [|[] a IH]; cbn; congruence. Qed.
Lemma agains_app a b : agains (a ++ b) = agains a ++ agains b.
Proof. induction a as [|[] a IH]; cbn; congruence. Qed.
Lemma kerns_app a b : kerns (a ++ b) = kerns a ++ kerns b.
Proof. induction a as [|[] a IH]; cbn; congruence. Qed.
Lemma dones_app a b : dones (a ++ b) = dones a ++ dones b.
Proof. induction a as [|[] a IH]; cbn; congruence. Qed.

(** Events of a handler: not yet completed; [num_free_events++] missing; [num_posted_requests--] missing. *)
Definition h_u (evs : list kev) (h : hpc) : list kev := match h with HComplete => evs | _ => tl evs end.
Definition h_f (evs : list kev) (h : hpc) : list kev := match h with HPosted => tl evs | _ => evs end.
Definition p_u (p : ppc) := match p with PHnd e h _ => h_u e h | _ => [] end.
Definition p_f (p : ppc) := match p with PHnd e h _ => h_f e h | _ => [] end.
Definition p_g (p : ppc) := match p with PHnd e h _ => e | _ => [] end.
Definition w_u (w : wpc) := match w with WInc e => e | WHnd e h => h_u e h | _ => [] end.
Definition w_f (w : wpc) := match w with WInc e => e | WHnd e h => h_f e h | _ => [] end.
Definition w_g (w : wpc) := match w with WInc e => e | WHnd e h => e | _ => [] end.
Definition p_hand (p : ppc) : list nat :=
  match p with PFree r | PSub r | PGet r | PHnd _ _ r => [r] | _ => [] end.
Definition ahead (p : ppc) : nat := match p with PChk _ | PLock | PComp | PEnd => 1 | _ => 0 end.
Definition inhand (p : ppc) : nat := match p with PSub _ | PGet _ | PHnd _ _ _ => 1 | _ => 0 end.
Definition pend (p : ppc) : nat := match p with PInc => 1 | _ => 0 end.
Definition eaten (w : wpc) : nat := match w with WChk _ | WGet | WInc _ | WEnd => 1 | _ => 0 end.
Definition m1 (m : option nat) : nat := match m with Some _ => 1 | None => 0 end.
Definition d2 (d : dpc) : nat := match d with D0 | D1 => 0 | _ => 1 end.
Definition d4 (d : dpc) : nat := match d with D4 | D5 => 1 | _ => 0 end.

Definition flying (x : nat) (s : st) : nat :=
  cnt x (kern s) + cnt x (ids (evts s)) + cnt x (ids (p_u (pp s))) + cnt x (ids (w_u (wp s))).

Record inv (n : nat) (s : st) (tr : list obs) : Prop := mkInv {
  i_nw : nw s + ahead (pp s) = length (waiting s) + m1 (mtx s) + d2 (dp s);
  i_nf : nf s + inhand (pp s) + length (kern s) + length (evts s) + length (p_f (pp s)) + length (w_f (wp s)) = n;
  i_np : np s + eaten (wp s) + pend (pp s) =
         length (kern s) + length (evts s) + length (p_g (pp s)) + length (w_g (wp s)) + d4 (dp s);
  i_add : forall x, cnt x (adds tr) = cnt x (cancels tr) + cnt x (dones tr) + cnt x (waiting s) +
                    cnt x (p_hand (pp s)) + flying x s;
  i_ptr : forall x, cnt x (ptrs s) = cnt x (agains tr) + flying x s;
  i_sub : forall x, cnt x (submits tr) = cnt x (dones tr) + flying x s;
  i_kern : forall x, cnt x (kerns tr) = cnt x (dones tr) + cnt x (ids (evts s)) + cnt x (ids (p_u (pp s))) +
                     cnt x (ids (w_u (wp s)));
  i_len : length (submits tr) = length (dones tr) + length (kern s) + length (evts s) +
                                length (p_u (pp s)) + length (w_u (wp s));
  i_pev : match pp s with PHnd e _ _ => e <> [] | _ => True end;
  i_wev : match wp s with WInc e | WHnd e _ => e <> [] | _ => True end }.

Lemma inv_init n : inv n (init n) [].
Proof. split; cbn; intros; unfold flying; cbn; rewrite ?cnt_nil; try exact I; lia. Qed.

Ltac tra := rewrite ?adds_app, ?cancels_app, ?submits_app, ?agains_app, ?kerns_app, ?dones_app,
  ?cnt_app, ?app_nil_r, ?app_length in *.

Lemma getevents_split k s evs s1 : getevents k s = Some (evs, s1) ->
  exists rest, evts s = evs ++ rest /\ evs <> [] /\ s1 = set_evts rest s.
Proof.
  unfold getevents. destruct (evts s) as [|a l] eqn:E; [discriminate|]. intros H. apply (f_equal (fun o => match o with Some p => p | None => ([], s) end)) in H.
  cbv beta iota in H. remember (Nat.max 1 k) as m. assert (m <> 0) as Hm by lia. apply pair_equal_spec in H. destruct H as [<- <-].
  exists (skipn m (a :: l)). rewrite firstn_skipn. split; [reflexivity|]. split; [|reflexivity].
  destruct m; [lia|]. cbn. discriminate.
Qed.

Lemma down_S v v' : down v = Some v' -> v = S v'.
Proof. destruct v; cbn; congruence. Qed.

Ltac case_if := match goal with |- context [if ?b then _ else _] => destruct b end.

Lemma inv_step n s tr e s' o : inv n s tr -> step e s = Some (s', o) -> inv n s' (tr ++ o).
Proof.
  intros [A B C D P S K L E1 E2] H.
  destruct e as [r|r| |again k|k|r ok| |]; cbn in H.
  - destruct (calls_ok s); [|discriminate]. injection H as <- <-.
    split; cbn in *; tra; cbn in *; try lia; try assumption; intros x;
      specialize (D x); specialize (P x); specialize (S x); specialize (K x); unfold flying in *; cbn in *;
      tra; cbn; rewrite ?cnt_cons, ?cnt_nil in *; lia.
  - destruct (calls_ok s) eqn:Q; [|discriminate]. destruct (mem r (waiting s)) eqn:M; injection H as <- <-.
    + apply mem_in in M. assert (mtx s = None) as N. { unfold calls_ok in Q. destruct (dp s), (mtx s); congruence. }
      pose proof (len_erase _ _ M).
      split; cbn in *; tra; cbn in *; try lia; try assumption; try (rewrite N in *; cbn in *; lia); intros x;
        specialize (D x); specialize (P x); specialize (S x); specialize (K x); unfold flying in *; cbn in *;
        pose proof (cnt_erase x _ _ M); tra; cbn; rewrite ?cnt_cons, ?cnt_nil in *; lia.
    + rewrite app_nil_r. now split.
  - destruct (mtx s) eqn:M; [|discriminate]. destruct (down (nw s)) eqn:Dn; [|discriminate].
    apply down_S in Dn. injection H as <- <-. rewrite app_nil_r. split; cbn in *; try assumption; lia.
  - unfold post_step in H. destruct (pp s) as [|v| | |r|r|r|evs h r| |] eqn:Ep; cbn in *.
    + destruct (down (nw s)) eqn:Dn; [|discriminate]. apply down_S in Dn. injection H as <- <-. rewrite app_nil_r.
      split; cbn in *; unfold flying in *; rewrite ?Ep in *; cbn in *; try assumption; try lia.
    + injection H as <- <-. rewrite app_nil_r.
      case_if; split; cbn in *; unfold flying in *; rewrite ?Ep in *; cbn in *;
        try assumption; try lia.
    + destruct (mtx s) eqn:M; [discriminate|]. destruct (waiting s) as [|r l] eqn:W; injection H as <- <-; rewrite app_nil_r.
      * split; cbn in *; unfold flying in *; rewrite ?Ep, ?W, ?M in *; cbn in *; try assumption; try lia.
      * split; cbn in *; unfold flying in *; rewrite ?Ep, ?W, ?M in *; cbn in *; try assumption; try lia.
        intros x. specialize (D x). rewrite ?cnt_cons, ?cnt_nil in *. lia.
    + injection H as <- <-. rewrite app_nil_r.
      split; cbn in *; unfold flying in *; rewrite ?Ep in *; cbn in *; try assumption; try lia.
    + destruct (down (nf s)) eqn:Dn; [|discriminate]. apply down_S in Dn. injection H as <- <-. rewrite app_nil_r.
      split; cbn in *; unfold flying in *; rewrite ?Ep in *; cbn in *; try assumption; try lia.
    + destruct again; injection H as <- <-.
      * split; cbn in *; tra; cbn in *; unfold flying in *; rewrite ?Ep in *; cbn in *; try assumption; try lia;
          intros x; specialize (D x); specialize (P x); specialize (S x); specialize (K x);
          tra; cbn; rewrite ?cnt_cons, ?cnt_nil in *; lia.
      * split; cbn in *; tra; cbn in *; unfold flying in *; rewrite ?Ep in *; cbn in *; try assumption; try lia;
          intros x; specialize (D x); specialize (P x); specialize (S x); specialize (K x);
          tra; cbn; rewrite ?cnt_cons, ?cnt_nil in *; cbn; lia.
    + destruct (getevents k s) as [[evs s1]|] eqn:G; [|discriminate]. injection H as <- <-.
      apply getevents_split in G. destruct G as (rest & G1 & G2 & ->). rewrite app_nil_r.
      split; cbn in *; unfold flying in *; rewrite ?Ep, ?G1 in *; cbn in *; rewrite ?ids_app in *; tra; try assumption; try lia;
        intros x; specialize (D x); specialize (P x); specialize (S x); specialize (K x);
        tra; cbn; rewrite ?cnt_cons, ?cnt_nil in *; lia.
    + unfold hstep in H. destruct evs as [|[q ok] evs]; [discriminate|]. destruct h.
      * injection H as <- <-.
        assert (In q (ptrs s)) as Hin.
        { apply cnt_in. rewrite P. unfold flying. rewrite Ep. cbn. rewrite cnt_cons.
          destruct (Nat.eq_dec q q); [lia|congruence]. }
        split; cbn in *; tra; cbn in *; unfold flying in *; rewrite ?Ep in *; cbn in *; try assumption; try lia;
          try discriminate;
          intros x; specialize (D x); specialize (P x); specialize (S x); specialize (K x);
          try pose proof (cnt_erase x _ _ Hin);
          tra; cbn; rewrite ?cnt_cons, ?cnt_nil in *; cbn; lia.
      * injection H as <- <-. rewrite app_nil_r.
        split; cbn in *; unfold flying in *; rewrite ?Ep in *; cbn in *; try assumption; try lia; try discriminate.
      * destruct (down (np s)) eqn:Dn; [|discriminate]. apply down_S in Dn. injection H as <- <-. rewrite app_nil_r.
        destruct evs as [|b evs];
          split; cbn in *; unfold flying in *; rewrite ?Ep in *; cbn in *; try assumption; try lia; try discriminate.
    + injection H as <- <-. rewrite app_nil_r.
      split; cbn in *; unfold flying in *; rewrite ?Ep in *; cbn in *; try assumption; try lia.
    + discriminate.
  - unfold wait_step in H. destruct (wp s) as [|v| |evs|evs h|] eqn:Ew; cbn in *.
    + destruct (down (np s)) eqn:Dn; [|discriminate]. apply down_S in Dn. injection H as <- <-. rewrite app_nil_r.
      split; cbn in *; unfold flying in *; rewrite ?Ew in *; cbn in *; try assumption; try lia.
    + injection H as <- <-. rewrite app_nil_r.
      case_if; split; cbn in *; unfold flying in *; rewrite ?Ew in *; cbn in *;
        try assumption; try lia.
    + destruct (getevents k s) as [[evs s1]|] eqn:G; [|discriminate]. injection H as <- <-.
      apply getevents_split in G. destruct G as (rest & G1 & G2 & ->). rewrite app_nil_r.
      split; cbn in *; unfold flying in *; rewrite ?Ew, ?G1 in *; cbn in *; rewrite ?ids_app in *; tra; try assumption; try lia;
        intros x; specialize (D x); specialize (P x); specialize (S x); specialize (K x);
        tra; cbn; rewrite ?cnt_cons, ?cnt_nil in *; lia.
    + injection H as <- <-. rewrite app_nil_r.
      split; cbn in *; unfold flying in *; rewrite ?Ew in *; cbn in *; try assumption; try lia.
    + unfold hstep in H. destruct evs as [|[q ok] evs]; [discriminate|]. destruct h.
      * injection H as <- <-.
        assert (In q (ptrs s)) as Hin.
        { apply cnt_in. rewrite P. unfold flying. rewrite Ew. cbn. rewrite cnt_cons.
          destruct (Nat.eq_dec q q); [lia|congruence]. }
        split; cbn in *; tra; cbn in *; unfold flying in *; rewrite ?Ew in *; cbn in *; try assumption; try lia;
          try discriminate;
          intros x; specialize (D x); specialize (P x); specialize (S x); specialize (K x);
          try pose proof (cnt_erase x _ _ Hin);
          tra; cbn; rewrite ?cnt_cons, ?cnt_nil in *; cbn; lia.
      * injection H as <- <-. rewrite app_nil_r.
        split; cbn in *; unfold flying in *; rewrite ?Ew in *; cbn in *; try assumption; try lia; try discriminate.
      * destruct (down (np s)) eqn:Dn; [|discriminate]. apply down_S in Dn. injection H as <- <-. rewrite app_nil_r.
        destruct evs as [|b evs];
          split; cbn in *; unfold flying in *; rewrite ?Ew in *; cbn in *; try assumption; try lia; try discriminate.
    + discriminate.
  - destruct (mem r (kern s)) eqn:M; [|discriminate]. apply mem_in in M. injection H as <- <-.
    pose proof (len_erase _ _ M).
    split; cbn in *; tra; cbn in *; unfold flying in *; cbn in *; try assumption; try lia;
      intros x; specialize (D x); specialize (P x); specialize (S x); specialize (K x);
      pose proof (cnt_erase x _ _ M); cbn in *; rewrite ?ids_app in *; tra; cbn; rewrite ?cnt_cons, ?cnt_nil in *; cbn; lia.
  - destruct (calls_ok s) eqn:Q; [|discriminate]. injection H as <- <-. rewrite app_nil_r.
    assert (dp s = D0) as Z. { unfold calls_ok in Q. destruct (dp s); congruence. }
    rewrite Z in *. split; cbn in *; try assumption; lia.
  - destruct (destr_step s) as [s1|] eqn:G; [|discriminate]. injection H as <- <-. rewrite app_nil_r.
    unfold destr_step in G. destruct (dp s) eqn:Z; try discriminate.
    + injection G as <-. split; cbn in *; rewrite ?Z in *; cbn in *; try assumption; try lia.
    + destruct (pp s) eqn:Ep; try discriminate. injection G as <-.
      split; cbn in *; unfold flying in *; cbn in *; rewrite ?Ep in *; cbn in *; rewrite ?Z in *; cbn in *; try assumption; try lia.
    + injection G as <-. split; cbn in *; rewrite ?Z in *; cbn in *; try assumption; try lia.
    + destruct (wp s) eqn:Ew; try discriminate. injection G as <-.
      split; cbn in *; unfold flying in *; cbn in *; rewrite ?Ew in *; cbn in *; rewrite ?Z in *; cbn in *; try assumption; try lia.
Qed.

Lemma inv_exec P n s tr : exec P (init n) tr s -> inv n s tr.
Proof.
  intros H. remember (init n) as s0. induction H as [|s0 tr s1 e s2 o H IH He Hs].
  - subst. apply inv_init.
  - exact (inv_step _ _ _ _ _ _ (IH Heqs0) Hs).
Qed.

(** ** First in, first out. *)
Definition fifo (s : st) (tr : list obs) : Prop := kept tr = submits tr ++ p_hand (pp s) ++ waiting s.

Lemma filter_erase (r : nat) (cs l : list nat) : NoDup l ->
  filter (fun x => negb (existsb (Nat.eqb x) (cs ++ [r]))) l =
  remove Nat.eq_dec r (filter (fun x => negb (existsb (Nat.eqb x) cs)) l).
Proof.
  induction l as [|a l IH]; cbn; [reflexivity|]. intros H. inversion H as [|x y Ha Hn E]; subst.
  rewrite existsb_app. cbn. rewrite orb_false_r. destruct (existsb (Nat.eqb a) cs) eqn:Q; cbn; [exact (IH Hn)|].
  destruct (Nat.eqb_spec a r) as [->|N]; cbn.
  - destruct (Nat.eq_dec r r); [|congruence]. exact (IH Hn).
  - destruct (Nat.eq_dec r a); [congruence|]. f_equal. exact (IH Hn).
Qed.

Lemma remove_erase r l : NoDup l -> remove Nat.eq_dec r l = erase r l.
Proof.
  induction l as [|a l IH]; cbn; [reflexivity|]. intros H. inversion H as [|x y Ha Hn E]; subst.
  destruct (Nat.eq_dec r a) as [<-|N].
  - rewrite Nat.eqb_refl. apply notin_remove. exact Ha.
  - destruct (Nat.eqb_spec a r); [congruence|]. f_equal. exact (IH Hn).
Qed.

Lemma nodup_cnt (l : list nat) : NoDup l <-> forall x, cnt x l <= 1.
Proof. apply NoDup_count_occ. Qed.

Lemma filter_keep_all (cs l : list nat) r : filter (fun x => negb (existsb (Nat.eqb x) cs)) (l ++ [r]) =
  filter (fun x => negb (existsb (Nat.eqb x) cs)) l ++ (if existsb (Nat.eqb r) cs then [] else [r]).
Proof. rewrite filter_app. cbn. destruct (existsb (Nat.eqb r) cs); reflexivity. Qed.

Lemma fifo_same s tr s' o : fifo s tr -> adds o = [] -> cancels o = [] ->
  submits o ++ p_hand (pp s') ++ waiting s' = p_hand (pp s) ++ waiting s -> fifo s' (tr ++ o).
Proof.
  unfold fifo, kept. intros F A C E. tra. rewrite A, C, !app_nil_r, F, <- app_assoc. now rewrite E.
Qed.

Lemma hstep_obs fin evs h s s' o : hstep fin evs h s = Some (s', o) -> adds o = [] /\ cancels o = [] /\ submits o = [].
Proof.
  unfold hstep. destruct evs as [|[q ok] evs]; [discriminate|]. destruct h; [| |destruct (down (np s))]; intros H;
    try discriminate; injection H as _ <-; repeat split.
Qed.

Lemma fifo_step n s tr e s' o : inv n s tr -> NoDup (adds (tr ++ o)) -> fifo s tr -> step e s = Some (s', o) ->
  fifo s' (tr ++ o).
Proof.
  intros I ND F H. destruct e as [r|r| |again k|k|r ok| |]; cbn in H.
  - destruct (calls_ok s); [|discriminate]. injection H as <- <-.
    unfold fifo, kept in *. tra. cbn [adds cancels submits] in *. rewrite ?app_nil_r in *.
    rewrite filter_keep_all.
    assert (existsb (Nat.eqb r) (cancels tr) = false) as ->.
    { destruct (existsb (Nat.eqb r) (cancels tr)) eqn:Q; [|reflexivity]. exfalso.
      assert (In r (cancels tr)) as Hi by (apply mem_in; exact Q). apply cnt_in in Hi.
      pose proof (i_add _ _ _ I r) as Ha. pose proof (proj1 (nodup_cnt _) ND r) as Hn. rewrite cnt_app, cnt_cons in Hn.
      destruct (Nat.eq_dec r r); [lia|congruence]. }
    rewrite F. cbn [p_hand set_nw set_waiting pp waiting]. rewrite ?app_nil_r. now rewrite <- !app_assoc.
  - destruct (calls_ok s); [|discriminate]. destruct (mem r (waiting s)) eqn:M; injection H as <- <-.
    + apply mem_in in M. unfold fifo, kept in *. tra. cbn [adds cancels submits] in *. rewrite ?app_nil_r in *.
      rewrite (filter_erase _ _ _ ND), F.
      assert (NoDup (submits tr ++ p_hand (pp s) ++ waiting s)) as N2.
      { rewrite <- F. apply NoDup_filter. exact ND. }
      rewrite (remove_erase _ _ N2). cbn [set_mtx set_waiting pp waiting].
      assert (~ In r (submits tr ++ p_hand (pp s))) as N3.
      { rewrite cnt_in. pose proof (proj1 (nodup_cnt _) N2 r) as Q. rewrite app_assoc, cnt_app in Q.
        apply cnt_in in M. lia. }
      rewrite !app_assoc. clear -N3. revert N3. generalize (submits tr ++ p_hand (pp s)). intros l Hn.
      induction l as [|a l IH]; cbn; [reflexivity|]. destruct (Nat.eqb_spec a r) as [->|Ne].
      * exfalso. apply Hn. now left.
      * f_equal. apply IH. intros Q. apply Hn. now right.
    + now rewrite app_nil_r.
  - destruct (mtx s); [|discriminate]. destruct (down (nw s)); [|discriminate]. injection H as <- <-.
    apply (fifo_same s); auto.
  - unfold post_step in H. destruct (pp s) as [|v| | |r|r|r|evs h r| |] eqn:Ep.
    + destruct (down (nw s)); [|discriminate]. injection H as <- <-. apply (fifo_same s); auto. now rewrite Ep.
    + injection H as <- <-. apply (fifo_same s); auto. rewrite Ep. cbn. case_if; reflexivity.
    + destruct (mtx s); [discriminate|]. destruct (waiting s) as [|r l] eqn:W; injection H as <- <-;
        apply (fifo_same s); auto; rewrite Ep, ?W; cbn; rewrite ?W; reflexivity.
    + injection H as <- <-. apply (fifo_same s); auto. now rewrite Ep.
    + destruct (down (nf s)); [|discriminate]. injection H as <- <-. apply (fifo_same s); auto. now rewrite Ep.
    + destruct again; injection H as <- <-; apply (fifo_same s); auto; now rewrite Ep.
    + destruct (getevents k s) as [[evs s1]|] eqn:G; [|discriminate]. injection H as <- <-.
      apply getevents_split in G. destruct G as (rest & _ & _ & ->). apply (fifo_same s); auto. now rewrite Ep.
    + destruct (hstep_obs _ _ _ _ _ _ H) as (O1 & O2 & O3). apply (fifo_same s); auto. rewrite O3, Ep.
      unfold hstep in H. destruct evs as [|[q ok] evs]; [discriminate|].
      destruct h; [| |destruct (down (np s))]; try discriminate; injection H as <- <-; cbn; [reflexivity..|].
      destruct evs; reflexivity.
    + injection H as <- <-. apply (fifo_same s); auto. now rewrite Ep.
    + discriminate.
  - unfold wait_step in H. destruct (wp s) as [|v| |evs|evs h|] eqn:Ew.
    + destruct (down (np s)); [|discriminate]. injection H as <- <-. apply (fifo_same s); auto.
    + injection H as <- <-. apply (fifo_same s); auto.
    + destruct (getevents k s) as [[evs s1]|] eqn:G; [|discriminate]. injection H as <- <-.
      apply getevents_split in G. destruct G as (rest & _ & _ & ->). apply (fifo_same s); auto.
    + injection H as <- <-. apply (fifo_same s); auto.
    + destruct (hstep_obs _ _ _ _ _ _ H) as (O1 & O2 & O3). apply (fifo_same s); auto. rewrite O3.
      unfold hstep in H. destruct evs as [|[q ok] evs]; [discriminate|].
      destruct h; [| |destruct (down (np s))]; try discriminate; injection H as <- <-; reflexivity.
    + discriminate.
  - destruct (mem r (kern s)); [|discriminate]. injection H as <- <-. apply (fifo_same s); auto.
  - destruct (calls_ok s); [|discriminate]. injection H as <- <-. apply (fifo_same s); auto.
  - destruct (destr_step s) as [s1|] eqn:G; [|discriminate]. injection H as <- <-. apply (fifo_same s); auto.
    unfold destr_step in G.
    destruct (dp s); try discriminate; try (injection G as <-; reflexivity);
      [destruct (pp s) eqn:Ep|destruct (wp s)]; try discriminate; injection G as <-; cbn; rewrite ?Ep; reflexivity.
Qed.

Lemma NoDup_app_l {A} (a b : list A) : NoDup (a ++ b) -> NoDup a.
Proof.
  induction a as [|x a IH]; cbn; [constructor|]. intros H. inversion H as [|y z Hx Hn E]; subst.
  constructor; [intros Q; apply Hx, in_or_app; now left|exact (IH Hn)].
Qed.

Lemma fifo_exec P n s tr : exec P (init n) tr s -> NoDup (adds tr) -> fifo s tr.
Proof.
  intros H. remember (init n) as s0. induction H as [|s0 tr s1 e s2 o H IH He Hs]; intros ND.
  - subst. reflexivity.
  - subst s0. assert (NoDup (adds tr)) as N1 by (rewrite adds_app in ND; exact (NoDup_app_l _ _ ND)).
    exact (fifo_step _ _ _ _ _ _ (inv_exec _ _ _ _ H) ND (IH eq_refl N1) Hs).
Qed.

(** ** Progress. *)
Record live (s : st) : Prop := mkLive {
  l_mtx : mtx s <> None -> dp s = D0;
  l_chk : d2 (dp s) = 1 -> waiting s = [] ->
          match pp s with PLock | PComp => False | PChk v => v = 0 | _ => True end;
  l_comp : pp s <> PComp;
  l_pend : pp s = PEnd -> dp s <> D0;
  l_d3 : wterm s = true -> pp s = PEnd;
  l_wend : wp s = WEnd -> wterm s = true;
  l_pget : match pp s with PGet _ | PHnd _ _ _ => False | _ => True end;
  l_wchk : match wp s with WChk v => v <= np s | WGet => d4 (dp s) <= np s | _ => True end }.

Lemma live_init n : live (init n).
Proof. split; cbn; try congruence; try lia; try tauto. Qed.

Lemma live_step n s tr e s' o : inv n s tr -> live s -> no_again e -> step e s = Some (s', o) -> live s'.
Proof.
  intros I [L1 L2 L3 L4 L5 L6 L7 L8] NA H. pose proof (i_nw _ _ _ I) as A. unfold wterm in *.
  destruct e as [r|r| |again k|k|r ok| |]; cbn in H.
  - destruct (calls_ok s) eqn:Q; [|discriminate]. injection H as <- <-.
    unfold calls_ok in Q. destruct (dp s) eqn:Z; try discriminate.
    split; cbn; unfold wterm; cbn; rewrite ?Z; cbn; auto; try discriminate.
  - destruct (calls_ok s) eqn:Q; [|discriminate]. unfold calls_ok in Q. destruct (dp s) eqn:Z; try discriminate.
    destruct (mem r (waiting s)); injection H as <- <-;
      split; cbn; unfold wterm; cbn; rewrite ?Z; cbn; auto; try discriminate.
  - destruct (mtx s) eqn:M; [|discriminate]. assert (dp s = D0) as Z by (apply L1; discriminate). rewrite Z in *.
    destruct (down (nw s)); [|discriminate]. injection H as <- <-.
    split; cbn; unfold wterm; cbn; rewrite ?Z; cbn; auto; try discriminate.
  - unfold post_step in H. destruct (pp s) as [|v| | |r|r|r|evs h r| |] eqn:Ep; cbn in L7; try tauto; try discriminate.
    + destruct (down (nw s)) eqn:Dn; [|discriminate]. apply down_S in Dn. injection H as <- <-.
      split; cbn; unfold wterm; cbn; auto; try discriminate.
      * intros Hd W. rewrite W in A. cbn in A. destruct (mtx s) eqn:M; [|cbn in A; lia].
        rewrite L1 in Hd by discriminate. discriminate.
      * intros Hw. specialize (L5 Hw). discriminate.
    + injection H as <- <-. unfold pterm.
      split; cbn; unfold wterm; cbn; auto; try discriminate.
      * intros Hd W. specialize (L2 Hd W). cbn in L2. subst v. rewrite andb_true_r.
        destruct (dp s); cbn in *; auto; discriminate.
      * destruct ((match dp s with D0 => false | _ => true end) && (v =? 0)); discriminate.
      * destruct (dp s); cbn; intros Q; try discriminate; congruence.
      * intros Hw. specialize (L5 Hw). discriminate.
      * destruct ((match dp s with D0 => false | _ => true end) && (v =? 0)); exact Logic.I.
    + destruct (mtx s) eqn:M; [discriminate|]. destruct (waiting s) as [|r l] eqn:W; injection H as <- <-.
      * exfalso. cbn in A. destruct (dp s); cbn in *; try lia; exact (L2 eq_refl eq_refl).
      * split; cbn; unfold wterm; cbn; auto; try discriminate; try congruence.
        intros Hw. specialize (L5 Hw). discriminate.
    + destruct (down (nf s)); [|discriminate]. injection H as <- <-.
      split; cbn; unfold wterm; cbn; auto; try discriminate.
      intros Hw. specialize (L5 Hw). discriminate.
    + destruct again; [destruct NA|]. injection H as <- <-.
      split; cbn; unfold wterm; cbn; auto; try discriminate.
      intros Hw. specialize (L5 Hw). discriminate.
    + injection H as <- <-. split; cbn; unfold wterm; cbn; auto; try discriminate.
      * intros Hw. specialize (L5 Hw). discriminate.
      * destruct (wp s); auto; lia.
  - unfold wait_step in H. destruct (wp s) as [|v| |evs|evs h|] eqn:Ew.
    + destruct (down (np s)) eqn:Dn; [|discriminate]. apply down_S in Dn. injection H as <- <-.
      split; cbn; unfold wterm; cbn; auto; try discriminate.
    + injection H as <- <-. unfold wterm. split; cbn; unfold wterm; cbn; auto; try discriminate.
      * destruct (dp s); cbn; auto; discriminate.
      * destruct (dp s); cbn; try lia; destruct v; cbn; auto; lia.
    + destruct (getevents k s) as [[evs s1]|] eqn:G; [|discriminate]. injection H as <- <-.
      apply getevents_split in G. destruct G as (rest & _ & _ & ->).
      split; cbn; unfold wterm; cbn; auto; try discriminate.
    + injection H as <- <-. split; cbn; unfold wterm; cbn; auto; try discriminate.
    + unfold hstep in H. destruct evs as [|[q ok] evs]; [discriminate|].
      destruct h; [| |destruct (down (np s)); [|discriminate]]; injection H as <- <-;
        split; cbn; unfold wterm; cbn; auto; try discriminate; destruct evs; auto; discriminate.
    + discriminate.
  - destruct (mem r (kern s)); [|discriminate]. injection H as <- <-. split; cbn; unfold wterm; cbn; auto.
  - destruct (calls_ok s) eqn:Q; [|discriminate]. injection H as <- <-. unfold calls_ok in Q.
    destruct (dp s) eqn:Z; try discriminate. destruct (mtx s) eqn:M; [discriminate|].
    split; cbn; unfold wterm; cbn; rewrite ?M; auto; try discriminate; try congruence.
  - destruct (destr_step s) as [s1|] eqn:G; [|discriminate]. injection H as <- <-. unfold destr_step in G.
    assert (dp s <> D0 -> mtx s = None) as Hm. { intros Q. destruct (mtx s); [|reflexivity]. exfalso. apply Q, L1. discriminate. }
    destruct (dp s) eqn:Z; try discriminate; specialize (Hm ltac:(discriminate)); rewrite Hm in *.
    + injection G as <-. split; cbn; unfold wterm; cbn; rewrite ?Hm; auto; try discriminate; try congruence.
      intros _ W. rewrite W in A. cbn in A. destruct (pp s); cbn in *; auto; try lia.
    + destruct (pp s) eqn:Ep; try discriminate. injection G as <-.
      split; cbn; unfold wterm; cbn; rewrite ?Ep, ?Hm; auto; try discriminate; try congruence.
    + injection G as <-. split; cbn; unfold wterm; cbn; rewrite ?Hm; auto; try discriminate; try congruence.
      destruct (wp s); auto; cbn in *; lia.
    + destruct (wp s) eqn:Ew; try discriminate. injection G as <-.
      split; cbn; unfold wterm; cbn; rewrite ?Ew, ?Hm; auto; try discriminate; try congruence.
Qed.

Lemma live_exec (P : ev -> Prop) n s tr : (forall e, P e -> no_again e) -> exec P (init n) tr s -> live s.
Proof.
  intros HP H. remember (init n) as s0. induction H as [|s0 tr s1 e s2 o H IH He Hs].
  - subst. apply live_init.
  - subst s0. exact (live_step _ _ _ _ _ _ (inv_exec _ _ _ _ H) (IH eq_refl) (HP _ He) Hs).
Qed.

(** ** Every internal step makes progress. *)
Definition pm (p : ppc) : nat :=
  match p with PTop => 3 | PChk _ => 2 | PLock => 1 | PFree _ => 22 | PSub _ => 21 | PInc => 4 | _ => 0 end.
Definition hm (h : hpc) : nat := match h with HComplete => 2 | HFree => 1 | HPosted => 0 end.
Definition wm (w : wpc) : nat :=
  match w with
  | WTop => 3 | WChk _ => 2 | WGet => 1 | WInc e => 4 + 4 * length e | WHnd e h => 1 + 4 * length e + hm h
  | WEnd => 0
  end.
Definition dm (d : dpc) : nat := match d with D0 => 0 | D1 => 5 | D2 => 4 | D3 => 3 | D4 => 2 | D5 => 1 end.
Definition mu (s : st) : nat :=
  24 * length (waiting s) + pm (pp s) + 11 * length (kern s) + 10 * length (evts s) + wm (wp s) +
  m1 (mtx s) + dm (dp s).

Lemma mu_step n s tr e s' o : inv n s tr -> live s -> internal e -> step e s = Some (s', o) -> mu s' < mu s.
Proof.
  intros I L HI H. pose proof (i_nw _ _ _ I) as A. pose proof (l_pget _ L) as L7. unfold mu.
  destruct e as [r|r| |again k|k|r ok| |]; cbn in H; try destruct HI.
  - destruct (mtx s) eqn:M; [|discriminate]. destruct (down (nw s)); [|discriminate]. injection H as <- <-. cbn. lia.
  - destruct again; [destruct HI|]. unfold post_step in H.
    destruct (pp s) as [|v| | |r|r|r|evs h r| |] eqn:Ep; cbn in L7; try tauto; try discriminate.
    + destruct (down (nw s)); [|discriminate]. injection H as <- <-. cbn. lia.
    + injection H as <- <-. cbn. case_if; cbn; lia.
    + destruct (mtx s) eqn:M; [discriminate|]. destruct (waiting s) as [|r l] eqn:W; injection H as <- <-.
      * exfalso. pose proof (l_chk _ L) as L2. rewrite Ep, W in L2. cbn in A.
        destruct (dp s); cbn in *; try lia; exact (L2 eq_refl eq_refl).
      * cbn. rewrite M. cbn. lia.
    + exfalso. exact (l_comp _ L Ep).
    + destruct (down (nf s)); [|discriminate]. injection H as <- <-. cbn. lia.
    + injection H as <- <-. cbn. rewrite app_length. cbn. lia.
    + injection H as <- <-. cbn. lia.
  - unfold wait_step in H. destruct (wp s) as [|v| |evs|evs h|] eqn:Ew.
    + destruct (down (np s)); [|discriminate]. injection H as <- <-. cbn. lia.
    + injection H as <- <-. cbn. case_if; cbn; lia.
    + destruct (getevents k s) as [[evs s1]|] eqn:G; [|discriminate]. injection H as <- <-.
      apply getevents_split in G. destruct G as (rest & G1 & G2 & ->). cbn. rewrite G1, app_length.
      destruct evs; [congruence|]. cbn. lia.
    + injection H as <- <-. cbn. lia.
    + unfold hstep in H. destruct evs as [|[q ok] evs]; [discriminate|].
      destruct h; [| |destruct (down (np s)); [|discriminate]]; injection H as <- <-; cbn; try lia.
      destruct evs; cbn; lia.
    + discriminate.
  - destruct (mem r (kern s)) eqn:M; [|discriminate]. apply mem_in in M. injection H as <- <-. cbn.
    pose proof (len_erase _ _ M). rewrite app_length. cbn. lia.
  - destruct (destr_step s) as [s1|] eqn:G; [|discriminate]. injection H as <- <-. unfold destr_step in G.
    destruct (dp s) eqn:Z; try discriminate.
    + injection G as <-. cbn. lia.
    + destruct (pp s) eqn:Ep; try discriminate. injection G as <-. cbn. rewrite Ep. cbn. lia.
    + injection G as <-. cbn. lia.
    + destruct (wp s) eqn:Ew; try discriminate. injection G as <-. cbn. rewrite Ew. cbn. lia.
Qed.

Lemma internal_no_again e : internal e -> no_again e.
Proof. destruct e as [ | | |[] ?| | | |]; cbn; tauto. Qed.

Lemma run_inv n es : forall s tr s' tr', inv n s tr -> live s -> Forall internal es -> run es s = Some (s', tr') ->
  inv n s' (tr ++ tr') /\ live s' /\ length es + mu s' <= mu s.
Proof.
  induction es as [|e es IH]; intros s tr s' tr' I L F H; cbn in H.
  - injection H as <- <-. rewrite app_nil_r. split; [exact I|]. split; [exact L|cbn; lia].
  - inversion F as [|a b Fe Fs E]; subst. destruct (step e s) as [[s1 o]|] eqn:Es; [|discriminate].
    destruct (run es s1) as [[s2 o2]|] eqn:Er; [|discriminate]. injection H as <- <-.
    pose proof (mu_step _ _ _ _ _ _ I L Fe Es) as Hm.
    destruct (IH s1 (tr ++ o) s2 o2 (inv_step _ _ _ _ _ _ I Es) (live_step _ _ _ _ _ _ I L (internal_no_again _ Fe) Es) Fs Er)
      as (I2 & L2 & M2).
    rewrite app_assoc. split; [exact I2|]. split; [exact L2|]. cbn [length]. lia.
Qed.

Lemma zero_ready n s tr : inv n s tr -> waiting s = [] -> p_hand (pp s) = [] -> kern s = [] -> evts s = [] ->
  p_u (pp s) = [] -> w_u (wp s) = [] -> all_ready tr.
Proof.
  intros I W Hh K E U V r Hr. pose proof (i_add _ _ _ I r) as H. unfold flying in H.
  rewrite W, Hh, K, E, U, V in H. cbn in H. rewrite cnt_nil in H. apply cnt_in in Hr. unfold ready.
  rewrite !cnt_in. lia.
Qed.

(** When nothing moves by itself any more, the queue is idle, destroyed, or a caller of [cancel] is stuck. *)
Lemma stuck n s tr : n > 0 -> inv n s tr -> live s -> (forall e, internal e -> step e s = None) ->
  (dp s = D0 /\ mtx s = None /\ all_ready tr) \/ dp s = D5 \/ (mtx s <> None /\ nw s = 0).
Proof.
  intros Hn I L ST.
  pose proof (i_nw _ _ _ I) as A. pose proof (i_nf _ _ _ I) as B. pose proof (i_np _ _ _ I) as C.
  destruct (mtx s) as [r|] eqn:M.
  { right; right. split; [discriminate|]. pose proof (ST ECancelDec Logic.I) as H. cbn in H. rewrite M in H.
    destruct (nw s); [reflexivity|discriminate]. }
  pose proof (ST (EPost false 1) Logic.I) as HP. pose proof (ST (EWait 1) Logic.I) as HW.
  pose proof (ST EDStep Logic.I) as HD. cbn in HP, HW, HD.
  assert (kern s = []) as HK.
  { destruct (kern s) as [|r l] eqn:K; [reflexivity|]. pose proof (ST (EKern r true) Logic.I) as H. cbn in H.
    rewrite K in H. cbn in H. rewrite Nat.eqb_refl in H. discriminate. }
  rewrite HK in *. cbn in *. pose proof (l_pget _ L) as LG. pose proof (l_wchk _ L) as LW.
  (* the waiting thread *)
  assert (pp s <> PInc) as NPI. { intros Q. unfold post_step in HP. rewrite Q in HP. discriminate. }
  assert (pend (pp s) = 0) as HPe by (destruct (pp s); try reflexivity; congruence).
  assert (p_g (pp s) = [] /\ p_f (pp s) = [] /\ p_u (pp s) = []) as (G1 & G2 & G3) by (destruct (pp s); cbn in *; tauto).
  rewrite HPe, G1, G2 in *. cbn in *.
  assert ((wp s = WTop /\ evts s = [] /\ d4 (dp s) = 0) \/ (wp s = WEnd)) as HWW.
  { unfold wait_step in HW. destruct (wp s) as [|v| |evs|evs h|] eqn:Ew; cbn in *.
    - left. destruct (np s); [|discriminate]. destruct (evts s); [|cbn in *; lia]. repeat split; lia.
    - discriminate.
    - exfalso. unfold getevents in HW. destruct (evts s) eqn:Ee; [|discriminate]. cbn in *. lia.
    - discriminate.
    - exfalso. pose proof (i_wev _ _ _ I) as H. rewrite Ew in H. destruct evs as [|[q ok] evs]; [congruence|].
      unfold hstep in HW. destruct h; try discriminate. destruct (np s); [|discriminate]. cbn in *. lia.
    - right. reflexivity. }
  (* the posting thread *)
  assert (pp s = PEnd \/ (pp s = PTop /\ nw s = 0)) as HPP.
  { unfold post_step in HP. destruct (pp s) as [|v| | |r|r|r|evs h r| |] eqn:Ep; try discriminate; cbn in *.
    - right. destruct (nw s); [auto|discriminate].
    - exfalso. rewrite M in HP. destruct (waiting s); discriminate.
    - exfalso. destruct (nf s) eqn:F; [|discriminate]. destruct HWW as [(W & E & _)|W].
      + rewrite W, E in B. cbn in B. lia.
      + pose proof (l_d3 _ L (l_wend _ L W)) as Q. congruence.
    - tauto.
    - tauto.
    - now left. }
  unfold destr_step in HD. destruct HPP as [Ep|[Ep Enw]].
  - (* posting thread over *)
    right; left. pose proof (l_pend _ L Ep) as Nd. destruct (dp s) eqn:Z; try congruence; try discriminate.
    + rewrite Ep in HD. discriminate.
    + destruct HWW as [(W & E & Q)|W]; [discriminate|]. rewrite W in HD. discriminate.
  - left. rewrite Ep in A. cbn in A. destruct HWW as [(W & E & Q)|W].
    + destruct (dp s) eqn:Z; try discriminate; cbn in *; try lia.
      split; [reflexivity|]. split; [reflexivity|].
      refine (zero_ready _ _ _ I _ _ HK E G3 _).
      * destruct (waiting s); [reflexivity|cbn in *; lia].
      * now rewrite Ep.
      * now rewrite W.
    + pose proof (l_d3 _ L (l_wend _ L W)) as Q. congruence.
Qed.

Lemma run_exec (P : ev -> Prop) es : forall s0 tr s s' tr', exec P s0 tr s -> Forall P es -> run es s = Some (s', tr') ->
  exec P s0 (tr ++ tr') s'.
Proof.
  induction es as [|e es IH]; intros s0 tr s s' tr' H F R; cbn in R.
  - injection R as <- <-. now rewrite app_nil_r.
  - inversion F as [|a b Fe Fs E]; subst. destruct (step e s) as [[s1 o]|] eqn:Es; [|discriminate].
    destruct (run es s1) as [[s2 o2]|] eqn:Er; [|discriminate]. injection R as <- <-.
    rewrite app_assoc. exact (IH s0 (tr ++ o) s1 s2 o2 (exec_snoc P s0 tr s e s1 o H Fe Es) Fs Er).
Qed.
