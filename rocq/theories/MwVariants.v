(** Proofs about multiway merging, part three: two sequences, the loser tree variants and bubble. *)
From Coq Require Import List Bool Arith ZArith Lia Permutation Sorted.
From Verif Require Import SumLib OrderLib MwmergeModel MwmergeSpec Mwmerge MwTree.
Import ListNotations.

Lemma setn_twice {X} (l : list X) : forall i v w, setn i v (setn i w l) = setn i v l.
Proof. induction l as [|x l IH]; intros [|i] v w; cbn; [reflexivity..|]. now rewrite IH. Qed.
Lemma setn_comm {X} (l : list X) : forall i j v w, i <> j -> setn i v (setn j w l) = setn j w (setn i v l).
Proof. induction l as [|x l IH]; intros [|i] [|j] v w H; cbn; try congruence; try reflexivity. rewrite IH by congruence. reflexivity. Qed.

Lemma nil_dec {X} (l : list X) : {l = []} + {l <> []}.
Proof. destruct l; [left|right]; congruence. Qed.

Lemma lt_then_le {A} (lt : A -> A -> bool) : strict_weak lt -> forall x y z, lt x y = true -> le lt y z -> lt x z = true.
Proof. intros SW x y z H1 H2. destruct (lt x z) eqn:E; [reflexivity|]. pose proof (le_trans _ _ SW _ _ _ H2 E) as Q. unfold le in Q. congruence. Qed.
Lemma le_then_lt {A} (lt : A -> A -> bool) : strict_weak lt -> forall x y z, le lt x y -> lt y z = true -> lt x z = true.
Proof. intros SW x y z H1 H2. destruct (lt x z) eqn:E; [reflexivity|]. pose proof (le_trans _ _ SW _ _ _ E H1) as Q. unfold le in Q. congruence. Qed.

Section Two.
  Variable A : Type.
  Variable lt : A -> A -> bool.
  Hypothesis SW : strict_weak lt.
  Notation seqs := (list (list A * list A)).

  Lemma copy_steps b i : forall n ls l, nth i ls [] = l -> n <= length l -> n = 0 \/ (forall j, j <> i -> nth j ls [] = []) ->
    steps lt b ls (firstn n l) (setn i (skipn n l) ls).
  Proof.
    induction n as [|n IH]; intros ls l El Hn Ho.
    - cbn [firstn skipn]. rewrite <- El, setn_id. constructor.
    - destruct Ho as [Ho|Ho]; [discriminate|]. destruct l as [|x l]; [cbn in Hn; lia|]. cbn [firstn skipn].
      apply (steps_cons _ _ _ _ i x l); [exact El| |].
      + intros j y r Ej. destruct (Nat.eq_dec j i) as [->|D]; [|rewrite Ho in Ej by exact D; discriminate].
        rewrite El in Ej. injection Ej as <- <-. split; [apply (le_refl _ _ SW)|intros _ Q; lia].
      + rewrite <- (setn_twice ls i (skipn n l) l). pose proof (nth_in_range _ _ _ _ El) as Hi. apply IH.
        * apply setn_same, Hi.
        * cbn in Hn. lia.
        * right. intros j D. rewrite setn_other by exact D. exact (Ho j D).
  Qed.

  Lemma adv2_steps i j : i < j -> forall len ls l1 l2, nth i ls [] = l1 -> nth j ls [] = l2 -> len <= length l1 + length l2 ->
    len = 0 \/ (forall h, h <> i -> h <> j -> nth h ls [] = []) ->
    exists out l1' l2', adv2 A lt len l1 l2 = Some (out, l1', l2') /\ steps lt true ls out (setn j l2' (setn i l1' ls)) /\ length out = len.
  Proof.
    intro Hij. induction len as [|n IH]; intros ls l1 l2 E1 E2 Hl Ho.
    - assert (Id : setn j l2 (setn i l1 ls) = ls).
      { rewrite <- E1, setn_id, <- E2. apply setn_id. }
      destruct l1 as [|x r1]; cbn; eexists _, _, _; (split; [reflexivity|]); (split; [|reflexivity]); rewrite ?Id; constructor.
    - destruct Ho as [Ho|Ho]; [discriminate|]. destruct l1 as [|x r1].
      + cbn [adv2]. unfold copyn. destruct (Nat.leb_spec (S n) (length l2)) as [L|L]; [|cbn in Hl; lia]. cbn [bind].
        eexists _, _, _. split; [reflexivity|]. split; [|apply firstn_length_le; exact L].
        rewrite <- E1 at 1. rewrite setn_id. apply copy_steps; [exact E2|exact L|]. right. intros h D.
        destruct (Nat.eq_dec h i) as [->|D2]; [exact E1|exact (Ho h D2 D)].
      + destruct l2 as [|y r2].
        * cbn [adv2]. unfold copyn. destruct (Nat.leb_spec (S n) (length (x :: r1))) as [L|L]; [|cbn in *; lia]. cbn [bind].
          eexists _, _, _. split; [reflexivity|]. split; [|apply firstn_length_le; exact L].
          rewrite setn_comm by lia. rewrite <- E2, setn_id. apply copy_steps; [exact E1|exact L|]. right. intros h D.
          destruct (Nat.eq_dec h j) as [->|D2]; [exact E2|exact (Ho h D D2)].
        * cbn [adv2]. pose proof (nth_in_range _ _ _ _ E1) as Hi. pose proof (nth_in_range _ _ _ _ E2) as Hj. destruct (lt y x) eqn:C.
          -- destruct (IH (setn j r2 ls) (x :: r1) r2) as (out & l1' & l2' & -> & Hs & Hlen).
             { rewrite setn_other by lia. exact E1. } { apply setn_same, Hj. } { cbn in *. lia. }
             { right. intros h D1 D2. rewrite setn_other by exact D2. exact (Ho h D1 D2). }
             cbn [bind]. eexists _, _, _. split; [reflexivity|]. split; [|cbn; congruence].
             apply (steps_cons _ _ _ _ j y r2); [exact E2| |].
             ++ intros h z r Eh. destruct (Nat.eq_dec h j) as [->|D2].
                { rewrite E2 in Eh. injection Eh as <- <-. split; [apply (le_refl _ _ SW)|intros _ Q; lia]. }
                destruct (Nat.eq_dec h i) as [->|D1]; [|rewrite Ho in Eh by assumption; discriminate].
                rewrite E1 in Eh. injection Eh as <- <-. split; [exact (sw_asym _ _ SW _ _ C)|intros _ _; exact C].
             ++ rewrite (setn_comm ls i j l1' r2) in Hs by lia. rewrite setn_twice in Hs. exact Hs.
          -- destruct (IH (setn i r1 ls) r1 (y :: r2)) as (out & l1' & l2' & -> & Hs & Hlen).
             { apply setn_same, Hi. } { rewrite setn_other by lia. exact E2. } { cbn in *. lia. }
             { right. intros h D1 D2. rewrite setn_other by exact D1. exact (Ho h D1 D2). }
             cbn [bind]. eexists _, _, _. split; [reflexivity|]. split; [|cbn; congruence].
             apply (steps_cons _ _ _ _ i x r1); [exact E1| |].
             ++ intros h z r Eh. destruct (Nat.eq_dec h i) as [->|D1].
                { rewrite E1 in Eh. injection Eh as <- <-. split; [apply (le_refl _ _ SW)|intros _ Q; lia]. }
                destruct (Nat.eq_dec h j) as [->|D2]; [|rewrite Ho in Eh by assumption; discriminate].
                rewrite E2 in Eh. injection Eh as <- <-. split; [exact C|intros _ Q; lia].
             ++ rewrite setn_twice in Hs. exact Hs.
  Qed.

  Lemma advance_takes i j s len : i < j -> len <= length (fst (get s i)) + length (fst (get s j)) ->
    len = 0 \/ (forall h, h <> i -> h <> j -> nth h (map fst s) [] = []) -> takes A lt true s len (merge_advance A lt i j s len).
  Proof.
    intros Hij Hl Ho. unfold merge_advance.
    destruct (adv2_steps i j Hij len (map fst s) (fst (get s i)) (fst (get s j)) (get_map _ s i) (get_map _ s j) Hl Ho) as (out & l1 & l2 & -> & Hs & Hlen).
    cbn [bind]. eexists _, _. split; [reflexivity|]. split; [|split; [exact Hlen|]].
    - rewrite !setn_map. exact Hs.
    - rewrite !setn_map. cbn [snd]. rewrite <- (get_map_snd _ s i), setn_id, <- get_map_snd. apply setn_id.
  Qed.

  Lemma total_ex (s : seqs) : 0 < total s -> exists j y r, j < length s /\ fst (get s j) = y :: r.
  Proof.
    rewrite total_concat. intro H. destruct (concat (map fst s)) as [|y l] eqn:E; [cbn in H; lia|].
    assert (Hy : In y (concat (map fst s))) by (rewrite E; now left).
    apply in_concat_nth in Hy. destruct Hy as (j & Hj). rewrite get_map in Hj.
    assert (Hlt : j < length s) by (destruct (Nat.lt_ge_cases j (length s)) as [L|L]; [exact L|]; unfold get in Hj; rewrite nth_overflow in Hj by exact L; contradiction).
    exists j. destruct (fst (get s j)) as [|y' r']; [contradiction|]. eauto.
  Qed.
  Lemma total_take b (s : seqs) a x r q : get s a = (x :: r, q) -> head_min lt b (map fst s) a x -> total s = S (total (setn a (r, q) s)).
  Proof.
    intros Ga Hm.
    assert (Hs : steps lt b (map fst s) [x] (map fst (setn a (r, q) s))).
    { apply (steps_cons _ _ _ _ a x r); [rewrite get_map, Ga; reflexivity|exact Hm|]. rewrite set_fst. constructor. }
    apply steps_length in Hs. destruct Hs as (Hs & _). rewrite !total_concat. cbn in Hs. lia.
  Qed.
  Lemma arbitrary_some (s : seqs) : 0 < total s -> exists d, arbitrary A s = Some d.
  Proof.
    unfold total. induction s as [|[[|x l] b] s IH]; cbn [map list_sum fold_right fst length arbitrary]; intro H; [lia| |eauto]. apply IH. exact H.
  Qed.

  (** the guarded tree *)
  Definition Bg (stable : bool) (x y : node A) : Prop :=
    sup y = true \/ (sup x = false /\ le lt (key x) (key y) /\ (stable = false \/ lt (key x) (key y) = true \/ (src x <= src y)%Z)).
  Lemma Bg_refl stable x : Bg stable x x.
  Proof. unfold Bg. destruct (sup x); [now left|right]. split; [reflexivity|]. split; [apply (le_refl _ _ SW)|]. right; right; lia. Qed.
  Lemma Bg_trans stable x y z : Bg stable x y -> Bg stable y z -> Bg stable x z.
  Proof.
    unfold Bg. intros [H1|(H1 & H2 & H3)] [H4|(H4 & H5 & H6)]; try tauto; [congruence|]. right. split; [exact H1|].
    split; [exact (le_trans _ _ SW _ _ _ H2 H5)|].
    destruct H3 as [H3|[H3|H3]]; [tauto| |]; (destruct H6 as [H6|[H6|H6]]; [tauto| |]).
    - right; left. exact (sw_trans _ SW _ _ _ H3 H6).
    - right; left. exact (lt_then_le _ SW _ _ _ H3 H5).
    - right; left. exact (le_then_lt _ SW _ _ _ H2 H6).
    - right; right; lia.
  Qed.
  Lemma Bg_test (stable : bool) l p : if (if stable then test_gs A lt else test_gu A lt) l p then Bg stable l p else Bg stable p l.
  Proof.
    unfold Bg. destruct stable.
    - destruct (test_gs A lt l p) eqn:E; unfold test_gs in E.
      + apply orb_true_iff in E. destruct E as [E|E].
        * apply andb_true_iff in E. tauto.
        * apply andb_true_iff in E. destruct E as [E1 E2]. apply andb_true_iff in E1. destruct E1 as [_ E1]. apply negb_true_iff in E1.
          apply orb_true_iff in E2. right. destruct E2 as [E2|E2].
          -- split; [exact E1|]. split; [exact (sw_asym _ _ SW _ _ E2)|tauto].
          -- apply andb_true_iff in E2. destruct E2 as [E2 E3]. apply negb_true_iff in E2. apply Z.ltb_lt in E3. split; [exact E1|]. split; [exact E2|]. right; right; lia.
      + destruct (sup p) eqn:Ep, (sup l) eqn:El; cbn in E; try discriminate; try tauto.
        apply orb_false_iff in E. destruct E as [E1 E2]. right. split; [reflexivity|]. split; [exact E1|].
        apply andb_false_iff in E2. destruct E2 as [E2|E2]; [apply negb_false_iff in E2; tauto|]. apply Z.ltb_ge in E2. right; right; lia.
    - destruct (test_gu A lt l p) eqn:E; unfold test_gu in E; destruct (sup p) eqn:Ep, (sup l) eqn:El; cbn in E; try discriminate; try tauto.
      right. split; [reflexivity|]. split; [exact (sw_asym _ _ SW _ _ E)|tauto].
  Qed.

  Theorem tree_takes stable s len : 0 < total s -> takes A lt stable s (Nat.min (total s) len) (merge_tree A lt stable s len).
  Proof.
    intro H0. unfold merge_tree. destruct (arbitrary_some s H0) as (d & ->). cbn [bind].
    assert (Hm : 0 < length s) by (destruct s; [cbn in H0; lia|cbn; lia]).
    set (fill := mkN true (-1) d).
    destruct (tree_merge_ok A lt stable (Bg stable) (Bg_refl stable) (Bg_trans stable) (if stable then test_gs A lt else test_gu A lt) (Bg_test stable)
      (left_g A lt) (feed_g A d) fill (length s) Hm (fun n s => n <= total s) (map fst)) with (s := s) (len := len) as (out & s' & E & Hs & Hlen & Hb & _); try reflexivity.
    - intros n s0 i _ _ _. unfold feed_g. destruct (fst (get s0 i)); discriminate.
    - intros n s0 w Hn Hl Hw Hmin. destruct (total_ex s0) as (j & y & r & Hj & Ej); [lia|].
      assert (Lj : forall j y r, j < length s -> fst (get s0 j) = y :: r -> leaf A (feed_g A d) fill (length s) s0 j = mkN false (Z.of_nat j) y).
      { intros j0 y0 r0 H1 H2. unfold leaf. destruct (Nat.ltb_spec j0 (length s)); [|lia]. unfold feed_g. rewrite H2. reflexivity. }
      assert (Hk : forall j, j < length s -> j < 2 ^ Nat.log2_up (length s)) by (intros; pose proof (m_le (length s) Hm); lia).
      pose proof (Hmin j (Hk j ltac:(lia))) as Bj. rewrite (Lj j y r ltac:(lia) Ej) in Bj. destruct Bj as [Bj|(Bj & _)]; [discriminate|].
      destruct (Nat.lt_ge_cases w (length s)) as [Lw|Lw]; [|unfold leaf in Bj; destruct (Nat.ltb_spec w (length s)); [lia|discriminate]].
      destruct (get s0 w) as [lw bw] eqn:Gw. destruct lw as [|x rw].
      { unfold leaf in Bj. destruct (Nat.ltb_spec w (length s)); [|lia]. unfold feed_g in Bj. rewrite Gw in Bj. discriminate. }
      assert (Hhm : head_min lt stable (map fst s0) w x).
      { intros h z q Eh. rewrite get_map in Eh.
        assert (Hh : h < length s) by (destruct (Nat.lt_ge_cases h (length s)) as [L|L]; [exact L|]; unfold get in Eh; rewrite nth_overflow in Eh by lia; discriminate).
        pose proof (Hmin h (Hk h Hh)) as Bh. rewrite (Lj h z q Hh Eh), (Lj w x rw Lw) in Bh by (rewrite Gw; reflexivity).
        destruct Bh as [Bh|(_ & B1 & B2)]; [discriminate|]. cbn in B1, B2. split; [exact B1|].
        intros Hst Hlt. destruct B2 as [B2|[B2|B2]]; [congruence|exact B2|lia]. }
      exists x, rw, bw, rw. split; [exact Lw|]. split; [reflexivity|]. split; [pose proof (total_take _ _ _ _ _ _ Gw Hhm); lia|].
      split; [rewrite get_map, Gw; reflexivity|]. split; [apply set_fst|exact Hhm].
    - intros n s0 a b _ Hl Hab Hb. set (la := leaf A (feed_g A d) fill (length s) s0 a). set (lb := leaf A (feed_g A d) fill (length s) s0 b).
      assert (Hsrc : sup lb = true \/ (src la <= src lb)%Z).
      { unfold la, lb, leaf. destruct (Nat.ltb_spec b (length s)) as [L|L]; [|left; reflexivity]. destruct (Nat.ltb_spec a (length s)); [|lia].
        right. unfold feed_g. destruct (fst (get s0 a)), (fst (get s0 b)); cbn; lia. }
      unfold left_g, Bg. destruct (sup lb) eqn:Eb; cbn [orb]; [now left|]. destruct Hsrc as [Hsrc|Hsrc]; [discriminate|].
      destruct (sup la) eqn:Ea; cbn [negb andb]; [now left|]. destruct (lt (key lb) (key la)) eqn:E; cbn [negb]; right.
      + split; [reflexivity|]. split; [exact (sw_asym _ _ SW _ _ E)|tauto].
      + split; [reflexivity|]. split; [exact E|tauto].
    - lia.
    - exists out, s'. auto.
  Qed.

  (** the unguarded trees *)
  Definition Bu (stable : bool) (s0 : A) (x y : node A) : Prop :=
    le lt (key x) (key y) /\ (stable = false \/ lt (key x) (key y) = true \/ le lt s0 (key x) \/ (src x <= src y)%Z).
  Lemma Bu_refl stable s0 x : Bu stable s0 x x.
  Proof. split; [apply (le_refl _ _ SW)|]. right; right; right; lia. Qed.
  Lemma Bu_trans stable s0 x y z : Bu stable s0 x y -> Bu stable s0 y z -> Bu stable s0 x z.
  Proof.
    unfold Bu. intros (H1 & H2) (H3 & H4). split; [exact (le_trans _ _ SW _ _ _ H1 H3)|].
    destruct H2 as [H2|[H2|[H2|H2]]]; [tauto| |tauto|].
    - right; left. exact (lt_then_le _ SW _ _ _ H2 H3).
    - destruct H4 as [H4|[H4|[H4|H4]]]; [tauto| | |right; right; right; lia].
      + right; left. exact (le_then_lt _ SW _ _ _ H1 H4).
      + destruct (lt (key x) (key z)) eqn:E; [tauto|]. right; right; left. exact (le_trans _ _ SW _ _ _ (le_trans _ _ SW _ _ _ H4 H3) E).
  Qed.
  Lemma Bu_test (stable copy : bool) s0 l p : stable && copy = false ->
    if (if stable then (if copy then test_usc A lt else test_usp A lt) else test_uu A lt) l p then Bu stable s0 l p else Bu stable s0 p l.
  Proof.
    unfold Bu. intro Hc. destruct stable; [destruct copy; [discriminate|]|].
    - destruct (test_usp A lt l p) eqn:E; unfold test_usp in E.
      + apply orb_true_iff in E. destruct E as [E|E]; [split; [exact (sw_asym _ _ SW _ _ E)|tauto]|].
        apply andb_true_iff in E. destruct E as [E1 E2]. apply negb_true_iff in E1. apply Z.ltb_lt in E2. split; [exact E1|]. right; right; right; lia.
      + apply orb_false_iff in E. destruct E as [E1 E2]. split; [exact E1|]. apply andb_false_iff in E2.
        destruct E2 as [E2|E2]; [apply negb_false_iff in E2; tauto|]. apply Z.ltb_ge in E2. right; right; right; lia.
    - unfold test_uu. destruct (lt (key l) (key p)) eqn:E; (split; [|tauto]); [exact (sw_asym _ _ SW _ _ E)|exact E].
  Qed.
  Lemma Bu_init stable s0 m feed s a b : (forall i, i < m -> feed (get s i) <> None) -> a < b ->
    if left_u A lt (leaf A feed (mkN false (-1) s0) m s a) (leaf A feed (mkN false (-1) s0) m s b)
    then Bu stable s0 (leaf A feed (mkN false (-1) s0) m s a) (leaf A feed (mkN false (-1) s0) m s b)
    else Bu stable s0 (leaf A feed (mkN false (-1) s0) m s b) (leaf A feed (mkN false (-1) s0) m s a).
  Proof.
    intros Hf Hab. set (la := leaf A feed _ m s a). set (lb := leaf A feed _ m s b).
    assert (Hsrc : key lb = s0 \/ (src la <= src lb)%Z).
    { unfold la, lb, leaf. destruct (Nat.ltb_spec b m) as [L|L]; [|left; reflexivity]. destruct (Nat.ltb_spec a m); [|lia].
      pose proof (Hf a ltac:(lia)). pose proof (Hf b ltac:(lia)). right. destruct (feed (get s a)) as [[? ?]|], (feed (get s b)) as [[? ?]|]; try congruence. cbn. lia. }
    unfold left_u, Bu. destruct (lt (key lb) (key la)) eqn:E; cbn [negb].
    - split; [exact (sw_asym _ _ SW _ _ E)|tauto].
    - split; [exact E|]. destruct Hsrc as [Hsrc|Hsrc]; [|tauto]. rewrite <- Hsrc. destruct (lt (key la) (key lb)) eqn:E2; [tauto|]. right; right; left. exact E2.
  Qed.

  (** sentinels *)
  Definition sview (s : seqs) : list (list A) := map (fun r => removelast (fst r)) s.
  Definition ext (all : list A) (r0 r : list A * list A) : Prop :=
    exists l z, fst r = l ++ [z] /\ snd r0 = z :: snd r /\ incl l all /\ (forall x, In x all -> lt x z = true).
  Definition exts (all : list A) (s0 s : seqs) : Prop := length s = length s0 /\ forall i, i < length s0 -> ext all (get s0 i) (get s i).
  Lemma ends_out_ok all (s0 : seqs) : Forall (guarded_by A lt all) s0 ->
    exists s, ends_out A s0 = Some s /\ exts all s0 s /\ sview s = map fst s0.
  Proof.
    induction 1 as [|[l b0] s0 H Hs IH].
    - exists []. split; [reflexivity|]. split; [split; [reflexivity|intros i Hi; cbn in Hi; lia]|reflexivity].
    - destruct H as (z & b & E & Inc & Gt). cbn in E, Inc. subst b0. destruct IH as (s & E & (Hl & He) & Hv). cbn [ends_out]. rewrite E. cbn [bind].
      eexists. split; [reflexivity|]. split; [split; [cbn; congruence|]|].
      + intros [|i] Hi; [exists l, z; cbn; auto|]. apply He. cbn in Hi. lia.
      + cbn. rewrite removelast_last. f_equal. exact Hv.
  Qed.
  Lemma ends_in_ok all : forall (s0 s : seqs), exts all s0 s -> exists s', ends_in A s = Some s' /\ map fst s' = sview s /\ map snd s' = map snd s0.
  Proof.
    induction s0 as [|[l0 b0] s0 IH]; intros [|[l b] s] (Hl & He); try discriminate; [exists []; auto|].
    destruct (He 0 ltac:(cbn; lia)) as (l' & z & E1 & E2 & _). cbn in E1, E2. subst l b0.
    destruct (IH s) as (s' & E & Hf & Hb). { split; [cbn in Hl; congruence|]. intros i Hi. apply (He (S i)). cbn. lia. }
    cbn [ends_in]. rewrite rev_app_distr. cbn [rev app]. rewrite E. cbn [bind]. rewrite rev_involutive. eexists. split; [reflexivity|].
    cbn. rewrite removelast_last, Hf, Hb. auto.
  Qed.

  Theorem sentinel_takes stable copy s len : stable && copy = false -> 0 < length s -> len <= total s -> sentinelled A lt s ->
    takes A lt stable s len (merge_tree_sentinel A lt stable copy s len).
  Proof.
    intros Hc H0 Hlen Hsent. unfold merge_tree_sentinel. set (all := concat (map fst s)) in *.
    destruct (ends_out_ok all s Hsent) as (se & -> & He & Hv). cbn [bind].
    unfold merge_tree_unguarded. destruct He as (Hls & He).
    destruct (He 0 H0) as (l0 & z0 & E0 & _ & _ & Gt0). rewrite E0, rev_app_distr. cbn [rev app hd_error bind].
    set (fill := mkN false (-1) z0).
    assert (Htot : total s <= total se).
    { assert (Q : forall a b : seqs, sview a = map fst b -> total b <= total a).
      { induction a as [|[la ba] a IHa]; intros [|[lb bb] b] Q; try discriminate; [reflexivity|]. cbn in Q. injection Q as Q1 Q2. specialize (IHa b Q2).
        unfold total in *. cbn [map list_sum fold_right fst]. assert (length lb <= length la); [|unfold list_sum in *; lia].
        subst lb. destruct (nil_dec la) as [->|D]; [cbn; lia|]. rewrite (app_removelast_last z0 D) at 2. rewrite app_length. lia. }
      exact (Q se s Hv). }
    destruct (tree_merge_ok A lt stable (Bu stable z0) (Bu_refl stable z0) (Bu_trans stable z0)
      (if stable then (if copy then test_usc A lt else test_usp A lt) else test_uu A lt) (fun l p => Bu_test stable copy z0 l p Hc)
      (left_u A lt) (feed_u A) fill (length s) H0 (fun n s' => exts all s s' /\ n <= length (concat (sview s'))) sview) with (s := se) (len := len) as (out & s' & E & Hs & Hlo & Hb & Hl' & HI).
    - intros n s0 i ((_ & Q) & _) _ Hi. destruct (Q i Hi) as (l & z & El & _). unfold feed_u, read. rewrite El. destruct l; discriminate.
    - intros n s0 w ((Ql & Q) & Hn) Hl Hw Hmin.
      assert (Lj : forall j l z y r, j < length s -> fst (get s0 j) = l ++ [z] -> l ++ [z] = y :: r -> leaf A (feed_u A) fill (length s) s0 j = mkN false (Z.of_nat j) y).
      { intros j l z y r H1 H2 H3. unfold leaf. destruct (Nat.ltb_spec j (length s)); [|lia]. unfold feed_u, read. rewrite H2, H3. reflexivity. }
      assert (Hk : forall j, j < length s -> j < 2 ^ Nat.log2_up (length s)) by (intros; pose proof (m_le (length s) H0); lia).
      assert (Vn : forall j, nth j (sview s0) [] = removelast (fst (get s0 j))).
      { intro j. unfold sview, get. change (@nil A) with ((fun r : list A * list A => removelast (fst r)) ([], [])) at 1. rewrite map_nth. reflexivity. }
      destruct (concat (sview s0)) as [|y cs] eqn:Ec; [cbn in Hn; lia|].
      assert (Hy : In y (concat (sview s0))) by (rewrite Ec; now left). apply in_concat_nth in Hy. destruct Hy as (j & Hj). rewrite Vn in Hj.
      assert (Hjl : j < length s) by (destruct (Nat.lt_ge_cases j (length s)) as [L|L]; [exact L|]; unfold get in Hj; rewrite nth_overflow in Hj by lia; contradiction).
      destruct (Q j Hjl) as (lj & zj & Ej & _ & Ij & _). rewrite Ej, removelast_last in Hj. destruct lj as [|y' lj]; [contradiction|].
      assert (Hy' : In y' all) by (apply Ij; now left).
      pose proof (Hmin j (Hk j Hjl)) as Bj. rewrite (Lj j _ _ _ _ Hjl Ej eq_refl) in Bj. destruct Bj as (Bj & _). cbn in Bj.
      destruct (Nat.lt_ge_cases w (length s)) as [Lw|Lw].
      2: { exfalso. unfold leaf in Bj. destruct (Nat.ltb_spec w (length s)); [lia|]. cbn in Bj. unfold le in Bj. rewrite (Gt0 y' Hy') in Bj. discriminate. }
      destruct (Q w Lw) as (lw & zw & Ew & Sw & Iw & Gw). destruct lw as [|x rw].
      { exfalso. rewrite (Lj w _ _ _ _ Lw Ew eq_refl) in Bj. cbn in Bj. unfold le in Bj. rewrite (Gw y' Hy') in Bj. discriminate. }
      exists x, (rw ++ [zw]), (snd (get s0 w)), rw. split; [exact Lw|].
      assert (Gg : get s0 w = (x :: (rw ++ [zw]), snd (get s0 w))) by (rewrite (surjective_pairing (get s0 w)), Ew; reflexivity).
      split; [exact Gg|].
      assert (Hvw : nth w (sview s0) [] = x :: rw) by (rewrite Vn, Ew, removelast_last; reflexivity).
      assert (Hvs : sview (setn w (rw ++ [zw], snd (get s0 w)) s0) = setn w rw (sview s0)) by (unfold sview; rewrite setn_map; cbn [fst]; rewrite removelast_last; reflexivity).
      assert (Hhm : head_min lt stable (sview s0) w x).
      { intros h v q Eh. rewrite Vn in Eh.
        assert (Hh : h < length s) by (destruct (Nat.lt_ge_cases h (length s)) as [L|L]; [exact L|]; unfold get in Eh; rewrite nth_overflow in Eh by lia; discriminate).
        destruct (Q h Hh) as (lh & zh & Elh & _). rewrite Elh, removelast_last in Eh. subst lh.
        pose proof (Hmin h (Hk h Hh)) as Bh. rewrite (Lj h _ _ _ _ Hh Elh eq_refl), (Lj w _ _ _ _ Lw Ew eq_refl) in Bh.
        destruct Bh as (B1 & B2). cbn in B1, B2. split; [exact B1|]. intros Hst Hlt. destruct B2 as [B2|[B2|[B2|B2]]]; [congruence|exact B2| |lia].
        unfold le in B2. rewrite (Gt0 x) in B2; [discriminate|]. apply Iw. now left. }
      split; [split|]; [|rewrite Hvs|].
      + split; [rewrite setn_length; exact Ql|]. intros i Hi. unfold get at 2. destruct (Nat.eq_dec i w) as [->|D].
        * rewrite setn_same by lia. exists rw, zw. split; [reflexivity|]. split; [exact Sw|]. split; [intros v Hv2; apply Iw; now right|exact Gw].
        * rewrite setn_other by exact D. exact (Q i Hi).
      + assert (Hss : steps lt stable (sview s0) [x] (setn w rw (sview s0))) by (apply (steps_cons _ _ _ _ w x rw); [exact Hvw|exact Hhm|constructor]).
        apply steps_length in Hss. destruct Hss as (Hss & _). rewrite Ec in Hss. cbn in *. lia.
      + split; [exact Hvw|]. split; [exact Hvs|exact Hhm].
    - intros n s0 a b ((_ & Q) & _) _ Hab _. apply Bu_init; [|exact Hab]. intros i Hi. destruct (Q i Hi) as (l & z & El & _). unfold feed_u, read. rewrite El. destruct l; discriminate.
    - exact Hls.
    - split; [split; [exact Hls|exact He]|]. rewrite Hv, <- total_concat. lia.
    - fold fill. rewrite E. cbn [bind]. destruct HI as (He' & _). destruct (ends_in_ok all s s' He') as (s2 & -> & Hf & Hb2). cbn [bind].
      exists out, s2. split; [reflexivity|]. rewrite Hf, <- Hv. split; [exact Hs|]. split; [lia|exact Hb2].
  Qed.
End Two.
