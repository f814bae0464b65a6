(** Proofs about ShuffleModel. *)
From Coq Require Import List Bool Arith NArith Lia Permutation.
From Verif Require Import ScanModel ScanSpec ScanProofs ShuffleModel.
Import ListNotations.

Section P.
  Variable A : Type.
  Variable junk : A.
  Variable B : nat.
  Variables BlockSize PageSize sz : N.
  Variable St : Type.
  Variable rnd : N -> St -> N * St.
  Variable shuffle : St -> list A -> St * list A.
  Hypothesis HB : 0 < B.
  Hypothesis HBS : (0 < BlockSize)%N.
  Hypothesis Hrnd : forall k st, (0 < k -> fst (rnd k st) < k)%N.
  Hypothesis Hshuffle : forall st l, Permutation (snd (shuffle st l)) l.

  Notation rs := (random_shuffle A junk B BlockSize PageSize sz St rnd shuffle).
  Notation proc := (process A junk B BlockSize PageSize sz St shuffle).

  Lemma push_ok x : forall i bs, i < length bs -> exists bs', push A i x bs = Some bs' /\ length bs' = length bs /\ Permutation (concat bs') (x :: concat bs).
  Proof.
    induction i as [|i IH]; intros [|b bs] H; cbn [length push] in *; try lia.
    - eexists. split; [reflexivity|]. split; [reflexivity|]. cbn. reflexivity.
    - destruct (IH bs ltac:(lia)) as (bs' & -> & L & P). cbn [obind]. eexists. split; [reflexivity|]. split; [cbn; lia|]. cbn [concat].
      rewrite P. symmetry. apply Permutation_middle.
  Qed.
  Lemma distribute_ok k mid : (0 < k)%N -> forall st r n w bs, length bs = N.to_nat k ->
    exists st' bs', times (length mid) (distribute1 A St rnd k) (st, mkio A (mid ++ r) n w, bs) = Some (st', mkio A r (n + length mid) w, bs') /\
      Permutation (concat bs') (mid ++ concat bs).
  Proof.
    intro Hk. induction mid as [|x mid IH]; intros st r n w bs HL; cbn [length times app].
    - exists st, bs. rewrite Nat.add_0_r. split; reflexivity.
    - unfold distribute1 at 1. pose proof (Hrnd k st Hk) as HR. destruct (rnd k st) as [i st1]. cbn [fst] in HR. cbn [io_get rest nread written obind].
      destruct (push_ok x (N.to_nat i) bs ltac:(lia)) as (bs1 & -> & L & P). cbn [obind].
      destruct (IH st1 r (S n) w bs1 ltac:(lia)) as (st' & bs' & -> & P'). exists st', bs'. split; [f_equal; f_equal; f_equal; f_equal; lia|].
      rewrite P', P. symmetry. apply Permutation_middle.
  Qed.
  Lemma put_all_ok l : forall r n w, length w + length l <= n -> put_all A l (mkio A r n w) = Some (mkio A r n (w ++ l)).
  Proof.
    induction l as [|x l IH]; intros r n w H; cbn [put_all length] in *.
    - rewrite app_nil_r. reflexivity.
    - unfold io_put. cbn [written nread rest]. replace (Nat.ltb (length w) n) with true by (symmetry; apply Nat.ltb_lt; lia). cbn [obind].
      rewrite IH by (rewrite app_length; cbn [length]; lia). rewrite <- app_assoc. reflexivity.
  Qed.
  Lemma put_all_inv l : forall s s', put_all A l s = Some s' -> s' = mkio A (rest A s) (nread A s) (written A s ++ l).
  Proof.
    induction l as [|x l IH]; intros [r n w] s' H; cbn [put_all] in H.
    - injection H as <-. cbn. rewrite app_nil_r. reflexivity.
    - unfold io_put in H at 1. cbn [written nread rest] in *. destruct (Nat.ltb (length w) n); cbn [obind] in H; [|discriminate].
      apply IH in H. cbn [rest nread written] in H. rewrite <- app_assoc in H. exact H.
  Qed.

  (** what a call that returns has done, and that it does not get stuck *)
  Definition good (safe : Prop) (v : list A) (first last : nat) (r : res (St * list A * list event)) : Prop :=
    match r with
    | Done (_, v', _) => exists l, Permutation l (range v first last) /\ v' = replaced v first last l
    | Stuck => ~ safe
    | More => True
    end.

  Lemma temp_blocks (b : list A) : exists nb, length (b ++ repeat junk (tail_length B (length b))) = nb * B.
  Proof. exists (end_block B (length b)). rewrite app_length, repeat_length, tail_end by exact HB. reflexivity. Qed.

  Lemma process_ok (safe : Prop) rec :
    (forall st v size M nb, length v = nb * B -> 0 <= size <= length v -> good (safe /\ 0 < size) v 0 size (rec st v size M)) ->
    forall bs sp st r n w, length w + length (concat bs) <= n -> (safe -> 0 < sp)%N ->
    match proc rec bs sp st (mkio A r n w) with
    | Done (_, s', _) => exists l, Permutation l (concat bs) /\ s' = mkio A r n (w ++ l)
    | Stuck => ~ safe
    | More => True
    end.
  Proof.
    intros Hrec. induction bs as [|b bs IH]; intros sp st r n w HN HS; cbn [process].
    - exists []. split; [reflexivity|]. rewrite app_nil_r. reflexivity.
    - cbn [concat] in HN. rewrite app_length in HN. destruct (N.ltb_spec (N.of_nat (length b) * sz) sp) as [L|L].
      + pose proof (Hshuffle st b) as PS. destruct (shuffle st b) as [st1 l]. cbn [snd] in PS. pose proof (Permutation_length PS) as LE.
        rewrite put_all_ok by lia. cbn [lift rbind].
        specialize (IH (sp + BlockSize)%N st1 r n (w ++ l)). destruct (proc rec bs _ st1 _) as [[[st2 s2] e]| |].
        * cbn [rbind]. destruct IH as (l2 & P & ->); [rewrite app_length; lia|lia|]. exists (l ++ l2). rewrite app_assoc. split; [|reflexivity].
          apply Permutation_app; assumption.
        * cbn [rbind]. apply IH; [rewrite app_length; lia|lia].
        * exact I.
      + destruct (temp_blocks b) as [nb HT].
        pose proof (Hrec st (b ++ repeat junk (tail_length B (length b))) (length b) (sp + PageSize * BlockSize)%N nb HT) as G.
        rewrite app_length in G. specialize (G ltac:(lia)).
        destruct (rec _ _ _ _) as [[[st1 v1] e1]| |]; cbn [rbind good] in *.
        * destruct G as (l & P & ->). unfold range, replaced in *. rewrite Nat.sub_0_r in P. cbn [skipn firstn app] in *.
          rewrite firstn_len in P. pose proof (Permutation_length P) as LE.
          rewrite firstn_len' by lia. rewrite put_all_ok by lia. cbn [lift rbind].
          specialize (IH (sp + PageSize * BlockSize + BlockSize)%N st1 r n (w ++ l)). destruct (proc rec bs _ st1 _) as [[[st2 s2] e]| |].
          -- cbn [rbind]. destruct IH as (l2 & P2 & ->); [rewrite app_length; lia|lia|]. exists (l ++ l2). rewrite app_assoc. split; [|reflexivity].
             apply Permutation_app; assumption.
          -- cbn [rbind]. apply IH; [rewrite app_length; lia|lia].
          -- exact I.
        * intro Hs. apply G. split; [exact Hs|]. specialize (HS Hs). destruct b; cbn [length] in *; [cbn in L; lia|lia].
        * exact I.
  Qed.

  Lemma memory_ge M : (min_memory BlockSize PageSize <= memory BlockSize PageSize M)%N.
  Proof. unfold memory. destruct (N.ltb_spec M (min_memory BlockSize PageSize)); lia. Qed.
  Lemma nbuckets_bound M : (3 * (nbuckets BlockSize M * BlockSize) <= M)%N.
  Proof.
    unfold nbuckets. pose proof (N.mul_div_le M (3 * BlockSize) ltac:(lia)) as H. lia.
  Qed.
  Lemma nbuckets_pos M : (min_memory BlockSize PageSize <= M -> 0 < nbuckets BlockSize M)%N.
  Proof. intro H. unfold nbuckets, min_memory in *. apply N.div_str_pos. lia. Qed.
  Lemma space_exact M : (PageSize < 12 -> min_memory BlockSize PageSize <= M ->
    space BlockSize PageSize M = M - nbuckets BlockSize M * BlockSize - PageSize * BlockSize /\ 0 < space BlockSize PageSize M)%N.
  Proof.
    intros HP HM. pose proof (nbuckets_bound M) as HK. unfold space, sub64, min_memory in *.
    assert (PageSize * BlockSize < 12 * BlockSize)%N as HPB by (apply N.mul_lt_mono_pos_r; lia).
    set (kb := (nbuckets BlockSize M * BlockSize)%N) in *. set (pb := (PageSize * BlockSize)%N) in *. clearbody kb pb.
    destruct (N.ltb_spec M kb); [lia|]. destruct (N.ltb_spec (M - kb) pb); [lia|]. lia.
  Qed.

  Theorem random_shuffle_good fuel : forall st v first last M nb, length v = nb * B -> first <= last <= length v ->
    good ((PageSize < 12)%N /\ (first < last \/ first mod B <> 0)) v first last (rs fuel st v first last M).
  Proof.
    induction fuel as [|fuel IH]; intros st v first last M nb HV HR; cbn [random_shuffle]; [exact I|].
    set (M1 := memory BlockSize PageSize M). pose proof (memory_ge M) as HM1. fold M1 in HM1. clearbody M1.
    destruct (open_in A B v (first / B) (end_block B last)) as [r|] eqn:EO; cbn [lift rbind].
    - destruct (parts A B HB v nb first last HV HR) as (p & h & mid & t & q & EV & Hp & Hh & Hm & Ht).
      assert (r = h ++ mid ++ t) as ->.
      { unfold open_in in EO. destruct (andb _ _); [|discriminate]. injection EO as <-. rewrite EV. rewrite skipn_len' by lia.
        rewrite !app_assoc. rewrite firstn_len'; [rewrite <- !app_assoc; reflexivity|].
        rewrite Nat.mul_sub_distr_r, tail_end by exact HB. rewrite !app_length. pose proof (Nat.div_mod first B ltac:(lia)). lia. }
      rewrite <- Hh. rewrite (copy_ok A B HB) by (cbn; lia). cbn [lift rbind app plus].
      rewrite <- Hm.
      destruct (distribute_ok (nbuckets BlockSize M1) mid (nbuckets_pos M1 HM1) st t (length h) h (repeat [] (N.to_nat (nbuckets BlockSize M1)))) as (st1 & bs & -> & PB).
      { apply repeat_length. }
      assert (concat (repeat (@nil A) (N.to_nat (nbuckets BlockSize M1))) = []) as EC by (generalize (N.to_nat (nbuckets BlockSize M1)); intro z; induction z as [|z IHz]; [reflexivity|exact IHz]).
      rewrite EC, app_nil_r in PB. clear EC. cbn [lift rbind]. pose proof (Permutation_length PB) as LB.
      pose proof (process_ok (PageSize < 12)%N (fun st v size M => rs fuel st v 0 size M)) as PO.
      assert (forall st v size M nb, length v = nb * B -> 0 <= size <= length v -> good ((PageSize < 12)%N /\ 0 < size) v 0 size (rs fuel st v 0 size M)) as Hrec.
      { intros st0 v0 size M0 nb0 HV0 HR0. specialize (IH st0 v0 0 size M0 nb0 HV0 HR0). destruct (rs fuel st0 v0 0 size M0) as [[[st2 v2] e2]| |]; cbn [good] in *; auto.
        intros [H1 H2]. apply IH. split; [exact H1|left; exact H2]. }
      specialize (PO Hrec bs (space BlockSize PageSize M1) st1 t (length h + length mid) h ltac:(lia) ltac:(intro Hs; apply space_exact; assumption)).
      destruct (proc _ bs _ st1 _) as [[[st2 s2] e2]| |]; cbn [rbind].
      + destruct PO as (l & PL & ->). pose proof (Permutation_length PL) as LL. rewrite <- Ht. rewrite <- (app_nil_r t) at 2. rewrite (copy_ok A B HB) by (rewrite app_length; lia).
        cbn [lift rbind written]. rewrite <- app_assoc. rewrite EV.
        rewrite (close_parts A B HB p h mid t q l first last) by (assumption || lia). cbn [lift rbind good].
        exists l. split; [|reflexivity]. rewrite (range_parts A B HB p h mid t q) by assumption. rewrite PL. exact PB.
      + intros [Hs _]. apply PO. exact Hs.
      + exact I.
    - intros [_ HN]. unfold open_in in EO. destruct (andb _ _) eqn:EA; [discriminate|]. apply andb_false_iff in EA. destruct EA as [EA|EA].
      + apply Nat.ltb_ge in EA. assert (first / B < end_block B last); [|lia]. destruct HN as [HN|HN]; [apply end_after; assumption|].
        apply Nat.mul_lt_mono_pos_r with B; [exact HB|]. rewrite tail_end by exact HB. pose proof (Nat.div_mod first B ltac:(lia)). lia.
      + apply Nat.leb_gt in EA. rewrite tail_end in EA by exact HB. pose proof (tail_le A B HB v nb last HV ltac:(lia)). lia.
  Qed.

  (** enough memory: no recursion *)
  Lemma process_small rec : forall bs sp st r n w, length w + length (concat bs) <= n ->
    (N.of_nat (length (concat bs)) * sz < sp)%N -> exists st' s', proc rec bs sp st (mkio A r n w) = Done (st', s', map (fun b => Array (N.of_nat (length b) * sz)) bs).
  Proof.
    induction bs as [|b bs IH]; intros sp st r n w HN HS; cbn [process map].
    - eexists _, _. reflexivity.
    - cbn [concat] in *. rewrite app_length in *. assert (N.of_nat (length b) * sz < sp /\ N.of_nat (length (concat bs)) * sz < sp)%N as [H1 H2] by lia.
      destruct (N.ltb_spec (N.of_nat (length b) * sz) sp); [|lia]. pose proof (Permutation_length (Hshuffle st b)) as LE. destruct (shuffle st b) as [st1 l]. cbn [snd] in LE.
      rewrite put_all_ok by lia. cbn [lift rbind]. destruct (IH (sp + BlockSize)%N st1 r n (w ++ l)) as (st' & s' & ->); [rewrite app_length; lia|lia|].
      cbn [rbind]. eexists _, _. reflexivity.
  Qed.
  Theorem random_shuffle_small fuel st v first last M nb : length v = nb * B -> first <= last <= length v -> (first < last \/ first mod B <> 0) ->
    (PageSize < 12)%N -> (N.of_nat (last - first) * sz < space BlockSize PageSize (memory BlockSize PageSize M))%N ->
    exists x, rs (S fuel) st v first last M = Done x.
  Proof.
    intros HV HR HN HP HS. pose proof (random_shuffle_good (S fuel) st v first last M nb HV HR) as G.
    destruct (rs (S fuel) st v first last M) as [x| |] eqn:E; [eauto|destruct G; split; [exact HP|exact HN]|]. exfalso. clear G.
    cbn [random_shuffle] in E. set (M1 := memory BlockSize PageSize M) in *. pose proof (memory_ge M) as HM1. fold M1 in HM1. clearbody M1.
    destruct (open_in A B v (first / B) (end_block B last)) as [r|] eqn:EO; cbn [lift rbind] in E; [|discriminate].
    destruct (parts A B HB v nb first last HV HR) as (p & h & mid & t & q & EV & Hp & Hh & Hm & Ht).
    destruct (times (first mod B) (copy A) _) as [s|] eqn:ES; cbn [lift rbind] in E; [|discriminate].
    assert (r = h ++ mid ++ t) as ->.
    { unfold open_in in EO. destruct (andb _ _); [|discriminate]. injection EO as <-. rewrite EV. rewrite skipn_len' by lia.
      rewrite !app_assoc. rewrite firstn_len'; [rewrite <- !app_assoc; reflexivity|].
      rewrite Nat.mul_sub_distr_r, tail_end by exact HB. rewrite !app_length. pose proof (Nat.div_mod first B ltac:(lia)). lia. }
    rewrite <- Hh in ES. rewrite (copy_ok A B HB) in ES by (cbn; lia). injection ES as <-. rewrite <- Hm in E. cbn [plus app] in E.
    destruct (distribute_ok (nbuckets BlockSize M1) mid (nbuckets_pos M1 HM1) st t (length h) h (repeat [] (N.to_nat (nbuckets BlockSize M1)))) as (st1 & bs & ED & PB).
    { apply repeat_length. }
    rewrite ED in E. clear ED.
    assert (concat (repeat (@nil A) (N.to_nat (nbuckets BlockSize M1))) = []) as EC by (generalize (N.to_nat (nbuckets BlockSize M1)); intro z; induction z as [|z IHz]; [reflexivity|exact IHz]).
    rewrite EC, app_nil_r in PB. clear EC. cbn [lift rbind] in E. pose proof (Permutation_length PB) as LB.
    destruct (process_small (fun st v size M => rs fuel st v 0 size M) bs (space BlockSize PageSize M1) st1 t (length h + length mid) h) as (st2 & s2 & EP); [lia|rewrite LB, Hm; exact HS|].
    rewrite EP in E. cbn [rbind] in E.
    destruct (times (tail_length B last) _ _); cbn [lift rbind] in E; [|discriminate]. destruct (close_out _ _ _ _ _); cbn [lift rbind] in E; discriminate.
  Qed.

  (** memory: without recursion every temporary array is smaller than M *)
  Definition no_recursion (e : list event) : Prop := forall M, ~ In (Recurse M) e.
  Lemma process_arrays rec : forall bs sp st s st' s' e, proc rec bs sp st s = Done (st', s', e) -> no_recursion e ->
    forall n, In (Array n) e -> (n < sp + N.of_nat (length bs) * BlockSize)%N.
  Proof.
    induction bs as [|b bs IH]; intros sp st s st' s' e H NR n Hn; cbn [process] in H.
    - injection H as <- <- <-. destruct Hn.
    - destruct (N.ltb_spec (N.of_nat (length b) * sz) sp) as [L|L].
      + destruct (shuffle st b) as [st1 l]. destruct (put_all A l s) as [s1|]; cbn [lift rbind] in H; [|discriminate].
        destruct (proc rec bs (sp + BlockSize)%N st1 s1) as [[[st2 s2] e2]| |] eqn:E; cbn [rbind] in H; try discriminate. injection H as <- <- <-.
        destruct Hn as [Hn|Hn]; [injection Hn as <-; lia|].
        assert (no_recursion e2) as NR2 by (intros M0 H0; apply (NR M0); right; exact H0).
        pose proof (IH _ _ _ _ _ _ E NR2 n Hn). cbn [length]. lia.
      + destruct (rec _ _ _ _) as [[[st1 v1] e1]| |]; cbn [rbind] in H; try discriminate.
        destruct (put_all _ _ _) as [s1|]; cbn [lift rbind] in H; [|discriminate].
        destruct (proc rec bs _ st1 s1) as [[[st2 s2] e2]| |]; cbn [rbind] in H; try discriminate. injection H as <- <- <-.
        exfalso. apply (NR (sp + PageSize * BlockSize)%N). left. reflexivity.
  Qed.
  Theorem random_shuffle_arrays fuel st v first last M st' v' e : (PageSize < 12)%N -> rs fuel st v first last M = Done (st', v', e) -> no_recursion e ->
    forall n, In (Array n) e -> (n < memory BlockSize PageSize M)%N.
  Proof.
    intros HP H NR n Hn. destruct fuel as [|fuel]; cbn [random_shuffle] in H; [discriminate|]. pose proof (memory_ge M) as HM1.
    set (M1 := memory BlockSize PageSize M) in *. clearbody M1.
    destruct (open_in A B v (first / B) (end_block B last)) as [r|] eqn:EO; cbn [lift rbind] in H; [|discriminate].
    destruct (times (first mod B) (copy A) _) as [s|] eqn:ES; cbn [lift rbind] in H; [|discriminate].
    destruct (times (last - first) (distribute1 A St rnd (nbuckets BlockSize M1)) (st, s, repeat [] (N.to_nat (nbuckets BlockSize M1)))) as [[[st1 s1] bs]|] eqn:ED; cbn [lift rbind] in H; [|discriminate].
    assert (length bs = N.to_nat (nbuckets BlockSize M1)) as LB.
    { clear - ED. assert (length (repeat (@nil A) (N.to_nat (nbuckets BlockSize M1))) = N.to_nat (nbuckets BlockSize M1)) as L by apply repeat_length.
      set (b0 := repeat [] (N.to_nat (nbuckets BlockSize M1))) in *. clearbody b0. revert st s b0 ED L.
      induction (last - first) as [|m IH]; intros st s b0 ED L; cbn [times] in ED; [injection ED as <- <- <-; exact L|].
      unfold distribute1 in ED at 1. destruct (rnd (nbuckets BlockSize M1) st) as [i st2]. destruct (io_get A s) as [[x s2]|]; cbn [obind] in ED; [|discriminate].
      destruct (push A (N.to_nat i) x b0) as [b1|] eqn:EP; cbn [obind] in ED; [|discriminate]. apply (IH _ _ _ ED). rewrite <- L. clear - EP.
      revert b0 b1 EP. induction (N.to_nat i) as [|j IHj]; intros [|c b0] b1 EP; cbn [push] in EP; try discriminate; [injection EP as <-; reflexivity|].
      destruct (push A j x b0) as [b2|] eqn:E2; cbn [obind] in EP; [|discriminate]. injection EP as <-. cbn. f_equal. apply IHj. exact E2. }
    destruct (proc _ bs _ st1 s1) as [[[st2 s2] e2]| |] eqn:EP; cbn [rbind] in H; try discriminate.
    destruct (times (tail_length B last) _ _); cbn [lift rbind] in H; [|discriminate]. destruct (close_out _ _ _ _ _); cbn [lift rbind] in H; [|discriminate].
    injection H as <- <- <-. pose proof (process_arrays _ _ _ _ _ _ _ _ EP NR n Hn) as L. rewrite LB, N2Nat.id in L.
    destruct (space_exact M1 HP HM1) as [-> _] in L. pose proof (nbuckets_bound M1). unfold min_memory in HM1.
    set (kb := (nbuckets BlockSize M1 * BlockSize)%N) in *. set (pb := (PageSize * BlockSize)%N) in *. clearbody kb pb. lia.
  Qed.
End P.
