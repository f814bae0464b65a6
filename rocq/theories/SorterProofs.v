From Coq Require Import List Bool Arith Lia Permutation Sorted.
From Verif Require Import SumLib OrderLib LoserModel LoserSpec LoserProofs SortModel SortSpec SortProofs SorterModel SorterSpec.
Import ListNotations.

Lemma div_ceil_bounds n d : 0 < d -> n <= div_ceil n d * d < n + d.
Proof.
  intro H. unfold div_ceil. pose proof (Nat.div_mod (n + d - 1) d ltac:(lia)) as E. pose proof (Nat.mod_upper_bound (n + d - 1) d ltac:(lia)).
  rewrite Nat.mul_comm in E. lia.
Qed.
Lemma div_ceil_pos n d : 0 < d -> 0 < n -> 0 < div_ceil n d.
Proof. intros H H1. pose proof (div_ceil_bounds n d H). destruct (div_ceil n d); lia. Qed.
Lemma concat_nonempty {X} (l : list (list X)) : l <> [] -> Forall (fun x => x <> []) l -> concat l <> [].
Proof. intros H F. destruct F as [|x l Hx F]; [contradiction|]. destruct x; [contradiction|discriminate]. Qed.
Lemma chunk_map {X Y} (g : X -> Y) fuel n : forall l, chunk fuel n (map g l) = map (map g) (chunk fuel n l).
Proof.
  induction fuel as [|f IH]; intro l; [reflexivity|]. destruct l as [|x l]; [reflexivity|]. cbn [chunk map].
  change (g x :: map g l) with (map g (x :: l)). rewrite <- firstn_map, skipn_map, IH. reflexivity.
Qed.
Lemma chunk_forall2 {X Y} (P : X -> Y -> Prop) fuel n : forall l l', Forall2 P l l' -> Forall2 (Forall2 P) (chunk fuel n l) (chunk fuel n l').
Proof.
  assert (forall n l l', Forall2 P l l' -> Forall2 P (firstn n l) (firstn n l') /\ Forall2 P (skipn n l) (skipn n l')) as W.
  { clear. intro n. induction n as [|n IH]; intros l l' H; [split; [constructor|exact H]|].
    destruct H as [|x y l l' H1 H]; [split; constructor|]. destruct (IH _ _ H). split; [constructor; assumption|assumption]. }
  induction fuel as [|f IH]; intros l l' H; [constructor|]. destruct H as [|x y l l' H1 H]; [constructor|].
  cbn [chunk]. destruct (W n (x :: l) (y :: l')) as [W1 W2]; [constructor; assumption|]. constructor; [exact W1|apply IH, W2].
Qed.

Lemma forall2_length {X Y} (P : X -> Y -> Prop) l l' : Forall2 P l l' -> length l = length l'.
Proof. induction 1; cbn; congruence. Qed.
Lemma chunk_le {X} fuel n : forall (l c : list X), In c (chunk fuel n l) -> length c <= n.
Proof.
  induction fuel as [|f IH]; intros l c H; [contradiction|]. cbn [chunk] in H. destruct l as [|x l]; [contradiction|].
  destruct H as [<-|H]; [apply firstn_le_length|eapply IH, H].
Qed.

Section P.
  Variable A : Type.
  Variable cmp : A -> A -> bool.
  Variable maxv : A.
  Variable srt : list A -> list A.
  Variable B : nat.
  Variable fresh : nat -> list nat -> nat -> list nat.
  Variable mf : nat -> nat -> nat.
  Variable D raw : nat.
  Hypothesis SW : strict_weak cmp.
  Hypothesis SRT : sorts cmp srt.
  Hypothesis HB : 0 < B.
  Hypothesis AL : allocates managed fresh.
  Hypothesis HR : 0 < raw.

  Notation st := (SortModel.st A).
  Notation run := (list (nat * A)).
  Notation inv := (SortProofs.inv A managed).
  Notation run_ok := (SortProofs.run_ok A cmp B).
  Definition below (x : A) : Prop := cmp x maxv = true \/ x = maxv.

  (** run [r] holds the sorted list [l] and sentinels *)
  Definition run_good (d : nat -> list A) (r : run) (l : list A) : Prop :=
    run_ok d r /\ l <> [] /\ Forall below l /\ sorted cmp l /\ exists k, content d (map fst r) = l ++ repeat maxv k.
  Lemma run_good_ext d d' r l : (forall b, In b (map fst r) -> d' b = d b) -> run_good d r l -> run_good d' r l.
  Proof.
    intros H (R1 & R2 & R3 & R4 & k & R5). split; [eapply run_ok_ext; eassumption|]. split; [exact R2|]. split; [exact R3|]. split; [exact R4|].
    exists k. rewrite (content_ext A d d' _ H). exact R5.
  Qed.
  Lemma runs_good_ext d d' rs ls : (forall b, In b (map fst (concat rs)) -> d' b = d b) -> Forall2 (run_good d) rs ls -> Forall2 (run_good d') rs ls.
  Proof.
    intros H F. induction F as [|r l rs ls G F IH]; constructor.
    - eapply run_good_ext; [|exact G]. intros b Hb. apply H. cbn. rewrite map_app. apply in_or_app. auto.
    - apply IH. intros b Hb. apply H. cbn. rewrite map_app. apply in_or_app. auto.
  Qed.

  Lemma sorted_pad l k : sorted cmp l -> Forall below l -> sorted cmp (l ++ repeat maxv k).
  Proof.
    intros S F. apply sorted_app; [exact S| |].
    - induction k; [constructor|]. cbn. constructor; [assumption|]. apply Forall_forall. intros x Hx. apply repeat_spec in Hx. subst. apply le_refl, SW.
    - intros x y Hx Hy. apply repeat_spec in Hy. subst. rewrite Forall_forall in F. destruct (F x Hx) as [H| ->]; [apply (lt_le A cmp SW), H|apply le_refl, SW].
  Qed.

  Lemma inv_new_disk s L O s' : inv s L O -> s_live s' = s_live s -> inv s' L O.
  Proof. intros [I1 I2 I3 I4] E. constructor; rewrite ?E; assumption. Qed.
  Lemma inv_fresh s L O b : inv s L O -> In b L \/ In b O -> In b (s_live s).
  Proof. intros [_ I2 _ _] H. apply I2. destruct H as [H|H]; [auto|right; split; [exact H|reflexivity]]. Qed.

  (** writing a padded run to given blocks *)
  Lemma write_padded bids l s n : l <> [] -> sorted cmp l -> Forall below l -> n = div_ceil (length l) B -> length bids = n -> NoDup bids ->
    exists rn s', write_run A bids (chunks B (l ++ repeat maxv (n * B - length l))) s = Some (rn, s') /\ map fst rn = bids /\
      s_live s' = s_live s /\ run_good (s_disk s') rn l /\ (forall b, ~ In b bids -> s_disk s' b = s_disk s b).
  Proof.
    intros N S F En Ln ND. pose proof (div_ceil_bounds (length l) B HB) as Hd. rewrite <- En in Hd.
    set (l' := l ++ repeat maxv (n * B - length l)).
    assert (length l' = n * B) as Ll by (unfold l'; rewrite app_length, repeat_length; lia).
    pose proof (chunks_full B l' n HB Ll) as Cf.
    assert (length (chunks B l') = n) as Lc by (rewrite <- (map_length (@length A)), Cf; apply repeat_length).
    destruct (write_run_ok A B HB bids (chunks B l') s) as (rn & s' & E & E1 & E2 & E3 & E4 & E5 & E6); [lia|exact ND| |].
    { apply Forall_forall. intros c Hc. apply (in_map (@length A)) in Hc. rewrite Cf in Hc. apply repeat_spec in Hc. exact Hc. }
    exists rn, s'. split; [exact E|]. split; [exact E1|]. split; [exact E2|]. split; [|exact E4].
    assert (content (s_disk s') (map fst rn) = l') as Ec by (unfold content; rewrite E1, E5; apply chunks_concat, HB).
    split; [|split; [exact N|split; [exact F|split; [exact S|eexists; exact Ec]]]].
    split; [|split; [exact E6|rewrite Ec; apply sorted_pad; assumption]].
    intros ->. cbn in E1. subst bids. cbn in Ln. pose proof (div_ceil_pos (length l) B HB). destruct l; [contradiction|cbn in *; lia].
  Qed.

  Lemma store_run_ok l s L O : l <> [] -> sorted cmp l -> Forall below l -> inv s L O ->
    exists rn s', store_run A maxv B fresh l s = Some (rn, s') /\ inv s' L (map fst rn ++ O) /\ run_good (s_disk s') rn l /\
      (forall b, In b L \/ In b O -> s_disk s' b = s_disk s b).
  Proof.
    intros N S F I. unfold store_run. destruct (new_blocks fresh (div_ceil (length l) B) s) as [bids s1] eqn:En.
    destruct (new_blocks_ok A managed fresh AL _ _ _ _ _ _ I En) as (N1 & N2 & N3 & N4).
    assert (NoDup bids) as ND by (destruct N2 as [_ _ N2 _]; eapply NoDup_app_remove_r, N2).
    destruct (write_padded bids l s1 _ N S F eq_refl N1 ND) as (rn & s' & E & E1 & E2 & E3 & E4).
    exists rn, s'. split; [exact E|]. split; [rewrite E1; eapply inv_new_disk; eassumption|]. split; [exact E3|].
    intros b Hb. rewrite E4, N3; [reflexivity|]. intro Hi. apply N4 in Hi. destruct Hi as [_ Hi]. apply Hi. eapply inv_fresh; eassumption.
  Qed.

  (** * the merger *)
  Fixpoint fills (fuel r : nat) : list nat :=
    match fuel with 0 => [] | S f => if Nat.eqb r 0 then [] else Nat.min B r :: fills f (r - Nat.min B r) end.
  Lemma fills_sum f : forall r, r <= f -> list_sum (fills f r) = r.
  Proof.
    induction f as [|f IH]; intros r H; [cbn; lia|]. cbn [fills]. destruct (Nat.eqb_spec r 0); [subst; reflexivity|].
    cbn [list_sum fold_right]. change (fold_right Nat.add 0 (fills f (r - Nat.min B r))) with (list_sum (fills f (r - Nat.min B r))).
    rewrite IH by lia. lia.
  Qed.
  Lemma fills_more f : forall g r, r <= f -> r <= g -> fills f r = fills g r.
  Proof.
    induction f as [|f IH]; intros [|g] r H1 H2; try reflexivity.
    - cbn. destruct (Nat.eqb_spec r 0); [reflexivity|lia].
    - cbn. destruct (Nat.eqb_spec r 0); [reflexivity|lia].
    - cbn [fills]. destruct (Nat.eqb_spec r 0); [reflexivity|]. f_equal. apply IH; lia.
  Qed.
  Definition pending (t : ltree A) (l : list A) : Prop :=
    exists outs t', multi_merges A cmp (fills (length l) (length l)) t = Some (outs, t') /\
      map (@length A) outs = fills (length l) (length l) /\ concat outs = l.
  Definition merger_ok (m : merger A) (out : list A) : Prop :=
    m_rem m = length out /\
    (out <> [] -> m_buf m <> [] /\ exists tail, out = m_buf m ++ tail /\ (tail = [] \/ exists t, m_tree m = Some t /\ pending t tail)).

  Lemma fill_ok mem buf t l : l <> [] -> pending t l ->
    exists m, fill_buffer_block A cmp B (mkm mem (length l) buf (Some t)) = Some m /\ merger_ok m l /\ m_mem m = mem.
  Proof.
    intros N (outs & t' & E & E1 & E2). unfold fill_buffer_block. cbn [m_tree m_rem m_mem obind].
    assert (0 < length l) as Hz by (destruct l; [contradiction|cbn; lia]).
    assert (fills (length l) (length l) = Nat.min B (length l) :: fills (length l - 1) (length l - Nat.min B (length l))) as Ef.
    { destruct (length l) as [|n]; [lia|]. cbn [fills Nat.eqb]. rewrite Nat.sub_succ, Nat.sub_0_r. reflexivity. }
    rewrite Ef in E, E1. set (n := length l - 1) in *.
    cbn [multi_merges] in E. destruct (multi_merge A cmp (Nat.min B (length l)) t) as [[o t1]|]; [|discriminate].
    destruct (multi_merges A cmp (fills n (length l - Nat.min B (length l))) t1) as [[os t2]|] eqn:E3; [|discriminate]. injection E as <- <-.
    cbn [map] in E1. injection E1 as L1 E1. cbn [concat] in E2. cbn [obind].
    eexists. split; [reflexivity|]. split; [|reflexivity]. split; [reflexivity|]. intros _. cbn [m_buf m_tree].
    assert (length (concat os) = length l - Nat.min B (length l)) as Lt.
    { apply (f_equal (@length A)) in E2. rewrite app_length in E2. lia. }
    split; [destruct o; [cbn in L1; lia|discriminate]|]. exists (concat os). split; [symmetry; exact E2|].
    destruct (Nat.leb_spec (length l) B) as [Hb|Hb].
    - left. destruct (concat os); [reflexivity|cbn in Lt; lia].
    - right. exists t1. split; [reflexivity|]. exists os, t2. rewrite Lt in *.
      rewrite (fills_more _ n) by lia. auto.
  Qed.

  Lemma m_next_ok m x out : merger_ok m (x :: out) ->
    m_get m = Some x /\ exists m', m_next A cmp B m = Some m' /\ merger_ok m' out /\ m_mem m' = m_mem m.
  Proof.
    intros [M1 M2]. destruct M2 as (M2 & tail & M3 & M4); [discriminate|]. destruct m as [mem rem buf tree]. cbn [m_rem m_buf m_tree m_mem] in *. subst rem.
    destruct buf as [|y b]; [contradiction|]. cbn in M3. injection M3 as <- M3. split; [reflexivity|].
    unfold m_next. cbn [m_rem length Nat.eqb m_buf m_mem m_tree Nat.sub]. rewrite Nat.sub_0_r.
    destruct b as [|y b].
    - cbn in M3. subst tail. destruct out as [|y out]; [cbn; eexists; split; [reflexivity|]; split; [split; [reflexivity|contradiction]|reflexivity]|].
      cbn [length Nat.eqb m_rem]. destruct M4 as [M4|(t & -> & M4)]; [discriminate|]. apply (fill_ok mem [] t (y :: out)); [discriminate|exact M4].
    - eexists. split; [reflexivity|]. split; [|reflexivity]. split; [reflexivity|]. intros _. cbn [m_buf m_tree]. split; [discriminate|]. exists tail. auto.
  Qed.
  Lemma m_read_ok out : forall m, merger_ok m out -> exists m', m_read A cmp B (length out) m = Some (out, m').
  Proof.
    induction out as [|x out IH]; intros m M; [exists m; reflexivity|]. destruct (m_next_ok m x out M) as (G & m' & E & M' & _).
    destruct (IH m' M') as (m2 & E2). exists m2. cbn [length m_read]. rewrite G. cbn [obind]. rewrite E. cbn [obind]. rewrite E2. reflexivity.
  Qed.

  Lemma run_full' d rn b : run_ok d rn -> In b (map fst rn) -> length (d b) = B.
  Proof. intros (_ & R & _) H. apply in_map_iff in H. destruct H as (e & <- & He). rewrite Forall_forall in R. apply (R e He). Qed.

  Lemma elements_pad d rs ls : Forall2 (run_good d) rs ls ->
    exists k, Permutation (content d (map fst (concat rs))) (concat ls ++ repeat maxv k).
  Proof.
    induction 1 as [|r l rs ls (_ & _ & _ & _ & k & G) F (k' & IH)]; [exists 0; constructor|].
    exists (k + k'). cbn [concat]. rewrite map_app, content_app, G, repeat_app.
    rewrite <- !app_assoc. apply Permutation_app_head. eapply Permutation_trans; [apply Permutation_app_head, IH|].
    rewrite !app_assoc. apply Permutation_app_tail, Permutation_app_comm.
  Qed.

  Lemma one_pass_ok mem rs ls s : rs <> [] -> Forall2 (run_good (s_disk s)) rs ls ->
    exists m out, one_pass A cmp B mem (length (concat ls)) rs s = Some m /\ merger_ok m out /\ m_mem m = mem /\
      Permutation (concat ls) out /\ sorted cmp out.
  Proof.
    intros N F. unfold one_pass. set (d := s_disk s) in *.
    set (g := fun e : nat * A => (snd e, d (fst e))). set (runs := map (map g) rs).
    assert (concat runs = map g (concat rs)) as Ec by (unfold runs; symmetry; apply concat_map).
    assert (elements runs = content d (map fst (concat rs))) as Ee.
    { unfold elements, content. rewrite Ec, !map_map. reflexivity. }
    destruct (elements_pad d rs ls F) as (k & Pk).
    assert (Forall below (concat ls)) as Fb.
    { clear - F. induction F as [|r l rs ls (_ & _ & G & _) F IH]; [constructor|]. cbn. apply Forall_app. auto. }
    assert (concat ls <> []) as Nc.
    { apply concat_nonempty; [destruct F; [contradiction|discriminate]|]. clear - F. induction F as [|r l rs ls (_ & G & _) F IH]; constructor; assumption. }
    set (n := length (concat ls)). assert (0 < n) as Hn by (unfold n; destruct (concat ls); [contradiction|cbn; lia]).
    destruct (LoserProofs.merge_runs_ok A cmp SW runs (fills n n)) as (t & outs & t' & E1 & E2 & E3 & S1 & rest & S2 & S3).
    { unfold runs. destruct rs; [contradiction|discriminate]. }
    { unfold runs. clear - F. induction F as [|r l rs ls ((R1 & R2 & R3) & _) F IH]; [constructor|]. cbn [map]. constructor; [|exact IH].
      split; [destruct r; [contradiction|discriminate]|]. split.
      - rewrite Forall_forall in *. intros e He. apply in_map_iff in He. destruct He as (e0 & <- & He). apply (R2 e0 He).
      - unfold content in R3. rewrite map_map in *. exact R3. }
    { rewrite fills_sum by lia. rewrite Ee. apply Permutation_length in Pk. rewrite app_length in Pk. fold n in Pk. lia. }
    assert (map (fun e => d (fst e)) (ssort (trigger_cmp A cmp) (concat rs)) = map snd (ssort (trig_lt cmp) (concat runs))) as Es.
    { rewrite Ec, <- (ssort_map g (trigger_cmp A cmp) (trig_lt cmp)) by reflexivity. rewrite map_map. reflexivity. }
    rewrite Es. assert (length runs = length rs) as <- by (unfold runs; apply map_length). rewrite E1. cbn [obind].
    assert (length (concat outs) = n) as Lo by (rewrite length_concat_sum, E3, fills_sum; lia).
    destruct (fill_ok mem [] t (concat outs)) as (m & Em & Mm & Mmem).
    { destruct (concat outs); [cbn in Lo; lia|discriminate]. }
    { exists outs, t'. rewrite Lo. auto. }
    rewrite Lo in Em. exists m, (concat outs). split; [exact Em|]. split; [exact Mm|]. split; [exact Mmem|]. split; [|exact S1].
    rewrite Ee in S2. pose proof (Permutation_trans S2 Pk) as P.
    destruct (max_suffix A cmp maxv SW k (concat outs ++ ssort cmp rest) (concat ls)) as (l1 & G1 & G2 & _).
    { apply sorted_app; [exact S1|apply ssort_sorted, SW|]. intros x y Hx Hy. apply S3; [exact Hx|]. eapply Permutation_in; [apply (ssort_perm _ cmp)|exact Hy]. }
    { eapply Permutation_trans; [|exact P]. apply Permutation_app_head. apply (ssort_perm _ cmp). }
    { rewrite Forall_forall in Fb. exact Fb. }
    assert (concat outs = l1) as ->; [|apply Permutation_sym, G2].
    apply Permutation_length in G2. fold n in G2. assert (length (concat outs) = length l1) as El by lia. clear - G1 El.
    set (o := concat outs) in *. clearbody o. revert l1 G1 El. induction o as [|x o IH]; intros [|y l1] G El; try discriminate; [reflexivity|].
    cbn in G. injection G as -> G. f_equal. apply IH; [exact G|]. cbn in El. lia.
  Qed.
  Lemma max_arity_buffers mem k : 0 < k -> k <= max_arity D raw mem -> k + 2 * D <= input_buffers raw (mem - 2 * D * raw).
  Proof.
    intros Hk H. unfold max_arity in H. destruct (Nat.ltb_spec ((4 * D + 1) * raw) mem) as [Hm|Hm]; [|rewrite Nat.div_0_l in H; lia].
    unfold input_buffers. destruct (Nat.ltb_spec raw (mem - 2 * D * raw)) as [_|Hx]; [|nia].
    replace (mem - 2 * D * raw - raw) with (mem - (4 * D + 1) * raw + 2 * D * raw) by nia. rewrite Nat.div_add by lia. lia.
  Qed.

  Lemma merge_group_ok mem rs ls s L O : rs <> [] -> length rs <= max_arity D raw mem -> Forall2 (run_good (s_disk s)) rs ls ->
    inv s L (map fst (concat rs) ++ O) ->
    exists rn l s', merge_group A cmp maxv B fresh D raw mem rs (map (@length A) ls) s = Some (rn, length l, s') /\
      run_good (s_disk s') rn l /\ Permutation (concat ls) l /\ inv s' L (map fst rn ++ O) /\
      (forall b, In b L \/ In b O -> s_disk s' b = s_disk s b).
  Proof.
    intros N Hm F I.
    assert ((exists r l, rs = [r] /\ ls = [l]) \/ (1 < length rs /\ 1 < length ls)) as [(r & l & -> & ->)|[C1 C2]].
    { destruct F as [|r l rs ls G F]; [contradiction|]. destruct F; [left; eauto|right; cbn; lia]. }
    - inversion F as [|? ? ? ? G F']; subst. exists r, l, s. cbn [map merge_group]. split; [reflexivity|]. split; [exact G|]. split; [cbn; rewrite app_nil_r; apply Permutation_refl|].
      cbn [concat] in I. rewrite app_nil_r in I. auto.
    - assert (merge_group A cmp maxv B fresh D raw mem rs (map (@length A) ls) s =
        let n := list_sum (map (@length A) ls) in
        let (bids, s) := new_blocks fresh (div_ceil n B) s in
        let mem' := mem - 2 * D * raw in
        if Nat.ltb (input_buffers raw mem') (length rs + 2 * D) then None else
        do m <- (if Nat.eqb n 0 then Some (mkm mem' 0 [] None) else one_pass A cmp B mem' n rs s);
        do (l, m) <- m_read A cmp B n m;
        do (rn, s) <- write_run A bids (chunks B (l ++ repeat maxv (div_ceil n B * B - n))) s;
        do s <- delete_blocks managed (map fst (concat rs)) s;
        Some (rn, n, s)) as ->.
      { destruct rs as [|r [|r' rs]]; [cbn in C1; lia|cbn in C1; lia|]. reflexivity. }
      rewrite <- length_concat_sum. cbv zeta. set (n := length (concat ls)).
      destruct (new_blocks fresh (div_ceil n B) s) as [bids s1] eqn:En.
      destruct (new_blocks_ok A managed fresh AL _ _ _ _ _ _ I En) as (N1 & N2 & N3 & N4).
      pose proof (max_arity_buffers mem (length rs) ltac:(lia) Hm) as Hb.
      destruct (Nat.ltb_spec (input_buffers raw (mem - 2 * D * raw)) (length rs + 2 * D)); [lia|].
      rewrite <- N3 in F. destruct (one_pass_ok (mem - 2 * D * raw) rs ls s1 N F) as (m & out & E & M & _ & P & S). fold n in E.
      assert (length out = n) as Lo by (apply Permutation_length in P; unfold n; lia).
      assert (Forall below out) as Fb.
      { apply Forall_forall. intros x Hx. apply (Permutation_in _ (Permutation_sym P)) in Hx.
        clear - F Hx. induction F as [|r l rs ls (_ & _ & G & _) F IH]; [destruct Hx|]. cbn in Hx. apply in_app_or in Hx.
        destruct Hx as [Hx|Hx]; [rewrite Forall_forall in G; auto|auto]. }
      assert (out <> []) as No.
      { intros ->. apply Permutation_sym, Permutation_nil in P. revert P. apply concat_nonempty; [destruct ls; [cbn in C2; lia|discriminate]|].
        clear - F. induction F as [|r l rs ls (_ & G & _) F IH]; constructor; assumption. }
      destruct (Nat.eqb_spec n 0) as [Hz|Hz]; [destruct out; [contradiction|cbn in Lo; lia]|]. rewrite E. cbn [obind].
      destruct (m_read_ok out m M) as (m' & Er). rewrite Lo in Er. rewrite Er. cbn [obind].
      assert (NoDup bids) as ND by (destruct N2 as [_ _ N2 _]; eapply NoDup_app_remove_r, N2).
      rewrite <- Lo. destruct (write_padded bids out s1 (div_ceil (length out) B) No S Fb eq_refl) as (rn & s2 & W & W1 & W2 & W3 & W4); [rewrite Lo; exact N1|exact ND|].
      rewrite W. cbn [obind].
      assert (inv s2 L (map fst (concat rs) ++ bids ++ O)) as I2.
      { eapply inv_new_disk; [|exact W2]. eapply inv_perm; [|exact N2]. rewrite !app_assoc. apply Permutation_app_tail, Permutation_app_comm. }
      destruct (delete_blocks_ok A managed _ s2 L _ I2) as (s3 & G & I3 & D3). rewrite G. cbn [obind].
      exists rn, out, s3. split; [reflexivity|]. rewrite D3, W1. split; [exact W3|]. split; [exact P|]. split; [exact I3|].
      intros b Hx. rewrite W4, N3; [reflexivity|]. intro Hi. apply N4 in Hi. destruct Hi as [_ Hi]. apply Hi. eapply inv_fresh; [exact I|].
      destruct Hx; [auto|right; apply in_or_app; auto].
  Qed.

  Lemma merge_groups_ok mem groups : forall lss s L O, Forall (fun g => g <> [] /\ length g <= max_arity D raw mem) groups ->
    Forall2 (Forall2 (run_good (s_disk s))) groups lss ->
    inv s L (map fst (concat (concat groups)) ++ O) ->
    exists rs ls s', SorterModel.merge_groups A cmp maxv B fresh D raw mem groups (map (map (@length A)) lss) s = Some (rs, map (@length A) ls, s') /\
      Forall2 (run_good (s_disk s')) rs ls /\ Permutation (concat (concat lss)) (concat ls) /\ inv s' L (map fst (concat rs) ++ O) /\
      length rs = length groups /\ (forall b, In b L \/ In b O -> s_disk s' b = s_disk s b).
  Proof.
    induction groups as [|g groups IH]; intros lss s L O FG F I.
    - inversion F; subst. exists [], [], s. split; [reflexivity|]. split; [constructor|]. split; [constructor|]. split; [exact I|]. split; [reflexivity|auto].
    - inversion F as [|? ls0 ? lss' G F']; subst. inversion FG as [|? ? [N Hm] FG']; subst.
      cbn [concat] in I. rewrite concat_app, map_app, <- app_assoc in I.
      destruct (merge_group_ok mem g ls0 s L _ N Hm G I) as (rn & l & s1 & E & E1 & E2 & E3 & E4).
      assert (inv s1 L (map fst (concat (concat groups)) ++ (map fst rn ++ O))) as I1.
      { eapply inv_perm; [|exact E3]. rewrite !app_assoc. apply Permutation_app_tail, Permutation_app_comm. }
      destruct (IH lss' s1 L (map fst rn ++ O) FG') as (rs & ls & s2 & X & X1 & X2 & X3 & X4 & X5); [|exact I1|].
      { assert (forall b, In b (map fst (concat (concat groups))) -> s_disk s1 b = s_disk s b) as Hd.
        { intros b Hb. apply E4. right. apply in_or_app. auto. }
        clear - F' Hd. revert lss' F' Hd. induction groups as [|g groups IH]; intros lss F Hd; inversion F as [|? ? ? ? G F']; subst; constructor.
        - eapply runs_good_ext; [|exact G]. intros b Hb. apply Hd. cbn. rewrite concat_app, map_app. apply in_or_app. auto.
        - apply IH; [exact F'|]. intros b Hb. apply Hd. cbn. rewrite concat_app, map_app. apply in_or_app. auto. }
      exists (rn :: rs), (l :: ls), s2. cbn [map SorterModel.merge_groups]. rewrite E. cbn [obind]. rewrite X. cbn [obind]. split; [reflexivity|].
      split; [|split; [|split; [|split]]].
      + constructor; [|exact X1]. eapply run_good_ext; [|exact E1]. intros b Hb. apply X5. right. apply in_or_app. auto.
      + cbn [concat]. rewrite concat_app. apply Permutation_app; assumption.
      + cbn [concat]. rewrite map_app. eapply inv_perm; [|exact X3]. rewrite <- app_assoc. rewrite !app_assoc. apply Permutation_app_tail, Permutation_app_comm.
      + cbn. lia.
      + intros b Hb. rewrite X5; [apply E4; destruct Hb; [auto|right; apply in_or_app; auto]|destruct Hb; [auto|right; apply in_or_app; auto]].
  Qed.

  Lemma merge_rounds_ok mem f fuel : forall r ls s L, 2 <= f <= max_arity D raw mem -> length (r_runs r) <= fuel ->
    r_runs r <> [] -> Forall2 (run_good (s_disk s)) (r_runs r) ls -> r_sizes r = map (@length A) ls ->
    inv s L (map fst (concat (r_runs r))) ->
    exists r' ls' s', merge_rounds A cmp maxv B fresh D raw fuel mem f r s = Some (r', s') /\
      Forall2 (run_good (s_disk s')) (r_runs r') ls' /\ r_sizes r' = map (@length A) ls' /\ r_elements r' = r_elements r /\ r_small r' = r_small r /\
      r_runs r' <> [] /\ length (r_runs r') <= max_arity D raw mem /\ Permutation (concat ls) (concat ls') /\
      inv s' L (map fst (concat (r_runs r'))) /\ (forall b, In b L -> s_disk s' b = s_disk s b).
  Proof.
    induction fuel as [|fuel IH]; intros r ls s L Hf Hl N F Es I.
    - destruct (r_runs r); [contradiction|cbn in Hl; lia].
    - cbn [merge_rounds]. destruct (Nat.leb_spec (length (r_runs r)) (max_arity D raw mem)) as [Hle|Hgt].
      { exists r, ls, s. split; [reflexivity|]. split; [exact F|]. split; [exact Es|]. split; [reflexivity|]. split; [reflexivity|]. split; [exact N|]. split; [exact Hle|]. auto. }
      assert (length ls = length (r_runs r)) as Ll by (symmetry; eapply forall2_length, F).
      rewrite Es. unfold chunks. rewrite map_length, Ll, chunk_map.
      rewrite <- (app_nil_r (map fst (concat (r_runs r)))) in I.
      assert (concat (chunk (length (r_runs r)) f (r_runs r)) = r_runs r) as Ec by (apply chunk_concat; lia).
      assert (concat (chunk (length (r_runs r)) f ls) = ls) as Ec' by (apply chunk_concat; lia).
      destruct (merge_groups_ok mem (chunk (length (r_runs r)) f (r_runs r)) (chunk (length (r_runs r)) f ls) s L [])
        as (rs & ls1 & s1 & E & E1 & E2 & E3 & E4 & E5).
      { apply Forall_forall. intros c Hc. split; [eapply chunk_nonempty; [|exact Hc]; lia|]. apply chunk_le in Hc. lia. }
      { apply chunk_forall2, F. }
      { rewrite Ec. exact I. }
      rewrite Ec' in E2. rewrite E. cbn [obind].
      pose proof (chunk_length (length (r_runs r)) f (r_runs r) ltac:(lia) ltac:(lia) ltac:(lia)) as Hlt.
      rewrite app_nil_r in E3.
      assert (rs <> []) as Nr.
      { intros ->. cbn in E4. destruct (r_runs r); [contradiction|cbn in E4; lia]. }
      destruct (IH (mkr (r_elements r) rs (map (@length A) ls1) (r_small r)) ls1 s1 L Hf ltac:(cbn; lia) Nr E1 eq_refl E3)
        as (r' & ls' & s' & X & X1 & X2 & X3 & X4 & X5 & X6 & X7 & X8 & X9).
      exists r', ls', s'. split; [exact X|]. split; [exact X1|]. split; [exact X2|]. split; [exact X3|]. split; [exact X4|]. split; [exact X5|]. split; [exact X6|].
      split; [eapply Permutation_trans; eassumption|]. split; [exact X8|]. intros b Hb. rewrite X9 by exact Hb. apply E5. auto.
  Qed.

  (** * sorted runs *)
  Definition sr_ok (d : nat -> list A) (r : sruns A) (items : list A) : Prop :=
    r_elements r = length items /\
    ((r_small r = [] /\ exists ls, Forall2 (run_good d) (r_runs r) ls /\ r_sizes r = map (@length A) ls /\ Permutation items (concat ls)) \/
     (r_small r <> [] /\ r_runs r = [] /\ r_sizes r = [] /\ sorted cmp (r_small r) /\ Permutation items (r_small r))).
  Definition blocks (r : sruns A) : list nat := map fst (concat (r_runs r)).
  Lemma sr_ok_perm d r i i' : Permutation i i' -> sr_ok d r i -> sr_ok d r i'.
  Proof.
    intros P [H1 H2]. split; [apply Permutation_length in P; lia|]. destruct H2 as [(H2 & ls & H3 & H4 & H5)|(H2 & H3 & H4 & H5 & H6)].
    - left. split; [exact H2|]. exists ls. split; [exact H3|]. split; [exact H4|]. eapply Permutation_trans; [apply Permutation_sym, P|exact H5].
    - right. split; [exact H2|]. split; [exact H3|]. split; [exact H4|]. split; [exact H5|]. eapply Permutation_trans; [apply Permutation_sym, P|exact H6].
  Qed.
  Lemma sr_ok_ext d d' r i : (forall b, In b (blocks r) -> d' b = d b) -> sr_ok d r i -> sr_ok d' r i.
  Proof.
    intros H [H1 H2]. split; [exact H1|]. destruct H2 as [(H2 & ls & H3 & H4 & H5)|H2]; [left|right; exact H2].
    split; [exact H2|]. exists ls. split; [eapply runs_good_ext; eassumption|auto].
  Qed.
  Lemma sr_ok_empty d : sr_ok d sr_empty [].
  Proof. split; [reflexivity|]. left. split; [reflexivity|]. exists []. split; [constructor|]. split; [reflexivity|constructor]. Qed.

  Definition merge_factor_ok : Prop := forall n m, 2 <= m -> m < n -> 2 <= mf n m <= m.

  Lemma initialize_ok m r items s L : merge_factor_ok -> sr_ok (s_disk s) r items -> inv s L (blocks r) ->
    (initialize A cmp maxv B fresh mf D raw m r s = Bad /\ little D raw (m_mem m)) \/
    (exists m' r' s' out, initialize A cmp maxv B fresh mf D raw m r s = Val (m', r', s') /\ m_mem m' = m_mem m /\ merger_ok m' out /\
       is_sorted_of cmp items out /\ sr_ok (s_disk s') r' items /\ inv s' L (blocks r') /\ (forall b, In b L -> s_disk s' b = s_disk s b)).
  Proof.
    intros MF [H1 H2] I. unfold initialize. rewrite H1. destruct (Nat.eqb_spec (length items) 0) as [Hz|Hz].
    { right. exists (mkm (m_mem m) 0 (m_buf m) (m_tree m)), r, s, []. split; [reflexivity|]. split; [reflexivity|].
      split; [split; [reflexivity|contradiction]|]. split; [destruct items; [split; constructor|discriminate]|]. split; [split; [exact H1|exact H2]|auto]. }
    destruct H2 as [(H2 & ls & H3 & H4 & H5)|(H2 & H3 & H4 & H5 & H6)].
    2: { destruct (r_small r) as [|x l] eqn:Er; [contradiction|]. pose proof (Permutation_length H6) as Hl. rewrite Hl, Nat.eqb_refl. right.
         eexists _, r, s, (x :: l). split; [reflexivity|]. split; [reflexivity|]. split.
         - split; [reflexivity|]. intros _. cbn [m_buf m_tree]. split; [discriminate|]. exists []. rewrite app_nil_r. auto.
         - split; [split; assumption|]. split; [split; [exact H1|right; rewrite Er; auto]|auto]. }
    rewrite H2. pose proof (Permutation_length H5) as Hl.
    assert (r_runs r <> []) as Nr.
    { intro E. rewrite E in H3. inversion H3; subst. cbn in Hl. lia. }
    (* one pass *)
    assert (forall r1 ls1 s1, Forall2 (run_good (s_disk s1)) (r_runs r1) ls1 -> r_sizes r1 = map (@length A) ls1 -> r_elements r1 = length items -> r_small r1 = [] ->
      r_runs r1 <> [] -> length (r_runs r1) + 2 * D <= input_buffers raw (m_mem m) -> Permutation items (concat ls1) -> inv s1 L (blocks r1) ->
      (forall b, In b L -> s_disk s1 b = s_disk s b) ->
      exists m' r' s' out, (if Nat.ltb (input_buffers raw (m_mem m)) (length (r_runs r1) + 2 * D) then Undef
        else let! m := lift (one_pass A cmp B (m_mem m) (length items) (r_runs r1) s1) in Val (m, r1, s1)) = Val (m', r', s') /\ m_mem m' = m_mem m /\ merger_ok m' out /\
       is_sorted_of cmp items out /\ sr_ok (s_disk s') r' items /\ inv s' L (blocks r') /\ (forall b, In b L -> s_disk s' b = s_disk s b)) as K.
    { intros r1 ls1 s1 F Es Ee Esm N Hb P I1 Hd. destruct (Nat.ltb_spec (input_buffers raw (m_mem m)) (length (r_runs r1) + 2 * D)); [lia|].
      destruct (one_pass_ok (m_mem m) (r_runs r1) ls1 s1 N F) as (m' & out & E & M & Mm & P' & S).
      rewrite <- (Permutation_length P) in E. rewrite E. cbn [lift rbind]. exists m', r1, s1, out.
      split; [reflexivity|]. split; [exact Mm|]. split; [exact M|]. split; [split; [eapply Permutation_trans; eassumption|exact S]|].
      split; [split; [exact Ee|left; split; [exact Esm|]; exists ls1; auto]|]. auto. }
    destruct (Nat.ltb_spec (input_buffers raw (m_mem m)) (length (r_runs r) + 2 * D)) as [Hb|Hb].
    2: { right. cbn [rbind]. apply (K r ls s); auto. }
    destruct (Nat.ltb_spec (m_mem m / raw) (2 * (2 * D) + 1 + 2)) as [Hq|Hq].
    { left. split; [reflexivity|]. unfold little. 
      pose proof (Nat.div_mod (m_mem m) raw ltac:(lia)). pose proof (Nat.mod_upper_bound (m_mem m) raw ltac:(lia)). nia. }
    assert ((4 * D + 3) * raw <= m_mem m) as Hmem.
    { pose proof (Nat.div_mod (m_mem m) raw ltac:(lia)). nia. }
    assert (input_buffers raw (m_mem m) = max_arity D raw (m_mem m) + 4 * D) as Hi.
    { unfold input_buffers, max_arity. destruct (Nat.ltb_spec raw (m_mem m)); [|nia]. destruct (Nat.ltb_spec ((4 * D + 1) * raw) (m_mem m)); [|nia].
      replace (m_mem m - raw) with (m_mem m - (4 * D + 1) * raw + 4 * D * raw) by nia. rewrite Nat.div_add by lia. reflexivity. }
    assert (2 <= max_arity D raw (m_mem m)) as Ha.
    { unfold max_arity. destruct (Nat.ltb_spec ((4 * D + 1) * raw) (m_mem m)); [|nia]. apply Nat.div_le_lower_bound; [lia|]. nia. }
    unfold merge_recursively.
    assert (2 <= mf (length (r_runs r)) (max_arity D raw (m_mem m)) <= max_arity D raw (m_mem m)) as Hf.
    { apply MF; lia. }
    destruct (Nat.leb_spec (mf (length (r_runs r)) (max_arity D raw (m_mem m))) 1); [lia|].
    destruct (Nat.ltb_spec (max_arity D raw (m_mem m)) (mf (length (r_runs r)) (max_arity D raw (m_mem m)))); [lia|]. cbn [orb].
    destruct (merge_rounds_ok (m_mem m) _ (length (r_runs r)) r ls s L Hf ltac:(lia) Nr H3 H4 I)
      as (r' & ls' & s' & X & X1 & X2 & X3 & X4 & X5 & X6 & X7 & X8 & X9).
    rewrite X. cbn [lift rbind]. right. apply (K r' ls' s'); [exact X1|exact X2|lia|congruence|exact X5|lia|eapply Permutation_trans; eassumption|exact X8|exact X9].
  Qed.

  (** * creating runs *)
  Lemma srt_perm l : Permutation l (srt l).
  Proof. destruct (SRT l) as [H _]. first [exact H|apply Permutation_sym, H]. Qed.
  Lemma srt_sorted l : sorted cmp (srt l).
  Proof. apply SRT. Qed.
  Lemma srt_length l : length (srt l) = length l.
  Proof. symmetry. apply Permutation_length, srt_perm. Qed.
  Lemma srt_below l : Forall below l -> Forall below (srt l).
  Proof. rewrite !Forall_forall. intros H x Hx. apply H. eapply Permutation_in; [apply Permutation_sym, srt_perm|exact Hx]. Qed.
  Lemma srt_nonempty l : l <> [] -> srt l <> [].
  Proof. intros H E. pose proof (srt_length l) as Hl. rewrite E in Hl. destruct l; [contradiction|discriminate]. Qed.
  Lemma srt_nil : srt [] = [].
  Proof. pose proof (srt_length []) as H. destruct (srt []); [reflexivity|discriminate]. Qed.

  Lemma add_store d r i l rn : sr_ok d r i -> r_small r = [] -> run_good d rn (srt l) -> sr_ok d (add_run r rn (length l)) (i ++ l).
  Proof.
    intros [H1 H2] Hs G. split; [cbn; rewrite app_length; lia|]. left. split; [exact Hs|].
    destruct H2 as [(_ & ls & H3 & H4 & H5)|(H2 & _)]; [|contradiction]. exists (ls ++ [srt l]). cbn [add_run r_runs r_sizes].
    split; [apply Forall2_app; [exact H3|constructor; [exact G|constructor]]|].
    split; [rewrite map_app, H4; cbn; rewrite srt_length; reflexivity|].
    rewrite concat_app. cbn. rewrite app_nil_r. apply Permutation_app; [exact H5|apply srt_perm].
  Qed.
  Lemma add_blocks r rn n : Permutation (map fst rn ++ blocks r) (blocks (add_run r rn n)).
  Proof. unfold blocks. cbn [add_run r_runs]. rewrite concat_app, map_app. cbn. rewrite app_nil_r. apply Permutation_app_comm. Qed.

  Lemma store_step r i l s L : sr_ok (s_disk s) r i -> r_small r = [] -> inv s L (blocks r) -> l <> [] -> Forall below l ->
    exists rn s', store_run A maxv B fresh (srt l) s = Some (rn, s') /\ sr_ok (s_disk s') (add_run r rn (length l)) (i ++ l) /\
      inv s' L (blocks (add_run r rn (length l))) /\ (forall b, In b L -> s_disk s' b = s_disk s b).
  Proof.
    intros H Hs I N F. destruct (store_run_ok (srt l) s L (blocks r) (srt_nonempty l N) (srt_sorted l) (srt_below l F) I) as (rn & s' & E & E1 & E2 & E3).
    exists rn, s'. split; [exact E|]. split.
    - apply add_store; [|exact Hs|exact E2]. eapply sr_ok_ext; [|exact H]. intros b Hb. apply E3. auto.
    - split; [eapply inv_perm; [apply add_blocks|exact E1]|auto].
  Qed.

  Lemma more_runs_ok m2 fuel : forall l r i s L, 0 < m2 -> length l <= fuel -> Forall below l -> sr_ok (s_disk s) r i -> r_small r = [] -> inv s L (blocks r) ->
    exists r' s', more_runs A maxv srt B fresh fuel m2 l r s = Some (r', s') /\ sr_ok (s_disk s') r' (i ++ l) /\ inv s' L (blocks r') /\
      (forall b, In b L -> s_disk s' b = s_disk s b).
  Proof.
    induction fuel as [|f IH]; intros l r i s L Hm Hl F H Hs I.
    - destruct l; [|cbn in Hl; lia]. exists r, s. rewrite app_nil_r. auto.
    - destruct l as [|x l]; [exists r, s; rewrite app_nil_r; auto|]. cbn [more_runs]. set (l0 := x :: l) in *.
      assert (0 < m2 * B) as Hp by nia.
      assert (firstn (m2 * B) l0 <> []) as N by (destruct (m2 * B); [lia|discriminate]).
      destruct (store_step r i (firstn (m2 * B) l0) s L H Hs I N) as (rn & s1 & E & E1 & E2 & E3).
      { rewrite <- (firstn_skipn (m2 * B) l0) in F. apply Forall_app in F. apply F. }
      rewrite E. cbn [obind].
      destruct (IH (skipn (m2 * B) l0) (add_run r rn (length (firstn (m2 * B) l0))) (i ++ firstn (m2 * B) l0) s1 L Hm) as (r' & s' & X & X1 & X2 & X3); auto.
      { change (length l0 <= S f) in Hl. rewrite skipn_length. lia. }
      { rewrite <- (firstn_skipn (m2 * B) l0) in F. apply Forall_app in F. apply F. }
      exists r', s'. split; [exact X|]. rewrite <- app_assoc, firstn_skipn in X1. split; [exact X1|]. split; [exact X2|]. intros b Hb. rewrite X3 by exact Hb. auto.
  Qed.

  Lemma compute_result_ok m2 l s L : 0 < m2 -> Forall below l -> inv s L [] ->
    exists r s', compute_result A maxv srt B fresh m2 l s = Some (r, s') /\ sr_ok (s_disk s') r l /\ inv s' L (blocks r) /\
      (forall b, In b L -> s_disk s' b = s_disk s b).
  Proof.
    intros Hm F I. unfold compute_result. set (d1 := firstn (m2 * B) l). set (l1 := skipn (m2 * B) l).
    assert (l = d1 ++ l1) as El by (symmetry; apply firstn_skipn).
    assert (Forall below d1 /\ Forall below l1) as [F1 F2] by (rewrite El in F; apply Forall_app in F; exact F).
    assert (0 < m2 * B) as Hp by nia.
    destruct ((length d1 <=? B) && match l1 with [] => true | _ => false end) eqn:Es.
    - apply andb_true_iff in Es. destruct Es as [_ Es]. destruct l1; [|discriminate]. rewrite app_nil_r in El. rewrite El.
      exists (mkr (length d1) [] [] (srt d1)), s. split; [reflexivity|]. split; [|auto]. split; [reflexivity|].
      destruct d1 as [|x d1'].
      + left. cbn [r_small r_runs r_sizes]. rewrite srt_nil. split; [reflexivity|]. exists []. split; [constructor|]. split; [reflexivity|constructor].
      + right. cbn [r_small r_runs r_sizes]. split; [apply srt_nonempty; discriminate|]. split; [reflexivity|]. split; [reflexivity|]. split; [apply srt_sorted|apply srt_perm].
    - assert (d1 <> []) as N1.
      { intro Ed. destruct l as [|x l]; [|unfold d1 in Ed; destruct (m2 * B); [lia|discriminate]].
        assert (l1 = []) as El1 by (unfold l1; apply skipn_nil). rewrite El1, Ed in Es. cbn in Es. discriminate. }
      destruct (store_step sr_empty [] d1 s L (sr_ok_empty _) eq_refl I N1 F1) as (run1 & s1 & E & E1 & E2 & E3). rewrite E. cbn [obind].
      destruct l1 as [|x l1'] eqn:E1l.
      { exists (mkr (length d1) [run1] [length d1] []), s1. split; [reflexivity|]. rewrite El, app_nil_r. auto. }
      rewrite <- E1l in *. assert (l1 <> []) as Nl1 by (rewrite E1l; discriminate).
      set (d2 := firstn (m2 * B) l1). set (l2 := skipn (m2 * B) l1).
      assert (l1 = d2 ++ l2) as El2 by (symmetry; apply firstn_skipn).
      assert (Forall below d2 /\ Forall below l2) as [F3 F4] by (rewrite El2 in F2; apply Forall_app in F2; exact F2).
      assert (d2 <> []) as N2 by (unfold d2; rewrite E1l; destruct (m2 * B); [lia|discriminate]).
      assert (length d1 = m2 * B) as Ld1.
      { unfold d1. apply firstn_length_le. destruct (Nat.le_gt_cases (m2 * B) (length l)); [lia|].
        exfalso. apply Nl1. unfold l1. apply skipn_all2. lia. }
      destruct l2 as [|y l2'] eqn:E2l.
      + destruct (delete_blocks_ok A managed (map fst run1) s1 L []) as (s2 & G & I2 & D2).
        { rewrite app_nil_r. unfold blocks in E2. cbn in E2. rewrite app_nil_r in E2. exact E2. }
        rewrite G. cbn [obind].
        destruct (Nat.leb_spec (div_ceil (length d2 + m2 * B) B) m2) as [Hc|Hc].
        { exfalso. pose proof (div_ceil_bounds (length d2 + m2 * B) B HB). destruct d2; [contradiction|cbn [length] in *; nia]. }
        assert (Forall below (srt d1 ++ d2)) as Fb by (apply Forall_app; split; [apply srt_below, F1|exact F3]).
        assert (srt d1 ++ d2 <> []) as Nb by (intro X; apply app_eq_nil in X; apply N2, X).
        destruct (store_step sr_empty [] (srt d1 ++ d2) s2 L (sr_ok_empty _) eq_refl I2 Nb Fb) as (rn & s3 & X & X1 & X2 & X3).
        rewrite X. cbn [obind]. exists (mkr (length d2 + m2 * B) [rn] [length d2 + m2 * B] []), s3. split; [reflexivity|].
        assert (length (srt d1 ++ d2) = length d2 + m2 * B) as Lb by (rewrite app_length, srt_length; lia).
        unfold add_run in X1, X2. rewrite Lb in X1, X2. split.
        * eapply sr_ok_perm; [|exact X1]. cbn [app]. rewrite El, El2, app_nil_r. apply Permutation_app_tail, Permutation_sym, srt_perm.
        * split; [exact X2|]. intros b Hb. rewrite X3, D2 by exact Hb. auto.
      + rewrite <- E2l in *.
        destruct (store_step (add_run sr_empty run1 (length d1)) d1 d2 s1 L E1 eq_refl E2 N2 F3) as (run2 & s2 & X & X1 & X2 & X3).
        rewrite X. cbn [obind].
        destruct (more_runs_ok m2 (length l2) l2 _ _ s2 L Hm (le_n _) F4 X1 eq_refl X2) as (r' & s' & Y & Y1 & Y2 & Y3).
        cbn in Y. exists r', s'. split; [exact Y|]. split; [rewrite El, El2, app_assoc; exact Y1|]. split; [exact Y2|].
        intros b Hb. rewrite Y3, X3 by exact Hb. auto.
  Qed.

  (** * runs_creator<use_push> *)
  Variable m2 : nat.
  Hypothesis Hm2 : 0 < m2.
  Definition filling (d : nat -> list A) (c : creator A) (items : list A) : Prop :=
    c_computed c = false /\ c_alloc c = true /\ length (c_cur c) <= m2 * B /\ Forall below (c_cur c) /\ r_small (c_res c) = [] /\
    exists i, sr_ok d (c_res c) i /\ Permutation items (i ++ c_cur c) /\ (c_cur c = [] -> i = []).
  Definition filled (d : nat -> list A) (c : creator A) (items : list A) : Prop := c_computed c = true /\ sr_ok d (c_res c) items.

  Lemma sr_no_runs d r i : sr_ok d r i -> i = [] -> r_runs r = [] /\ r_sizes r = [].
  Proof.
    intros [H1 H2] ->. destruct H2 as [(H2 & ls & H3 & H4 & H5)|(H2 & H3 & H4 & _)]; [|auto].
    apply Permutation_nil in H5. destruct H3 as [|x y r' ls G H3]; [auto|]. destruct G as (_ & G & _). cbn in H5. apply app_eq_nil in H5. destruct H5; contradiction.
  Qed.
  Lemma cr_size_ok d c items : filling d c items -> cr_size c = length items.
  Proof. intros (_ & _ & _ & _ & _ & i & [H1 _] & H2 & _). unfold cr_size. rewrite H1, (Permutation_length H2), app_length. reflexivity. Qed.

  Lemma cr_push_ok x c items s L : filling (s_disk s) c items -> inv s L (blocks (c_res c)) -> below x ->
    exists c' s', cr_push A maxv srt B fresh m2 x c s = Some (c', s') /\ filling (s_disk s') c' (items ++ [x]) /\ inv s' L (blocks (c_res c')) /\
      (forall b, In b L -> s_disk s' b = s_disk s b).
  Proof.
    intros (F1 & F2 & F3 & F4 & F5 & i & F6 & F7 & F8) I Hx. unfold cr_push. rewrite F1, F2.
    assert (0 < m2 * B) as Hp by nia.
    destruct (Nat.ltb_spec (length (c_cur c)) (m2 * B)) as [Hl|Hl].
    - eexists _, s. split; [reflexivity|]. split; [|auto]. split; [reflexivity|]. split; [reflexivity|]. cbn [c_cur c_res].
      split; [rewrite app_length; cbn; lia|]. split; [apply Forall_app; auto|]. split; [exact F5|]. exists i. split; [exact F6|].
      split; [rewrite app_assoc; apply Permutation_app_tail, F7|]. intro X. destruct (c_cur c); discriminate.
    - assert (c_cur c <> []) as N by (intro X; rewrite X in Hl; cbn in Hl; lia).
      destruct (store_step (c_res c) i (c_cur c) s L F6 F5 I N F4) as (rn & s' & E & E1 & E2 & E3). rewrite E. cbn [obind].
      destruct (Nat.ltb_spec 0 (m2 * B)); [|lia]. assert (length (c_cur c) = m2 * B) as El by lia. rewrite El in E1, E2.
      eexists _, s'. split; [reflexivity|]. split; [|auto]. split; [reflexivity|]. split; [reflexivity|]. cbn [c_cur c_res].
      split; [cbn; lia|]. split; [auto|]. split; [exact F5|]. exists (i ++ c_cur c). split; [exact E1|].
      split; [apply Permutation_app_tail, F7|discriminate].
  Qed.

  Lemma push_result_ok c items s L : filling (s_disk s) c items -> inv s L (blocks (c_res c)) ->
    exists c' s', cr_result A maxv srt B fresh c s = Some (c', s') /\ filled (s_disk s') c' items /\ inv s' L (blocks (c_res c')) /\
      (forall b, In b L -> s_disk s' b = s_disk s b).
  Proof.
    intros (F1 & F2 & F3 & F4 & F5 & i & F6 & F7 & F8) I. unfold cr_result. rewrite F1, F2. unfold push_result.
    destruct (c_cur c) as [|x l] eqn:Ec.
    { cbn [obind]. specialize (F8 eq_refl). subst i. rewrite app_nil_r in F7. eexists _, s. split; [reflexivity|]. split; [|auto]. split; [reflexivity|].
      eapply sr_ok_perm; [apply Permutation_sym, F7|exact F6]. }
    rewrite <- Ec in *. assert (c_cur c <> []) as N by (rewrite Ec; discriminate).
    destruct (Nat.leb (length (srt (c_cur c))) B && Nat.eqb (r_elements (c_res c)) 0) eqn:Et.
    - apply andb_true_iff in Et. destruct Et as [_ Et]. apply Nat.eqb_eq in Et. destruct F6 as [F61 F62].
      assert (i = []) as -> by (rewrite Et in F61; destruct i; [reflexivity|discriminate]).
      destruct (sr_no_runs _ _ _ (conj F61 F62) eq_refl) as [R1 R2]. cbn [obind].
      eexists _, s. split; [reflexivity|]. split; [|auto]. split; [reflexivity|]. cbn [c_res]. cbn [app] in F7.
      split; [cbn; rewrite srt_length; symmetry; apply Permutation_length, F7|]. right. cbn [r_small r_runs r_sizes].
      split; [apply srt_nonempty, N|]. split; [exact R1|]. split; [exact R2|]. split; [apply srt_sorted|].
      eapply Permutation_trans; [exact F7|apply srt_perm].
    - destruct (store_step (c_res c) i (c_cur c) s L F6 F5 I N F4) as (rn & s' & E & E1 & E2 & E3). rewrite E. cbn [obind].
      rewrite srt_length. eexists _, s'. split; [reflexivity|]. split; [|auto]. split; [reflexivity|]. cbn [c_res].
      eapply sr_ok_perm; [apply Permutation_sym, F7|exact E1].
  Qed.

  Definition in_creator (b : bag A) (d : nat -> list A) (c : creator A) : Prop :=
    match b_phase b with Filling => filling d c (b_items b) | _ => filled d c (b_items b) end.

  Lemma cr_result_ok b c s L : in_creator b (s_disk s) c -> inv s L (blocks (c_res c)) ->
    exists c' s', cr_result A maxv srt B fresh c s = Some (c', s') /\ filled (s_disk s') c' (b_items b) /\ inv s' L (blocks (c_res c')) /\
      (forall b, In b L -> s_disk s' b = s_disk s b).
  Proof.
    intros F I. unfold in_creator in F. destruct (b_phase b).
    1: apply push_result_ok; assumption.
    all: unfold cr_result; destruct F as [F1 F2]; rewrite F1; exists c, s; split; [reflexivity|]; split; [split; assumption|auto].
  Qed.
  Lemma cr_deallocate_ok b c s L : in_creator b (s_disk s) c -> inv s L (blocks (c_res c)) ->
    exists c' s', cr_deallocate A maxv srt B fresh c s = Some (c', s') /\ filled (s_disk s') c' (b_items b) /\ inv s' L (blocks (c_res c')) /\
      (forall b, In b L -> s_disk s' b = s_disk s b).
  Proof.
    intros F I. unfold cr_deallocate. destruct (cr_result_ok b c s L F I) as (c' & s' & E & [E1 E2] & E3). rewrite E. cbn [obind].
    eexists _, s'. split; [reflexivity|]. cbn [c_res]. split; [split; assumption|exact E3].
  Qed.
  Lemma sr_clear_ok r s L : inv s L (blocks r) ->
    exists s', sr_clear r s = Some (sr_empty, s') /\ inv s' L [] /\ (forall b, In b L -> s_disk s' b = s_disk s b).
  Proof.
    intros I. unfold sr_clear, deallocate_blocks. destruct (delete_blocks_ok A managed (blocks r) s L []) as (s' & G & I2 & D2).
    { rewrite app_nil_r. exact I. }
    unfold blocks in G. rewrite G. cbn [obind]. exists s'. split; [reflexivity|]. split; [exact I2|]. intros b _. rewrite D2. reflexivity.
  Qed.

  Lemma cr_deallocate_cur c s c' s' : cr_deallocate A maxv srt B fresh c s = Some (c', s') -> length (c_cur c') = length (c_cur c).
  Proof.
    unfold cr_deallocate, cr_result, push_result. intros E. destruct (c_computed c); [injection E as <- _; reflexivity|].
    destruct (c_alloc c); [|discriminate]. destruct (c_cur c) as [|x l] eqn:Ec; [injection E as <- _; reflexivity|].
    destruct (_ && _); [injection E as <- _; cbn [c_cur]; apply srt_length|].
    destruct (store_run A maxv B fresh (srt (x :: l)) s) as [[rn s1]|]; [|discriminate]. injection E as <- _. cbn [c_cur]. apply srt_length.
  Qed.

  (** * the sorter *)
  Definition sok (t : sorter A) (s : st) (L : list nat) (b : bag A) : Prop :=
    in_creator b (s_disk s) (t_creator t) /\ inv s L (blocks (c_res (t_creator t))) /\ m_mem (t_merger t) = b_mem b /\
    match b_phase b with
    | Filling => t_out t = false
    | Filled => t_out t = false /\ length (c_cur (t_creator t)) <= length (b_items b)
    | Reading l => t_out t = true /\ merger_ok (t_merger t) l
    | Closed => t_out t = true
    end.
  Definition keeps (s s' : st) (L : list nat) : Prop := forall b, In b L -> s_disk s' b = s_disk s b.

  Lemma start_ok b c m s L : merge_factor_ok -> m_mem m = b_mem b -> filled (s_disk s) c (b_items b) -> inv s L (blocks (c_res c)) ->
    (initialize A cmp maxv B fresh mf D raw m (c_res c) s = Bad /\ little D raw (b_mem b)) \/
    exists m' r' s' l, initialize A cmp maxv B fresh mf D raw m (c_res c) s = Val (m', r', s') /\ is_sorted_of cmp (b_items b) l /\ keeps s s' L /\
      sok (mkt true (mkc r' (c_computed c) (c_cur c) (c_alloc c)) m') s' L (mkb (b_items b) (Reading l) (b_mem b)).
  Proof.
    intros MF Em [F1 F2] I. destruct (initialize_ok m (c_res c) (b_items b) s L MF F2 I) as [(E & H)|(m' & r' & s' & l & E & E1 & E2 & E3 & E4 & E5 & E6)].
    - left. rewrite <- Em. auto.
    - right. exists m', r', s', l. split; [exact E|]. split; [exact E3|]. split; [exact E6|]. split; [split; assumption|]. split; [exact E5|].
      split; [cbn; congruence|]. split; [reflexivity|exact E2].
  Qed.
  Lemma do_sort_ok b c m s L out : merge_factor_ok -> m_mem m = b_mem b -> in_creator b (s_disk s) c -> inv s L (blocks (c_res c)) ->
    (do_sort A cmp maxv srt B fresh mf D raw (mkt out c m) s = Bad /\ little D raw (b_mem b)) \/
    exists t' s' l, do_sort A cmp maxv srt B fresh mf D raw (mkt out c m) s = Val (Nothing, t', s') /\ is_sorted_of cmp (b_items b) l /\ keeps s s' L /\
      sok t' s' L (mkb (b_items b) (Reading l) (b_mem b)).
  Proof.
    intros MF Em F I. unfold do_sort. cbn [t_out t_merger t_creator].
    destruct (cr_deallocate_ok b c s L F I) as (c1 & s1 & E & [E1 E1'] & E2 & E3). rewrite E. cbn [lift rbind].
    unfold cr_result. rewrite E1. cbn [lift rbind].
    assert (m_mem (if out then m_deallocate m else m) = b_mem b) as Em' by (destruct out; exact Em).
    destruct (start_ok b c1 _ s1 L MF Em' (conj E1 E1') E2) as [(G & H)|(m' & r' & s' & l & G & G1 & G2 & G3)]; rewrite G; cbn [rbind]; [left; auto|].
    right. eexists _, s', l. split; [reflexivity|]. split; [exact G1|]. split; [|exact G3]. intros x Hx. rewrite G2, E3 by exact Hx. reflexivity.
  Qed.

  Definition answer (b : bag A) (o : op A) (L : list nat) (s : st) (r : res (obs A * sorter A * st)) : Prop :=
    (exists v t s' b', r = Val (v, t, s') /\ (next cmp b o v b' \/ deviates b o v b') /\ sok t s' L b' /\ keeps s s' L) \/
    (r = Bad /\ starts_merging o /\ little D raw (b_mem b)) \/ (forall v b', ~ next cmp b o v b').

  Lemma step_ok o t s L b : merge_factor_ok -> sok t s L b -> (forall x, o = Push x -> below x) ->
    answer b o L s (step A cmp maxv srt B fresh mf D raw m2 o t s).
  Proof.
    intros MF (K1 & K2 & K3 & K4) Hb. destruct t as [out c m]. cbn [t_creator t_merger t_out] in *. destruct b as [items p mem]. cbn [b_mem b_phase b_items] in *.
    assert (p = Filling \/ p = Filled -> length (c_cur c) <= length items) as Hcur.
    { intros Hq. destruct p; [| |destruct Hq; discriminate|destruct Hq; discriminate]; [|apply K4].
      destruct K1 as (_ & _ & _ & _ & _ & i & _ & P & _). cbn in P. rewrite (Permutation_length P), app_length. lia. }
    assert (p = Filling \/ p = Filled \/ (p <> Filling /\ p <> Filled /\ out = true)) as Hp.
    { destruct p; [auto|auto| |]; right; right; (split; [discriminate|split; [discriminate|tauto]]). }
    assert (forall p', p' <> Filling -> p <> Filling -> in_creator (mkb items p mem) (s_disk s) c -> in_creator (mkb items p' mem) (s_disk s) c) as KP.
    { unfold in_creator. cbn [b_phase b_items]. intros p' H1 H2. destruct p'; [contradiction| | |]; destruct p; try contradiction; auto. }
    destruct o as [x| | | | | | | | | | |mem']; cbn [step t_out t_creator t_merger].
    - (* push *)
      destruct p; try (right; right; intros v b' X; inversion X; fail). rewrite K4.
      destruct (cr_push_ok x c items s L K1 K2 (Hb x eq_refl)) as (c' & s' & E & E1 & E2 & E3). rewrite E. cbn [lift rbind]. left.
      eexists _, _, s', _. split; [reflexivity|]. split; [left; apply n_push|]. split; [|exact E3]. split; [exact E1|]. split; [exact E2|]. split; [exact K3|reflexivity].
    - (* sort *)
      destruct (do_sort_ok (mkb items p mem) c m s L out MF K3 K1 K2) as [(E & H)|(t' & s' & l & E & E1 & E2 & E3)]; rewrite E.
      + right. left. split; [reflexivity|]. split; [left; reflexivity|exact H].
      + left. eexists _, t', s', _. split; [reflexivity|]. split; [left; apply n_sort, E1|]. split; [exact E3|exact E2].
    - (* sort_reuse *)
      destruct out; [destruct Hp as [->|[->|(N1 & N2 & _)]]; [discriminate|destruct K4; discriminate|]; right; right; intros v b' X; inversion X; subst; tauto|].
      destruct Hp as [Hp|[Hp|(_ & _ & Hp)]]; [| |discriminate].
      all: destruct (cr_result_ok (mkb items p mem) c s L K1 K2) as (c1 & s1 & E & E1 & E2 & E3); rewrite E; cbn [lift rbind];
        destruct (start_ok (mkb items p mem) c1 m s1 L MF K3 E1 E2) as [(G & H)|(m' & r' & s' & l & G & G1 & G2 & G3)]; rewrite G; cbn [rbind];
        [right; left; split; [reflexivity|split; [right; left; reflexivity|exact H]]|];
        left; eexists _, _, s', _; split; [reflexivity|]; (split; [left; apply n_sort_reuse; [tauto|exact G1]|]); (split; [exact G3|]);
        intros x Hx; rewrite G2, E3 by exact Hx; reflexivity.
    - (* rewind *)
      destruct out; [|destruct Hp as [->|[->|(_ & _ & X)]]; [| |discriminate]; right; right; intros v b' X; inversion X; subst; congruence].
      destruct Hp as [->|[->|(N1 & N2 & _)]]; [discriminate|destruct K4; discriminate|].
      destruct (do_sort_ok (mkb items p mem) c (m_deallocate m) s L false MF K3 K1 K2) as [(E & H)|(t' & s' & l & E & E1 & E2 & E3)]; rewrite E.
      + right. left. split; [reflexivity|]. split; [right; right; reflexivity|exact H].
      + left. eexists _, t', s', _. split; [reflexivity|]. split; [left; apply n_rewind; [exact N1|exact N2|exact E1]|]. split; [exact E3|exact E2].
    - (* clear *)
      unfold cr_allocate. destruct (sr_clear_ok (c_res c) s L K2) as (s' & E & E1 & E2). rewrite E. cbn [obind lift rbind]. left.
      eexists _, _, s', _. split; [reflexivity|]. split; [left; apply n_clear|]. split; [|exact E2].
      split; [|split; [exact E1|split; [destruct out; exact K3|reflexivity]]].
      split; [reflexivity|]. split; [reflexivity|]. cbn [t_creator c_cur c_res]. split; [cbn; lia|]. split; [constructor|]. split; [reflexivity|].
      exists []. split; [apply sr_ok_empty|]. split; [constructor|reflexivity].
    - (* finish *)
      destruct (cr_deallocate_ok (mkb items p mem) c s L K1 K2) as (c1 & s1 & E & E1 & E2 & E3). rewrite E. cbn [lift rbind].
      left. destruct Hp as [Hp|[Hp|(N1 & N2 & Ho)]].
      1, 2: assert (out = false) as -> by (rewrite Hp in K4; tauto);
        eexists _, _, s1, _; split; [reflexivity|]; (split; [left; apply n_finish_in; tauto|]); (split; [|exact E3]);
        (split; [exact E1|]); (split; [exact E2|]); (split; [exact K3|]); (split; [reflexivity|]); cbn; rewrite (cr_deallocate_cur _ _ _ _ E); apply Hcur; tauto.
      subst out. eexists _, _, s1, _. split; [reflexivity|]. split; [left; apply n_finish_out; assumption|]. split; [|exact E3].
      split; [exact E1|]. split; [exact E2|]. split; [exact K3|reflexivity].
    - (* finish_clear *)
      destruct out.
      + destruct Hp as [->|[->|(N1 & N2 & _)]]; [discriminate|destruct K4; discriminate|].
        destruct (cr_result_ok (mkb items p mem) c s L K1 K2) as (c1 & s1 & E & [E1 E1'] & E2 & E3). rewrite E. cbn [lift rbind].
        destruct (sr_clear_ok (c_res c1) s1 L E2) as (s' & G & G1 & G2). rewrite G. cbn [lift rbind].
        unfold cr_deallocate, cr_result. cbn [c_computed]. rewrite E1. cbn [obind lift rbind]. left.
        eexists _, _, s', _. split; [reflexivity|]. split; [left; apply n_finish_clear_out; assumption|]. split.
        * split; [split; [reflexivity|apply sr_ok_empty]|]. split; [exact G1|]. split; [exact K3|reflexivity].
        * intros x Hx. rewrite G2, E3 by exact Hx. reflexivity.
      + destruct Hp as [Hp|[Hp|(_ & _ & X)]]; [| |discriminate].
        all: cbn [rbind]; destruct (cr_deallocate_ok (mkb items p mem) c s L K1 K2) as (c1 & s1 & E & E1 & E2 & E3); rewrite E; cbn [lift rbind];
          left; eexists _, _, s1, (mkb items Filled mem); split; [reflexivity|]; (split; [right; apply d_finish_clear; tauto|]); (split; [|exact E3]);
          (split; [exact E1|]); (split; [exact E2|]); (split; [exact K3|]); (split; [reflexivity|]); cbn; rewrite (cr_deallocate_cur _ _ _ _ E); apply Hcur; tauto.
    - (* size *)
      destruct p as [| |l|].
      + rewrite K4. left. eexists _, _, s, _. split; [reflexivity|]. rewrite (cr_size_ok _ _ _ K1). split; [left; apply n_size_in; auto|]. split; [|intros ? _; reflexivity].
        split; [exact K1|]. split; [exact K2|]. split; [exact K3|reflexivity].
      + destruct K4 as [-> K4]. destruct K1 as [K1 [K1' K1'']]. left. eexists _, _, s, _. split; [reflexivity|].
        split; [right; apply d_size; unfold cr_size; rewrite K1'; cbn [b_items] in *; lia|]. split; [|intros ? _; reflexivity].
        split; [split; [exact K1|split; assumption]|]. split; [exact K2|]. split; [exact K3|]. split; [reflexivity|exact K4].
      + destruct K4 as [-> [K4 K5]]. rewrite K4. left. eexists _, _, s, _. split; [reflexivity|]. split; [left; apply n_size_out|]. split; [|intros ? _; reflexivity].
        split; [exact K1|]. split; [exact K2|]. split; [exact K3|split; [reflexivity|split; assumption]].
      + right. right. intros v b' X. inversion X; subst. match goal with H : _ \/ _ |- _ => destruct H; discriminate end.
    - (* empty *)
      destruct p as [| |l|]; try (right; right; intros v b' X; inversion X; fail).
      destruct K4 as [-> [K4 K5]]. rewrite K4. left. eexists _, _, s, _. split; [reflexivity|]. split; [left; apply n_empty|]. split; [|intros ? _; reflexivity].
      split; [exact K1|]. split; [exact K2|]. split; [exact K3|split; [reflexivity|split; assumption]].
    - (* get *)
      destruct p as [| |[|x l]|]; try (right; right; intros v b' X; inversion X; fail).
      destruct K4 as [-> K4]. destruct (m_next_ok m x l K4) as (G & _). rewrite G. cbn [lift rbind]. left.
      eexists _, _, s, _. split; [reflexivity|]. split; [left; apply n_get|]. split; [|intros ? _; reflexivity].
      split; [exact K1|]. split; [exact K2|]. split; [exact K3|split; [reflexivity|exact K4]].
    - (* next *)
      destruct p as [| |[|x l]|]; try (right; right; intros v b' X; inversion X; fail).
      destruct K4 as [-> K4]. destruct (m_next_ok m x l K4) as (_ & m' & G & G1 & G2). rewrite G. cbn [lift rbind]. left.
      eexists _, _, s, _. split; [reflexivity|]. split; [left; apply n_next|]. split; [|intros ? _; reflexivity].
      split; [exact K1|]. split; [exact K2|]. split; [cbn; congruence|split; [reflexivity|exact G1]].
    - (* set_memory *)
      left. eexists _, _, s, _. split; [reflexivity|]. split; [left; apply n_memory|]. split; [|intros ? _; reflexivity].
      split; [exact K1|]. split; [exact K2|]. split; [reflexivity|]. destruct p; exact K4.
  Qed.

  Lemma inv_live s L : inv s L [] -> NoDup L -> Permutation L (s_live s).
  Proof. intros [I1 I2 _ _] N. apply NoDup_Permutation; [exact N|exact I1|]. intro b. rewrite I2. cbn. tauto. Qed.
  Lemma live_inv s : NoDup (s_live s) -> inv s (s_live s) [].
  Proof. intro N. constructor; [exact N| |constructor|intros b _ []]. intro b. split; [intro H; left; exact H|intros [H|[[] _]]; exact H]. Qed.

  Lemma run_ops_ok s0 : merge_factor_ok -> NoDup (s_live s0) -> forall os t s b, sok t s (s_live s0) b -> keeps s0 s (s_live s0) ->
    (forall x, In (Push x) os -> below x) ->
    shows cmp D raw deviates (tidy s0) b os (run_ops A cmp maxv srt B fresh mf D raw m2 os t s).
  Proof.
    intros MF N. induction os as [|o os IH]; intros t s b K Ks Hb; cbn [run_ops].
    - apply s_end. destruct K as (_ & I & _). destruct (sr_clear_ok _ _ _ I) as (s' & E & E1 & E2). unfold sr_clear in E.
      exists s'. unfold destroy. destruct (deallocate_blocks (c_res (t_creator t)) s) as [s1|]; [|discriminate]. injection E as ->. split; [reflexivity|].
      split; [apply inv_live; assumption|]. intros x Hx. rewrite E2 by exact Hx. apply Ks, Hx.
    - assert (forall x, o = Push x -> below x) as Ho by (intros x ->; apply Hb; left; reflexivity).
      destruct (step_ok o t s (s_live s0) b MF K Ho) as [(v & t' & s' & b' & E & E1 & E2 & E3)|[(E & E1 & E2)|E]].
      + rewrite E. destruct (run_ops A cmp maxv srt B fresh mf D raw m2 os t' s') as [vs e] eqn:Er.
        assert (shows cmp D raw deviates (tidy s0) b' os (vs, e)) as X.
        { rewrite <- Er. apply IH; [exact E2| |intros x Hx; apply Hb; right; exact Hx]. intros x Hx. rewrite E3 by exact Hx. apply Ks, Hx. }
        destruct E1 as [E1|E1]; [eapply s_step; eassumption|eapply s_deviation; eassumption].
      + rewrite E. apply s_throw; assumption.
      + apply s_not_allowed, E.
  Qed.

  (** * stream::sort *)
  Lemma finish_stream r items s s0 mem : merge_factor_ok -> NoDup (s_live s0) -> sr_ok (s_disk s) r items -> inv s (s_live s0) (blocks r) -> keeps s0 s (s_live s0) ->
    let x := (let! (m, r, s) := initialize A cmp maxv B fresh mf D raw (m_new mem) r s in
              let! (out, m) := lift (m_read A cmp B (r_elements r) m) in
              let! s := lift (deallocate_blocks r s) in Val (out, s)) in
    (x = Bad /\ little D raw mem) \/
    exists out s', x = Val (out, s') /\ is_sorted_of cmp items out /\ Permutation (s_live s0) (s_live s') /\ keeps s0 s' (s_live s0).
  Proof.
    intros MF N F I K x. unfold x. clear x.
    destruct (initialize_ok (m_new mem) r items s (s_live s0) MF F I) as [(E & H)|(m' & r' & s' & l & E & E1 & E2 & E3 & E4 & E5 & E6)]; rewrite E; cbn [rbind].
    - left. auto.
    - right. destruct E4 as [E4 E4']. rewrite E4, (Permutation_length (proj1 E3)).
      destruct (m_read_ok l m' E2) as (m3 & R). rewrite R. cbn [lift rbind].
      destruct (sr_clear_ok _ _ _ E5) as (s3 & G & G1 & G2). unfold sr_clear in G.
      destruct (deallocate_blocks r' s') as [s4|]; [|discriminate]. injection G as ->. cbn [lift rbind].
      exists l, s3. split; [reflexivity|]. split; [exact E3|]. split; [apply inv_live; assumption|]. intros b Hb. rewrite G2, E6 by exact Hb. apply K, Hb.
  Qed.
  Lemma stream_sort_ok l s mem : merge_factor_ok -> NoDup (s_live s) -> Forall below l ->
    (stream_sort A cmp maxv srt B fresh mf D raw m2 mem l s = Bad /\ little D raw mem) \/
    exists out s', stream_sort A cmp maxv srt B fresh mf D raw m2 mem l s = Val (out, s') /\ is_sorted_of cmp l out /\
      Permutation (s_live s) (s_live s') /\ keeps s s' (s_live s).
  Proof.
    intros MF N F. unfold stream_sort. destruct (compute_result_ok m2 l s (s_live s) Hm2 F (live_inv s N)) as (r & s1 & E & E1 & E2 & E3).
    rewrite E. cbn [lift rbind]. apply (finish_stream r l s1 s mem MF N E1 E2 E3).
  Qed.

  (** * presorted sequences *)
  Lemma f_write_ok c s L O : length c = B -> inv s L O ->
    exists e s', f_write A fresh c s = Some ([e], s') /\ inv s' L (fst e :: O) /\ block_ok A B (s_disk s') e /\ s_disk s' (fst e) = c /\
      (forall b, In b L \/ In b O -> s_disk s' b = s_disk s b).
  Proof.
    intros Hc I. unfold f_write. destruct (new_blocks fresh 1 s) as [bids s1] eqn:En.
    destruct (new_blocks_ok A managed fresh AL _ _ _ _ _ _ I En) as (N1 & N2 & N3 & N4).
    destruct bids as [|b [|? ?]]; try discriminate.
    destruct (write_run_ok A B HB [b] [c] s1) as (r & s' & E & E1 & E2 & E3 & E4 & E5 & E6); [reflexivity|repeat constructor; auto|repeat constructor; exact Hc|].
    destruct r as [|e [|? ?]]; try discriminate. injection E1 as E1. injection E5 as E5. exists e, s'. split; [exact E|]. rewrite E1.
    split; [eapply inv_new_disk; [exact N2|exact E2]|]. split; [inversion E6; assumption|]. split; [exact E5|].
    intros x Hx. rewrite E4, N3; [reflexivity|]. intros [<-|[]]. destruct (N4 b (or_introl eq_refl)) as [_ N5]. apply N5. eapply inv_fresh; eassumption.
  Qed.
  (** [l]: what has been pushed since the last finish() *)
  Definition fok (f : fcreator A) (s : st) (L : list nat) (items l : list A) : Prop :=
    r_elements (f_res f) = length items + length l /\ r_small (f_res f) = [] /\
    (exists ls, Forall2 (run_good (s_disk s)) (r_runs (f_res f)) ls /\ r_sizes (f_res f) = map (@length A) ls /\ Permutation items (concat ls)) /\
    Forall (block_ok A B (s_disk s)) (f_full f) /\ content (s_disk s) (map fst (f_full f)) ++ f_cur f = l /\ length (f_cur f) < B /\
    inv s L (map fst (f_full f) ++ blocks (f_res f)).
  Lemma fok_ext f s s' L O items l e : (forall b, In b O -> s_disk s' b = s_disk s b) -> O = map fst (f_full f) ++ blocks (f_res f) -> fok f s L items l ->
    block_ok A B (s_disk s') e ->
    (exists ls, Forall2 (run_good (s_disk s')) (r_runs (f_res f)) ls /\ r_sizes (f_res f) = map (@length A) ls /\ Permutation items (concat ls)) /\
    Forall (block_ok A B (s_disk s')) (f_full f ++ [e]) /\ content (s_disk s') (map fst (f_full f ++ [e])) = content (s_disk s) (map fst (f_full f)) ++ s_disk s' (fst e).
  Proof.
    intros H -> (_ & _ & (ls & K1 & K2 & K3) & K4 & _) He. split; [|split].
    - exists ls. split; [|auto]. eapply runs_good_ext; [|exact K1]. intros b Hb. apply H, in_or_app. right. exact Hb.
    - apply Forall_app. split; [|constructor; [exact He|constructor]]. rewrite Forall_forall in *. intros x Hx. unfold block_ok.
      rewrite H by (apply in_or_app; left; apply in_map, Hx). apply K4, Hx.
    - rewrite map_app, content_app. f_equal; [|cbn; apply app_nil_r]. apply content_ext. intros b Hb. apply H, in_or_app. left. exact Hb.
  Qed.

  Lemma f_push_ok x f s L items l : fok f s L items l -> exists f' s', f_push A B fresh x f s = Some (f', s') /\ fok f' s' L items (l ++ [x]) /\ keeps s s' L.
  Proof.
    intros K. pose proof K as (K1 & K2 & K3 & K4 & K5 & K6 & K7). unfold f_push. destruct (Nat.ltb_spec (length (f_cur f)) B); [|lia].
    destruct (Nat.eqb_spec (length (f_cur f ++ [x])) B) as [Hl|Hl].
    - destruct (f_write_ok (f_cur f ++ [x]) s L _ Hl K7) as (e & s' & E & E1 & E2 & E3 & E4). rewrite E. cbn [obind].
      eexists _, s'. split; [reflexivity|]. split; [|intros b Hb; apply E4; auto].
      destruct (fok_ext f s s' L _ items l e (fun b Hb => E4 b (or_intror Hb)) eq_refl K E2) as (G1 & G2 & G3).
      split; [cbn; rewrite app_length; cbn; lia|]. split; [exact K2|]. split; [exact G1|]. split; [exact G2|].
      cbn [f_full f_cur]. split; [rewrite G3, E3, app_nil_r, app_assoc, K5; reflexivity|]. split; [cbn; lia|].
      eapply inv_perm; [|exact E1]. rewrite map_app. cbn. rewrite <- app_assoc. apply Permutation_middle.
    - eexists _, s. split; [reflexivity|]. split; [|intros b Hb; reflexivity]. split; [cbn; rewrite app_length; cbn; lia|]. split; [exact K2|].
      split; [exact K3|]. split; [exact K4|]. cbn [f_full f_cur]. split; [rewrite app_assoc, K5; reflexivity|]. split; [rewrite app_length in *; cbn in *; lia|exact K7].
  Qed.
  Lemma f_pushes_ok k : forall f s L items l, fok f s L items l -> exists f' s', f_pushes A B fresh k f s = Some (f', s') /\ fok f' s' L items (l ++ k) /\ keeps s s' L.
  Proof.
    induction k as [|x k IH]; intros f s L items l K; [exists f, s; rewrite app_nil_r; split; [reflexivity|]; split; [exact K|intros ? _; reflexivity]|].
    destruct (f_push_ok x f s L items l K) as (f1 & s1 & E & E1 & E2). cbn [f_pushes]. rewrite E. cbn [obind].
    destruct (IH f1 s1 L items _ E1) as (f2 & s2 & G & G1 & G2). exists f2, s2. split; [exact G|]. rewrite <- app_assoc in G1. split; [exact G1|].
    intros b Hb. rewrite G2, E2 by exact Hb. reflexivity.
  Qed.
  Lemma full_length f s L items l : fok f s L items l -> length (f_full f) * B + length (f_cur f) = length l.
  Proof.
    intros (_ & _ & _ & K4 & <- & _). rewrite app_length. f_equal. induction K4 as [|e r [He _] K4 IH]; [reflexivity|].
    cbn [map length]. change (content (s_disk s) (fst e :: map fst r)) with (s_disk s (fst e) ++ content (s_disk s) (map fst r)). rewrite app_length, He, <- IH. lia.
  Qed.
  Lemma f_finish_ok f s L items l : fok f s L items l -> Forall below l -> sorted cmp l ->
    exists f' s', f_finish A maxv B fresh f s = Some (f', s') /\ fok f' s' L (items ++ l) [] /\ f_full f' = [] /\ keeps s s' L.
  Proof.
    intros K F S. pose proof K as (K1 & K2 & (ls & K3 & K3' & K3'') & K4 & K5 & K6 & K7). pose proof (full_length _ _ _ _ _ K) as Hl.
    assert (forall s' b k, f_full f ++ b <> [] -> Forall (block_ok A B (s_disk s')) (f_full f ++ b) -> content (s_disk s') (map fst (f_full f ++ b)) = l ++ repeat maxv k -> l <> [] ->
              Forall2 (run_good (s_disk s')) (r_runs (f_res f)) ls -> inv s' L (map fst b ++ map fst (f_full f) ++ blocks (f_res f)) ->
              fok (mkf (mkr (r_elements (f_res f)) (r_runs (f_res f) ++ [f_full f ++ b]) (r_sizes (f_res f) ++ [length (f_full f) * B + length (f_cur f)]) (r_small (f_res f))) [] []) s' L (items ++ l) []) as W.
    { intros s' b k H1 H2 H3 H4 H5 H6. split; [cbn; rewrite app_length; lia|]. split; [exact K2|]. split.
      - exists (ls ++ [l]). cbn [f_res r_runs r_sizes]. split.
        + apply Forall2_app; [exact H5|]. constructor; [|constructor]. split; [split; [exact H1|split; [exact H2|rewrite H3; apply sorted_pad; assumption]]|].
          split; [exact H4|]. split; [exact F|]. split; [exact S|]. exists k. exact H3.
        + split; [rewrite map_app, K3', Hl; reflexivity|]. rewrite concat_app. cbn. rewrite app_nil_r. apply Permutation_app_tail, K3''.
      - split; [constructor|]. split; [reflexivity|]. split; [cbn; lia|]. cbn [f_full f_res map app]. eapply inv_perm; [|exact H6].
        unfold blocks. cbn [r_runs]. rewrite concat_app, map_app. cbn. rewrite app_nil_r, map_app, app_assoc.
        eapply Permutation_trans; [|apply Permutation_app_comm]. apply Permutation_app_tail, Permutation_app_comm. }
    unfold f_finish. destruct (f_cur f) as [|x cur] eqn:Ec.
    - destruct (f_full f) as [|e full] eqn:Ef.
      + exists f, s. split; [reflexivity|]. cbn in K5. subst l. rewrite app_nil_r. split; [|split; [exact Ef|intros ? _; reflexivity]].
        split; [exact K1|]. split; [exact K2|]. split; [exists ls; auto|]. rewrite Ef, Ec. split; [constructor|]. split; [reflexivity|]. split; [exact HB|exact K7].
      + rewrite <- Ef in *. cbn [obind]. eexists _, s. split; [reflexivity|]. split; [|split; [reflexivity|intros ? _; reflexivity]].
        apply (W s [] 0); [rewrite Ef; discriminate|rewrite app_nil_r; exact K4| | |exact K3|exact K7].
        * rewrite app_nil_r. cbn [repeat]. rewrite app_nil_r in *. exact K5.
        * intros ->. rewrite Ef in Hl. cbn in Hl. lia.
    - set (pad := repeat maxv (B - length (x :: cur))).
      destruct (f_write_ok ((x :: cur) ++ pad) s L (map fst (f_full f) ++ blocks (f_res f))) as (e & s' & E & E1 & E2 & E3 & E4); [unfold pad; rewrite app_length, repeat_length; lia|exact K7|].
      destruct (fok_ext f s s' L _ items l e (fun b Hb => E4 b (or_intror Hb)) eq_refl K E2) as (G1 & G2 & G3).
      rewrite E. cbn [obind]. eexists _, s'. split; [reflexivity|]. split; [|split; [reflexivity|intros b Hb; apply E4; auto]].
      apply (W s' [e] (B - length (x :: cur))); [destruct (f_full f); discriminate|exact G2| | | |exact E1].
      + rewrite G3, E3, app_assoc, K5. reflexivity.
      + intros ->. apply app_eq_nil in K5. destruct K5; discriminate.
      + eapply runs_good_ext; [|exact K3]. intros b Hb. apply E4. right. apply in_or_app. right. exact Hb.
  Qed.
  Lemma f_seqs_ok ks : forall f s L items, fok f s L items [] -> Forall (fun l => Forall below l /\ sorted cmp l) ks ->
    exists f' s', f_seqs A maxv B fresh ks f s = Some (f', s') /\ fok f' s' L (items ++ concat ks) [] /\ keeps s s' L.
  Proof.
    induction ks as [|k ks IH]; intros f s L items K F; [exists f, s; cbn; rewrite app_nil_r; split; [reflexivity|]; split; [exact K|intros ? _; reflexivity]|].
    inversion F as [|? ? [F1 F2] F3]; subst. cbn [f_seqs].
    destruct (f_pushes_ok k f s L items [] K) as (f1 & s1 & E & E1 & E2). rewrite E. cbn [obind]. cbn [app] in E1.
    destruct (f_finish_ok f1 s1 L items k E1 F1 F2) as (f2 & s2 & G & G1 & _ & G2). rewrite G. cbn [obind].
    destruct (IH f2 s2 L _ G1 F3) as (f3 & s3 & X & X1 & X2). exists f3, s3. split; [exact X|]. rewrite <- app_assoc in X1. split; [exact X1|].
    intros b Hb. rewrite X2, G2, E2 by exact Hb. reflexivity.
  Qed.
  Lemma merge_sequences_ok ks s mem : merge_factor_ok -> NoDup (s_live s) -> Forall (fun l => Forall below l /\ sorted cmp l) ks ->
    (merge_sequences A cmp maxv B fresh mf D raw mem ks s = Bad /\ little D raw mem) \/
    exists out s', merge_sequences A cmp maxv B fresh mf D raw mem ks s = Val (out, s') /\ is_sorted_of cmp (concat ks) out /\
      Permutation (s_live s) (s_live s') /\ keeps s s' (s_live s).
  Proof.
    intros MF N F. unfold merge_sequences.
    assert (fok f_new s (s_live s) [] []) as K0.
    { split; [reflexivity|]. split; [reflexivity|]. split; [exists []; split; [constructor|split; [reflexivity|constructor]]|].
      split; [constructor|]. split; [reflexivity|]. split; [exact HB|]. apply live_inv, N. }
    destruct (f_seqs_ok ks f_new s (s_live s) [] K0 F) as (f1 & s1 & E & E1 & E2). rewrite E. cbn [lift rbind app] in *.
    destruct (f_finish_ok f1 s1 (s_live s) _ [] E1) as (f2 & s2 & G & G1 & G2 & G3); [constructor|constructor|]. rewrite G. cbn [lift rbind].
    rewrite app_nil_r in G1. destruct G1 as (X1 & X2 & X3 & _ & _ & _ & X4). rewrite G2 in X4. cbn [map app] in X4.
    apply (finish_stream (f_res f2) (concat ks) s2 s mem MF N).
    - split; [cbn in X1; lia|]. left. auto.
    - exact X4.
    - intros b Hb. rewrite G3, E2 by exact Hb. reflexivity.
  Qed.
End P.
