(** Proofs about SortModel. *)
From Coq Require Import List Bool Arith Lia Permutation Sorted.
From Verif Require Import SumLib OrderLib LoserModel LoserSpec LoserProofs SortModel SortSpec.
Import ListNotations.

Local Ltac bind_in H := unfold obind in H.

Lemma chunk_concat {X} f n (l : list X) : 0 < n -> length l <= f -> concat (chunk f n l) = l.
Proof.
  intro Hn. revert l. induction f as [|f IH]; intros l Hl; [destruct l; [reflexivity|simpl in Hl; lia]|].
  cbn [chunk]. destruct l as [|x l]; [reflexivity|]. cbn [concat]. rewrite IH; [apply firstn_skipn|].
  rewrite skipn_length. cbn [length] in *. lia.
Qed.
Lemma chunks_concat {X} n (l : list X) : 0 < n -> concat (chunks n l) = l.
Proof. intro. apply chunk_concat; auto. Qed.
Lemma chunk_nonempty {X} f n (l : list X) c : 0 < n -> In c (chunk f n l) -> c <> [].
Proof.
  intro Hn. revert l. induction f as [|f IH]; intros l H; [contradiction|]. cbn [chunk] in H.
  destruct l as [|x l]; [contradiction|]. destruct H as [<-|H]; [|eapply IH, H].
  destruct n; [lia|discriminate].
Qed.
Lemma chunk_full {X} f n (l : list X) k : 0 < n -> length l = k * n -> length l <= f ->
  map (@length X) (chunk f n l) = repeat n k.
Proof.
  intro Hn. revert l k. induction f as [|f IH]; intros l k Hk Hf.
  - destruct k; [reflexivity|]. nia.
  - cbn [chunk]. destruct l as [|x l].
    + destruct k; [reflexivity|]. cbn [length] in Hk. nia.
    + destruct k as [|k]; [discriminate|]. cbn [map repeat]. f_equal.
      * rewrite firstn_length. cbn [length mult] in *. lia.
      * apply IH; rewrite skipn_length; cbn [length mult] in *; lia.
Qed.
Lemma chunks_full {X} n (l : list X) k : 0 < n -> length l = k * n -> map (@length X) (chunks n l) = repeat n k.
Proof. intros. apply chunk_full; auto. Qed.
Lemma chunk_length {X} f n (l : list X) : 2 <= n -> length l <= f -> 2 <= length l -> length (chunk f n l) < length l.
Proof.
  intro Hn. revert l.
  assert (forall f (l : list X), length l <= f -> length (chunk f n l) <= length l) as W.
  { induction f0 as [|f0 IH]; intros l Hl; [simpl; lia|]. cbn [chunk]. destruct l as [|x l]; [simpl; lia|].
    cbn [length]. specialize (IH (skipn n (x :: l))). rewrite skipn_length in IH. cbn [length] in *. lia. }
  intros l Hl H2. destruct f as [|f]; [lia|]. cbn [chunk]. destruct l as [|x l]; [simpl in H2; lia|].
  cbn [length]. specialize (W f (skipn n (x :: l))). rewrite skipn_length in W. cbn [length] in *. lia.
Qed.
Lemma splits_concat {X} ns (l : list X) : length l = list_sum ns -> concat (splits ns l) = l.
Proof.
  revert l. induction ns as [|n ns IH]; intros l H; [destruct l; [reflexivity|discriminate]|].
  cbn [splits concat list_sum fold_right] in *. change (fold_right Nat.add 0 ns) with (list_sum ns) in H.
  rewrite IH; [apply firstn_skipn|]. rewrite skipn_length. lia.
Qed.
Lemma splits_length {X} ns (l : list X) : length l = list_sum ns -> map (@length X) (splits ns l) = ns.
Proof.
  revert l. induction ns as [|n ns IH]; intros l H; [reflexivity|].
  cbn [splits map list_sum fold_right] in *. change (fold_right Nat.add 0 ns) with (list_sum ns) in H. f_equal.
  - rewrite firstn_length. lia.
  - apply IH. rewrite skipn_length. lia.
Qed.
Lemma concat_perm {X} (l l' : list (list X)) : Permutation l l' -> Permutation (concat l) (concat l').
Proof.
  induction 1; cbn [concat]; [constructor|apply Permutation_app_head; assumption| |eapply Permutation_trans; eassumption].
  rewrite !app_assoc. apply Permutation_app_tail, Permutation_app_comm.
Qed.
Lemma concat_full {X Y} (f : Y -> list X) B l : (forall b, In b l -> length (f b) = B) -> length (concat (map f l)) = length l * B.
Proof.
  induction l as [|b l IH]; intro H; [reflexivity|]. cbn [map concat length mult]. rewrite app_length, IH by (intros; apply H; right; assumption).
  rewrite H by (left; reflexivity). lia.
Qed.
Lemma list_sum_repeat n k : list_sum (repeat n k) = k * n.
Proof. induction k; [reflexivity|]. cbn [repeat list_sum fold_right mult]. change (fold_right Nat.add 0 (repeat n k)) with (list_sum (repeat n k)). lia. Qed.
Lemma length_concat_sum {X} (l : list (list X)) : length (concat l) = list_sum (map (@length X) l).
Proof. induction l as [|x l IH]; [reflexivity|]. cbn [concat map list_sum fold_right]. rewrite app_length, IH. reflexivity. Qed.

Lemma skipn_skipn' {X} a b (l : list X) : skipn a (skipn b l) = skipn (b + a) l.
Proof. revert l. induction b as [|b IH]; intro l; [reflexivity|]. destruct l; [rewrite !skipn_nil; reflexivity|]. cbn. apply IH. Qed.
Lemma nth_error_ext {X} (l l' : list X) : (forall i, nth_error l i = nth_error l' i) -> l = l'.
Proof.
  revert l'. induction l as [|x l IH]; intros [|y l'] H; [reflexivity|specialize (H 0); discriminate|specialize (H 0); discriminate|].
  f_equal; [specialize (H 0); injection H as H; exact H|]. apply IH. intro i. apply (H (S i)).
Qed.
Lemma NoDup_app_remove_r {X} (l l' : list X) : NoDup (l ++ l') -> NoDup l.
Proof. induction l as [|x l IH]; intro H; [constructor|]. cbn in H. inversion H; subst. constructor; [|auto]. intro; apply H2, in_or_app; auto. Qed.
Lemma NoDup_app_remove_l {X} (l l' : list X) : NoDup (l ++ l') -> NoDup l'.
Proof. induction l as [|x l IH]; intro H; [exact H|]. cbn in H. inversion H; subst. auto. Qed.

Lemma NoDup_snoc {X} (l : list X) x : NoDup l -> ~ In x l -> NoDup (l ++ [x]).
Proof. intros H N. apply (Permutation_NoDup (Permutation_cons_append l x)). constructor; assumption. Qed.

Section P.
  Variable A : Type.
  Variable cmp : A -> A -> bool.
  Variables minv maxv : A.
  Variable srt : list A -> list A.
  Variable B : nat.
  Variable managed : nat -> bool.
  Variable fresh : nat -> list nat -> nat -> list nat.
  Variable mf : nat -> nat -> nat.
  Hypothesis SW : strict_weak cmp.
  Hypothesis SRT : sorts cmp srt.
  Hypothesis HB : 0 < B.
  Hypothesis AL : allocates managed fresh.
  Hypothesis MF : forall n m, 2 <= mf n m.

  Notation st := (SortModel.st A).
  Notation run := (list (nat * A)).

  (** the blocks of the block manager: those of others [L], and those of [O] that are managed *)
  Record inv (s : st) (L O : list nat) : Prop := {
    i_nd : NoDup (s_live s);
    i_live : forall b, In b (s_live s) <-> In b L \/ (In b O /\ managed b = true);
    i_O : NoDup O;
    i_dis : forall b, In b L -> ~ In b O }.

  Lemma inv_perm s L O O' : Permutation O O' -> inv s L O -> inv s L O'.
  Proof.
    intros P [I1 I2 I3 I4]. constructor; [exact I1| | |].
    - intro b. rewrite I2. split; (intros [H|[H M]]; [left; exact H|right; split; [|exact M]]).
      + eapply Permutation_in; eassumption.
      + eapply Permutation_in; [apply Permutation_sym|]; eassumption.
    - eapply Permutation_NoDup; eassumption.
    - intros b Hb H. apply (I4 b Hb). eapply Permutation_in; [apply Permutation_sym|]; eassumption.
  Qed.
  Lemma inv_write s L O b c : inv s L O -> inv (write b c s) L O.
  Proof. intros [I1 I2 I3 I4]. constructor; assumption. Qed.
  Lemma inv_drop_unmanaged s L b O : managed b = false -> inv s L (b :: O) -> inv s L O.
  Proof.
    intros Hm [I1 I2 I3 I4]. inversion I3; subst. constructor; [exact I1| |assumption|].
    - intro x. rewrite I2. cbn [In]. split; [intros [H|[[<-|H] M]]; [left; exact H|congruence|right; auto]|].
      intros [H|[H M]]; [left; exact H|right; auto].
    - intros x Hx H. apply (I4 x Hx). right. exact H.
  Qed.

  Lemma new_blocks_ok s L O n bs s' : inv s L O -> new_blocks fresh n s = (bs, s') ->
    length bs = n /\ inv s' L (bs ++ O) /\ s_disk s' = s_disk s /\ (forall b, In b bs -> managed b = true /\ ~ In b (s_live s)).
  Proof.
    intros I E. unfold new_blocks in E. destruct (AL (s_calls s) (s_live s) n) as (A1 & A2 & A3).
    injection E as <- <-. destruct I as [I1 I2 I3 I4]. split; [exact A1|]. split; [|split; [reflexivity|intros b H; split; apply A3; exact H]].
    set (bs := fresh (s_calls s) (s_live s) n) in *. constructor; cbn.
    - clear A1. clearbody bs. induction bs as [|b bs IH]; [exact I1|]. inversion A2; subst. cbn. constructor.
      + rewrite in_app_iff. intros [H|H]; [contradiction|]. apply (A3 b); [left; reflexivity|exact H].
      + apply IH; [assumption|]. intros x Hx. apply A3. right. exact Hx.
    - intro b. rewrite !in_app_iff, I2. split.
      + intros [H|[H|[H M]]]; [right; split; [left; exact H|apply A3, H]|left; exact H|right; auto].
      + intros [H|[[H|H] M]]; auto.
    - assert (forall b, In b bs -> ~ In b O) as D.
      { intros b H HO. destruct (A3 b H) as [N M]. apply N, I2. right. auto. }
      clear A1 A3. clearbody bs. induction bs as [|b bs IH]; [exact I3|]. inversion A2; subst. cbn. constructor.
      + rewrite in_app_iff. intros [H|H]; [contradiction|]. apply (D b); [left; reflexivity|exact H].
      + apply IH; [assumption|]. intros x Hx. apply D. right. exact Hx.
    - intros b Hb. rewrite in_app_iff. intros [H|H]; [|apply (I4 b Hb H)].
      apply (proj1 (A3 b H)). apply I2. left. exact Hb.
  Qed.

  Lemma delete_block_ok s L b O : inv s L (b :: O) ->
    exists s', delete_block managed b s = Some s' /\ inv s' L O /\ s_disk s' = s_disk s.
  Proof.
    intros I. unfold delete_block. destruct (managed b) eqn:M.
    - destruct I as [I1 I2 I3 I4]. assert (In b (s_live s)) as Hb by (apply I2; right; split; [left; reflexivity|exact M]).
      assert (existsb (Nat.eqb b) (s_live s) = true) as ->.
      { apply existsb_exists. exists b. split; [exact Hb|apply Nat.eqb_refl]. }
      eexists. split; [reflexivity|]. split; [|reflexivity]. inversion I3; subst. constructor; cbn.
      + clear - I1. induction I1; cbn; [constructor|]. destruct (Nat.eq_dec b x); [assumption|]. constructor; [|assumption].
        intro H'. apply in_remove in H'. tauto.
      + intro x. split.
        * intro Hx. apply in_remove in Hx. destruct Hx as [Hx Hn]. apply I2 in Hx. destruct Hx as [Hx|[[Hx|Hx] Mx]]; [auto|congruence|auto].
        * intros Hx. apply in_in_remove.
          -- intros ->. destruct Hx as [Hx|[Hx _]]; [apply (I4 b Hx); left; reflexivity|contradiction].
          -- apply I2. destruct Hx as [Hx|[Hx Mx]]; [auto|right; split; [right|]; assumption].
      + assumption.
      + intros x Hx HO. apply (I4 x Hx). right. exact HO.
    - eexists. split; [reflexivity|]. split; [eapply inv_drop_unmanaged; eassumption|reflexivity].
  Qed.
  Lemma delete_blocks_ok bs : forall s L O, inv s L (bs ++ O) ->
    exists s', delete_blocks managed bs s = Some s' /\ inv s' L O /\ s_disk s' = s_disk s.
  Proof.
    induction bs as [|b bs IH]; intros s L O I; [exists s; auto|].
    destruct (delete_block_ok s L b (bs ++ O) I) as (s1 & E1 & I1 & D1).
    destruct (IH s1 L O I1) as (s2 & E2 & I2 & D2). exists s2. cbn [delete_blocks]. rewrite E1. cbn [obind].
    split; [exact E2|]. split; [exact I2|congruence].
  Qed.

  (** a run on disk *)
  Definition block_ok (d : nat -> list A) (e : nat * A) : Prop := length (d (fst e)) = B /\ hd_error (d (fst e)) = Some (snd e).
  Definition run_ok (d : nat -> list A) (r : run) : Prop :=
    r <> [] /\ Forall (block_ok d) r /\ sorted cmp (content d (map fst r)).
  Lemma run_ok_ext d d' r : (forall b, In b (map fst r) -> d' b = d b) -> run_ok d r -> run_ok d' r.
  Proof.
    intros H (R1 & R2 & R3). split; [exact R1|]. split.
    - rewrite Forall_forall in *. intros e He. unfold block_ok. rewrite H by (apply in_map, He). apply R2, He.
    - unfold content in *. erewrite map_ext_in; [exact R3|]. exact H.
  Qed.
  Lemma content_ext (d d' : nat -> list A) l : (forall b, In b l -> d' b = d b) -> content d' l = content d l.
  Proof. intro H. unfold content. erewrite map_ext_in; [reflexivity|]. exact H. Qed.
  Lemma content_app (d : nat -> list A) l1 l2 : content d (l1 ++ l2) = content d l1 ++ content d l2.
  Proof. unfold content. rewrite map_app, concat_app. reflexivity. Qed.

  Lemma write_run_ok bids : forall blocks s, length blocks = length bids -> NoDup bids ->
    Forall (fun c => length c = B) blocks ->
    exists r s', write_run A bids blocks s = Some (r, s') /\ map fst r = bids /\ s_live s' = s_live s /\ s_calls s' = s_calls s /\
      (forall b, ~ In b bids -> s_disk s' b = s_disk s b) /\ map (s_disk s') bids = blocks /\ Forall (block_ok (s_disk s')) r.
  Proof.
    induction bids as [|b bids IH]; intros blocks s HL ND HF.
    - destruct blocks; [|discriminate]. exists [], s. repeat split; auto; try constructor.
    - destruct blocks as [|c blocks]; [discriminate|]. inversion HF as [|? ? Hc HF']; subst. inversion ND as [|? ? Nb ND']; subst.
      destruct c as [|x c]; [simpl in Hc; lia|]. injection HL as HL.
      destruct (IH blocks (write b (x :: c) s) HL ND' HF') as (r & s' & E & E1 & E2 & E3 & E4 & E5 & E6).
      exists ((b, x) :: r), s'. cbn [write_run]. rewrite E. cbn [obind]. split; [reflexivity|].
      assert (s_disk s' b = x :: c) as Eb by (rewrite E4 by exact Nb; cbn; apply upd_same).
      split; [cbn; congruence|]. split; [rewrite E2; reflexivity|]. split; [rewrite E3; reflexivity|].
      split; [|split].
      + intros b' Hb'. rewrite E4 by (intro; apply Hb'; right; assumption). cbn. apply upd_other. intro; apply Hb'; left; auto.
      + cbn [map]. rewrite Eb, E5. reflexivity.
      + constructor; [|exact E6]. unfold block_ok. cbn [fst snd]. rewrite Eb. split; [exact Hc|reflexivity].
  Qed.

  Lemma create_runs_ok runs : forall input s L O, inv s L (input ++ concat runs ++ O) ->
    length input = length (concat runs) -> Forall (fun r => r <> []) runs ->
    (forall b, In b input -> length (s_disk s b) = B) ->
    exists rs s', create_runs A srt B managed input runs s = Some (rs, s') /\ inv s' L (concat runs ++ O) /\
      map (map fst) rs = runs /\ Forall (run_ok (s_disk s')) rs /\
      Permutation (content (s_disk s') (concat runs)) (content (s_disk s) input) /\
      (forall b, ~ In b (concat runs) -> s_disk s' b = s_disk s b).
  Proof.
    induction runs as [|bids runs IH]; intros input s L O I HL HR HF.
    - destruct input; [|discriminate]. exists [], s. split; [reflexivity|]. split; [exact I|]. split; [reflexivity|].
      split; [constructor|]. split; [constructor|reflexivity].
    - cbn [create_runs]. cbn [concat] in *. rewrite app_length in HL.
      inversion HR as [|? ? Hb HR']; subst.
      set (ins := firstn (length bids) input). set (rest := skipn (length bids) input).
      assert (input = ins ++ rest) as Ei by (symmetry; apply firstn_skipn).
      assert (length ins = length bids) as Li by (unfold ins; rewrite firstn_length; lia).
      assert (length rest = length (concat runs)) as Lr by (unfold rest; rewrite skipn_length; lia).
      rewrite Ei, <- !app_assoc in I.
      destruct (delete_blocks_ok ins s L _ I) as (s1 & E1 & I1 & D1).
      rewrite E1. cbn [obind]. change (concat (map (s_disk s) ins)) with (content (s_disk s) ins).
      set (data := content (s_disk s) ins).
      assert (length data = length bids * B) as Ld.
      { unfold data, content. rewrite (concat_full _ B), Li; [reflexivity|]. intros b Hb'. apply HF. rewrite Ei. apply in_or_app; auto. }
      destruct (SRT data) as [SP SS].
      assert (NoDup bids) as NDb.
      { destruct I1 as [_ _ N _]. clear - N. revert N. rewrite app_assoc. intro N.
        apply NoDup_app_remove_r in N. apply NoDup_app_remove_l in N. exact N. }
      assert (map (@length A) (chunks B (srt data)) = repeat B (length bids)) as CF.
      { apply chunks_full; [exact HB|]. rewrite (Permutation_length SP). exact Ld. }
      destruct (write_run_ok bids (chunks B (srt data)) s1) as (r & s2 & E2 & F1 & F2 & F2' & F3 & F4 & F5).
      { apply (f_equal (@length nat)) in CF. rewrite map_length, repeat_length in CF. exact CF. }
      { exact NDb. }
      { rewrite Forall_forall. intros c Hc. apply (in_map (@length A)) in Hc. rewrite CF in Hc. apply repeat_spec in Hc. exact Hc. }
      rewrite E2. cbn [obind].
      assert (inv s2 L (rest ++ concat runs ++ bids ++ O)) as I2.
      { eapply inv_perm with (O := rest ++ bids ++ concat runs ++ O).
        - apply Permutation_app_head. rewrite !app_assoc. apply Permutation_app_tail, Permutation_app_comm.
        - destruct I1 as [J1 J2 J3 J4]. constructor; rewrite ?F2; assumption. }
      assert (forall b, In b input -> ~ In b bids) as Dib.
      { intros b H1 H2. destruct I as [_ _ N _]. rewrite app_assoc, <- Ei in N.
        assert (NoDup (input ++ bids)) as N' by (apply NoDup_app_remove_r with (l' := concat runs ++ O); rewrite <- app_assoc; exact N).
        clear - N' H1 H2. induction input as [|a i IHi]; [contradiction|]. cbn in N'. inversion N'; subst.
        destruct H1 as [<-|H1]; [apply H3, in_or_app; auto|auto]. }
      destruct (IH rest s2 L (bids ++ O) I2 Lr HR') as (rs & s3 & E3 & I3 & G1 & G2 & G3 & G4).
      { intros b Hb'. assert (In b input) as Hi by (rewrite Ei; apply in_or_app; auto).
        rewrite F3 by (apply Dib, Hi). rewrite D1. apply HF, Hi. }
      rewrite E3. cbn [obind]. exists (r :: rs), s3. split; [reflexivity|].
      assert (forall b, In b bids -> ~ In b (concat runs)) as Dbr.
      { intros b H1 H2. destruct I2 as [_ _ N _]. apply NoDup_app_remove_l in N. rewrite app_assoc in N. apply NoDup_app_remove_r in N.
        clear - N H1 H2. induction (concat runs) as [|a i IHi]; [contradiction|]. cbn in N. inversion N; subst.
        destruct H2 as [<-|H2]; [apply H3, in_or_app; auto|auto]. }
      assert (content (s_disk s3) bids = srt data) as Cb.
      { rewrite (content_ext (s_disk s2)) by (intros b H; apply G4, Dbr, H). unfold content. rewrite F4. apply chunks_concat, HB. }
      split; [|split; [|split; [|split]]].
      + eapply inv_perm; [|exact I3]. rewrite !app_assoc. apply Permutation_app_tail, Permutation_app_comm.
      + cbn [map]. congruence.
      + constructor; [|exact G2]. apply run_ok_ext with (d := s_disk s2).
        { intros b H. rewrite F1 in H. apply G4, Dbr, H. }
        split; [intros ->; cbn in F1; congruence|]. split; [exact F5|].
        rewrite F1. unfold content. rewrite F4, chunks_concat by exact HB. exact SS.
      + rewrite content_app, Cb, Ei, content_app. apply Permutation_app; [exact SP|].
        eapply Permutation_trans; [exact G3|]. rewrite (content_ext (s_disk s)); [apply Permutation_refl|].
        intros b H. rewrite F3; [rewrite D1; reflexivity|]. apply Dib. rewrite Ei. apply in_or_app; auto.
      + intros b H. rewrite G4 by (intro; apply H, in_or_app; auto). rewrite F3 by (intro; apply H, in_or_app; auto).
        rewrite D1. reflexivity.
  Qed.

  (** merging *)
  Lemma merge_out_ok bids : forall t s outs t', multi_merges A cmp (repeat B (length bids)) t = Some (outs, t') ->
    map (@length A) outs = repeat B (length bids) -> NoDup bids ->
    exists r s', merge_out A cmp B bids t s = Some (r, s') /\ map fst r = bids /\ s_live s' = s_live s /\
      (forall b, ~ In b bids -> s_disk s' b = s_disk s b) /\ map (s_disk s') bids = outs /\ Forall (block_ok (s_disk s')) r.
  Proof.
    induction bids as [|b bids IH]; intros t s outs t' E HL ND.
    - cbn in E. injection E as <- <-. exists [], s. repeat split; auto; constructor.
    - cbn [length repeat multi_merges] in E. cbn [merge_out].
      destruct (multi_merge A cmp B t) as [[o t1]|] eqn:E1; [|discriminate].
      destruct (multi_merges A cmp (repeat B (length bids)) t1) as [[os t2]|] eqn:E2; [|discriminate].
      injection E as <- <-. cbn [length repeat map] in HL. injection HL as Ho HL. inversion ND as [|? ? Nb ND']; subst.
      cbn [obind]. destruct o as [|x o]; [simpl in Ho; lia|].
      destruct (IH t1 (write b (x :: o) s) os t2 E2 HL ND') as (r & s' & F & F1 & F2 & F3 & F4 & F5).
      rewrite F. cbn [obind]. exists ((b, x) :: r), s'. split; [reflexivity|].
      assert (s_disk s' b = x :: o) as Eb by (rewrite F3 by exact Nb; cbn; apply upd_same).
      split; [cbn; congruence|]. split; [rewrite F2; reflexivity|]. split; [|split].
      + intros b' Hb'. rewrite F3 by (intro; apply Hb'; right; assumption). cbn. apply upd_other. intro; apply Hb'; left; auto.
      + cbn [map]. rewrite Eb, F4. reflexivity.
      + constructor; [|exact F5]. unfold block_ok. cbn [fst snd]. rewrite Eb. split; [exact Ho|reflexivity].
  Qed.

  Lemma merge_runs_ok' in_runs out s L O : in_runs <> [] -> Forall (run_ok (s_disk s)) in_runs ->
    inv s L (map fst (concat in_runs) ++ out ++ O) -> length out = group_size A in_runs ->
    exists r s', merge_runs A cmp B managed in_runs out s = Some (r, s') /\ map fst r = out /\ run_ok (s_disk s') r /\
      inv s' L (out ++ O) /\
      Permutation (content (s_disk s') out) (content (s_disk s) (map fst (concat in_runs))) /\
      (forall b, ~ In b out -> s_disk s' b = s_disk s b).
  Proof.
    intros Hne HR I HL. unfold merge_runs, group_size in *. set (d := s_disk s) in *.
    set (g := fun e : nat * A => (snd e, d (fst e))). set (runs := map (map g) in_runs).
    assert (concat runs = map g (concat in_runs)) as Ec by (unfold runs; symmetry; apply concat_map).
    assert (elements runs = content d (map fst (concat in_runs))) as Ee.
    { unfold elements, content. rewrite Ec, !map_map. reflexivity. }
    assert (length (elements runs) = length (concat in_runs) * B) as Le.
    { rewrite Ee. unfold content. rewrite (concat_full _ B), map_length; [reflexivity|]. intros b Hb.
      apply in_map_iff in Hb. destruct Hb as (e & <- & He). apply in_concat in He. destruct He as (r & Hr & He).
      rewrite Forall_forall in HR. destruct (HR r Hr) as (_ & R2 & _). rewrite Forall_forall in R2. apply (R2 e He). }
    destruct (merge_runs_ok A cmp SW runs (repeat B (length out))) as (t & outs & t' & E1 & E2 & E3 & E4).
    { unfold runs. destruct in_runs; [contradiction|discriminate]. }
    { unfold runs. rewrite Forall_forall in *. intros r Hr. apply in_map_iff in Hr. destruct Hr as (r0 & <- & Hr).
      destruct (HR r0 Hr) as (R1 & R2 & R3). split; [destruct r0; [contradiction|discriminate]|]. split.
      - rewrite Forall_forall in *. intros e He. apply in_map_iff in He. destruct He as (e0 & <- & He). apply (R2 e0 He).
      - unfold content in R3. rewrite map_map in *. exact R3. }
    { rewrite list_sum_repeat, Le, HL. lia. }
    assert (map (fun e => d (fst e)) (ssort (trigger_cmp A cmp) (concat in_runs)) = map snd (ssort (trig_lt cmp) (concat runs))) as Es.
    { rewrite Ec, <- (ssort_map g (trigger_cmp A cmp) (trig_lt cmp)) by reflexivity. rewrite map_map. reflexivity. }
    assert (length runs = length in_runs) as Lr by (unfold runs; apply map_length).
    rewrite Lr in E1. rewrite Es. rewrite E1. cbn [obind].
    assert (NoDup out) as NDo.
    { destruct I as [_ _ N _]. apply NoDup_app_remove_l, NoDup_app_remove_r in N. exact N. }
    destruct (merge_out_ok out t s outs t' E2 E3 NDo) as (r & s1 & F & F1 & F2 & F3 & F4 & F5).
    rewrite F. cbn [obind].
    assert (inv s1 L (map fst (concat in_runs) ++ out ++ O)) as I1.
    { destruct I as [J1 J2 J3 J4]. constructor; rewrite ?F2; assumption. }
    destruct (delete_blocks_ok _ s1 L _ I1) as (s2 & G & I2 & D2). rewrite G. cbn [obind].
    exists r, s2. split; [reflexivity|]. split; [exact F1|].
    destruct E4 as (S1 & rest & S2 & S3).
    assert (rest = []) as ->.
    { apply Permutation_length in S2. rewrite app_length, Le, length_concat_sum, E3, list_sum_repeat, HL in S2.
      destruct rest; [reflexivity|]. cbn in S2. lia. }
    rewrite app_nil_r in S2.
    assert (content (s_disk s1) out = concat outs) as Co by (unfold content; rewrite F4; reflexivity).
    rewrite D2. split; [|split; [exact I2|split; [rewrite Co, <- Ee; exact S2|exact F3]]].
    split; [|split; [exact F5|rewrite F1, Co; exact S1]].
    intros ->. cbn in F1. subst out. cbn in HL. destruct in_runs as [|r0 rs]; [contradiction|].
    inversion HR as [|? ? (R1 & _) _]; subst. cbn in HL. rewrite app_length in HL. destruct r0; [contradiction|cbn in HL; lia].
  Qed.

  Lemma NoDup_app_dis {X} (l1 l2 : list X) b : NoDup (l1 ++ l2) -> In b l1 -> ~ In b l2.
  Proof.
    induction l1 as [|a l1 IH]; intros N H1 H2; [contradiction|]. cbn in N. inversion N; subst.
    destruct H1 as [<-|H1]; [apply H3, in_or_app; auto|apply IH; auto].
  Qed.

  Lemma merge_groups_ok groups : forall outs s L O, Forall (fun g => g <> []) groups ->
    Forall (run_ok (s_disk s)) (concat groups) ->
    inv s L (map fst (concat (concat groups)) ++ concat outs ++ O) -> map (@length nat) outs = map (group_size A) groups ->
    exists rs s', merge_groups A cmp B managed groups outs s = Some (rs, s') /\ map (map fst) rs = outs /\
      Forall (run_ok (s_disk s')) rs /\ inv s' L (concat outs ++ O) /\
      Permutation (content (s_disk s') (concat outs)) (content (s_disk s) (map fst (concat (concat groups)))) /\
      (forall b, ~ In b (concat outs) -> s_disk s' b = s_disk s b).
  Proof.
    induction groups as [|g groups IH]; intros outs s L O HG HR I HL.
    - destruct outs; [|discriminate]. exists [], s. split; [reflexivity|]. split; [reflexivity|]. split; [constructor|].
      split; [exact I|]. split; [constructor|reflexivity].
    - destruct outs as [|o outs]; [discriminate|]. injection HL as Ho HL. cbn [merge_groups].
      inversion HG as [|? ? Hg HG']; subst. cbn [concat] in *. rewrite concat_app, map_app in I.
      apply Forall_app in HR. destruct HR as [HR1 HR2].
      set (gi := map fst (concat g)) in *. set (ri := map fst (concat (concat groups))) in *.
      destruct (merge_runs_ok' g o s L (ri ++ concat outs ++ O) Hg HR1) as (r & s1 & E1 & F1 & F2 & F3 & F4 & F5).
      { eapply inv_perm; [|exact I]. fold gi. rewrite <- !app_assoc. apply Permutation_app_head.
        rewrite !app_assoc. do 2 apply Permutation_app_tail. apply Permutation_app_comm. }
      { exact Ho. }
      rewrite E1. cbn [obind].
      assert (NoDup (o ++ ri)) as Nor.
      { destruct F3 as [_ _ N _]. rewrite app_assoc in N. apply NoDup_app_remove_r in N. exact N. }
      destruct (IH outs s1 L (o ++ O) HG') as (rs & s2 & E2 & G1 & G2 & G3 & G4 & G5).
      { rewrite Forall_forall in *. intros x Hx. apply run_ok_ext with (d := s_disk s); [|apply HR2, Hx].
        intros b Hb. apply F5. intro Ho'. apply (NoDup_app_dis _ _ b Nor Ho'). unfold ri.
        apply in_map_iff in Hb. destruct Hb as (e & <- & He). apply in_map. apply in_concat. exists x. auto. }
      { eapply inv_perm; [|exact F3]. fold ri. rewrite (app_assoc (concat outs)), (app_assoc ri).
        eapply Permutation_trans; [apply Permutation_app_comm|]. rewrite <- !app_assoc. do 2 apply Permutation_app_head.
        apply Permutation_app_comm. }
      { exact HL. }
      rewrite E2. cbn [obind]. exists (r :: rs), s2. split; [reflexivity|].
      assert (forall b, In b o -> ~ In b (concat outs)) as Doo.
      { intros b H1 H2. destruct G3 as [_ _ N _]. apply (NoDup_app_dis _ _ b N H2). apply in_or_app; auto. }
      split; [cbn [map]; congruence|]. split; [|split; [|split]].
      + constructor; [|exact G2]. apply run_ok_ext with (d := s_disk s1); [|exact F2]. intros b Hb. rewrite F1 in Hb. apply G5, Doo, Hb.
      + eapply inv_perm; [|exact G3]. rewrite !app_assoc. apply Permutation_app_tail, Permutation_app_comm.
      + rewrite content_app, concat_app, map_app, content_app. apply Permutation_app.
        * rewrite (content_ext (s_disk s1)) by (intros b H; apply G5, Doo, H). exact F4.
        * eapply Permutation_trans; [exact G4|]. fold ri. rewrite (content_ext (s_disk s)); [apply Permutation_refl|].
          intros b H. apply F5. intro Hb. apply (NoDup_app_dis _ _ b Nor Hb H).
      + intros b H. rewrite G5 by (intro; apply H, in_or_app; auto). apply F5. intro; apply H, in_or_app; auto.
  Qed.

  Lemma inv_add_unmanaged s L U O : inv s L O -> NoDup U -> (forall b, In b U -> managed b = false) ->
    (forall b, In b U -> ~ In b O) -> (forall b, In b L -> ~ In b U) -> inv s L (U ++ O).
  Proof.
    intros [I1 I2 I3 I4] HU HM HO HL. constructor; [exact I1| | |].
    - intro b. rewrite I2, in_app_iff. split; [intros [H|[H M]]; auto|].
      intros [H|[[H|H] M]]; [auto|rewrite HM in M by exact H; discriminate|auto].
    - clear HM HL. induction U as [|u U IH]; [exact I3|]. inversion HU; subst. cbn. constructor.
      + rewrite in_app_iff. intros [H|H]; [contradiction|]. apply (HO u); [left; reflexivity|exact H].
      + apply IH; [assumption|]. intros b Hb. apply HO. right. exact Hb.
    - intros b Hb. rewrite in_app_iff. intros [H|H]; [apply (HL b Hb H)|apply (I4 b Hb H)].
  Qed.

  (** the input of sort_blocks can be reused as the output: only its last block may be managed when its first is not *)
  Definition reusable (input : list nat) : Prop :=
    forall b0 mid bl, input = b0 :: mid ++ [bl] -> managed b0 = false -> forall b, In b mid -> managed b = false.
  Definition kept (input out : list nat) : Prop :=
    forall b0 rest, input = b0 :: rest -> managed b0 = false ->
    forall i b, nth_error input i = Some b -> managed b = false -> nth_error out i = Some b.

  Lemma phase_bids_ok input n groups s L O : inv s L O -> (forall b, In b O -> managed b = true) ->
    NoDup input -> (forall b, In b L -> ~ In b input) -> reusable input -> 2 <= n -> n = length input ->
    list_sum (map (group_size A) groups) = n ->
    exists outs s', phase_bids A managed fresh input n groups s = Some (outs, s') /\ inv s' L (concat outs ++ O) /\
      s_disk s' = s_disk s /\ map (@length nat) outs = map (group_size A) groups /\
      (2 <= length groups -> forall b, In b (concat outs) -> managed b = true) /\
      (forall b, In b (concat outs) -> managed b = false -> In b input) /\
      (length groups = 1 -> kept input (concat outs)).
  Proof.
    intros I HM ND DL RU Hn2 Hn HG. unfold phase_bids.
    assert (forall (C : length groups = 1 -> forall b0 rest, input = b0 :: rest -> managed b0 = true),
      exists outs s', (let (bs, s0) := new_blocks fresh n s in Some (splits (map (group_size A) groups) bs, s0)) = Some (outs, s') /\
      inv s' L (concat outs ++ O) /\
      s_disk s' = s_disk s /\ map (@length nat) outs = map (group_size A) groups /\
      (2 <= length groups -> forall b, In b (concat outs) -> managed b = true) /\
      (forall b, In b (concat outs) -> managed b = false -> In b input) /\
      (length groups = 1 -> kept input (concat outs))) as K.
    { intro C. destruct (new_blocks fresh n s) as [bs s'] eqn:E.
      destruct (new_blocks_ok s L O n bs s' I E) as (E1 & E2 & E3 & E4).
      exists (splits (map (group_size A) groups) bs), s'. rewrite splits_concat, splits_length by congruence.
      split; [reflexivity|]. split; [exact E2|]. split; [exact E3|]. split; [reflexivity|].
      split; [intros _ b Hb; apply E4, Hb|]. split.
      - intros b Hb Hf. destruct (E4 b Hb). congruence.
      - intros H1 b0 rest Hi Hf. rewrite (C H1 b0 rest Hi) in Hf. discriminate. }
    destruct groups as [|g [|g2 groups]]; [apply K; cbn; discriminate| |apply K; cbn; discriminate].
    cbn [map list_sum fold_right] in HG. rewrite Nat.add_0_r in HG.
    destruct input as [|b0 rest]; [cbn in Hn; lia|]. rewrite HG, Nat.eqb_refl. cbn [andb].
    destruct (managed b0) eqn:M0; cbn [negb]; [apply K; intros _ b r [= -> ->]; exact M0|]. clear K.
    assert (exists mid bl, rest = mid ++ [bl]) as (mid & bl & ->).
    { destruct (@exists_last _ rest) as (mid & bl & ->); [destruct rest; [cbn in Hn; lia|discriminate]|eauto]. }
    assert (n - 1 = length (b0 :: mid)) as Ln by (rewrite Hn; cbn [length]; rewrite app_length; cbn; lia).
    assert (forall b, In b (b0 :: mid) -> managed b = false) as HU.
    { intros b [<-|Hb]; [exact M0|]. apply (RU b0 mid bl eq_refl M0 b Hb). }
    change (b0 :: mid ++ [bl]) with ((b0 :: mid) ++ [bl]) in *. set (ini := b0 :: mid) in *.
    assert (replace_managed A managed fresh 0 (ini ++ [bl]) s = Some (ini ++ [bl], s)) as ->.
    { unfold replace_managed. unfold ini at 1. cbn [nth_error app]. rewrite M0. reflexivity. }
    cbn [obind]. unfold replace_managed. rewrite Ln, nth_error_app2, Nat.sub_diag by lia. cbn [nth_error].
    assert (forall b, In b ini -> ~ In b O) as DO.
    { intros b H1 H2. specialize (HU b H1). specialize (HM b H2). congruence. }
    assert (NoDup ini) as NDi by (apply NoDup_app_remove_r in ND; exact ND).
    destruct (managed bl) eqn:Ml.
    - destruct (new_blocks fresh 1 s) as [bs s'] eqn:E.
      destruct (new_blocks_ok s L O 1 bs s' I E) as (E1 & E2 & E3 & E4).
      destruct bs as [|b' [|? ?]]; try discriminate. cbn [obind].
      rewrite firstn_app, Nat.sub_diag, firstn_all, firstn_O, app_nil_r.
      rewrite skipn_all2 by (rewrite app_length; cbn; lia).
      exists [ini ++ [b']], s'. split; [reflexivity|]. cbn [concat]. rewrite app_nil_r, <- app_assoc. cbn [app].
      split; [|split; [exact E3|split; [|split; [cbn; lia|split]]]].
      + change (ini ++ b' :: O) with (ini ++ [b'] ++ O). apply inv_add_unmanaged; [exact E2|exact NDi|exact HU| |].
        * intros b H1 [<-|H2]; [|apply (DO b H1 H2)]. specialize (HU _ H1). destruct (E4 b' (or_introl eq_refl)). congruence.
        * intros b H1 H2. apply (DL b H1), in_or_app. auto.
      + cbn [map]. rewrite HG, app_length. cbn [length]. f_equal. lia.
      + intros b Hb Hf. apply in_or_app. apply in_app_or in Hb. destruct Hb as [Hb|[<-|[]]]; [auto|].
        destruct (E4 b' (or_introl eq_refl)). congruence.
      + intros _ b0' rest' _ _ i b Hi Hf. destruct (Nat.lt_ge_cases i (length ini)) as [Hlt|Hge].
        * rewrite nth_error_app1 in * by exact Hlt. exact Hi.
        * rewrite nth_error_app2 in Hi by exact Hge. destruct (i - length ini) as [|k]; [|destruct k; discriminate].
          cbn in Hi. injection Hi as <-. congruence.
    - cbn [obind]. exists [ini ++ [bl]], s. split; [reflexivity|]. cbn [concat]. rewrite app_nil_r.
      split; [|split; [reflexivity|split; [|split; [cbn; lia|split; [auto|]]]]].
      + apply inv_add_unmanaged; [exact I|exact ND| | |exact DL].
        * intros b Hb. apply in_app_or in Hb. destruct Hb as [Hb|[<-|[]]]; [apply HU, Hb|exact Ml].
        * intros b Hb H2. apply in_app_or in Hb. destruct Hb as [Hb|[<-|[]]]; [apply (DO b Hb H2)|]. rewrite (HM bl H2) in Ml. discriminate.
      + cbn [map]. rewrite HG, app_length. cbn [length]. f_equal. lia.
      + intros _ b0' rest' _ _ i b Hi _. exact Hi.
  Qed.

  Lemma sum_group_size groups : list_sum (map (group_size A) groups) = length (concat (concat groups)).
  Proof.
    induction groups as [|g groups IH]; [reflexivity|]. cbn [map list_sum fold_right concat].
    change (fold_right Nat.add 0 (map (group_size A) groups)) with (list_sum (map (group_size A) groups)).
    rewrite concat_app, app_length, IH. reflexivity.
  Qed.

  Lemma merge_phases_ok fuel : forall input n f runs s L, inv s L (map fst (concat runs)) ->
    runs <> [] -> length runs <= S fuel -> 2 <= f -> Forall (run_ok (s_disk s)) runs ->
    (2 <= length runs -> forall b, In b (map fst (concat runs)) -> managed b = true) ->
    NoDup input -> (forall b, In b L -> ~ In b input) -> reusable input -> 2 <= n -> n = length input ->
    length (concat runs) = n ->
    exists r s', merge_phases A cmp B managed fresh fuel input n f runs s = Some (r, s') /\ inv s' L (map fst r) /\
      run_ok (s_disk s') r /\ length r = n /\
      Permutation (content (s_disk s') (map fst r)) (content (s_disk s) (map fst (concat runs))) /\
      (forall b, In b L \/ managed b = false -> ~ In b input -> s_disk s' b = s_disk s b) /\
      (2 <= length runs -> (forall b, In b (map fst r) -> managed b = false -> In b input) /\ kept input (map fst r)).
  Proof.
    induction fuel as [|fuel IH]; intros input n f runs s L I Hne Hfu Hf HR HM ND DL RU Hn2 Hn HS.
    - destruct runs as [|r [|r2 runs]]; [contradiction| |cbn in Hfu; lia].
      cbn [concat] in *. rewrite app_nil_r in *. exists r, s. inversion HR; subst.
      split; [reflexivity|]. split; [exact I|]. split; [assumption|]. split; [assumption|]. split; [apply Permutation_refl|].
      split; [reflexivity|]. cbn. lia.
    - destruct runs as [|r [|r2 runs]]; [contradiction| |].
      { cbn [concat] in *. rewrite app_nil_r in *. exists r, s. inversion HR; subst.
        split; [reflexivity|]. split; [exact I|]. split; [assumption|]. split; [assumption|]. split; [apply Permutation_refl|].
        split; [reflexivity|]. cbn. lia. }
      assert (2 <= length (r :: r2 :: runs)) as H2 by (cbn; lia). specialize (HM H2).
      cbn [merge_phases]. set (rs0 := r :: r2 :: runs) in *. clearbody rs0.
      set (groups := chunks f rs0).
      assert (concat groups = rs0) as Ec by (apply chunks_concat; lia).
      assert (length groups < length rs0) as Hlt by (apply chunk_length; lia).
      assert (groups <> []) as Hgn by (intro E; rewrite E in Ec; cbn in Ec; congruence).
      destruct (phase_bids_ok input n groups s L _ I HM ND DL RU Hn2 Hn) as (outs & s1 & E1 & I1 & D1 & F1 & F2 & F3 & F4).
      { rewrite sum_group_size, Ec. exact HS. }
      rewrite E1. cbn [obind].
      destruct (merge_groups_ok groups outs s1 L []) as (rs & s2 & E2 & G1 & G2 & I2 & G3 & G4).
      { rewrite Forall_forall. intros g Hg. eapply chunk_nonempty; [|exact Hg]. lia. }
      { rewrite Ec, D1. exact HR. }
      { rewrite Ec, app_nil_r. eapply inv_perm; [apply Permutation_app_comm|exact I1]. }
      { exact F1. }
      rewrite E2. cbn [obind]. rewrite app_nil_r in I2.
      assert (map fst (concat rs) = concat outs) as Eo by (rewrite concat_map, G1; reflexivity).
      assert (length rs = length groups) as Lrs.
      { apply (f_equal (@length _)) in G1, F1. rewrite !map_length in *. congruence. }
      destruct (IH input n f rs s2 L) as (r' & s3 & E3 & I3 & K1 & K2 & K3 & K4 & K5).
      { rewrite Eo. exact I2. }
      { intros ->. cbn in Lrs. destruct groups; [contradiction|discriminate]. }
      { lia. } { exact Hf. } { exact G2. }
      { intros Hl b Hb. rewrite Eo in Hb. apply F2; [lia|exact Hb]. }
      { exact ND. } { exact DL. } { exact RU. } { exact Hn2. } { exact Hn. }
      { rewrite <- (map_length fst), Eo, length_concat_sum, F1, sum_group_size, Ec. exact HS. }
      rewrite E3. exists r', s3. split; [reflexivity|]. split; [exact I3|]. split; [exact K1|]. split; [exact K2|].
      split; [|split].
      + eapply Permutation_trans; [exact K3|]. rewrite Eo. rewrite Ec, D1 in G3. exact G3.
      + intros b Hb Hi. rewrite K4 by assumption. rewrite G4; [rewrite D1; reflexivity|]. intro Ho.
        destruct Hb as [Hb|Hb]; [|apply Hi, F3; assumption]. destruct I2 as [_ _ _ I4]. apply (I4 b Hb Ho).
      + intros _. destruct (Nat.lt_ge_cases 1 (length rs)) as [Hl|Hl]; [apply K5; lia|].
        assert (exists q, rs = [q]) as (q & ->).
        { destruct rs as [|q [|? ?]]; [|eauto|cbn in Hl; lia]. exfalso. destruct groups; [contradiction|discriminate]. }
        assert (r' = q) as ->.
        { destruct fuel; cbn in E3; congruence. }
        cbn [concat] in Eo. rewrite app_nil_r in Eo. rewrite Eo. split; [exact F3|]. apply F4. rewrite <- Lrs. reflexivity.
  Qed.

  Lemma alloc_runs_ok sizes : forall s L O bids s', inv s L O -> alloc_runs A fresh sizes s = (bids, s') ->
    inv s' L (concat bids ++ O) /\ s_disk s' = s_disk s /\ map (@length nat) bids = sizes /\
    (forall b, In b (concat bids) -> managed b = true).
  Proof.
    induction sizes as [|n sizes IH]; intros s L O bids s' I E.
    - cbn in E. injection E as <- <-. split; [exact I|]. split; [reflexivity|]. split; [reflexivity|]. intros b [].
    - cbn [alloc_runs] in E. destruct (new_blocks fresh n s) as [bs s1] eqn:E1. destruct (alloc_runs A fresh sizes s1) as [rs s2] eqn:E2.
      injection E as <- <-. destruct (new_blocks_ok s L O n bs s1 I E1) as (F1 & F2 & F3 & F4).
      destruct (IH s1 L (bs ++ O) rs s2 F2 E2) as (G1 & G2 & G3 & G4). cbn [concat map]. split; [|split; [|split]].
      + eapply inv_perm; [|exact G1]. rewrite !app_assoc. apply Permutation_app_tail, Permutation_app_comm.
      + congruence.
      + congruence.
      + intros b Hb. apply in_app_or in Hb. destruct Hb as [Hb|Hb]; [apply F4, Hb|apply G4, Hb].
  Qed.

  Lemma sort_blocks_ok input m2 m s L : inv s L input -> (forall b, In b input -> length (s_disk s b) = B) ->
    0 < m2 -> m2 < length input -> reusable input ->
    exists out s', sort_blocks A cmp srt B managed fresh mf input m2 m s = Some (out, s') /\ inv s' L (map fst out) /\
      run_ok (s_disk s') out /\ length out = length input /\
      Permutation (content (s_disk s') (map fst out)) (content (s_disk s) input) /\
      (forall b, In b L \/ managed b = false -> ~ In b input -> s_disk s' b = s_disk s b) /\
      (forall b, In b (map fst out) -> managed b = false -> In b input) /\ kept input (map fst out).
  Proof.
    intros I HF Hm Hn RU. unfold sort_blocks. set (n := length input) in *.
    destruct (Nat.eqb_spec m2 0); [lia|].
    set (sizes := repeat m2 (n / m2) ++ (if n mod m2 =? 0 then [] else [n mod m2])).
    assert (list_sum sizes = n) as Hs.
    { unfold sizes. rewrite list_sum_app, list_sum_repeat. pose proof (Nat.div_mod n m2 n0).
      destruct (Nat.eqb_spec (n mod m2) 0); cbn; lia. }
    assert (Forall (fun x => 0 < x) sizes) as Hp.
    { unfold sizes. apply Forall_app. split.
      - rewrite Forall_forall. intros x Hx. apply repeat_spec in Hx. lia.
      - destruct (Nat.eqb_spec (n mod m2) 0); constructor; [lia|constructor]. }
    assert (2 <= length sizes) as H2.
    { unfold sizes. rewrite app_length, repeat_length. pose proof (Nat.div_mod n m2 n0).
      pose proof (Nat.mod_upper_bound n m2 n0).
      destruct (Nat.eqb_spec (n mod m2) 0) as [e|e]; cbn [length].
      - destruct (n / m2) as [|[|q]]; [lia|lia|lia].
      - destruct (n / m2) as [|q]; [lia|lia]. }
    destruct (Nat.ltb_spec (length sizes) 2); [lia|].
    destruct (alloc_runs A fresh sizes s) as [bids s1] eqn:E1.
    destruct (alloc_runs_ok sizes s L input bids s1 I E1) as (I1 & D1 & L1 & M1).
    destruct (create_runs_ok bids input s1 L []) as (rs & s2 & E2 & I2 & F1 & F2 & F3 & F4).
    { rewrite app_nil_r. eapply inv_perm; [apply Permutation_app_comm|exact I1]. }
    { rewrite length_concat_sum, L1, Hs. reflexivity. }
    { rewrite Forall_forall in *. intros r Hr E. apply (in_map (@length nat)) in Hr. rewrite L1, E in Hr. specialize (Hp _ Hr). cbn in Hp. lia. }
    { intros b Hb. rewrite D1. apply HF, Hb. }
    rewrite E2. cbn [obind]. rewrite app_nil_r in I2.
    assert (map fst (concat rs) = concat bids) as Eb by (rewrite concat_map, F1; reflexivity).
    assert (length rs = length sizes) as Lr.
    { apply (f_equal (@length _)) in F1, L1. rewrite !map_length in *. congruence. }
    destruct (merge_phases_ok (length sizes) input n (mf (length sizes) m) rs s2 L) as (r & s3 & E3 & I3 & G1 & G2 & G3 & G4 & G5).
    { rewrite Eb. exact I2. } { intros ->. cbn in Lr. lia. } { lia. } { apply MF. } { exact F2. }
    { intros _ b Hb. rewrite Eb in Hb. apply M1, Hb. }
    { apply I. } { apply I. } { exact RU. } { lia. } { reflexivity. }
    { rewrite <- (map_length fst), Eb, length_concat_sum, L1, Hs. reflexivity. }
    rewrite E3. exists r, s3. split; [reflexivity|]. split; [exact I3|]. split; [exact G1|]. split; [exact G2|].
    destruct (G5 ltac:(lia)) as [G6 G7]. split; [|split; [|split; [exact G6|exact G7]]].
    - eapply Permutation_trans; [exact G3|]. rewrite Eb. eapply Permutation_trans; [exact F3|]. rewrite D1. apply Permutation_refl.
    - intros b Hb Hi. rewrite G4 by assumption. rewrite F4; [rewrite D1; reflexivity|]. intro Hc. specialize (M1 b Hc).
      destruct Hb as [Hb|Hb]; [|congruence]. destruct I1 as [_ _ _ I4]. apply (I4 b Hb). apply in_or_app. auto.
  Qed.

  (** padding *)
  Lemma min_prefix k : forall l rest, sorted cmp l -> Permutation l (repeat minv k ++ rest) ->
    (forall x, In x rest -> cmp minv x = true \/ x = minv) ->
    exists l2, l = repeat minv k ++ l2 /\ Permutation l2 rest /\ sorted cmp l2.
  Proof.
    induction k as [|k IH]; intros l rest HS HP HR; [exists l; auto|].
    destruct l as [|x l]; [apply Permutation_nil in HP; discriminate|].
    assert (x = minv) as ->.
    { assert (le cmp x minv) as Hx.
      { eapply sorted_hd; [exact SW|exact HS|]. eapply Permutation_in; [apply Permutation_sym, HP|]. left. reflexivity. }
      assert (In x (repeat minv (S k) ++ rest)) as Hi by (eapply Permutation_in; [exact HP|left; reflexivity]).
      apply in_app_or in Hi. destruct Hi as [Hi|Hi]; [apply repeat_spec in Hi; exact Hi|].
      destruct (HR x Hi) as [H|H]; [unfold le in Hx; congruence|exact H]. }
    cbn [repeat app] in HP. apply Permutation_cons_inv in HP. inversion HS; subst.
    destruct (IH l rest) as (l2 & -> & P2 & S2); [assumption|exact HP|exact HR|]. exists l2. auto.
  Qed.
  Lemma max_suffix k : forall l rest, sorted cmp l -> Permutation l (rest ++ repeat maxv k) ->
    (forall x, In x rest -> cmp x maxv = true \/ x = maxv) ->
    exists l1, l = l1 ++ repeat maxv k /\ Permutation l1 rest /\ sorted cmp l1.
  Proof.
    induction k as [|k IH]; intros l rest HS HP HR; [exists l; cbn in *; rewrite app_nil_r in *; auto|].
    destruct (@exists_last _ l) as (l' & x & ->).
    { intros ->. apply Permutation_nil in HP. destruct rest; discriminate. }
    destruct (sorted_app_inv A cmp _ _ HS) as (S1 & _ & S3).
    assert (x = maxv) as ->.
    { assert (le cmp maxv x) as Hx.
      { assert (In maxv (l' ++ [x])) as Hm.
        { eapply Permutation_in; [apply Permutation_sym, HP|]. apply in_or_app. right. left. reflexivity. }
        apply in_app_or in Hm. destruct Hm as [Hm|[<-|[]]]; [apply S3; [exact Hm|left; reflexivity]|apply le_refl, SW]. }
      assert (In x (rest ++ repeat maxv (S k))) as Hi by (eapply Permutation_in; [exact HP|apply in_or_app; right; left; reflexivity]).
      apply in_app_or in Hi. destruct Hi as [Hi|Hi]; [|apply repeat_spec in Hi; exact Hi].
      destruct (HR x Hi) as [H|H]; [unfold le in Hx; congruence|exact H]. }
    assert (repeat maxv (S k) = repeat maxv k ++ [maxv]) as Er by (cbn [repeat]; apply repeat_cons).
    rewrite Er, app_assoc in HP. apply Permutation_app_inv_r in HP.
    destruct (IH l' rest S1 HP HR) as (l1 & -> & P1 & S1'). exists l1. rewrite Er, app_assoc. auto.
  Qed.

  Lemma split3 {X} (l : list X) i n : i + n <= length l ->
    exists pre rb post, l = pre ++ rb ++ post /\ length pre = i /\ length rb = n.
  Proof.
    intro H. exists (firstn i l), (firstn n (skipn i l)), (skipn n (skipn i l)).
    rewrite !firstn_skipn, !firstn_length, skipn_length. split; [reflexivity|]. lia.
  Qed.
  Lemma slice_app {X} (pre rb post : list X) : firstn (length rb) (skipn (length pre) (pre ++ rb ++ post)) = rb.
  Proof. rewrite skipn_app, Nat.sub_diag, skipn_all. cbn. rewrite firstn_app, Nat.sub_diag, firstn_all, firstn_O, app_nil_r. reflexivity. Qed.
  Lemma set_bid_app pre x b post : set_bid (length pre) b (pre ++ x :: post) = Some (pre ++ b :: post).
  Proof.
    unfold set_bid. rewrite app_length. cbn [length]. destruct (Nat.ltb_spec (length pre) (length pre + S (length post))); [|lia].
    rewrite firstn_app, Nat.sub_diag, firstn_all, firstn_O, app_nil_r.
    rewrite skipn_app, skipn_all2 by lia. replace (length pre + 1 - length pre) with 1 by lia. reflexivity.
  Qed.
  Lemma set_bids_app bs : forall pre old post, length old = length bs ->
    set_bids (length pre) bs (pre ++ old ++ post) = Some (pre ++ bs ++ post).
  Proof.
    induction bs as [|b bs IH]; intros pre old post H; [destruct old; [reflexivity|discriminate]|].
    destruct old as [|x old]; [discriminate|]. cbn [set_bids app]. rewrite set_bid_app. cbn [obind].
    replace (length pre + 1) with (length (pre ++ [b])) by (rewrite app_length; reflexivity).
    change (pre ++ b :: old ++ post) with (pre ++ [b] ++ old ++ post). rewrite app_assoc.
    rewrite IH by (injection H as H; exact H). rewrite <- app_assoc. reflexivity.
  Qed.

  (** the blocks of others *)
  Definition others (s : st) (rb : list nat) : list nat := filter (fun b => negb (existsb (Nat.eqb b) rb)) (s_live s).
  Lemma others_in s rb b : In b (others s rb) <-> In b (s_live s) /\ ~ In b rb.
  Proof.
    unfold others. rewrite filter_In. split; intros [H1 H2]; split; auto.
    - intro H. apply negb_true_iff in H2. assert (existsb (Nat.eqb b) rb = true); [|congruence].
      apply existsb_exists. exists b. split; [exact H|apply Nat.eqb_refl].
    - apply negb_true_iff. destruct (existsb (Nat.eqb b) rb) eqn:E; [|reflexivity]. apply existsb_exists in E.
      destruct E as (x & Hx & E). apply Nat.eqb_eq in E. subst. contradiction.
  Qed.
  Lemma inv_init s bids pre rb post : manager_ok managed (s_live s) -> vector_ok managed B (s_disk s) (s_live s) bids ->
    bids = pre ++ rb ++ post -> inv s (others s rb) rb.
  Proof.
    intros [HN HM] [V1 V2 V3] E. constructor; [exact HN| | |].
    - intro b. rewrite others_in. split.
      + intro H. destruct (in_dec Nat.eq_dec b rb) as [Hi|Hi]; auto.
      + intros [H|[H M]]; [apply H|]. apply V3; [|exact M]. rewrite E. apply in_or_app. right. apply in_or_app. auto.
    - rewrite E in V1. apply NoDup_app_remove_l, NoDup_app_remove_r in V1. exact V1.
    - intros b Hb. apply others_in in Hb. apply Hb.
  Qed.

  Lemma in_mid {X} (b : X) pre rb post : In b (pre ++ rb ++ post) <-> In b rb \/ In b (pre ++ post).
  Proof. rewrite !in_app_iff. tauto. Qed.

  Lemma finish s bids pre rb post R1 R2 R3 M s' rb' first last :
    manager_ok managed (s_live s) -> vector_ok managed B (s_disk s) (s_live s) bids -> bids = pre ++ rb ++ post ->
    content (s_disk s) rb = R1 ++ R2 ++ R3 ->
    first = length pre * B + length R1 -> last = first + length R2 ->
    inv s' (others s rb) rb' -> length rb' = length rb -> (forall b, In b rb' -> length (s_disk s' b) = B) ->
    content (s_disk s') rb' = R1 ++ M ++ R3 -> Permutation M R2 -> sorted cmp M ->
    (forall b, ~ In b rb -> In b (s_live s) \/ managed b = false -> s_disk s' b = s_disk s b) ->
    (forall b, In b rb' -> managed b = false -> In b rb) ->
    sorted_range cmp managed B (s_disk s) (s_disk s') (s_live s) (s_live s') bids (pre ++ rb' ++ post) first last.
  Proof.
    intros HM V E EC Hf Hl I HLn HF EC' HP HS HO HU.
    assert (forall b, In b (pre ++ post) -> ~ In b rb) as D1.
    { intros b H1 H2. destruct V as [V1 _ _]. rewrite E in V1.
      assert (Permutation (pre ++ rb ++ post) (rb ++ pre ++ post)) as P by (rewrite !app_assoc; apply Permutation_app_tail, Permutation_app_comm).
      apply (Permutation_NoDup P) in V1. apply (NoDup_app_dis _ _ b V1 H2 H1). }
    assert (forall b, In b (pre ++ post) -> In b (s_live s) \/ managed b = false) as D2.
    { intros b Hb. destruct (managed b) eqn:Mb; [left|auto]. destruct V as [_ _ V3]. apply V3; [|exact Mb]. rewrite E. apply in_mid. auto. }
    assert (forall b, In b (pre ++ post) -> s_disk s' b = s_disk s b) as D3 by (intros b Hb; apply HO; auto).
    assert (forall b, In b rb' -> ~ In b (pre ++ post)) as D4.
    { intros b H1 H2. destruct (D2 b H2) as [H|H].
      - destruct I as [_ _ _ I4]. apply (I4 b); [|exact H1]. apply others_in. auto.
      - apply (D1 b H2). apply HU; assumption. }
    assert (length (content (s_disk s) pre) = length pre * B) as Lp.
    { unfold content. apply concat_full. intros b Hb. destruct V as [_ V2 _]. apply V2. rewrite E. apply in_or_app. auto. }
    constructor.
    - constructor.
      + assert (Permutation (rb' ++ pre ++ post) (pre ++ rb' ++ post)) as P by (rewrite !app_assoc; apply Permutation_app_tail, Permutation_app_comm).
        apply (Permutation_NoDup P). destruct V as [V1 _ _]. rewrite E in V1.
        assert (Permutation (pre ++ rb ++ post) (rb ++ pre ++ post)) as P2 by (rewrite !app_assoc; apply Permutation_app_tail, Permutation_app_comm).
        apply (Permutation_NoDup P2), NoDup_app_remove_l in V1. destruct I as [_ _ N _].
        clear - N V1 D4. induction rb' as [|b r IH]; [exact V1|]. cbn. inversion N; subst. constructor.
        * rewrite in_app_iff. intros [H|H]; [contradiction|]. apply (D4 b); [left; reflexivity|exact H].
        * apply IH; [assumption|]. intros x Hx. apply D4. right. exact Hx.
      + intros b Hb. apply in_mid in Hb. destruct Hb as [Hb|Hb]; [apply HF, Hb|]. rewrite D3 by exact Hb.
        destruct V as [_ V2 _]. apply V2. rewrite E. apply in_mid. auto.
      + intros b Hb Mb. destruct I as [_ I2 _ _]. apply I2. apply in_mid in Hb. destruct Hb as [Hb|Hb]; [auto|]. left.
        apply others_in. split; [|apply D1, Hb]. destruct (D2 b Hb); [assumption|congruence].
    - rewrite E, !app_length, HLn. reflexivity.
    - exists M. assert (content (s_disk s) bids = (content (s_disk s) pre ++ R1) ++ R2 ++ (R3 ++ content (s_disk s) post)) as Ec.
      { rewrite E, !content_app, EC, <- !app_assoc. reflexivity. }
      rewrite Ec. assert (first = length (content (s_disk s) pre ++ R1)) as Hf' by (rewrite app_length; lia).
      assert (last - first = length R2) as Hl' by lia. rewrite Hl', Hf', slice_app.
      replace last with (length ((content (s_disk s) pre ++ R1) ++ R2)) by (rewrite app_length; lia).
      split; [|split; [exact HP|exact HS]].
      rewrite (app_assoc (content _ pre ++ R1) R2), skipn_app, Nat.sub_diag, skipn_all, skipn_O. cbn [app].
      rewrite <- (app_assoc _ R2), firstn_app, Nat.sub_diag, firstn_all, firstn_O, app_nil_r.
      rewrite !content_app, EC'. rewrite !(content_ext (s_disk s) (s_disk s')); [rewrite <- !app_assoc; reflexivity| |].
      + intros b Hb. apply D3, in_or_app. auto.
      + intros b Hb. apply D3, in_or_app. auto.
    - intros b Hb Hc. apply HO; [|exact Hc]. intro H. apply Hb. rewrite E. apply in_mid. auto.
    - destruct I as [I1 I2 _ _]. split; [exact I1|]. intros b Hb. apply I2 in Hb. destruct Hb as [Hb|[_ Hb]]; [|exact Hb].
      apply others_in in Hb. apply (proj2 HM), Hb.
    - intro b. destruct I as [_ I2 _ _]. rewrite I2, others_in. split.
      + intros [[H1 H2]|[H1 H2]].
        * destruct (in_dec Nat.eq_dec b (pre ++ post)) as [Hp|Hp].
          -- right. split; [apply in_mid; auto|apply (proj2 HM), H1].
          -- left. split; [exact H1|]. rewrite E, in_mid. tauto.
        * right. split; [apply in_mid; auto|exact H2].
      + intros [[H1 H2]|[H1 H2]].
        * left. split; [exact H1|]. intro H. apply H2. rewrite E. apply in_mid. auto.
        * apply in_mid in H1. destruct H1 as [H1|H1]; [auto|]. left. split; [|apply D1, H1].
          destruct (D2 b H1); [assumption|congruence].
  Qed.

  (** moving a block of ours to the others and back *)
  Definition with_b (b : nat) (L : list nat) : list nat := if managed b then b :: L else L.
  Lemma inv_out s L b O : inv s L (b :: O) -> inv s (with_b b L) O.
  Proof.
    intros I. unfold with_b. destruct (managed b) eqn:M; [|eapply inv_drop_unmanaged; eassumption].
    destruct I as [I1 I2 I3 I4]. inversion I3; subst. constructor; [exact I1| |assumption|].
    - intro x. rewrite I2. cbn [In]. split; [intros [H|[[H|H] Mx]]; auto|]. intros [[<-|H]|[H Mx]]; auto.
    - intros x [<-|Hx]; [assumption|]. intro H. apply (I4 x Hx). right. exact H.
  Qed.
  Lemma inv_back s L b O : inv s (with_b b L) O -> ~ In b L -> ~ In b O -> inv s L (b :: O).
  Proof.
    intros I HL HO. unfold with_b in I. destruct (managed b) eqn:M.
    - destruct I as [I1 I2 I3 I4]. constructor; [exact I1| |constructor; assumption|].
      + intro x. rewrite I2. cbn [In]. split; [intros [[<-|H]|[H Mx]]; auto|]. intros [H|[[<-|H] Mx]]; auto.
      + intros x Hx [<-|H]; [contradiction|]. apply (I4 x); [right; exact Hx|exact H].
    - apply (inv_add_unmanaged s L [b] O I); [repeat constructor; auto| | |].
      + intros x [<-|[]]. exact M.
      + intros x [<-|[]]. exact HO.
      + intros x Hx [<-|[]]. contradiction.
  Qed.
  Lemma with_b_in b L x : In x L -> In x (with_b b L).
  Proof. unfold with_b. intro H. destruct (managed b); [right|]; exact H. Qed.
  Lemma with_b_self b L : In b (with_b b L) \/ managed b = false.
  Proof. unfold with_b. destruct (managed b); [left; left; reflexivity|auto]. Qed.

  Lemma new_block_ok s L O : inv s L O -> exists b s', new_block A fresh s = Some (b, s') /\ inv s' L (b :: O) /\ s_disk s' = s_disk s /\
    managed b = true /\ ~ In b (s_live s).
  Proof.
    intro I. unfold new_block. destruct (new_blocks fresh 1 s) as [bs s'] eqn:E.
    destruct (new_blocks_ok s L O 1 bs s' I E) as (E1 & E2 & E3 & E4). destruct bs as [|b [|? ?]]; try discriminate.
    exists b, s'. split; [reflexivity|]. split; [exact E2|]. split; [exact E3|]. apply E4. left. reflexivity.
  Qed.

  Lemma run_full d r b : run_ok d r -> In b (map fst r) -> length (d b) = B.
  Proof. intros (_ & R & _) H. apply in_map_iff in H. destruct H as (e & <- & He). rewrite Forall_forall in R. apply (R e He). Qed.

  Definition homogeneous (bids : list nat) : Prop :=
    (forall b, In b bids -> managed b = true) \/ (forall b, In b bids -> managed b = false).

  Lemma homogeneous_reusable input : homogeneous input -> reusable input.
  Proof.
    intros [H|H] b0 mid bl E M b Hb.
    - rewrite (H b0) in M; [discriminate|]. rewrite E. left. reflexivity.
    - apply H. rewrite E. right. apply in_or_app. auto.
  Qed.

  Lemma kept_all input out : kept input out -> length out = length input -> (forall b, In b input -> managed b = false) -> out = input.
  Proof.
    intros K HL HM. apply nth_error_ext. intro i. destruct (nth_error input i) as [b|] eqn:E.
    - destruct input as [|b0 rest]; [destruct i; discriminate|].
      apply (K b0 rest eq_refl); [apply HM; left; reflexivity|exact E|apply HM]. eapply nth_error_In, E.
    - apply nth_error_None. rewrite HL. apply nth_error_None, E.
  Qed.

  (** first and last aligned *)
  Lemma external_aligned s bids m2 m pre rb post : manager_ok managed (s_live s) ->
    vector_ok managed B (s_disk s) (s_live s) bids -> homogeneous bids -> bids = pre ++ rb ++ post -> 0 < m2 < length rb ->
    exists bids' s', sort_external A cmp minv maxv srt B managed fresh mf m2 m bids (length pre * B) ((length pre + length rb) * B) s = Some (bids', s') /\
      sorted_range cmp managed B (s_disk s) (s_disk s') (s_live s) (s_live s') bids bids' (length pre * B) ((length pre + length rb) * B) /\
      ((forall b, In b bids -> managed b = false) -> bids' = bids).
  Proof.
    intros HM V HH E Hm. unfold sort_external. rewrite !Nat.mod_mul, !Nat.div_mul by lia. cbn [Nat.eqb].
    replace (length pre + length rb - length pre) with (length rb) by lia. rewrite E, slice_app.
    destruct (sort_blocks_ok rb m2 m s (others s rb)) as (out & s' & E1 & I1 & F1 & F2 & F3 & F4 & F5 & F6); [| |lia|lia| |].
    { eapply inv_init; eassumption. }
    { intros b Hb. destruct V as [_ V2 _]. apply V2. rewrite E. apply in_mid. auto. }
    { apply homogeneous_reusable. destruct HH as [H|H]; [left|right]; intros b Hb; apply H; rewrite E; apply in_mid; auto. }
    rewrite E1. cbn [obind]. rewrite set_bids_app by (rewrite map_length; auto). cbn [obind].
    exists (pre ++ map fst out ++ post), s'. split; [reflexivity|]. split.
    - eapply (finish s (pre ++ rb ++ post) pre rb post [] (content (s_disk s) rb) [] (content (s_disk s') (map fst out)) s' (map fst out)).
      + exact HM.
      + rewrite <- E. exact V.
      + reflexivity.
      + rewrite app_nil_r. reflexivity.
      + cbn. lia.
      + unfold content. rewrite (concat_full _ B); [lia|]. intros b Hb. destruct V as [_ V2 _]. apply V2. rewrite E. apply in_mid. auto.
      + exact I1.
      + rewrite map_length. exact F2.
      + intros b Hb. eapply run_full; eassumption.
      + rewrite app_nil_r. reflexivity.
      + exact F3.
      + apply F1.
      + intros b Hb Hc. apply F4; [|exact Hb]. destruct Hc as [Hc|Hc]; [left|auto]. apply others_in. auto.
      + exact F5.
    - intro HU. f_equal. f_equal. apply (kept_all rb); [exact F6|rewrite map_length; exact F2|]. intros b Hb. apply HU. apply in_mid. auto.
  Qed.

  (** first aligned, last in the middle of a block *)
  Lemma external_last s bids m2 m pre rmid bl post lo : manager_ok managed (s_live s) ->
    vector_ok managed B (s_disk s) (s_live s) bids -> homogeneous bids -> bids = pre ++ (rmid ++ [bl]) ++ post -> 0 < m2 < S (length rmid) ->
    0 < lo < B -> (forall x, In x (content (s_disk s) rmid ++ firstn lo (s_disk s bl)) -> between cmp minv maxv x) ->
    exists bids' s', sort_external A cmp minv maxv srt B managed fresh mf m2 m bids (length pre * B) ((length pre + length rmid) * B + lo) s = Some (bids', s') /\
      sorted_range cmp managed B (s_disk s) (s_disk s') (s_live s) (s_live s') bids bids' (length pre * B) ((length pre + length rmid) * B + lo) /\
      ((forall b, In b bids -> managed b = false) -> bids' = bids).
  Proof.
    intros HM V HH E Hm Hlo HB'. unfold sort_external.
    rewrite Nat.mod_mul, Nat.div_mul by lia. cbn [Nat.eqb].
    assert (((length pre + length rmid) * B + lo) mod B = lo) as Em.
    { rewrite Nat.add_comm, Nat.mod_add by lia. apply Nat.mod_small. lia. }
    assert (((length pre + length rmid) * B + lo) / B = length pre + length rmid) as Ed.
    { rewrite Nat.add_comm, Nat.div_add by lia. rewrite Nat.div_small by lia. reflexivity. }
    rewrite Em, Ed. destruct (Nat.eqb_spec lo 0) as [?|_]; [lia|].
    assert (bids = (pre ++ rmid) ++ bl :: post) as E' by (rewrite E, <- !app_assoc; reflexivity).
    assert (length pre + length rmid = length (pre ++ rmid)) as El by (rewrite app_length; reflexivity).
    rewrite El. assert (nth_error bids (length (pre ++ rmid)) = Some bl) as ->.
    { rewrite E', nth_error_app2, Nat.sub_diag by lia. reflexivity. }
    cbn [obind].
    set (rb := rmid ++ [bl]) in *.
    pose proof (inv_init s bids pre rb post HM V E) as I0. set (L := others s rb) in *.
    assert (In bl rb) as Hbl by (unfold rb; apply in_or_app; right; left; reflexivity).
    assert (forall b, In b rb -> length (s_disk s b) = B) as FB.
    { intros b Hb. destruct V as [_ V2 _]. apply V2. rewrite E. apply in_mid. auto. }
    destruct (new_block_ok s L rb I0) as (nb & s1 & E1 & I1 & D1 & M1 & N1).
    rewrite E1. cbn [obind]. rewrite D1. set (padded := pad_last A maxv B lo (s_disk s bl)).
    set (s2 := write nb padded s1).
    rewrite E', set_bid_app. cbn [obind]. rewrite <- app_assoc.
    replace (length (pre ++ rmid) - length pre + 1) with (length (rmid ++ [nb])) by (rewrite !app_length; cbn; lia).
    change (rmid ++ nb :: post) with (rmid ++ [nb] ++ post). rewrite (app_assoc rmid), slice_app.
    set (input := rmid ++ [nb]).
    assert (~ In nb rb) as Nnb by (pose proof (i_O _ _ _ I1) as N; inversion N; assumption).
    assert (nb <> bl) as Hnbl by (intros ->; apply Nnb, Hbl).
    assert (~ In bl rmid) as Nbl.
    { pose proof (i_O _ _ _ I0) as N. unfold rb in N. intro H. apply (NoDup_app_dis _ _ bl N H). left. reflexivity. }
    assert (inv s2 (with_b bl L) input) as I2.
    { apply inv_out. apply inv_write. eapply inv_perm; [|exact I1]. unfold rb, input.
      change (nb :: rmid ++ [bl]) with ([nb] ++ rmid ++ [bl]). change (bl :: rmid ++ [nb]) with ([bl] ++ rmid ++ [nb]).
      eapply Permutation_trans; [apply Permutation_app_head, Permutation_app_comm|]. cbn. eapply Permutation_trans; [apply perm_swap|].
      constructor. apply Permutation_cons_append. }
    assert (~ In bl input) as Nbi by (unfold input; rewrite in_app_iff; intros [H|[H|[]]]; [contradiction|congruence]).
    assert (length padded = B) as Lpad.
    { unfold padded, pad_last. rewrite app_length, firstn_length, repeat_length, FB by exact Hbl. lia. }
    assert (s_disk s2 nb = padded) as Dnb by (cbn; apply upd_same).
    assert (forall b, b <> nb -> s_disk s2 b = s_disk s b) as D2 by (intros b Hb; cbn; rewrite upd_other by auto; rewrite D1; reflexivity).
    destruct (sort_blocks_ok input m2 m s2 (with_b bl L)) as (out & s3 & E3 & I3 & F1 & F2 & F3 & F4 & F5 & F6).
    { exact I2. }
    { intros b Hb. unfold input in Hb. apply in_app_or in Hb. destruct Hb as [Hb|[<-|[]]]; [|rewrite Dnb; exact Lpad].
      rewrite D2; [apply FB; unfold rb; apply in_or_app; auto|]. intros ->. apply Nnb. unfold rb. apply in_or_app. auto. }
    { lia. } { unfold input. rewrite app_length. cbn. lia. }
    { intros b0 mid z Ez Mz b Hb. unfold input in Ez. change (b0 :: mid ++ [z]) with ((b0 :: mid) ++ [z]) in Ez.
      apply app_inj_tail in Ez. destruct Ez as [Ez _]. destruct HH as [H|H].
      - rewrite (H b0) in Mz; [discriminate|]. rewrite E'. apply in_or_app. left. apply in_or_app. right. rewrite Ez. left. reflexivity.
      - apply H. rewrite E'. apply in_or_app. left. apply in_or_app. right. rewrite Ez. right. exact Hb. }
    rewrite E3. cbn [obind].
    destruct (@exists_last _ out) as (oinit & z & Eo); [destruct F1 as [F1 _]; exact F1|].
    assert (length oinit = length rmid) as Loi.
    { rewrite Eo in F2. unfold input in F2. rewrite !app_length in F2. cbn in F2. lia. }
    assert (last_entry A out = Some (fst z)) as ->.
    { unfold last_entry. rewrite Eo, app_length. cbn [length]. rewrite nth_error_app2 by lia.
      replace (length oinit + 1 - 1 - length oinit) with 0 by lia. reflexivity. }
    cbn [obind].
    assert (map fst out = map fst oinit ++ [fst z]) as Emo by (rewrite Eo, map_app; reflexivity).
    assert (~ In bl (map fst out)) as Nbo.
    { intro H. destruct (with_b_self bl L) as [W|W]; [apply (i_dis _ _ _ I3 bl W H)|]. apply Nbi. apply F5; assumption. }
    assert (s_disk s3 bl = s_disk s bl) as Dbl.
    { rewrite F4; [apply D2; auto|apply with_b_self|exact Nbi]. }
    rewrite Dbl. set (new_last := patch 0 lo (s_disk s3 (fst z)) (s_disk s bl)).
    set (s4 := write bl new_last s3).
    assert (inv s4 (with_b bl L) (fst z :: map fst oinit)) as I4.
    { apply inv_write. eapply inv_perm; [|exact I3]. rewrite Emo. apply Permutation_sym, Permutation_cons_append. }
    destruct (delete_block_ok _ _ _ _ I4) as (s5 & E5 & I5 & D5). rewrite E5. cbn [obind].
    change (pre ++ (rmid ++ [nb]) ++ post) with (pre ++ input ++ post).
    assert (pre ++ input ++ post = (pre ++ rmid) ++ nb :: post) as -> by (unfold input; rewrite <- !app_assoc; reflexivity).
    rewrite set_bid_app. cbn [obind].
    replace (length (pre ++ rmid) - length pre) with (length oinit) by (rewrite app_length; lia).
    rewrite Emo, firstn_app, map_length, Nat.sub_diag, firstn_O, app_nil_r.
    rewrite <- (map_length fst oinit), firstn_all.
    rewrite <- app_assoc, set_bids_app by (rewrite map_length; lia). cbn [obind].
    exists (pre ++ map fst oinit ++ bl :: post), s5. split; [reflexivity|].
    assert (s_disk s5 bl = new_last) as Dz by (rewrite D5; cbn; apply upd_same).
    assert (forall b, b <> bl -> s_disk s5 b = s_disk s3 b) as D53 by (intros b Hb; rewrite D5; cbn; apply upd_other; auto).
    assert (length (s_disk s3 (fst z)) = B) as Lz.
    { eapply run_full; [exact F1|]. rewrite Emo. apply in_or_app. right. left. reflexivity. }
    assert (length new_last = B) as Lnl.
    { unfold new_last, patch. cbn [firstn skipn app]. rewrite Nat.sub_0_r, app_length, firstn_length, skipn_length, Lz, FB by exact Hbl. lia. }
    destruct (max_suffix (B - lo) (content (s_disk s3) (map fst out)) (content (s_disk s) rmid ++ firstn lo (s_disk s bl))) as (l1 & G1 & G2 & G3).
    { apply F1. }
    { eapply Permutation_trans; [exact F3|]. unfold input. rewrite content_app. unfold content at 2. cbn [map concat].
      rewrite app_nil_r, Dnb. unfold padded, pad_last. rewrite app_assoc.
      rewrite (content_ext (s_disk s)); [apply Permutation_refl|]. intros b Hb. apply D2. intros ->. apply Nnb. unfold rb. apply in_or_app. auto. }
    { intros x Hx. apply HB'. exact Hx. }
    assert (l1 = content (s_disk s3) (map fst oinit) ++ firstn lo (s_disk s3 (fst z))) as El1.
    { rewrite Emo, content_app in G1. unfold content at 2 in G1. cbn [map concat] in G1. rewrite app_nil_r in G1.
      rewrite <- (firstn_skipn lo (s_disk s3 (fst z))), app_assoc in G1.
      assert (length (skipn lo (s_disk s3 (fst z))) = length (repeat maxv (B - lo))) as Ls by (rewrite skipn_length, repeat_length; lia).
      clear - G1 Ls. set (a := content (s_disk s3) (map fst oinit) ++ firstn lo (s_disk s3 (fst z))) in *.
      set (b := skipn lo (s_disk s3 (fst z))) in *. clearbody a b.
      assert (length a = length l1) as La by (apply (f_equal (@length A)) in G1; rewrite !app_length in G1; lia).
      apply (f_equal (firstn (length l1))) in G1. rewrite !firstn_app, La, Nat.sub_diag, !firstn_O, !app_nil_r, <- La in G1.
      rewrite firstn_all in G1. rewrite G1, La. symmetry. apply firstn_all. }
    split.
    - replace (pre ++ map fst oinit ++ bl :: post) with (pre ++ (map fst oinit ++ [bl]) ++ post) by (rewrite <- app_assoc; reflexivity).
      rewrite <- El. replace (pre ++ rmid ++ bl :: post) with (pre ++ rb ++ post) by (unfold rb; rewrite <- !app_assoc; reflexivity).
      eapply (finish s (pre ++ rb ++ post) pre rb post [] (content (s_disk s) rmid ++ firstn lo (s_disk s bl)) (skipn lo (s_disk s bl)) l1).
      + exact HM.
      + rewrite <- E. exact V.
      + reflexivity.
      + cbn [app]. rewrite <- app_assoc, firstn_skipn. unfold rb. rewrite content_app. unfold content at 2. cbn. rewrite app_nil_r. reflexivity.
      + cbn. lia.
      + rewrite app_length, firstn_length, FB by exact Hbl. unfold content. rewrite (concat_full _ B); [lia|].
        intros b Hb. apply FB. unfold rb. apply in_or_app. auto.
      + fold L. eapply inv_perm; [apply Permutation_cons_append|]. apply inv_back; [exact I5| |].
        * intro H. apply others_in in H. tauto.
        * intro H. apply Nbo. rewrite Emo. apply in_or_app. auto.
      + unfold rb. rewrite !app_length, map_length. cbn. lia.
      + intros b Hb. apply in_app_or in Hb. destruct Hb as [Hb|[<-|[]]]; [|rewrite Dz; exact Lnl].
        rewrite D53; [eapply run_full; [exact F1|rewrite Emo; apply in_or_app; auto]|].
        intros ->. apply Nbo. rewrite Emo. apply in_or_app. auto.
      + cbn [app]. rewrite content_app. unfold content at 2. cbn [map concat]. rewrite app_nil_r, Dz, El1. unfold new_last, patch.
        cbn [firstn skipn app]. rewrite Nat.sub_0_r, <- app_assoc. f_equal. apply content_ext. intros b Hb. apply D53.
        intros ->. apply Nbo. rewrite Emo. apply in_or_app. auto.
      + exact G2.
      + exact G3.
      + intros b Hb Hc. assert (b <> bl) by (intros ->; contradiction).
        assert (b <> nb) as Hbn by (intros ->; destruct Hc; [contradiction|congruence]).
        rewrite D53 by assumption. rewrite F4.
        * apply D2. exact Hbn.
        * destruct Hc as [Hc|Hc]; [left|auto]. apply with_b_in, others_in. auto.
        * unfold input. rewrite in_app_iff. intros [H'|[H'|[]]]; [|congruence]. apply Hb. unfold rb. apply in_or_app. auto.
      + intros b Hb Hu. apply in_app_or in Hb. destruct Hb as [Hb|[<-|[]]]; [|exact Hbl].
        assert (In b input) as Hin by (apply F5; [rewrite Emo; apply in_or_app; auto|exact Hu]).
        unfold input in Hin. apply in_app_or in Hin. unfold rb. apply in_or_app. destruct Hin as [Hin|[<-|[]]]; [auto|congruence].
    - intro HU. f_equal. f_equal.
      assert (forall b, In b rmid -> managed b = false) as HU' by (intros b Hb; apply HU; apply in_or_app; right; apply in_or_app; auto).
      apply nth_error_ext. intro i. destruct (nth_error rmid i) as [b|] eqn:Ei.
      + assert (i < length rmid) as Hi by (apply nth_error_Some; congruence).
        assert (nth_error (map fst out) i = Some b) as Ho.
        { destruct rmid as [|b0 rest] eqn:Er; [destruct i; discriminate|].
          apply (F6 b0 (rest ++ [nb]) eq_refl); [apply HU'; left; reflexivity| |apply HU'; eapply nth_error_In, Ei].
          unfold input. rewrite nth_error_app1 by exact Hi. exact Ei. }
        rewrite Emo, nth_error_app1 in Ho by (rewrite map_length; lia). exact Ho.
      + apply nth_error_None. rewrite map_length. apply nth_error_None in Ei. lia.
  Qed.

  Lemma app_split_tail (a b l1 l2 : list A) : a ++ b = l1 ++ l2 -> length b = length l2 -> a = l1 /\ b = l2.
  Proof.
    intros G Ls. assert (length a = length l1) as La by (apply (f_equal (@length A)) in G; rewrite !app_length in G; lia).
    revert l1 G La. induction a as [|x a IH]; intros [|y l1] G La; try discriminate; [auto|].
    cbn in G. injection G as -> G. injection La as La. destruct (IH l1 G La) as [-> ->]. auto.
  Qed.

  Lemma app_split_head (a b l1 l2 : list A) : a ++ b = l1 ++ l2 -> length a = length l1 -> b = l2.
  Proof.
    revert l1. induction a as [|x a IH]; intros [|y l1] G La; try discriminate; [exact G|].
    cbn in G. injection G as _ G. injection La as La. apply (IH l1 G La).
  Qed.

  (** first and last in the middle of a block *)
  Lemma external_both s bids m2 m pre bf rmid bl post fo lo : manager_ok managed (s_live s) ->
    vector_ok managed B (s_disk s) (s_live s) bids -> bids = pre ++ (bf :: rmid ++ [bl]) ++ post -> 0 < m2 < S (S (length rmid)) ->
    0 < fo < B -> 0 < lo < B ->
    (forall x, In x (skipn fo (s_disk s bf) ++ content (s_disk s) rmid ++ firstn lo (s_disk s bl)) -> between cmp minv maxv x) ->
    exists bids' s', sort_external A cmp minv maxv srt B managed fresh mf m2 m bids (length pre * B + fo) ((length pre + S (length rmid)) * B + lo) s = Some (bids', s') /\
      sorted_range cmp managed B (s_disk s) (s_disk s') (s_live s) (s_live s') bids bids' (length pre * B + fo) ((length pre + S (length rmid)) * B + lo).
  Proof.
    intros HM V E Hm Hfo Hlo HB'. unfold sort_external.
    assert ((length pre * B + fo) mod B = fo) as Em1.
    { rewrite Nat.add_comm, Nat.mod_add by lia. apply Nat.mod_small. lia. }
    assert ((length pre * B + fo) / B = length pre) as Ed1.
    { rewrite Nat.add_comm, Nat.div_add by lia. rewrite Nat.div_small by lia. reflexivity. }
    assert (((length pre + S (length rmid)) * B + lo) mod B = lo) as Em.
    { rewrite Nat.add_comm, Nat.mod_add by lia. apply Nat.mod_small. lia. }
    assert (((length pre + S (length rmid)) * B + lo) / B = length pre + S (length rmid)) as Ed.
    { rewrite Nat.add_comm, Nat.div_add by lia. rewrite Nat.div_small by lia. reflexivity. }
    rewrite Em, Ed, Em1, Ed1. destruct (Nat.eqb_spec fo 0) as [?|_]; [lia|]. destruct (Nat.eqb_spec lo 0) as [?|_]; [lia|].
    assert (bids = (pre ++ bf :: rmid) ++ bl :: post) as E' by (rewrite E, <- !app_assoc; cbn; rewrite <- !app_assoc; reflexivity).
    assert (length pre + S (length rmid) = length (pre ++ bf :: rmid)) as El by (rewrite app_length; reflexivity).
    rewrite El. assert (nth_error bids (length (pre ++ bf :: rmid)) = Some bl) as ->.
    { rewrite E', nth_error_app2, Nat.sub_diag by lia. reflexivity. }
    assert (nth_error bids (length pre) = Some bf) as ->.
    { rewrite E, nth_error_app2, Nat.sub_diag by lia. reflexivity. }
    cbn [obind]. set (rb := bf :: rmid ++ [bl]) in *.
    pose proof (inv_init s bids pre rb post HM V E) as I0. set (L := others s rb) in *.
    assert (In bf rb) as Hbf by (left; reflexivity).
    assert (In bl rb) as Hbl by (right; apply in_or_app; right; left; reflexivity).
    assert (forall b, In b rmid -> In b rb) as Hmid by (intros b Hb; right; apply in_or_app; auto).
    assert (forall b, In b rb -> length (s_disk s b) = B) as FB.
    { intros b Hb. destruct V as [_ V2 _]. apply V2. rewrite E. apply in_mid. auto. }
    assert (bf <> bl /\ ~ In bf rmid /\ ~ In bl rmid) as (Hfl & Nbf & Nbl).
    { pose proof (i_O _ _ _ I0) as N. unfold rb in N. inversion N as [|? ? N1 N2]; subst. split; [|split].
      - intros ->. apply N1, in_or_app. right. left. reflexivity.
      - intro H. apply N1, in_or_app. auto.
      - intro H. apply (NoDup_app_dis _ _ bl N2 H). left. reflexivity. }
    destruct (new_block_ok s L rb I0) as (nf & s0 & E0 & I1' & D0 & M0 & N0).
    rewrite E0. cbn [obind].
    destruct (new_block_ok s0 L _ I1') as (nl & s1 & E1 & I1 & D1 & M1 & N1).
    rewrite E1. cbn [obind]. rewrite D0 in D1.
    assert (~ In nf rb) as Nnf by (pose proof (i_O _ _ _ I1') as N; inversion N; assumption).
    assert (~ In nl (nf :: rb)) as Nnl' by (pose proof (i_O _ _ _ I1) as N; inversion N; assumption).
    assert (nl <> nf /\ ~ In nl rb) as [Hnn Nnl].
    { split; [intros ->; apply Nnl'; left; reflexivity|intro H; apply Nnl'; right; exact H]. }
    assert (forall b, In b (s_live s) \/ managed b = false -> b <> nf /\ b <> nl) as Hnew.
    { intros b Hb. split; intros ->.
      - destruct Hb; [contradiction|congruence].
      - destruct Hb as [Hb|Hb]; [|congruence]. apply N1. apply (i_live _ _ _ I1').
        apply (i_live _ _ _ I0) in Hb. destruct Hb as [Hb|[Hb Mb]]; [auto|]. right. split; [right; exact Hb|exact Mb]. }
    assert (length (s_disk s bf) = B) as Lbf by (apply FB, Hbf).
    assert (length (s_disk s bl) = B) as Lbl by (apply FB, Hbl).
    rewrite D1. set (pf := pad_first A minv fo (s_disk s bf)).
    assert (s_disk (write nf pf s1) bl = s_disk s bl) as ->.
    { cbn. rewrite upd_other by (intros ->; contradiction). rewrite D1. reflexivity. }
    set (pl := pad_last A maxv B lo (s_disk s bl)).
    set (s2 := write nl pl (write nf pf s1)).
    rewrite E. change (pre ++ rb ++ post) with (pre ++ bf :: (rmid ++ [bl]) ++ post). rewrite set_bid_app. cbn [obind].
    replace (pre ++ nf :: (rmid ++ [bl]) ++ post) with ((pre ++ nf :: rmid) ++ bl :: post) by (rewrite <- ?app_assoc; cbn; rewrite <- ?app_assoc; reflexivity).
    replace (length (pre ++ bf :: rmid)) with (length (pre ++ nf :: rmid)) by (rewrite !app_length; reflexivity).
    rewrite set_bid_app. cbn [obind].
    set (input := nf :: rmid ++ [nl]).
    replace ((pre ++ nf :: rmid) ++ nl :: post) with (pre ++ input ++ post) by (unfold input; cbn; rewrite <- ?app_assoc; cbn; rewrite <- ?app_assoc; reflexivity).
    replace (length (pre ++ nf :: rmid) - length pre + 1) with (length input) by (unfold input; cbn [length]; rewrite !app_length; cbn [length]; lia).
    rewrite slice_app.
    assert (forall b, In b rb -> b <> nf /\ b <> nl) as Hrn by (intros b Hb; split; intros ->; contradiction).
    destruct (Hrn bl Hbl) as [Q1 Q2], (Hrn bf Hbf) as [Q3 Q4].
    assert (inv s2 (with_b bf (with_b bl L)) input) as I2.
    { apply inv_out, inv_out. apply inv_write, inv_write. eapply inv_perm; [|exact I1]. unfold rb, input.
      apply NoDup_Permutation; [apply (i_O _ _ _ I1)| |].
      - constructor; [|constructor; [|constructor]].
        + intros [H'|[H'|H']]; [congruence|congruence|].
          apply in_app_or in H'. destruct H' as [H'|[H'|[]]]; [contradiction|congruence].
        + intros [H'|H']; [congruence|]. apply in_app_or in H'. destruct H' as [H'|[H'|[]]]; [contradiction|congruence].
        + rewrite in_app_iff. intros [H'|[H'|[]]]; [apply Nnf, Hmid, H'|congruence].
        + pose proof (i_O _ _ _ I0) as N. unfold rb in N. inversion N as [|? ? _ N2]; subst. apply NoDup_app_remove_r in N2.
          apply NoDup_snoc; [exact N2|]. intro H'. apply Nnl, Hmid, H'.
      - intro b. cbn [In]. rewrite !in_app_iff. cbn [In]. tauto. }
    assert (~ In bl input /\ ~ In bf input) as [Nbi Nfi].
    { unfold input.
      split; (intros [H'|H']; [congruence|]; apply in_app_or in H'; destruct H' as [H'|[H'|[]]]; [contradiction|congruence]). }
    assert (length pf = B) as Lpf.
    { unfold pf, pad_first. rewrite app_length, skipn_length, repeat_length. lia. }
    assert (length pl = B) as Lpl.
    { unfold pl, pad_last. rewrite app_length, firstn_length, repeat_length. lia. }
    assert (s_disk s2 nl = pl) as Dnl by (cbn; apply upd_same).
    assert (s_disk s2 nf = pf) as Dnf by (cbn; rewrite upd_other by auto; apply upd_same).
    assert (forall b, b <> nf -> b <> nl -> s_disk s2 b = s_disk s b) as D2 by (intros b Hb1 Hb2; cbn; rewrite !upd_other by auto; rewrite D1; reflexivity).
    assert (forall b, In b rb -> s_disk s2 b = s_disk s b) as D2' by (intros b Hb; destruct (Hrn b Hb); apply D2; assumption).
    destruct (sort_blocks_ok input m2 m s2 (with_b bf (with_b bl L))) as (out & s3 & E3 & I3 & F1 & F2 & F3 & F4 & F5 & _).
    { exact I2. }
    { intros b [<-|Hb]; [rewrite Dnf; exact Lpf|]. apply in_app_or in Hb. destruct Hb as [Hb|[<-|[]]]; [|rewrite Dnl; exact Lpl].
      rewrite D2' by (apply Hmid, Hb). apply FB, Hmid, Hb. }
    { lia. } { unfold input. cbn [length]. rewrite app_length. cbn [length]. lia. }
    { intros b0 mid z Ez Mz b Hb. unfold input in Ez. injection Ez as <- _. congruence. }
    rewrite E3. cbn [obind].
    destruct out as [|zf out']; [destruct F1; contradiction|]. cbn [first_entry obind].
    destruct (@exists_last _ out') as (oinit & z & Eo).
    { intros ->. unfold input in F2. cbn [length] in F2. rewrite app_length in F2. cbn [length] in F2. lia. }
    assert (length oinit = length rmid) as Loi.
    { rewrite Eo in F2. unfold input in F2. cbn [length] in F2. rewrite !app_length in F2. cbn [length] in F2. lia. }
    set (out := zf :: out') in *.
    assert (last_entry A out = Some (fst z)) as ->.
    { unfold last_entry, out. rewrite Eo. change (zf :: oinit ++ [z]) with ((zf :: oinit) ++ [z]). rewrite app_length. cbn [length]. rewrite nth_error_app2 by (cbn [length]; lia).
      cbn [length]. replace (S (length oinit) + 1 - 1 - S (length oinit)) with 0 by lia. reflexivity. }
    cbn [obind].
    assert (map fst out = fst zf :: map fst oinit ++ [fst z]) as Emo by (unfold out; rewrite Eo; cbn; rewrite map_app; reflexivity).
    assert (forall b, In b (map fst oinit) -> In b (map fst out)) as Hoi by (intros b Hb; rewrite Emo; right; apply in_or_app; auto).
    assert (~ In bl (map fst out)) as Nbo.
    { intro H. destruct (with_b_self bl L) as [W|W]; [apply (i_dis _ _ _ I3 bl (with_b_in _ _ _ W) H)|]. apply Nbi. apply F5; assumption. }
    assert (~ In bf (map fst out)) as Nfo.
    { intro H. destruct (with_b_self bf (with_b bl L)) as [W|W]; [apply (i_dis _ _ _ I3 bf W H)|]. apply Nfi. apply F5; assumption. }
    assert (s_disk s3 bl = s_disk s bl) as Dbl.
    { rewrite F4; [apply D2'; auto| |exact Nbi]. destruct (with_b_self bl L); [left; apply with_b_in; assumption|auto]. }
    assert (s_disk s3 bf = s_disk s bf) as Dbf.
    { rewrite F4; [apply D2'; auto|apply with_b_self|exact Nfi]. }
    rewrite Dbf. set (new_first := patch fo B (s_disk s3 (fst zf)) (s_disk s bf)).
    assert (s_disk (write bf new_first s3) (fst z) = s_disk s3 (fst z)) as ->.
    { cbn. apply upd_other. intro Hz. apply Nfo. rewrite Emo, <- Hz. right. apply in_or_app. right. left. reflexivity. }
    assert (s_disk (write bf new_first s3) bl = s_disk s bl) as ->.
    { cbn. rewrite upd_other by auto. exact Dbl. }
    set (new_last := patch 0 lo (s_disk s3 (fst z)) (s_disk s bl)).
    set (s4 := write bl new_last (write bf new_first s3)).
    assert (inv s4 (with_b bf (with_b bl L)) (fst zf :: fst z :: map fst oinit)) as I4.
    { apply inv_write, inv_write. eapply inv_perm; [|exact I3]. rewrite Emo. constructor. apply Permutation_sym, Permutation_cons_append. }
    destruct (delete_block_ok _ _ _ _ I4) as (s5' & E5' & I5' & D5'). rewrite E5'. cbn [obind].
    destruct (delete_block_ok _ _ _ _ I5') as (s5 & E5 & I5 & D5). rewrite E5. cbn [obind]. rewrite D5' in D5.
    change (pre ++ input ++ post) with (pre ++ nf :: (rmid ++ [nl]) ++ post). rewrite set_bid_app. cbn [obind].
    replace (pre ++ bf :: (rmid ++ [nl]) ++ post) with ((pre ++ bf :: rmid) ++ nl :: post) by (rewrite <- ?app_assoc; cbn; rewrite <- ?app_assoc; reflexivity).
    replace (length (pre ++ nf :: rmid)) with (length (pre ++ bf :: rmid)) by (rewrite !app_length; reflexivity).
    rewrite set_bid_app. cbn [obind].
    replace (length (pre ++ bf :: rmid) - (length pre + 1)) with (length (map fst oinit)) by (rewrite app_length, map_length; cbn [length]; lia).
    rewrite Emo. cbn [skipn].
    rewrite firstn_app, Nat.sub_diag, firstn_O, app_nil_r, firstn_all.
    replace ((pre ++ bf :: rmid) ++ bl :: post) with ((pre ++ [bf]) ++ rmid ++ bl :: post) by (rewrite <- !app_assoc; reflexivity).
    replace (length pre + 1) with (length (pre ++ [bf])) by (rewrite app_length; reflexivity).
    rewrite set_bids_app by (rewrite map_length; lia). cbn [obind].
    exists (pre ++ (bf :: map fst oinit ++ [bl]) ++ post), s5.
    split; [f_equal; f_equal; rewrite <- !app_assoc; cbn; rewrite <- ?app_assoc; reflexivity|].
    assert (s_disk s5 bl = new_last) as Dz by (rewrite D5; cbn; apply upd_same).
    assert (s_disk s5 bf = new_first) as Dzf by (rewrite D5; cbn; rewrite upd_other by auto; apply upd_same).
    assert (forall b, b <> bl -> b <> bf -> s_disk s5 b = s_disk s3 b) as D53 by (intros b Hb1 Hb2; rewrite D5; cbn; rewrite !upd_other by auto; reflexivity).
    assert (length (s_disk s3 (fst z)) = B) as Lz.
    { eapply run_full; [exact F1|]. rewrite Emo. right. apply in_or_app. right. left. reflexivity. }
    assert (length (s_disk s3 (fst zf)) = B) as Lzf.
    { eapply run_full; [exact F1|]. rewrite Emo. left. reflexivity. }
    assert (new_last = firstn lo (s_disk s3 (fst z)) ++ skipn lo (s_disk s bl)) as Enl.
    { unfold new_last, patch. cbn [firstn skipn app]. rewrite Nat.sub_0_r. reflexivity. }
    assert (new_first = firstn fo (s_disk s bf) ++ skipn fo (s_disk s3 (fst zf))) as Enf.
    { unfold new_first, patch. rewrite (skipn_all2 (n := B)) by lia. rewrite app_nil_r. f_equal. apply firstn_all2. rewrite skipn_length. lia. }
    assert (forall b, In b (map fst oinit) -> b <> bl /\ b <> bf) as Hoib.
    { intros b Hb. split; intros ->; [apply Nbo|apply Nfo]; apply Hoi, Hb. }
    set (R2 := skipn fo (s_disk s bf) ++ content (s_disk s) rmid ++ firstn lo (s_disk s bl)) in *.
    destruct (min_prefix fo (content (s_disk s3) (map fst out)) (R2 ++ repeat maxv (B - lo))) as (l2 & G1 & G2 & G3).
    { apply F1. }
    { eapply Permutation_trans; [exact F3|]. unfold input. change (nf :: rmid ++ [nl]) with ([nf] ++ rmid ++ [nl]).
      rewrite !content_app. unfold content at 1 3. cbn [map concat]. rewrite !app_nil_r, Dnl, Dnf. unfold pl, pf, pad_last, pad_first, R2.
      rewrite (content_ext (s_disk s)) by (intros b Hb; apply D2', Hmid, Hb).
      rewrite <- !app_assoc. apply Permutation_refl. }
    { intros x Hx. apply in_app_or in Hx. destruct Hx as [Hx|Hx]; [apply HB', Hx|].
      apply repeat_spec in Hx. subst x. assert (exists y, In y R2) as (y & Hy).
      { destruct R2 as [|y q] eqn:Er; [|exists y; left; reflexivity]. exfalso. apply (f_equal (@length A)) in Er. unfold R2 in Er.
        rewrite !app_length, skipn_length in Er. cbn [length] in Er. lia. }
      destruct (HB' y Hy) as [[H1|H1] [H2|H2]]; subst; auto. left. eapply sw_trans; eassumption. }
    destruct (max_suffix (B - lo) l2 R2 G3 G2) as (l1 & G4 & G5 & G6).
    { intros x Hx. apply HB'. exact Hx. }
    assert (l1 = skipn fo (s_disk s3 (fst zf)) ++ content (s_disk s3) (map fst oinit) ++ firstn lo (s_disk s3 (fst z))) as El1.
    { rewrite G4, Emo in G1. change (fst zf :: map fst oinit ++ [fst z]) with ([fst zf] ++ map fst oinit ++ [fst z]) in G1.
      rewrite !content_app in G1. unfold content at 1 3 in G1. cbn [map concat] in G1. rewrite !app_nil_r in G1.
      rewrite <- (firstn_skipn lo (s_disk s3 (fst z))), <- (firstn_skipn fo (s_disk s3 (fst zf))) in G1.
      rewrite !app_assoc in G1. apply app_split_tail in G1; [|rewrite skipn_length, repeat_length; lia]. destruct G1 as [G1 _].
      rewrite <- !app_assoc in G1. apply app_split_head in G1; [|rewrite repeat_length, firstn_length; lia].
      symmetry. apply G1. }
    rewrite <- El.
    eapply (finish s (pre ++ rb ++ post) pre rb post (firstn fo (s_disk s bf)) R2 (skipn lo (s_disk s bl)) l1).
    - exact HM.
    - rewrite <- E. exact V.
    - reflexivity.
    - unfold R2, rb. change (bf :: rmid ++ [bl]) with ([bf] ++ rmid ++ [bl]). rewrite !content_app. unfold content at 1 3. cbn [map concat].
      rewrite !app_nil_r, <- (firstn_skipn fo (s_disk s bf)) at 1. rewrite <- (firstn_skipn lo (s_disk s bl)) at 1. rewrite <- !app_assoc. reflexivity.
    - rewrite firstn_length. lia.
    - unfold R2. rewrite !app_length, skipn_length, firstn_length. unfold content. rewrite (concat_full _ B); [nia|].
      intros b Hb. apply FB, Hmid, Hb.
    - fold L. eapply inv_perm with (O := bl :: bf :: map fst oinit).
      { eapply Permutation_trans; [apply perm_swap|]. constructor. apply Permutation_cons_append. }
      apply inv_back; [apply inv_back| |].
      + exact I5.
      + unfold with_b. destruct (managed bl); [intros [H|H]; [congruence|]|intro H]; apply others_in in H; tauto.
      + intro H. apply Nfo, Hoi, H.
      + intro H. apply others_in in H. tauto.
      + intros [H|H]; [congruence|]. apply Nbo, Hoi, H.
    - unfold rb. cbn [length]. rewrite !app_length, map_length. cbn. lia.
    - intros b [<-|Hb]; [rewrite Dzf, Enf, app_length, firstn_length, skipn_length; lia|].
      apply in_app_or in Hb. destruct Hb as [Hb|[<-|[]]]; [|rewrite Dz, Enl, app_length, firstn_length, skipn_length; lia].
      destruct (Hoib b Hb). rewrite D53 by assumption. eapply run_full; [exact F1|]. apply Hoi, Hb.
    - change (bf :: map fst oinit ++ [bl]) with ([bf] ++ map fst oinit ++ [bl]). rewrite !content_app. unfold content at 1 3. cbn [map concat].
      rewrite !app_nil_r, Dz, Dzf, Enl, Enf, El1.
      rewrite (content_ext (s_disk s3)) by (intros b Hb; destruct (Hoib b Hb); apply D53; assumption).
      rewrite <- !app_assoc. reflexivity.
    - exact G5.
    - exact G6.
    - intros b Hb Hc. assert (b <> bl) by (intros ->; contradiction). assert (b <> bf) by (intros ->; contradiction).
      destruct (Hnew b Hc). rewrite D53 by assumption. rewrite F4.
      + apply D2; assumption.
      + destruct Hc as [Hc|Hc]; [left|auto]. apply with_b_in, with_b_in, others_in. auto.
      + unfold input. intros [H'|H']; [congruence|]. apply in_app_or in H'. destruct H' as [H'|[H'|[]]]; [|congruence]. apply Hb, Hmid, H'.
    - intros b [<-|Hb] Hu; [exact Hbf|]. apply in_app_or in Hb. destruct Hb as [Hb|[<-|[]]]; [|exact Hbl].
      assert (In b input) as Hin by (apply F5; [apply Hoi, Hb|exact Hu]).
      unfold input in Hin. destruct Hin as [<-|Hin]; [congruence|]. apply in_app_or in Hin.
      destruct Hin as [Hin|[<-|[]]]; [apply Hmid, Hin|congruence].
  Qed.

  (** first in the middle of a block, last aligned: the result has as many entries as blocks, one more is read *)
  Lemma external_first s bids m2 m pre bf rmid post fo : manager_ok managed (s_live s) ->
    vector_ok managed B (s_disk s) (s_live s) bids -> bids = pre ++ (bf :: rmid) ++ post -> 0 < m2 < S (length rmid) ->
    0 < fo < B ->
    sort_external A cmp minv maxv srt B managed fresh mf m2 m bids (length pre * B + fo) ((length pre + S (length rmid)) * B) s = None.
  Proof.
    intros HM V E Hm Hfo. unfold sort_external.
    assert ((length pre * B + fo) mod B = fo) as Em1.
    { rewrite Nat.add_comm, Nat.mod_add by lia. apply Nat.mod_small. lia. }
    assert ((length pre * B + fo) / B = length pre) as Ed1.
    { rewrite Nat.add_comm, Nat.div_add by lia. rewrite Nat.div_small by lia. reflexivity. }
    rewrite Em1, Ed1, Nat.mod_mul, Nat.div_mul by lia. destruct (Nat.eqb_spec fo 0) as [?|_]; [lia|]. cbn [Nat.eqb].
    assert (nth_error bids (length pre) = Some bf) as ->.
    { rewrite E, nth_error_app2, Nat.sub_diag by lia. reflexivity. }
    cbn [obind]. set (rb := bf :: rmid) in *.
    pose proof (inv_init s bids pre rb post HM V E) as I0. set (L := others s rb) in *.
    destruct (new_block_ok s L rb I0) as (nf & s1 & E1 & I1 & D1 & M1 & N1).
    rewrite E1. cbn [obind]. rewrite D1. set (s2 := write nf _ s1).
    rewrite E. change (pre ++ rb ++ post) with (pre ++ bf :: rmid ++ post). rewrite set_bid_app. cbn [obind].
    change (pre ++ nf :: rmid ++ post) with (pre ++ (nf :: rmid) ++ post).
    replace (length pre + S (length rmid) - length pre) with (length (nf :: rmid)) by (cbn; lia). rewrite slice_app.
    assert (inv s2 (with_b bf L) (nf :: rmid)) as I2.
    { apply inv_out, inv_write. eapply inv_perm; [|exact I1]. apply perm_swap. }
    assert (forall b, In b rb -> length (s_disk s b) = B) as FB.
    { intros b Hb. destruct V as [_ V2 _]. apply V2. rewrite E. apply in_mid. auto. }
    destruct (sort_blocks_ok (nf :: rmid) m2 m s2 (with_b bf L)) as (out & s3 & E3 & I3 & F1 & F2 & _).
    { exact I2. }
    { intros b [<-|Hb].
      - cbn. rewrite upd_same. unfold pad_first. rewrite app_length, skipn_length, repeat_length, FB by (left; reflexivity). lia.
      - cbn. rewrite upd_other, D1; [apply FB; right; exact Hb|]. pose proof (i_O _ _ _ I2) as N. inversion N; subst. intros ->. contradiction. }
    { lia. } { cbn [length]. lia. }
    { intros b0 mid z [= <- _] Mz. congruence. }
    rewrite E3. cbn [obind].
    assert (nth_error (map fst out) (1 + (length pre + S (length rmid) - (length pre + 1))) = None) as ->.
    { apply nth_error_None. rewrite map_length, F2. cbn [length]. lia. }
    unfold obind. repeat match goal with |- match ?x with _ => _ end = None => destruct x; [|reflexivity] end. reflexivity.
  Qed.

  Lemma write_blocks_ok bids : forall blocks s, NoDup bids -> length blocks = length bids ->
    map (s_disk (write_blocks A bids blocks s)) bids = blocks /\ s_live (write_blocks A bids blocks s) = s_live s /\
    (forall b, ~ In b bids -> s_disk (write_blocks A bids blocks s) b = s_disk s b).
  Proof.
    induction bids as [|b bids IH]; intros blocks s ND HL; [destruct blocks; [auto|discriminate]|].
    destruct blocks as [|c blocks]; [discriminate|]. inversion ND; subst. injection HL as HL. cbn [write_blocks].
    destruct (IH blocks (write b c s)) as (E1 & E2 & E3); [assumption|exact HL|]. split; [|split].
    - cbn [map]. rewrite E1, E3 by assumption. cbn. rewrite upd_same. reflexivity.
    - rewrite E2. reflexivity.
    - intros x Hx. rewrite E3 by (intro; apply Hx; right; assumption). cbn. apply upd_other. intro; apply Hx; left; auto.
  Qed.

  Lemma in_memory_ok s bids first last : manager_ok managed (s_live s) ->
    vector_ok managed B (s_disk s) (s_live s) bids -> first <= last <= length bids * B ->
    exists s', in_memory_sort A srt B bids first last s = Some (bids, s') /\
      sorted_range cmp managed B (s_disk s) (s_disk s') (s_live s) (s_live s') bids bids first last.
  Proof.
    intros HM V Hr. unfold in_memory_sort.
    pose proof (Nat.div_mod first B ltac:(lia)) as Df. pose proof (Nat.div_mod last B ltac:(lia)) as Dl.
    pose proof (Nat.mod_upper_bound first B ltac:(lia)). pose proof (Nat.mod_upper_bound last B ltac:(lia)).
    assert (first / B <= last / B) as Hd by (apply Nat.div_le_mono; lia).
    set (nb := last / B - first / B + (if last mod B =? 0 then 0 else 1)).
    set (corr := if last mod B =? 0 then 0 else B - last mod B).
    assert (first / B * B + nb * B = last + corr /\ corr < B) as [Hnb Hc].
    { unfold nb, corr. destruct (Nat.eqb_spec (last mod B) 0) as [e|e]; nia. }
    assert (first / B + nb <= length bids) as Hlen by nia.
    destruct (split3 bids (first / B) nb Hlen) as (pre & rb & post & E & L1 & L2).
    rewrite <- L1. replace (firstn nb (skipn (length pre) bids)) with rb by (rewrite <- L2, E, slice_app; reflexivity).
    rewrite L2, Nat.eqb_refl. change (concat (map (s_disk s) rb)) with (content (s_disk s) rb).
    set (data := content (s_disk s) rb). set (fo := first mod B) in *. set (to := nb * B - corr).
    assert (length data = nb * B) as Ld.
    { unfold data, content. rewrite (concat_full _ B), L2; [reflexivity|]. intros b Hb. destruct V as [_ V2 _]. apply V2. rewrite E. apply in_mid. auto. }
    assert (fo <= to <= nb * B) as Hto by (unfold to; nia).
    set (R2 := firstn (to - fo) (skipn fo data)). destruct (SRT R2) as [SP SS].
    assert (data = firstn fo data ++ R2 ++ skipn to data) as Edata.
    { unfold R2. rewrite <- (firstn_skipn fo data) at 1. f_equal. rewrite <- (firstn_skipn (to - fo) (skipn fo data)) at 1. f_equal.
      rewrite skipn_skipn'. f_equal. lia. }
    assert (length R2 = to - fo) as LR by (unfold R2; rewrite firstn_length, skipn_length; lia).
    set (nd := firstn fo data ++ srt R2 ++ skipn to data).
    assert (length nd = nb * B) as Lnd.
    { unfold nd. rewrite !app_length, (Permutation_length SP), LR, firstn_length, skipn_length, Ld. lia. }
    pose proof (chunks_full B nd nb HB Lnd) as CF.
    assert (NoDup rb) as ND.
    { destruct V as [V1 _ _]. rewrite E in V1. apply NoDup_app_remove_l, NoDup_app_remove_r in V1. exact V1. }
    destruct (write_blocks_ok rb (chunks B nd) s ND) as (W1 & W2 & W3).
    { rewrite L2. apply (f_equal (@length nat)) in CF. rewrite map_length, repeat_length in CF. exact CF. }
    set (s' := write_blocks A rb (chunks B nd) s) in *.
    exists s'. split; [reflexivity|]. rewrite E.
    eapply (finish s (pre ++ rb ++ post) pre rb post (firstn fo data) R2 (skipn to data) (srt R2) s' rb).
    - exact HM.
    - rewrite <- E. exact V.
    - reflexivity.
    - exact Edata.
    - rewrite firstn_length, L1. nia.
    - rewrite LR. unfold to. nia.
    - pose proof (inv_init s bids pre rb post HM V E) as [J1 J2 J3 J4]. constructor; rewrite ?W2; assumption.
    - reflexivity.
    - intros b Hb. apply (in_map (s_disk s')) in Hb. rewrite W1 in Hb. apply (in_map (@length A)) in Hb. rewrite CF in Hb.
      apply repeat_spec in Hb. exact Hb.
    - unfold content. rewrite W1. apply chunks_concat, HB.
    - exact SP.
    - exact SS.
    - intros b Hb _. apply W3, Hb.
    - auto.
  Qed.

  (** the range in terms of blocks *)
  Definition nblocks (first last : nat) : nat := last / B - first / B + (if last mod B =? 0 then 0 else 1).

  Lemma external_ok s bids m2 m first last : manager_ok managed (s_live s) ->
    vector_ok managed B (s_disk s) (s_live s) bids -> homogeneous bids -> first <= last <= length bids * B ->
    0 < m2 < nblocks first last -> first mod B = 0 \/ last mod B <> 0 ->
    (first mod B = 0 /\ last mod B = 0) \/
      (forall x, In x (firstn (last - first) (skipn first (content (s_disk s) bids))) -> between cmp minv maxv x) ->
    exists bids' s', sort_external A cmp minv maxv srt B managed fresh mf m2 m bids first last s = Some (bids', s') /\
      sorted_range cmp managed B (s_disk s) (s_disk s') (s_live s) (s_live s') bids bids' first last /\
      (first mod B = 0 -> (forall b, In b bids -> managed b = false) -> bids' = bids).
  Proof.
    intros HM V HH Hr Hm Ha Hb. unfold nblocks in Hm.
    pose proof (Nat.div_mod first B ltac:(lia)) as Df. pose proof (Nat.div_mod last B ltac:(lia)) as Dl.
    pose proof (Nat.mod_upper_bound first B ltac:(lia)). pose proof (Nat.mod_upper_bound last B ltac:(lia)).
    assert (first / B <= last / B) as Hd by (apply Nat.div_le_mono; lia).
    assert (forall b, In b bids -> length (s_disk s b) = B) as FB by apply V.
    destruct (Nat.eqb_spec (last mod B) 0) as [el|el].
    - destruct Ha as [ef|?]; [|contradiction].
      assert (first / B + (last / B - first / B) <= length bids) as Hlen by nia.
      destruct (split3 bids _ _ Hlen) as (pre & rb & post & E & L1 & L2).
      destruct (external_aligned s bids m2 m pre rb post HM V HH E ltac:(lia)) as (bids' & s' & E1 & E2 & E3).
      replace (length pre * B) with first in * by lia. replace ((length pre + length rb) * B) with last in * by lia.
      exists bids', s'. auto.
    - destruct Hb as [[_ ?]|Hb]; [contradiction|].
      assert (first / B + (last / B - first / B + 1) <= length bids) as Hlen by nia.
      destruct (split3 bids _ _ Hlen) as (pre & rb & post & E & L1 & L2).
      assert (length (content (s_disk s) pre) = length pre * B) as Lp.
      { unfold content. apply concat_full. intros b Hb'. apply FB. rewrite E. apply in_or_app. auto. }
      destruct (Nat.eq_dec (first mod B) 0) as [ef|ef].
      + destruct (@exists_last _ rb) as (rmid & bl & ->); [destruct rb; [cbn in L2; lia|discriminate]|].
        rewrite app_length in L2. cbn in L2.
        assert (length (content (s_disk s) rmid) = length rmid * B) as Lm.
        { unfold content. apply concat_full. intros b Hb'. apply FB. rewrite E. apply in_mid. left. apply in_or_app. auto. }
        assert (length (s_disk s bl) = B) as Ll by (apply FB; rewrite E; apply in_mid; left; apply in_or_app; right; left; reflexivity).
        assert ((length pre + length rmid) * B + last mod B = last) as E1' by nia. assert (length pre * B = first) as E2' by nia.
        destruct (external_last s bids m2 m pre rmid bl post (last mod B) HM V HH E ltac:(lia) ltac:(lia)) as (bids' & s' & E1 & E2 & E3).
        { intros x Hx. apply Hb. rewrite E, !content_app. unfold content at 3. cbn [map concat]. rewrite app_nil_r.
          rewrite <- E2', <- Lp, skipn_app, skipn_all, Nat.sub_diag, skipn_O. cbn [app].
          replace (last - length (content (s_disk s) pre)) with (length (content (s_disk s) rmid) + last mod B) by nia.
          rewrite <- app_assoc, firstn_app_2, firstn_app. rewrite app_assoc. apply in_or_app. left. exact Hx. }
        rewrite E1', E2' in *. exists bids', s'. auto.
      + destruct rb as [|bf rb]; [cbn in L2; lia|].
        destruct (@exists_last _ rb) as (rmid & bl & ->); [destruct rb; [cbn in L2; lia|discriminate]|].
        cbn [length] in L2. rewrite app_length in L2. cbn in L2.
        assert (length (content (s_disk s) rmid) = length rmid * B) as Lm.
        { unfold content. apply concat_full. intros b Hb'. apply FB. rewrite E. apply in_mid. left. right. apply in_or_app. auto. }
        assert (length (s_disk s bl) = B) as Ll by (apply FB; rewrite E; apply in_mid; left; right; apply in_or_app; right; left; reflexivity).
        assert (length (s_disk s bf) = B) as Lf by (apply FB; rewrite E; apply in_mid; left; left; reflexivity).
        assert ((length pre + S (length rmid)) * B + last mod B = last) as E1' by nia. assert (length pre * B + first mod B = first) as E2' by nia.
        destruct (external_both s bids m2 m pre bf rmid bl post (first mod B) (last mod B) HM V E ltac:(lia) ltac:(lia) ltac:(lia)) as (bids' & s' & E1 & E2).
        { intros x Hx. apply Hb. rewrite E. change (bf :: rmid ++ [bl]) with ([bf] ++ rmid ++ [bl]). rewrite !content_app. unfold content at 2 4. cbn [map concat]. rewrite !app_nil_r.
          rewrite <- E2' at 2. rewrite <- Lp at 1.
          rewrite skipn_app, skipn_all2 by lia. replace (length (content (s_disk s) pre) + first mod B - length (content (s_disk s) pre)) with (first mod B) by lia.
          cbn [app]. rewrite <- !app_assoc, skipn_app. replace (first mod B - length (s_disk s bf)) with 0 by lia. rewrite skipn_O.
          replace (last - first) with (length (skipn (first mod B) (s_disk s bf)) + (length (content (s_disk s) rmid) + last mod B)) by (rewrite skipn_length; nia).
          rewrite firstn_app_2, firstn_app_2, firstn_app. rewrite !app_assoc. apply in_or_app. left. rewrite <- !app_assoc. exact Hx. }
        rewrite E1', E2' in *. exists bids', s'. split; [exact E1|]. split; [exact E2|]. intro. contradiction.
  Qed.

  Lemma external_undefined s bids m2 m first last : manager_ok managed (s_live s) ->
    vector_ok managed B (s_disk s) (s_live s) bids -> first <= last <= length bids * B ->
    0 < m2 < nblocks first last -> first mod B <> 0 -> last mod B = 0 ->
    sort_external A cmp minv maxv srt B managed fresh mf m2 m bids first last s = None.
  Proof.
    intros HM V Hr Hm ef el. unfold nblocks in Hm.
    pose proof (Nat.div_mod first B ltac:(lia)) as Df. pose proof (Nat.div_mod last B ltac:(lia)) as Dl.
    pose proof (Nat.mod_upper_bound first B ltac:(lia)). rewrite el in Hm. cbn [Nat.eqb] in Hm.
    assert (first / B <= last / B) as Hd by (apply Nat.div_le_mono; lia).
    assert (first / B + (last / B - first / B) <= length bids) as Hlen by nia.
    destruct (split3 bids _ _ Hlen) as (pre & rb & post & E & L1 & L2).
    destruct rb as [|bf rmid]; [cbn in L2; lia|]. cbn [length] in L2.
    pose proof (external_first s bids m2 m pre bf rmid post (first mod B) HM V E ltac:(lia) ltac:(lia)) as X.
    replace (length pre * B + first mod B) with first in X by nia.
    replace ((length pre + S (length rmid)) * B) with last in X by nia. exact X.
  Qed.

  Lemma nblocks_cover first last : first <= last -> last - first <= nblocks first last * B.
  Proof.
    intro H. unfold nblocks.
    pose proof (Nat.div_mod first B ltac:(lia)) as Df. pose proof (Nat.div_mod last B ltac:(lia)) as Dl.
    pose proof (Nat.mod_upper_bound first B ltac:(lia)). pose proof (Nat.mod_upper_bound last B ltac:(lia)).
    assert (first / B <= last / B) as Hd by (apply Nat.div_le_mono; lia).
    destruct (Nat.eqb_spec (last mod B) 0); nia.
  Qed.

  Lemma sort_m2 esz raw fac M first last : first <= last -> B * esz <= raw -> 0 < raw -> 0 < fac -> 2 * raw * fac <= M ->
    M <= (last - first) * esz * fac -> 2 <= M / fac / raw /\ M / fac / raw <= nblocks first last.
  Proof.
    intros H1 H2 H3 H4 H5 H6. pose proof (nblocks_cover first last H1) as HC. set (n := nblocks first last) in *. clearbody n.
    rewrite Nat.div_div by lia. split; [apply Nat.div_le_lower_bound; nia|].
    apply Nat.div_le_upper_bound; [nia|].
    assert ((last - first) * esz <= n * raw).
    { apply Nat.le_trans with (n * B * esz); [apply Nat.mul_le_mono_r; exact HC|]. rewrite <- Nat.mul_assoc. apply Nat.mul_le_mono_l. exact H2. }
    apply Nat.le_trans with ((last - first) * esz * fac); [exact H6|]. apply Nat.le_trans with (n * raw * fac); [apply Nat.mul_le_mono_r; assumption|]. nia.
  Qed.

  Theorem sort_ok s bids first last esz raw fac M : manager_ok managed (s_live s) ->
    vector_ok managed B (s_disk s) (s_live s) bids -> homogeneous bids -> first <= last <= length bids * B ->
    B * esz <= raw -> 0 < raw -> 0 < fac -> 2 * raw * fac <= M ->
    (last - first) * esz * fac < M \/ first mod B = 0 \/ last mod B <> 0 ->
    (last - first) * esz * fac < M \/ (first mod B = 0 /\ last mod B = 0) \/
      (forall x, In x (firstn (last - first) (skipn first (content (s_disk s) bids))) -> between cmp minv maxv x) ->
    exists bids' s', sort A cmp minv maxv srt B managed fresh mf esz raw fac M bids first last s = Sorted bids' s' /\
      sorted_range cmp managed B (s_disk s) (s_disk s') (s_live s) (s_live s') bids bids' first last /\
      ((last - first) * esz * fac < M \/ first mod B = 0 -> (forall b, In b bids -> managed b = false) -> bids' = bids).
  Proof.
    intros HM V HH Hr H1 H2 H3 H4 Ha Hb. unfold sort. destruct (Nat.ltb_spec ((last - first) * esz * fac) M) as [Hlt|Hge].
    - destruct (in_memory_ok s bids first last HM V Hr) as (s' & E1 & E2). rewrite E1. exists bids, s'. cbn. auto.
    - destruct (Nat.leb_spec (2 * raw * fac) M) as [_|?]; [|lia].
      destruct (sort_m2 esz raw fac M first last ltac:(lia) H1 H2 H3 H4 Hge) as [K1 K2].
      destruct (external_ok s bids (M / fac / raw / 2) (M / fac / raw) first last HM V HH Hr) as (bids' & s' & E1 & E2 & E3).
      { set (m := M / fac / raw) in *. clearbody m. split; [apply Nat.div_str_pos; lia|].
        apply Nat.lt_le_trans with m; [apply Nat.div_lt; lia|exact K2]. }
      { destruct Ha as [?|Ha]; [lia|exact Ha]. }
      { destruct Hb as [?|Hb]; [lia|exact Hb]. }
      rewrite E1. exists bids', s'. cbn. split; [reflexivity|]. split; [exact E2|]. intros [?|Hf]; [lia|]. apply E3, Hf.
  Qed.

  Theorem sort_undefined s bids first last esz raw fac M : manager_ok managed (s_live s) ->
    vector_ok managed B (s_disk s) (s_live s) bids -> first <= last <= length bids * B ->
    B * esz <= raw -> 0 < raw -> 0 < fac -> 2 * raw * fac <= M ->
    M <= (last - first) * esz * fac -> first mod B <> 0 -> last mod B = 0 ->
    sort A cmp minv maxv srt B managed fresh mf esz raw fac M bids first last s = Undefined.
  Proof.
    intros HM V Hr H1 H2 H3 H4 Hge ef el. unfold sort. destruct (Nat.ltb_spec ((last - first) * esz * fac) M) as [Hlt|_]; [lia|].
    destruct (Nat.leb_spec (2 * raw * fac) M) as [_|?]; [|lia].
    destruct (sort_m2 esz raw fac M first last ltac:(lia) H1 H2 H3 H4 Hge) as [K1 K2].
    rewrite external_undefined; auto.
    set (m := M / fac / raw) in *. clearbody m. split; [apply Nat.div_str_pos; lia|].
    apply Nat.lt_le_trans with m; [apply Nat.div_lt; lia|exact K2].
  Qed.

  Lemma ksort_run_lt raw ksz m : 0 < raw -> 2 <= m -> ksort_run B raw ksz m < m.
  Proof.
    intros H1 H2. unfold ksort_run. apply Nat.le_lt_trans with ((m + 1) / 2).
    - apply Nat.div_le_upper_bound; [lia|]. nia.
    - apply Nat.div_lt_upper_bound; lia.
  Qed.

  Theorem ksort_ok s bids first last esz raw ksz M : manager_ok managed (s_live s) ->
    vector_ok managed B (s_disk s) (s_live s) bids -> homogeneous bids -> first <= last <= length bids * B ->
    B * esz <= raw -> 0 < raw -> 2 * raw <= M ->
    (last - first) * esz < M \/ ((first mod B = 0 \/ last mod B <> 0) /\ 0 < ksort_run B raw ksz (M / raw)) ->
    (last - first) * esz < M \/ (first mod B = 0 /\ last mod B = 0) \/
      (forall x, In x (firstn (last - first) (skipn first (content (s_disk s) bids))) -> between cmp minv maxv x) ->
    exists bids' s', ksort A cmp minv maxv srt B managed fresh mf esz raw ksz M bids first last s = Sorted bids' s' /\
      sorted_range cmp managed B (s_disk s) (s_disk s') (s_live s) (s_live s') bids bids' first last /\
      ((last - first) * esz < M \/ first mod B = 0 -> (forall b, In b bids -> managed b = false) -> bids' = bids).
  Proof.
    intros HM V HH Hr H1 H2 H4 Ha Hb. unfold ksort. destruct (Nat.ltb_spec ((last - first) * esz) M) as [Hlt|Hge].
    - destruct (in_memory_ok s bids first last HM V Hr) as (s' & E1 & E2). rewrite E1. exists bids, s'. cbn. auto.
    - destruct (Nat.leb_spec (2 * raw) M) as [_|?]; [|lia].
      destruct (sort_m2 esz raw 1 M first last ltac:(lia) H1 H2 ltac:(lia) ltac:(lia) ltac:(lia)) as [K1 K2]. rewrite Nat.div_1_r in *.
      destruct Ha as [?|[Ha Hk]]; [lia|].
      destruct (external_ok s bids (ksort_run B raw ksz (M / raw)) (M / raw) first last HM V HH Hr) as (bids' & s' & E1 & E2 & E3).
      { split; [exact Hk|]. apply Nat.lt_le_trans with (M / raw); [apply ksort_run_lt; assumption|exact K2]. }
      { exact Ha. }
      { destruct Hb as [?|Hb]; [lia|exact Hb]. }
      rewrite E1. exists bids', s'. cbn. split; [reflexivity|]. split; [exact E2|]. intros [?|Hf]; [lia|]. apply E3, Hf.
  Qed.
End P.
