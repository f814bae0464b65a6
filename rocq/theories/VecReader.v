(** Readers of ranges of a vector (VecReaderModel). *)
From Coq Require Import List Bool Arith Permutation Lia.
From Verif Require Import SumLib AsyncIoModel AsyncIoProofs AsyncIoRules VectorProofs ScheduleModel ScheduleSpec ScheduleProofs BufIoModel BufIoSpec BufIoRules PrefetchProofs IStreamProofs VecReaderModel VecReaderSpec.
Import ListNotations.

(** * Lists of elements *)
Section Lists.
Context {A : Type}.
Variable SZ : nat.
Variable d : nat -> nat -> A.
Lemma elements_app bs bs' : elements SZ d (bs ++ bs') = elements SZ d bs ++ elements SZ d bs'.
Proof. unfold elements. apply flat_map_app. Qed.
Lemma elements_length bs : length (elements SZ d bs) = length bs * SZ.
Proof. induction bs as [|b bs IH]; [reflexivity|]. change (elements SZ d (b :: bs)) with (map (d b) (seq 0 SZ) ++ elements SZ d bs). rewrite app_length, map_length, seq_length, IH. reflexivity. Qed.
Lemma elements_skipn k : forall bs, elements SZ d (skipn k bs) = skipn (k * SZ) (elements SZ d bs).
Proof.
  induction k as [|k IH]; intros bs; [reflexivity|]. destruct bs as [|b bs]; [simpl; symmetry; apply skipn_nil|].
  cbn [skipn]. rewrite IH. change (elements SZ d (b :: bs)) with (map (d b) (seq 0 SZ) ++ elements SZ d bs). rewrite skipn_app, map_length, seq_length.
  rewrite (skipn_all2 (map _ _)) by (rewrite map_length, seq_length; simpl; lia). simpl (_ ++ _). f_equal. simpl. lia.
Qed.
Lemma elements_firstn k : forall bs, elements SZ d (firstn k bs) = firstn (k * SZ) (elements SZ d bs).
Proof.
  induction k as [|k IH]; intros bs; [reflexivity|]. destruct bs as [|b bs]; [simpl; symmetry; apply firstn_nil|].
  cbn [firstn]. change (elements SZ d (b :: firstn k bs)) with (map (d b) (seq 0 SZ) ++ elements SZ d (firstn k bs)). rewrite IH.
  change (elements SZ d (b :: bs)) with (map (d b) (seq 0 SZ) ++ elements SZ d bs). rewrite firstn_app, map_length, seq_length.
  rewrite (firstn_all2 (map _ _)) by (rewrite map_length, seq_length; simpl; lia). f_equal. f_equal. simpl. lia.
Qed.
Definition mir (b j : nat) : A := d b (SZ - 1 - j).
Lemma rev_seq n : rev (seq 0 n) = map (fun j => n - 1 - j) (seq 0 n).
Proof.
  induction n as [|n IH]; [reflexivity|]. rewrite seq_S at 1. rewrite rev_app_distr. simpl rev. rewrite IH. cbn [app seq map]. f_equal; [lia|].
  rewrite <- seq_shift, map_map. apply map_ext. intro j. lia.
Qed.
End Lists.
Lemma elements_rev A SZ (d : nat -> nat -> A) bs : rev (elements SZ d bs) = elements SZ (mir SZ d) (rev bs).
Proof.
  induction bs as [|b bs IH]; [reflexivity|]. simpl rev. rewrite elements_app. change (elements SZ d (b :: bs)) with (map (d b) (seq 0 SZ) ++ elements SZ d bs).
  rewrite rev_app_distr, IH. f_equal. simpl. rewrite app_nil_r, <- map_rev, rev_seq, map_map. reflexivity.
Qed.
Lemma skip_skip {B} (l : list B) : forall i j, skipn i (skipn j l) = skipn (j + i) l.
Proof. induction l as [|x l IH]; intros i j; [rewrite !skipn_nil; reflexivity|]. destruct j as [|j]; [reflexivity|]. simpl. apply IH. Qed.
Lemma first_first {B} (l : list B) i j : i <= j -> firstn i (firstn j l) = firstn i l.
Proof. intro H. rewrite firstn_firstn. f_equal. lia. Qed.
Lemma skip_rev {B} (l : list B) j : skipn j (rev l) = rev (firstn (length l - j) l).
Proof. apply skipn_rev. Qed.

(** * Streams in both directions *)
Section Stream.
Variable A : Type.
Variable SZ : nat.
Hypothesis SZ1 : 1 <= SZ.
Variables (ndisks mdev : nat) (dev ch : nat -> nat) (base : nat).
Variable D : nat -> nat -> option A.
Variable d : nat -> nat -> A.
Variable bs : list nat.
Variable nb : nat.
Variable rv : bool.
Hypothesis HD : forall b i, In b bs -> i < SZ -> D b i = Some (d b i).
Notation m := (is_nbuf ndisks (length bs) nb).
Notation n := (Nat.min m (length bs)).
Notation istay := (stay (fun x => base <= x < base + n) nothing (fun b => In b bs)).

Definition flip (t : istr) : istr := mk_is (i_pf t) (SZ - 1 - i_elem t) (i_blk t) (i_open t).
Definition sbs : list nat := if rv then rev bs else bs.
Definition sd : nat -> nat -> A := if rv then mir SZ d else d.
(** l: what the stream still gives *)
Definition J (t : istr) (l : list A) (s : sstate A) : Prop :=
  exists order, in_time m order /\ sinv A SZ D sd sbs order n base (if rv then flip t else t) l s /\ i_elem t < SZ.
Lemma sbs_len : length sbs = length bs.
Proof. unfold sbs. destruct rv; [apply rev_length|reflexivity]. Qed.
Lemma sbs_in b : In b sbs <-> In b bs.
Proof. unfold sbs. destruct rv; [symmetry; apply in_rev|reflexivity]. Qed.
Lemma nm : n = length sbs \/ m <= n.
Proof. rewrite sbs_len. lia. Qed.
Lemma istay_sbs (s s' : sstate A) : stay (fun x => base <= x < base + n) nothing (fun b => In b sbs) s s' -> istay s s'.
Proof. apply stay_mono; auto. intros b. apply sbs_in. Qed.
Lemma flip_flip t : i_elem t < SZ -> flip (flip t) = t.
Proof. intro H. destruct t as [p i x o]. unfold flip. simpl in *. f_equal. lia. Qed.
(** a step back is a step of the mirrored stream *)
Lemma ir_incr_flip t s Q : i_elem t < SZ -> ok (is_incr A SZ (flip t)) s (fun t' s' => Q (flip t') s') -> ok (ir_incr A SZ t) s Q.
Proof.
  intros L H. unfold ir_incr, is_incr in *. cbn [flip i_open i_elem i_pf i_blk] in *. destruct (i_open t); [|exact H].
  destruct (Nat.eqb_spec (i_elem t) 0) as [E|E].
  - destruct (Nat.leb_spec SZ (SZ - 1 - i_elem t + 1)) as [_|C]; [|lia]. unfold is_next_block in H. cbn [i_blk i_pf] in H. unfold ok in *. rewrite srun_bind in *.
    destruct (srun (block_consumed A (i_blk t) (i_pf t)) s) as [r s1| |]; auto. destruct r as (t1 & [x|]); cbn [fst snd srun] in *; unfold flip in H; cbn [i_pf i_elem i_blk i_open] in H; rewrite Nat.sub_0_r in H; exact H.
  - destruct (Nat.leb_spec SZ (SZ - 1 - i_elem t + 1)) as [C|_]; [lia|]. unfold ok in *. cbn [srun] in *. unfold flip in H. cbn [i_pf i_elem i_blk i_open] in H.
    replace (SZ - 1 - (SZ - 1 - i_elem t + 1)) with (i_elem t - 1) in H by lia. exact H.
Qed.
Lemma sinv_elem order t l s : sinv A SZ D sd sbs order n base t l s -> i_open t = true -> i_elem t < SZ.
Proof. intros (_ & H) O. rewrite O in H. apply H. Qed.
Lemma is_incr_elem (t : istr) s Q : i_elem t < SZ -> ok (is_incr A SZ t) s Q -> ok (is_incr A SZ t) s (fun t' s' => Q t' s' /\ i_elem t' < SZ).
Proof.
  intros L H. unfold is_incr in *. destruct (i_open t); [|exact H]. cbn [i_elem] in *. destruct (Nat.leb_spec SZ (i_elem t + 1)) as [E|E].
  - unfold is_next_block in *. cbn [i_blk i_pf] in *. unfold ok in *. rewrite srun_bind in *. destruct (srun (block_consumed A (i_blk t) (i_pf t)) s) as [(t1 & [x|]) s1| |]; auto; cbn [fst snd srun i_elem] in *; split; auto; lia.
  - unfold ok in *. cbn [srun i_elem] in *. split; [exact H|lia].
Qed.
Lemma J_incr t v l s : J t (v :: l) s -> ok (in_incr A SZ rv t) s (fun t' s' => J t' l s' /\ istay s s').
Proof.
  intros (order & T & H & L). pose proof (fun t0 H0 => is_incr_ok A SZ SZ1 D sd sbs order n base m T nm t0 v l s H0) as K. unfold in_incr, J in *. destruct rv eqn:Er.
  - apply ir_incr_flip; [exact L|]. eapply ok_imp; [apply (is_incr_elem (flip t)); [simpl; lia|apply K; exact H]|]. cbv beta. intros t' s' ((H1 & F1) & L1). split; [|apply istay_sbs; exact F1].
    exists order. split; [exact T|]. rewrite flip_flip by exact L1. split; [exact H1|]. simpl. lia.
  - eapply ok_imp; [apply (is_incr_elem t); [exact L|apply K; exact H]|]. cbv beta. intros t' s' ((H1 & F1) & L1). split; [|apply istay_sbs; exact F1]. exists order. auto.
Qed.
Lemma J_read R t v l s (k : A -> prog A R) Q : J t (v :: l) s -> ok (k v) s Q -> ok (DoGet (i_blk t) (i_elem t) k) s Q.
Proof.
  intros (order & T & H & L) K. destruct (sinv_head A SZ SZ1 D sd sbs order n base m nm _ v l s H) as (O & Ev). pose proof H as (G & H'). rewrite O in H'. destruct H' as (H1 & H2 & H3 & H4 & H5). pose proof G as (G1 & G2 & G3 & G4).
  assert (Ep : i_pf (if rv then flip t else t) = i_pf t) by (destruct rv; reflexivity). assert (Eb' : i_blk (if rv then flip t else t) = i_blk t) by (destruct rv; reflexivity).
  rewrite Ep in *. rewrite Eb' in *. unfold hb in H3. destruct (p_blk (i_pf t) (p_cons (i_pf t) - 1)) as [(x & q)|] eqn:Eb; [|discriminate]. simpl in H3. injection H3 as ->.
  assert (I : In (nth (p_cons (i_pf t) - 1) sbs 0) bs) by (apply sbs_in, nth_In; lia).
  apply (pf_get_ok A D R (i_pf t) [p_cons (i_pf t) - 1] s 0 (p_cons (i_pf t) - 1) (i_blk t) q _ v); auto. rewrite G1, HD by assumption. rewrite Ev. unfold sd. destruct rv; [|reflexivity].
  unfold mir. cbn [flip i_elem]. do 2 f_equal. lia.
Qed.
Lemma J_current t v l s : J t (v :: l) s -> ok (in_current A rv t) s (fun r s' => r = v /\ s' = s).
Proof. intro H. unfold in_current, ir_current, is_current. destruct rv eqn:Er; (apply (J_read _ t v l s); [exact H|apply ok_ret; auto]). Qed.
Lemma J_delete t l s : J t l s -> ok (is_delete A t) s (fun _ s' => wf s' /\ istay s s' /\ forall r, In r (sout s') -> ~ (base <= a_buf r < base + n)).
Proof.
  intros (order & T & H & L). assert (E : is_delete A t = is_delete A (if rv then flip t else t)) by (destruct rv; reflexivity). rewrite E.
  eapply ok_imp; [apply (is_delete_ok A SZ D sd sbs order n base _ l s H)|]. intros _ s' (W & F & N). split; [exact W|]. split; [apply istay_sbs; exact F|exact N].
Qed.
Lemma J_wf t l s : J t l s -> wf s.
Proof. intros (order & _ & H & _). apply (sinv_wf _ _ _ _ _ _ _ _ _ _ _ H). Qed.
Lemma ir_new_flip s Q : ok (is_new A ndisks mdev dev ch base (rev bs) nb) s (fun t s' => Q (flip t) s' ) -> ok (ir_new A SZ ndisks mdev dev ch base bs nb) s Q.
Proof.
  intro H. unfold ir_new, is_new in *. cbv zeta. destruct (schedule _ _ _ _ _) as [order|]; [|exact H]. unfold ok in *. rewrite !srun_bind in *. destruct (srun (pf_new _ _ _ _ _) s) as [t s1| |]; auto.
  rewrite !srun_bind in *. destruct (srun (pull_block A t) s1) as [r s2| |]; auto. cbn [srun] in *. unfold flip in H. cbn [i_pf i_elem i_blk i_open] in H. rewrite Nat.sub_0_r in H. exact H.
Qed.
Lemma is_new_elem bids s Q : ok (is_new A ndisks mdev dev ch base bids nb) s Q -> ok (is_new A ndisks mdev dev ch base bids nb) s (fun t s' => Q t s' /\ i_elem t = 0).
Proof.
  intro H. unfold is_new in *. cbv zeta in *. destruct (schedule _ _ _ _ _) as [order|]; [|exact H]. unfold ok in *. rewrite !srun_bind in *. destruct (srun (pf_new _ _ _ _ _) s) as [t s1| |]; auto.
  rewrite !srun_bind in *. destruct (srun (pull_block A t) s1) as [r s2| |]; auto. cbn [srun] in *. split; [exact H|reflexivity].
Qed.
Lemma J_new s : 1 <= length bs -> 1 <= m -> (forall b, In b bs -> dev b <= mdev) -> ready A D base n bs s ->
  ok (in_new A SZ ndisks mdev dev ch base rv bs nb) s (fun t s' => J t (if rv then rev (elements SZ d bs) else elements SZ d bs) s' /\ istay s s').
Proof.
  intros HL Hm Hd [R1 R2 R3 R4 R5]. unfold in_new, J, sd, sbs. destruct rv.
  - apply ir_new_flip. eapply ok_imp; [apply is_new_elem, (is_new_ok A SZ D (mir SZ d) ndisks mdev dev ch base (rev bs) nb s SZ1)|].
    + rewrite rev_length. exact HL.
    + rewrite rev_length. exact Hm.
    + intros b Hb. apply Hd, in_rev, Hb.
    + rewrite rev_length. constructor; auto; [intros b Hb; apply R2, in_rev, Hb|intros r Hr W C; apply (R3 r Hr W), in_rev, C|intros b Hb; apply R4, in_rev, Hb].
    + cbv beta. rewrite rev_length. intros t s' ((order & T & H & F) & E). split.
      * exists order. split; [exact T|]. rewrite flip_flip by lia. rewrite elements_rev. split; [exact H|]. simpl. lia.
      * eapply stay_mono; [| | |exact F]; auto. intros b Hb. apply in_rev, Hb.
  - eapply ok_imp; [apply is_new_elem, (is_new_ok A SZ D d ndisks mdev dev ch base bs nb s SZ1 HL Hm Hd)|].
    + constructor; auto.
    + cbv beta. intros t s' ((order & T & H & F) & E). split; [|exact F]. exists order. split; [exact T|]. split; [exact H|lia].
Qed.
Lemma J_skip j : forall t l s, J t l s -> j <= length l -> ok (in_skip A SZ rv j t) s (fun t' s' => J t' (skipn j l) s' /\ istay s s').
Proof.
  induction j as [|j IH]; intros t l s H L; [apply ok_ret; split; [exact H|apply stay_refl]|]. destruct l as [|v l]; [simpl in L; lia|]. cbn [in_skip]. apply ok_bind.
  eapply ok_imp; [apply (J_incr t v l s H)|]. intros t1 s1 (H1 & F1). eapply ok_imp; [apply (IH t1 l s1 H1); simpl in L; lia|]. intros t2 s2 (H2 & F2). split; [exact H2|eapply stay_trans; eassumption].
Qed.
End Stream.

(** * buf_istream_reverse *)
Lemma ir_ops_ok A SZ ndisks base (D : nat -> nat -> option A) d bs nb os : 1 <= SZ -> (forall b i, In b bs -> i < SZ -> D b i = Some (d b i)) ->
  forall t l s out, J A SZ ndisks base D d bs nb true t l s -> ispec_ops l os = Some out ->
  ok (ir_ops A SZ os t) s (fun r s' => snd r = out /\ stay (fun x => base <= x < base + Nat.min (is_nbuf ndisks (length bs) nb) (length bs)) nothing (fun b => In b bs) s s' /\ exists l', J A SZ ndisks base D d bs nb true (fst r) l' s').
Proof.
  intros SZ1 HD. induction os as [|o os IH]; intros t l s out H E.
  - injection E as <-. apply ok_ret. split; [reflexivity|]. split; [apply stay_refl|eauto].
  - simpl in E. destruct l as [|v l]; [discriminate|]. cbn [ir_ops]. apply ok_bind.
    pose proof (J_incr A SZ SZ1 ndisks base D d bs nb true t v l s H) as HI. cbn [in_incr] in HI.
    destruct o; cbn [ir_op]; apply ok_bind.
    + destruct (ispec_ops l os) as [out'|] eqn:E'; [|discriminate]. injection E as <-. unfold ir_get.
      assert (O : i_open t = true) by (destruct H as (order & T & H & L); apply (sinv_head A SZ SZ1 D _ _ order _ base _ (nm SZ SZ1 ndisks bs nb true) _ v l s H)). rewrite O.
      apply (J_read A SZ SZ1 ndisks base D d bs nb true HD _ t v l s); [exact H|]. apply ok_bind. eapply ok_imp; [exact HI|]. intros t1 s1 (H1 & F1). apply ok_ret. apply ok_ret. cbn [fst snd].
      apply ok_bind. eapply ok_imp; [apply (IH t1 l s1 out' H1 E')|]. intros r s2 (R1 & R2 & R3). apply ok_ret. simpl. split; [f_equal; exact R1|]. split; [eapply stay_trans; eassumption|exact R3].
    + destruct (ispec_ops (v :: l) os) as [out'|] eqn:E'; [|discriminate]. injection E as <-. eapply ok_imp; [apply (J_current A SZ SZ1 ndisks base D d bs nb true HD t v l s H)|]. intros w s1 (-> & ->). apply ok_ret. cbn [fst snd].
      apply ok_bind. eapply ok_imp; [apply (IH t (v :: l) s out' H E')|]. intros r s2 (R1 & R2 & R3). apply ok_ret. simpl. split; [f_equal; exact R1|]. split; [exact R2|exact R3].
    + eapply ok_imp; [exact HI|]. intros t1 s1 (H1 & F1). apply ok_ret. cbn [fst snd].
      apply ok_bind. eapply ok_imp; [apply (IH t1 l s1 out H1 E)|]. intros r s2 (R1 & R2 & R3). apply ok_ret. simpl. split; [exact R1|]. split; [eapply stay_trans; eassumption|exact R3].
Qed.
Lemma none_left A (P B C : nat -> Prop) own (d : nat -> nat -> A) al s : stay P B C (sinit_own A own d al) s -> (forall r, In r (sout s) -> ~ P (a_buf r)) -> sout s = [].
Proof.
  intros F N. destruct (sout s) as [|r0 l0] eqn:Eo; [reflexivity|]. exfalso. assert (H0 : In r0 (sout s)) by (rewrite Eo; left; reflexivity).
  destruct (f_new _ _ _ _ _ _ F r0 H0) as [[]|(C' & _)]. apply (N r0); [left; reflexivity|exact C'].
Qed.
Lemma ir_run_ok A SZ (d : nat -> nat -> A) ndisks mdev dev ch base bids nbuf os out al :
  1 <= SZ -> 1 <= length bids -> 1 <= is_nbuf ndisks (length bids) nbuf -> (forall b, In b bids -> dev b <= mdev) -> ispec_ops (rev (elements SZ d bids)) os = Some out ->
  ok (ir_run A SZ ndisks mdev dev ch base bids nbuf os) (sinit_own A bids d al) (fun r s => r = out /\ sout s = []).
Proof.
  intros SZ1 HL Hm Hd E. unfold ir_run. set (D := sdisk (sinit_own A bids d al)). set (s0 := sinit_own A bids d al).
  assert (HD : forall b i, In b bids -> i < SZ -> D b i = Some (d b i)) by (intros b i Hb _; unfold D; simpl; rewrite (proj2 (mem_in _ _) Hb); reflexivity).
  apply ok_bind. pose proof (J_new A SZ SZ1 ndisks mdev dev ch base D d bids nbuf true s0 HL Hm Hd) as HN. cbn [in_new] in HN. eapply ok_imp; [apply HN|].
  { constructor; unfold s0; simpl; auto. apply own_wf. }
  intros t s1 (H1 & F1). apply ok_bind. eapply ok_imp; [apply (ir_ops_ok A SZ ndisks base D d bids nbuf os SZ1 HD t _ s1 out H1 E)|]. intros r s2 (R1 & F2 & (l & H2)).
  apply ok_bind. eapply ok_imp; [apply (J_delete A SZ ndisks base D d bids nbuf true (fst r) l s2 H2)|]. intros _ s3 (W3 & F3 & N3). apply ok_ret. split; [exact R1|].
  apply (none_left A _ _ _ bids d al s3 (stay_trans _ _ _ _ _ _ _ (stay_trans _ _ _ _ _ _ _ F1 F2) F3) N3).
Qed.

(** * The readers *)
Section Reader.
Variable A : Type.
Variable SZ : nat.
Hypothesis SZ1 : 1 <= SZ.
Variables (ndisks mdev : nat) (dev ch : nat -> nat) (base : nat).
Variables (vb : list nat) (nbuf a e : nat) (d : nat -> nat -> A) (al : list (list nat)) (rv : bool).
Hypothesis ND : 1 <= ndisks.
Hypothesis AE : a <= e.
Hypothesis EV : e <= length vb * SZ.
Hypothesis HV : forall b, In b vb -> dev b <= mdev.
Notation s0 := (sinit_own A vb d al).
Notation nb := (if Nat.eqb nbuf 0 then 2 * ndisks else nbuf).
Notation first := (a / SZ).
Notation last := (e / SZ + (if Nat.eqb (e mod SZ) 0 then 0 else 1)).
Notation bs := (firstn (last - first) (skipn first vb)).
Notation E := (elements SZ d vb).
Notation rng := (range E a e).
Notation l := (if rv then rev rng else rng).
Notation n := (Nat.min (is_nbuf ndisks (length bs) nb) (length bs)).
Notation istay := (stay (fun x => base <= x < base + n) nothing (fun b => In b bs)).
Notation J := (J A SZ ndisks base (sdisk s0) d bs nb rv).
Notation skip := (if rv then (if Nat.eqb (e mod SZ) 0 then 0 else SZ - e mod SZ) else a mod SZ).

Lemma ma : a = first * SZ + a mod SZ /\ a mod SZ < SZ.
Proof. split; [rewrite Nat.mul_comm; apply Nat.div_mod; lia|apply Nat.mod_upper_bound; lia]. Qed.
Lemma me : e = e / SZ * SZ + e mod SZ /\ e mod SZ < SZ.
Proof. split; [rewrite Nat.mul_comm; apply Nat.div_mod; lia|apply Nat.mod_upper_bound; lia]. Qed.
Lemma last_e : last * SZ = e + (if Nat.eqb (e mod SZ) 0 then 0 else SZ - e mod SZ).
Proof. destruct me as (H1 & H2). destruct (Nat.eqb_spec (e mod SZ) 0) as [H|H]; rewrite Nat.mul_add_distr_r; lia. Qed.
Lemma last_v : last <= length vb.
Proof.
  pose proof last_e as H. destruct me as (H1 & H2). destruct (Nat.eqb_spec (e mod SZ) 0) as [C|C].
  - apply (Nat.mul_le_mono_pos_r _ _ SZ); lia.
  - apply Nat.lt_succ_r, (Nat.mul_lt_mono_pos_r SZ); simpl; lia.
Qed.
Lemma first_last : a < e -> first < last.
Proof. intro H. pose proof last_e as H1. destruct ma as (H2 & H3). apply (Nat.mul_lt_mono_pos_r SZ); [lia|]. destruct (Nat.eqb (e mod SZ) 0); lia. Qed.
Lemma bs_len : length bs = last - first.
Proof. rewrite firstn_length, skipn_length. pose proof last_v. lia. Qed.
Lemma bs_in b : In b bs -> In b vb.
Proof. intro H. rewrite <- (firstn_skipn first vb). apply in_or_app. right. rewrite <- (firstn_skipn (last - first) (skipn first vb)). apply in_or_app. auto. Qed.
Lemma HD b i : In b bs -> i < SZ -> sdisk s0 b i = Some (d b i).
Proof. intros Hb _. simpl. rewrite (proj2 (mem_in _ _) (bs_in b Hb)). reflexivity. Qed.
Lemma E_len : length E = length vb * SZ.
Proof. apply elements_length. Qed.
Lemma rng_len : length rng = e - a.
Proof. unfold range. rewrite firstn_length, skipn_length, E_len. lia. Qed.
Lemma l_len : length l = e - a.
Proof. destruct rv; [rewrite rev_length|]; apply rng_len. Qed.
Lemma bs_el : elements SZ d bs = firstn ((last - first) * SZ) (skipn (first * SZ) E).
Proof. rewrite elements_firstn, elements_skipn. reflexivity. Qed.
(** what is left after the skipping starts with the range *)
Lemma skipped : a < e -> exists junk, skipn skip (if rv then rev (elements SZ d bs) else elements SZ d bs) = l ++ junk /\ skip <= length (if rv then rev (elements SZ d bs) else elements SZ d bs).
Proof.
  intro H. pose proof (first_last H) as FL. destruct ma as (A1 & A2). pose proof last_e as LE. pose proof last_v as LV.
  assert (LL : last * SZ <= length vb * SZ) by (apply Nat.mul_le_mono_r; exact LV).
  assert (FF : first * SZ + (last - first) * SZ = last * SZ) by (rewrite <- Nat.mul_add_distr_r; f_equal; lia).
  assert (LB : length (elements SZ d bs) = (last - first) * SZ) by (rewrite elements_length, bs_len; reflexivity).
  set (z := if Nat.eqb (e mod SZ) 0 then 0 else SZ - e mod SZ) in *. unfold range. destruct rv.
  - rewrite skip_rev, rev_length, LB. exists (rev (firstn (a mod SZ) (skipn (first * SZ) E))). split; [|lia]. rewrite <- rev_app_distr. f_equal.
    rewrite bs_el, first_first by lia. replace ((last - first) * SZ - z) with (a mod SZ + (e - a)) by lia.
    rewrite <- (firstn_skipn (a mod SZ) (skipn (first * SZ) E)) at 1. rewrite firstn_app, skip_skip, firstn_length, skipn_length, E_len.
    rewrite (firstn_all2 (firstn _ _)) by (rewrite firstn_length; lia). f_equal. rewrite <- A1. f_equal. lia.
  - rewrite LB, bs_el, skipn_firstn_comm, skip_skip, <- A1. exists (skipn (e - a) (firstn ((last - first) * SZ - a mod SZ) (skipn a E))). split; [|lia].
    rewrite <- (first_first (skipn a E) (e - a) ((last - first) * SZ - a mod SZ)) by lia. symmetry. apply firstn_skipn.
Qed.

Definition free (s : sstate A) : Prop := forall r, In r (sout s) -> ~ (base <= a_buf r < base + n).
(** before a rewind *)
Definition W (r : rdr) (s : sstate A) : Prop :=
  wf s /\ istay s0 s /\ r_a r = a /\ r_e r = e /\ match r_in r with Some t => a < e /\ exists k, J t k s | None => free s end.
(** k: what is left *)
Definition K (r : rdr) (k : list A) (s : sstate A) : Prop :=
  wf s /\ istay s0 s /\ r_a r = a /\ r_e r = e /\ (exists pre, l = pre ++ k) /\ r_it r = (if rv then a + length k else e - length k) /\
  match r_in r with Some t => k <> [] /\ exists junk, J t (k ++ junk) s | None => k = [] /\ free s end.
Lemma K_len r k s : K r k s -> length k <= e - a.
Proof. intros (_ & _ & _ & _ & (pre & H) & _). rewrite <- l_len, H, app_length. lia. Qed.
Lemma K_W r k s : K r k s -> W r s.
Proof.
  intro H. pose proof (K_len _ _ _ H) as L. destruct H as (H1 & H2 & H3 & H4 & H5 & H6 & H7). unfold W. repeat (split; [assumption|]).
  destruct (r_in r) as [t|]; [|apply H7]. destruct H7 as (N & junk & H7). split; [destruct k; [congruence|simpl in L; lia]|eauto].
Qed.
Lemma K_empty r k s : K r k s -> r_empty rv r = Nat.eqb (length k) 0.
Proof.
  intro H. pose proof (K_len _ _ _ H) as L. destruct H as (_ & _ & H3 & H4 & _ & H6 & _). unfold r_empty. rewrite H3, H4, H6.
  destruct rv; (destruct (Nat.eqb_spec (length k) 0) as [C|C]; [apply Nat.eqb_eq|apply Nat.eqb_neq]; lia).
Qed.
Lemma K_size r k s : K r k s -> r_size rv r = length k.
Proof. intro H. pose proof (K_len _ _ _ H) as L. destruct H as (_ & _ & H3 & H4 & _ & H6 & _). unfold r_size. rewrite H3, H4, H6. destruct rv; lia. Qed.
Lemma rewind_ok r s : W r s -> ok (rewind A SZ ndisks mdev dev ch base rv vb nb r) s (fun r' s' => K r' l s').
Proof.
  intros (H1 & H2 & H3 & H4 & H5). unfold rewind. cbn [r_a r_e r_in r_it]. unfold r_empty. cbn [r_a r_e r_it]. rewrite H3, H4.
  assert (EE : (if rv then Nat.eqb (if rv then e else a) a else Nat.eqb (if rv then e else a) e) = Nat.eqb a e) by (destruct rv; [apply Nat.eqb_sym|reflexivity]). rewrite EE. clear EE.
  assert (IT : (if rv then e else a) = (if rv then a + length l else e - length l)) by (rewrite l_len; destruct rv; lia).
  destruct (Nat.eqb_spec a e) as [C|C].
  - apply ok_ret. destruct (r_in r) as [t|]; [lia|]. unfold K. cbn [r_a r_e r_in r_it]. repeat (split; [assumption|]). split; [reflexivity|]. split; [reflexivity|]. split; [exists []; reflexivity|]. split; [exact IT|]. split; [|exact H5].
    apply length_zero_iff_nil. rewrite l_len. lia.
  - assert (LT : a < e) by lia. apply ok_bind. eapply (ok_imp _ _ _ _ (fun _ s' => wf s' /\ istay s0 s' /\ free s')).
    + destruct (r_in r) as [t|]; cbn [in_delete]; [|apply ok_ret; auto]. destruct H5 as (_ & k & H5). eapply ok_imp; [apply (J_delete A SZ ndisks base (sdisk s0) d bs nb rv t k s H5)|].
      intros _ s1 (W1 & F1 & N1). split; [exact W1|]. split; [eapply stay_trans; eassumption|exact N1].
    + intros _ s1 (W1 & F1 & N1). apply ok_bind. eapply ok_imp; [apply (J_new A SZ SZ1 ndisks mdev dev ch base (sdisk s0) d bs nb rv s1)|].
      * rewrite bs_len. pose proof (first_last LT). lia.
      * unfold is_nbuf. lia.
      * intros b Hb. apply HV, bs_in, Hb.
      * constructor; auto.
        -- intros b Hb. rewrite (f_own _ _ _ _ _ _ F1). apply bs_in, Hb.
        -- intros r0 Hr Wr _. destruct (f_new _ _ _ _ _ _ F1 r0 Hr) as [[]|(_ & _ & X)]. rewrite Wr in X. exact X.
        -- intros b Hb. apply (f_disk _ _ _ _ _ _ F1). intros [].
      * intros t s2 (J2 & F2). destruct (skipped LT) as (junk & S1 & S2). apply ok_bind. eapply ok_imp; [apply (J_skip A SZ SZ1 ndisks base (sdisk s0) d bs nb rv skip t _ s2 J2 S2)|].
        intros t3 s3 (J3 & F3). apply ok_ret. rewrite S1 in J3. unfold K. cbn [r_a r_e r_in r_it]. split; [apply (J_wf _ _ _ _ _ _ _ _ _ _ _ _ J3)|]. split; [eapply stay_trans; [|exact F3]; eapply stay_trans; eassumption|].
        split; [reflexivity|]. split; [reflexivity|]. split; [exists []; reflexivity|]. split; [exact IT|]. split; [|eauto].
        intro Z. pose proof l_len as LL. rewrite Z in LL. simpl in LL. lia.
Qed.
Lemma r_new_ok : ok (r_new A SZ ndisks mdev dev ch base rv vb nbuf a e) s0 (fun r s => K r l s).
Proof. unfold r_new. apply rewind_ok. unfold W. cbn [r_a r_e r_in]. split; [apply own_wf|]. split; [apply stay_refl|]. split; [reflexivity|]. split; [reflexivity|]. intros r []. Qed.
Lemma r_current_ok r v k s : K r (v :: k) s -> ok (r_current A rv r) s (fun x s' => x = v /\ s' = s).
Proof.
  intros (_ & _ & _ & _ & _ & _ & H). unfold r_current. destruct (r_in r) as [t|]; [|destruct H as (H & _); discriminate]. destruct H as (_ & junk & H).
  apply (J_current A SZ SZ1 ndisks base (sdisk s0) d bs nb rv HD t v (k ++ junk) s H).
Qed.
Lemma r_incr_ok r v k s : K r (v :: k) s -> ok (r_incr A SZ rv r) s (fun r' s' => K r' k s').
Proof.
  intros H. pose proof (K_empty _ _ _ H) as EM. pose proof (K_len _ _ _ H) as L. destruct H as (H1 & H2 & H3 & H4 & (pre & H5) & H6 & H). unfold r_incr. rewrite EM. cbn [length Nat.eqb]. simpl in L, H6.
  destruct (r_in r) as [t|] eqn:Et; [|destruct H as (H & _); discriminate]. destruct H as (_ & junk & H). apply ok_bind.
  eapply ok_imp; [apply (J_incr A SZ SZ1 ndisks base (sdisk s0) d bs nb rv t v (k ++ junk) s H)|]. intros t1 s1 (J1 & F1). cbv zeta. unfold r_empty. cbn [r_a r_e r_it]. rewrite H3, H4, H6.
  assert (F : istay s0 s1) by (eapply stay_trans; eassumption). assert (P : exists pre, l = pre ++ k) by (exists (pre ++ [v]); rewrite <- app_assoc; exact H5).
  assert (IT : (if rv then (if rv then a + S (length k) else e - S (length k)) - 1 else (if rv then a + S (length k) else e - S (length k)) + 1) = (if rv then a + length k else e - length k)) by (destruct rv; lia).
  rewrite IT. assert (EQ : (if rv then Nat.eqb (if rv then a + length k else e - length k) a else Nat.eqb (if rv then a + length k else e - length k) e) = Nat.eqb (length k) 0).
  { destruct rv; (destruct (Nat.eqb_spec (length k) 0) as [C|C]; [apply Nat.eqb_eq|apply Nat.eqb_neq]; lia). }
  rewrite EQ. destruct (Nat.eqb_spec (length k) 0) as [C|C].
  - apply ok_bind. eapply ok_imp; [apply (J_delete A SZ ndisks base (sdisk s0) d bs nb rv t1 _ s1 J1)|]. intros _ s2 (W2 & F2 & N2). apply ok_ret. unfold K. cbn [r_a r_e r_in r_it].
    split; [exact W2|]. split; [eapply stay_trans; eassumption|]. split; [reflexivity|]. split; [reflexivity|]. split; [exact P|]. split; [reflexivity|]. split; [apply length_zero_iff_nil, C|exact N2].
  - apply ok_ret. unfold K. cbn [r_a r_e r_in r_it]. split; [apply (J_wf _ _ _ _ _ _ _ _ _ _ _ _ J1)|]. split; [exact F|]. split; [reflexivity|]. split; [reflexivity|]. split; [exact P|]. split; [reflexivity|].
    split; [intros ->; apply C; reflexivity|eauto].
Qed.
Lemma r_for_ok k : forall r jt s, rv = false -> K r k s -> jt = r_it r -> ok (r_for A SZ rv (length k) jt r) s (fun x s' => snd x = k /\ K (fst x) [] s').
Proof.
  induction k as [|v k IH]; intros r jt s Hv H ->.
  - pose proof H as (_ & _ & _ & H4 & _ & H6 & _). rewrite Hv in H6. cbn [length r_for]. destruct (Nat.eqb_spec (r_it r) (r_e r)) as [_|C]; [|simpl in H6; lia]. apply ok_ret. auto.
  - pose proof (K_len _ _ _ H) as L. pose proof H as (_ & _ & _ & H4 & _ & H6 & _). rewrite Hv in H6. cbn [length] in *. cbn [r_for]. destruct (Nat.eqb_spec (r_it r) (r_e r)) as [C|_]; [lia|]. rewrite Nat.eqb_refl.
    apply ok_bind. eapply ok_imp; [apply (r_current_ok r v k s H)|]. intros x s1 (-> & ->). apply ok_bind. eapply ok_imp; [apply (r_incr_ok r v k s H)|]. intros r1 s1 H1. apply ok_bind.
    eapply ok_imp; [apply (IH r1 (r_it r + 1) s1 Hv H1)|].
    + pose proof H1 as (_ & _ & _ & _ & _ & X6 & _). rewrite Hv in X6. lia.
    + intros x s2 (X1 & X2). apply ok_ret. cbn [fst snd]. rewrite X1. auto.
Qed.
Lemma r_ops_ok os : forall r k s out, K r k s -> rspec rv l k os = Some out ->
  ok (r_ops A SZ ndisks mdev dev ch base rv vb nbuf os r) s (fun x s' => snd x = out /\ exists k', K (fst x) k' s').
Proof.
  induction os as [|o os IH]; intros r k s out H X.
  - injection X as <-. apply ok_ret. eauto.
  - assert (GO : forall r1 k1 s1 o1 out1, K r1 k1 s1 -> rspec rv l k1 os = Some out1 -> out = o1 ++ out1 ->
      ok (bind (r_ops A SZ ndisks mdev dev ch base rv vb nbuf os r1) (fun y => Ret (fst y, o1 ++ snd y))) s1 (fun x s' => snd x = out /\ exists k', K (fst x) k' s')).
    { intros r1 k1 s1 o1 out1 H1 X1 ->. apply ok_bind. eapply ok_imp; [apply (IH r1 k1 s1 out1 H1 X1)|]. intros y s2 (Y1 & Y2). apply ok_ret. cbn [fst snd]. rewrite Y1. auto. }
    cbn [r_ops]. apply ok_bind. destruct o; cbn [rspec] in X; cbn [r_op].
    + destruct k as [|v k]; [discriminate|]. destruct (rspec rv l k os) as [out1|] eqn:X1; [|discriminate]. injection X as <-. apply ok_bind. unfold r_get. apply ok_bind. eapply ok_imp; [apply (r_current_ok r v k s H)|]. intros x s1 (-> & ->).
      apply ok_bind. eapply ok_imp; [apply (r_incr_ok r v k s H)|]. intros r1 s1 H1. apply ok_ret. apply ok_ret. cbn [fst snd]. apply (GO r1 k s1 [OVal A v] out1 H1 X1 eq_refl).
    + destruct k as [|v k]; [discriminate|]. destruct (rspec rv l (v :: k) os) as [out1|] eqn:X1; [|discriminate]. injection X as <-. apply ok_bind. eapply ok_imp; [apply (r_current_ok r v k s H)|]. intros x s1 (-> & ->).
      apply ok_ret. cbn [fst snd]. apply (GO r (v :: k) s [OVal A v] out1 H X1 eq_refl).
    + destruct k as [|v k]; [discriminate|]. apply ok_bind. eapply ok_imp; [apply (r_incr_ok r v k s H)|]. intros r1 s1 H1. apply ok_ret. cbn [fst snd]. apply (GO r1 k s1 [] out H1 X eq_refl).
    + assert (X' : rspec rv l l os = Some out) by (destruct k; exact X). apply ok_bind. eapply ok_imp; [apply (rewind_ok r s (K_W r k s H))|]. intros r1 s1 H1. apply ok_ret. cbn [fst snd]. apply (GO r1 l s1 [] out H1 X' eq_refl).
    + assert (X' : option_map (cons (ONum A (length k))) (rspec rv l k os) = Some out) by (destruct k; exact X). destruct (rspec rv l k os) as [out1|] eqn:X1; [|discriminate]. injection X' as <-. apply ok_ret. cbn [fst snd].
      rewrite (K_size r k s H). apply (GO r k s [ONum A (length k)] out1 H X1 eq_refl).
    + assert (X' : option_map (cons (OBool A (Nat.eqb (length k) 0))) (rspec rv l k os) = Some out) by (destruct k; exact X). destruct (rspec rv l k os) as [out1|] eqn:X1; [|discriminate]. injection X' as <-. apply ok_ret. cbn [fst snd].
      rewrite (K_empty r k s H). apply (GO r k s [OBool A (Nat.eqb (length k) 0)] out1 H X1 eq_refl).
    + assert (X' : (if negb rv && Nat.eqb (length k) (length l) then option_map (cons (OList A l)) (rspec rv l [] os) else None) = Some out) by (destruct k; exact X). clear X.
      destruct (negb rv && Nat.eqb (length k) (length l)) eqn:C; [|discriminate]. apply andb_true_iff in C. destruct C as (C1 & C2). apply negb_true_iff in C1. apply Nat.eqb_eq in C2.
      destruct (rspec rv l [] os) as [out1|] eqn:X1; [|discriminate]. injection X' as <-.
      pose proof H as (_ & _ & H3 & H4 & (pre & H5) & H6 & _). assert (Kl : k = l).
      { assert (Z : length pre = 0) by (pose proof (f_equal (@length A) H5) as Q; rewrite app_length in Q; lia). apply length_zero_iff_nil in Z. rewrite Z in H5. symmetry. exact H5. }
      pose proof l_len as LL. replace (r_e r - r_a r) with (length k) by lia.
      assert (IT : r_a r = r_it r) by (rewrite H6, H3, C2, LL, C1; lia).
      pose proof (r_for_ok k r (r_a r) s C1 H IT) as RF. 
      assert (GF : ok (bind (r_for A SZ rv (length k) (r_a r) r) (fun x => Ret (fst x, [OList A (snd x)]))) s (fun x s' => ok (bind (r_ops A SZ ndisks mdev dev ch base rv vb nbuf os (fst x)) (fun y => Ret (fst y, snd x ++ snd y))) s' (fun x s' => snd x = OList A l :: out1 /\ exists k', K (fst x) k' s'))).
      { apply ok_bind. eapply ok_imp; [exact RF|]. intros x s1 (Y1 & Y2). apply ok_ret. cbn [fst snd]. rewrite Y1, Kl. apply (GO (fst x) [] s1 [OList A l] out1 Y2 X1 eq_refl). }
      rewrite C1 in GF |- *. exact GF.
Qed.
Lemma r_run_ok os out : rspec rv l l os = Some out ->
  ok (r_run A SZ ndisks mdev dev ch base rv vb nbuf a e os) s0 (fun r s => r = out /\ sout s = [] /\ sown s = vb /\ forall b i, In b vb -> sdisk s b i = Some (d b i)).
Proof.
  intro X. unfold r_run. apply ok_bind. eapply ok_imp; [apply r_new_ok|]. intros r s1 H1. apply ok_bind. eapply ok_imp; [apply (r_ops_ok os r l s1 out H1 X)|]. intros x s2 (X2 & k & H2). apply ok_bind.
  eapply (ok_imp _ _ _ _ (fun _ s' => istay s0 s' /\ free s')).
  - unfold r_delete. destruct H2 as (_ & F & _ & _ & _ & _ & H). destruct (r_in (fst x)) as [t|]; cbn [in_delete]; [|apply ok_ret; split; [exact F|apply H]]. destruct H as (_ & junk & H).
    eapply ok_imp; [apply (J_delete A SZ ndisks base (sdisk s0) d bs nb rv t _ s2 H)|]. intros _ s3 (W3 & F3 & N3). split; [eapply stay_trans; eassumption|exact N3].
  - intros _ s3 (F3 & N3). apply ok_ret. split; [exact X2|]. split; [apply (none_left A _ _ _ vb d al s3 F3 N3)|]. split; [apply (f_own _ _ _ _ _ _ F3)|]. intros b i Hb. rewrite (f_disk _ _ _ _ _ _ F3 b) by intros []. simpl. rewrite (proj2 (mem_in _ _) Hb). reflexivity.
Qed.
End Reader.
