From Coq Require Import List Bool Arith Permutation Lia.
From Verif Require Import SumLib AsyncIoModel AsyncIoProofs AsyncIoRules VectorProofs ScheduleModel ScheduleSpec ScheduleProofs BufIoModel BufIoSpec BufIoRules.
Import ListNotations.

Lemma nth_replace {B} (l : list B) h x y : nth_error l h = Some y -> Permutation (replace_at h x l) (remove_at h l ++ [x]).
Proof. intros _. unfold replace_at, remove_at. rewrite <- app_assoc. apply Permutation_app_head. apply Permutation_cons_append. Qed.
Lemma nth_remove {B} (l : list B) : forall h y, nth_error l h = Some y -> Permutation l (y :: remove_at h l).
Proof.
  induction l as [|z l IH]; intros h y E; [destruct h; discriminate|]. destruct h as [|h]; simpl in E.
  - injection E as ->. reflexivity.
  - change (remove_at (S h) (z :: l)) with (z :: remove_at h l). rewrite perm_swap. constructor. apply IH. exact E.
Qed.
Lemma map_replace {B C} (f : B -> C) h x l : map f (replace_at h x l) = replace_at h (f x) (map f l).
Proof. unfold replace_at. rewrite map_app, firstn_map. simpl. rewrite skipn_map. reflexivity. Qed.
Lemma map_remove {B C} (f : B -> C) h l : map f (remove_at h l) = remove_at h (map f l).
Proof. unfold remove_at. rewrite map_app, firstn_map, skipn_map. reflexivity. Qed.
Lemma firstn_snoc {B} (l : list B) n x : nth_error l n = Some x -> firstn (n + 1) l = firstn n l ++ [x].
Proof.
  revert n. induction l as [|y l IH]; intros n E; [destruct n; discriminate|]. destruct n as [|n]; simpl in *; [injection E as ->; reflexivity|]. rewrite IH by exact E. reflexivity.
Qed.
Lemma nth_firstn {B} (l : list B) : forall n p, p < n -> nth_error (firstn n l) p = nth_error l p.
Proof. induction l as [|y l IH]; intros n p H; [rewrite firstn_nil; reflexivity|]. destruct n as [|n]; [lia|]. destruct p as [|p]; [reflexivity|]. simpl. apply IH. lia. Qed.
Lemma in_firstn_nth {B} (l : list B) n p x : nth_error l p = Some x -> p < n -> In x (firstn n l).
Proof.
  revert n p. induction l as [|y l IH]; intros n p E H; [destruct p; discriminate|]. destruct n as [|n]; [lia|]. destruct p as [|p]; simpl in *; [left; congruence|right; apply (IH n p); [exact E|lia]].
Qed.

Section Prefetch.
Variable A : Type.
Variable D : nat -> nat -> option A.   (* the disk *)
Notation sstate := (sstate A).
Notation L t := (length (p_bids t)).
Definition issued (t : pf) (k : nat) : Prop := In k (firstn (p_next t) (p_seq t)).
Definition live (t : pf) (held : list nat) (k : nat) : Prop := issued t k /\ (p_cons t <= k \/ In k held).
Definition PB (t : pf) (x : nat) : Prop := p_base t <= x < p_base t + p_nread t.
Definition nothing (x : nat) : Prop := False.
Notation pstay t := (stay (PB t) nothing (fun b => In b (p_bids t))).

Record pinv (t : pf) (held : list nat) (s : sstate) : Prop := mk_pinv {
  pi_wf : wf s;
  pi_perm : Permutation (p_seq t) (seq 0 (L t));
  pi_next : p_next t = Nat.min (L t) (p_nread t + (p_cons t - length held));
  pi_cons : length held <= p_cons t <= L t;
  pi_heldnd : NoDup held;
  pi_held : forall k, In k held -> k < p_cons t /\ issued t k;
  pi_own : forall b, In b (p_bids t) -> In b (sown s);
  pi_now : forall r k, In r (sout s) -> a_write r = true -> ~ issued t k -> nth_error (p_bids t) k <> Some (a_bid r);
  pi_disk : forall k b, ~ issued t k -> nth_error (p_bids t) k = Some b -> sdisk s b = D b;
  pi_live : forall k, live t held k -> exists x q b, p_blk t k = Some (x, q) /\ PB t x /\ nth_error (p_bids t) k = Some b /\ scont s x = D b /\ p_breq t x = Some q /\ q < snext s /\ (forall r, In r (sout s) -> a_id r = q -> a_buf r = x);
  pi_req : forall r, In r (sout s) -> PB t (a_buf r) -> exists k, issued t k /\ p_cons t <= k /\ p_blk t k = Some (a_buf r, a_id r) /\ nth_error (p_bids t) k = Some (a_bid r) /\ a_write r = false;
  pi_inj : forall k k' x q q', live t held k -> live t held k' -> p_blk t k = Some (x, q) -> p_blk t k' = Some (x, q') -> k = k';
  pi_old : forall k, k < p_cons t -> issued t k;
  pi_none : forall k, ~ issued t k -> p_blk t k = None;
  pi_breq : forall x q, p_breq t x = Some q -> q < snext s /\ (forall r, In r (sout s) -> a_id r = q -> a_buf r = x) }.

Lemma seq_nd t : Permutation (p_seq t) (seq 0 (L t)) -> NoDup (p_seq t).
Proof. intro P. apply (Permutation_NoDup (Permutation_sym P)). apply seq_NoDup. Qed.
Lemma seq_len t : Permutation (p_seq t) (seq 0 (L t)) -> length (p_seq t) = L t.
Proof. intro P. rewrite (Permutation_length P). apply seq_length. Qed.
Lemma live_perm t held held' k : Permutation held held' -> live t held k -> live t held' k.
Proof. intros P (H1 & [H2|H2]); split; auto. right. apply (Permutation_in _ P H2). Qed.
Lemma pinv_perm t held held' s : Permutation held held' -> pinv t held s -> pinv t held' s.
Proof.
  intros P I. pose proof (Permutation_length P) as PL. constructor; try apply I.
  - rewrite <- PL. apply I.
  - rewrite <- PL. apply I.
  - apply (Permutation_NoDup P). apply I.
  - intros k H. apply (pi_held _ _ _ I). apply (Permutation_in _ (Permutation_sym P) H).
  - intros k H. apply (pi_live _ _ _ I). apply (live_perm _ _ _ _ (Permutation_sym P) H).
  - intros k k' x q q' H H'. apply (pi_inj _ _ _ I); apply (live_perm _ _ _ _ (Permutation_sym P)); assumption.
Qed.
(** what others do does not matter *)
Lemma pinv_stay (P' B' C' : nat -> Prop) t held s s' : pinv t held s -> wf s' -> stay P' B' C' s s' -> (forall x, PB t x -> ~ P' x) -> (forall k b, ~ issued t k -> nth_error (p_bids t) k = Some b -> ~ B' b) -> pinv t held s'.
Proof.
  intros I W F HP HB. pose proof (f_new _ _ _ _ _ _ F) as FN. constructor; try apply I.
  - exact W.
  - rewrite (f_own _ _ _ _ _ _ F). apply I.
  - intros r k Hr Wr Nk Hb. destruct (FN r Hr) as [H|(H1 & H2 & H3)]; [apply (pi_now _ _ _ I r k H Wr Nk Hb)|]. rewrite Wr in H3. apply (HB _ _ Nk Hb H3).
  - intros k b Nk Hb. rewrite (f_disk _ _ _ _ _ _ F) by (apply (HB _ _ Nk Hb)). apply (pi_disk _ _ _ I k b Nk Hb).
  - intros k Hk. destruct (pi_live _ _ _ I k Hk) as (x & q & b & E1 & E2 & E3 & E4 & E5 & E6 & E7). exists x, q, b. split; [exact E1|]. split; [exact E2|]. split; [exact E3|]. split; [rewrite (f_cont _ _ _ _ _ _ F) by (apply HP; exact E2); exact E4|].
    split; [exact E5|]. split; [pose proof (f_next _ _ _ _ _ _ F); lia|]. intros r Hr Er. destruct (FN r Hr) as [H|(H1 & H2 & H3)]; [apply E7; assumption|lia].
  - intros r Hr Pr. destruct (FN r Hr) as [H|(H1 & H2 & H3)]; [apply (pi_req _ _ _ I r H Pr)|]. exfalso. apply (HP _ Pr H1).
  - intros x q E. destruct (pi_breq _ _ _ I x q E) as (E1 & E2). split; [pose proof (f_next _ _ _ _ _ _ F); lia|]. intros r Hr Er. destruct (FN r Hr) as [H|(H1 & H2 & H3)]; [apply E2; assumption|lia].
Qed.

(** waiting for a block that is live *)
Lemma wt_pinv t held s k x q : pinv t held s -> live t held k -> p_blk t k = Some (x, q) -> pinv t held (wt s q) /\ pstay t s (wt s q) /\ (forall r, In r (sout (wt s q)) -> a_buf r <> x).
Proof.
  intros I Hk E. destruct (pi_live _ _ _ I k Hk) as (x' & q' & b & E1 & E2 & E3 & E4 & E5 & E6 & E7). rewrite E in E1. injection E1 as <- <-. split; [|split].
  - constructor; try apply I.
    + apply wt_wf, I.
    + intros r k' Hr. apply drop_id_in in Hr. apply (pi_now _ _ _ I). apply Hr.
    + intros k' Hk'. destruct (pi_live _ _ _ I k' Hk') as (y & q2 & b2 & F1 & F2 & F3 & F4 & F5 & F6 & F7). exists y, q2, b2. repeat (split; [assumption|]). intros r Hr. apply drop_id_in in Hr. apply F7, Hr.
    + intros r Hr. apply drop_id_in in Hr. apply (pi_req _ _ _ I), Hr.
    + intros y q2 E0. destruct (pi_breq _ _ _ I y q2 E0) as (Z1 & Z2). split; [exact Z1|]. intros r Hr. apply drop_id_in in Hr. apply Z2, Hr.
  - apply wt_stay. intros r Hr Er. rewrite (E7 r Hr Er). exact E2.
  - intros r Hr Er. apply drop_id_in in Hr. destruct Hr as (Hr & Nr). assert (Pr : PB t (a_buf r)) by (rewrite Er; exact E2). destruct (pi_req _ _ _ I r Hr Pr) as (k' & K1 & K2 & K3 & _). rewrite Er in K3.
    assert (k' = k) as -> by (apply (pi_inj _ _ _ I k' k x (a_id r) q); auto; split; auto). rewrite E in K3. injection K3 as K3. congruence.
Qed.

Lemma pull_ok t held s : pinv t held s -> p_cons t < L t -> issued t (p_cons t) ->
  ok (pull_block A t) s (fun r s' => pinv (fst r) (held ++ [p_cons t]) s' /\ pstay t s s' /\ p_blk (fst r) = p_blk t /\ p_bids (fst r) = p_bids t /\ p_seq (fst r) = p_seq t /\ p_nread (fst r) = p_nread t /\ p_base (fst r) = p_base t /\ p_cons (fst r) = p_cons t + 1 /\
    exists q, p_blk t (p_cons t) = Some (snd r, q)).
Proof.
  intros I Hc Hi. assert (Lv : live t held (p_cons t)) by (split; [exact Hi|left; lia]). destruct (pi_live _ _ _ I _ Lv) as (x & q & b & E1 & E2 & E3 & E4 & E5 & E6 & E7).
  destruct (wt_pinv t held s _ x q I Lv E1) as (I1 & F1 & N1). unfold pull_block, pf_wait. rewrite E1. cbn [bind]. apply io_wait. apply ok_ret. cbn [fst snd p_blk p_bids p_seq p_nread p_base p_cons].
  assert (LV : forall k, live (mk_pf (p_bids t) (p_seq t) (p_nread t) (p_base t) (p_next t) (p_cons t + 1) (p_breq t) (p_blk t)) (held ++ [p_cons t]) k -> live t held k).
  { intros k (H1 & H2). split; [exact H1|]. simpl in H2. destruct H2 as [H2|H2]; [left; lia|]. apply in_app_iff in H2. destruct H2 as [H2|[<-|[]]]; [right; exact H2|left; lia]. }
  split; [|split; [exact F1|repeat (split; [reflexivity|]); exists q; auto]].
  constructor; try apply I1; cbn [fst snd p_blk p_bids p_seq p_nread p_base p_cons p_next p_breq].
  - pose proof (pi_next _ _ _ I) as N. pose proof (pi_cons _ _ _ I). rewrite app_length. simpl. rewrite N. f_equal. lia.
  - pose proof (pi_cons _ _ _ I). rewrite app_length. simpl. lia.
  - apply (Permutation_NoDup (Permutation_cons_append held (p_cons t))). constructor; [|apply I]. intro H. apply (pi_held _ _ _ I) in H. lia.
  - intros k H. apply in_app_iff in H. destruct H as [H|[<-|[]]].
    + destruct (pi_held _ _ _ I k H). split; [lia|assumption].
    + split; [lia|exact Hi].
  - intros k Hk. apply (pi_live _ _ _ I1). apply LV. exact Hk.
  - intros r Hr Pr. destruct (pi_req _ _ _ I1 r Hr Pr) as (k & K1 & K2 & K3 & K4 & K5). exists k. split; [exact K1|]. split; [|auto].
    destruct (Nat.eq_dec k (p_cons t)) as [->|]; [|lia]. exfalso. rewrite E1 in K3. injection K3 as K3 _. apply (N1 r Hr). congruence.
  - intros k k' y q1 q2 H1 H2. apply (pi_inj _ _ _ I1); apply LV; assumption.
  - intros k Hk. destruct (Nat.eq_dec k (p_cons t)) as [->|]; [exact Hi|]. apply (pi_old _ _ _ I). lia.
Qed.

(** returning the buffer of block k and reading the next one into it *)
Lemma fetch_ok t held s k h x q : pinv t held s -> nth_error held h = Some k -> p_blk t k = Some (x, q) ->
  ok (wait_opt A (p_breq t x) (
      let t := set_breq t (upd (p_breq t) x None) in
      (if Nat.ltb (p_next t) (p_len t) then
               match nth_error (p_seq t) (p_next t) with
               | None => Err
               | Some k => fetch A x k (set_next t (p_next t + 1))
               end
             else Ret t))) s
    (fun t' s' => pinv t' (remove_at h held) s' /\ pstay t s s' /\ (forall j, p_blk t j <> None -> p_blk t' j = p_blk t j) /\ p_bids t' = p_bids t /\ p_seq t' = p_seq t /\ p_nread t' = p_nread t /\ p_base t' = p_base t /\ p_cons t' = p_cons t).
Proof.
  intros I Hh E. pose proof (nth_error_In _ _ Hh) as Hk. destruct (pi_held _ _ _ I k Hk) as (Kc & Ki). assert (Lv : live t held k) by (split; auto).
  destruct (pi_live _ _ _ I _ Lv) as (x' & q' & b & E1 & E2 & E3 & E4 & E5 & E6 & E7). rewrite E in E1. injection E1 as <- <-.
  destruct (wt_pinv t held s _ x q I Lv E) as (I1 & F1 & N1). rewrite E5. unfold wait_opt. apply io_wait. set (s1 := wt s q) in *. clearbody s1.
  pose proof (nth_remove held h k Hh) as HP. pose proof (pi_perm _ _ _ I) as SP. pose proof (seq_len _ SP) as SL. pose proof (seq_nd _ SP) as SN.
  assert (HL : length held = 1 + length (remove_at h held)) by (rewrite (Permutation_length HP); reflexivity).
  assert (HN : NoDup (k :: remove_at h held)) by (apply (Permutation_NoDup HP), I). inversion HN as [|? ? HN1 HN2]; subst.
  assert (HI : forall j, In j (remove_at h held) -> In j held /\ j <> k).
  { intros j Hj. split; [apply (Permutation_in _ (Permutation_sym HP)); right; exact Hj|]. intros ->. contradiction. }
  pose proof (pi_next _ _ _ I) as PN. pose proof (pi_cons _ _ _ I) as PC.
  cbv zeta. unfold p_len, set_breq. cbn [p_next p_bids p_seq p_nread p_base p_cons p_breq p_blk].
  (* a block that was live and is not k does not use buffer x *)
  assert (OX : forall j, live t held j -> j <> k -> forall y q2, p_blk t j = Some (y, q2) -> y <> x).
  { intros j Hj Nj y q2 Ey ->. apply Nj. apply (pi_inj _ _ _ I j k x q2 q); assumption. }
  destruct (Nat.ltb_spec (p_next t) (L t)) as [G|G].
  - destruct (nth_error (p_seq t) (p_next t)) as [k2|] eqn:En; [|apply nth_error_None in En; lia].
    assert (K2L : k2 < L t) by (apply nth_error_In in En; apply (Permutation_in _ SP) in En; apply in_seq in En; lia).
    assert (K2N : ~ issued t k2).
    { intro C. unfold issued in C. pose proof (firstn_skipn (p_next t) (p_seq t)) as FS. assert (K : In k2 (skipn (p_next t) (p_seq t))).
      { apply nth_error_split in En. destruct En as (l1 & l2 & -> & Hl). rewrite <- Hl, skipn_app, skipn_all, Nat.sub_diag. left. reflexivity. }
      rewrite <- FS in SN. clear -SN C K. revert C SN. induction (firstn (p_next t) (p_seq t)) as [|z l IH]; intros C SN; [destruct C|]. simpl in SN. inversion SN; subst. destruct C as [->|C]; [apply H1, in_app_iff; auto|auto]. }
    assert (K2C : p_cons t <= k2 \/ k2 < p_cons t) by lia.
    unfold fetch. cbn [set_next set_breq p_bids p_blk]. destruct (nth_error (p_bids t) k2) as [b2|] eqn:Eb; [|apply nth_error_None in Eb; lia]. rewrite (pi_none _ _ _ I k2 K2N).
    assert (Hb2 : In b2 (p_bids t)) by (eapply nth_error_In; exact Eb).
    apply io_read; [apply (pi_own _ _ _ I1); exact Hb2|exact N1|intros r Hr Wr C; apply (pi_now _ _ _ I1 r k2 Hr Wr K2N); congruence|]. apply ok_ret.
    cbn [set_next set_breq p_bids p_blk p_seq p_nread p_base p_next p_cons p_breq]. set (t' := mk_pf _ _ _ _ _ _ _ _).
    assert (IS : forall j, issued t' j <-> issued t j \/ j = k2).
    { intro j. unfold issued, t'. cbn [p_next p_seq]. rewrite (firstn_snoc _ _ _ En), in_app_iff. simpl. intuition. }
    assert (LV : forall j, live t' (remove_at h held) j -> j <> k2 -> live t held j /\ j <> k).
    { intros j (J1 & J2) Nj. apply IS in J1. destruct J1 as [J1|J1]; [|contradiction]. destruct J2 as [J2|J2].
      - split; [split; [exact J1|left; exact J2]|]. intros ->. unfold t' in J2. simpl in J2. lia.
      - destruct (HI j J2) as (J3 & J4). split; [split; auto|exact J4]. }
    assert (ND : p_cons t <= k2 -> True) by auto.
    split; [|split; [|split; [|auto]]].
    + constructor; try apply I1; unfold t'; cbn [set_next set_breq p_bids p_blk p_seq p_nread p_base p_next p_cons p_breq].
      * apply rd_wf, I1.
      * lia.
      * lia.
      * exact HN2.
      * intros j Hj. destruct (HI j Hj) as (J1 & J2). destruct (pi_held _ _ _ I j J1) as (J3 & J4). split; [exact J3|]. apply IS. auto.
      * intros r j Hr Wr Nj. simpl in Hr. apply in_app_iff in Hr. destruct Hr as [Hr|[<-|[]]]; [apply (pi_now _ _ _ I1 r j Hr Wr); intro C; apply Nj, IS; auto|discriminate].
      * intros j b3 Nj Hb3. apply (pi_disk _ _ _ I1 j b3); [intro C; apply Nj, IS; auto|exact Hb3].
      * intros j Hj. destruct (Nat.eq_dec j k2) as [->|Nj].
        -- exists x, (snext s1), b2. rewrite !upd_same. split; [reflexivity|]. split; [exact E2|]. split; [exact Eb|]. split; [simpl; rewrite upd_same; apply (pi_disk _ _ _ I1 _ _ K2N Eb)|]. split; [reflexivity|]. split; [simpl; lia|].
           simpl. intros r Hr Er. apply in_app_iff in Hr. destruct Hr as [Hr|[<-|[]]]; [|reflexivity]. apply (proj1 (pi_wf _ _ _ I1)) in Hr. lia.
        -- destruct (LV j Hj Nj) as (J1 & J2). destruct (pi_live _ _ _ I1 j J1) as (y & q2 & b3 & Y1 & Y2 & Y3 & Y4 & Y5 & Y6 & Y7). assert (Ny : y <> x) by (apply (OX j J1 J2 _ _ Y1)).
           exists y, q2, b3. rewrite !upd_other by assumption. split; [exact Y1|]. split; [exact Y2|]. split; [exact Y3|]. split; [simpl; rewrite upd_other by exact Ny; exact Y4|]. split; [exact Y5|]. split; [simpl; lia|].
           simpl. intros r Hr Er. apply in_app_iff in Hr. destruct Hr as [Hr|[<-|[]]]; [apply Y7; assumption|simpl in Er; lia].
      * intros r Hr Pr. simpl in Hr. apply in_app_iff in Hr. destruct Hr as [Hr|[<-|[]]].
        -- destruct (pi_req _ _ _ I1 r Hr Pr) as (j & J1 & J2 & J3 & J4). exists j. split; [apply IS; auto|]. split; [exact J2|]. split; [|exact J4]. rewrite upd_other; [exact J3|]. intros ->. contradiction.
        -- exists k2. simpl. rewrite upd_same. split; [apply IS; auto|]. split; [|auto].
           destruct (Nat.lt_ge_cases k2 (p_cons t)) as [C|C]; [|exact C]. exfalso. apply K2N, (pi_old _ _ _ I _ C).
      * intros j j' y q1 q2 J1 J2. unfold upd. destruct (Nat.eqb_spec j k2) as [Ej|Nj]; destruct (Nat.eqb_spec j' k2) as [Ej'|Nj']; intros X1 X2.
        -- congruence.
        -- injection X1 as <- <-. destruct (LV j' J2 Nj') as (Z1 & Z2). exfalso. apply (OX j' Z1 Z2 _ _ X2). reflexivity.
        -- injection X2 as <- <-. destruct (LV j J1 Nj) as (Z1 & Z2). exfalso. apply (OX j Z1 Z2 _ _ X1). reflexivity.
        -- destruct (LV j J1 Nj) as (Z1 & Z2). destruct (LV j' J2 Nj') as (Z3 & Z4). apply (pi_inj _ _ _ I j j' y q1 q2); assumption.
      * intros j Hj. apply IS. left. apply (pi_old _ _ _ I _ Hj).
      * intros j Hj. rewrite upd_other by (intros ->; apply Hj, IS; auto). apply (pi_none _ _ _ I). intro C. apply Hj, IS. auto.
      * intros y q2 E0. unfold upd in E0. destruct (Nat.eqb_spec y x) as [Ey|Ny].
        -- injection E0 as <-. split; [simpl; lia|]. simpl. intros r Hr Er. apply in_app_iff in Hr. destruct Hr as [Hr|[<-|[]]]; [apply (proj1 (pi_wf _ _ _ I1)) in Hr; lia|simpl; congruence].
        -- destruct (pi_breq _ _ _ I1 y q2 E0) as (Z1 & Z2). split; [simpl; lia|]. simpl. intros r Hr Er. apply in_app_iff in Hr. destruct Hr as [Hr|[<-|[]]]; [apply Z2; assumption|simpl in Er; lia].
    + eapply stay_trans; [exact F1|]. apply rd_stay; assumption.
    + intros j Hj. unfold t'. simpl. apply upd_other. intros ->. apply Hj. apply (pi_none _ _ _ I). exact K2N.
  - apply ok_ret.
    assert (LV : forall j, live (set_breq t (upd (p_breq t) x None)) (remove_at h held) j -> live t held j /\ j <> k).
    { intros j (J1 & J2). destruct J2 as [J2|J2].
      - split; [split; [exact J1|left; exact J2]|]. intros ->. simpl in J2. lia.
      - destruct (HI j J2) as (J3 & J4). split; [split; auto|exact J4]. }
    split; [|split; [exact F1|split; [auto|repeat (split; [reflexivity|]); reflexivity]]].
    constructor; try apply I1; cbn [set_next set_breq p_bids p_blk p_seq p_nread p_base p_next p_cons p_breq].
    + lia.
    + lia.
    + exact HN2.
    + intros j Hj. destruct (HI j Hj) as (J1 & J2). apply (pi_held _ _ _ I j J1).
    + intros j Hj. destruct (LV j Hj) as (J1 & J2). destruct (pi_live _ _ _ I1 j J1) as (y & q2 & b3 & Y1 & Y2 & Y3 & Y4 & Y5 & Y6 & Y7). assert (Ny : y <> x) by (apply (OX j J1 J2 _ _ Y1)).
      exists y, q2, b3. rewrite upd_other by exact Ny. auto 10.
    + intros j j' y q1 q2 J1 J2. apply (pi_inj _ _ _ I); [apply LV, J1|apply LV, J2].
    + intros y q2 E0. unfold upd in E0. destruct (Nat.eqb y x); [discriminate|]. apply (pi_breq _ _ _ I1 y q2 E0).
Qed.

(** * Creation *)
Record ready (base n : nat) (bids : list nat) (s : sstate) : Prop := mk_ready {
  rd_wf : wf s;
  rd_own : forall b, In b bids -> In b (sown s);
  rd_now : forall r, In r (sout s) -> a_write r = true -> ~ In (a_bid r) bids;
  rd_disk : forall b, In b bids -> sdisk s b = D b;
  rd_free : forall r, In r (sout s) -> ~ (base <= a_buf r < base + n) }.
Record finv (t : pf) (i : nat) (s : sstate) : Prop := mk_finv {
  fi_wf : wf s;
  fi_own : forall b, In b (p_bids t) -> In b (sown s);
  fi_now : forall r, In r (sout s) -> a_write r = true -> ~ In (a_bid r) (p_bids t);
  fi_disk : forall b, In b (p_bids t) -> sdisk s b = D b;
  fi_live : forall j, j < i -> exists k q b, nth_error (p_seq t) j = Some k /\ p_blk t k = Some (p_base t + j, q) /\ nth_error (p_bids t) k = Some b /\ scont s (p_base t + j) = D b /\ p_breq t (p_base t + j) = Some q /\ q < snext s /\ (forall r, In r (sout s) -> a_id r = q -> a_buf r = p_base t + j);
  fi_req : forall r, In r (sout s) -> PB t (a_buf r) -> exists k, In k (firstn i (p_seq t)) /\ p_blk t k = Some (a_buf r, a_id r) /\ nth_error (p_bids t) k = Some (a_bid r) /\ a_write r = false;
  fi_none : forall k, ~ In k (firstn i (p_seq t)) -> p_blk t k = None;
  fi_breq : forall x q, p_breq t x = Some q -> q < snext s /\ (forall r, In r (sout s) -> a_id r = q -> a_buf r = x) }.
Definition same_pf (t t' : pf) : Prop := p_bids t' = p_bids t /\ p_seq t' = p_seq t /\ p_nread t' = p_nread t /\ p_base t' = p_base t /\ p_next t' = p_next t /\ p_cons t' = p_cons t.
Lemma first_reads_ok n : forall i t s, Permutation (p_seq t) (seq 0 (L t)) -> i + n = p_nread t -> p_nread t <= L t -> finv t i s ->
  ok (first_reads A n i t) s (fun t' s' => finv t' (i + n) s' /\ pstay t s s' /\ same_pf t t').
Proof.
  induction n as [|n IH]; intros i t s SP Hn HL F.
  - simpl. apply ok_ret. rewrite Nat.add_0_r. split; [exact F|]. split; [apply stay_refl|unfold same_pf; auto 10].
  - pose proof (seq_len _ SP) as SL. pose proof (seq_nd _ SP) as SN. simpl. destruct (nth_error (p_seq t) i) as [k|] eqn:En; [|apply nth_error_None in En; lia].
    assert (KN : ~ In k (firstn i (p_seq t))).
    { intro C. pose proof (firstn_skipn i (p_seq t)) as FS. assert (K : In k (skipn i (p_seq t))).
      { apply nth_error_split in En. destruct En as (l1 & l2 & -> & Hl). rewrite <- Hl, skipn_app, skipn_all, Nat.sub_diag. left. reflexivity. }
      rewrite <- FS in SN. clear -SN C K. revert C SN. induction (firstn i (p_seq t)) as [|z l IH]; intros C SN; [destruct C|]. simpl in SN. inversion SN; subst. destruct C as [->|C]; [apply H1, in_app_iff; auto|auto]. }
    assert (KL : k < L t) by (apply nth_error_In in En; apply (Permutation_in _ SP) in En; apply in_seq in En; lia).
    unfold fetch. destruct (nth_error (p_bids t) k) as [b|] eqn:Eb; [|apply nth_error_None in Eb; lia]. rewrite (fi_none _ _ _ F k KN). cbn [bind].
    assert (Hb : In b (p_bids t)) by (eapply nth_error_In; exact Eb). assert (PX : PB t (p_base t + i)) by (unfold PB; lia).
    assert (BL : forall j q, In j (firstn i (p_seq t)) -> p_blk t j = Some (p_base t + i, q) -> False).
    { intros j q Hj E. apply In_nth_error in Hj. destruct Hj as (p & Hp). assert (Lp : p < i) by (apply nth_error_lt in Hp; rewrite firstn_length in Hp; lia). rewrite nth_firstn in Hp by exact Lp.
      destruct (fi_live _ _ _ F p Lp) as (k' & q' & b' & X1 & X2 & _). assert (k' = j) by congruence. subst k'. rewrite E in X2. injection X2 as X2 _. lia. }
    apply io_read.
    + apply (fi_own _ _ _ F _ Hb).
    + intros r Hr C. assert (Pr : PB t (a_buf r)) by (rewrite C; exact PX). destruct (fi_req _ _ _ F r Hr Pr) as (j & J1 & J2 & _). rewrite C in J2. apply (BL j _ J1 J2).
    + intros r Hr Wr C. apply (fi_now _ _ _ F r Hr Wr). congruence.
    + cbn [bind]. set (t1 := mk_pf _ _ _ _ _ _ _ _). assert (IS : forall j, In j (firstn (i + 1) (p_seq t)) <-> In j (firstn i (p_seq t)) \/ j = k) by (intro j; rewrite (firstn_snoc _ _ _ En), in_app_iff; simpl; intuition).
      assert (F1 : finv t1 (i + 1) (rd s (p_base t + i) b)).
      { constructor; unfold t1; cbn [p_bids p_blk p_seq p_nread p_base p_next p_cons p_breq].
        - apply BufIoRules.rd_wf, F.
        - apply F.
        - intros r Hr Wr. simpl in Hr. apply in_app_iff in Hr. destruct Hr as [Hr|[<-|[]]]; [apply (fi_now _ _ _ F r Hr Wr)|discriminate].
        - apply F.
        - intros j Hj. destruct (Nat.eq_dec j i) as [->|Nj].
          + exists k, (snext s), b. rewrite !upd_same. split; [exact En|]. split; [reflexivity|]. split; [exact Eb|]. split; [simpl; rewrite upd_same; apply (fi_disk _ _ _ F _ Hb)|]. split; [reflexivity|]. split; [simpl; lia|].
            simpl. intros r Hr Er. apply in_app_iff in Hr. destruct Hr as [Hr|[<-|[]]]; [|reflexivity]. apply (proj1 (fi_wf _ _ _ F)) in Hr. lia.
          + destruct (fi_live _ _ _ F j) as (k' & q & b' & X1 & X2 & X3 & X4 & X5 & X6 & X7); [lia|]. exists k', q, b'. split; [exact X1|]. split; [rewrite upd_other; [exact X2|]; intros ->; apply KN; apply (in_firstn_nth _ _ j); [exact X1|lia]|]. split; [exact X3|].
            split; [simpl; rewrite upd_other by lia; exact X4|]. split; [rewrite upd_other by lia; exact X5|]. split; [simpl; lia|]. simpl. intros r Hr Er. apply in_app_iff in Hr. destruct Hr as [Hr|[<-|[]]]; [apply X7; assumption|simpl in Er; lia].
        - intros r Hr Pr. simpl in Hr. apply in_app_iff in Hr. destruct Hr as [Hr|[<-|[]]].
          + destruct (fi_req _ _ _ F r Hr Pr) as (j & J1 & J2 & J3). exists j. split; [apply IS; auto|]. split; [|exact J3]. rewrite upd_other; [exact J2|]. intros ->. contradiction.
          + exists k. simpl. rewrite upd_same. split; [apply IS; auto|auto].
        - intros j Hj. rewrite upd_other by (intros ->; apply Hj, IS; auto). apply (fi_none _ _ _ F). intro C. apply Hj, IS. auto.
        - intros y q2 E0. unfold upd in E0. destruct (Nat.eqb_spec y (p_base t + i)) as [Ey|Ny].
          + injection E0 as <-. split; [simpl; lia|]. simpl. intros r Hr Er. apply in_app_iff in Hr. destruct Hr as [Hr|[<-|[]]]; [apply (proj1 (fi_wf _ _ _ F)) in Hr; lia|simpl; congruence].
          + destruct (fi_breq _ _ _ F y q2 E0) as (Z1 & Z2). split; [simpl; lia|]. simpl. intros r Hr Er. apply in_app_iff in Hr. destruct Hr as [Hr|[<-|[]]]; [apply Z2; assumption|simpl in Er; lia]. }
      eapply ok_imp; [apply (IH (i + 1) t1 (rd s (p_base t + i) b))|].
      * exact SP.
      * unfold t1. simpl. lia.
      * exact HL.
      * exact F1.
      * intros t' s' (G1 & G2 & G3). replace (i + S n) with (i + 1 + n) by lia. split; [exact G1|]. split; [|exact G3]. eapply stay_trans; [|exact G2]. apply rd_stay; assumption.
Qed.
Lemma pf_new_ok base bids order nbuf s : 1 <= length bids -> 1 <= nbuf -> complete (length bids) order -> ready base (Nat.min nbuf (length bids)) bids s ->
  ok (pf_new A base bids order nbuf) s (fun t s' => pinv t [] s' /\ pstay t s s' /\ p_bids t = bids /\ p_seq t = order /\ p_nread t = Nat.min nbuf (length bids) /\ p_base t = base /\ p_cons t = 0).
Proof.
  intros HL Hn SP R. unfold pf_new. destruct (Nat.eqb_spec (length bids) 0) as [C|_]; [lia|]. destruct (Nat.eqb_spec nbuf 0) as [C|_]; [lia|]. cbn [orb]. set (t0 := mk_pf _ _ _ _ _ _ _ _).
  assert (F0 : finv t0 0 s).
  { constructor; unfold t0; simpl; try apply R; auto; try lia; try discriminate. intros r Hr Pr. exfalso. apply (rd_free _ _ _ _ R r Hr). exact Pr. }
  eapply ok_imp; [apply (first_reads_ok (Nat.min nbuf (length bids)) 0 t0 s)|].
  - exact SP.
  - reflexivity.
  - unfold t0. simpl. lia.
  - exact F0.
  - intros t s' (F & St & (S1 & S2 & S3 & S4 & S5 & S6)). unfold t0 in *. cbn [p_bids p_blk p_seq p_nread p_base p_next p_cons p_breq] in *.
    set (n := Nat.min nbuf (length bids)) in *. simpl (0 + n) in F.
    assert (IS : forall k, issued t k -> exists j, j < n /\ nth_error (p_seq t) j = Some k).
    { intros k Hk. unfold issued in Hk. rewrite S5 in Hk. apply In_nth_error in Hk. destruct Hk as (p & Hp). assert (Lp : p < n) by (apply nth_error_lt in Hp; rewrite firstn_length in Hp; lia). rewrite nth_firstn in Hp by exact Lp. eauto. }
    assert (IS' : forall k, issued t k <-> In k (firstn n (p_seq t))) by (intro k; unfold issued; rewrite S5; reflexivity).
    assert (SP' : Permutation (p_seq t) (seq 0 (L t))) by (rewrite S1, S2; exact SP).
    split; [|split; [|auto 10]].
    + constructor; try apply F.
      * exact SP'.
      * rewrite S1, S3, S5, S6. simpl. unfold n. lia.
      * rewrite S1, S6. simpl. lia.
      * constructor.
      * intros k [].
      * intros r k Hr Wr _ C. apply (fi_now _ _ _ F r Hr Wr). apply (nth_error_In _ _ C).
      * intros k b _ Hb. apply (fi_disk _ _ _ F). apply (nth_error_In _ _ Hb).
      * intros k (Hk & _). destruct (IS k Hk) as (j & J1 & J2). destruct (fi_live _ _ _ F j J1) as (k' & q & b & X1 & X2 & X3 & X4 & X5 & X6 & X7). assert (k' = k) by congruence. subst k'. exists (p_base t + j), q, b. repeat (split; [assumption || (unfold PB; lia)|]). exact X7.
      * intros r Hr Pr. destruct (fi_req _ _ _ F r Hr Pr) as (k & K1 & K2 & K3 & K4). exists k. split; [apply IS'; exact K1|]. split; [rewrite S6; lia|auto].
      * intros k k' x q q' (Hk & _) (Hk' & _) E E'. destruct (IS k Hk) as (j & J1 & J2). destruct (IS k' Hk') as (j' & J1' & J2').
        destruct (fi_live _ _ _ F j J1) as (k1 & q1 & b1 & X1 & X2 & _). destruct (fi_live _ _ _ F j' J1') as (k2 & q2 & b2 & Y1 & Y2 & _). assert (k1 = k) by congruence. assert (k2 = k') by congruence. subst k1 k2.
        rewrite E in X2. rewrite E' in Y2. injection X2 as X2 _. injection Y2 as Y2 _. assert (j = j') by lia. congruence.
      * intros k Hk. rewrite S6 in Hk. lia.
      * intros k Hk. apply (fi_none _ _ _ F). intro C. apply Hk, IS', C.
    + unfold PB in *. simpl in *. rewrite S1, S3, S4. exact St.
Qed.

(** * consumption *)
Lemma avail t held s m : pinv t held s -> in_time m (p_seq t) -> p_cons t < L t -> (p_nread t = L t \/ length held + m <= p_nread t) -> issued t (p_cons t).
Proof.
  intros I T Hc Hn. pose proof (pi_perm _ _ _ I) as SP. assert (K : In (p_cons t) (p_seq t)) by (apply (Permutation_in _ (Permutation_sym SP)), in_seq; lia).
  apply In_nth_error in K. destruct K as (p & Hp). pose proof (T p _ Hp). pose proof (nth_error_lt _ _ _ Hp). rewrite (seq_len _ SP) in *. apply (in_firstn_nth _ _ p); [exact Hp|]. rewrite (pi_next _ _ _ I). pose proof (pi_cons _ _ _ I). lia.
Qed.
Definition hb (t : pf) (k : nat) : option nat := option_map fst (p_blk t k).
Lemma consumed_ok t held s m k h x q : pinv t held s -> in_time m (p_seq t) -> (p_nread t = L t \/ length held + m <= p_nread t + 1) -> nth_error held h = Some k -> p_blk t k = Some (x, q) ->
  ok (block_consumed A x t) s (fun r s' =>
    pstay t s s' /\ (forall j, p_blk t j <> None -> p_blk (fst r) j = p_blk t j) /\ p_bids (fst r) = p_bids t /\ p_seq (fst r) = p_seq t /\ p_nread (fst r) = p_nread t /\ p_base (fst r) = p_base t /\
    match snd r with
    | None => p_cons t = L t /\ p_cons (fst r) = p_cons t /\ pinv (fst r) (remove_at h held) s'
    | Some y => p_cons t < L t /\ p_cons (fst r) = p_cons t + 1 /\ pinv (fst r) (replace_at h (p_cons t) held) s' /\ hb (fst r) (p_cons t) = Some y
    end).
Proof.
  intros I T Hn Hh E. unfold block_consumed.
  assert (W : forall R (q : option nat) (p : prog A pf) (f : pf -> prog A R), wait_opt A q (bind p f) = bind (wait_opt A q p) f) by (intros R [?|] p f; reflexivity).
  cbv zeta. rewrite W. apply ok_bind. eapply ok_imp; [apply (fetch_ok t held s k h x q I Hh E)|]. intros t1 s1 (I1 & F1 & B1 & X1 & X2 & X3 & X4 & X5).
  pose proof (nth_remove held h k Hh) as HP. assert (HL : length held = 1 + length (remove_at h held)) by (rewrite (Permutation_length HP); reflexivity).
  unfold p_len. rewrite X1, X5. pose proof (pi_cons _ _ _ I) as PC. destruct (Nat.leb_spec (L t) (p_cons t)) as [G|G].
  - apply ok_ret. cbn [fst snd]. split; [exact F1|]. split; [exact B1|]. split; [exact X1|]. split; [exact X2|]. split; [exact X3|]. split; [exact X4|]. split; [lia|]. split; [exact X5|exact I1].
  - apply ok_bind. assert (Av : issued t1 (p_cons t1)). { apply (avail t1 _ s1 m I1); [rewrite X2; exact T|rewrite X1, X5; exact G|rewrite X1, X3; lia]. }
    eapply ok_imp; [apply (pull_ok t1 _ s1 I1); [rewrite X1, X5; exact G|exact Av]|]. intros (t2 & y) s2 (I2 & F2 & Y1 & Y2 & Y3 & Y4 & Y5 & Y6 & (q2 & Y7)). cbn [fst snd] in *. apply ok_ret. cbn [fst snd].
    split; [eapply stay_trans; [exact F1|]; unfold PB in *; rewrite X1, X3, X4 in F2; exact F2|]. split; [intros j Hj; rewrite Y1; apply B1; exact Hj|]. split; [congruence|]. split; [congruence|]. split; [congruence|]. split; [congruence|].
    split; [exact G|]. split; [congruence|]. split.
    + rewrite <- X5. apply (pinv_perm _ (remove_at h held ++ [p_cons t1])); [|exact I2]. symmetry. apply (nth_replace held h _ k Hh).
    + unfold hb. rewrite Y1, <- X5, Y7. reflexivity.
Qed.
Lemma delete_ok t held s : pinv t held s -> ok (pf_delete A t) s (fun _ s' => wf s' /\ pstay t s s' /\ forall r, In r (sout s') -> ~ PB t (a_buf r)).
Proof.
  intro I. unfold pf_delete.
  assert (K : forall xs s1, (forall x, In x xs -> PB t x) -> pinv t held s1 -> (forall r, In r (sout s1) -> PB t (a_buf r) -> In (a_buf r) xs) -> ok (fold_right (fun x k => wait_opt A (p_breq t x) k) (Ret tt) xs) s1 (fun _ s' => wf s' /\ pstay t s1 s' /\ forall r, In r (sout s') -> ~ PB t (a_buf r))).
  { induction xs as [|x xs IH]; intros s1 HP I1 H1.
    - apply ok_ret. split; [apply I1|]. split; [apply stay_refl|]. intros r Hr Pr. destruct (H1 r Hr Pr).
    - simpl. destruct (p_breq t x) as [q|] eqn:E.
      + apply io_wait.
        assert (ID : forall r, In r (sout s1) -> a_buf r = x -> a_id r = q).
        { intros r Hr <-. destruct (pi_req _ _ _ I1 r Hr (HP _ (or_introl eq_refl))) as (k & K1 & K2 & K3 & _). destruct (pi_live _ _ _ I1 k (conj K1 (or_introl K2))) as (x' & q' & b & Y1 & Y2 & Y3 & Y4 & Y5 & _). rewrite K3 in Y1. injection Y1 as <- <-. congruence. }
        destruct (pi_breq _ _ _ I1 x q E) as (E1 & E2).
        assert (I2 : pinv t held (wt s1 q)).
        { constructor; try apply I1.
          + apply wt_wf, I1.
          + intros r k' Hr. apply drop_id_in in Hr. apply (pi_now _ _ _ I1). apply Hr.
          + intros k' Hk'. destruct (pi_live _ _ _ I1 k' Hk') as (y & q2 & b2 & F1 & F2 & F3 & F4 & F5 & F6 & F7). exists y, q2, b2. repeat (split; [assumption|]). intros r Hr. apply drop_id_in in Hr. apply F7, Hr.
          + intros r Hr. apply drop_id_in in Hr. apply (pi_req _ _ _ I1), Hr.
          + intros y q2 E0. destruct (pi_breq _ _ _ I1 y q2 E0) as (Z1 & Z2). split; [exact Z1|]. intros r Hr. apply drop_id_in in Hr. apply Z2, Hr. }
        eapply ok_imp; [apply IH; [intros y Hy; apply HP; right; exact Hy|exact I2|]|].
        * intros r Hr Pr. apply drop_id_in in Hr. destruct Hr as (Hr & Nr). destruct (H1 r Hr Pr) as [C|C]; [|exact C]. exfalso. apply Nr, ID; auto.
        * intros _ s' (W & F3 & N3). split; [exact W|]. split; [|exact N3]. eapply stay_trans; [|exact F3]. apply wt_stay. intros r Hr Er. rewrite (E2 r Hr Er). apply HP. left. reflexivity.
      + apply IH; [intros y Hy; apply HP; right; exact Hy|exact I1|]. intros r Hr Pr. destruct (H1 r Hr Pr) as [C|C]; [|exact C]. exfalso.
        destruct (pi_req _ _ _ I1 r Hr Pr) as (k & K1 & K2 & K3 & _). destruct (pi_live _ _ _ I1 k (conj K1 (or_introl K2))) as (x' & q' & b & Y1 & Y2 & Y3 & Y4 & Y5 & _). rewrite K3 in Y1. injection Y1 as <- <-. congruence. }
  apply K; [intros x Hx; apply in_seq in Hx; unfold PB; lia|exact I|]. intros r Hr Pr. apply in_seq. unfold PB in Pr. lia.
Qed.

(** * A user *)
Lemma hb_same t t' ks : (forall j, p_blk t j <> None -> p_blk t' j = p_blk t j) -> forall xs, map (hb t) ks = map Some xs -> map (hb t') ks = map Some xs.
Proof.
  intros H. induction ks as [|k ks IH]; intros [|x xs] E; try discriminate; [reflexivity|]. simpl in *. injection E as E1 E2. f_equal; [|apply IH; exact E2]. unfold hb in *. rewrite H; [exact E1|]. intro C. rewrite C in E1. discriminate.
Qed.
Lemma hb_nth t ks xs h : map (hb t) ks = map Some xs -> match nth_error ks h with None => nth_error xs h = None | Some k => exists x q, nth_error xs h = Some x /\ p_blk t k = Some (x, q) end.
Proof.
  intros E. assert (K : nth_error (map (hb t) ks) h = nth_error (map Some xs) h) by (rewrite E; reflexivity). rewrite !nth_error_map in K. destruct (nth_error ks h) as [k|], (nth_error xs h) as [x|]; simpl in K; try discriminate; auto.
  unfold hb in K. destruct (p_blk t k) as [(y & q)|]; simpl in K; [|discriminate]. injection K as ->. eauto.
Qed.
Definition good (t : pf) (bids order : list nat) (n base : nat) : Prop := p_bids t = bids /\ p_seq t = order /\ p_nread t = n /\ p_base t = base.
Lemma pf_get_ok R t ks s h k x q i v (f : A -> prog A R) Q : pinv t ks s -> nth_error ks h = Some k -> p_blk t k = Some (x, q) -> D (nth k (p_bids t) 0) i = Some v -> ok (f v) s Q -> ok (DoGet x i f) s Q.
Proof.
  intros I Hk E Ev K. pose proof (nth_error_In _ _ Hk) as Hi. destruct (pi_held _ _ _ I k Hi) as (K1 & K2). assert (Lv : live t ks k) by (split; auto).
  destruct (pi_live _ _ _ I k Lv) as (x' & q' & b & E1 & E2 & E3 & E4 & E5 & E6 & E7). rewrite E in E1. injection E1 as <- <-. apply (nth_error_nth _ _ 0) in E3.
  apply (io_get _ _ _ _ v).
  - intros r Hr Wr C. assert (Pr : PB t (a_buf r)) by (rewrite C; exact E2). destruct (pi_req _ _ _ I r Hr Pr) as (k' & J1 & J2 & J3 & _). rewrite C in J3.
    assert (k' = k) by (apply (pi_inj _ _ _ I k' k x (a_id r) q); auto; split; auto). lia.
  - rewrite E4, <- E3. exact Ev.
  - exact K.
Qed.
Lemma pf_ops_ok bids order n base m mx content : in_time m order -> (n = length bids \/ mx + m <= n + 1) -> (forall k i, k < length bids -> D (nth k bids 0) i = Some (content k i)) ->
  forall os t ks xs s out, good t bids order n base -> pinv t ks s -> map (hb t) ks = map Some xs -> length ks <= mx -> pspec_ops A (length bids) mx content os (ks, p_cons t) = Some out ->
  ok (pf_ops A os t xs) s (fun r s' => snd r = out /\ good (fst r) bids order n base /\ (exists ks', pinv (fst r) ks' s') /\ stay (fun x => base <= x < base + n) nothing (fun b => In b bids) s s').
Proof.
  intros T Hn HC. induction os as [|o os IH]; intros t ks xs s out G I HB Hl E.
  - injection E as <-. apply ok_ret. simpl. split; [reflexivity|]. split; [exact G|]. split; [eauto|apply stay_refl].
  - pose proof G as (G1 & G2 & G3 & G4).
    assert (ST : forall s1 s2 : sstate, pstay t s1 s2 -> stay (fun x => base <= x < base + n) nothing (fun b => In b bids) s1 s2) by (intros s1 s2 H; unfold PB in H; rewrite G1, G3, G4 in H; exact H).
    simpl in E. simpl pf_ops. destruct o as [|h|h i]; cbn [pspec_op pf_op] in *.
    + destruct (Nat.ltb_spec (p_cons t) (length bids)) as [H1|H1]; [|discriminate]. destruct (Nat.ltb_spec (length ks) mx) as [H2|H2]; [|discriminate]. cbn [andb] in E. destruct (pspec_ops A _ _ _ os _) as [out'|] eqn:E'; [|discriminate]. injection E as <-.
      assert (Av : issued t (p_cons t)) by (apply (avail t ks s m I); [rewrite G2; exact T|rewrite G1; exact H1|rewrite G1, G3; lia]).
      apply ok_bind. apply ok_bind. eapply ok_imp; [apply (pull_ok t ks s I); [rewrite G1; exact H1|exact Av]|]. intros (t1 & y) s1 (I1 & F1 & B1 & X1 & X2 & X3 & X4 & X5 & (q & X6)). cbn [fst snd] in *. apply ok_ret. cbn [fst snd].
      apply ok_bind. eapply ok_imp; [apply (IH t1 (ks ++ [p_cons t]) (xs ++ [y]) s1 out')|].
      * unfold good. rewrite X1, X2, X3, X4. exact G.
      * exact I1.
      * rewrite !map_app. f_equal; [apply (hb_same t); [intros; rewrite B1; reflexivity|exact HB]|]. simpl. unfold hb. rewrite B1, X6. reflexivity.
      * rewrite app_length. simpl. lia.
      * rewrite X5. exact E'.
      * intros r s2 (R1 & R2 & R3 & R4). apply ok_ret. simpl. split; [exact R1|]. split; [exact R2|]. split; [exact R3|]. eapply stay_trans; [apply ST, F1|exact R4].
    + pose proof (hb_nth t ks xs h HB) as HN. destruct (nth_error ks h) as [k|] eqn:Ek; [|discriminate]. destruct HN as (x & q & Hx & Hk). rewrite Hx. apply ok_bind. apply ok_bind.
      eapply ok_imp; [apply (consumed_ok t ks s m k h x q I); [rewrite G2; exact T|rewrite G1, G3; lia|exact Ek|exact Hk]|]. intros (t1 & y) s1 (F1 & B1 & X1 & X2 & X3 & X4 & X5). cbn [fst snd] in *.
      assert (LR : length (remove_at h ks) + 1 = length ks) by (rewrite (Permutation_length (nth_remove ks h k Ek)); simpl; lia).
      assert (G' : good t1 bids order n base) by (unfold good; rewrite X1, X2, X3, X4; exact G). destruct y as [y|].
      * destruct X5 as (Y1 & Y2 & Y3 & Y4). rewrite G1 in Y1. destruct (Nat.ltb_spec (p_cons t) (length bids)) as [_|C]; [|lia]. destruct (pspec_ops A _ _ _ os _) as [out'|] eqn:E'; [|discriminate]. injection E as <-.
        apply ok_ret. cbn [fst snd]. apply ok_bind. eapply ok_imp; [apply (IH t1 (replace_at h (p_cons t) ks) (replace_at h y xs) s1 out')|].
        -- exact G'.
        -- exact Y3.
        -- rewrite !map_replace, Y4. f_equal. apply (hb_same t); assumption.
        -- rewrite (Permutation_length (nth_replace ks h (p_cons t) k Ek)), app_length. simpl. lia.
        -- rewrite Y2. exact E'.
        -- intros r s2 (R1 & R2 & R3 & R4). apply ok_ret. simpl. split; [exact R1|]. split; [exact R2|]. split; [exact R3|]. eapply stay_trans; [apply ST, F1|exact R4].
      * destruct X5 as (Y1 & Y2 & Y3). rewrite G1 in Y1. destruct (Nat.ltb_spec (p_cons t) (length bids)) as [C|_]; [lia|]. destruct (pspec_ops A _ _ _ os _) as [out'|] eqn:E'; [|discriminate]. injection E as <-.
        apply ok_ret. cbn [fst snd]. apply ok_bind. eapply ok_imp; [apply (IH t1 (remove_at h ks) (remove_at h xs) s1 out')|].
        -- exact G'.
        -- exact Y3.
        -- rewrite !map_remove. f_equal. apply (hb_same t); assumption.
        -- lia.
        -- rewrite Y2. exact E'.
        -- intros r s2 (R1 & R2 & R3 & R4). apply ok_ret. simpl. split; [exact R1|]. split; [exact R2|]. split; [exact R3|]. eapply stay_trans; [apply ST, F1|exact R4].
    + pose proof (hb_nth t ks xs h HB) as HN. destruct (nth_error ks h) as [k|] eqn:Ek; [|discriminate]. destruct HN as (x & q & Hx & Hk). rewrite Hx. destruct (pspec_ops A _ _ _ os _) as [out'|] eqn:E'; [|discriminate]. injection E as <-.
      assert (KL : k < length bids). { apply nth_error_In in Ek. apply (pi_held _ _ _ I) in Ek. pose proof (pi_cons _ _ _ I) as PC. rewrite G1 in PC. lia. }
      cbn [bind]. apply (pf_get_ok _ t ks s h k x q i (content k i)); auto; [rewrite G1; apply HC; exact KL|]. cbn [fst snd]. apply ok_bind.
      eapply ok_imp; [apply (IH t ks xs s out'); assumption|]. intros r s2 (R1 & R2 & R3 & R4). apply ok_ret. simpl. split; [f_equal; exact R1|]. split; [exact R2|]. split; [exact R3|exact R4].
Qed.
End Prefetch.

Lemma pf_run_ok A (d : nat -> nat -> A) base bids order nbuf m mx os out al : complete (length bids) order -> in_time m order -> 1 <= length bids -> 1 <= nbuf -> (length bids <= nbuf \/ mx + m <= nbuf + 1) ->
  pspec_ops A (length bids) mx (fun k => d (nth k bids 0)) os ([], 0) = Some out ->
  ok (pf_run A base bids order nbuf os) (sinit_own A bids d al) (fun r s => r = out /\ sout s = [] /\ sown s = bids /\ forall b, In b bids -> sdisk s b = fun i => Some (d b i)).
Proof.
  intros SP T HL Hn HM E. unfold pf_run. set (D := sdisk (sinit_own A bids d al)). set (s0 := sinit_own A bids d al).
  assert (HD : forall b i, In b bids -> D b i = Some (d b i)) by (intros b i Hb; unfold D; simpl; rewrite (proj2 (mem_in _ _) Hb); reflexivity).
  apply ok_bind. eapply ok_imp; [apply (pf_new_ok A D base bids order nbuf s0 HL Hn SP)|].
  { constructor; unfold s0; simpl; auto. apply own_wf. }
  intros t s1 (I1 & F1 & X1 & X2 & X3 & X4 & X5). apply ok_bind.
  eapply ok_imp; [apply (pf_ops_ok A D bids order (Nat.min nbuf (length bids)) base m mx (fun k => d (nth k bids 0)) T) with (ks := []) (out := out)|].
  - lia.
  - intros k i Hk. apply HD. apply nth_In. exact Hk.
  - unfold good. auto.
  - exact I1.
  - reflexivity.
  - simpl. lia.
  - rewrite X5. exact E.
  - intros r s2 (R1 & (G1 & G2 & G3 & G4) & (ks & I2) & F2). apply ok_bind. eapply ok_imp; [apply (delete_ok A D (fst r) ks s2 I2)|]. intros _ s3 (W3 & F3 & N3). apply ok_ret. split; [exact R1|].
    unfold PB in *. rewrite X1, X3, X4 in F1. rewrite G1, G3, G4 in F3. rewrite G3, G4 in N3. pose proof (stay_trans _ _ _ _ _ _ _ (stay_trans _ _ _ _ _ _ _ F1 F2) F3) as F. split.
    + destruct (sout s3) as [|r0 l] eqn:Eo; [reflexivity|]. exfalso. assert (H0 : In r0 (sout s3)) by (rewrite Eo; left; reflexivity). destruct (f_new _ _ _ _ _ _ F r0 H0) as [[]|(C & _)]. apply (N3 r0); [left; reflexivity|exact C].
    + split; [apply (f_own _ _ _ _ _ _ F)|]. intros b Hb. rewrite (f_disk _ _ _ _ _ _ F) by (intros []). unfold s0. simpl. rewrite (proj2 (mem_in _ _) Hb). reflexivity.
Qed.
