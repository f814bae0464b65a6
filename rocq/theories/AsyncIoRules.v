(** Rules to run programs on the immediate machine *)
From Coq Require Import List Bool Arith Lia.
From Verif Require Import SumLib AsyncIoModel AsyncIoProofs.
Import ListNotations.

Section Rules.
Variable A : Type.
Notation prog := (prog A).
Notation sstate := (sstate A).

(** the run does not stop with an error, and if it gets its blocks the result satisfies Q *)
Definition ok {R} (p : prog R) (s : sstate) (Q : R -> sstate -> Prop) : Prop :=
  match srun p s with Done r s' => Q r s' | Error => False | Stuck => True end.

Lemma ok_bind R T (p : prog R) (f : R -> prog T) s (Q : T -> sstate -> Prop) :
  ok p s (fun r s' => ok (f r) s' Q) -> ok (bind p f) s Q.
Proof. unfold ok. rewrite srun_bind. destruct (srun p s); auto. Qed.
Lemma ok_imp R (p : prog R) s (Q Q' : R -> sstate -> Prop) : ok p s Q -> (forall r s', Q r s' -> Q' r s') -> ok p s Q'.
Proof. unfold ok. intros H I. destruct (srun p s); auto. Qed.
Lemma ok_ret R (r : R) s (Q : R -> sstate -> Prop) : Q r s -> ok (Ret r) s Q.
Proof. auto. Qed.

Fixpoint wr_disk (d c : nat -> nat -> option A) (xs bs : list nat) : nat -> nat -> option A :=
  match xs, bs with x :: xs', b :: bs' => wr_disk (upd d b (c x)) c xs' bs' | _, _ => d end.
Fixpoint rd_cont (c d : nat -> nat -> option A) (xs bs : list nat) : nat -> nat -> option A :=
  match xs, bs with x :: xs', b :: bs' => rd_cont (upd c x (d b)) d xs' bs' | _, _ => c end.
Fixpoint reqs (w : bool) (n : nat) (xs bs : list nat) : list areq :=
  match xs, bs with x :: xs', b :: bs' => mk_areq n w x b :: reqs w (S n) xs' bs' | _, _ => [] end.
Definition drops (qs : list nat) (l : list areq) : list areq := filter (fun r => negb (mem (a_id r) qs)) l.

Lemma reqs_in w n xs bs r : In r (reqs w n xs bs) -> n <= a_id r < n + length xs /\ a_write r = w /\ In (a_buf r) xs /\ In (a_bid r) bs.
Proof.
  revert n bs. induction xs as [|x xs IH]; intros n bs H; [destruct H|]. destruct bs as [|b bs]; [destruct H|].
  destruct H as [<-|H]; simpl; [intuition lia|]. apply IH in H. intuition lia.
Qed.
Lemma wr_disk_other d c xs bs b : ~ In b bs -> wr_disk d c xs bs b = d b.
Proof.
  revert d bs. induction xs as [|x xs IH]; intros d bs H; [reflexivity|]. destruct bs as [|b' bs]; [reflexivity|]. simpl in *.
  rewrite IH by tauto. apply upd_other. intros ->. tauto.
Qed.
Lemma wr_disk_at d c xs bs x b : NoDup bs -> In (x, b) (combine xs bs) -> wr_disk d c xs bs b = c x.
Proof.
  revert d bs. induction xs as [|y xs IH]; intros d bs N H; [destruct H|]. destruct bs as [|b' bs]; [destruct H|]. simpl in *.
  inversion N; subst. destruct H as [E|H].
  - injection E as -> ->. rewrite wr_disk_other by assumption. apply upd_same.
  - apply IH; assumption.
Qed.
Lemma rd_cont_other c d xs bs x : ~ In x xs -> rd_cont c d xs bs x = c x.
Proof.
  revert c bs. induction xs as [|y xs IH]; intros c bs H; [reflexivity|]. destruct bs as [|b' bs]; [reflexivity|]. simpl in *.
  rewrite IH by tauto. apply upd_other. intros ->. tauto.
Qed.
Lemma rd_cont_at c d xs bs x b : NoDup xs -> In (x, b) (combine xs bs) -> rd_cont c d xs bs x = d b.
Proof.
  revert c bs. induction xs as [|y xs IH]; intros c bs N H; [destruct H|]. destruct bs as [|b' bs]; [destruct H|]. simpl in *.
  inversion N; subst. destruct H as [E|H].
  - injection E as -> ->. rewrite rd_cont_other by assumption. apply upd_same.
  - apply IH; assumption.
Qed.
Lemma combine_rev {B C} (l : list B) (m : list C) : length l = length m -> combine (rev l) (rev m) = rev (combine l m).
Proof.
  revert m. induction l as [|x l IH]; intros m H; [reflexivity|]. destruct m as [|y m]; [discriminate|]. simpl in *.
  injection H as H. rewrite <- IH by exact H.
  assert (G : forall (a : list B) (b : list C) u v, length a = length b -> combine (a ++ [u]) (b ++ [v]) = combine a b ++ [(u, v)]).
  { induction a as [|p a IHa]; intros b u v E; destruct b as [|q b]; try discriminate; [reflexivity|]. simpl in *. rewrite IHa; auto. }
  apply G. rewrite !rev_length. exact H.
Qed.
Lemma combine_nth_in {B C} (l : list B) (m : list C) i x y : nth_error l i = Some x -> nth_error m i = Some y -> In (x, y) (combine l m).
Proof.
  revert m i. induction l as [|u l IH]; intros m i H1 H2; [destruct i; discriminate|]. destruct m as [|v m]; [destruct i; discriminate|].
  destruct i; simpl in *; [left; congruence|right; eauto].
Qed.

Lemma srun_write_all R xs : forall bs (k : list nat -> prog R) s, length xs = length bs -> NoDup bs ->
  (forall b, In b bs -> In b (sown s)) -> (forall r, In r (sout s) -> ~ In (a_bid r) bs) ->
  (forall r, In r (sout s) -> a_write r = false -> ~ In (a_buf r) xs) ->
  srun (write_all xs bs k) s = srun (k (seq (snext s) (length xs)))
    (mk_sstate (scont s) (wr_disk (sdisk s) (scont s) xs bs) (sout s ++ reqs true (snext s) xs bs) (sown s) (snext s + length xs) (salloc s)).
Proof.
  induction xs as [|x xs IH]; intros bs k s Hl N Ho Hb Hx.
  - destruct bs; [|discriminate]. simpl. rewrite app_nil_r, Nat.add_0_r. destruct s; reflexivity.
  - destruct bs as [|b bs]; [discriminate|]. simpl in Hl. injection Hl as Hl. inversion N; subst. simpl.
    assert (C1 : mem b (sown s) = true) by (apply mem_in, Ho; left; reflexivity).
    assert (C2 : existsb (reads (on_buf x)) (sout s) = false).
    { apply existsb_false. intros r Hr. unfold reads. destruct (a_write r) eqn:W; [reflexivity|]. simpl. apply Nat.eqb_neq. intros E.
      apply (Hx r Hr W). left. auto. }
    assert (C3 : existsb (on_bid b) (sout s) = false).
    { apply existsb_false. intros r Hr. apply Nat.eqb_neq. intros E. apply (Hb r Hr). left. auto. }
    rewrite C1, C2, C3. simpl. rewrite IH; simpl; auto.
    + rewrite <- app_assoc. simpl. rewrite Nat.add_succ_r. reflexivity.
    + intros c Hc. apply Ho. right. exact Hc.
    + intros r Hr C. apply in_app_iff in Hr. destruct Hr as [Hr|[<-|[]]]; [apply (Hb r Hr); right; exact C|]. simpl in C. contradiction.
    + intros r Hr W C. apply in_app_iff in Hr. destruct Hr as [Hr|[<-|[]]]; [apply (Hx r Hr W); right; exact C|discriminate].
Qed.
Lemma srun_read_all R xs : forall bs (k : list nat -> prog R) s, length xs = length bs -> NoDup xs ->
  (forall b, In b bs -> In b (sown s)) -> (forall r, In r (sout s) -> a_write r = true -> ~ In (a_bid r) bs) ->
  (forall r, In r (sout s) -> ~ In (a_buf r) xs) ->
  srun (read_all xs bs k) s = srun (k (seq (snext s) (length xs)))
    (mk_sstate (rd_cont (scont s) (sdisk s) xs bs) (sdisk s) (sout s ++ reqs false (snext s) xs bs) (sown s) (snext s + length xs) (salloc s)).
Proof.
  induction xs as [|x xs IH]; intros bs k s Hl N Ho Hb Hx.
  - destruct bs; [|discriminate]. simpl. rewrite app_nil_r, Nat.add_0_r. destruct s; reflexivity.
  - destruct bs as [|b bs]; [discriminate|]. simpl in Hl. injection Hl as Hl. inversion N; subst. simpl.
    assert (C1 : mem b (sown s) = true) by (apply mem_in, Ho; left; reflexivity).
    assert (C2 : existsb (on_buf x) (sout s) = false).
    { apply existsb_false. intros r Hr. apply Nat.eqb_neq. intros E. apply (Hx r Hr). left. auto. }
    assert (C3 : existsb (writes (on_bid b)) (sout s) = false).
    { apply existsb_false. intros r Hr. unfold writes. destruct (a_write r) eqn:W; [|reflexivity]. simpl. apply Nat.eqb_neq. intros E.
      apply (Hb r Hr W). left. auto. }
    rewrite C1, C2, C3. simpl. rewrite IH; simpl; auto.
    + rewrite <- app_assoc. simpl. rewrite Nat.add_succ_r. reflexivity.
    + intros c Hc. apply Ho. right. exact Hc.
    + intros r Hr W C. apply in_app_iff in Hr. destruct Hr as [Hr|[<-|[]]]; [apply (Hb r Hr W); right; exact C|discriminate].
    + intros r Hr C. apply in_app_iff in Hr. destruct Hr as [Hr|[<-|[]]]; [apply (Hx r Hr); right; exact C|]. simpl in C. contradiction.
Qed.
Lemma drops_cons q qs l : drops qs (drop_id q l) = drops (q :: qs) l.
Proof.
  unfold drops, drop_id. induction l as [|r l IH]; [reflexivity|]. simpl. rewrite (Nat.eqb_sym q). destruct (Nat.eqb (a_id r) q); simpl; [exact IH|].
  destruct (negb (mem (a_id r) qs)); simpl; rewrite IH; reflexivity.
Qed.
Lemma srun_wait_all R qs : forall (k : prog R) s,
  srun (wait_all qs k) s = srun k (mk_sstate (scont s) (sdisk s) (drops qs (sout s)) (sown s) (snext s) (salloc s)).
Proof.
  induction qs as [|q qs IH]; intros k s; simpl.
  - assert (drops [] (sout s) = sout s) as ->; [|destruct s; reflexivity]. unfold drops. induction (sout s) as [|r l IH]; [reflexivity|]. simpl in *. rewrite IH. reflexivity.
  - rewrite IH. simpl. rewrite drops_cons. reflexivity.
Qed.
Lemma drops_app qs l m : drops qs (l ++ m) = drops qs l ++ drops qs m.
Proof. apply filter_app. Qed.
Lemma drops_all qs l : (forall r, In r l -> In (a_id r) qs) -> drops qs l = [].
Proof.
  induction l as [|r l IH]; intro H; [reflexivity|]. simpl. rewrite (proj2 (mem_in _ _) (H r (or_introl eq_refl))). simpl. apply IH.
  intros r' Hr'. apply H. right. exact Hr'.
Qed.
Lemma drops_none qs l : (forall r, In r l -> ~ In (a_id r) qs) -> drops qs l = l.
Proof.
  induction l as [|r l IH]; intro H; [reflexivity|]. simpl. rewrite (proj2 (mem_nin _ _) (H r (or_introl eq_refl))). simpl. rewrite IH; [reflexivity|].
  intros r' Hr'. apply H. right. exact Hr'.
Qed.
Lemma drops_new w l n xs bs : (forall r, In r l -> a_id r < n) -> drops (seq n (length xs)) (l ++ reqs w n xs bs) = l.
Proof.
  intro H. rewrite drops_app, drops_none, drops_all, app_nil_r; [reflexivity| |].
  - intros r Hr. apply reqs_in in Hr. apply in_seq. lia.
  - intros r Hr C. apply H in Hr. apply in_seq in C. lia.
Qed.
Lemma drops_new_nil w n xs bs : drops (seq n (length xs)) (reqs w n xs bs) = [].
Proof. apply (drops_new w [] n xs bs). intros r []. Qed.

(** from the immediate machine to the asynchronous one *)
Lemma ok_async R (p : prog R) (Q : R -> Prop) : (forall al, ok p (sinit al) (fun r _ => Q r)) ->
  forall c d al o, match arun p (ainit c d al) o with Done r _ => Q r | Error => False | Stuck => True end.
Proof.
  intros H c d al o. specialize (H al). unfold ok in H.
  pose proof (arun_sim A R p (sinit al) (ainit c d al) o (sim_init A c d al)) as G.
  destruct (arun p (ainit c d al) o) as [r (a & o')| |]; auto.
  - destruct G as (s' & E & _); [destruct (srun p (sinit al)); congruence|]. rewrite E in H. exact H.
  - apply G. destruct (srun p (sinit al)); congruence.
Qed.
Lemma ok_async_sim R (p : prog R) (Q : R -> sstate -> Prop) : (forall al, ok p (sinit al) Q) ->
  forall c d al o, match arun p (ainit c d al) o with Done r (a, _) => exists s, Q r s /\ sim A s a | Error => False | Stuck => True end.
Proof.
  intros H c d al o. specialize (H al). unfold ok in H.
  pose proof (arun_sim A R p (sinit al) (ainit c d al) o (sim_init A c d al)) as G.
  destruct (arun p (ainit c d al) o) as [r (a & o')| |]; auto.
  - destruct G as (s' & E & M); [destruct (srun p (sinit al)); congruence|]. rewrite E in H. eauto.
  - apply G. destruct (srun p (sinit al)); congruence.
Qed.
Lemma ok_async_progress R (p : prog R) (Q : R -> Prop) : (forall al, ok p (sinit al) (fun r _ => Q r)) ->
  forall c d, exists al o r a, arun p (ainit c d al) o = Done r (a, []) /\ Q r.
Proof.
  intros H c d. destruct (exists_alloc A R p (sinit [])) as (al & r & s' & E).
  { intros al C. specialize (H al). unfold ok in H. change (with_alloc A (sinit []) al) with (sinit (A := A) al) in C. rewrite C in H. exact H. }
  change (with_alloc A (sinit []) al) with (sinit (A := A) al) in E.
  destruct (arun_progress A R p _ _ r s' (sim_init A c d al) E) as (o & a & Ea). exists al, o, r, a. split; [exact Ea|].
  specialize (H al). unfold ok in H. rewrite E in H. exact H.
Qed.
End Rules.
Arguments ok {A R}. Arguments wr_disk {A}. Arguments rd_cont {A}.
