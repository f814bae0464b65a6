From Coq Require Import List Bool Arith Lia.
From Verif Require Import SumLib WaitAnyModel.
Import ListNotations.

Local Arguments Nat.leb : simpl never.
Local Arguments Nat.ltb : simpl never.
Section Inv.
Variable N : nat.
Hypothesis HN : 1 <= N.
Variable sp : bool.
Variable fails : nat -> bool.
Hypothesis nofail : forall r, fails r = false.
Notation step := (step N sp fails).
Notation astep := (astep N).
Notation cstep := (cstep fails).

(** which requests the switch is registered on *)
Definition regs (c : apc) (r : nat) : bool :=
  match c with
  | AAdd i => r <? i
  | AUndo j _ => r <? j
  | ASwitch | ASleep => r <? N
  | ADel i _ => (i <=? r) && (r <? N)
  | APoll i => (S i <=? r) && (r <? N)
  | _ => false
  end.
Definition pre (c : apc) (r : nat) : bool := match c with AAdd i => r <? i | ASwitch | ASleep => r <? N | _ => false end.

(** a wakeup that is not spurious has a cause *)
Definition cause (st : state) (from : nat) : Prop := sp = true \/ exists r, from <= r < N /\ done st r = true.

Definition pcok (st : state) : Prop := match pc st with
         | AAdd i => i < N
         | AUndo j res => 1 <= j < N /\ res < N /\ done st res = true
         | ACheck res => res < N /\ done st res = true
         | ADel i None => i < N /\ cause st i
         | ADel i (Some res) => i < N /\ res < N /\ done st res = true
         | APoll i => i < N /\ cause st i
         | ARet None => sp = true
         | ARet (Some res) => res < N /\ done st res = true
         | AThrow => False
         | ASwitch | ASleep => True
         end.

Record inv (st : state) : Prop := mk_inv {
  v_reg : forall r, reg st r = regs (pc st) r;
  v_err : forall r, err st r = false;
  v_done : forall r, comp st r <> CRun -> done st r = true;
  v_held : forall r, held st r = true <-> comp st r = CNotify;
  v_not : forall r, pre (pc st) r = true -> (comp st r = CNotify \/ comp st r = CDone) -> on st = true;
  v_hold : forall r, comp st r = CNotify -> reg st r = true;
  v_sleep : pc st = ASleep -> forall r, r < N -> comp st r = CDone -> False;
  v_on : on st = true -> exists r, r < N /\ done st r = true;
  v_pc : pcok st }.

Lemma init_inv dn : inv (init N fails dn).
Proof.
  unfold init. assert (N =? 0 = false) as -> by (apply Nat.eqb_neq; lia).
  constructor; unfold pcok; simpl; auto; try discriminate.
  - intro r. rewrite nofail. destruct (dn r); reflexivity.
  - intros r. destruct (dn r); congruence.
  - intros r. split; [discriminate|]. destruct (dn r); discriminate.
  - intros r. destruct (dn r); discriminate.
Qed.

Lemma upd_eq {A} (f : nat -> A) i v j : upd f i v j = if Nat.eqb j i then v else f j.
Proof. reflexivity. Qed.

Lemma cause_same st st' i : done st' = done st -> cause st i -> cause st' i.
Proof. intros H [C|(r & H1 & H2)]; [left; exact C|right; exists r; rewrite H; auto]. Qed.

Ltac bool := repeat match goal with
  | |- context[Nat.eqb ?a ?b] => destruct (Nat.eqb_spec a b); subst
  | |- context[Nat.ltb ?a ?b] => destruct (Nat.ltb_spec a b)
  | |- context[Nat.leb ?a ?b] => destruct (Nat.leb_spec a b)
  | H : context[Nat.eqb ?a ?b] |- _ => destruct (Nat.eqb_spec a b); subst
  | H : context[Nat.ltb ?a ?b] |- _ => destruct (Nat.ltb_spec a b)
  | H : context[Nat.leb ?a ?b] |- _ => destruct (Nat.leb_spec a b)
  end; simpl in *; try reflexivity; try discriminate; try lia.

Lemma astep_inv st st' : inv st -> astep st = Ok st' -> inv st'.
Proof.
  intros I H. pose proof (v_pc _ I) as P; unfold pcok in P. pose proof (v_reg _ I) as R.
  unfold WaitAnyModel.astep in H. destruct (pc st) as [i|j res|res| | |i res|i|res|] eqn:E; try discriminate; try contradiction.
  - (* AAdd *)
    destruct (held st i) eqn:Hh; [discriminate|]. rewrite (v_err _ I) in H.
    destruct (done st i) eqn:D; injection H as <-.
    + constructor; unfold pcok; simpl; try apply I.
      * intro r. rewrite R. destruct (Nat.eqb_spec i 0); simpl; [subst; bool|reflexivity].
      * intros r. destruct (Nat.eqb_spec i 0); discriminate.
      * destruct (Nat.eqb_spec i 0); discriminate.
      * destruct (Nat.eqb_spec i 0); [auto|]. repeat split; auto; lia.
    + constructor; unfold pcok; simpl; try apply I.
      * intro r. rewrite upd_eq, R. destruct (Nat.ltb_spec (S i) N); cbn [regs]; bool.
      * intros r Hp Hc. destruct (Nat.eq_dec r i) as [->|Hn].
        -- exfalso. rewrite (v_done _ I i) in D; [discriminate|]. destruct Hc; congruence.
        -- apply (v_not _ I r); [rewrite E; simpl|exact Hc]. destruct (Nat.ltb_spec (S i) N); simpl in Hp; bool.
      * intros r Hc. rewrite upd_eq. destruct (Nat.eqb_spec r i); [reflexivity|]. apply (v_hold _ I r Hc).
      * destruct (Nat.ltb_spec (S i) N); discriminate.
      * destruct (Nat.ltb_spec (S i) N); auto.
  - (* AUndo *)
    destruct (held st (pred j)) eqn:Hh; [discriminate|]. injection H as <-. destruct P as (P1 & P2 & P3).
    constructor; unfold pcok; simpl; try apply I.
    + intro r. rewrite upd_eq, R. destruct (Nat.eqb_spec (pred j) 0); simpl; bool.
    + intros r. destruct (Nat.eqb (pred j) 0); discriminate.
    + intros r Hc. rewrite upd_eq. destruct (Nat.eqb_spec r (pred j)) as [->|Hn]; [|apply (v_hold _ I r Hc)].
      apply (v_held _ I) in Hc. congruence.
    + destruct (Nat.eqb (pred j) 0); discriminate.
    + destruct (Nat.eqb_spec (pred j) 0); [auto|]. repeat split; auto; lia.
  - (* ACheck *)
    rewrite (v_err _ I) in H. injection H as <-. constructor; unfold pcok; simpl; try apply I; try discriminate; auto.
  - (* ASwitch *)
    destruct (on st) eqn:O; injection H as <-; constructor; unfold pcok; simpl; try apply I; try discriminate.
    + intro r. rewrite R. reflexivity.
    + split; [lia|]. right. destruct (v_on _ I O) as (r & H1 & H2). exists r. split; [lia|exact H2].
    + exact R.
    + intros r Hp Hc. apply (v_not _ I r); [rewrite E; exact Hp|exact Hc].
    + intros _ r Hr Hc. assert (on st = true); [|congruence]. apply (v_not _ I r); [rewrite E; simpl; apply Nat.ltb_lt; exact Hr|auto].
    + auto.
  - (* ADel *)
    destruct (held st i) eqn:Hh; [discriminate|]. injection H as <-.
    assert (Hhold : forall r, comp st r = CNotify -> upd (reg st) i false r = true).
    { intros r Hc. rewrite upd_eq. destruct (Nat.eqb_spec r i) as [->|Hn]; [|apply (v_hold _ I r Hc)].
      apply (v_held _ I) in Hc. congruence. }
    destruct res as [x|].
    + destruct P as (P1 & P2 & P3). unfold next. constructor; unfold pcok; simpl; try apply I; auto.
      * intro r. rewrite upd_eq, R. destruct (Nat.ltb_spec (S i) N); cbn [regs]; bool.
      * intro r. destruct (Nat.ltb (S i) N); discriminate.
      * destruct (Nat.ltb (S i) N); discriminate.
      * destruct (Nat.ltb_spec (S i) N); auto.
    + destruct P as (P1 & P2). constructor; unfold pcok; simpl; try apply I; auto; try discriminate.
      * intro r. rewrite upd_eq, R. cbn [regs]. bool.
  - (* APoll *)
    rewrite (v_err _ I) in H. injection H as <-. destruct P as (P1 & P2).
    constructor; unfold pcok; simpl; try apply I; auto.
    + intro r. rewrite R. unfold next. destruct (Nat.ltb_spec (S i) N); cbn [regs]; bool.
    + intro r. unfold next. destruct (Nat.ltb (S i) N); discriminate.
    + unfold next. destruct (Nat.ltb (S i) N); discriminate.
    + unfold next. destruct (done st i) eqn:D; destruct (Nat.ltb_spec (S i) N); auto.
      * split; [lia|]. destruct P2 as [S|(r & H1 & H2)]; [left; exact S|]. right. exists r. split; [|exact H2].
        destruct (Nat.eq_dec r i) as [->|]; [congruence|lia].
      * destruct P2 as [S|(r & H1 & H2)]; [exact S|]. assert (r = i) by lia. congruence.
Qed.

Lemma done_mono_pc st st' : (forall r, done st r = true -> done st' r = true) -> pcok st -> pc st' = pc st -> pcok st'.
Proof.
  intros M P E. unfold pcok in *. rewrite E. assert (Q : forall i, cause st i -> cause st' i).
  { intros i [S|(r & H1 & H2)]; [left; exact S|right; exists r; auto]. }
  destruct (pc st) as [i|j res|res| | |i [res|]|i|[res|]|]; intuition.
Qed.

Lemma cstep_inv st r st' : inv st -> cstep st r = Ok st' -> inv st'.
Proof.
  intros I H. unfold WaitAnyModel.cstep in H. destruct (comp st r) eqn:E; try discriminate.
  - injection H as <-.
    constructor; unfold pcok; simpl; try apply I.
    + intro x. rewrite upd_eq. destruct (Nat.eqb x r); [apply nofail|apply I].
    + intros x. rewrite !upd_eq. destruct (Nat.eqb_spec x r); [auto|apply I].
    + intros x. rewrite upd_eq. destruct (Nat.eqb_spec x r) as [->|]; [|apply I].
      rewrite (v_held _ I), E. split; discriminate.
    + intros x. rewrite upd_eq. destruct (Nat.eqb_spec x r) as [->|]; [intros _ [?|?]; discriminate|apply (v_not _ I)].
    + intros x. rewrite upd_eq. destruct (Nat.eqb_spec x r) as [->|]; [discriminate|apply (v_hold _ I)].
    + intros Hs x Hx. rewrite upd_eq. destruct (Nat.eqb_spec x r) as [->|]; [discriminate|apply (v_sleep _ I Hs x Hx)].
    + intro O. destruct (v_on _ I O) as (x & H1 & H2). exists x. rewrite upd_eq. destruct (Nat.eqb x r); auto.
    + change (pcok (set_comp (set_done (set_err st r (fails r)) r) r CLock)). apply (done_mono_pc st); [|apply I|reflexivity]. simpl. intros x Hx. rewrite upd_eq. destruct (Nat.eqb x r); auto.
  - destruct (held st r) eqn:Hh; [discriminate|]. destruct (reg st r) eqn:Hr.
    + destruct (alive st) eqn:AL; [|discriminate]. injection H as <-.
      assert (Hlt : r < N).
      { rewrite (v_reg _ I) in Hr. pose proof (v_pc _ I) as P; unfold pcok in P. unfold regs in Hr. destruct (pc st) as [i|j res|res| | |i [res|]|i|[res|]|]; bool. }
      assert (Hd : done st r = true) by (apply (v_done _ I); congruence).
      constructor; unfold pcok; simpl; try apply I.
      * intros x. rewrite upd_eq. destruct (Nat.eqb_spec x r) as [->|]; [auto|apply I].
      * intros x. rewrite !upd_eq. destruct (Nat.eqb_spec x r) as [->|]; [tauto|apply I].
      * auto.
      * intros x. rewrite upd_eq. destruct (Nat.eqb_spec x r) as [->|]; [auto|apply (v_hold _ I)].
      * intros Hs x Hx. rewrite upd_eq. destruct (Nat.eqb_spec x r) as [->|]; [discriminate|apply (v_sleep _ I Hs x Hx)].
      * intros _. exists r. auto.
    + injection H as <-. constructor; unfold pcok; simpl; try apply I.
      * intros x. rewrite upd_eq. destruct (Nat.eqb_spec x r) as [->|]; [intros _; apply (v_done _ I); congruence|apply I].
      * intros x. rewrite upd_eq. destruct (Nat.eqb_spec x r) as [->|]; [|apply I]. rewrite Hh. split; discriminate.
      * intros x. rewrite upd_eq. destruct (Nat.eqb_spec x r) as [->|]; [|apply (v_not _ I)].
        intros Hp _. exfalso. rewrite (v_reg _ I) in Hr. unfold pre, regs in *. destruct (pc st); congruence.
      * intros x. rewrite upd_eq. destruct (Nat.eqb_spec x r) as [->|]; [discriminate|apply (v_hold _ I)].
      * intros Hs x Hx. rewrite upd_eq. destruct (Nat.eqb_spec x r) as [->|]; [|apply (v_sleep _ I Hs x Hx)].
        intros _. rewrite (v_reg _ I), Hs in Hr. simpl in Hr. bool.
  - (* CNotify *)
    injection H as <-.
    assert (Hd : done st r = true) by (apply (v_done _ I); congruence).
    pose proof (v_hold _ I r E) as Hr.
    assert (Hlt : r < N).
    { rewrite (v_reg _ I) in Hr. pose proof (v_pc _ I) as P; unfold pcok in P. unfold regs in Hr. destruct (pc st) as [i|j res|res| | |i [res|]|i|[res|]|]; bool. }
    assert (HC : forall x, upd (comp st) r CDone x <> CRun -> done st x = true).
    { intros x. rewrite upd_eq. destruct (Nat.eqb_spec x r) as [->|]; [auto|apply I]. }
    assert (HH : forall x, upd (held st) r false x = true <-> upd (comp st) r CDone x = CNotify).
    { intros x. rewrite !upd_eq. destruct (Nat.eqb_spec x r) as [->|]; [split; discriminate|apply I]. }
    assert (HK : forall x, upd (comp st) r CDone x = CNotify -> reg st x = true).
    { intros x. rewrite !upd_eq. destruct (Nat.eqb_spec x r) as [->|]; [discriminate|apply (v_hold _ I)]. }
    assert (NS : pc st <> ASleep -> inv (set_comp (set_held st r false) r CDone)).
    { intro NS. constructor; simpl; try apply I; auto.
      - intros x. rewrite upd_eq. destruct (Nat.eqb_spec x r) as [->|]; [|apply (v_not _ I)].
        intros Hp _. apply (v_not _ I r Hp); auto. }
    destruct (pc st) as [i|j res|res| | |i res|i|res|] eqn:EP; try (apply NS; discriminate).
    constructor; unfold pcok; simpl; try apply I; auto; try discriminate.
    + intro x. rewrite (v_reg _ I), EP. reflexivity.
    + split; [lia|]. right. exists r. split; [lia|exact Hd].
Qed.

Lemma reach_inv st : reach N sp fails st -> inv st.
Proof.
  induction 1 as [dn|st e st' R I H]; [apply init_inv|]. destruct e as [|r|]; simpl in H.
  - apply (astep_inv st st' I H).
  - apply (cstep_inv st r st' I H).
  - destruct sp eqn:S; [|discriminate]. destruct (pc st) eqn:E; try discriminate. injection H as <-.
    constructor; unfold pcok; simpl; try apply I; try discriminate.
    + intro r. rewrite (v_reg _ I), E. reflexivity.
    + split; [lia|]. left. exact S.
Qed.

Lemma returns_finished st res : inv st -> pc st = ARet res ->
  match res with Some i => i < N /\ done st i = true | None => sp = true end.
Proof. intros I E. pose proof (v_pc _ I) as P; unfold pcok in P. rewrite E in P. destruct res; exact P. Qed.

Lemma no_dangling st e : inv st -> step st e <> UB.
Proof.
  intros I H. destruct e as [|r|]; simpl in H.
  - unfold WaitAnyModel.astep in H. destruct (pc st) as [i|j res|res| | |i res|i|res|]; try discriminate;
      repeat match type of H with (if ?c then _ else _) = _ => destruct c; try discriminate end.
  - unfold WaitAnyModel.cstep in H. destruct (comp st r) eqn:E; try discriminate.
    destruct (held st r); [discriminate|]. destruct (reg st r) eqn:R; [|discriminate].
    unfold alive in H. rewrite (v_reg _ I) in R. destruct (pc st); discriminate.
  - destruct sp; [|discriminate]. destruct (pc st); discriminate.
Qed.

Lemma no_lost_wakeup st r : inv st -> pc st = ASleep -> r < N -> done st r = true ->
  comp st r <> CRun ->
  (comp st r = CLock /\ exists st', step st (C r) = Ok st' /\ comp st' r = CNotify /\ pc st' = ASleep) \/
  (comp st r = CNotify /\ exists st', step st (C r) = Ok st' /\ pc st' = ADel 0 None).
Proof.
  intros I E Hr Hd Hc. destruct (comp st r) eqn:K; [congruence| | |].
  - left. split; [reflexivity|]. simpl. unfold WaitAnyModel.cstep. rewrite K.
    assert (held st r = false) as ->.
    { destruct (held st r) eqn:Hh; [|reflexivity]. apply (v_held _ I) in Hh. congruence. }
    rewrite (v_reg _ I), E. simpl. assert (r <? N = true) as -> by (apply Nat.ltb_lt; exact Hr).
    unfold alive. rewrite E. eexists; split; [reflexivity|]. simpl. rewrite upd_same. auto.
  - right. split; [reflexivity|]. simpl. unfold WaitAnyModel.cstep. rewrite K, E. eexists; split; reflexivity.
  - exfalso. apply (v_sleep _ I E r Hr K).
Qed.

(** the calling thread alone returns when no finishing thread is inside notify_waiters and one request has finished *)
Definition rank (c : apc) : nat :=
  match c with
  | AAdd i => 10 * N + 10 + 2 * (N - i) | AUndo j _ => 2 + j | ACheck _ => 1
  | ASwitch => 5 * N + 9 | ASleep => 5 * N + 8
  | ADel i None => 2 + 3 * (N - i) | ADel i (Some _) => 2 + 3 * (N - i)
  | APoll i => 1 + 3 * (N - i) | ARet _ => 0 | AThrow => 0 end.

Lemma astep_progress st : inv st -> (forall r, comp st r <> CNotify) -> (exists r, r < N /\ comp st r = CDone) ->
  (forall res, pc st <> ARet res) ->
  exists st', astep st = Ok st' /\ rank (pc st') < rank (pc st) /\ comp st' = comp st.
Proof.
  intros I NC (r0 & Hr0 & Hd0) NR.
  assert (NH : forall r, held st r = false).
  { intro r. destruct (held st r) eqn:H; [|reflexivity]. apply (v_held _ I) in H. destruct (NC r H). }
  pose proof (v_pc _ I) as P; unfold pcok in P. unfold WaitAnyModel.astep.
  destruct (pc st) as [i|j res|res| | |i res|i|res|] eqn:E.
  - rewrite NH, (v_err _ I). destruct (done st i) eqn:D; eexists; (split; [reflexivity|]); simpl; (split; [|reflexivity]).
    + destruct (Nat.eqb_spec i 0); simpl; lia.
    + destruct (Nat.ltb_spec (S i) N); simpl; lia.
  - rewrite NH. eexists; (split; [reflexivity|]); simpl; (split; [|reflexivity]). destruct (Nat.eqb_spec (pred j) 0); simpl; lia.
  - rewrite (v_err _ I). eexists; (split; [reflexivity|]); simpl; (split; [lia|reflexivity]).
  - assert (on st = true) as ->. { apply (v_not _ I r0); [rewrite E; simpl; apply Nat.ltb_lt; exact Hr0|auto]. }
    eexists; (split; [reflexivity|]); simpl; (split; [lia|reflexivity]).
  - exfalso. apply (v_sleep _ I E r0 Hr0 Hd0).
  - rewrite NH. eexists; (split; [reflexivity|]); simpl; (split; [|reflexivity]).
    destruct res; simpl; [unfold next; destruct (Nat.ltb_spec (S i) N); simpl; lia|lia].
  - rewrite (v_err _ I). eexists; (split; [reflexivity|]); simpl; (split; [|reflexivity]).
    unfold next. destruct (Nat.ltb_spec (S i) N); [|simpl; lia]. destruct (done st i); simpl; lia.
  - destruct (NR res eq_refl).
  - destruct P.
Qed.

Lemma returns st : inv st -> (forall r, comp st r <> CNotify) -> (exists r, r < N /\ comp st r = CDone) ->
  exists n st' res, arun N st n = Some st' /\ pc st' = ARet res /\ inv st'.
Proof.
  remember (rank (pc st)) as m eqn:Hm. revert st Hm. induction m as [m IH] using lt_wf_ind. intros st Hm I NC D.
  assert (R : (exists res, pc st = ARet res) \/ (forall res, pc st <> ARet res)).
  { destruct (pc st); try (right; discriminate). left; eauto. }
  destruct R as [(res & R)|R].
  - exists 0, st, res. auto.
  - destruct (astep_progress st I NC D R) as (st1 & S1 & S2 & S3).
    destruct (IH (rank (pc st1)) ltac:(lia) st1 eq_refl (astep_inv st st1 I S1)) as (n & st' & res & A1 & A2 & A3).
    + rewrite S3. exact NC.
    + rewrite S3. exact D.
    + exists (S n), st', res. simpl. rewrite S1. auto.
Qed.
End Inv.

Lemma run_reach N sp fails : forall es st st', reach N sp fails st -> run N sp fails st es = Some st' -> reach N sp fails st'.
Proof.
  induction es as [|e l IH]; simpl; intros st st' R H; [congruence|].
  destruct (step N sp fails st e) as [s| |] eqn:S; try discriminate. apply (IH s st'); [econstructor; eauto|exact H].
Qed.
Lemma run_witness N sp fails dn es (P : state -> Prop) :
  match run N sp fails (init N fails dn) es with Some st => P st | None => False end -> exists st, reach N sp fails st /\ P st.
Proof.
  destruct (run N sp fails (init N fails dn) es) as [st|] eqn:E; [|intros []].
  intro H. exists st. split; [apply (run_reach N sp fails es (init N fails dn) st); [constructor|exact E]|exact H].
Qed.
