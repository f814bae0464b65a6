From Coq Require Import ZArith List Bool Arith Lia.
From Verif Require Import SumLib IoQueueModel IoQueueSpec.
Import ListNotations.
Local Open Scope Z_scope.

Section Inv.
Variable k : kind.
Variable p : prio.
Variable isw : nat -> bool.
Variable NU : nat.
Notation step := (step k p isw NU).
Notation wstep := (wstep k p).
Notation ustep := (ustep k isw NU).
Notation qof := (qof k isw).

(** * Where a request is *)
Definition wreq (w : wpc) : option nat :=
  match w with
  | WServe x | WDone x | WHandler x | WNotify x | WClear x | WReady x => Some x
  | _ => None end.
Definition ureq (c : upc) : option nat :=
  match c with
  | UProbe x | UPush x | UCDown x | UCDone x | UCNotify x | UCClear x | UCReady x => Some x
  | _ => None end.

Inductive status := SNew | SUser (u : nat) | SQueued | SWorker | SFin.

Definition inq (st : state) (r : nat) : nat :=
  (count_occ Nat.eq_dec (queue st true) r + count_occ Nat.eq_dec (queue st false) r)%nat.
Definition vals (st : state) (r : nat) (x : rstate) (f : bool) (s h c : Z) : Prop :=
  rst st r = x /\ mfile st r = f /\ served st r = s /\ handled st r = h /\ cancelled st r = c.
Definition wfacts (st : state) (w : wpc) (r : nat) : Prop :=
  match w with
  | WServe _ => vals st r OP true 0 0 0
  | WDone _ => vals st r OP true 1 0 0
  | WHandler _ => vals st r DONE true 1 0 0
  | WNotify _ | WClear _ => vals st r DONE true 1 1 0
  | WReady _ => vals st r DONE false 1 1 0
  | _ => False
  end.
Definition ufacts (st : state) (c : upc) (r : nat) : Prop :=
  match c with
  | UProbe _ | UPush _ => vals st r OP true 0 0 0
  | UCDown _ | UCDone _ => vals st r OP true 0 0 1
  | UCNotify _ | UCClear _ => vals st r DONE true 0 0 1
  | UCReady _ => vals st r DONE false 0 0 1
  | _ => False
  end.

Definition inv_r (st : state) (r : nat) (s : status) : Prop :=
  inq st r = (match s with SQueued => 1 | _ => 0 end)%nat /\
  (wreq (worker st) = Some r <-> s = SWorker) /\
  (forall u, ureq (users st u) = Some r <-> s = SUser u) /\
  issued st r = (match s with SNew => false | _ => true end) /\
  match s with
  | SNew | SQueued => vals st r OP true 0 0 0
  | SWorker => wfacts st (worker st) r
  | SUser u => ufacts st (users st u) r
  | SFin => vals st r READY2DIE false 1 1 0 \/ vals st r READY2DIE false 0 0 1
  end.

Definition wtok (w : wpc) : Z := match w with WLock | WUp | WTryUp | WExit | WGone => 1 | _ => 0 end.
Definition addp (c : upc) : Z := match c with UUp _ => 1 | _ => 0 end.
Definition stopp (c : upc) : Z := match c with UStopUp => 1 | _ => 0 end.
Definition cdn (c : upc) : Z := match c with UCDown _ => 1 | _ => 0 end.
Definition lk (q : bool) (c : upc) : Z :=
  match c with
  | UCDown r => if Bool.eqb (qof r) q then 1 else 0
  | UUp r => match k with Q1 => if Bool.eqb (qof r) q then 1 else 0 | QWQR => 0 end
  | _ => 0 end.
Definition b2z (b : bool) : Z := if b then 1 else 0.
Definition stopped (t : tstate) : Z := match t with RUNNING => 0 | _ => 1 end.
Definition qlen (st : state) : Z := Z.of_nat (length (queue st true)) + Z.of_nat (length (queue st false)).

Record inv (st : state) : Prop := mk_inv {
  i_req : forall r, exists s, inv_r st r s;
  i_qof : forall q r, In r (queue st q) -> qof r = q;
  i_tok : sem st + wtok (worker st) + sumf NU (fun u => addp (users st u)) + sumf NU (fun u => stopp (users st u))
          = qlen st + sumf NU (fun u => cdn (users st u)) + stopped (thr st);
  i_sem : 0 <= sem st;
  i_lock : forall q, b2z (locked st q) = sumf NU (fun u => lk q (users st u));
  i_out : forall u, (NU <= u)%nat -> users st u = UIdle;
  i_thr : thr st <> RUNNING -> forall u,
     match users st u with UIdle | UWait _ | UStopUp | UJoin | UFile _ => True | _ => False end;
  i_run : thr st = RUNNING -> forall u, users st u <> UStopUp /\ users st u <> UJoin;
  i_exit : worker st = WTryDown \/ worker st = WTryUp \/ worker st = WExit -> thr st = TERMINATING;
  i_gone : worker st = WGone <-> thr st = TERMINATED;
  i_stop1 : sumf NU (fun u => stopp (users st u)) <= 1 }.

Lemma keep st st' r s : inv_r st r s ->
  (rst st' r = rst st r /\ mfile st' r = mfile st r /\ served st' r = served st r /\
   handled st' r = handled st r /\ cancelled st' r = cancelled st r /\ issued st' r = issued st r) ->
  inq st' r = inq st r ->
  (worker st' = worker st \/ (wreq (worker st') <> Some r /\ wreq (worker st) <> Some r)) ->
  (forall u, users st' u = users st u \/ (ureq (users st' u) <> Some r /\ ureq (users st u) <> Some r)) ->
  inv_r st' r s.
Proof.
  intros (H1 & H2 & H3 & H4 & H5) (F1 & F2 & F3 & F4 & F5 & F6) Hq Hw Hu.
  assert (V : forall x f a b d, vals st r x f a b d -> vals st' r x f a b d).
  { intros x f a b d (V1 & V2 & V3 & V4 & V5). unfold vals. rewrite F1, F2, F3, F4, F5. auto. }
  unfold inv_r. rewrite Hq, F6. split; [exact H1|]. split; [|split; [|split; [exact H4|]]].
  - destruct Hw as [->|(Ha & Hb)]; [exact H2|]. split; intro H; [congruence|]. apply H2 in H. congruence.
  - intro u. destruct (Hu u) as [->|(Ha & Hb)]; [apply H3|]. split; intro H; [congruence|]. apply H3 in H. congruence.
  - destruct s as [|u| | |]; auto.
    + assert (users st' u = users st u) as ->.
      { destruct (Hu u) as [E|(Ha & Hb)]; [exact E|]. exfalso. apply Hb, H3. reflexivity. }
      unfold ufacts in *. destruct (users st u); auto.
    + assert (worker st' = worker st) as ->.
      { destruct Hw as [E|(Ha & Hb)]; [exact E|]. exfalso. apply Hb, H2. reflexivity. }
      unfold wfacts in *. destruct (worker st); auto.
    + destruct H5; auto.
Qed.

Lemma init_inv : inv init.
Proof.
  assert (Hz : forall f, (forall i, f i = 0) -> sumf NU f = 0) by (intros f H; apply sumf_zero; auto).
  constructor; simpl; auto; try discriminate; try lia.
  - intro r. exists SNew. unfold inv_r, inq, vals. simpl. repeat split; intros; discriminate.
  - rewrite !Hz by reflexivity. reflexivity.
  - intro q. rewrite Hz; reflexivity.
  - intros _ u. split; discriminate.
  - intros [H|[H|H]]; discriminate.
  - split; discriminate.
  - rewrite Hz; [lia|reflexivity].
Qed.

Lemma upd_cases {A} (f : nat -> A) i v (P : A -> Prop) j : (j = i -> P v) -> (j <> i -> P (f j)) -> P (upd f i v j).
Proof. intros H1 H2. unfold upd. destruct (Nat.eqb_spec j i); auto. Qed.

Definition only (o : option nat) (r0 : nat) : Prop := o = None \/ o = Some r0.

Lemma change st st' r0 :
  inv st -> (forall s, inv_r st r0 s -> exists s1, inv_r st' r0 s1) ->
  (forall r, r <> r0 -> rst st' r = rst st r /\ mfile st' r = mfile st r /\ served st' r = served st r /\
     handled st' r = handled st r /\ cancelled st' r = cancelled st r /\ issued st' r = issued st r) ->
  (forall r, r <> r0 -> inq st' r = inq st r) ->
  (worker st' = worker st \/ (only (wreq (worker st')) r0 /\ only (wreq (worker st)) r0)) ->
  (forall u, users st' u = users st u \/ (only (ureq (users st' u)) r0 /\ only (ureq (users st u)) r0)) ->
  forall r, exists s, inv_r st' r s.
Proof.
  intros I H0 Hf Hq Hw Hu r. destruct (i_req _ I r) as (s & Hs). destruct (Nat.eq_dec r r0) as [->|Hr].
  - apply (H0 s Hs).
  - exists s. apply (keep st); auto.
    + destruct Hw as [Hw|([H1|H1] & [H2|H2])]; [left; exact Hw|..]; right; rewrite H1, H2; split; congruence.
    + intro u. destruct (Hu u) as [H|([H1|H1] & [H2|H2])]; [left; exact H|..]; right; rewrite H1, H2; split; congruence.
Qed.

Lemma nochange st st' : inv st ->
  (forall r, rst st' r = rst st r /\ mfile st' r = mfile st r /\ served st' r = served st r /\
     handled st' r = handled st r /\ cancelled st' r = cancelled st r /\ issued st' r = issued st r) ->
  (forall r, inq st' r = inq st r) ->
  (worker st' = worker st \/ (wreq (worker st') = None /\ wreq (worker st) = None)) ->
  (forall u, users st' u = users st u \/ (ureq (users st' u) = None /\ ureq (users st u) = None)) ->
  forall r, exists s, inv_r st' r s.
Proof.
  intros I Hf Hq Hw Hu r. destruct (i_req _ I r) as (s & Hs). exists s. apply (keep st); auto.
  - destruct Hw as [Hw|(H1 & H2)]; [left; exact Hw|right; rewrite H1, H2; split; discriminate].
  - intro u. destruct (Hu u) as [H|(H1 & H2)]; [left; exact H|right; rewrite H1, H2; split; discriminate].
Qed.

Lemma count_bupd st q l r : 
  inq (set_queue st q l) r = (inq st r - count_occ Nat.eq_dec (queue st q) r + count_occ Nat.eq_dec l r)%nat.
Proof. unfold inq. destruct q; cbn -[count_occ]; unfold bupd; simpl; lia. Qed.

Lemma qlen_set st q l : qlen (set_queue st q l) = qlen st - Z.of_nat (length (queue st q)) + Z.of_nat (length l).
Proof. unfold qlen. destruct q; cbn -[length]; unfold bupd; simpl; lia. Qed.

Lemma count_le st q r : (count_occ Nat.eq_dec (queue st q) r <= inq st r)%nat.
Proof. unfold inq; destruct q; lia. Qed.

Lemma queued st q r s : inv_r st r s -> In r (queue st q) -> s = SQueued /\ count_occ Nat.eq_dec (queue st q) r = 1%nat.
Proof.
  intros (H1 & _) Hin. pose proof (count_le st q r) as Hc.
  apply (count_occ_In Nat.eq_dec) in Hin.
  destruct s; rewrite H1 in *; simpl in *; try lia. repeat split; lia.
Qed.

Ltac rest I E := 
  match goal with
  | |- forall q r, In r _ -> _ => apply (i_qof _ I)
  | |- forall q, b2z _ = _ => apply (i_lock _ I)
  | |- 0 <= _ => lia
  | |- forall u, (NU <= u)%nat -> _ => apply (i_out _ I)
  | |- _ <> RUNNING -> _ => apply (i_thr _ I)
  | |- _ = RUNNING -> _ => apply (i_run _ I)
  | |- _ \/ _ \/ _ -> _ => solve [intros [HH|[HH|HH]]; discriminate | apply (i_exit _ I) | intros _; apply (i_exit _ I); rewrite E; auto]
  | |- _ <-> _ => solve [ apply (i_gone _ I) | rewrite <- (i_gone _ I), E; split; discriminate ]
  | |- _ <= 1 => apply (i_stop1 _ I)
  | _ => idtac
  end.

(** a worker step on its request that leaves it with the worker *)
Lemma wchange st st' r0 : inv st -> wreq (worker st) = Some r0 -> wreq (worker st') = Some r0 ->
  (wfacts st (worker st) r0 -> wfacts st' (worker st') r0) ->
  (forall r, r <> r0 -> rst st' r = rst st r /\ mfile st' r = mfile st r /\ served st' r = served st r /\
     handled st' r = handled st r /\ cancelled st' r = cancelled st r) ->
  users st' = users st -> issued st' = issued st -> queue st' = queue st ->
  forall r, exists s, inv_r st' r s.
Proof.
  intros I H1 H2 Hf Hr Hu Hi Hq. apply (change st st' r0 I).
  - intros s (S1 & S2 & S3 & S4 & S5). assert (s = SWorker) as -> by (apply S2; exact H1). exists SWorker.
    unfold inv_r, inq in *. rewrite Hu, Hi, Hq. split; [exact S1|]. split; [tauto|]. split; [exact S3|]. split; [exact S4|].
    apply Hf, S5.
  - intros r Hn. destruct (Hr r Hn) as (? & ? & ? & ? & ?). rewrite Hi. auto 10.
  - intros r _. unfold inq. rewrite Hq. reflexivity.
  - right. unfold only. rewrite H1, H2. auto.
  - rewrite Hu. auto.
Qed.

Lemma wstep_inv st st' : inv st -> wstep st = Ok st' -> inv st'.
Proof.
  intros I H. unfold IoQueueModel.wstep in H.
  pose proof (i_tok _ I) as HT. pose proof (i_sem _ I) as HS.
  destruct (worker st) as [| |r|r|r|r|r|r| | | | | |] eqn:E; simpl in HT.
  - (* WDown *)
    unfold down in H. destruct (Z.leb_spec (sem st) 0); [discriminate|]. injection H as <-.
    constructor; simpl; rest I E.
    + apply (nochange st); auto; simpl; [auto 10|]. rewrite E. auto.
    + unfold qlen in *. simpl in *. lia.
  - (* WLock *)
    destruct (locked st (qsel k (wph st))); [discriminate|].
    set (q := qsel k (wph st)) in *. destruct (queue st q) as [|r l] eqn:Q; injection H as <-.
    + constructor; simpl; rest I E.
      * apply (nochange st); auto; simpl; [auto 10|]. rewrite E. auto.
      * unfold qlen in *. simpl in *. lia.
    + assert (Hin : In r (queue st q)) by (rewrite Q; left; reflexivity).
      constructor; simpl; rest I E.
      * apply (change st _ r I); simpl; auto 10.
        -- intros s Hs. destruct (queued st q r s Hs Hin) as (-> & Hc). destruct Hs as (S1 & S2 & S3 & S4 & S5).
           exists SWorker. change (inv_r (set_worker (set_queue st q l) (WServe r)) r SWorker).
           unfold inv_r. simpl. split; [|split; [|split; [|split]]]; auto.
           ++ change (inq (set_queue st q l) r = 0%nat). rewrite count_bupd, S1, Hc.
              rewrite Q, count_occ_cons_eq in Hc by reflexivity. lia.
           ++ tauto.
           ++ intro u. rewrite S3. split; discriminate.
        -- intros r' Hr'. change (inq (set_queue st q l) r' = inq st r'). rewrite count_bupd, Q.
           rewrite count_occ_cons_neq by auto. pose proof (count_le st q r') as Hc. rewrite Q, count_occ_cons_neq in Hc by auto. lia.
        -- right. rewrite E. unfold only. auto.
      * intros q' r' Hin'. unfold bupd in Hin'. destruct (Bool.eqb q' q) eqn:Eq.
        -- apply (i_qof _ I). apply eqb_prop in Eq. subst q'. rewrite Q. right. exact Hin'.
        -- apply (i_qof _ I q' r' Hin').
      * match goal with |- _ = qlen ?s + _ + _ => change (qlen s) with (qlen (set_queue st q l)) end. rewrite qlen_set, Q. simpl length. lia.
  - (* WServe *) injection H as <-. constructor; simpl; rest I E.
    + apply (wchange st _ r I); simpl; auto; try (rewrite E; reflexivity).
      * rewrite E. simpl. unfold vals; simpl. rewrite !upd_same. intuition lia.
      * intros r' Hr'. rewrite upd_other by auto. auto 10.
    + unfold qlen in *. simpl in *. lia.
  - (* WDone *) injection H as <-. constructor; simpl; rest I E.
    + apply (wchange st _ r I); simpl; auto; try (rewrite E; reflexivity).
      * rewrite E. simpl. unfold vals; simpl. rewrite !upd_same. intuition lia.
      * intros r' Hr'. rewrite upd_other by auto. auto 10.
    + unfold qlen in *. simpl in *. lia.
  - (* WHandler *) injection H as <-. constructor; simpl; rest I E.
    + apply (wchange st _ r I); simpl; auto; try (rewrite E; reflexivity).
      * rewrite E. simpl. unfold vals; simpl. rewrite !upd_same. intuition lia.
      * intros r' Hr'. rewrite upd_other by auto. auto 10.
    + unfold qlen in *. simpl in *. lia.
  - (* WNotify *) injection H as <-. constructor; simpl; rest I E.
    + apply (wchange st _ r I); simpl; auto 10; try (rewrite E; reflexivity).
      rewrite E. simpl. auto.
    + unfold qlen in *. simpl in *. lia.
  - (* WClear *) destruct (mfile st r); [|discriminate]. injection H as <-. constructor; simpl; rest I E.
    + apply (wchange st _ r I); simpl; auto; try (rewrite E; reflexivity).
      * rewrite E. simpl. unfold vals; simpl. rewrite !upd_same. intuition lia.
      * intros r' Hr'. rewrite upd_other by auto. auto 10.
    + unfold qlen in *. simpl in *. lia.
  - (* WReady *) injection H as <-. constructor; simpl; rest I E.
    + apply (change st _ r I); simpl; auto 10.
      * intros s (S1 & S2 & S3 & S4 & S5). assert (s = SWorker) as -> by (apply S2; rewrite E; reflexivity). exists SFin.
        unfold inv_r. simpl. split; [exact S1|]. split; [split; discriminate|]. split; [intro u; rewrite S3; split; discriminate|].
        split; [exact S4|]. left. rewrite E in S5. simpl in S5. unfold vals in *. simpl. rewrite upd_same. intuition.
      * intros r' Hr'. rewrite upd_other by auto. auto 10.
      * right. rewrite E. unfold only. auto.
    + unfold qlen in *. simpl in *. lia.
  - (* WUp *) injection H as <-. constructor; simpl; rest I E.
    + apply (nochange st); auto; simpl; [auto 10|]. rewrite E. auto.
    + unfold qlen in *. simpl in *. lia.
  - (* WCheck *)
    destruct (thr st) eqn:T; injection H as <-; (constructor; simpl; rest I E; auto;
    [ apply (nochange st); auto; simpl; [auto 10|rewrite E; auto]
    | unfold qlen in *; simpl in *; rewrite ?T in *; simpl in *; lia]).
  - (* WTryDown *)
    unfold down in H. destruct (Z.leb_spec (sem st) 0); [discriminate|]. injection H as <-.
    pose proof (i_exit _ I ltac:(auto)) as HX.
    constructor; simpl; rest I E; auto.
    + apply (nochange st); auto; simpl; [auto 10|]. rewrite E. destruct (sem st - 1 =? 0); auto.
    + unfold qlen in *. simpl in *. destruct (sem st - 1 =? 0); simpl; lia.
    + rewrite <- (i_gone _ I), E. destruct (sem st - 1 =? 0); split; discriminate.
  - (* WTryUp *) injection H as <-. constructor; simpl; rest I E; auto.
    + apply (nochange st); auto; simpl; [auto 10|]. rewrite E. auto.
    + unfold qlen in *. simpl in *. lia.
  - (* WExit *) injection H as <-. pose proof (i_exit _ I ltac:(auto)) as HX.
    constructor; simpl; rest I E; auto.
    + apply (nochange st); auto; simpl; [auto 10|]. rewrite E. auto.
    + unfold qlen in *. rewrite HX in HT. simpl in *. lia.
    + intros _. apply (i_thr _ I). congruence.
    + intro HH. discriminate.
    + split; auto.
  - discriminate.
Qed.

Ltac sums Hu := rewrite ?(sumf_upd NU addp _ _ _ Hu), ?(sumf_upd NU stopp _ _ _ Hu), ?(sumf_upd NU cdn _ _ _ Hu).

(** parts of the invariant that only look at the program counters of users *)
Lemma user_pcs st u c t : inv st -> (u < NU)%nat -> t = thr st ->
  (match c with UStopUp | UJoin => t <> RUNNING | _ => True end) ->
  (t <> RUNNING -> match c with UIdle | UWait _ | UStopUp | UJoin | UFile _ => True | _ => False end) ->
  (forall v, (NU <= v)%nat -> upd (users st) u c v = UIdle) /\
  (t <> RUNNING -> forall v,
     match upd (users st) u c v with UIdle | UWait _ | UStopUp | UJoin | UFile _ => True | _ => False end) /\
  (t = RUNNING -> forall v, upd (users st) u c v <> UStopUp /\ upd (users st) u c v <> UJoin).
Proof.
  intros I Hu -> H1 H2. split; [|split].
  - intros v Hv. rewrite upd_other by lia. apply (i_out _ I v Hv).
  - intros Hr v. destruct (Nat.eq_dec v u) as [->|Hn]; [rewrite upd_same; exact (H2 Hr)|rewrite upd_other by auto; apply (i_thr _ I Hr v)].
  - intros Hr v. destruct (Nat.eq_dec v u) as [->|Hn]; [rewrite upd_same|rewrite upd_other by auto; apply (i_run _ I Hr v)].
    destruct c; split; congruence.
Qed.

Lemma uchange st st' u c r0 : inv st -> ureq (users st u) = Some r0 -> ureq c = Some r0 ->
  users st' = upd (users st) u c ->
  (ufacts st (users st u) r0 -> ufacts st' c r0) ->
  (forall r, r <> r0 -> rst st' r = rst st r /\ mfile st' r = mfile st r /\ served st' r = served st r /\
     handled st' r = handled st r /\ cancelled st' r = cancelled st r) ->
  worker st' = worker st -> issued st' = issued st -> (forall r, inq st' r = inq st r) ->
  forall r, exists s, inv_r st' r s.
Proof.
  intros I H1 H2 Hu Hf Hr Hw Hi Hq. apply (change st st' r0 I).
  - intros s (S1 & S2 & S3 & S4 & S5). assert (s = SUser u) as -> by (apply S3; exact H1). exists (SUser u).
    unfold inv_r. rewrite Hu, Hi, Hq, Hw. split; [exact S1|]. split; [exact S2|]. split; [|split; [exact S4|]].
    + intro v. destruct (Nat.eq_dec v u) as [->|Hn]; [rewrite upd_same; tauto|rewrite upd_other by auto; apply S3].
    + rewrite upd_same. apply Hf, S5.
  - intros r Hn. destruct (Hr r Hn) as (? & ? & ? & ? & ?). rewrite Hi. auto 10.
  - intros r _. apply Hq.
  - left; exact Hw.
  - intro v. rewrite Hu. destruct (Nat.eq_dec v u) as [->|Hn]; [rewrite upd_same|rewrite upd_other by auto; auto].
    right. unfold only. rewrite H1, H2. auto.
Qed.

Lemma unochange st st' u c : inv st -> ureq (users st u) = None -> ureq c = None ->
  users st' = upd (users st) u c ->
  (forall r, rst st' r = rst st r /\ mfile st' r = mfile st r /\ served st' r = served st r /\
     handled st' r = handled st r /\ cancelled st' r = cancelled st r /\ issued st' r = issued st r) ->
  worker st' = worker st -> (forall r, inq st' r = inq st r) ->
  forall r, exists s, inv_r st' r s.
Proof.
  intros I H1 H2 Hu Hr Hw Hq. apply (nochange st st' I); auto.
  intro v. rewrite Hu. destruct (Nat.eq_dec v u) as [->|Hn]; [rewrite upd_same|rewrite upd_other by auto; auto]. auto.
Qed.

Lemma running st u : inv st ->
  (match users st u with UIdle | UWait _ | UStopUp | UJoin | UFile _ => False | _ => True end) -> thr st = RUNNING.
Proof.
  intros I H. destruct (thr st) eqn:E; [reflexivity|..]; exfalso;
    pose proof (i_thr _ I ltac:(congruence) u) as H2; destruct (users st u); auto.
Qed.

Lemma lock_same st u c : inv st -> (u < NU)%nat -> (forall q, lk q (users st u) = lk q c) ->
  forall q, b2z (locked st q) = sumf NU (fun v => lk q (upd (users st) u c v)).
Proof.
  intros I Hu H q. rewrite (sumf_upd NU (lk q) _ _ _ Hu), <- H, (i_lock _ I q). lia.
Qed.

Lemma lock_set st q0 b u c : inv st -> (u < NU)%nat ->
  locked st q0 = negb b ->
  (forall q, lk q c - lk q (users st u) = if Bool.eqb q q0 then b2z b - b2z (negb b) else 0) ->
  forall q, b2z (bupd (locked st) q0 b q) = sumf NU (fun v => lk q (upd (users st) u c v)).
Proof.
  intros I Hu H H2 q. rewrite (sumf_upd NU (lk q) _ _ _ Hu). specialize (H2 q). pose proof (i_lock _ I q) as H3.
  unfold bupd. destruct (Bool.eqb q q0) eqn:E; [apply eqb_prop in E; subst q0|]; rewrite <- H3; [rewrite H; lia|lia].
Qed.

Lemma lock_up st q0 b u c : inv st -> (u < NU)%nat ->
  (k = Q1 -> locked st q0 = negb b) ->
  (forall q, lk q c - lk q (users st u) = match k with Q1 => if Bool.eqb q q0 then b2z b - b2z (negb b) else 0 | QWQR => 0 end) ->
  forall q, b2z (bupd (locked st) q0 (match k with Q1 => b | QWQR => locked st q0 end) q) = sumf NU (fun v => lk q (upd (users st) u c v)).
Proof.
  intros I Hu H H2 q. rewrite (sumf_upd NU (lk q) _ _ _ Hu). specialize (H2 q). pose proof (i_lock _ I q) as H3.
  unfold bupd. destruct (Bool.eqb q q0) eqn:E; [apply eqb_prop in E; subst q0|].
  - rewrite <- H3. destruct k; [rewrite H by reflexivity; lia|lia].
  - rewrite <- H3. destruct k; lia.
Qed.

Lemma lk_nonneg q c : 0 <= lk q c.
Proof. unfold lk. destruct c; try lia; destruct k; try lia; destruct (Bool.eqb _ q); lia. Qed.

Lemma lock_held st u q : inv st -> (u < NU)%nat -> lk q (users st u) = 1 -> locked st q = true.
Proof.
  intros I Hu H. pose proof (sumf_ge_one NU (fun v => lk q (users st v)) u Hu ltac:(intros; apply lk_nonneg)) as H2.
  cbv beta in H2. rewrite H, <- (i_lock _ I q) in H2. destruct (locked st q); [reflexivity|simpl in H2; lia].
Qed.

Lemma eqb_refl' b : Bool.eqb b b = true. Proof. destruct b; reflexivity. Qed.
Lemma eqb_sym' a b : Bool.eqb a b = Bool.eqb b a. Proof. destruct a, b; reflexivity. Qed.

Lemma memb_in r l : memb r l = true <-> In r l.
Proof.
  unfold memb. rewrite existsb_exists. split; [intros (x & H1 & H2); apply Nat.eqb_eq in H2; congruence|].
  intro H. exists r. split; [exact H|apply Nat.eqb_refl].
Qed.
Lemma erase1_count r l : In r l -> count_occ Nat.eq_dec (erase1 r l) r = pred (count_occ Nat.eq_dec l r).
Proof.
  induction l as [|x l IH]; [intros []|]. intros [->|H]; cbn [erase1].
  - rewrite Nat.eqb_refl, count_occ_cons_eq by reflexivity. reflexivity.
  - destruct (Nat.eqb_spec x r) as [->|Hn]; [rewrite count_occ_cons_eq by reflexivity; reflexivity|].
    rewrite !count_occ_cons_neq by auto. auto.
Qed.
Lemma erase1_other r x l : x <> r -> count_occ Nat.eq_dec (erase1 r l) x = count_occ Nat.eq_dec l x.
Proof.
  intro Hx. induction l as [|y l IH]; [reflexivity|]. cbn [erase1].
  destruct (Nat.eqb_spec y r) as [->|Hn]; [rewrite count_occ_cons_neq by auto; reflexivity|].
  destruct (Nat.eq_dec y x) as [->|Hy]; [rewrite !count_occ_cons_eq by reflexivity; auto|].
  rewrite !count_occ_cons_neq by auto. auto.
Qed.
Lemma erase1_len r l : In r l -> Z.of_nat (length (erase1 r l)) = Z.of_nat (length l) - 1.
Proof.
  induction l as [|x l IH]; [intros []|]. intros H. cbn [erase1 length].
  destruct (Nat.eqb_spec x r) as [->|Hn]; [lia|]. destruct H as [H|H]; [congruence|]. specialize (IH H). cbn [length]. lia.
Qed.
Lemma erase1_in r x l : In x (erase1 r l) -> In x l.
Proof.
  induction l as [|y l IH]; [intros []|]. cbn [erase1]. destruct (Nat.eqb y r); simpl; tauto.
Qed.

Lemma idle_calm st : existsb (fun v => busy (users st v)) (seq 0 NU) = false ->
  inv st -> calm st.
Proof.
  intros H I v. destruct (le_lt_dec NU v) as [Hv|Hv]; [left; apply (i_out _ I v Hv)|].
  assert (B : busy (users st v) = false).
  { destruct (busy (users st v)) eqn:B; [|reflexivity].
    assert (existsb (fun v => busy (users st v)) (seq 0 NU) = true); [|congruence].
    apply existsb_exists. exists v. split; [apply in_seq; lia|exact B]. }
  destruct (users st v); simpl in B; try discriminate; eauto.
Qed.

Ltac pcs I Hu c := destruct (user_pcs _ _ c _ I Hu eq_refl) as (PC1 & PC2 & PC3); [simpl; auto|simpl; try tauto|].

Ltac urest I PC1 PC2 PC3 :=
  match goal with
  | |- forall q r, In r _ -> _ => apply (i_qof _ I)
  | |- 0 <= _ => lia
  | |- forall u, (NU <= u)%nat -> _ => exact PC1
  | |- _ <> RUNNING -> _ => exact PC2
  | |- _ = RUNNING -> _ => exact PC3
  | |- _ \/ _ \/ _ -> _ => apply (i_exit _ I)
  | |- _ <-> _ => apply (i_gone _ I)
  | _ => idtac
  end.

Lemma ustep_inv st u o st' : inv st -> ustep st u o = Ok st' -> inv st'.
Proof.
  intros I H. unfold IoQueueModel.ustep in H.
  destruct (Nat.ltb_spec u NU) as [Hu|Hu]; [|discriminate].
  pose proof (i_tok _ I) as HT. pose proof (i_sem _ I) as HS. pose proof (i_stop1 _ I) as HP.
  destruct (users st u) as [|r|r|r|r|r|r|r|r|r|r|r| |] eqn:E.
  - (* UIdle *) destruct o as [r|r|r|].
    + (* Submit *)
      destruct (issued st r) eqn:Is; [discriminate|]. destruct (thr st) eqn:T; try discriminate. injection H as <-.
      pcs I Hu (UProbe r). 
      constructor; simpl; urest I PC1 PC2 PC3.
      * apply (change st _ r I); simpl; auto 10.
        -- intros s (S1 & S2 & S3 & S4 & S5). destruct s; rewrite Is in S4; try discriminate. exists (SUser u).
           unfold inv_r. simpl. split; [exact S1|]. split; [rewrite S2; split; discriminate|].
           split; [|split; [apply upd_same|rewrite upd_same; exact S5]].
           intro v. destruct (Nat.eq_dec v u) as [->|Hn]; [rewrite upd_same; tauto|rewrite upd_other by auto].
           rewrite S3. split; congruence.
        -- intros r' Hr'. rewrite upd_other by auto. auto 10.
        -- intro v. destruct (Nat.eq_dec v u) as [->|Hn]; [rewrite upd_same|rewrite upd_other by auto; auto].
           right. rewrite E. unfold only. auto.
      * sums Hu. rewrite E. simpl. unfold qlen in *. simpl in *. rewrite ?T in *. simpl in *. lia.
      * apply lock_same; auto. rewrite E. reflexivity.
      * sums Hu. rewrite E. simpl. lia.
    + (* Cancel *)
      destruct (issued st r); [|discriminate]. destruct (mfile st r); injection H as <-; [|exact I].
      pcs I Hu (UFile r).
      constructor; simpl; urest I PC1 PC2 PC3.
      * apply (unochange st _ u (UFile r) I); simpl; auto 10. rewrite E. reflexivity.
      * sums Hu. rewrite E. simpl. unfold qlen in *. simpl in *. lia.
      * apply lock_same; auto. rewrite E. reflexivity.
      * sums Hu. rewrite E. simpl. lia.
    + (* Wait *)
      destruct (issued st r); [|discriminate]. injection H as <-.
      pcs I Hu (UWait r).
      constructor; simpl; urest I PC1 PC2 PC3.
      * apply (unochange st _ u (UWait r) I); simpl; auto 10. rewrite E. reflexivity.
      * sums Hu. rewrite E. simpl. unfold qlen in *. simpl in *. lia.
      * apply lock_same; auto. rewrite E. reflexivity.
      * sums Hu. rewrite E. simpl. lia.
    + (* Stop *)
      destruct (thr st) eqn:T; try discriminate. destruct (existsb _ _) eqn:B; [discriminate|]. injection H as <-.
      pose proof (idle_calm st B I) as C.
      constructor; simpl; try apply I.
      * apply (unochange st _ u UStopUp I); simpl; auto 10. rewrite E. reflexivity.
      * sums Hu. rewrite E. simpl. unfold qlen in *. simpl in *. rewrite ?T in *. simpl in *. lia.
      * apply lock_same; auto. rewrite E. reflexivity.
      * intros v Hv. rewrite upd_other by lia. apply (i_out _ I v Hv).
      * intros _ v. destruct (Nat.eq_dec v u) as [->|Hn]; [rewrite upd_same; exact Logic.I|rewrite upd_other by auto].
        destruct (C v) as [->|(x & ->)]; exact Logic.I.
      * discriminate.
      * reflexivity.
      * rewrite (i_gone _ I), T. split; discriminate.
      * sums Hu. rewrite E. simpl. rewrite sumf_zero; [lia|].
        intros v _. destruct (C v) as [->|(x & ->)]; reflexivity.
  - (* UProbe *)
    pose proof (running st u I ltac:(rewrite E; exact Logic.I)) as HR.
    match type of H with (if ?c then _ else _) = _ => destruct c end; [discriminate|]. injection H as <-.
    pcs I Hu (UPush r).
    constructor; simpl; urest I PC1 PC2 PC3.
    + apply (uchange st _ u (UPush r) r I); simpl; auto 10; rewrite E; auto.
    + sums Hu. rewrite E. simpl. unfold qlen in *. simpl in *. lia.
    + apply lock_same; auto. rewrite E. reflexivity.
    + sums Hu. rewrite E. simpl. lia.
  - (* UPush *)
    pose proof (running st u I ltac:(rewrite E; exact Logic.I)) as HR.
    destruct (locked st (qof r)) eqn:L; [discriminate|].
    pcs I Hu (UUp r).
    injection H as <-.
    { constructor; simpl; urest I PC1 PC2 PC3.
      - apply (change st _ r I); simpl; auto 10.
        + intros s (S1 & S2 & S3 & S4 & S5). assert (s = SUser u) as -> by (apply S3; rewrite E; reflexivity).
          exists SQueued. rewrite E in S5. unfold inv_r. simpl. split; [|split; [|split; [|split]]]; auto.
          * change (inq (set_queue st (qof r) (queue st (qof r) ++ [r])) r = 1%nat). rewrite count_bupd, S1, count_occ_app.
            pose proof (count_le st (qof r) r). rewrite S1 in *. rewrite count_occ_cons_eq by reflexivity. simpl. lia.
          * rewrite S2. split; discriminate.
          * intro v. destruct (Nat.eq_dec v u) as [->|Hn]; [rewrite upd_same; split; discriminate|rewrite upd_other by auto].
            rewrite S3. split; congruence.
        + intros r' Hr'. change (inq (set_queue st (qof r) (queue st (qof r) ++ [r])) r' = inq st r').
          rewrite count_bupd, count_occ_app, count_occ_cons_neq by auto. pose proof (count_le st (qof r) r'). simpl. lia.
        + intro v. destruct (Nat.eq_dec v u) as [->|Hn]; [rewrite upd_same|rewrite upd_other by auto; auto].
           right. rewrite E. unfold only. auto.
      - intros q r'. unfold bupd. destruct (Bool.eqb q (qof r)) eqn:Eq; [|apply (i_qof _ I)].
        apply eqb_prop in Eq. subst q. intro Hin. apply in_app_iff in Hin. destruct Hin as [Hin|[<-|[]]]; [apply (i_qof _ I _ _ Hin)|reflexivity].
      - match goal with |- _ = qlen ?s + _ + _ => change (qlen s) with (qlen (set_queue st (qof r) (queue st (qof r) ++ [r]))) end.
        sums Hu. rewrite E, qlen_set, app_length. simpl. lia.
      - apply lock_up; auto. intro q. rewrite E. unfold lk. destruct k; [rewrite (eqb_sym' q); destruct (Bool.eqb _ q); reflexivity|reflexivity].
      - sums Hu. rewrite E. simpl. lia. }
  - (* UUp *)
    pose proof (running st u I ltac:(rewrite E; exact Logic.I)) as HR.
    injection H as <-. pcs I Hu UIdle.
    constructor; simpl; urest I PC1 PC2 PC3.
    + apply (unochange st _ u UIdle I); simpl; auto 10. rewrite E. reflexivity.
    + sums Hu. rewrite E. simpl. unfold qlen in *. simpl in *. lia.
    + apply lock_up; auto.
      * intro K. apply (lock_held st u _ I Hu). rewrite E. simpl. rewrite K, eqb_refl'. reflexivity.
      * intro q. rewrite E. unfold lk. destruct k; [rewrite (eqb_sym' q); destruct (Bool.eqb _ q); reflexivity|reflexivity].
    + sums Hu. rewrite E. simpl. lia.
  - (* UFile *)
    destruct (mfile st r); [|discriminate]. destruct (thr st) eqn:T; try discriminate. injection H as <-.
    pcs I Hu (UFind r).
    constructor; simpl; urest I PC1 PC2 PC3.
    + apply (unochange st _ u (UFind r) I); simpl; auto 10. rewrite E. reflexivity.
    + sums Hu. rewrite E. simpl. unfold qlen in *. simpl in *. rewrite ?T in *. simpl in *. lia.
    + apply lock_same; auto. rewrite E. reflexivity.
    + sums Hu. rewrite E. simpl. lia.
  - (* UFind *)
    pose proof (running st u I ltac:(rewrite E; exact Logic.I)) as HR.
    destruct (locked st (qof r)) eqn:L; [discriminate|].
    destruct (memb r (queue st (qof r))) eqn:M; injection H as <-.
    + apply memb_in in M. pcs I Hu (UCDown r).
      set (l := erase1 r (queue st (qof r))).
      constructor; simpl; urest I PC1 PC2 PC3.
      * apply (change st _ r I); simpl.
        -- intros s Hs. destruct (queued st _ r s Hs M) as (-> & Hc). destruct Hs as (S1 & S2 & S3 & S4 & S5).
           exists (SUser u). unfold inv_r. simpl. split; [|split; [|split; [|split]]]; auto.
           ++ change (inq (set_queue st (qof r) l) r = 0%nat). rewrite count_bupd, S1. unfold l.
              rewrite erase1_count by auto. lia.
           ++ rewrite S2. split; discriminate.
           ++ intro v. destruct (Nat.eq_dec v u) as [->|Hn]; [rewrite upd_same; simpl; tauto|rewrite upd_other by auto].
              rewrite S3. split; congruence.
           ++ rewrite upd_same. simpl. unfold vals in *. simpl. rewrite upd_same. intuition lia.
        -- intros r' Hr'. rewrite upd_other by auto. auto 10.
        -- intros r' Hr'. change (inq (set_queue st (qof r) l) r' = inq st r'). rewrite count_bupd. unfold l.
           rewrite erase1_other by auto. pose proof (count_le st (qof r) r'). lia.
        -- auto.
        -- intro v. destruct (Nat.eq_dec v u) as [->|Hn]; [rewrite upd_same|rewrite upd_other by auto; auto].
           right. rewrite E. unfold only. auto.
      * intros q r'. unfold bupd. destruct (Bool.eqb q (qof r)) eqn:Eq; [|apply (i_qof _ I)].
        apply eqb_prop in Eq. subst q. intro Hin. apply erase1_in in Hin. apply (i_qof _ I _ _ Hin).
      * match goal with |- _ = qlen ?s + _ + _ => change (qlen s) with (qlen (set_queue st (qof r) l)) end.
        sums Hu. rewrite E, qlen_set. unfold l. rewrite erase1_len by auto. simpl. lia.
      * apply lock_set; auto. intro q. rewrite E. simpl. rewrite (eqb_sym' q). destruct (Bool.eqb _ q); reflexivity.
      * sums Hu. rewrite E. simpl. lia.
    + pcs I Hu UIdle.
      constructor; simpl; urest I PC1 PC2 PC3.
      * apply (unochange st _ u UIdle I); simpl; auto 10. rewrite E. reflexivity.
      * sums Hu. rewrite E. simpl. unfold qlen in *. simpl in *. lia.
      * apply lock_same; auto. rewrite E. reflexivity.
      * sums Hu. rewrite E. simpl. lia.
  - (* UCDown *)
    pose proof (running st u I ltac:(rewrite E; exact Logic.I)) as HR.
    unfold down in H. destruct (Z.leb_spec (sem st) 0); [discriminate|]. injection H as <-.
    pcs I Hu (UCDone r).
    constructor; simpl; urest I PC1 PC2 PC3.
    + apply (uchange st _ u (UCDone r) r I); simpl; auto 10; rewrite E; auto.
    + sums Hu. rewrite E. simpl. unfold qlen in *. simpl in *. lia.
    + apply lock_set; auto.
      * apply (lock_held st u _ I Hu). rewrite E. simpl. rewrite eqb_refl'. reflexivity.
      * intro q. rewrite E. simpl. rewrite (eqb_sym' q). destruct (Bool.eqb _ q); reflexivity.
    + sums Hu. rewrite E. simpl. lia.
  - (* UCDone *)
    pose proof (running st u I ltac:(rewrite E; exact Logic.I)) as HR.
    injection H as <-. pcs I Hu (UCNotify r).
    constructor; simpl; urest I PC1 PC2 PC3.
    + apply (uchange st _ u (UCNotify r) r I); simpl; auto 10; try (rewrite E; reflexivity).
      * rewrite E. simpl. unfold vals; simpl. rewrite !upd_same. intuition lia.
      * intros r' Hr'. rewrite upd_other by auto. auto 10.
    + sums Hu. rewrite E. simpl. unfold qlen in *. simpl in *. lia.
    + apply lock_same; auto. rewrite E. reflexivity.
    + sums Hu. rewrite E. simpl. lia.
  - (* UCNotify *)
    pose proof (running st u I ltac:(rewrite E; exact Logic.I)) as HR.
    injection H as <-. pcs I Hu (UCClear r).
    constructor; simpl; urest I PC1 PC2 PC3.
    + apply (uchange st _ u (UCClear r) r I); simpl; auto 10; rewrite E; auto.
    + sums Hu. rewrite E. simpl. unfold qlen in *. simpl in *. lia.
    + apply lock_same; auto. rewrite E. reflexivity.
    + sums Hu. rewrite E. simpl. lia.
  - (* UCClear *)
    pose proof (running st u I ltac:(rewrite E; exact Logic.I)) as HR.
    destruct (mfile st r); [|discriminate]. injection H as <-. pcs I Hu (UCReady r).
    constructor; simpl; urest I PC1 PC2 PC3.
    + apply (uchange st _ u (UCReady r) r I); simpl; auto 10; try (rewrite E; reflexivity).
      * rewrite E. simpl. unfold vals; simpl. rewrite !upd_same. intuition lia.
      * intros r' Hr'. rewrite upd_other by auto. auto 10.
    + sums Hu. rewrite E. simpl. unfold qlen in *. simpl in *. lia.
    + apply lock_same; auto. rewrite E. reflexivity.
    + sums Hu. rewrite E. simpl. lia.
  - (* UCReady *)
    pose proof (running st u I ltac:(rewrite E; exact Logic.I)) as HR.
    injection H as <-. pcs I Hu UIdle.
    constructor; simpl; urest I PC1 PC2 PC3.
    + apply (change st _ r I); simpl; auto 10.
      * intros s (S1 & S2 & S3 & S4 & S5). assert (s = SUser u) as -> by (apply S3; rewrite E; reflexivity). exists SFin.
        unfold inv_r. simpl. split; [exact S1|]. split; [rewrite S2; split; discriminate|].
        split; [|split; [exact S4|]].
        -- intro v. destruct (Nat.eq_dec v u) as [->|Hn]; [rewrite upd_same; split; discriminate|rewrite upd_other by auto].
           rewrite S3. split; congruence.
        -- right. rewrite E in S5. simpl in S5. unfold vals in *. simpl. rewrite upd_same. intuition.
      * intros r' Hr'. rewrite upd_other by auto. auto 10.
      * intro v. destruct (Nat.eq_dec v u) as [->|Hn]; [rewrite upd_same|rewrite upd_other by auto; auto].
        right. rewrite E. unfold only. auto.
    + sums Hu. rewrite E. simpl. unfold qlen in *. simpl in *. lia.
    + apply lock_same; auto. rewrite E. reflexivity.
    + sums Hu. rewrite E. simpl. lia.
  - (* UWait *)
    destruct (rst st r); try discriminate. injection H as <-. pcs I Hu UIdle.
    constructor; simpl; urest I PC1 PC2 PC3.
    + apply (unochange st _ u UIdle I); simpl; auto 10. rewrite E. reflexivity.
    + sums Hu. rewrite E. simpl. unfold qlen in *. simpl in *. lia.
    + apply lock_same; auto. rewrite E. reflexivity.
    + sums Hu. rewrite E. simpl. lia.
  - (* UStopUp *)
    assert (HR : thr st <> RUNNING) by (intro HR; destruct (i_run _ I HR u) as (H1 & _); congruence).
    injection H as <-. pcs I Hu UJoin.
    constructor; simpl; urest I PC1 PC2 PC3.
    + apply (unochange st _ u UJoin I); simpl; auto 10. rewrite E. reflexivity.
    + sums Hu. rewrite E. simpl. unfold qlen in *. simpl in *. lia.
    + apply lock_same; auto. rewrite E. reflexivity.
    + sums Hu. rewrite E. simpl. lia.
  - (* UJoin *)
    destruct (thr st) eqn:T; try discriminate. injection H as <-. pcs I Hu UIdle.
    constructor; simpl; urest I PC1 PC2 PC3.
    + apply (unochange st _ u UIdle I); simpl; auto 10. rewrite E. reflexivity.
    + sums Hu. rewrite E. simpl. unfold qlen in *. simpl in *. rewrite ?T in *. simpl in *. lia.
    + apply lock_same; auto. rewrite E. reflexivity.
    + sums Hu. rewrite E. simpl. lia.
Qed.

Lemma reach_inv st : reach k p isw NU st -> inv st.
Proof.
  induction 1 as [|st e st' R IH H]; [apply init_inv|]. destruct e as [|u o]; simpl in H.
  - apply (wstep_inv st st' IH H).
  - apply (ustep_inv st u o st' IH H).
Qed.

(** * C27 *)
Lemma req_facts st r : inv st ->
  0 <= served st r /\ 0 <= cancelled st r /\ served st r + cancelled st r <= 1 /\ 0 <= handled st r <= served st r /\
  (rst st r = READY2DIE -> finished st r) /\
  (issued st r = false -> served st r = 0 /\ cancelled st r = 0) /\
  (issued st r = true -> pending st r \/ worker_has (worker st) r \/ (exists u, user_has (users st u) r) \/ finished st r).
Proof.
  intro I. destruct (i_req _ I r) as (s & S1 & S2 & S3 & S4 & S5). unfold finished.
  destruct s as [|u| | |].
  - destruct S5 as (V1 & V2 & V3 & V4 & V5). rewrite V1, V3, V4, V5, S4. repeat split; try lia; intros; discriminate.
  - assert (Hu : ureq (users st u) = Some r) by (apply S3; reflexivity).
    assert (Hh : user_has (users st u) r) by (destruct (users st u); simpl in *; congruence).
    rewrite S4. destruct (users st u) eqn:E; simpl in S5; try contradiction;
      destruct S5 as (V1 & V2 & V3 & V4 & V5); rewrite V1, V3, V4, V5;
      (repeat split; try lia; try (intros; discriminate); intros _; right; right; left; exists u; rewrite E; exact Hh).
  - destruct S5 as (V1 & V2 & V3 & V4 & V5). rewrite V1, V3, V4, V5, S4. repeat split; try lia; try (intros; discriminate).
    intros _. left. unfold pending. unfold inq in S1.
    destruct (count_occ Nat.eq_dec (queue st true) r) eqn:C.
    + right. apply (count_occ_In Nat.eq_dec). lia.
    + left. apply (count_occ_In Nat.eq_dec). lia.
  - assert (Hw : wreq (worker st) = Some r) by (apply S2; reflexivity).
    assert (Hh : worker_has (worker st) r) by (destruct (worker st); simpl in *; congruence).
    rewrite S4. destruct (worker st) eqn:E; simpl in S5; try contradiction;
      destruct S5 as (V1 & V2 & V3 & V4 & V5); rewrite V1, V3, V4, V5;
      (repeat split; try lia; try (intros; discriminate); intros _; right; left; exact Hh).
  - rewrite S4. destruct S5 as [(V1 & V2 & V3 & V4 & V5)|(V1 & V2 & V3 & V4 & V5)]; rewrite V1, V3, V4, V5;
    (repeat split; try lia; try (intros; discriminate); auto 10).
Qed.

Lemma wait_finished st u o r st' : inv st -> users st u = UWait r -> step st (U u o) = Ok st' -> finished st r.
Proof.
  intros I E H. simpl in H. unfold IoQueueModel.ustep in H. destruct (Nat.ltb u NU); [|discriminate]. rewrite E in H.
  destruct (rst st r) eqn:R; try discriminate. apply (req_facts st r I); exact R.
Qed.

Lemma cancel_false st u o r st' : inv st -> users st u = UFind r -> step st (U u o) = Ok st' ->
  (users st' u = UIdle /\ ~ pending st r /\ cancelled st' r = cancelled st r) \/
  (users st' u = UCDown r /\ pending st r /\ ~ pending st' r /\ served st' r = 0 /\ cancelled st' r = 1).
Proof.
  intros I E H. simpl in H. assert (H0 := H). unfold IoQueueModel.ustep in H. destruct (Nat.ltb u NU); [|discriminate].
  rewrite E in H. destruct (locked st (qof r)); [discriminate|].
  destruct (memb r (queue st (qof r))) eqn:M; injection H as <-; simpl; rewrite !upd_same.
  - right. apply memb_in in M. split; [reflexivity|].
    destruct (i_req _ I r) as (s & Hs). destruct (queued st _ r s Hs M) as (-> & Hc).
    pose proof (ustep_inv st u o _ I H0) as I'. 
    destruct (i_req _ I' r) as (s & Hs'). destruct Hs' as (S1 & S2 & S3 & S4 & S5).
    assert (s = SUser u) as -> by (apply S3; simpl; rewrite upd_same; reflexivity).
    destruct Hs as (_ & _ & _ & _ & (V1 & V2 & V3 & V4 & V5)).
    split; [|split; [|split; [exact V3|lia]]].
    + unfold pending. destruct (qof r); auto.
    + unfold inq in S1. intros [P|P]; apply (count_occ_In Nat.eq_dec) in P; lia.
  - left. split; [reflexivity|]. split; [|reflexivity]. intro P.
    assert (In r (queue st (qof r))) as Hin.
    { destruct P as [P|P]; pose proof (i_qof _ I _ _ P) as HQ; rewrite HQ; exact P. }
    apply memb_in in Hin. congruence.
Qed.

Lemma ub_only_cancel st e : inv st -> step st e = UB -> exists u o r, e = U u o /\ users st u = UFile r /\ mfile st r = false.
Proof.
  intros I H. destruct e as [|u o]; simpl in H.
  - exfalso. unfold IoQueueModel.wstep, down in H. destruct (worker st) eqn:E; try discriminate.
    + destruct (sem st <=? 0); discriminate.
    + destruct (locked st _); [discriminate|]. destruct (queue st _); discriminate.
    + destruct (i_req _ I r) as (s & S1 & S2 & S3 & S4 & S5). assert (s = SWorker) as -> by (apply S2; rewrite E; reflexivity).
      rewrite E in S5. destruct S5 as (_ & V & _). rewrite V in H. discriminate.
    + destruct (thr st); discriminate.
    + destruct (sem st <=? 0); discriminate.
  - unfold IoQueueModel.ustep, down in H. destruct (Nat.ltb u NU); [|discriminate].
    destruct (users st u) eqn:E; try discriminate.
    + destruct o; try (destruct (issued st r); try discriminate); try (destruct (thr st); try discriminate);
        try (destruct (mfile st r); try discriminate). destruct (existsb _ _); discriminate.
    + match type of H with (if ?c then _ else _) = _ => destruct c end; discriminate.
    + destruct (locked st _); discriminate.
    + destruct (mfile st r) eqn:F; [destruct (thr st); discriminate|]. exists u, o, r. auto.
    + destruct (locked st _); [discriminate|]. destruct (memb _ _); discriminate.
    + destruct (sem st <=? 0); discriminate.
    + destruct (i_req _ I r) as (s & S1 & S2 & S3 & S4 & S5). assert (s = SUser u) as -> by (apply S3; rewrite E; reflexivity).
      rewrite E in S5. destruct S5 as (_ & V & _). rewrite V in H. discriminate.
    + destruct (rst st r); discriminate.
    + destruct (thr st); discriminate.
Qed.

(** * the worker alone makes progress *)
(** nobody is in the middle of an operation that holds a lock, a token or a request *)
Definition quiet (st : state) : Prop := forall u,
  match users st u with UIdle | UWait _ | UFile _ | UFind _ | UJoin => True | _ => False end.

Definition emptyb (l : list nat) : bool := match l with [] => true | _ => false end.
Definition qn (st : state) : nat := (length (queue st true) + length (queue st false))%nat.
Definition wrong (st : state) : nat := if emptyb (queue st (qsel k (wph st))) then 1%nat else 0%nat.
Definition lastb (st : state) : bool := match thr st with RUNNING => false | _ => Nat.eqb (qn st) 0 end.
Definition rank (st : state) : nat :=
  match worker st with
  | WDown => 9 | WLock => 8
  | WServe _ => 76 | WDone _ => 75 | WHandler _ => 74 | WNotify _ => 73 | WClear _ => 72 | WReady _ => 71
  | WUp => if emptyb (queue st (qsel k (wph st))) then 7 else 60
  | WCheck => if lastb st then 6 else 12
  | WTryDown => if lastb st then 5 else 11
  | WTryUp => 10 | WExit => 1 | WGone => 0 end%nat.
Definition mu (st : state) : nat := (100 * qn st + 20 * wrong st + rank st)%nat.

Definition terminal (st : state) : Prop := (thr st = RUNNING /\ worker st = WDown /\ qn st = 0%nat) \/ worker st = WGone.

Lemma quiet_sums st : quiet st ->
  sumf NU (fun u => addp (users st u)) = 0 /\ sumf NU (fun u => stopp (users st u)) = 0 /\
  sumf NU (fun u => cdn (users st u)) = 0 /\ (forall q, sumf NU (fun u => lk q (users st u)) = 0).
Proof.
  intro Q. repeat split; intros; apply sumf_zero; intros u _; specialize (Q u); destruct (users st u); simpl; tauto.
Qed.

Lemma wrong_le st : (wrong st <= 1)%nat.
Proof. unfold wrong. destruct (emptyb _); lia. Qed.

Lemma q1_true st : inv st -> k = Q1 -> queue st true = [].
Proof.
  intros I K. destruct (queue st true) as [|r l] eqn:E; [reflexivity|].
  pose proof (i_qof _ I true r ltac:(rewrite E; left; reflexivity)) as H. unfold IoQueueModel.qof in H. rewrite K in H. discriminate.
Qed.

Lemma next_phase_empty w : next_phase p w false = negb w.
Proof. destruct w, p; reflexivity. Qed.

Lemma worker_progress st : inv st -> quiet st -> ~ terminal st ->
  exists st', wstep st = Ok st' /\ (mu st' < mu st)%nat /\ users st' = users st /\ issued st' = issued st.
Proof.
  intros I Q NT. destruct (quiet_sums st Q) as (Q1s & Q2s & Q3s & Q4s).
  pose proof (i_tok _ I) as HT. rewrite Q1s, Q2s, Q3s in HT. pose proof (i_sem _ I) as HS.
  assert (HL : forall q, locked st q = false).
  { intro q. pose proof (i_lock _ I q) as H. rewrite Q4s in H. destruct (locked st q); [discriminate|reflexivity]. }
  assert (HN : qlen st = Z.of_nat (qn st)) by (unfold qlen, qn; lia). rewrite HN in HT.
  assert (ST : (thr st = RUNNING /\ stopped (thr st) = 0) \/ (thr st <> RUNNING /\ stopped (thr st) = 1)).
  { destruct (thr st); simpl; [left|right|right]; split; congruence. }
  unfold IoQueueModel.wstep, down.
  destruct (worker st) as [| |r|r|r|r|r|r| | | | | |] eqn:E; simpl in HT;
    try (eexists; split; [reflexivity|]; split; [|split; reflexivity]; unfold mu, rank, wrong, qn; simpl; rewrite ?E; lia).
  - (* WDown *)
    destruct (Z.leb_spec (sem st) 0) as [Hz|Hz].
    + exfalso. apply NT. left. destruct ST as [(T & T2)|(T & T2)]; [|rewrite T2 in HT; lia].
      split; [exact T|]. split; [exact E|]. lia.
    + eexists; split; [reflexivity|]; split; [|split; reflexivity]. unfold mu, rank, wrong, qn; simpl; rewrite ?E; lia.
  - (* WLock *)
    rewrite HL. destruct (queue st (qsel k (wph st))) as [|r l] eqn:Q0.
    + eexists; split; [reflexivity|]; split; [|split; reflexivity]. unfold mu, rank, wrong, qn; simpl; rewrite ?E, ?Q0; simpl; lia.
    + eexists; split; [reflexivity|]; split; [|split; reflexivity].
      match goal with |- (mu ?s < _)%nat => assert (qn s = pred (qn st) /\ (0 < qn st)%nat) as (Hq & Hq2) end.
      { unfold qn; simpl. unfold bupd. destruct (qsel k (wph st)); simpl; rewrite Q0; simpl; lia. }
      unfold mu. rewrite Hq. unfold rank; cbn -[Nat.mul Nat.add wrong qn]; rewrite E.
      match goal with |- (_ + 20 * wrong ?s + _ < _)%nat => pose proof (wrong_le s) end. lia.
  - (* WClear *)
    destruct (i_req _ I r) as (s & S1 & S2 & S3 & S4 & S5). assert (s = SWorker) as -> by (apply S2; rewrite E; reflexivity).
    rewrite E in S5. destruct S5 as (_ & V & _). rewrite V.
    eexists; split; [reflexivity|]; split; [|split; reflexivity]. unfold mu, rank, wrong, qn; simpl; rewrite ?E; lia.
  - (* WReady *)
    eexists; split; [reflexivity|]; split; [|split; reflexivity]. unfold mu, rank; cbn -[Nat.mul Nat.add wrong qn lastb]; rewrite E.
    match goal with |- (_ + 20 * wrong ?s + _ < _)%nat => pose proof (wrong_le s); change (qn s) with (qn st) end.
    match goal with |- (_ + (if ?b then _ else _) < _)%nat => destruct b end; lia.
  - (* WUp *)
    eexists; split; [reflexivity|]; split; [|split; reflexivity]. unfold mu, rank; cbn -[Nat.mul Nat.add wrong qn lastb]; rewrite E.
    match goal with |- (_ + 20 * wrong ?s + _ < _)%nat => set (st1 := s); change (qn st1) with (qn st); change (lastb st1) with (lastb st) end.
    pose proof (wrong_le st1). pose proof (wrong_le st). unfold wrong at 2.
    destruct (emptyb (queue st (qsel k (wph st)))) eqn:EM; [|destruct (lastb st); lia].
    destruct (lastb st) eqn:LB.
    + assert (wrong st1 <= 1)%nat by lia. lia.
    + assert (qn st <> 0)%nat as Hn.
      { unfold lastb in LB. destruct ST as [(T & T2)|(T & T2)]; rewrite T2 in HT; [lia|].
        destruct (thr st); [congruence|..]; apply Nat.eqb_neq in LB; exact LB. }
      assert (wrong st1 = 0)%nat; [|lia]. unfold wrong, st1; simpl. rewrite next_phase_empty.
      destruct (queue st (qsel k (wph st))) eqn:Q0; [|discriminate].
      unfold qn in Hn. destruct k eqn:K; simpl in *.
      * rewrite (q1_true st I K), Q0 in Hn. simpl in Hn. lia.
      * destruct (wph st); simpl in *; rewrite Q0 in Hn; simpl in Hn; [destruct (queue st false)|destruct (queue st true)]; simpl in *; lia.
  - (* WCheck *)
    destruct (thr st) eqn:T.
    + eexists; split; [reflexivity|]; split; [|split; reflexivity]. unfold mu, rank, wrong, qn, lastb; simpl; rewrite ?E, ?T; lia.
    + eexists; split; [reflexivity|]; split; [|split; reflexivity].
      match goal with |- (mu ?s < _)%nat => set (st1 := s) end. unfold mu.
      assert (qn st1 = qn st /\ wrong st1 = wrong st /\ (rank st1 < rank st)%nat) as (-> & -> & HH); [|lia].
      split; [reflexivity|]. split; [reflexivity|]. unfold rank; rewrite E. cbn -[lastb qn]. change (lastb st1) with (lastb st).
      destruct (lastb st); lia.
    + exfalso. apply (i_gone _ I) in T. congruence.
  - (* WTryDown *)
    pose proof (i_exit _ I ltac:(auto)) as T. rewrite T in HT. simpl in HT.
    destruct (Z.leb_spec (sem st) 0); [lia|].
    eexists; split; [reflexivity|]; split; [|split; reflexivity].
    match goal with |- (mu ?s < _)%nat => set (st1 := s) end. unfold mu.
    assert (qn st1 = qn st /\ wrong st1 = wrong st /\ (rank st1 < rank st)%nat) as (-> & -> & HH); [|lia].
    split; [reflexivity|]. split; [reflexivity|]. unfold rank; rewrite E. cbn -[lastb qn Z.sub Z.eqb].
    destruct (Z.eqb_spec (sem st - 1) 0); [destruct (lastb st); lia|].
    assert (lastb st = false) as ->; [|lia]. unfold lastb. rewrite T. apply Nat.eqb_neq. lia.
  - exfalso. apply NT. right. exact E.
Qed.

Lemma worker_drains : forall n st, (mu st < n)%nat -> inv st -> quiet st ->
  exists m st', worker_run k p st m = Some st' /\ inv st' /\ users st' = users st /\ issued st' = issued st /\ terminal st'.
Proof.
  induction n as [|n IH]; intros st Hm I Q; [lia|].
  assert (D : terminal st \/ ~ terminal st).
  { unfold terminal. destruct (thr st), (worker st), (qn st); try (left; auto; fail); right; intros [(H1 & H2 & H3)|H]; discriminate. }
  destruct D as [D|D].
  - exists O, st. simpl. auto.
  - destruct (worker_progress st I Q D) as (st1 & H1 & H2 & H3 & H4).
    destruct (IH st1 ltac:(lia) (wstep_inv st st1 I H1)) as (m & st' & R & I' & U' & J' & T').
    { intro u. rewrite H3. apply Q. }
    exists (S m), st'. simpl. rewrite H1. split; [exact R|]. split; [exact I'|]. split; [congruence|]. split; [congruence|exact T'].
Qed.

Lemma terminal_finished st : inv st -> quiet st -> (worker st = WDown \/ worker st = WGone) -> qn st = 0%nat ->
  forall r, issued st r = true -> finished st r.
Proof.
  intros I Q W N r Hi. destruct (req_facts st r I) as (_ & _ & _ & _ & _ & _ & H).
  destruct (H Hi) as [P|[P|[(u & P)|P]]]; [| | |exact P]; exfalso.
  - unfold pending in P. unfold qn in N. destruct (queue st true), (queue st false); simpl in *; try lia; tauto.
  - destruct W as [W|W]; rewrite W in P; exact P.
  - specialize (Q u). destruct (users st u); simpl in *; tauto.
Qed.

Lemma drain_running st : inv st -> thr st = RUNNING -> quiet st ->
  exists n st', worker_run k p st n = Some st' /\ issued st' = issued st /\ users st' = users st /\
    forall r, issued st' r = true -> finished st' r.
Proof.
  intros I T Q. destruct (worker_drains (S (mu st)) st ltac:(lia) I Q) as (m & st' & R & I' & U' & J' & TT).
  exists m, st'. split; [exact R|]. split; [exact J'|]. split; [exact U'|].
  assert (Hrun : thr st' = RUNNING).
  { clear - R T I. revert st R T I. induction m as [|m IH]; simpl; intros st R T I; [congruence|].
    destruct (wstep st) as [s1| | |] eqn:W; try discriminate. apply (IH s1 R); [|apply (wstep_inv st); auto].
    unfold IoQueueModel.wstep, down in W. destruct (worker st) eqn:E; try (injection W as <-; exact T).
    - destruct (sem st <=? 0); [discriminate|injection W as <-; exact T].
    - destruct (locked st _); [discriminate|]. destruct (queue st _); injection W as <-; exact T.
    - destruct (mfile st r); [injection W as <-; exact T|discriminate].
    - rewrite T in W. injection W as <-; exact T.
    - rewrite (i_exit _ I ltac:(auto)) in T. discriminate.
    - pose proof (i_exit _ I ltac:(rewrite E; auto)) as T2. rewrite T in T2. discriminate.
    - discriminate. }
  destruct TT as [(_ & W & N)|W]; [|apply (i_gone _ I') in W; congruence].
  apply terminal_finished; auto. intro u. rewrite U'. apply Q.
Qed.

(** * C28: when cancelling blocks *)
Lemma cancel_blocks st u o r : inv st -> users st u = UCDown r ->
  (forall v, v <> u -> users st v = UIdle \/ exists x, users st v = UWait x) ->
  step st (U u o) = Blocked ->
  queue st true = [] /\ queue st false = [] /\ (worker st = WUp \/ worker st = WLock).
Proof.
  intros I E C H. simpl in H. unfold IoQueueModel.ustep, down in H.
  destruct (Nat.ltb_spec u NU) as [Hu|Hu]; [|discriminate]. rewrite E in H.
  destruct (Z.leb_spec (sem st) 0) as [Hz|Hz]; [|discriminate].
  pose proof (running st u I ltac:(rewrite E; exact Logic.I)) as HR.
  pose proof (i_tok _ I) as HT. rewrite HR in HT. simpl in HT.
  assert (S1 : sumf NU (fun u => addp (users st u)) = 0).
  { apply sumf_zero. intros v _. destruct (Nat.eq_dec v u) as [->|Hn]; [rewrite E; reflexivity|].
    destruct (C v Hn) as [->|(x & ->)]; reflexivity. }
  assert (S2 : sumf NU (fun u => stopp (users st u)) = 0).
  { apply sumf_zero. intros v _. destruct (Nat.eq_dec v u) as [->|Hn]; [rewrite E; reflexivity|].
    destruct (C v Hn) as [->|(x & ->)]; reflexivity. }
  assert (S3 : sumf NU (fun u => cdn (users st u)) = 1).
  { rewrite (sumf_change NU (fun _ => 0) (fun u => cdn (users st u)) u Hu).
    - rewrite sumf_zero by auto. rewrite E. reflexivity.
    - intros v Hn. destruct (C v Hn) as [->|(x & ->)]; reflexivity. }
  rewrite S1, S2, S3 in HT. pose proof (i_sem _ I) as HS.
  assert (0 <= qlen st) by (unfold qlen; lia).
  assert (wtok (worker st) <= 1) by (destruct (worker st); simpl; lia).
  assert (qlen st = 0) as HQ by lia. unfold qlen in HQ.
  split; [destruct (queue st true); [reflexivity|exfalso; cbn [length] in HQ; lia]|].
  split; [destruct (queue st false); [reflexivity|exfalso; cbn [length] in HQ; lia]|].
  assert (W : wtok (worker st) = 1) by (unfold qlen in *; lia).
  destruct (worker st) eqn:EW; simpl in W; try lia; auto.
  - rewrite (i_exit _ I ltac:(auto)) in HR. discriminate.
  - rewrite (i_exit _ I ltac:(auto)) in HR. discriminate.
  - pose proof (proj1 (i_gone _ I) EW). congruence.
Qed.

(** * C29 *)
Definition jinv (st : state) : Prop := (worker st = WExit \/ worker st = WGone) -> sem st = 0 /\ forall u, users st u <> UStopUp.

Lemma ra_reach st : reach_atomic_stop k p isw NU st -> reach k p isw NU st.
Proof. induction 1 as [|st e st' R IH A H]; [constructor|]. econstructor; eauto. Qed.

Lemma ra_jinv st : reach_atomic_stop k p isw NU st -> jinv st.
Proof.
  induction 1 as [|st e st' R IH A H].
  - intros [H|H]; discriminate.
  - pose proof (reach_inv st (ra_reach st R)) as I. intro W. destruct e as [|u o].
    + assert (NS : forall u, users st u <> UStopUp).
      { intros u Hu. destruct (A u Hu) as (o & D). discriminate. }
      simpl in H. unfold IoQueueModel.wstep, down in H.
      destruct (worker st) eqn:E; try (injection H as <-; destruct W as [W|W]; discriminate).
      * destruct (sem st <=? 0); [discriminate|injection H as <-; destruct W as [W|W]; discriminate].
      * destruct (locked st _); [discriminate|]. destruct (queue st _); injection H as <-; destruct W as [W|W]; discriminate.
      * destruct (mfile st r); [injection H as <-; destruct W as [W|W]; discriminate|discriminate].
      * destruct (thr st); injection H as <-; destruct W as [W|W]; discriminate.
      * destruct (sem st <=? 0); [discriminate|]. injection H as <-. simpl in *.
        destruct (Z.eqb_spec (sem st - 1) 0); [|destruct W as [W|W]; discriminate]. split; [lia|exact NS].
      * injection H as <-. simpl. split; [apply (IH ltac:(auto))|exact NS].
      * discriminate.
    + simpl in H.
      assert (W0 : worker st = worker st').
      { unfold IoQueueModel.ustep, down in H. destruct (Nat.ltb u NU); [|discriminate].
        destruct (users st u); repeat (match type of H with
          | (match ?c with _ => _ end) = _ => destruct c; try discriminate
          | Ok _ = Ok _ => injection H as <-; reflexivity end). }
      rewrite <- W0 in W. destruct (IH W) as (J1 & J2).
      assert (NR : thr st <> RUNNING).
      { destruct W as [W|W]; [rewrite (i_exit _ I ltac:(auto))|rewrite (proj1 (i_gone _ I) W)]; discriminate. }
      pose proof (i_thr _ I NR u) as PC. pose proof (J2 u) as J3.
      unfold IoQueueModel.ustep in H. destruct (Nat.ltb u NU); [|discriminate].
      assert (K : forall c s, c <> UStopUp -> users s = upd (users st) u c -> sem s = sem st ->
         sem s = 0 /\ forall v, users s v <> UStopUp).
      { intros c s Hc Hs Hse. split; [congruence|]. intro v. rewrite Hs. destruct (Nat.eq_dec v u) as [->|Hn]; [rewrite upd_same; exact Hc|rewrite upd_other by auto; apply J2]. }
      destruct (users st u) as [|r|r|r|r|r|r|r|r|r|r|r| |]; try contradiction.
      * destruct o as [r|r|r|].
        -- destruct (issued st r); [discriminate|]. destruct (thr st); [congruence|discriminate..].
        -- destruct (issued st r); [|discriminate]. destruct (mfile st r); injection H as <-; [|auto].
           apply (K (UFile r)); [discriminate|reflexivity..].
        -- destruct (issued st r); [|discriminate]. injection H as <-. apply (K (UWait r)); [discriminate|reflexivity..].
        -- destruct (thr st); [congruence|discriminate..].
      * destruct (mfile st r); [|discriminate]. destruct (thr st); [congruence|discriminate..].
      * destruct (rst st r); try discriminate. injection H as <-. apply (K UIdle); [discriminate|reflexivity..].
      * destruct (thr st); try discriminate. injection H as <-. apply (K UIdle); [discriminate|reflexivity..].
Qed.

Lemma stopped_quiet st : inv st -> thr st <> RUNNING -> (forall u, users st u <> UStopUp) -> quiet st.
Proof.
  intros I T N u. pose proof (i_thr _ I T u) as H. specialize (N u). destruct (users st u); try tauto.
Qed.

Lemma atomic_stop_complete st : reach_atomic_stop k p isw NU st -> worker st = WGone ->
  forall r, issued st r = true -> finished st r.
Proof.
  intros R W. pose proof (reach_inv st (ra_reach st R)) as I. destruct (ra_jinv st R ltac:(auto)) as (S0 & NS).
  assert (NR : thr st <> RUNNING) by (rewrite (proj1 (i_gone _ I) W); discriminate).
  pose proof (stopped_quiet st I NR NS) as Q.
  apply terminal_finished; auto.
  destruct (quiet_sums st Q) as (Q1s & Q2s & Q3s & Q4s). pose proof (i_tok _ I) as HT.
  rewrite Q1s, Q2s, Q3s, S0, W, (proj1 (i_gone _ I) W) in HT. simpl in HT. unfold qlen, qn in *. lia.
Qed.

Lemma shutdown_terminates st : reach_atomic_stop k p isw NU st -> thr st <> RUNNING -> (forall u, users st u <> UStopUp) ->
  exists n st', worker_run k p st n = Some st' /\ worker st' = WGone /\ thr st' = TERMINATED /\
    forall r, issued st r = true -> finished st' r.
Proof.
  intros R T N. pose proof (reach_inv st (ra_reach st R)) as I. pose proof (stopped_quiet st I T N) as Q.
  destruct (worker_drains (S (mu st)) st ltac:(lia) I Q) as (m & st' & RR & I' & U' & J' & TT).
  assert (R' : reach_atomic_stop k p isw NU st' /\ thr st' <> RUNNING).
  { clear - R T N RR I. revert st R T N RR I. induction m as [|m IH]; simpl; intros st R T N RR I; [split; congruence|].
    destruct (wstep st) as [s1| | |] eqn:W; try discriminate.
    assert (users s1 = users st /\ thr s1 <> RUNNING) as (E1 & E2).
    { unfold IoQueueModel.wstep, down in W. destruct (worker st);
       repeat (match type of W with
          | (match ?c with _ => _ end) = _ => destruct c eqn:?; try discriminate
          | Ok _ = Ok _ => injection W as <-; simpl; split; congruence end). discriminate. }
    apply (IH s1); auto.
    - apply (ra_step k p isw NU st IoQueueModel.W s1 R); [intros u Hu; exfalso; apply (N u Hu)|exact W].
    - rewrite E1. exact N.
    - apply (wstep_inv st); auto. }
  destruct R' as (R1 & R2).
  exists m, st'. split; [exact RR|]. destruct TT as [(H & _)|W]; [congruence|].
  split; [exact W|]. split; [apply (i_gone _ I'); exact W|].
  intros r Hr. apply (atomic_stop_complete st' R1 W). rewrite J'. exact Hr.
Qed.

Lemma run_reach : forall es st st', reach k p isw NU st -> run k p isw NU st es = Some st' -> reach k p isw NU st'.
Proof.
  induction es as [|e l IH]; simpl; intros st st' R H; [congruence|].
  destruct (step st e) as [s| | |] eqn:S; try discriminate. apply (IH s st'); [econstructor; eauto|exact H].
Qed.
(** a property of the state after an executable schedule is a property of a reachable state *)
Lemma run_witness es (P : state -> Prop) :
  match run k p isw NU init es with Some st => P st | None => False end -> exists st, reach k p isw NU st /\ P st.
Proof.
  destruct (run k p isw NU init es) as [st|] eqn:E; [|intros []].
  intro H. exists st. split; [apply (run_reach es init st); [constructor|exact E]|exact H].
Qed.

Lemma deadlock_state st r : NU = 1%nat -> users st 0%nat = UCDown r -> sem st = 0 -> worker st = WLock ->
  locked st (qsel k (wph st)) = true -> deadlock k p isw NU st.
Proof.
  intros HN H1 H2 H3 H4 e st' H. destruct e as [|u o]; simpl in H.
  - unfold IoQueueModel.wstep in H. rewrite H3, H4 in H. discriminate.
  - unfold IoQueueModel.ustep, down in H. rewrite HN in H. destruct u as [|u]; [|discriminate].
    rewrite H1, H2 in H. discriminate.
Qed.
End Inv.
