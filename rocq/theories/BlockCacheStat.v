(** * Statistics and eviction order of the block cache *)
From Coq Require Import Arith Bool List Lia.
From Verif Require Import BlockCacheModel BlockCacheSpec BlockCacheMach.
Import ListNotations.

Section Stat.
Context {V : Type}.
Variable ordered : bool.
Variable csize wsize : nat.
Variable iter : list (nat * nat) -> list (nat * nat).

Definition same_reads (a b : stats) : Prop :=
  n_found a = n_found b /\ n_not_found a = n_not_found b /\ n_read a = n_read b /\
  n_wrong a = n_wrong b.

Lemma kick_stat c (d : dev V) o c' d' :
  kick_block ordered csize c d = (o, c', d') -> same_reads (st c') (st c).
Proof.
  unfold kick_block. destruct (victim csize (retain c) (pager c)) as [[[i|] p]|].
  - destruct (dirty (set_pager c p) i).
    + destruct (wb_write _ _ _ _ _) as [[[? ?] ?]|]; intros [= <- <- <-]; cbn; repeat split.
    + intros [= <- <- <-]; cbn; repeat split.
  - intros [= <- <- <-]; cbn; repeat split.
  - intros [= <- <- <-]; cbn; repeat split.
Qed.

Lemma place_stat b c (d : dev V) o c' d' :
  place ordered csize b c d = (o, c', d') -> same_reads (st c') (st c).
Proof.
  unfold place. destruct (free c) as [|i fr] eqn:EF.
  - destruct (kick_block ordered csize c d) as [[o1 c1] d1] eqn:EK. apply kick_stat in EK.
    destruct o1.
    + destruct (free c1); intros [= <- <- <-]; auto.
    + intros [= <- <- <-]; auto.
    + intros [= <- <- <-]; auto.
  - rewrite EF. intros [= <- <- <-]; cbn; repeat split.
Qed.

Lemma get_stat b k c (d : dev V) o c' d' :
  get_subblock ordered csize b k c d = (o, c', d') ->
  n_read (st c') = S (n_read (st c)) /\
  (n_found (st c') = S (n_found (st c)) /\ n_not_found (st c') = n_not_found (st c) /\
   n_wrong (st c') = n_wrong (st c) \/
   n_found (st c') = n_found (st c) /\ n_not_found (st c') = S (n_not_found (st c)) /\
   n_wrong (st c) <= n_wrong (st c') <= S (n_wrong (st c))).
Proof.
  unfold get_subblock. destruct (bfind b (bmap c)) as [i|].
  - destruct (validity c i) as [|s'].
    + intros [= <- <- <-]. cbn. auto.
    + destruct (Nat.eqb s' k).
      * intros [= <- <- <-]. cbn. auto.
      * cbn. intros [= <- <- <-]. cbn. lia.
  - destruct (place _ _ _ _ _) as [[o1 c1] d1] eqn:EP. apply place_stat in EP.
    destruct EP as (a1 & a2 & a3 & a4). cbn in a1, a2, a3, a4.
    destruct o1; intros [= <- <- <-]; cbn; lia.
Qed.

Lemma prefetch_stat b c (d : dev V) o c' d' :
  prefetch_block ordered csize b c d = (o, c', d') -> same_reads (st c') (st c).
Proof.
  unfold prefetch_block. destruct (bfind b (bmap c)) as [i|].
  - destruct (validity c i); intros [= <- <- <-]; cbn; repeat split.
  - destruct (place _ _ _ _ _) as [[o1 c1] d1] eqn:EP. apply place_stat in EP.
    destruct o1; intros [= <- <- <-]; auto.
Qed.

Lemma flush_stat l : forall c (d : dev V) r,
  fold_left (fun r x => flush_one ordered x r) l (Some (c, d)) = r ->
  match r with Some (c', _) => st c' = st c | None => True end.
Proof.
  induction l as [|x l IH]; intros c d r; cbn [fold_left].
  - intros <-. auto.
  - unfold flush_one at 2. destruct (dirty c (snd x)).
    + destruct (wb_write _ _ _ _ _) as [[[buf w] d1]|].
      * intros H. apply IH in H. exact H.
      * intros <-. clear. induction l; cbn; auto.
    + apply IH.
Qed.

Definition is_get (o : op V) : bool := match o with OGet _ _ _ => true | _ => false end.

Definition inv_stat (n : nat) (s : stats) : Prop :=
  n_read s = n /\ n_found s + n_not_found s = n /\ n_wrong s <= n_not_found s.

Lemma step_stat o m r m' n :
  m_step ordered csize wsize iter o m = Some (r, m') -> inv_stat n (st (mc m)) ->
  inv_stat (n + length (filter is_get [o])) (st (mc m')).
Proof.
  destruct m as [c d g]. unfold inv_stat. cbn [mc].
  assert (SR : forall c', same_reads (st c') (st c) ->
      n_read (st c) = n /\ n_found (st c) + n_not_found (st c) = n /\ n_wrong (st c) <= n_not_found (st c) ->
      n_read (st c') = n + 0 /\ n_found (st c') + n_not_found (st c') = n + 0 /\
      n_wrong (st c') <= n_not_found (st c')).
  { unfold same_reads. lia. }
  destruct o; cbn [m_step filter is_get length].
  - destruct (get_subblock _ _ _ _ _ _) as [[o c'] d'] eqn:E. apply get_stat in E.
    destruct o; try discriminate; intros [= <- <-]; cbn [mc]; lia.
  - destruct (prefetch_block _ _ _ _ _) as [[o c'] d'] eqn:E. apply prefetch_stat in E.
    destruct o; try discriminate; intros [= <- <-]; cbn [mc]; auto.
  - unfold retain_block. destruct (bfind b (bmap c)); intros [= <- <-]; apply SR; cbn; repeat split.
  - unfold release_block. destruct (bfind b (bmap c)); [destruct (Nat.eqb _ 0)|];
      intros [= <- <-]; apply SR; cbn; repeat split.
  - unfold make_dirty. destruct (bfind b (bmap c)) as [i|].
    + destruct (validity c i); intros [= <- <-]; apply SR; cbn; repeat split.
    + intros [= <- <-]; apply SR; cbn; repeat split.
  - destruct (g r0) as [[buf k]|]; [|discriminate].
    destruct (nth_error _ _); [|discriminate]. intros [= <- <-]. apply SR; cbn; repeat split.
  - destruct (g r0) as [[buf k]|]; [|discriminate]. intros [= <- <-]. apply SR; cbn; repeat split.
  - unfold flush. destruct (fold_left _ _ _) as [[c1 d1]|] eqn:E; [|discriminate].
    apply flush_stat in E. destruct (wb_flush _ _ _ _) as [w d2].
    intros [= <- <-]. apply SR. cbn. rewrite E. repeat split.
  - unfold clear. intros [= <- <-]. apply SR; cbn; repeat split.
  - intros [= <- <-]. apply SR; cbn; repeat split.
  - intros [= <- <-]. apply SR; cbn; repeat split.
  - destruct (destroy _ _ _ _ _); [|discriminate]. intros [= <- <-]. apply SR; cbn; repeat split.
Qed.

Lemma run_stat p : forall m rs m' n,
  m_run ordered csize wsize iter p m = Some (rs, m') -> inv_stat n (st (mc m)) ->
  inv_stat (n + length (filter is_get p)) (st (mc m')).
Proof.
  induction p as [|o p IH]; intros m rs m' n; cbn [m_run].
  - intros [= <- <-]. cbn. now rewrite Nat.add_0_r.
  - destruct (m_step ordered csize wsize iter o m) as [[r m1]|] eqn:E; [|discriminate].
    destruct (m_run ordered csize wsize iter p m1) as [[rs1 m2]|] eqn:E2; [|discriminate].
    intros [= <- <-] H. apply (step_stat _ _ _ _ n E) in H.
    apply (IH _ _ _ _ E2) in H. cbn [filter]. destruct o; cbn [filter is_get length] in *;
      rewrite ?Nat.add_0_r in H; rewrite <- ?plus_n_Sm; auto;
      replace (S (n + length (filter is_get p))) with (n + 1 + length (filter is_get p)) by lia; auto.
Qed.

End Stat.

(** ** The block that is thrown out *)

Section Victim.
Variable ret : nat -> nat.

Lemma hit_last i p : ~ In i p -> hit i (p ++ [i]) = i :: p.
Proof.
  intros N. unfold hit. f_equal. rewrite filter_app. cbn. rewrite Nat.eqb_refl. cbn.
  rewrite app_nil_r. induction p as [|x p IH]; auto. cbn.
  destruct (Nat.eqb_spec x i).
  - exfalso. apply N. left; auto.
  - cbn. f_equal. apply IH. intros X. apply N. right; auto.
Qed.

Lemma last_split {A} (p : list A) : p <> [] -> exists q x, p = q ++ [x].
Proof. intros H. destruct (exists_last H) as (q & x & E). eauto. Qed.


(** [q]: the retained ones that have been passed already *)
Lemma victim_order_gen n : forall p q i p',
  NoDup (q ++ p) -> (forall j, In j q -> 0 < ret j) -> n <= length p ->
  victim n ret (q ++ p) = Some (Some i, p') ->
  exists p1 p2, p = p1 ++ i :: p2 /\ ret i = 0 /\ (forall j, In j p2 -> 0 < ret j) /\
    p' = i :: p2 ++ q ++ p1.
Proof.
  induction n as [|n IH]; intros p q i p' ND HQ LN.
  - cbn. destruct (rev (q ++ p)); discriminate.
  - destruct p as [|x0 p0] using rev_ind; [cbn in LN; lia|]. clear IHp0.
    rewrite app_assoc. cbn [victim]. rewrite rev_app_distr. cbn [rev app].
    rewrite app_assoc in ND.
    assert (NX : ~ In x0 (q ++ p0)).
    { apply NoDup_remove_2 in ND. now rewrite app_nil_r in ND. }
    rewrite hit_last by auto.
    destruct (Nat.ltb_spec 0 (ret x0)) as [L|L].
    + change (x0 :: q ++ p0) with ((x0 :: q) ++ p0). intros H.
      rewrite app_length in LN. cbn in LN.
      destruct (IH p0 (x0 :: q) i p') as (p1 & p2 & E1 & E2 & E3 & E4); auto.
      * cbn. apply NoDup_remove in ND. rewrite app_nil_r in ND. constructor; tauto.
      * intros j [<-|J]; auto.
      * lia.
      * exists p1, (p2 ++ [x0]). split.
        { rewrite E1, <- app_assoc. reflexivity. }
        split; auto. split.
        { intros j J. apply in_app_or in J. destruct J as [J|[<-|[]]]; auto. }
        rewrite E4. f_equal. rewrite <- app_assoc. reflexivity.
    + intros [= <- <-]. exists p0, []. split; auto. split; [lia|]. split; [easy|]. reflexivity.
Qed.
End Victim.
