From Coq Require Import List Bool Arith NArith ZArith Lia.
From Verif Require Import SumLib AsyncIoModel AsyncIoProofs AsyncIoRules StackProofs SequenceProofs VectorModel VectorSpec VectorProofs DequeModel DequeSpec.
Import ListNotations.

Lemma wrap1 V b i : b < V -> i <= V -> (b + i) mod V = if Nat.ltb (b + i) V then b + i else b + i - V.
Proof.
  intros H1 H2. destruct (Nat.ltb_spec (b + i) V) as [L|L]; [apply Nat.mod_small; exact L|].
  replace (b + i) with ((b + i - V) + 1 * V) at 1 by lia. rewrite Nat.mod_add by lia. apply Nat.mod_small. lia.
Qed.
Lemma wrap_lt V n : 1 <= V -> n mod V < V. Proof. intro. apply Nat.mod_upper_bound. lia. Qed.
Lemma wrap_inj V b i j : b < V -> i < V -> j < V -> (b + i) mod V = (b + j) mod V -> i = j.
Proof. intros H1 H2 H3. rewrite !wrap1 by lia. destruct (Nat.ltb_spec (b + i) V), (Nat.ltb_spec (b + j) V); lia. Qed.
Lemma wrap_pred V b : b < V -> (b + V - 1) mod V = if Nat.eqb b 0 then V - 1 else b - 1.
Proof. intro H. replace (b + V - 1) with (b + (V - 1)) by lia. rewrite wrap1 by lia. destruct (Nat.ltb_spec (b + (V - 1)) V), (Nat.eqb_spec b 0); lia. Qed.

Section Deque.
Variable A : Type.
Variables S P N D : nat.
Hypothesis HS : 1 <= S.
Hypothesis HP : 1 <= P.
Hypothesis HN : 1 <= N.
Hypothesis HD : 1 <= D.
Variable PT : Type.
Variable pinit : PT.
Variable kick : PT -> nat * PT.
Variable hit : nat -> PT -> PT.
Variable rf : bool.
Variable PI : PT -> Prop.
Hypothesis PI_init : PI pinit.
Hypothesis PI_kick : forall p, PI p -> fst (kick p) < N /\ PI (snd (kick p)).
Hypothesis PI_hit : forall p i, PI p -> i < N -> PI (hit i p).
Hypothesis T : two N PT kick hit PI.
Notation sstate := (sstate A).
Notation dst := (dst PT).
Notation vinv := (vinv A S P N PT PI).

(** the vector has the contents c *)
Definition holds (c : list (option A)) (t : vst PT) (s : sstate) : Prop := exists b, vinv false (mk_vs c b (up b P)) t s.
Lemma holds_size c t s : holds c t s -> v_size t = length c.
Proof. intros (b & I). apply (t_size _ _ _ _ _ _ _ _ _ _ _ (proj1 I)). Qed.
Lemma h_set c t s i v : holds c t s -> i < length c -> ok (set A S P PT kick hit i v t) s (fun t' s' => holds (lset i (Some v) c) t' s').
Proof. intros (b & I) L. eapply ok_imp; [apply (set_ok A S P N HS HP HN PT kick hit PI PI_kick PI_hit _ _ _ _ i v I L)|]. intros t' s' H. exists b. exact H. Qed.
Lemma h_get c t s m i v : holds c t s -> nth_error c i = Some (Some v) -> ok (get A S P PT kick hit m i t) s (fun r s' => holds c (fst r) s' /\ snd r = v).
Proof. intros (b & I) L. eapply ok_imp; [apply (get_ok A S P N HS HP HN PT kick hit PI PI_kick PI_hit _ _ _ _ m i v I L)|]. intros t' s' (H & E). split; [exists b|]; assumption. Qed.
Lemma h_assign c t s i j v : holds c t s -> nth_error c j = Some v -> i < length c -> ok (assign A S P PT kick hit rf i j t) s (fun t' s' => holds (lset i v c) t' s').
Proof. intros (b & I) L L'. eapply ok_imp; [apply (assign_ok A S P N HS HP HN PT kick hit PI PI_kick PI_hit _ _ _ _ rf i j v T I L L')|]. intros t' s' H. exists b. exact H. Qed.
Lemma h_resize c t s n : holds c t s -> ok (resize A S P PT n t) s (fun t' s' => holds (lresize n None c) t' s').
Proof.
  intros (b & I). destruct (grow_fresh A S P N HS HP HN c n b) as (b' & _ & _ & G).
  eapply ok_imp; [apply (resize_ok A S P N HS HP HN PT kick hit PI PI_kick PI_hit _ _ _ _ n _ I G)|]. intros t' s' (H & _). exists b'. exact H.
Qed.
Lemma h_empty : up 0 P = 0. Proof. unfold up. apply Nat.div_small. lia. Qed.
Lemma h_clear c t s : holds c t s -> ok (clear A N PT t) s (fun t' s' => holds [] t' s').
Proof. intros (b & I). eapply ok_imp; [apply (clear_ok A S P N HS HP HN PT PI _ _ _ _ I)|]. intros t' s' H. exists 0. rewrite h_empty. exact H. Qed.
Lemma h_init base al : holds [] (v_init N PT pinit base) (sinit al).
Proof. exists 0. rewrite h_empty. apply init_inv; assumption. Qed.
Lemma h_destroy c t s : holds c t s -> ok (destroy A P N PT t) s (fun _ s' => sout s' = [] /\ sown s' = []).
Proof. intros (b & I). eapply ok_imp; [apply (destroy_ok A S P N HS HP HN PT PI _ _ _ _ I)|]. intros t' s' (H1 & H2). auto. Qed.

(** ring buffer: V places, begin b, list l, vector contents c *)
Record ring (l c : list (option A)) (b e n : nat) : Prop := mk_ring {
  r_b : b < length c; r_n : n = length l; r_l : length l < length c; r_e : e = (b + length l) mod length c;
  r_at : forall i v, nth_error l i = Some (Some v) -> nth_error c ((b + i) mod length c) = Some (Some v) }.
Definition dinv (l : list (option A)) (t : dst) (s : sstate) : Prop := exists c, holds c (d_v t) s /\ ring l c (d_begin t) (d_end t) (d_size t).

(** copying to later places: the elements from .. from + n - 1 arrive *)
Lemma copy_ok n : forall from to c t s, from + n <= to -> to + n <= length c -> holds c t s ->
  ok (copy_els A S P PT kick hit rf n from to t) s (fun t' s' => exists c', holds c' t' s' /\ length c' = length c /\
    (forall i, i < to -> nth_error c' i = nth_error c i) /\ (forall i, i < n -> nth_error c' (to + i) = nth_error c (from + i))).
Proof.
  induction n as [|n IH]; intros from to c t s H1 H2 H.
  - apply ok_ret. exists c. split; [exact H|]. split; [reflexivity|]. split; [reflexivity|]. intros i C. lia.
  - simpl. apply ok_bind. destruct (lt_nth_error c from ltac:(lia)) as (v & Ev). eapply ok_imp; [apply (h_assign c t s to from v H Ev); lia|]. cbv beta. intros t1 s1 I1.
    eapply ok_imp; [apply (IH (from + 1) (to + 1) (lset to v c) t1 s1); [lia|rewrite lset_length; lia|exact I1]|]. cbv beta. intros t2 s2 (c' & K1 & K2 & K3 & K4). rewrite lset_length in K2. exists c'. split; [exact K1|]. split; [exact K2|]. split.
    + intros i Hi. rewrite K3 by lia. apply lset_ne. lia.
    + intros i Hi. destruct i as [|i].
      * rewrite !Nat.add_0_r. rewrite K3 by lia. rewrite lset_eq by lia. symmetry. exact Ev.
      * replace (to + Datatypes.S i) with (to + 1 + i) by lia. rewrite K4 by lia. replace (from + Datatypes.S i) with (from + 1 + i) by lia. apply lset_ne. lia.
Qed.
(** the vector is longer now, nothing else changed *)
Lemma enlarge_ok l t s n : dinv l t s -> 2 * v_size (d_v t) <= n ->
  ok (enlarge A S P PT kick hit rf n t) s (fun t' s' => dinv l t' s' /\ v_size (d_v t') = n /\ (forall k, length l <= k -> (d_end t' + k - d_size t') mod n = (d_begin t' + k) mod n)).
Proof.
  intros (c & H & [R1 R2 R3 R4 R5]) L. rewrite (holds_size _ _ _ H) in L. unfold enlarge. rewrite (holds_size _ _ _ H). apply ok_bind. eapply ok_imp; [apply (h_resize c _ _ n H)|]. cbv beta. intros v s1 H1.
  pose proof (lresize_length n None c) as LN. set (c1 := lresize n None c) in *. assert (C1 : forall i, i < length c -> nth_error c1 i = nth_error c i).
  { intros i Hi. unfold c1. rewrite lresize_nth. destruct (lt_nth_error c i Hi) as (w & ->). destruct (Nat.ltb_spec i n); [reflexivity|lia]. }
  rewrite R4. rewrite wrap1 by lia. rewrite (holds_size _ _ _ H1), LN. destruct (Nat.ltb_spec (d_begin t + length l) (length c)) as [W|W].
  - destruct (Nat.ltb_spec (d_begin t + length l) (d_begin t)); [lia|]. apply ok_ret. simpl. split; [|split; [rewrite (holds_size _ _ _ H1); exact LN|]].
    + exists c1. simpl. split; [exact H1|]. constructor; rewrite ?LN; try lia.
      * symmetry. apply Nat.mod_small. lia.
      * intros i w E. pose proof (nth_error_lt _ _ _ E). pose proof (R5 i w E) as G. rewrite Nat.mod_small in G |- * by lia. rewrite C1 by lia. exact G.
    + intros k Hk. rewrite R2. f_equal. lia.
  - destruct (Nat.ltb_spec (d_begin t + length l - length c) (d_begin t)); [|lia]. apply ok_bind.
    eapply ok_imp; [apply (copy_ok (length c - d_begin t) (d_begin t) (n - length c + d_begin t) c1 v s1); [lia|lia|exact H1]|]. cbv beta. intros v2 s2 (c2 & K1 & K2 & K3 & K4). rewrite LN in K2. apply ok_ret. simpl. split; [|split; [rewrite (holds_size _ _ _ K1); exact K2|]].
    + exists c2. simpl. split; [exact K1|]. constructor; rewrite ?K2; try lia.
      * rewrite wrap1 by lia. destruct (Nat.ltb_spec (n - length c + d_begin t + length l) n); lia.
      * intros i w E. pose proof (nth_error_lt _ _ _ E). pose proof (R5 i w E) as G. rewrite wrap1 in G |- * by lia.
        destruct (Nat.ltb_spec (d_begin t + i) (length c)), (Nat.ltb_spec (n - length c + d_begin t + i) n); try lia.
        -- rewrite K4 by lia. rewrite C1 by lia. exact G.
        -- rewrite K3 by lia. replace (n - length c + d_begin t + i - n) with (d_begin t + i - length c) by lia. rewrite C1 by lia. exact G.
    + intros k Hk. rewrite R2. replace (n - length c + d_begin t + k) with (d_begin t + length l - length c + k - length l + 1 * n) by lia. rewrite Nat.mod_add by lia. reflexivity.
Qed.
Lemma d_new_ok base al : ok (d_new A S P N D PT pinit base) (sinit al) (fun t' s' => dinv [] t' s').
Proof.
  unfold d_new. apply ok_bind. eapply ok_imp; [apply (h_resize [] _ _ D (h_init base al))|]. cbv beta. intros v s H. apply ok_ret. exists (lresize D None []). split; [exact H|].
  constructor; rewrite ?lresize_length; simpl; try lia. { symmetry. apply Nat.mod_small. lia. } intros i v0 C. destruct i; discriminate.
Qed.
Lemma nth_repeat_none n i (v : A) : nth_error (repeat None n) i <> Some (Some v).
Proof. rewrite nth_repeat. destruct (Nat.ltb i n); congruence. Qed.
Lemma d_new_n_ok n base al : ok (d_new_n A S P N D PT pinit n base) (sinit al) (fun t' s' => dinv (repeat None n) t' s').
Proof.
  unfold d_new_n. apply ok_bind. eapply ok_imp; [apply (h_resize [] _ _ (Nat.max D (2 * n)) (h_init base al))|]. cbv beta. intros v s H. apply ok_ret. exists (lresize (Nat.max D (2 * n)) None []). split; [exact H|].
  constructor; rewrite ?lresize_length, ?repeat_length; simpl; try lia. { symmetry. apply Nat.mod_small. lia. } intros i v0 C. destruct (nth_repeat_none _ _ _ C).
Qed.
(** if the ring is full the vector is doubled; then there is a free place *)
Lemma room_ok l t s (full : bool) : dinv l t s -> (full = false -> length l + 1 < v_size (d_v t)) ->
  ok (if full then double_array A S P PT kick hit rf t else Ret t) s (fun t' s' => dinv l t' s' /\ length l + 1 < v_size (d_v t')).
Proof.
  intros I F. destruct full.
  - unfold double_array. eapply ok_imp; [apply (enlarge_ok l t s _ I); lia|]. cbv beta. intros t' s' (I' & E & _). split; [exact I'|]. rewrite E. destruct I as (c & H & R). rewrite (holds_size _ _ _ H). destruct R. lia.
  - apply ok_ret. auto.
Qed.
Lemma push_back_ok l v t s : dinv l t s -> ok (push_back A S P PT kick hit rf v t) s (fun t' s' => dinv (l ++ [Some v]) t' s').
Proof.
  intros I. unfold push_back. apply ok_bind. eapply ok_imp; [apply (room_ok l t s _ I)|].
  { destruct I as (c & H & [R1 R2 R3 R4 R5]). rewrite (holds_size _ _ _ H), R4. intro F. apply Nat.eqb_neq in F. destruct (Nat.eq_dec (length l + 1) (length c)) as [E|E]; [|lia]. exfalso. apply F.
    rewrite Nat.add_mod_idemp_l by lia. replace (d_begin t + length l + 1) with (d_begin t + 1 * length c) by lia. rewrite Nat.mod_add by lia. apply Nat.mod_small. exact R1. }
  cbv beta. clear t s I. intros t s ((c & H & [R1 R2 R3 R4 R5]) & L). rewrite (holds_size _ _ _ H) in L. apply ok_bind.
  eapply ok_imp; [apply (h_set c _ _ (d_end t) v H); rewrite R4; apply wrap_lt; lia|]. cbv beta. intros v' s' H'. apply ok_ret. exists (lset (d_end t) (Some v) c). simpl. split; [exact H'|]. rewrite (holds_size _ _ _ H').
  constructor; rewrite ?lset_length, ?app_length; simpl; try lia.
  - rewrite R4, Nat.add_mod_idemp_l by lia. f_equal. lia.
  - intros i w E. rewrite nth_app in E. destruct (Nat.ltb_spec i (length l)) as [Li|Li].
    + rewrite lset_ne; [apply R5; exact E|]. rewrite R4. intro C. apply wrap_inj in C; lia.
    + destruct (i - length l) as [|k] eqn:Ek; [|destruct k; discriminate]. injection E as <-. replace i with (length l) by lia. rewrite <- R4. rewrite lset_eq; [reflexivity|]. rewrite R4. apply wrap_lt. lia.
Qed.
Lemma pred_wrap V b : b < V -> 1 <= V -> ((b + V - 1) mod V + 1) mod V = b.
Proof. intros H H1. rewrite wrap_pred by exact H. destruct (Nat.eqb_spec b 0); [replace (V - 1 + 1) with (0 + 1 * V) by lia; rewrite Nat.mod_add by lia; rewrite Nat.mod_small; lia|replace (b - 1 + 1) with b by lia; apply Nat.mod_small; exact H]. Qed.
Lemma push_front_ok l v t s : dinv l t s -> ok (push_front A S P PT kick hit rf v t) s (fun t' s' => dinv (Some v :: l) t' s').
Proof.
  intros I. unfold push_front. apply ok_bind. eapply ok_imp; [apply (room_ok l t s _ I)|].
  { destruct I as (c & H & [R1 R2 R3 R4 R5]). rewrite (holds_size _ _ _ H), R4. intro F. apply Nat.eqb_neq in F. destruct (Nat.eq_dec (length l + 1) (length c)) as [E|E]; [|lia]. exfalso. apply F. f_equal. lia. }
  cbv beta. clear t s I. intros t s ((c & H & [R1 R2 R3 R4 R5]) & L). rewrite (holds_size _ _ _ H) in L |- *. set (b := (d_begin t + length c - 1) mod length c). assert (Hb : b < length c) by (apply wrap_lt; lia).
  assert (B1 : forall k, (b + (1 + k)) mod length c = (d_begin t + k) mod length c).
  { intro k. rewrite Nat.add_assoc, <- Nat.add_mod_idemp_l by lia. unfold b. rewrite pred_wrap by lia. reflexivity. }
  apply ok_bind. eapply ok_imp; [apply (h_set c _ _ b v H Hb)|]. cbv beta. intros v' s' H'. apply ok_ret. exists (lset b (Some v) c). simpl. split; [exact H'|].
  constructor; rewrite ?lset_length; simpl length; try lia.
  - rewrite R4. symmetry. apply (B1 (length l)).
  - intros i w E. destruct i as [|i].
    + simpl in E. injection E as <-. rewrite Nat.add_0_r, Nat.mod_small by exact Hb. apply lset_eq. exact Hb.
    + pose proof (nth_error_lt _ _ _ E) as Li. simpl in Li, E. change (Datatypes.S i) with (1 + i). rewrite (B1 i). rewrite lset_ne; [apply R5; exact E|]. rewrite <- (B1 i). intro C. assert (C' : (b + (1 + i)) mod length c = (b + 0) mod length c) by (rewrite C, Nat.add_0_r; symmetry; apply Nat.mod_small; exact Hb). apply wrap_inj in C'; lia.
Qed.
Lemma pop_front_ok x l t s : dinv (x :: l) t s -> ok (pop_front A PT t) s (fun t' s' => dinv l t' s').
Proof.
  intros (c & H & [R1 R2 R3 R4 R5]). unfold pop_front. simpl in R2, R3. destruct (Nat.eqb_spec (d_size t) 0); [lia|]. apply ok_ret. exists c. simpl. split; [exact H|]. rewrite (holds_size _ _ _ H).
  constructor; try lia.
  - apply wrap_lt. lia.
  - rewrite R4, Nat.add_mod_idemp_l by lia. simpl. f_equal. lia.
  - intros i v E. rewrite Nat.add_mod_idemp_l by lia. replace (d_begin t + 1 + i) with (d_begin t + Datatypes.S i) by lia. apply (R5 (Datatypes.S i)). exact E.
Qed.
Lemma pop_back_ok l t s : l <> [] -> dinv l t s -> ok (pop_back A PT t) s (fun t' s' => dinv (removelast l) t' s').
Proof.
  intros NE (c & H & [R1 R2 R3 R4 R5]). assert (L1 : 1 <= length l) by (destruct l; [congruence|simpl; lia]). assert (LR : length (removelast l) = length l - 1) by (rewrite removelast_firstn_len, firstn_length; lia).
  unfold pop_back. destruct (Nat.eqb_spec (d_size t) 0); [lia|]. apply ok_ret. exists c. simpl. split; [exact H|]. rewrite (holds_size _ _ _ H).
  constructor; rewrite ?LR; try lia.
  - rewrite R4. replace ((d_begin t + length l) mod length c + length c - 1) with ((d_begin t + length l) mod length c + (length c - 1)) by lia. rewrite Nat.add_mod_idemp_l by lia.
    replace (d_begin t + length l + (length c - 1)) with (d_begin t + (length l - 1) + 1 * length c) by lia. apply Nat.mod_add. lia.
  - intros i v E. apply R5. rewrite removelast_firstn_len, nth_firstn in E. destruct (Nat.ltb_spec i (pred (length l))); [exact E|discriminate].
Qed.
Lemma same_v l (t : dst) v s' c : holds c v s' -> ring l c (d_begin t) (d_end t) (d_size t) -> dinv l (mk_d v (d_begin t) (d_end t) (d_size t)) s'.
Proof. intros H R. exists c. simpl. auto. Qed.
Lemma at_ok l t s m i v : dinv l t s -> nth_error l i = Some (Some v) -> ok (at_el A S P PT kick hit m i t) s (fun r s' => dinv l (fst r) s' /\ snd r = v).
Proof.
  intros (c & H & R) E. pose proof (nth_error_lt _ _ _ E) as L. unfold at_el. rewrite (r_n _ _ _ _ _ R), (holds_size _ _ _ H). destruct (Nat.leb_spec (length l) i); [lia|]. apply ok_bind.
  eapply ok_imp; [apply (h_get c _ _ m _ v H (r_at _ _ _ _ _ R i v E))|]. cbv beta. intros r s' (H' & ->). apply ok_ret. simpl. rewrite <- (r_n _ _ _ _ _ R). split; [|reflexivity]. apply (same_v l t _ s' c H' R).
Qed.
Lemma front_ok l t s v : dinv l t s -> nth_error l 0 = Some (Some v) -> ok (front A S P PT kick hit t) s (fun r s' => dinv l (fst r) s' /\ snd r = v).
Proof.
  intros (c & H & R) E. pose proof (nth_error_lt _ _ _ E) as L. unfold front. pose proof (r_n _ _ _ _ _ R). destruct (Nat.eqb_spec (d_size t) 0); [lia|]. apply ok_bind.
  pose proof (r_at _ _ _ _ _ R 0 v E) as G. rewrite Nat.add_0_r, Nat.mod_small in G by apply (r_b _ _ _ _ _ R).
  eapply ok_imp; [apply (h_get c _ _ true _ v H G)|]. cbv beta. intros r s' (H' & ->). apply ok_ret. simpl. split; [|reflexivity]. apply (same_v l t _ s' c H' R).
Qed.
Lemma back_ok l t s v : dinv l t s -> nth_error l (length l - 1) = Some (Some v) -> ok (back A S P PT kick hit t) s (fun r s' => dinv l (fst r) s' /\ snd r = v).
Proof.
  intros (c & H & R) E. pose proof (nth_error_lt _ _ _ E) as L. unfold back. pose proof (r_n _ _ _ _ _ R) as Rn. destruct (Nat.eqb_spec (d_size t) 0); [lia|]. apply ok_bind.
  pose proof (r_at _ _ _ _ _ R _ v E) as G. rewrite (holds_size _ _ _ H), (r_e _ _ _ _ _ R). pose proof (r_l _ _ _ _ _ R).
  replace ((d_begin t + length l) mod length c + length c - 1) with ((d_begin t + length l) mod length c + (length c - 1)) by lia. rewrite Nat.add_mod_idemp_l by lia.
  replace (d_begin t + length l + (length c - 1)) with (d_begin t + (length l - 1) + 1 * length c) by lia. rewrite Nat.mod_add by lia.
  eapply ok_imp; [apply (h_get c _ _ true _ v H G)|]. cbv beta. intros r s' (H' & ->). apply ok_ret. simpl. split; [|reflexivity]. rewrite <- (r_e _ _ _ _ _ R). apply (same_v l t _ s' c H' R).
Qed.
Lemma set_el_ok l t s i v : dinv l t s -> i < length l -> ok (set_el A S P PT kick hit i v t) s (fun t' s' => dinv (lset i (Some v) l) t' s').
Proof.
  intros (c & H & R) L. destruct R as [R1 R2 R3 R4 R5]. unfold set_el. rewrite R2, (holds_size _ _ _ H). destruct (Nat.leb_spec (length l) i); [lia|]. apply ok_bind.
  eapply ok_imp; [apply (h_set c _ _ _ v H); apply wrap_lt; lia|]. cbv beta. intros t' s' H'. apply ok_ret. exists (lset ((d_begin t + i) mod length c) (Some v) c). simpl. split; [exact H'|].
  constructor; rewrite ?lset_length; try lia. intros j w E. pose proof (nth_error_lt _ _ _ E) as Lj. rewrite lset_length in Lj. apply lset_some in E. destruct E as [(-> & E)|(D' & E)].
  - injection E as ->. apply lset_eq. apply wrap_lt. lia.
  - rewrite lset_ne; [apply R5; exact E|]. intro C. apply wrap_inj in C; lia.
Qed.
Lemma d_clear_ok l t s : dinv l t s -> ok (d_clear A S P N D PT t) s (fun t' s' => dinv [] t' s').
Proof.
  intros (c & H & R). unfold d_clear. apply ok_bind. eapply ok_imp; [apply (h_clear c _ _ H)|]. cbv beta. intros v1 s1 H1. apply ok_bind. eapply ok_imp; [apply (h_resize [] _ _ D H1)|]. cbv beta. intros v2 s2 H2. apply ok_ret.
  exists (lresize D None []). split; [exact H2|]. constructor; rewrite ?lresize_length; simpl; try lia. { symmetry. apply Nat.mod_small. lia. } intros i v0 C. destruct i; discriminate.
Qed.
Lemma pops_ok k : forall l t s, k <= length l -> dinv l t s -> ok (pops A PT k t) s (fun t' s' => dinv (firstn (length l - k) l) t' s').
Proof.
  induction k as [|k IH]; intros l t s L I.
  - simpl. apply ok_ret. rewrite Nat.sub_0_r, firstn_all. exact I.
  - simpl. assert (NE : l <> []) by (destruct l; [simpl in L; lia|congruence]). apply ok_bind. eapply ok_imp; [apply (pop_back_ok l t s NE I)|]. cbv beta. intros t1 s1 I1.
    assert (LR : length (removelast l) = length l - 1) by (rewrite removelast_firstn_len, firstn_length; lia).
    eapply ok_imp; [apply (IH (removelast l) t1 s1); [lia|exact I1]|]. cbv beta. intros t2 s2 I2. rewrite LR in I2. rewrite removelast_firstn_len, firstn_firstn in I2. replace (Nat.min (length l - 1 - k) (pred (length l))) with (length l - Datatypes.S k) in I2 by lia. exact I2.
Qed.
Lemma d_resize_ok l t s n : dinv l t s -> ok (d_resize A S P PT kick hit rf n t) s (fun t' s' => dinv (dresized n l) t' s').
Proof.
  intros I. unfold d_resize. destruct I as (c & H & R) eqn:EI. clear EI. rewrite (r_n _ _ _ _ _ R). destruct (Nat.ltb_spec n (length l)) as [L|L].
  - eapply ok_imp; [apply (pops_ok (length l - n) l t s); [lia|exists c; auto]|]. cbv beta. intros t' s' I'. unfold dresized. replace (n - length l) with 0 by lia. simpl. rewrite app_nil_r. replace (length l - (length l - n)) with n in I' by lia. exact I'.
  - apply ok_bind. apply ok_imp with (fun t' s' => dinv l t' s' /\ n < v_size (d_v t') /\ (d_end t' + n - d_size t') mod v_size (d_v t') = (d_begin t' + n) mod v_size (d_v t')).
    + rewrite (holds_size _ _ _ H). destruct (Nat.ltb_spec (length c) (n + 1)) as [L'|L'].
      * eapply ok_imp; [apply (enlarge_ok l t s (2 * n)); [exists c; auto|rewrite (holds_size _ _ _ H); lia]|]. cbv beta. intros t' s' (I' & E & K). rewrite E. destruct R. split; [exact I'|]. split; [lia|]. apply K. exact L.
      * apply ok_ret. rewrite (holds_size _ _ _ H). split; [exists c; auto|]. split; [lia|]. destruct R as [R1 R2 R3 R4 R5]. rewrite R4, R2. pose proof (wrap_lt (length c) (d_begin t + length l) ltac:(lia)).
        replace ((d_begin t + length l) mod length c + n - length l) with ((d_begin t + length l) mod length c + (n - length l)) by lia. rewrite Nat.add_mod_idemp_l by lia. f_equal. lia.
    + cbv beta. intros t' s' ((c' & H' & [R1 R2 R3 R4 R5]) & E1 & E2). apply ok_ret. rewrite E2. rewrite (holds_size _ _ _ H') in E1 |- *. exists c'. simpl. split; [exact H'|].
      unfold dresized. rewrite firstn_all2 by exact L. constructor; rewrite ?app_length, ?repeat_length; try lia.
      * f_equal. lia.
      * intros i v E. rewrite nth_app in E. destruct (Nat.ltb_spec i (length l)); [apply R5; exact E|]. destruct (nth_repeat_none _ _ _ E).
Qed.
Lemma all_some_map (l : list (option A)) m : all_some l = Some m -> l = map Some m.
Proof. revert m. induction l as [|[x|] l IH]; intros m H; simpl in H; [injection H as <-; reflexivity| |discriminate]. destruct (all_some l) as [m'|]; [|discriminate]. injection H as <-. simpl. f_equal. apply IH. reflexivity. Qed.
Lemma scan_ok m : forall fuel l p t s, l = p ++ map Some m -> length m <= fuel -> dinv l t s ->
  ok (scan A S P PT kick hit fuel ((d_begin t + length p) mod v_size (d_v t)) t) s (fun r s' => dinv l (fst r) s' /\ snd r = m).
Proof.
  induction m as [|x m IH]; intros fuel l p t s E F (c & H & R); destruct R as [R1 R2 R3 R4 R5] eqn:ER; clear ER.
  - rewrite app_nil_r in E. subst p. rewrite (holds_size _ _ _ H). assert (Q : Nat.eqb ((d_begin t + length l) mod length c) (d_end t) = true) by (apply Nat.eqb_eq; auto).
    destruct fuel; simpl; rewrite Q; apply ok_ret; simpl; (split; [exists c; auto|reflexivity]).
  - destruct fuel as [|fuel]; [simpl in F; lia|]. simpl in F. assert (LL : length l = length p + Datatypes.S (length m)) by (rewrite E, app_length; simpl; rewrite map_length; reflexivity).
    simpl. rewrite (holds_size _ _ _ H). destruct (Nat.eqb_spec ((d_begin t + length p) mod length c) (d_end t)) as [C|C]; [rewrite R4 in C; apply wrap_inj in C; lia|].
    assert (Ex : nth_error l (length p) = Some (Some x)) by (rewrite E, nth_error_app2, Nat.sub_diag by lia; reflexivity).
    apply ok_bind. eapply ok_imp; [apply (h_get c _ _ true _ x H (R5 _ _ Ex))|]. cbv beta. intros (v' & w) s' (H' & W). simpl in H', W. subst w.
    assert (Off : ((d_begin t + length p) mod length c + 1) mod length c = (d_begin t + length (p ++ [Some x])) mod v_size v').
    { rewrite (holds_size _ _ _ H'), app_length, Nat.add_mod_idemp_l by lia. simpl. f_equal. lia. }
    rewrite Off. apply ok_bind.
    eapply ok_imp; [apply (IH fuel l (p ++ [Some x]) (mk_d v' (d_begin t) (d_end t) (d_size t)) s')|].
    + rewrite <- app_assoc. exact E.
    + lia.
    + exists c. simpl. auto.
    + cbv beta. intros (t2 & m2) s2 (I2 & E2). simpl in I2, E2. subst m2. apply ok_ret. simpl. auto.
Qed.
Lemma rev_scan_ok m : forall fuel l p t s, l = map Some (rev m) ++ p -> length m <= fuel -> dinv l t s ->
  ok (rev_scan A S P PT kick hit fuel ((d_begin t + length m) mod v_size (d_v t)) t) s (fun r s' => dinv l (fst r) s' /\ snd r = m).
Proof.
  induction m as [|x m IH]; intros fuel l p t s E F (c & H & R); destruct R as [R1 R2 R3 R4 R5] eqn:ER; clear ER.
  - rewrite (holds_size _ _ _ H). simpl length. rewrite Nat.add_0_r, Nat.mod_small by exact R1. destruct fuel; simpl; rewrite Nat.eqb_refl; apply ok_ret; simpl; (split; [exists c; auto|reflexivity]).
  - destruct fuel as [|fuel]; [simpl in F; lia|]. simpl in F. assert (LL : length l = Datatypes.S (length m) + length p) by (rewrite E, app_length, map_length, rev_length; reflexivity).
    cbn [rev_scan]. rewrite (holds_size _ _ _ H). destruct (Nat.eqb_spec ((d_begin t + length (x :: m)) mod length c) (d_begin t)) as [C|C].
    { assert (C' : (d_begin t + length (x :: m)) mod length c = (d_begin t + 0) mod length c) by (rewrite C, Nat.add_0_r; symmetry; apply Nat.mod_small; exact R1). apply wrap_inj in C'; simpl in *; lia. }
    assert (Off : ((d_begin t + length (x :: m)) mod length c + length c - 1) mod length c = (d_begin t + length m) mod length c).
    { replace ((d_begin t + length (x :: m)) mod length c + length c - 1) with ((d_begin t + length (x :: m)) mod length c + (length c - 1)) by lia. rewrite Nat.add_mod_idemp_l by lia.
      simpl length. replace (d_begin t + Datatypes.S (length m) + (length c - 1)) with (d_begin t + length m + 1 * length c) by lia. apply Nat.mod_add. lia. }
    rewrite Off. assert (Ex : nth_error l (length m) = Some (Some x)).
    { rewrite E. simpl. rewrite map_app, <- app_assoc. rewrite nth_error_app2 by (rewrite map_length, rev_length; lia). rewrite map_length, rev_length, Nat.sub_diag. reflexivity. }
    apply ok_bind. eapply ok_imp; [apply (h_get c _ _ true _ x H (R5 _ _ Ex))|]. cbv beta. intros (v' & w) s' (H' & W). simpl in H', W. subst w. cbn [fst snd].
    apply ok_bind. replace (length c) with (v_size v') by (apply (holds_size _ _ _ H')).
    eapply ok_imp; [apply (IH fuel l (Some x :: p) (mk_d v' (d_begin t) (d_end t) (d_size t)) s')|].
    + rewrite E. simpl. rewrite map_app, <- app_assoc. reflexivity.
    + lia.
    + exists c. simpl. auto.
    + cbv beta. intros (t2 & m2) s2 (I2 & E2). simpl in I2, E2. subst m2. apply ok_ret. simpl. auto.
Qed.

Lemma dop_ok l t s o l' r : dinv l t s -> deq_op o l = Some (l', r) ->
  ok (deque_op A S P N D PT kick hit rf o t) s (fun q s' => dinv l' (fst q) s' /\ snd q = r).
Proof.
  intros I E. destruct o as [v|v| | | | |m i|i v|n| | | |]; cbn [deq_op] in E; cbn [deque_op].
  - injection E as <- <-. apply ok_bind. eapply ok_imp; [apply (push_front_ok l v t s I)|]. cbv beta. intros t' s' I'. apply ok_ret. auto.
  - injection E as <- <-. apply ok_bind. eapply ok_imp; [apply (push_back_ok l v t s I)|]. cbv beta. intros t' s' I'. apply ok_ret. auto.
  - destruct l as [|x l]; [discriminate|]. injection E as <- <-. apply ok_bind. eapply ok_imp; [apply (pop_front_ok x l t s I)|]. cbv beta. intros t' s' I'. apply ok_ret. auto.
  - assert (NE : l <> []) by (destruct l; [discriminate|congruence]). assert (E' : (removelast l, DUnit) = (l', r)) by (destruct l; [discriminate|injection E as <- <-; reflexivity]). injection E' as <- <-.
    apply ok_bind. eapply ok_imp; [apply (pop_back_ok l t s NE I)|]. cbv beta. intros t' s' I'. apply ok_ret. auto.
  - unfold read in E. destruct (nth_error l 0) as [[v|]|] eqn:En; try discriminate. injection E as <- <-. apply ok_bind. eapply ok_imp; [apply (front_ok l t s v I En)|]. cbv beta. intros q s' (I' & ->). apply ok_ret. auto.
  - unfold read in E. destruct (nth_error l (length l - 1)) as [[v|]|] eqn:En; try discriminate. injection E as <- <-. apply ok_bind. eapply ok_imp; [apply (back_ok l t s v I En)|]. cbv beta. intros q s' (I' & ->). apply ok_ret. auto.
  - unfold read in E. destruct (nth_error l i) as [[v|]|] eqn:En; try discriminate. injection E as <- <-. apply ok_bind. eapply ok_imp; [apply (at_ok l t s m i v I En)|]. cbv beta. intros q s' (I' & ->). apply ok_ret. auto.
  - destruct (Nat.ltb_spec i (length l)) as [L|L]; [|discriminate]. change (firstn i l ++ Some v :: skipn (i + 1) l) with (replaced i (Some v) l) in E. rewrite replaced_lset in E by exact L. injection E as <- <-.
    apply ok_bind. eapply ok_imp; [apply (set_el_ok l t s i v I L)|]. cbv beta. intros t' s' I'. apply ok_ret. auto.
  - injection E as <- <-. apply ok_bind. eapply ok_imp; [apply (d_resize_ok l t s n I)|]. cbv beta. intros t' s' I'. apply ok_ret. auto.
  - injection E as <- <-. apply ok_bind. eapply ok_imp; [apply (d_clear_ok l t s I)|]. cbv beta. intros t' s' I'. apply ok_ret. auto.
  - injection E as <- <-. apply ok_ret. simpl. split; [exact I|]. destruct I as (c & _ & R). f_equal. apply R.
  - destruct (all_some l) as [m|] eqn:Em; [|discriminate]. injection E as <- <-. apply all_some_map in Em. apply ok_bind. pose proof I as (c & H & R).
    replace (d_begin t) with ((d_begin t + length (@nil (option A))) mod v_size (d_v t)) by (simpl; rewrite Nat.add_0_r; apply Nat.mod_small; rewrite (holds_size _ _ _ H); apply R).
    eapply ok_imp; [apply (scan_ok m (v_size (d_v t)) l [] t s)|].
    + exact Em.
    + rewrite (holds_size _ _ _ H). pose proof (r_l _ _ _ _ _ R) as L. rewrite Em, map_length in L. lia.
    + exact I.
    + cbv beta. intros q s' (I' & ->). apply ok_ret. auto.
  - destruct (all_some l) as [m|] eqn:Em; [|discriminate]. injection E as <- <-. apply all_some_map in Em. apply ok_bind. pose proof I as (c & H & R). pose proof (r_l _ _ _ _ _ R) as L.
    assert (LM : length (rev m) = length l) by (rewrite Em, map_length, rev_length; reflexivity).
    rewrite (r_e _ _ _ _ _ R), <- LM, <- (holds_size _ _ _ H).
    eapply ok_imp; [apply (rev_scan_ok (rev m) (v_size (d_v t)) l [] t s)|].
    + rewrite rev_involutive, app_nil_r. exact Em.
    + rewrite (holds_size _ _ _ H). lia.
    + exact I.
    + cbv beta. intros q s' (I' & ->). apply ok_ret. auto.
Qed.
Lemma dops_ok os : forall l t s l' rs, dinv l t s -> deq_ops os l = Some (l', rs) ->
  ok (deque_ops A S P N D PT kick hit rf os t) s (fun q s' => dinv l' (fst q) s' /\ snd q = rs).
Proof.
  induction os as [|o os IH]; intros l t s l' rs I E; simpl in E |- *.
  - injection E as <- <-. apply ok_ret. auto.
  - destruct (deq_op o l) as [(l1 & r)|] eqn:E1; [|discriminate]. destruct (deq_ops os l1) as [(l2 & rs')|] eqn:E2; [|discriminate]. injection E as <- <-.
    apply ok_bind. eapply ok_imp; [apply (dop_ok l t s o l1 r I E1)|]. intros (t1 & r1) s1 (I1 & ->). simpl in *.
    apply ok_bind. eapply ok_imp; [apply (IH _ _ _ _ _ I1 E2)|]. intros (t2 & r2) s2 (I2 & ->). apply ok_ret. simpl. auto.
Qed.
Lemma d_destroy_ok l t s : dinv l t s -> ok (d_destroy A P N PT t) s (fun _ s' => sout s' = [] /\ sown s' = []).
Proof. intros (c & H & _). apply (h_destroy c _ _ H). Qed.
End Deque.

(** * comparisons *)
Section Cmp.
Context {A : Type}.
Lemma shows_next (w : dview A) l i : shows w l -> next w ((w_begin w + i) mod length (w_vec w)) = (w_begin w + (i + 1)) mod length (w_vec w).
Proof. intros (H1 & H2 & _). unfold next. rewrite Nat.add_mod_idemp_l by lia. f_equal. lia. Qed.
Lemma shows_end (w : dview A) l i : shows w l -> i <= length l -> Nat.eqb ((w_begin w + i) mod length (w_vec w)) (w_end w) = Nat.eqb i (length l).
Proof.
  intros (H1 & H2 & H3 & _) L. rewrite H3. destruct (Nat.eqb_spec i (length l)) as [->|N]; [apply Nat.eqb_refl|]. apply Nat.eqb_neq. intro C. apply N. apply wrap_inj in C; lia.
Qed.
Lemma skipn_nth (l : list A) i x : nth_error l i = Some x -> skipn i l = x :: skipn (i + 1) l.
Proof. revert l. induction i as [|i IH]; intros [|y l] H; simpl in *; try discriminate; [congruence|]. apply IH. exact H. Qed.
Fixpoint prefix_eq (eqb : A -> A -> bool) (l m : list A) : bool :=
  match l, m with [], _ => true | _, [] => false | x :: l', y :: m' => if eqb x y then prefix_eq eqb l' m' else false end.
Lemma equal_from_ok eqb (a b : dview A) l m : shows a l -> shows b m -> length l <= length m -> forall fuel i, length l - i <= fuel -> i <= length l ->
  equal_from eqb fuel a b ((w_begin a + i) mod length (w_vec a)) ((w_begin b + i) mod length (w_vec b)) = Some (prefix_eq eqb (skipn i l) (skipn i m)).
Proof.
  intros Ha Hb L. induction fuel as [|fuel IH]; intros i F Hi; simpl; rewrite (shows_end a l i Ha Hi); destruct (Nat.eqb_spec i (length l)) as [E|E]; try lia;
    try (rewrite (skipn_all2 l) by lia; reflexivity).
  pose proof Ha as (_ & _ & _ & Ra). pose proof Hb as (_ & _ & _ & Rb). rewrite (Ra i) by lia. rewrite (Rb i) by lia.
  destruct (lt_nth_error l i ltac:(lia)) as (x & Ex). destruct (lt_nth_error m i ltac:(lia)) as (y & Ey). rewrite Ex, Ey, (skipn_nth l i x Ex), (skipn_nth m i y Ey). simpl.
  destruct (eqb x y); [|reflexivity]. rewrite (shows_next a l i Ha), (shows_next b m i Hb). apply IH; lia.
Qed.
Lemma deque_eq_ok eqb (a b : dview A) l m : shows a l -> shows b m -> length l <= length m -> deque_eq eqb a b = Some (prefix_eq eqb l m).
Proof.
  intros Ha Hb L. unfold deque_eq. pose proof (equal_from_ok eqb a b l m Ha Hb L (length (w_vec a)) 0) as E. destruct Ha as (H1 & H2 & _). destruct Hb as (H3 & H4 & _).
  rewrite !Nat.add_0_r, !Nat.mod_small in E by lia. apply E; lia.
Qed.
Lemma less_from_ok ltb (a b : dview A) l m : shows a l -> shows b m -> forall fuel i, length l - i <= fuel -> i <= length l -> i <= length m ->
  less_from ltb fuel a b ((w_begin a + i) mod length (w_vec a)) ((w_begin b + i) mod length (w_vec b)) = Some (lex ltb (skipn i l) (skipn i m)).
Proof.
  intros Ha Hb. induction fuel as [|fuel IH]; intros i F Hi Hj; simpl; rewrite (shows_end a l i Ha Hi), (shows_end b m i Hb Hj).
  - destruct (Nat.eqb_spec i (length l)) as [E|E]; [|lia]. rewrite (skipn_all2 l) by lia. destruct (Nat.eqb_spec i (length m)) as [E'|E'].
    + rewrite skipn_all2 by lia. reflexivity.
    + destruct (lt_nth_error m i ltac:(lia)) as (y & Ey). rewrite (skipn_nth m i y Ey). reflexivity.
  - destruct (Nat.eqb_spec i (length l)) as [E|E].
    + rewrite (skipn_all2 l) by lia. destruct (Nat.eqb_spec i (length m)) as [E'|E'].
      * rewrite skipn_all2 by lia. reflexivity.
      * destruct (lt_nth_error m i ltac:(lia)) as (y & Ey). rewrite (skipn_nth m i y Ey). reflexivity.
    + destruct (lt_nth_error l i ltac:(lia)) as (x & Ex). rewrite (skipn_nth l i x Ex). destruct (Nat.eqb_spec i (length m)) as [E'|E'].
      * rewrite (skipn_all2 m) by lia. reflexivity.
      * destruct (lt_nth_error m i ltac:(lia)) as (y & Ey). rewrite (skipn_nth m i y Ey). pose proof Ha as (_ & _ & _ & Ra). pose proof Hb as (_ & _ & _ & Rb). rewrite (Ra i), (Rb i) by lia. rewrite Ex, Ey. simpl.
        destruct (ltb x y); [reflexivity|]. destruct (ltb y x); [reflexivity|]. rewrite (shows_next a l i Ha), (shows_next b m i Hb). apply IH; lia.
Qed.
Lemma deque_lt_ok ltb (a b : dview A) l m : shows a l -> shows b m -> deque_lt ltb a b = Some (lex ltb l m).
Proof.
  intros Ha Hb. unfold deque_lt. pose proof (less_from_ok ltb a b l m Ha Hb (length (w_vec a)) 0) as E. destruct Ha as (H1 & H2 & _). destruct Hb as (H3 & H4 & _).
  rewrite !Nat.add_0_r, !Nat.mod_small in E by lia. apply E; lia.
Qed.
Lemma prefix_eq_same eqb (l m : list A) : (forall x y, eqb x y = true <-> x = y) -> length l = length m -> prefix_eq eqb l m = true <-> l = m.
Proof.
  intros H. revert m. induction l as [|x l IH]; intros [|y m] L; simpl in *; try lia; [tauto|]. destruct (eqb x y) eqn:E.
  - apply H in E. subst y. rewrite IH by lia. split; congruence.
  - split; [discriminate|]. intro C. injection C as -> _. rewrite (proj2 (H y y) eq_refl) in E. discriminate.
Qed.
End Cmp.

(** every deque that holds l is seen by its iterators as l *)
Lemma ring_shows {A} (dflt : A) (m : list A) c b e n : ring A (map Some m) c b e n ->
  shows (mk_dview (map (fun x => match x with Some v => v | None => dflt end) c) b e) m.
Proof.
  intros [R1 R2 R3 R4 R5]. rewrite map_length in *. unfold shows. simpl. rewrite map_length. split; [exact R3|]. split; [exact R1|]. split; [exact R4|].
  intros i Hi. destruct (lt_nth_error m i Hi) as (v & Ev). rewrite nth_error_map, (R5 i v), Ev; [reflexivity|]. rewrite nth_error_map, Ev. reflexivity.
Qed.

(** * iterators *)
Local Open Scope N_scope.
Lemma M64_val : M64 = 18446744073709551616. Proof. reflexivity. Qed.
Lemma wrap_small n : n < M64 -> wrap n = n. Proof. apply N.mod_small. Qed.
Lemma wrap_back n k : k <= n -> 0 < k -> n < M64 -> wrap (n + (M64 - k)) = n - k.
Proof. intros H H0 L. unfold wrap. replace (n + (M64 - k)) with (n - k + 1 * M64) by lia. rewrite N.mod_add by (rewrite M64_val; lia). apply N.mod_small. lia. Qed.
Lemma wrap_back0 n : n < M64 -> wrap (n + (M64 - 0)) = n.
Proof. intros L. unfold wrap. replace (n + (M64 - 0)) with (n + 1 * M64) by lia. rewrite N.mod_add by (rewrite M64_val; lia). apply N.mod_small. lia. Qed.
Lemma off_lt V b i : 0 < V -> off V b i < V. Proof. intro. apply N.mod_lt. lia. Qed.
Lemma off_cases V b i : b < V -> i < V -> off V b i = if b + i <? V then b + i else b + i - V.
Proof.
  intros H1 H2. unfold off. destruct (N.ltb_spec (b + i) V) as [L|L]; [apply N.mod_small; exact L|]. replace (b + i) with (b + i - V + 1 * V) at 1 by lia. rewrite N.mod_add by lia. apply N.mod_small. lia.
Qed.
Section It.
Variables V b : N.
Hypothesis HV : 0 < V.
Hypothesis HV62 : V <= 2 ^ 62.
Hypothesis Hb : b < V.
Lemma V_lt : 4 * V <= M64. Proof. rewrite M64_val. change (2 ^ 62) with 4611686018427387904 in HV62. lia. Qed.
Lemma it_plus_ok i k : k < V -> it_plus V (off V b i) k = off V b (i + k).
Proof.
  intro H. pose proof (off_lt V b i HV). pose proof V_lt. unfold it_plus. rewrite wrap_small by lia. unfold off. rewrite N.add_mod_idemp_l by lia. f_equal. lia.
Qed.
Lemma it_inc_ok i : it_inc V (off V b i) = off V b (i + 1).
Proof. pose proof (off_lt V b i HV). pose proof V_lt. unfold it_inc. rewrite wrap_small by lia. unfold off. rewrite N.add_mod_idemp_l by lia. f_equal. lia. Qed.
Lemma it_minus_ok i k : k <= i -> k <= V -> it_minus V (off V b i) k = off V b (i - k).
Proof.
  intros H H'. pose proof (off_lt V b i HV) as L. pose proof V_lt. unfold it_minus. rewrite (wrap_small (off V b i + V)) by lia.
  assert (E : wrap (off V b i + V + (M64 - k)) = off V b i + V - k) by (destruct (N.eq_dec k 0) as [->|]; [rewrite wrap_back0 by lia; lia|apply wrap_back; lia]).
  rewrite E. unfold off in *. rewrite <- N.add_sub_assoc by exact H'. rewrite N.add_mod_idemp_l by lia. replace (b + i + (V - k)) with (b + (i - k) + 1 * V) by lia. apply N.mod_add. lia.
Qed.
Lemma it_dec_ok i : 1 <= i -> it_dec V (off V b i) = off V b (i - 1).
Proof. intro H. apply (it_minus_ok i 1); lia. Qed.
Lemma abs_ok i : i < V -> abs_off V b (off V b i) = b + i.
Proof.
  intro H. pose proof V_lt. rewrite off_cases by assumption. unfold abs_off. destruct (N.ltb_spec (b + i) V).
  - destruct (N.leb_spec b (b + i)); [reflexivity|lia].
  - destruct (N.leb_spec b (b + i - V)); [lia|]. rewrite wrap_small by lia. lia.
Qed.
Lemma it_diff_ok i j : i < V -> j < V -> it_diff V b (off V b i) (off V b j) = (Z.of_N i - Z.of_N j)%Z.
Proof.
  intros Hi Hj. pose proof V_lt as L. unfold it_diff. rewrite !abs_ok by assumption. unfold signed, wrap. rewrite M64_val in *. change (2 ^ 63) with 9223372036854775808. destruct (N.le_gt_cases j i) as [G|G].
  - replace (b + i + (18446744073709551616 - (b + j))) with (i - j + 1 * 18446744073709551616) by lia. rewrite N.mod_add by lia. rewrite N.mod_small by lia. destruct (N.ltb_spec (i - j) 9223372036854775808); lia.
  - rewrite N.mod_small by lia. destruct (N.ltb_spec (b + i + (18446744073709551616 - (b + j))) 9223372036854775808); lia.
Qed.
Lemma off_inj i j : i < V -> j < V -> off V b i = off V b j -> i = j.
Proof. intros Hi Hj. rewrite !off_cases by assumption. destruct (N.ltb_spec (b + i) V), (N.ltb_spec (b + j) V); lia. Qed.
(** a negative number of steps forward *)
Lemma it_plus_neg i k : k <= i -> 0 < k -> k <= V -> (k <= off V b i \/ M64 mod V = 0) -> it_plus V (off V b i) (M64 - k) = off V b (i - k).
Proof.
  intros H H0 H' C. pose proof (off_lt V b i HV) as L. pose proof V_lt as LV. unfold it_plus. assert (G : forall n, n mod V = off V b i -> k <= n -> (n - k) mod V = off V b (i - k)).
  { intros n E Ln. unfold off in *. rewrite <- (N.mod_add (n - k) 1 V) by lia. replace (n - k + 1 * V) with (n + (V - k)) by lia. rewrite <- N.add_mod_idemp_l by lia. rewrite E.
    rewrite N.add_mod_idemp_l by lia. replace (b + i + (V - k)) with (b + (i - k) + 1 * V) by lia. apply N.mod_add. lia. }
  destruct (N.le_gt_cases k (off V b i)) as [G1|G1].
  - rewrite wrap_back by lia. apply G; [|exact G1]. unfold off. apply N.mod_mod. lia.
  - destruct C as [C|C]; [lia|]. rewrite wrap_small by lia. replace (off V b i + (M64 - k)) with (off V b i + M64 - k) by lia. apply G; [|lia].
    rewrite N.add_mod, C, N.add_0_r by lia. rewrite N.mod_mod by lia. unfold off. apply N.mod_mod. lia.
Qed.
End It.
