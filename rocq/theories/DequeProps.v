(** C25, C26, C60: stxxl::deque, its comparisons and its iterators. *)
From Coq Require Import List Bool Arith NArith ZArith Lia.
From Verif Require Import SumLib AsyncIoModel AsyncIoProofs AsyncIoRules VectorModel VectorSpec VectorProofs VectorProps DequeModel DequeSpec DequeProofs.
Import ListNotations.

(** A new deque, or a deque of n elements, then any history of operations. *)
Definition d_start A S P N D PT (pinit : PT) (n : option nat) (base : nat) : prog A (dst PT) :=
  match n with None => d_new A S P N D PT pinit base | Some n => d_new_n A S P N D PT pinit n base end.
Definition d_run A S P N D PT (pinit : PT) kick hit rf n (os : list (dop A)) base :=
  bind (d_start A S P N D PT pinit n base) (deque_ops A S P N D PT kick hit rf os).
Definition start_list {A} (n : option nat) : list (option A) := match n with None => [] | Some n => repeat None n end.

Section Any.
Variable A : Type.
Variables S P N D : nat.
Hypothesis HS : 1 <= S.
Hypothesis HP : 1 <= P.
Hypothesis HN : 1 <= N.
Hypothesis HD : 1 <= D.
Variable PT : Type.
Variable pinit : PT.
Variable kick : PT -> nat * PT.
Variable hit : nat -> PT -> PT.
Variable rf : bool.
Variable PI : PT -> Prop.
Hypothesis HK : pager_ok N pinit kick hit PI.
Hypothesis HT : pager_two N kick hit PI.
Lemma run_ok n os l rs base al : deq_ops os (start_list n) = Some (l, rs) ->
  ok (d_run A S P N D PT pinit kick hit rf n os base) (sinit al) (fun q s => dinv A S P N PT PI l (fst q) s /\ snd q = rs).
Proof.
  destruct HK as (K1 & K2 & K3). intro E. unfold d_run. apply ok_bind. apply ok_imp with (fun t s => dinv A S P N PT PI (start_list n) t s).
  - destruct n as [n|]; [eapply ok_imp; [apply (d_new_n_ok A S P N D HS HP HN HD PT pinit kick hit PI K1 K2 K3 n base al)|]; auto|].
    eapply ok_imp; [apply (d_new_ok A S P N D HS HP HN HD PT pinit kick hit PI K1 K2 K3 base al)|]; auto.
  - intros t s I. apply (dops_ok A S P N D HS HP HN HD PT kick hit rf PI K2 K3 HT os _ _ _ _ _ I E).
Qed.
Theorem deque_history n os l rs : deq_ops os (start_list n) = Some (l, rs) ->
  forall base c d al o, match arun (d_run A S P N D PT pinit kick hit rf n os base) (ainit c d al) o with Done q _ => snd q = rs | Error => False | Stuck => True end.
Proof. intros E base. apply (ok_async A _ _ (fun q => snd q = rs)). intro al. eapply ok_imp; [apply (run_ok n os l rs base al E)|]. intros q s (_ & H). exact H. Qed.
Theorem deque_progress n os l rs : deq_ops os (start_list n) = Some (l, rs) ->
  forall base c d, exists al o q a, arun (d_run A S P N D PT pinit kick hit rf n os base) (ainit c d al) o = Done q (a, []) /\ snd q = rs.
Proof. intros E base. apply (ok_async_progress A _ _ (fun q => snd q = rs)). intro al. eapply ok_imp; [apply (run_ok n os l rs base al E)|]. intros q s (_ & H). exact H. Qed.
Theorem deque_destroy n os l rs : deq_ops os (start_list n) = Some (l, rs) ->
  forall base c d al o, match arun (bind (d_run A S P N D PT pinit kick hit rf n os base) (fun q => d_destroy A P N PT (fst q))) (ainit c d al) o with
    | Done _ (a, _) => aown a = [] /\ apend a = [] | Error => False | Stuck => True end.
Proof.
  intros E base c d al o.
  assert (G : forall al, ok (bind (d_run A S P N D PT pinit kick hit rf n os base) (fun q => d_destroy A P N PT (fst q))) (sinit al) (fun _ s => sout s = [] /\ sown s = [])).
  { intro al'. apply ok_bind. eapply ok_imp; [apply (run_ok n os l rs base al' E)|]. intros q s (I & _). destruct HK as (K1 & K2 & K3). exact (d_destroy_ok A S P N HS HP HN PT PI l (fst q) s I). }
  pose proof (ok_async_sim A _ _ _ G c d al o) as R. destruct (arun _ _ o) as [t (a & o')| |]; auto. destruct R as (s & (J1 & J2) & M). split; [rewrite (m_own _ _ _ M); exact J2|].
  destruct (apend a) as [|r r'] eqn:Ep; [reflexivity|]. exfalso. assert (C : In r (sout s)) by (apply (m_sub _ _ _ M); rewrite Ep; left; reflexivity). rewrite J1 in C. exact C.
Qed.
End Any.

(** the default pager, at least two pages in the cache; whichever side of an assignment the compiler evaluates first *)
Theorem C25_deque_lru : forall A S P N D rf, 1 <= S -> 1 <= P -> 2 <= N -> 1 <= D -> forall n (os : list (dop A)) l rs, deq_ops os (start_list n) = Some (l, rs) ->
  forall base c d al o, match arun (d_run A S P N D _ (lru_init N) lru_kick lru_hit rf n os base) (ainit c d al) o with Done q _ => snd q = rs | Error => False | Stuck => True end.
Proof.
  intros A S P N D rf HS HP HN HD n os l rs E. apply (deque_history A S P N D HS HP ltac:(lia) HD _ _ _ _ rf (lru_ok N)) with l; auto; [apply lru_pager_ok; lia|apply lru_pager_two; exact HN].
Qed.
Theorem C25_deque_any_pager : forall A S P N D rf, 1 <= S -> 1 <= P -> 1 <= N -> 1 <= D -> forall PT (pinit : PT) kick hit PI, pager_ok N pinit kick hit PI -> pager_two N kick hit PI ->
  forall n (os : list (dop A)) l rs, deq_ops os (start_list n) = Some (l, rs) ->
  forall base c d al o, match arun (d_run A S P N D _ pinit kick hit rf n os base) (ainit c d al) o with Done q _ => snd q = rs | Error => False | Stuck => True end.
Proof. intros A S P N D rf HS HP HN HD PT pinit kick hit PI K T n os l rs E. apply (deque_history A S P N D HS HP HN HD _ _ _ _ rf PI K T n os l); auto. Qed.
Theorem C25_deque_progress : forall A S P N D rf, 1 <= S -> 1 <= P -> 2 <= N -> 1 <= D -> forall n (os : list (dop A)) l rs, deq_ops os (start_list n) = Some (l, rs) ->
  forall base c d, exists al o q a, arun (d_run A S P N D _ (lru_init N) lru_kick lru_hit rf n os base) (ainit c d al) o = Done q (a, []) /\ snd q = rs.
Proof.
  intros A S P N D rf HS HP HN HD n os l rs E. apply (deque_progress A S P N D HS HP ltac:(lia) HD _ _ _ _ rf (lru_ok N)) with l; auto; [apply lru_pager_ok; lia|apply lru_pager_two; exact HN].
Qed.
Theorem C25_deque_returns_blocks : forall A S P N D rf, 1 <= S -> 1 <= P -> 2 <= N -> 1 <= D -> forall n (os : list (dop A)) l rs, deq_ops os (start_list n) = Some (l, rs) ->
  forall base c d al o, match arun (bind (d_run A S P N D _ (lru_init N) lru_kick lru_hit rf n os base) (fun q => d_destroy A P N _ (fst q))) (ainit c d al) o with
    | Done _ (a, _) => aown a = [] /\ apend a = [] | Error => False | Stuck => True end.
Proof.
  intros A S P N D rf HS HP HN HD n os l rs E. apply (deque_destroy A S P N D HS HP ltac:(lia) HD _ _ _ _ rf (lru_ok N)) with l rs; auto; [apply lru_pager_ok; lia|apply lru_pager_two; exact HN].
Qed.

(** operator < is the lexicographic order; operator == is equality if the sizes are the same, and otherwise (left not longer) "is a prefix" *)
Theorem C26_deque_less : forall A (ltb : A -> A -> bool) a b l m, shows a l -> shows b m -> deque_lt ltb a b = Some (lex ltb l m).
Proof. intros A ltb a b l m. apply deque_lt_ok. Qed.
Theorem C26_deque_equal_partial : forall A (eqb : A -> A -> bool), (forall x y, eqb x y = true <-> x = y) -> forall a b l m, shows a l -> shows b m -> length l = length m ->
  exists r, deque_eq eqb a b = Some r /\ (r = true <-> l = m).
Proof. intros A eqb H a b l m Ha Hb L. exists (prefix_eq eqb l m). split; [apply deque_eq_ok; [exact Ha|exact Hb|lia]|apply prefix_eq_same; assumption]. Qed.
(** missing: deques of different sizes; there it is false: *)
Theorem C26_deque_equal_refuted :
  (exists (a b : dview nat) l m, shows a l /\ shows b m /\ l <> m /\ deque_eq Nat.eqb a b = Some true) /\
  (exists (a b : dview nat) l m, shows a l /\ shows b m /\ length m < length l /\ deque_eq Nat.eqb a b = Some true).
Proof.
  split.
  - exists (mk_dview [1; 0; 0; 0] 0 1), (mk_dview [1; 2; 0; 0] 0 2), [1], [1; 2].
    split; [|split; [|split; [discriminate|reflexivity]]]; (split; [simpl; lia|]; split; [simpl; lia|]; split; [reflexivity|]).
    + intros [|i] H; [reflexivity|simpl in H; lia].
    + intros [|[|i]] H; [reflexivity|reflexivity|simpl in H; lia].
  - exists (mk_dview [1; 2; 0; 0] 0 2), (mk_dview [1; 2; 0; 0] 0 1), [1; 2], [1]. (* b: two elements pushed, the last popped *)
    split; [|split; [|split; [simpl; lia|reflexivity]]]; (split; [simpl; lia|]; split; [simpl; lia|]; split; [reflexivity|]).
    + intros [|[|i]] H; [reflexivity|reflexivity|simpl in H; lia].
    + intros [|i] H; [reflexivity|simpl in H; lia].
Qed.

(** Iterators: positions 0 .. n (n < V, the vector has fewer than 2^62 elements). *)
Theorem C60_deque_iterators : forall V b n, (0 < V)%N -> (V <= 2 ^ 62)%N -> (b < V)%N -> (n < V)%N ->
  forall i j, (i <= n)%N -> (j <= n)%N ->
  (off V b i = off V b j <-> i = j) /\
  it_diff V b (off V b i) (off V b j) = (Z.of_N i - Z.of_N j)%Z /\
  it_lt V b (off V b i) (off V b j) = (i <? j)%N /\
  (forall k, (i + k <= n)%N -> it_plus V (off V b i) k = off V b (i + k)) /\
  (forall k, (k <= i)%N -> it_minus V (off V b i) k = off V b (i - k)) /\
  it_inc V (off V b i) = off V b (i + 1) /\ ((1 <= i)%N -> it_dec V (off V b i) = off V b (i - 1)).
Proof.
  intros V b n HV H62 Hb Hn i j Hi Hj. assert (D : it_diff V b (off V b i) (off V b j) = (Z.of_N i - Z.of_N j)%Z) by (apply it_diff_ok; auto; lia).
  split; [split; [apply off_inj; auto; lia|congruence]|]. split; [exact D|]. split; [|split; [|split; [|split]]].
  - unfold it_lt. rewrite it_diff_ok by (auto; lia). destruct (Z.ltb_spec 0 (Z.of_N j - Z.of_N i)), (N.ltb_spec i j); lia.
  - intros k Hk. apply it_plus_ok; auto. lia.
  - intros k Hk. apply it_minus_ok; auto. lia.
  - apply it_inc_ok; auto.
  - intro H1. apply it_dec_ok; auto.
Qed.
(** it + (-k), with -k converted to size_type: right if the vector's size divides 2^64 (or the iterator does not cross the start of the vector) *)
Theorem C60_deque_iterators_negative_partial : forall V b i k, (0 < V)%N -> (V <= 2 ^ 62)%N -> (b < V)%N -> (0 < k)%N -> (k <= i)%N -> (k <= V)%N ->
  (k <= off V b i)%N \/ (M64 mod V = 0)%N -> it_plus V (off V b i) (M64 - k) = off V b (i - k).
Proof. intros V b i k H1 H2 H3 H4 H5 H6 C. apply it_plus_neg; assumption. Qed.
(** false in general: elements of 12 bytes, vector of 2 MiB / 12 elements, begin() at its last place *)
Theorem C60_deque_iterators_negative_refuted : exists V b i k, V = (2097152 / 12)%N /\ (b < V)%N /\ (i < V)%N /\ (0 < k)%N /\ (k <= i)%N /\
  it_plus V (off V b i) (M64 - k) <> off V b (i - k).
Proof. exists 174762%N, 174761%N, 1%N, 1%N. repeat split; try lia. vm_compute. discriminate. Qed.

(** * Examples: blocks of 2, pages of 2 blocks, 2 pages, vector of 3 at the start; it grows with the elements wrapped around *)
Definition dhist : list (dop nat) :=
  [DPushBack 1; DPushBack 2; DPopFront; DPushBack 3; DPushBack 4; DPushBack 5; DScan; DRevScan; DPushFront 9; DPushFront 8; DFront; DBack; DGet true 2; DGet false 1; DSet 1 7; DScan;
   DPopBack; DPopFront; DScan; DSize; DResize 12; DSize; DGet true 0; DSet 11 44; DBack; DResize 2; DScan; DClear; DSize; DPushFront 3; DScan; DPushFront 2; DPushFront 1; DRevScan].
Definition drun N n os rf := d_run nat 2 2 N 3 _ (lru_init N) lru_kick lru_hit rf n os 0.
Definition dblocks : list (list nat) := [[1; 2]; [3]; [4; 5; 6]; [7; 8; 9; 10; 11; 12]; [21; 22]; [23]].
Example dhist_run : deq_ops dhist [] <> None /\ option_map snd (deq_ops dhist (start_list None)) <> None /\
  outs (arun_eager (drun 2 None dhist true) dblocks) = option_map snd (deq_ops dhist []) /\ outs (arun_eager (drun 2 None dhist false) dblocks) = option_map snd (deq_ops dhist []).
Proof. vm_compute. repeat split; discriminate. Qed.
Definition nhist : list (dop nat) := [DSet 0 1; DSet 4 5; DPushBack 6; DPushFront 0; DGet true 1; DGet true 5; DResize 30; DGet true 6; DSize].
Example nhist_run : outs (arun_eager (drun 2 (Some 5) nhist true) [[1; 2; 3; 4; 5]; [6; 7; 8; 9; 10; 11; 12; 13; 14; 15; 16; 17; 18; 19; 20; 21; 22; 23; 24; 25; 26; 27; 28; 29; 30]]) = option_map snd (deq_ops nhist (start_list (Some 5)))
  /\ deq_ops nhist (start_list (Some 5)) <> None.
Proof. split; [vm_compute; reflexivity|vm_compute; discriminate]. Qed.
Example shows_example : shows (mk_dview [3; 0; 1; 2] 2 1) [1; 2; 3].
Proof. split; [simpl; lia|]. split; [simpl; lia|]. split; [reflexivity|]. intros [|[|[|i]]] H; try reflexivity. simpl in H. lia. Qed.
Example it_example : it_minus 10 (off 10 7 5) 4 = off 10 7 1 /\ it_diff 10 7 (off 10 7 5) (off 10 7 1) = 4%Z.
Proof. split; reflexivity. Qed.
(** with a single page in the cache the copy in double_array reads through stale references *)
Definition ohist1 : list (dop nat) := [DPushBack 1; DPushBack 2; DPopFront; DPushBack 3; DPushBack 4; DPushBack 5; DPushBack 6; DScan].
Theorem C25_deque_one_page_refuted : exists (os : list (dop nat)) rs al o, option_map snd (deq_ops os []) = Some rs /\ outs (arun (drun 1 None os false) (ainit zeros zeros al) o) <> None /\
  outs (arun (drun 1 None os false) (ainit zeros zeros al) o) <> Some rs.
Proof.
  exists ohist1, [DUnit; DUnit; DUnit; DUnit; DUnit; DUnit; DUnit; DList [2; 3; 4; 5; 6]], dblocks, (eager (drun 1 None ohist1 false) (ainit zeros zeros dblocks)).
  split; [reflexivity|]. split; vm_compute; discriminate.
Qed.

Print Assumptions C25_deque_lru.
Print Assumptions C25_deque_any_pager.
Print Assumptions C25_deque_progress.
Print Assumptions C25_deque_returns_blocks.
Print Assumptions C25_deque_one_page_refuted.
Print Assumptions C26_deque_less.
Print Assumptions C26_deque_equal_partial.
Print Assumptions C26_deque_equal_refuted.
Print Assumptions C60_deque_iterators.
Print Assumptions C60_deque_iterators_negative_partial.
Print Assumptions C60_deque_iterators_negative_refuted.
