(** C19, C20, C22, C23, C58, C59: stxxl::vector, for every pager of the library and every schedule of the I/O requests. *)
From Coq Require Import List Bool Arith Lia.
From Verif Require Import SumLib AsyncIoModel AsyncIoProofs AsyncIoRules VectorModel VectorSpec VectorProofs.
Import ListNotations.

(** A pager: kick() returns one of the N slots. *)
Definition pager_ok {PT} (N : nat) (pinit : PT) (kick : PT -> nat * PT) (hit : nat -> PT -> PT) (PI : PT -> Prop) : Prop :=
  PI pinit /\ (forall p, PI p -> fst (kick p) < N /\ PI (snd (kick p))) /\ (forall p i, PI p -> i < N -> PI (hit i p)).
(** ... and not the slot that was hit last *)
Definition pager_two {PT} (N : nat) (kick : PT -> nat * PT) (hit : nat -> PT -> PT) (PI : PT -> Prop) : Prop :=
  forall i p, PI p -> i < N -> fst (kick (hit i p)) <> i.
Lemma lru_pager_ok N : 1 <= N -> pager_ok N (lru_init N) lru_kick lru_hit (lru_ok N).
Proof. intro H. split; [apply lru_init_ok|]. split; [intros p Hp; apply lru_kick_ok; assumption|apply lru_hit_ok]. Qed.
Lemma lru_pager_two N : 2 <= N -> pager_two N lru_kick lru_hit (lru_ok N).
Proof. intros H i p. apply lru_two. exact H. Qed.
Lemma rnd_pager_ok N h : (forall i, h i < N) -> pager_ok N h rnd_kick rnd_hit (rnd_ok N).
Proof. intro H. split; [exact H|]. split; [apply rnd_kick_ok|apply rnd_hit_ok]. Qed.

Section Any.
Variable A : Type.
Variables S P N : nat.
Hypothesis HS : 1 <= S.
Hypothesis HP : 1 <= P.
Hypothesis HN : 1 <= N.
Variable PT : Type.
Variable pinit : PT.
Variable kick : PT -> nat * PT.
Variable hit : nat -> PT -> PT.
Variable PI : PT -> Prop.
Hypothesis HK : pager_ok N pinit kick hit PI.
Notation run os base := (vec_ops A S P N PT pinit kick hit os (v_init N PT pinit base)).

Lemma vector_caps (os : list (vop A)) x rs : existsb is_alias os = false \/ pager_two N kick hit PI -> spec_caps S P os (mk_vs [] 0 0) = Some (x, rs) ->
  forall base al, ok (run os base) (sinit al) (fun q s => vinv A S P N PT PI (existsb leaky os) x (fst q) s /\ snd q = rs).
Proof.
  intros T E base al. destruct HK as (K1 & K2 & K3). apply (ops_ok A S P N HS HP HN PT pinit kick hit PI K1 K2 K3 os false (mk_vs [] 0 0)); auto.
  - intros (o & Ho & Ha). destruct T as [T|T]; [|exact T]. assert (C : existsb is_alias os = true) by (apply existsb_exists; eauto). congruence.
  - apply init_inv; assumption.
Qed.
(** the strongest form, with capacity and shrinking *)
Theorem vector_caps_history (os : list (vop A)) x rs : existsb is_alias os = false \/ pager_two N kick hit PI -> spec_caps S P os (mk_vs [] 0 0) = Some (x, rs) ->
  forall base c d al o, match arun (run os base) (ainit c d al) o with Done q _ => snd q = rs | Error => False | Stuck => True end.
Proof.
  intros T E base. apply (ok_async A _ _ (fun q => snd q = rs)). intro al. eapply ok_imp; [apply (vector_caps os x rs T E base al)|]. intros q s (_ & H). exact H.
Qed.
Theorem vector_history (os : list (vop A)) l rs : existsb is_shrink os = false -> existsb is_alias os = false \/ pager_two N kick hit PI -> spec_ops S os [] = Some (l, rs) ->
  forall base c d al o, match arun (run os base) (ainit c d al) o with Done q _ => snd q = rs | Error => False | Stuck => True end.
Proof.
  intros Hs T E. destruct (simple_init A S P N HS HP HN os l rs) as (b & Eb).
  - intros o Ho. destruct (is_shrink o) eqn:C; [|reflexivity]. assert (K : existsb is_shrink os = true) by (apply existsb_exists; eauto). congruence.
  - exact E.
  - exact (vector_caps_history os _ rs T Eb).
Qed.
Theorem vector_progress (os : list (vop A)) l rs : existsb is_shrink os = false -> existsb is_alias os = false \/ pager_two N kick hit PI -> spec_ops S os [] = Some (l, rs) ->
  forall base c d, exists al o q a, arun (run os base) (ainit c d al) o = Done q (a, []) /\ snd q = rs.
Proof.
  intros Hs T E base. destruct (simple_init A S P N HS HP HN os l rs) as (b & Eb).
  - intros o Ho. destruct (is_shrink o) eqn:C; [|reflexivity]. assert (K : existsb is_shrink os = true) by (apply existsb_exists; eauto). congruence.
  - exact E.
  - apply (ok_async_progress A _ _ (fun q => snd q = rs)). intro al. eapply ok_imp; [apply (vector_caps os _ rs T Eb base al)|]. intros q s (_ & H). exact H.
Qed.
(** after flush() the elements are in the blocks of the vector, and nothing is on its way *)
Theorem vector_flush (os : list (vop A)) x rs : existsb is_alias os = false \/ pager_two N kick hit PI -> spec_caps S P os (mk_vs [] 0 0) = Some (x, rs) ->
  forall base c d al o, match arun (bind (run os base) (fun q => flush A P N PT (fst q))) (ainit c d al) o with
    | Done t (a, _) => apend a = [] /\ length (v_bids t) = vs_blocks x /\
        forall i v, nth_error (vs_l x) i = Some (Some v) -> exists b, nth_error (v_bids t) (i / S) = Some b /\ adisk a b (i mod S) = v
    | Error => False | Stuck => True end.
Proof.
  intros T E base c d al o.
  assert (G : forall al, ok (bind (run os base) (fun q => flush A P N PT (fst q))) (sinit al) (fun t s => flushed A S P N PT PI (existsb leaky os) x t s)).
  { intro al'. apply ok_bind. eapply ok_imp; [apply (vector_caps os x rs T E base al')|]. intros q s (I & _). eapply ok_imp; [apply (flush_ok A S P N HS HP HN PT PI _ _ _ _ I)|]. cbv beta. tauto. }
  pose proof (ok_async_sim A _ _ _ G c d al o) as R. destruct (arun _ _ o) as [t (a & o')| |]; auto. destruct R as (s & J & M). pose proof J as (I & _).
  assert (PE : apend a = []). { destruct (apend a) as [|r l] eqn:Ep; [reflexivity|]. exfalso. assert (C : In r (sout s)) by (apply (m_sub _ _ _ M); rewrite Ep; left; reflexivity). rewrite (t_out _ _ _ _ _ _ _ _ _ _ _ I) in C. exact C. }
  split; [exact PE|]. split; [apply I|]. intros i v H. destruct (flushed_elem A S P N HS HP HN PT PI _ _ _ _ i v J H) as (_ & b & B1 & B2). exists b. split; [exact B1|].
  apply (m_d2 _ _ _ M b); [|rewrite PE; intros r []|exact B2]. apply (t_own _ _ _ _ _ _ _ _ _ _ _ I). eapply nth_error_In. exact B1.
Qed.
(** the destructor gives all blocks back *)
Theorem vector_destroy (os : list (vop A)) l rs : existsb is_alias os = false \/ pager_two N kick hit PI -> existsb leaky os = false -> spec_ops S os [] = Some (l, rs) ->
  forall base c d al o, match arun (bind (run os base) (fun q => destroy A P N PT (fst q))) (ainit c d al) o with
    | Done _ (a, _) => aown a = [] /\ apend a = [] | Error => False | Stuck => True end.
Proof.
  intros T Hl E base c d al o. destruct (simple_init A S P N HS HP HN os l rs) as (b & Eb); [|exact E|].
  { intros o' Ho. destruct (is_shrink o') eqn:C; [|reflexivity]. assert (K : existsb leaky os = true) by (apply existsb_exists; exists o'; split; [exact Ho|destruct o'; try discriminate; reflexivity]). congruence. }
  assert (G : forall al, ok (bind (run os base) (fun q => destroy A P N PT (fst q))) (sinit al) (fun _ s => sout s = [] /\ sown s = [])).
  { intro al'. apply ok_bind. eapply ok_imp; [apply (vector_caps os _ rs T Eb base al')|]. intros q s (I & _). rewrite Hl in I. eapply ok_imp; [apply (destroy_ok A S P N HS HP HN PT PI _ _ _ _ I)|]. cbv beta. intros _ s' (H1 & H2). auto. }
  pose proof (ok_async_sim A _ _ _ G c d al o) as R. destruct (arun _ _ o) as [t (a & o')| |]; auto. destruct R as (s & (J1 & J2) & M). rewrite (m_own _ _ _ M). split; [exact J2|].
  destruct (apend a) as [|r l'] eqn:Ep; [reflexivity|]. exfalso. assert (C : In r (sout s)) by (apply (m_sub _ _ _ M); rewrite Ep; left; reflexivity). rewrite J1 in C. exact C.
Qed.
End Any.

(** [S] elements per block, [P] blocks per page, [N] pages in the cache.  The history [os] does not shrink (C23) and does not
    use references to elements of the vector as arguments (C58); resize, reserve, clear, flush, dropping the cache,
    reopening the blocks in another vector and writing blocks from outside are all in.  [rs]: what the calls return.
    [base]: number of the first cache block; [c], [d], [al], [o] as for the other containers. *)
Theorem C19_vector_lru : forall A S P N, 1 <= S -> 1 <= P -> 1 <= N -> forall (os : list (vop A)) l rs,
  existsb is_shrink os = false -> existsb is_alias os = false -> spec_ops S os [] = Some (l, rs) ->
  forall base c d al o, match arun (vec_ops A S P N _ (lru_init N) lru_kick lru_hit os (v_init N _ (lru_init N) base)) (ainit c d al) o with
                        | Done q _ => snd q = rs | Error => False | Stuck => True end.
Proof. intros A S P N HS HP HN os l rs H1 H2 E. apply (vector_history A S P N HS HP HN _ _ _ _ (lru_ok N)) with l; auto. apply lru_pager_ok. exact HN. Qed.
Theorem C19_vector_random : forall A S P N, 1 <= S -> 1 <= P -> 1 <= N -> forall (h : nat -> nat), (forall i, h i < N) -> forall (os : list (vop A)) l rs,
  existsb is_shrink os = false -> existsb is_alias os = false -> spec_ops S os [] = Some (l, rs) ->
  forall base c d al o, match arun (vec_ops A S P N _ h rnd_kick rnd_hit os (v_init N _ h base)) (ainit c d al) o with
                        | Done q _ => snd q = rs | Error => False | Stuck => True end.
Proof. intros A S P N HS HP HN h Hh os l rs H1 H2 E. apply (vector_history A S P N HS HP HN _ _ _ _ (rnd_ok N)) with l; auto. apply rnd_pager_ok. exact Hh. Qed.
Theorem C19_vector_any_pager : forall A S P N, 1 <= S -> 1 <= P -> 1 <= N -> forall PT (pinit : PT) kick hit PI, pager_ok N pinit kick hit PI ->
  forall (os : list (vop A)) l rs,
  existsb is_shrink os = false -> existsb is_alias os = false -> spec_ops S os [] = Some (l, rs) ->
  forall base c d al o, match arun (vec_ops A S P N _ pinit kick hit os (v_init N _ pinit base)) (ainit c d al) o with
                        | Done q _ => snd q = rs | Error => False | Stuck => True end.
Proof. intros A S P N HS HP HN PT pinit kick hit PI K os l rs H1 H2 E. apply (vector_history A S P N HS HP HN _ _ _ _ PI K) with l; auto. Qed.
Theorem C19_vector_progress : forall A S P N, 1 <= S -> 1 <= P -> 1 <= N -> forall PT (pinit : PT) kick hit PI, pager_ok N pinit kick hit PI ->
  forall (os : list (vop A)) l rs,
  existsb is_shrink os = false -> existsb is_alias os = false -> spec_ops S os [] = Some (l, rs) ->
  forall base c d, exists al o q a, arun (vec_ops A S P N _ pinit kick hit os (v_init N _ pinit base)) (ainit c d al) o = Done q (a, []) /\ snd q = rs.
Proof. intros A S P N HS HP HN PT pinit kick hit PI K os l rs H1 H2 E. apply (vector_progress A S P N HS HP HN _ _ _ _ PI K) with l; auto. Qed.

Theorem C20_vector_flush_durable : forall A S P N, 1 <= S -> 1 <= P -> 1 <= N -> forall PT (pinit : PT) kick hit PI, pager_ok N pinit kick hit PI ->
  forall (os : list (vop A)) x rs, existsb is_alias os = false -> spec_caps S P os (mk_vs [] 0 0) = Some (x, rs) ->
  forall base c d al o, match arun (bind (vec_ops A S P N _ pinit kick hit os (v_init N _ pinit base)) (fun q => flush A P N PT (fst q))) (ainit c d al) o with
    | Done t (a, _) => apend a = [] /\ length (v_bids t) = vs_blocks x /\
        forall i v, nth_error (vs_l x) i = Some (Some v) -> exists b, nth_error (v_bids t) (i / S) = Some b /\ adisk a b (i mod S) = v
    | Error => False | Stuck => True end.
Proof. intros A S P N HS HP HN PT pinit kick hit PI K os x rs H1 E. apply (vector_flush A S P N HS HP HN _ _ _ _ PI K) with rs; auto. Qed.

(** what is true of C22: without shrinking, the destructor returns everything *)
Theorem C59_vector_returns_blocks : forall A S P N, 1 <= S -> 1 <= P -> 1 <= N -> forall PT (pinit : PT) kick hit PI, pager_ok N pinit kick hit PI ->
  forall (os : list (vop A)) l rs, existsb is_alias os = false -> existsb leaky os = false -> spec_ops S os [] = Some (l, rs) ->
  forall base c d al o, match arun (bind (vec_ops A S P N _ pinit kick hit os (v_init N _ pinit base)) (fun q => destroy A P N PT (fst q))) (ainit c d al) o with
    | Done _ (a, _) => aown a = [] /\ apend a = [] | Error => False | Stuck => True end.
Proof. intros A S P N HS HP HN PT pinit kick hit PI K os l rs H1 H2 E. apply (vector_destroy A S P N HS HP HN _ _ _ _ PI K) with l rs; auto. Qed.

(** what is true of C23: with shrinking, as long as the vector never grows to fewer pages than it once had *)
Theorem C23_vector_shrink_partial : forall A S P N, 1 <= S -> 1 <= P -> 1 <= N -> forall PT (pinit : PT) kick hit PI, pager_ok N pinit kick hit PI ->
  forall (os : list (vop A)) x rs, existsb is_alias os = false -> spec_caps S P os (mk_vs [] 0 0) = Some (x, rs) ->
  forall base c d al o, match arun (vec_ops A S P N _ pinit kick hit os (v_init N _ pinit base)) (ainit c d al) o with
                        | Done q _ => snd q = rs | Error => False | Stuck => True end.
Proof. intros A S P N HS HP HN PT pinit kick hit PI K os x rs H1 E. apply (vector_caps_history A S P N HS HP HN _ _ _ _ PI K) with x; auto. Qed.

Theorem C58_vector_own_elements_lru : forall A S P N, 1 <= S -> 1 <= P -> 2 <= N -> forall (os : list (vop A)) l rs,
  existsb is_shrink os = false -> spec_ops S os [] = Some (l, rs) ->
  forall base c d al o, match arun (vec_ops A S P N _ (lru_init N) lru_kick lru_hit os (v_init N _ (lru_init N) base)) (ainit c d al) o with
                        | Done q _ => snd q = rs | Error => False | Stuck => True end.
Proof.
  intros A S P N HS HP HN os l rs H1 E. apply (vector_history A S P N HS HP ltac:(lia) _ _ _ _ (lru_ok N)) with l; auto; [apply lru_pager_ok; lia|]. right. apply lru_pager_two. exact HN.
Qed.

(** * Examples *)
Definition lrun {A} S P N (os : list (vop A)) := vec_ops A S P N _ (lru_init N) lru_kick lru_hit os (v_init N _ (lru_init N) 0).
Definition rrun {A} S P N h (os : list (vop A)) := vec_ops A S P N _ h rnd_kick rnd_hit os (v_init N _ h 0).
Definition outs {T B S} (x : result (T * list B) S) : option (list B) := match x with Done r _ => Some (snd r) | _ => None end.
(** Blocks of 2 elements, pages of 2 blocks, 2 pages in the cache: evictions, partial last pages, regrowth, foreign writes *)
Definition hist : list (vop nat) :=
  map VPush [1; 2; 3; 4; 5; 6; 7; 8; 9; 10; 11] ++
  [VGet 0; VGetM 4; VGet 10; VSet 1 21; VSet 9 29; VGet 1; VSize; VPop; VPop; VSize; VGet 8; VFlush; VGet 1; VReserve 30; VResize 14; VSet 13 33; VGet 13; VGet 0;
   VResize 3; VGet 2; VResize 14; VSet 12 5; VGet 1; VGet 12; VDropCache; VGet 12; VReopen; VGet 12; VGet 1; VPush 44; VGet 14; VWriteBlock 0 [61; 62]; VGet 1; VGet 2; VGet 14;
   VWriteBlock 7 [71; 72]; VGet 14; VSize; VClear; VSize; VPush 1; VGet 0].
Example hist_legal : existsb is_shrink hist = false /\ existsb is_alias hist = false /\ spec_ops 2 hist [] <> None.
Proof. split; [reflexivity|]. split; [reflexivity|]. vm_compute. discriminate. Qed.
Definition blocks : list (list nat) := [[1]; [2]; [3]; [4]; [5]; [6]; [7; 8; 9; 10; 11; 12; 13; 14; 15]; [20]; [21]].
Definition zeros : nat -> nat -> nat := fun _ _ => 0.
Definition arun_eager {R} (p : prog nat R) al := arun p (ainit zeros zeros al) (eager p (ainit zeros zeros al)).
Example hist_run : outs (arun_eager (lrun 2 2 2 hist) blocks) = option_map snd (spec_ops 2 hist []).
Proof. vm_compute. reflexivity. Qed.
Example hist_run_random : outs (arun_eager (rrun 2 2 2 (fun i => i mod 2) hist) blocks) = option_map snd (spec_ops 2 hist []).
Proof. vm_compute. reflexivity. Qed.
Example hist_prefix_destroy : existsb leaky (firstn 30 hist) = false /\ spec_ops 2 (firstn 30 hist) [] <> None /\
  match arun_eager (bind (lrun 2 2 2 (firstn 30 hist)) (fun q => destroy nat 2 2 _ (fst q))) blocks with Done _ (a, _) => aown a = [] | _ => False end.
Proof. vm_compute. repeat split; discriminate. Qed.
Definition shist : list (vop nat) := map VPush [1; 2; 3; 4; 5; 6; 7] ++ [VShrink 3; VGet 2; VCapacity; VSet 2 9; VResize 9; VSet 8 5; VGet 2; VGet 0; VGet 8; VShrink 1; VGet 0; VResize 20; VGet 0; VCapacity].
Example shist_run : existsb is_alias shist = false /\ spec_caps 2 2 shist (mk_vs [] 0 0) <> None /\
  outs (arun_eager (lrun 2 2 1 shist) [[1]; [2]; [3]; [4]; [5; 6; 7]; [8; 9; 10; 11; 12; 13; 14; 15; 16]]) = option_map snd (spec_caps 2 2 shist (mk_vs [] 0 0)).
Proof. vm_compute. repeat split; discriminate. Qed.
Definition ohist : list (vop nat) := map VPush [1; 2; 3; 4; 5; 6; 7] ++ [VAssign true 0 6; VAssign false 1 5; VPushOwn 2; VGet 0; VGet 1; VGet 7; VSize].
Example ohist_run : existsb is_shrink ohist = false /\ spec_ops 2 ohist [] <> None /\
  outs (arun_eager (lrun 2 1 2 ohist) [[1]; [2]; [3]; [4]; [5]]) = option_map snd (spec_ops 2 ohist []).
Proof. vm_compute. repeat split; discriminate. Qed.
Example flush_example : match arun_eager (bind (lrun 2 2 2 ohist) (fun q => flush nat 2 2 _ (fst q))) [[1]; [2]; [3]; [4]] with
  | Done t (a, _) => map (fun b => (adisk a b 0, adisk a b 1)) (v_bids t) = [(7, 6); (3, 4); (5, 6); (7, 3)] | _ => False end.
Proof. vm_compute. reflexivity. Qed.

(** * Refutations *)
(** resize(n, true) does not return the blocks that are no longer used, and the destructor does not either *)
Theorem C22_vector_shrink_leaks_refuted : exists al o,
  match arun (bind (lrun 1 1 1 [VResize 3; VShrink 1]) (fun q => destroy nat 1 1 _ (fst q))) (ainit zeros zeros al) o with
  | Done _ (a, _) => aown a = [2; 3] | _ => False end.
Proof.
  exists [[1; 2; 3]], (eager (bind (lrun 1 1 1 [VResize 3; VShrink 1]) (fun q => destroy nat 1 1 _ (fst q))) (ainit zeros zeros [[1; 2; 3]])). vm_compute. reflexivity.
Qed.
(** after a shrink, a regrowth shortens the page tables while the cache still holds a page beyond their end *)
Theorem C23_vector_page_tables_refuted : exists (os : list (vop nat)) al o, existsb is_alias os = false /\ spec_ops 1 os [] <> None /\
  arun (lrun 1 1 1 os) (ainit zeros zeros al) o = Error.
Proof.
  set (os := [VResize 3; VSet 0 5; VSet 2 7; VShrink 1; VResize 2; VGet 0]). set (al := [[1; 2; 3]; [4]]).
  exists os, al, (eager (lrun 1 1 1 os) (ainit zeros zeros al)).
  split; [reflexivity|]. split; [vm_compute; discriminate|]. vm_compute. reflexivity.
Qed.
(** with one cached page, or with the random pager, v[i] = v[j] and push_back(v[j]) use a stale reference *)
Theorem C58_vector_own_elements_refuted :
  (exists (os : list (vop nat)) rs al o, existsb is_shrink os = false /\ option_map snd (spec_ops 1 os []) = Some rs /\ outs (arun (lrun 1 1 1 os) (ainit zeros zeros al) o) <> None /\
     outs (arun (lrun 1 1 1 os) (ainit zeros zeros al) o) <> Some rs) /\
  (exists h (os : list (vop nat)) rs al o, (forall i, h i < 2) /\ existsb is_shrink os = false /\ option_map snd (spec_ops 2 os []) = Some rs /\
     outs (arun (rrun 2 1 2 h os) (ainit zeros zeros al) o) <> None /\ outs (arun (rrun 2 1 2 h os) (ainit zeros zeros al) o) <> Some rs).
Proof.
  split.
  - set (os := [VPush 5; VPush 7; VAssign false 0 1; VGet 0]). set (al := [[1]; [2]; [3]]).
    exists os, [VUnit; VUnit; VUnit; VVal 7], al, (eager (lrun 1 1 1 os) (ainit zeros zeros al)).
    split; [reflexivity|]. split; [reflexivity|]. split; vm_compute; discriminate.
  - set (os := [VPush 1; VPush 2; VPush 3; VPush 4; VPush 5; VGet 1; VPushOwn 0; VGet 5]). set (al := [[1]; [2]; [3]]).
    exists (fun _ => 0), os, [VUnit; VUnit; VUnit; VUnit; VUnit; VVal 2; VUnit; VVal 1], al, (eager (rrun 2 1 2 (fun _ => 0) os) (ainit zeros zeros al)).
    split; [lia|]. split; [reflexivity|]. split; [reflexivity|]. split; vm_compute; discriminate.
Qed.

Print Assumptions C19_vector_lru.
Print Assumptions C19_vector_random.
Print Assumptions C19_vector_any_pager.
Print Assumptions C19_vector_progress.
Print Assumptions C20_vector_flush_durable.
Print Assumptions C59_vector_returns_blocks.
Print Assumptions C23_vector_shrink_partial.
Print Assumptions C58_vector_own_elements_lru.
Print Assumptions C22_vector_shrink_leaks_refuted.
Print Assumptions C23_vector_page_tables_refuted.
Print Assumptions C58_vector_own_elements_refuted.
