(** C24: elements written through a vector_bufwriter are in the vector afterwards. *)
From Coq Require Import List Bool Arith Lia.
From Verif Require Import SumLib AsyncIoModel AsyncIoProofs AsyncIoRules VectorModel VectorSpec VectorProofs VectorProps VecWriterModel VecWriterSpec VecWriterProofs.
Import ListNotations.

Section Any.
Variable A : Type.
Variables S P N : nat.
Hypothesis HS : 1 <= S.
Hypothesis HP : 1 <= P.
Hypothesis HN : 1 <= N.
Variable PT : Type.
Variable pinit : PT.
Variable kick : PT -> nat * PT.
Variable hit : nat -> PT -> PT.
Variable PI : PT -> Prop.
Hypothesis HK : pager_ok N pinit kick hit PI.
Lemma writer_hist (os : list (wop A)) l rs : existsb w_shrink os = false -> existsb w_alias os = false \/ pager_two N kick hit PI -> w_spec S P os [] l rs ->
  forall base al, ok (w_ops A S P N PT pinit kick hit os (v_init N PT pinit base)) (sinit al) (fun q s => snd q = rs).
Proof.
  intros Sh T E base al. destruct HK as (K1 & K2 & K3).
  eapply ok_imp; [apply (w_ops_ok A S P N HS HP HN PT pinit kick hit PI K1 K2 K3 os false [] 0 _ _ l rs)|cbv beta; tauto]; auto.
  - intros (o & Ho & Ha). destruct T as [T|T]; [|exact T]. assert (C : existsb w_alias os = true) by (apply existsb_exists; eauto). congruence.
  - intros o Ho. destruct (w_shrink o) eqn:C; [|reflexivity]. assert (K : existsb w_shrink os = true) by (apply existsb_exists; eauto). congruence.
  - replace (up 0 P) with 0; [apply init_inv; assumption|]. unfold up. symmetry. apply Nat.div_small. lia.
Qed.
End Any.

(** [S] elements per block, [P] blocks per page, [N] pages in the cache, any pager.  The history mixes operations of the vector
    with writers: each starts at any position, writes any number of elements and is finished.  Writers that make the
    vector grow meet the conditions in [grows_safely]; without them the property is false (below).
    [rs]: what the calls return; [base], [c], [d], [al], [o] as for the vector (C19). *)
Theorem C24_bufwriter_partial : forall A S P N, 1 <= S -> 1 <= P -> 1 <= N -> forall PT (pinit : PT) kick hit PI, pager_ok N pinit kick hit PI ->
  forall (os : list (wop A)) l rs, existsb w_shrink os = false -> existsb w_alias os = false \/ pager_two N kick hit PI -> w_spec S P os [] l rs ->
  forall base c d al o, match arun (w_ops A S P N PT pinit kick hit os (v_init N PT pinit base)) (ainit c d al) o with
                        | Done q _ => snd q = rs | Error => False | Stuck => True end.
Proof. intros A S P N HS HP HN PT pinit kick hit PI K os l rs Sh T E base. apply (ok_async A _ _ (fun q => snd q = rs)). intro al. apply (writer_hist A S P N HS HP HN PT pinit kick hit PI K os l rs Sh T E). Qed.
Theorem C24_progress : forall A S P N, 1 <= S -> 1 <= P -> 1 <= N -> forall PT (pinit : PT) kick hit PI, pager_ok N pinit kick hit PI ->
  forall (os : list (wop A)) l rs, existsb w_shrink os = false -> existsb w_alias os = false \/ pager_two N kick hit PI -> w_spec S P os [] l rs ->
  forall base c d, exists al o q a, arun (w_ops A S P N PT pinit kick hit os (v_init N PT pinit base)) (ainit c d al) o = Done q (a, []) /\ snd q = rs.
Proof. intros A S P N HS HP HN PT pinit kick hit PI K os l rs Sh T E base. apply (ok_async_progress A _ _ (fun q => snd q = rs)). intro al. apply (writer_hist A S P N HS HP HN PT pinit kick hit PI K os l rs Sh T E). Qed.
(** The most common case: a writer on an empty vector with pages of more than one block (4 is the library's default), and the
    elements read back through the vector. *)
Definition gets {A} (i n : nat) : list (wop A) := map (fun k => WVec (VGet k)) (seq i n).
Lemma gets_spec A S P (vs : list A) : forall k, w_spec S P (gets k (length vs - k)) (map Some vs) (map Some vs) (map VVal (skipn k vs)).
Proof.
  intro k. remember (length vs - k) as n eqn:En. revert k En. induction n as [|n IH]; intros k En; cbn.
  - rewrite skipn_all2 by lia. constructor.
  - destruct (nth_error vs k) as [v|] eqn:Ev; [|apply nth_error_None in Ev; lia].
    assert (Es : skipn k vs = v :: skipn (Datatypes.S k) vs).
    { clear - Ev. revert k Ev. induction vs as [|w vs IH]; intros [|k] Ev; try discriminate; cbn in Ev |- *; [congruence|]. rewrite (IH k Ev). reflexivity. }
    rewrite Es. cbn [map]. apply ws_vec with (l1 := map Some vs).
    + cbn. rewrite nth_error_map, Ev. reflexivity.
    + apply (IH (Datatypes.S k)). lia.
Qed.
Theorem C24_fresh_vector : forall A S P N, 1 <= S -> 2 <= P -> 1 <= N -> forall PT (pinit : PT) kick hit PI, pager_ok N pinit kick hit PI -> forall (vs : list A) base c d al o,
  match arun (w_ops A S P N PT pinit kick hit (WWrite 0 vs :: WVec VSize :: gets 0 (length vs)) (v_init N PT pinit base)) (ainit c d al) o with
  | Done q _ => snd q = VUnit :: VNum (length vs) :: map VVal vs | Error => False | Stuck => True end.
Proof.
  intros A S P N HS HP HN PT pinit kick hit PI K vs base c d al o.
  apply (C24_bufwriter_partial A S P N HS ltac:(lia) HN PT pinit kick hit PI K _ (map Some vs)).
  - cbn. unfold gets. generalize (seq 0 (length vs)). intro l. induction l; auto.
  - left. cbn. unfold gets. generalize (seq 0 (length vs)). intro l. induction l; auto.
  - apply ws_write; [cbn; lia|right; split; [exact HP|split; cbn; lia]|]. unfold streamed. cbn [firstn skipn app]. rewrite skipn_nil, app_nil_r. cbn [app].
    apply ws_vec with (l1 := map Some vs); [cbn; rewrite map_length; reflexivity|]. pose proof (gets_spec A S P vs 0) as G. rewrite Nat.sub_0_r in G. exact G.
Qed.

(** Examples: a writer in the middle of a vector, on pages that are partly in the cache; then one that makes it grow twice. *)
Definition lwrun S P N os := w_ops nat S P N _ (lru_init N) lru_kick lru_hit os (v_init N _ (lru_init N) 0).
Definition ex_os : list (wop nat) :=
  map (fun i => WVec (VPush i)) (seq 1 9) ++ [WVec (VSet 6 70); WWrite 1 [10; 20; 30; 40]; WVec (VGet 0); WVec (VGet 1); WVec (VGet 4); WVec (VGet 5); WVec (VGet 6); WVec (VGet 8);
  WWrite 7 (seq 100 20); WVec VSize; WVec (VGet 6); WVec (VGet 7); WVec (VGet 26); WVec (VPush 5); WVec (VGet 27); WVec (VGet 25)].
Definition ex_rs : list (vout nat) :=
  repeat VUnit 9 ++ [VUnit; VUnit; VVal 1; VVal 10; VVal 40; VVal 6; VVal 70; VVal 9; VUnit; VNum 27; VVal 70; VVal 100; VVal 119; VUnit; VVal 5; VVal 118].
Example ex_spec : exists l, w_spec 2 2 ex_os [] l ex_rs.
Proof.
  eexists. unfold ex_os, ex_rs. cbn.
  repeat (apply ws_nil || (eapply ws_vec; [vm_compute; reflexivity|]) || (apply ws_write; [vm_compute; lia| |])).
  - left. vm_compute. lia.
  - right. split; [lia|]. split; vm_compute; intros (C & D); discriminate.
Qed.
Fixpoint takes (n : nat) (ks : list nat) : list (list nat) := match ks with [] => [] | k :: ks' => seq n k :: takes (n + k) ks' end.
Example ex_run : exists al, outs (arun (lwrun 2 2 2 ex_os) (ainit zeros zeros al) (eager (lwrun 2 2 2 ex_os) (ainit zeros zeros al))) = Some ex_rs.
Proof. exists (takes 1 [1; 1; 1; 1; 1; 4; 9; 18]). vm_compute. reflexivity. Qed.

(** Growth when the block of the buf_ostream has just been completed: the vector is never told of that block, and if
    it was told of no other block of the page it takes the page for never written. *)
Definition broken S P os : Prop := exists rs al o, option_map snd (w_full S os []) = Some rs /\
  outs (arun (lwrun S P 2 os) (ainit zeros zeros al) o) <> None /\ outs (arun (lwrun S P 2 os) (ainit zeros zeros al) o) <> Some rs.
(** pages of one block: any writer that starts on an empty vector and writes more than two blocks *)
Theorem C24_one_block_pages_refuted : broken 2 1 [WWrite 0 [1; 2; 3; 4; 5]; WVec (VGet 2)].
Proof.
  set (os := _ :: _). exists [VUnit; VVal 3], (takes 1 [2; 2]), (eager (lwrun 2 1 2 os) (ainit zeros zeros (takes 1 [2; 2]))).
  split; [reflexivity|]. split; vm_compute; discriminate.
Qed.
(** the writer starts in the last block of a page that is the last one of the vector *)
Theorem C24_last_block_refuted : broken 2 2 [WVec (VResize 4); WWrite 2 [1; 2; 3]; WVec (VGet 2)].
Proof.
  set (os := _ :: _). exists [VUnit; VUnit; VVal 1], (takes 1 [2; 2]), (eager (lwrun 2 2 2 os) (ainit zeros zeros (takes 1 [2; 2]))).
  split; [reflexivity|]. split; vm_compute; discriminate.
Qed.
(** a vector of one block, pages of two blocks *)
Theorem C24_single_block_refuted : broken 2 2 [WVec (VResize 2); WWrite 0 [1; 2; 3; 4; 5]; WVec (VGet 0)].
Proof.
  set (os := _ :: _). exists [VUnit; VUnit; VVal 1], (takes 1 [1; 1; 2]), (eager (lwrun 2 2 2 os) (ainit zeros zeros (takes 1 [1; 1; 2]))).
  split; [reflexivity|]. split; vm_compute; discriminate.
Qed.
Print Assumptions C24_bufwriter_partial.
Print Assumptions C24_progress.
Print Assumptions C24_fresh_vector.
Print Assumptions C24_one_block_pages_refuted.
Print Assumptions C24_last_block_refuted.
Print Assumptions C24_single_block_refuted.
