(** C49: the stream operators.  C68: copies of streams. *)
From Coq Require Import List Bool Arith Lia.
From Verif Require Import ScanModel ScanSpec StreamModel StreamSpec StreamProofs.
Import ListNotations.

(** * C49: sources *)
Theorem C49_iterator : forall (A : Type) (l : list A), yields iterator2stream l l.
Proof. intros. apply iterator_ok. Qed.
Theorem C49_generator : forall (G A : Type) (gen : G -> A * G) g, yields_all (generator2stream gen) (generator_new gen g) (nth_result gen g).
Proof. intros. apply generator_ok. Qed.
Theorem C49_vector : forall (A : Type) B (v : list A) nb first last, 0 < B -> length v = nb * B -> first <= last <= length v ->
  exists st, vstream_new B v first last = Some st /\ yields vstream st (range v first last).
Proof. intros A B v nb first last HB HV HR. apply (vstream_ok B HB v nb first last HV HR). Qed.
Theorem C49_vector_sr : forall (A : Type) B (v : list A) nb first last, 0 < B -> length v = nb * B -> first <= last <= length v ->
  exists st, sr_new B v first last = Some st /\ yields sr_stream st (range v first last).
Proof. intros A B v nb first last HB HV HR. apply (sr_ok B HB v nb first last HV HR). Qed.

(** * C49: operators, on any streams *)
Theorem C49_transform : forall (S A B O : Type) (I : stream S A) (op : O -> list A -> O * B) ss ls o, ls <> [] -> Forall2 (yields I) ss ls ->
  exists st, transform_new I op ss o = Some st /\ yields (transform I op) st (applied op o (rows ls)).
Proof. intros S A B O I op ss ls o N H. apply (transform_ok I op (shortest ls) ss ls o None eq_refl N H). Qed.
Lemma applied_tuples {A} (l : list (list A)) : applied (fun (_ : unit) xs => (tt, xs)) tt l = l.
Proof. induction l as [|x l IH]; cbn; [reflexivity|]. rewrite IH. reflexivity. Qed.
Theorem C49_make_tuple : forall (S A : Type) (I : stream S A) ss ls, ls <> [] -> Forall2 (yields I) ss ls ->
  exists st, make_tuple_new I ss = Some st /\ yields (make_tuple I) st (rows ls).
Proof.
  intros S A I ss ls N H. destruct (transform_ok I (fun (_ : unit) xs => (tt, xs)) (shortest ls) ss ls tt None eq_refl N H) as (st & E & Y). rewrite applied_tuples in Y. exists st. auto.
Qed.
Theorem C49_choose : forall (S A : Type) (I : stream S (list A)) which s l xs, yields I s l -> Forall2 (fun t x => nth_error t which = Some x) l xs ->
  yields (choose I which) s xs.
Proof. intros S A I which s l xs H1 H2. apply (choose_ok I which l xs s H1 H2). Qed.
Theorem C49_unique : forall (S A : Type) (I : stream S A) pred fuel s l, length l <= fuel -> yields I s l ->
  exists st out, unique_new I s = Some st /\ yields (unique I pred fuel) st out /\ collapses pred l out /\ forall out', collapses pred l out' -> out' = out.
Proof.
  intros S A I pred fuel s l HF H. destruct (unique_ok I pred fuel s l HF H) as (st & out & H1 & H2 & H3). exists st, out. repeat split; try assumption.
  intros out' H'. symmetry. apply (collapses_det pred l out H3 out' H').
Qed.

(** * C49: sinks; [room] is None or the size of the output range *)
Theorem C49_materialize : forall (S A : Type) (I : stream S A) fuel room s l, length l <= fuel -> yields I s l ->
  let n := match room with None => length l | Some r => Nat.min r (length l) end in
  exists s', materialize I fuel room s = Some (firstn n l, s') /\ yields I s' (skipn n l).
Proof. intros S A I fuel room s l HF H n. apply (materialize_ok I fuel room s l HF H). Qed.
Theorem C49_discard : forall (S A : Type) (I : stream S A) fuel s l, length l <= fuel -> yields I s l ->
  exists s', discard I fuel s = Some s' /\ yields I s' [].
Proof.
  intros S A I fuel s l HF H. destruct (materialize_ok I fuel None s l HF H) as (s' & E & Y). unfold discard. rewrite E. cbn [obind]. exists s'. split; [reflexivity|].
  cbn [taken] in Y. rewrite skipn_all in Y. exact Y.
Qed.
(** to a vector: exactly the positions from [out] on are overwritten *)
Theorem C49_materialize_vector : forall (S A : Type) (I : stream S A) B fuel (v : list A) nb out outend s l, 0 < B -> length v = nb * B -> length l <= fuel -> yields I s l ->
  let n := match outend with None => length l | Some e => Nat.min (e - out) (length l) end in
  out + n <= length v -> (match outend with Some e => out <= e <= length v | None => True end) ->
  exists s', mat_vector I B fuel v out outend s = Some (replaced v out (out + n) (firstn n l), out + n, s') /\ yields I s' (skipn n l).
Proof.
  intros S A I B fuel v nb out outend s l HB HV HF H n HR HE. assert (n = taken (room_of out outend) l) as -> by (unfold n; destruct outend; reflexivity).
  apply (mat_vector_ok I B HB fuel v nb out outend s l HV HE); [|exact HF|exact H]. destruct outend; exact HR.
Qed.

Example C49_ex_rows : rows [[1; 2; 3]; [4; 5]] = [[1; 4]; [2; 5]].
Proof. reflexivity. Qed.
Example C49_ex_unique : exists st, unique_new iterator2stream [1; 1; 2; 2; 2; 1] = Some st /\ yields (unique iterator2stream Nat.eqb 6) st [1; 2; 1].
Proof. eexists. split; [reflexivity|]. cbn. repeat (split; [reflexivity|]; split; [reflexivity|]; eexists; split; [reflexivity|]). reflexivity. Qed.
Example C49_ex_collapses : collapses Nat.eqb [1; 1; 2; 2; 2; 1] [1; 2; 1].
Proof.
  apply (collapses_group Nat.eqb 1 [1] [2; 2; 2; 1] [2; 1]); [repeat constructor|intros y E; injection E as <-; reflexivity|].
  apply (collapses_group Nat.eqb 2 [2; 2] [1] [1]); [repeat constructor|intros y E; injection E as <-; reflexivity|].
  apply (collapses_group Nat.eqb 1 [] [] []); [constructor|discriminate|constructor].
Qed.
Example C49_ex_vector : mat_vector iterator2stream 2 9 [10; 11; 12; 13; 14; 15; 16; 17] 1 None [1; 2; 3; 4] = Some ([10; 1; 2; 3; 4; 15; 16; 17], 5, []) /\
  mat_vector iterator2stream 2 9 [10; 11; 12; 13; 14; 15; 16; 17] 1 (Some 3) [1; 2; 3; 4] = Some ([10; 1; 2; 13; 14; 15; 16; 17], 3, [3; 4]).
Proof. split; reflexivity. Qed.

(** * C68 *)
(** Full statement: after copying, the copy and the original deliver the remaining elements, and both can be destroyed.
    Proved here: the copy of a vector_iterator2stream delivers them.  Missing: the original (refuted), the destructor of vector_iterator2stream_sr (refuted). *)
Theorem C68_copy_partial : forall (A : Type) (s : vstate (A := A)) l, yields vstream s l -> yields vstream (fst (vstream_copy s)) l.
Proof. intros A [[cur e] r] l H. exact H. Qed.
Theorem C68_original_refuted : exists (v : list nat) s, vstream_new 2 v 0 2 = Some s /\ yields vstream s v /\ ~ yields vstream (snd (vstream_copy s)) v.
Proof.
  exists [1; 2]. eexists. split; [reflexivity|]. split.
  - cbn. repeat (split; [reflexivity|]; split; [reflexivity|]; eexists; split; [reflexivity|]). reflexivity.
  - cbn. intros (_ & H & _). discriminate.
Qed.
Theorem C68_destroy_refuted : exists heap p heap', sr_use heap p <> None /\ sr_destroy heap p = Some heap' /\
  sr_use heap' (sr_copy p) = None /\ sr_destroy heap' (sr_copy p) = None.
Proof. exists [0], 0, []. repeat split; discriminate. Qed.

Print Assumptions C49_iterator.
Print Assumptions C49_generator.
Print Assumptions C49_vector.
Print Assumptions C49_vector_sr.
Print Assumptions C49_transform.
Print Assumptions C49_make_tuple.
Print Assumptions C49_choose.
Print Assumptions C49_unique.
Print Assumptions C49_materialize.
Print Assumptions C49_discard.
Print Assumptions C49_materialize_vector.
Print Assumptions C68_copy_partial.
Print Assumptions C68_original_refuted.
Print Assumptions C68_destroy_refuted.
