(** Proofs about the file implementations. *)
From Coq Require Import String Ascii List Arith Bool Lia.
From Verif Require Import FilesModel FilesSpec.
Import ListNotations.

(** ** The kernel operations *)
Lemma nth_firstn_lt (A : Type) (d : A) n l i : i < n -> nth i (firstn n l) d = nth i l d.
Proof. revert l i. induction n as [|n IH]; intros [|x l] [|i] H; cbn; try lia; try reflexivity. apply IH. lia. Qed.
Lemma nth_skipn_add (A : Type) (d : A) n l i : nth i (skipn n l) d = nth (n + i) l d.
Proof. revert l. induction n as [|n IH]; intros [|x l]; cbn; try reflexivity; [now destruct i|apply IH]. Qed.
Lemma nth_app_repeat0 c k i : nth i (c ++ repeat 0 k) 0 = nth i c 0.
Proof.
  destruct (Nat.lt_ge_cases i (length c)) as [H|H]; [now rewrite app_nth1|].
  rewrite app_nth2 by exact H. rewrite (nth_overflow c) by exact H. apply nth_repeat.
Qed.

Lemma k_write_length off data c : data <> [] -> length (k_write off data c) = Nat.max (length c) (off + length data).
Proof.
  intros N. unfold k_write. destruct data as [|x d]; [congruence|].
  rewrite !app_length, firstn_length, app_length, repeat_length, skipn_length. cbn [length]. lia.
Qed.
Lemma k_write_nth off data c i : nth i (k_write off data c) 0 =
  if (off <=? i) && (i <? off + length data) then nth (i - off) data 0 else nth i c 0.
Proof.
  unfold k_write. destruct data as [|x d].
  - cbn [length]. destruct (off <=? i) eqn:A; [|reflexivity].
    apply Nat.leb_le in A. rewrite (proj2 (Nat.ltb_ge i (off + 0))) by lia. reflexivity.
  - set (data := x :: d).
    assert (length (firstn off (c ++ repeat 0 (off - length c))) = off) as Lf.
    { rewrite firstn_length, app_length, repeat_length. lia. }
    destruct (Nat.leb_spec off i) as [A|A]; cbn [andb].
    + rewrite app_nth2 by lia. rewrite Lf. destruct (Nat.ltb_spec i (off + length data)) as [B|B].
      * now rewrite app_nth1 by lia.
      * rewrite app_nth2 by lia. rewrite nth_skipn_add. f_equal. lia.
    + rewrite app_nth1 by lia. rewrite nth_firstn_lt by exact A. apply nth_app_repeat0.
Qed.
Lemma k_write_shows off data c a : shows c a -> shows (k_write off data c) (a_write off data a).
Proof.
  intros [L N]. split.
  - unfold a_write. cbn [asize]. destruct data as [|x d]; [exact L|]. rewrite k_write_length by discriminate. now rewrite L.
  - intros i. rewrite k_write_nth. cbn [a_write at_]. now rewrite N.
Qed.
Lemma k_truncate_length n c : length (k_truncate n c) = n.
Proof. unfold k_truncate. rewrite app_length, firstn_length, repeat_length. lia. Qed.
Lemma k_truncate_shows n c a : shows c a -> shows (k_truncate n c) (a_resize n a).
Proof.
  intros [L N]. split; [apply k_truncate_length|]. intros i. cbn [a_resize at_]. rewrite <- N. unfold k_truncate.
  destruct (Nat.ltb_spec i n) as [A|A].
  - rewrite nth_app_repeat0. now apply nth_firstn_lt.
  - rewrite nth_app_repeat0. apply nth_overflow. rewrite firstn_length. lia.
Qed.
Lemma k_read_length off n c : length (k_read off n c) = Nat.min n (length c - off).
Proof. unfold k_read. now rewrite firstn_length, skipn_length. Qed.
Lemma k_read_nth off n c i : i < n -> nth i (k_read off n c) 0 = nth (off + i) c 0.
Proof. intros H. unfold k_read. rewrite nth_firstn_lt by exact H. apply nth_skipn_add. Qed.

Lemma read_eq off n c a buf : shows c a -> length buf = n -> (forall i, i < n -> nth i buf 0 = nth (off + i) c 0) ->
  buf = a_read off n a.
Proof.
  intros [_ N] L H. unfold a_read. apply (nth_ext _ _ 0 (at_ a 0)).
  - now rewrite map_length, seq_length.
  - intros i Hi. rewrite L in Hi. rewrite map_nth, seq_nth by exact Hi. rewrite H by exact Hi. apply N.
Qed.

(** ** syscall_file *)
(** One call of read, for a request that is not empty. *)
Ltac step_read bytes := let b := fresh "b" in
  destruct bytes as [|b]; [congruence|]; cbn [read_loop] in *; remember (S b) as bytes.
Lemma read_loop_0 f ans c off : read_loop f ans c off 0 = (SOk, []).
Proof. destruct f; reflexivity. Qed.
Lemma read_loop_ok fuel : forall ans c off bytes buf, read_loop fuel ans c off bytes = (SOk, buf) ->
  length buf = bytes /\ forall i, i < bytes -> nth i buf 0 = nth (off + i) c 0.
Proof.
  induction fuel as [|f IH]; intros ans c off bytes buf H;
  (destruct (Nat.eq_dec bytes 0) as [->|Nz]; [rewrite read_loop_0 in H; injection H as <-; split; [reflexivity|intros i Hi; lia]|]).
  - destruct bytes; [congruence|discriminate].
  - step_read bytes. set (got := k_read off (Nat.min bytes (ans 0)) c) in *.
  assert (length got <= bytes) as Lg by (unfold got; rewrite k_read_length; lia).
  assert (forall i, i < length got -> nth i got 0 = nth (off + i) c 0) as Ng.
  { intros i Hi. unfold got. apply k_read_nth. unfold got in Hi. rewrite k_read_length in Hi. lia. }
  clearbody got.
  assert (got <> []) as Ne by (intros ->; discriminate).
  assert (forall (A : Type) (x y : A), match got with [] => x | _ => y end = y) as Em by (destruct got; [congruence|reflexivity]).
  rewrite Em in H. clear Em.
  destruct ((0 <? bytes - length got) && (off + length got =? length c)) eqn:B.
  + injection H as <-. apply andb_true_iff in B. destruct B as [_ B]. apply Nat.eqb_eq in B.
    split; [rewrite app_length, repeat_length; lia|]. intros i Hi. rewrite nth_app_repeat0.
    destruct (Nat.lt_ge_cases i (length got)) as [A|A]; [now apply Ng|].
    rewrite !nth_overflow by lia. reflexivity.
  + destruct (read_loop f _ c (off + length got) (bytes - length got)) as [s rest] eqn:E. injection H as -> <-.
    apply IH in E. destruct E as [L N]. split; [rewrite app_length; lia|]. intros i Hi.
    destruct (Nat.lt_ge_cases i (length got)) as [A|A]; [rewrite app_nth1 by exact A; now apply Ng|].
    rewrite app_nth2 by exact A. rewrite N by lia. f_equal. lia.
Qed.

Lemma read_loop_fuel fuel : forall ans c off bytes, bytes <= fuel -> fst (read_loop fuel ans c off bytes) <> SFuel.
Proof.
  induction fuel as [|f IH]; intros ans c off bytes Hb;
  (destruct (Nat.eq_dec bytes 0) as [->|Nz]; [rewrite read_loop_0; discriminate|]); [lia|].
  step_read bytes. destruct (k_read off (Nat.min bytes (ans 0)) c) as [|x g] eqn:Eg; [discriminate|].
  destruct ((0 <? _) && _); [discriminate|].
  specialize (IH (fun i => ans (S i)) c (off + length (x :: g)) (bytes - length (x :: g))).
  destruct (read_loop f _ c _ _) as [s rest]. cbn [fst] in *. apply IH. cbn [length]. lia.
Qed.

(** Without errors the read succeeds if it starts inside the file. *)
Lemma read_loop_succeeds fuel : forall ans c off bytes, bytes <= fuel -> (forall i, 0 < ans i) -> off < length c \/ bytes = 0 ->
  fst (read_loop fuel ans c off bytes) = SOk.
Proof.
  induction fuel as [|f IH]; intros ans c off bytes Hb Ha Ho;
  (destruct (Nat.eq_dec bytes 0) as [->|Nz]; [rewrite read_loop_0; reflexivity|]); [lia|].
  step_read bytes. destruct Ho as [Ho|Ho]; [|congruence].
  assert (length (k_read off (Nat.min bytes (ans 0)) c) = Nat.min (Nat.min bytes (ans 0)) (length c - off)) as Lg by apply k_read_length.
  specialize (Ha 0) as Ha0. set (got := k_read off (Nat.min bytes (ans 0)) c) in *. clearbody got.
  assert (forall (A : Type) (x y : A), match got with [] => x | _ => y end = y) as Em by (destruct got; [cbn in Lg; lia|reflexivity]).
  rewrite Em. clear Em.
  destruct (Nat.ltb_spec 0 (bytes - length got)) as [A|A]; cbn [andb].
  - destruct (Nat.eqb_spec (off + length got) (length c)) as [B|B]; [reflexivity|].
    match goal with |- fst (let '(_, _) := read_loop f ?an c ?o ?n in _) = _ =>
      specialize (IH an c o n ltac:(lia) (fun i => Ha (S i)) ltac:(lia)); destruct (read_loop f an c o n) as [s rest] end.
    exact IH.
  - match goal with |- fst (let '(_, _) := read_loop f ?an c ?o ?n in _) = _ =>
      specialize (IH an c o n ltac:(lia) (fun i => Ha (S i)) ltac:(lia)); destruct (read_loop f an c o n) as [s rest] end.
    exact IH.
Qed.

(** Writes: a prefix of the data arrives, all of it if the status is good. *)
Lemma k_write_two off d1 d2 c : k_write (off + length d1) d2 (k_write off d1 c) = k_write off (d1 ++ d2) c.
Proof.
  destruct d1 as [|x d1]; [cbn; now rewrite Nat.add_0_r|]. destruct d2 as [|y d2]; [cbn [k_write]; now rewrite app_nil_r|].
  apply (nth_ext _ _ 0 0).
  - rewrite !k_write_length by discriminate. rewrite app_length. lia.
  - intros i _. rewrite !k_write_nth, app_length. set (a := x :: d1). set (b := y :: d2).
    destruct (Nat.leb_spec off i) as [A|A]; destruct (Nat.leb_spec (off + length a) i) as [B|B]; cbn [andb]; try lia.
    + destruct (Nat.ltb_spec i (off + length a + length b)) as [C|C].
      * rewrite (proj2 (Nat.ltb_lt _ _)) by lia. rewrite app_nth2 by lia. f_equal. lia.
      * rewrite (proj2 (Nat.ltb_ge i (off + length a))) by lia. now rewrite (proj2 (Nat.ltb_ge _ _)) by lia.
    + rewrite (proj2 (Nat.ltb_lt i (off + length a))) by lia. rewrite (proj2 (Nat.ltb_lt _ _)) by lia.
      now rewrite app_nth1 by lia.
Qed.
Lemma write_loop_prefix fuel : forall ans c off data s c', write_loop fuel ans c off data = (s, c') ->
  exists k, k <= length data /\ c' = k_write off (firstn k data) c /\ (s = SOk -> k = length data).
Proof.
  induction fuel as [|f IH]; intros ans c off data s c' H; destruct data as [|x d]; cbn [write_loop] in H;
  try (injection H as <- <-; exists 0; repeat split; try reflexivity; cbn; try lia; discriminate).
  set (data := x :: d) in *. set (rc := Nat.min (length data) (ans 0)) in *.
  destruct (Nat.eqb_spec rc 0) as [Z|Z].
  - injection H as <- <-. exists 0. repeat split; [lia|discriminate].
  - apply IH in H. destruct H as (k & Hk & -> & Hs). rewrite skipn_length in Hk, Hs. exists (rc + k).
    assert (rc <= length data) as Hr by (unfold rc; lia).
    split; [lia|]. split; [|intros S0; specialize (Hs S0); lia].
    replace (off + rc) with (off + length (firstn rc data)) by (rewrite firstn_length; lia).
    rewrite k_write_two. f_equal.
    rewrite <- (firstn_skipn rc data) at 3. rewrite firstn_app, firstn_length.
    replace (Nat.min rc (length data)) with rc by lia. replace (rc + k - rc) with k by lia.
    rewrite (firstn_all2 (n := rc + k) (firstn rc data)) by (rewrite firstn_length; lia). reflexivity.
Qed.
Lemma write_loop_fuel fuel : forall ans c off data, length data <= fuel -> fst (write_loop fuel ans c off data) <> SFuel.
Proof.
  induction fuel as [|f IH]; intros ans c off data Hb; destruct data as [|x d]; cbn [write_loop]; try discriminate; [cbn in Hb; lia|].
  destruct (Nat.eqb_spec (Nat.min (length (x :: d)) (ans 0)) 0); [discriminate|]. apply IH. rewrite skipn_length. lia.
Qed.
Lemma write_loop_succeeds fuel : forall ans c off data, length data <= fuel -> (forall i, 0 < ans i) ->
  fst (write_loop fuel ans c off data) = SOk.
Proof.
  induction fuel as [|f IH]; intros ans c off data Hb Ha; destruct data as [|x d]; cbn [write_loop]; try reflexivity; [cbn in Hb; lia|].
  specialize (Ha 0) as Ha0.
  destruct (Nat.eqb_spec (Nat.min (length (x :: d)) (ans 0)) 0) as [Z|Z]; [cbn [length] in Z; lia|].
  apply IH; [rewrite skipn_length; lia|intros i; apply Ha].
Qed.

Lemma sys_read_shows ans off n c a buf : shows c a -> sys_read ans off n c = (SOk, buf) -> buf = a_read off n a.
Proof. intros S0 H. apply read_loop_ok in H. destruct H as [L N]. exact (read_eq off n c a buf S0 L N). Qed.
Lemma sys_write_shows ans off data c a c' : shows c a -> sys_write ans off data c = (SOk, c') -> shows c' (a_write off data a).
Proof.
  intros S0 H. apply write_loop_prefix in H. destruct H as (k & _ & -> & Hk). rewrite (Hk eq_refl), firstn_all.
  now apply k_write_shows.
Qed.

(** ** mmap_file *)
Lemma mapped_ge page c : 0 < page -> length c <= mapped page c.
Proof.
  intros P. unfold mapped. pose proof (Nat.div_mod (length c + (page - 1)) page ltac:(lia)) as D.
  pose proof (Nat.mod_upper_bound (length c + (page - 1)) page ltac:(lia)) as U. nia.
Qed.
Lemma mmap_ok_in page off n : n <> 0 -> off mod page = 0 -> mmap_ok page off n = true.
Proof.
  intros N M. unfold mmap_ok. destruct (Nat.eqb_spec n 0); [congruence|]. destruct (Nat.eqb_spec (off mod page) 0); [reflexivity|congruence].
Qed.
(** Every byte of a page that begins inside the file is mapped. *)
Lemma mapped_page page c i : 0 < page -> (i / page) * page < length c -> i < mapped page c.
Proof.
  intros P H. pose proof (mapped_ge page c P) as G.
  pose proof (Nat.div_mod i page ltac:(lia)) as D. pose proof (Nat.mod_upper_bound i page ltac:(lia)) as U.
  unfold mapped in *. set (q := i / page) in *. set (m := (length c + (page - 1)) / page) in *.
  assert (q < m) as Q by (apply Nat.nle_gt; intros K; pose proof (Nat.mul_le_mono_r _ _ page K); lia).
  pose proof (Nat.mul_le_mono_r (S q) m page Q) as Z. cbn in Z. lia.
Qed.
Lemma mmap_read_page page off n c a : 0 < page -> shows c a -> n <> 0 -> off mod page = 0 ->
  ((off + n - 1) / page) * page < asize a -> mmap_read page off n c = (SOk, a_read off n a).
Proof.
  intros P S0 N M B. pose proof S0 as [L Hn]. unfold mmap_read.
  rewrite <- L in B. pose proof (mapped_page page c (off + n - 1) P B) as G.
  rewrite (mmap_ok_in _ _ _ N M). cbn [negb]. rewrite (proj2 (Nat.ltb_ge _ _)) by lia. f_equal.
  assert (length (k_read off n c) <= n) as Lr by (rewrite k_read_length; lia).
  apply (read_eq off n c a _ S0); [rewrite app_length, repeat_length; lia|]. intros i Hi. rewrite nth_app_repeat0.
  destruct (Nat.lt_ge_cases i (length (k_read off n c))) as [A|A]; [apply k_read_nth; rewrite k_read_length in A; lia|].
  rewrite k_read_length in A. rewrite !nth_overflow; [reflexivity|lia|rewrite k_read_length; lia].
Qed.
Lemma last_page page x n : 0 < page -> 0 < n -> forall s, x + n <= s -> ((x + n - 1) / page) * page < s.
Proof.
  intros P N s B. pose proof (Nat.mul_div_le (x + n - 1) page ltac:(lia)). rewrite Nat.mul_comm. lia.
Qed.
Lemma mmap_read_shows page off n c a : 0 < page -> shows c a -> n <> 0 -> off mod page = 0 -> off + n <= asize a ->
  mmap_read page off n c = (SOk, a_read off n a).
Proof. intros P S0 N M B. apply mmap_read_page; try assumption. apply last_page; lia. Qed.
Lemma mmap_write_page page off data c : 0 < page -> data <> [] -> off mod page = 0 ->
  ((off + length data - 1) / page) * page < length c -> mmap_write page off data c = (SOk, k_write off (firstn (length c - off) data) c).
Proof.
  intros P N M B. unfold mmap_write. pose proof (mapped_page page c (off + length data - 1) P B) as G.
  assert (length data <> 0) as N0 by (destruct data; [congruence|discriminate]).
  rewrite (mmap_ok_in _ _ _ N0 M). cbn [negb]. rewrite (proj2 (Nat.ltb_ge _ _)) by lia. reflexivity.
Qed.
Lemma mmap_write_shows page off data c a : 0 < page -> shows c a -> data <> [] -> off mod page = 0 -> off + length data <= asize a ->
  exists c', mmap_write page off data c = (SOk, c') /\ shows c' (a_write off data a).
Proof.
  intros P S0 N M B. pose proof S0 as [L Hn]. assert (length data <> 0) as N0 by (destruct data; [congruence|discriminate]).
  eexists. split; [apply mmap_write_page; try assumption; apply last_page; lia|]. rewrite firstn_all2 by lia. now apply k_write_shows.
Qed.
(** A write that ends behind the file: the file keeps its size, the tail is lost. *)
Lemma mmap_write_tail page off data c a : 0 < page -> shows c a -> data <> [] -> off mod page = 0 -> off < asize a ->
  ((off + length data - 1) / page) * page < asize a ->
  exists c', mmap_write page off data c = (SOk, c') /\ shows c' (a_write off (firstn (asize a - off) data) a) /\ length c' = length c.
Proof.
  intros P S0 N M O B. pose proof S0 as [L Hn]. rewrite <- L in B, O |- *. eexists.
  split; [apply mmap_write_page; assumption|]. split; [now apply k_write_shows|].
  assert (length (firstn (length c - off) data) <= length c - off) as F by (rewrite firstn_length; lia).
  destruct (firstn (length c - off) data) as [|x l]; [reflexivity|]. rewrite k_write_length by discriminate. lia.
Qed.

(** ** mem_file *)
Lemma nth_error_app_r (A : Type) (l1 l2 : list A) i : nth_error (l1 ++ l2) i =
  if i <? length l1 then nth_error l1 i else nth_error l2 (i - length l1).
Proof.
  destruct (Nat.ltb_spec i (length l1)); [now apply nth_error_app1|now apply nth_error_app2].
Qed.
Lemma nth_error_firstn_ (A : Type) n (l : list A) i : nth_error (firstn n l) i = if i <? n then nth_error l i else None.
Proof.
  revert l i. induction n as [|n IH]; intros [|x l] [|i]; cbn [firstn nth_error]; try reflexivity.
  - now destruct (S i <? S n).
  - rewrite IH. reflexivity.
Qed.
Lemma nth_error_skipn_ (A : Type) n (l : list A) i : nth_error (skipn n l) i = nth_error l (n + i).
Proof. revert l. induction n as [|n IH]; intros [|x l]; cbn; try reflexivity; [now destruct i|apply IH]. Qed.

Lemma mem_read_agrees off n m a : agrees m a -> off + n <= asize a ->
  exists buf, mem_read off n m = Some buf /\ length buf = n /\
    forall i b, nth_error buf i = Some (Some b) -> nth_error (a_read off n a) i = Some b.
Proof.
  intros [L H] B. unfold mem_read. rewrite (proj2 (Nat.leb_le _ _)) by lia. eexists. split; [reflexivity|].
  split; [rewrite firstn_length, skipn_length; lia|]. intros i b Hi. rewrite nth_error_firstn_ in Hi.
  destruct (Nat.ltb_spec i n) as [A|A]; [|discriminate]. rewrite nth_error_skipn_ in Hi. apply H in Hi.
  unfold a_read. rewrite nth_error_map, (nth_error_nth' _ 0) by (rewrite seq_length; exact A).
  rewrite seq_nth by exact A. cbn. now rewrite Hi.
Qed.
Lemma mem_write_agrees off data m a : agrees m a -> off + length data <= asize a -> data <> [] ->
  exists m', mem_write off data m = Some m' /\ agrees m' (a_write off data a) /\
    forall i, off <= i < off + length data -> exists b, nth_error m' i = Some (Some b).
Proof.
  intros [L H] B N. unfold mem_write. rewrite (proj2 (Nat.leb_le _ _)) by lia. eexists. split; [reflexivity|].
  assert (length (firstn off m) = off) as Lf by (rewrite firstn_length; lia).
  assert (forall i, nth_error (firstn off m ++ map Some data ++ skipn (off + length data) m) i =
    if i <? off then nth_error m i else if i <? off + length data then nth_error (map Some data) (i - off) else nth_error m i) as E.
  { intros i. rewrite nth_error_app_r, Lf, nth_error_firstn_. destruct (Nat.ltb_spec i off); [reflexivity|].
    rewrite nth_error_app_r, map_length. destruct (Nat.ltb_spec (i - off) (length data)) as [A|A].
    - now rewrite (proj2 (Nat.ltb_lt _ _)) by lia.
    - rewrite (proj2 (Nat.ltb_ge _ _)) by lia. rewrite nth_error_skipn_. f_equal. lia. }
  split.
  - split.
    + cbn [a_write asize]. destruct data as [|x d]; [congruence|].
      rewrite !app_length, Lf, map_length, skipn_length. lia.
    + intros i b Hi. rewrite E in Hi. cbn [a_write at_].
      destruct (Nat.ltb_spec i off) as [A|A]; [rewrite (proj2 (Nat.leb_gt _ _)) by exact A; cbn [andb]; now apply H|].
      rewrite (proj2 (Nat.leb_le _ _)) by exact A. cbn [andb]. destruct (Nat.ltb_spec i (off + length data)) as [C|C]; [|now apply H].
      rewrite nth_error_map in Hi. destruct (nth_error data (i - off)) as [y|] eqn:Ey; [|discriminate]. injection Hi as ->.
      now apply nth_error_nth.
  - intros i Hi. rewrite E, (proj2 (Nat.ltb_ge _ _)), (proj2 (Nat.ltb_lt _ _)) by lia. rewrite nth_error_map.
    destruct (nth_error data (i - off)) as [y|] eqn:Ey; [exists y; reflexivity|].
    apply nth_error_None in Ey. lia.
Qed.
Lemma nth_error_repeat_none k i b : nth_error (repeat (@None nat) k) i = Some (Some b) -> False.
Proof. intros H. apply nth_error_In in H. apply repeat_spec in H. discriminate. Qed.
Lemma mem_resize_agrees n m a : agrees m a -> agrees (mem_set_size n m) (a_resize n a).
Proof.
  intros [L H]. unfold mem_set_size. split; [rewrite app_length, firstn_length, repeat_length; cbn; lia|].
  intros i b Hi. rewrite nth_error_app_r, firstn_length, nth_error_firstn_ in Hi.
  destruct (i <? Nat.min n (length m)) eqn:A; [|exfalso; exact (nth_error_repeat_none _ _ _ Hi)].
  apply Nat.ltb_lt in A. cbn [a_resize at_]. rewrite (proj2 (Nat.ltb_lt _ _)) in * by lia. now apply H.
Qed.

(** Blanking. *)
Lemma mem_blank_ok off n m : off + n <= length m -> exists m', mem_blank off n m = Some m' /\ length m' = length m /\
  forall i, nth_error m' i = if (off <=? i) && (i <? off + n) then Some None else nth_error m i.
Proof.
  intros B. unfold mem_blank. rewrite (proj2 (Nat.leb_le _ _)) by exact B. eexists. split; [reflexivity|].
  assert (length (firstn off m) = off) as Lf by (rewrite firstn_length; lia).
  split; [rewrite !app_length, Lf, repeat_length, skipn_length; lia|]. intros i.
  rewrite nth_error_app_r, Lf, nth_error_firstn_. destruct (Nat.ltb_spec i off) as [A|A].
  - now rewrite (proj2 (Nat.leb_gt _ _)) by exact A.
  - rewrite (proj2 (Nat.leb_le _ _)) by exact A. cbn [andb]. rewrite nth_error_app_r, repeat_length.
    destruct (Nat.ltb_spec (i - off) n) as [C|C].
    + rewrite (proj2 (Nat.ltb_lt _ _)) by lia. rewrite (nth_error_nth' _ None) by (rewrite repeat_length; lia).
      now rewrite nth_repeat.
    + rewrite (proj2 (Nat.ltb_ge _ _)) by lia. rewrite nth_error_skipn_. f_equal. lia.
Qed.
Lemma discard_ok fuel : forall align off size m, 0 < align -> size < fuel -> off + size <= length m ->
  exists m', discard_loop fuel align off size m = Some m' /\ length m' = length m /\
  forall i, nth_error m' i = if (off <=? i) && (i <? off + size) then Some None else nth_error m i.
Proof.
  induction fuel as [|f IH]; intros align off size m P F B; [lia|]. cbn [discard_loop].
  destruct (Nat.leb_spec align size) as [A|A].
  - destruct (mem_blank_ok off align m ltac:(lia)) as (m1 & -> & L1 & H1).
    destruct (IH align (off + align) (size - align) m1 P ltac:(lia) ltac:(lia)) as (m2 & -> & L2 & H2).
    exists m2. split; [reflexivity|]. split; [lia|]. intros i. rewrite H2, H1.
    destruct (Nat.leb_spec off i); destruct (Nat.leb_spec (off + align) i); destruct (Nat.ltb_spec i (off + size));
    destruct (Nat.ltb_spec i (off + align)); destruct (Nat.ltb_spec i (off + align + (size - align))); cbn [andb]; try lia; reflexivity.
  - destruct (Nat.ltb_spec 0 size) as [C|C].
    + apply mem_blank_ok. exact B.
    + exists m. split; [reflexivity|]. split; [reflexivity|]. intros i. assert (size = 0) as -> by lia.
      destruct (Nat.leb_spec off i); destruct (Nat.ltb_spec i (off + 0)); cbn [andb]; try lia; reflexivity.
Qed.
