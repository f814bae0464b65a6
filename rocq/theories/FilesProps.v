(** The theorems about the file implementations: C109 to C112. *)
From Coq Require Import String Ascii List Arith Bool Lia.
From Verif Require Import FilesModel FilesSpec Files.
Import ListNotations.

(** ** C109: syscall_file *)
(** However the kernel splits the transfers: a read that returns gives the bytes of the file, zeros behind its end. *)
Theorem C109_read : forall ans off n c a buf, shows c a -> sys_read ans off n c = (SOk, buf) -> buf = a_read off n a.
Proof. exact sys_read_shows. Qed.
Theorem C109_write : forall ans off data c a c', shows c a -> sys_write ans off data c = (SOk, c') ->
  shows c' (a_write off data a).
Proof. exact sys_write_shows. Qed.
(** Also a write that throws has written nothing but a prefix of its data. *)
Theorem C109_frame : forall ans off data c a s c', shows c a -> sys_write ans off data c = (s, c') ->
  exists k, k <= length data /\ shows c' (a_write off (firstn k data) a).
Proof.
  intros ans off data c a s c' S0 H. apply write_loop_prefix in H. destruct H as (k & Hk & -> & _). exists k.
  split; [exact Hk|]. now apply k_write_shows.
Qed.
(** The loops end; without errors they succeed. *)
Theorem C109_ends : forall ans off n data c, fst (sys_read ans off n c) <> SFuel /\ fst (sys_write ans off data c) <> SFuel.
Proof. intros. split; [apply read_loop_fuel; lia|apply write_loop_fuel; lia]. Qed.
Theorem C109_succeeds_partial : forall ans off n data c, (forall i, 0 < ans i) ->
  (off < length c \/ n = 0 -> fst (sys_read ans off n c) = SOk) /\ fst (sys_write ans off data c) = SOk.
Proof.
  intros ans off n data c H. split; [intros B; apply read_loop_succeeds; [lia|exact H|exact B]|].
  apply write_loop_succeeds; [lia|exact H].
Qed.
(** A read that crosses the end is filled with zeros, one that starts there throws. *)
Theorem C109_past_end_refuted :
  (exists c off n, off < length c /\ length c < off + n /\ forall ans, (forall i, 0 < ans i) -> sys_read ans off n c = (SOk, [7; 0; 0])) /\
  (forall ans c off n, length c <= off -> n <> 0 -> fst (sys_read ans off n c) = SThrow).
Proof.
  split.
  - exists [5; 7], 1, 3. split; [cbn; lia|]. split; [cbn; lia|]. intros ans H.
    assert (fst (sys_read ans 1 3 [5; 7]) = SOk) as E by (apply C109_succeeds_partial; [exact []|exact H|left; cbn; lia]).
    destruct (sys_read ans 1 3 [5; 7]) as [s buf] eqn:R. cbn in E. subst s.
    apply (C109_read _ _ _ _ (mkA 2 (fun i => nth i [5; 7] 0))) in R; [|split; [reflexivity|intros i; reflexivity]].
    rewrite R. reflexivity.
  - intros ans c off n B N. unfold sys_read. destruct n as [|n]; [congruence|]. cbn [read_loop].
    assert (length (k_read off (Nat.min (S n) (ans 0)) c) = 0) as L by (rewrite k_read_length; lia).
    destruct (k_read off (Nat.min (S n) (ans 0)) c); [reflexivity|discriminate].
Qed.
Example C109_example : sys_write (fun i => S i) 1 [7; 8; 9; 10] [1; 2] = (SOk, [1; 7; 8; 9; 10]) /\
  sys_write (fun i => 2 - i) 3 [7; 8; 9; 10] [1] = (SThrow, [1; 0; 0; 7; 8; 9]) /\
  sys_read (fun i => 2) 0 3 [1; 2; 3; 4] = (SOk, [1; 2; 3]) /\
  shows [1; 2] (mkA 2 (fun i => nth i [1; 2] 0)).
Proof. repeat split; reflexivity. Qed.

(** ** C110: the implementations agree on accesses inside the file *)
Fixpoint sys_run (p : list (op * (nat -> nat))) (c : list nat) : option (list (list nat)) :=
  match p with
  | [] => Some []
  | (o, ans) :: t =>
    let '(s, out, c') :=
      match o with
      | Write off data => let '(s, c') := sys_write ans off data c in (s, [], c')
      | Read off n => let '(s, buf) := sys_read ans off n c in (s, buf, c)
      | Resize n => (SOk, [], ufs_set_size true n c)
      end in
    match s, sys_run t c' with SOk, Some outs => Some (out :: outs) | _, _ => None end
  end.
Fixpoint mmap_run (page : nat) (p : list op) (c : list nat) : option (list (list nat)) :=
  match p with
  | [] => Some []
  | o :: t =>
    let '(s, out, c') :=
      match o with
      | Write off data => let '(s, c') := mmap_write page off data c in (s, [], c')
      | Read off n => let '(s, buf) := mmap_read page off n c in (s, buf, c)
      | Resize n => (SOk, [], ufs_set_size true n c)
      end in
    match s, mmap_run page t c' with SOk, Some outs => Some (out :: outs) | _, _ => None end
  end.
Fixpoint mem_run (p : list op) (m : list (option nat)) : option (list (list (option nat))) :=
  match p with
  | [] => Some []
  | o :: t =>
    match (match o with
           | Write off data => match mem_write off data m with Some m' => Some ([], m') | None => None end
           | Read off n => match mem_read off n m with Some buf => Some (buf, m) | None => None end
           | Resize n => Some ([], mem_set_size n m)
           end) with
    | Some (out, m') => match mem_run t m' with Some outs => Some (out :: outs) | None => None end
    | None => None
    end
  end.

Theorem C110_syscall : forall page p c a, shows c a -> all_inside page (map fst p) a ->
  (forall x i, In x p -> 0 < snd x i) -> sys_run p c = Some (a_run (map fst p) a).
Proof.
  intros page p. induction p as [|[o ans] t IH]; intros c a S0 I H; [reflexivity|]. cbn [map fst all_inside a_run sys_run] in *.
  destruct I as [I0 I]. pose proof (H _ 0 (or_introl eq_refl)) as _. assert (forall i, 0 < ans i) as Ha by (intros i; exact (H _ i (or_introl eq_refl))).
  assert (forall x i, In x t -> 0 < snd x i) as Ht by (intros x i Hx; apply H; now right).
  destruct o as [off data|off n|n]; cbn [a_step fst snd inside] in *.
  - assert (fst (sys_write ans off data c) = SOk) as E by (apply write_loop_succeeds; [lia|exact Ha]).
    destruct (sys_write ans off data c) as [s c'] eqn:W. cbn in E. subst s.
    rewrite (IH c' (a_write off data a)); [reflexivity|eapply sys_write_shows; eassumption|exact I|exact Ht].
  - assert (fst (sys_read ans off n c) = SOk) as E.
    { apply read_loop_succeeds; [lia|exact Ha|]. left. destruct S0 as [L _]. lia. }
    destruct (sys_read ans off n c) as [s buf] eqn:W. cbn in E. subst s.
    rewrite (IH c a S0 I Ht). now rewrite (sys_read_shows _ _ _ _ _ _ S0 W).
  - unfold ufs_set_size. rewrite (IH (k_truncate n c) (a_resize n a)); [reflexivity|now apply k_truncate_shows|exact I|exact Ht].
Qed.
Theorem C110_mmap : forall page p c a, 0 < page -> shows c a -> all_inside page p a -> mmap_run page p c = Some (a_run p a).
Proof.
  intros page p c a P. revert c a. induction p as [|o t IH]; intros c a S0 I; [reflexivity|]. cbn [all_inside a_run mmap_run] in *.
  destruct I as [I0 I]. destruct o as [off data|off n|n]; cbn [a_step fst snd inside] in *.
  - destruct I0 as (N & M & B). destruct (mmap_write_shows page off data c a P S0 N M B) as (c' & -> & S1).
    rewrite (IH c' _ S1 I). reflexivity.
  - destruct I0 as (N & M & B). rewrite (mmap_read_shows page off n c a P S0 N M B). rewrite (IH c a S0 I). reflexivity.
  - unfold ufs_set_size. rewrite (IH (k_truncate n c) (a_resize n a)); [reflexivity|now apply k_truncate_shows|exact I].
Qed.
(** mmap_file: as long as the last byte is on a page of the file, reads cross its end and give zeros there; *)
Theorem C110_mmap_last_page : forall page off n c a, 0 < page -> shows c a -> n <> 0 -> off mod page = 0 ->
  ((off + n - 1) / page) * page < asize a -> mmap_read page off n c = (SOk, a_read off n a).
Proof. exact mmap_read_page. Qed.
(** writes return, but the bytes behind the end are lost. *)
Theorem C110_mmap_tail_refuted : forall page off data c a, 0 < page -> shows c a -> data <> [] -> off mod page = 0 -> off < asize a ->
  ((off + length data - 1) / page) * page < asize a ->
  exists c', mmap_write page off data c = (SOk, c') /\ shows c' (a_write off (firstn (asize a - off) data) a) /\ length c' = length c.
Proof. exact mmap_write_tail. Qed.
Example C110_tail_example : mmap_write 8 8 [1; 2; 3] (repeat 0 10) = (SOk, repeat 0 8 ++ [1; 2]) /\
  sys_write (fun _ => 9) 8 [1; 2; 3] (repeat 0 10) = (SOk, repeat 0 8 ++ [1; 2; 3]) /\ ((8 + 3 - 1) / 8) * 8 < 10.
Proof. repeat split. cbn. lia. Qed.
(** mem_file: the same bytes wherever its memory has been written. *)
Theorem C110_mem : forall page p m a, agrees m a -> all_inside page p a -> exists outs, mem_run p m = Some outs /\
  Forall2 (fun out ref => length out = length ref /\ forall i b, nth_error out i = Some (Some b) -> nth_error ref i = Some b) outs (a_run p a).
Proof.
  intros page p. induction p as [|o t IH]; intros m a S0 I; [exists []; split; [reflexivity|constructor]|].
  cbn [all_inside a_run mem_run] in *. destruct I as [I0 I].
  assert (forall i b, nth_error (@nil (option nat)) i = Some (Some b) -> nth_error (@nil nat) i = Some b) as Nil by (intros [|i] b Hb; discriminate).
  destruct o as [off data|off n|n]; cbn [a_step fst snd inside] in *.
  - destruct I0 as (N & M & B). destruct (mem_write_agrees off data m a S0 B N) as (m' & -> & S1 & _).
    destruct (IH m' _ S1 I) as (outs & -> & F). exists ([] :: outs). split; [reflexivity|]. constructor; [now split|exact F].
  - destruct I0 as (N & M & B). destruct (mem_read_agrees off n m a S0 B) as (buf & -> & L & R).
    destruct (IH m a S0 I) as (outs & -> & F). exists (buf :: outs). split; [reflexivity|]. constructor; [|exact F].
    split; [unfold a_read; rewrite map_length, seq_length; exact L|exact R].
  - destruct (IH (mem_set_size n m) (a_resize n a) (mem_resize_agrees n m a S0) I) as (outs & -> & F).
    exists ([] :: outs). split; [reflexivity|]. constructor; [now split|exact F].
Qed.
(** mem_file: exactly which bytes are defined, for all accesses inside the memory. *)
Lemma nth_firstn_ (m : list (option nat)) : forall n i, nth i (firstn n m) None = if i <? n then nth i m None else None.
Proof.
  induction m as [|x m IH]; intros [|n] [|i]; cbn [firstn nth]; try reflexivity; [now destruct (S i <? S n)|]. rewrite IH. reflexivity.
Qed.
Lemma nth_skipn_ (m : list (option nat)) : forall n i, nth i (skipn n m) None = nth (n + i) m None.
Proof. induction m as [|x m IH]; intros [|n] i; cbn; try reflexivity; [now destruct i|apply IH]. Qed.
Theorem C110_mem_exact : forall p m d, d_shows m d -> d_inside p (dsize d) -> mem_run p m = Some (d_run p d).
Proof.
  intros p. induction p as [|o t IH]; intros m d [L N] I; [reflexivity|]. cbn [mem_run d_run].
  destruct o as [off data|off n|n]; cbn [d_step fst snd d_inside] in *.
  - destruct I as [B I]. unfold mem_write. rewrite (proj2 (Nat.leb_le _ _)) by lia.
    rewrite (IH _ (mkD (dsize d) (fun i => if (off <=? i) && (i <? off + length data) then nth_error data (i - off) else dat d i))); [reflexivity| |exact I].
    assert (length (firstn off m) = off) as Lf by (rewrite firstn_length; lia).
    split; [rewrite !app_length, Lf, map_length, skipn_length; cbn [dsize]; lia|]. intros i. cbn [dat].
    destruct (Nat.leb_spec off i) as [A|A]; cbn [andb].
    + rewrite app_nth2, Lf by lia. destruct (Nat.ltb_spec i (off + length data)) as [C|C].
      * rewrite app_nth1 by (rewrite map_length; lia). generalize (i - off) as k. clear. induction data as [|x l IH]; intros [|k]; try reflexivity. apply IH.
      * rewrite app_nth2, map_length by (rewrite map_length; lia). rewrite nth_skipn_, <- N. f_equal. lia.
    + rewrite app_nth1, nth_firstn_ by lia. rewrite (proj2 (Nat.ltb_lt _ _)) by lia. apply N.
  - destruct I as [B I]. unfold mem_read. rewrite (proj2 (Nat.leb_le _ _)) by lia. rewrite (IH m d (conj L N) I). do 2 f_equal.
    assert (length (firstn n (skipn off m)) = n) as Lr by (rewrite firstn_length, skipn_length; lia).
    apply (nth_ext _ _ None (dat d 0)); [now rewrite map_length, seq_length|]. intros i Hi. rewrite Lr in Hi.
    rewrite map_nth, seq_nth by exact Hi. rewrite nth_firstn_, (proj2 (Nat.ltb_lt _ _)) by exact Hi. rewrite nth_skipn_. apply N.
  - rewrite (IH _ (mkD n (fun i => if i <? n then dat d i else None))); [reflexivity| |exact I]. unfold mem_set_size.
    split; [rewrite app_length, firstn_length, repeat_length; cbn [dsize]; lia|]. intros i. cbn [dat].
    destruct (Nat.lt_ge_cases i (length (firstn n m))) as [A|A].
    + rewrite app_nth1, nth_firstn_ by exact A. rewrite firstn_length in A. rewrite N. reflexivity.
    + rewrite app_nth2 by exact A. rewrite firstn_length in A. rewrite <- N.
      replace (nth (i - length (firstn n m)) (repeat (@None nat) (n - length m)) None) with (@None nat) by (symmetry; apply nth_repeat).
      destruct (Nat.ltb_spec i n); [symmetry; apply nth_overflow; lia|reflexivity].
Qed.
(** mem_file: what was written and stays inside the file is defined. *)
Theorem C110_mem_defined : forall off data m a m', agrees m a -> off + length data <= asize a -> data <> [] ->
  mem_write off data m = Some m' -> mem_read off (length data) m' = Some (map Some data).
Proof.
  intros off data m a m' S0 B N H. destruct (mem_write_agrees off data m a S0 B N) as (m1 & E & S1 & D).
  rewrite H in E. injection E as <-. unfold mem_write in H. destruct S0 as [L0 _].
  rewrite (proj2 (Nat.leb_le _ _)) in H by lia. injection H as <-. unfold mem_read.
  assert (length (firstn off m) = off) as Lf by (rewrite firstn_length; lia).
  rewrite (proj2 (Nat.leb_le _ _)) by (rewrite !app_length, Lf, map_length; lia).
  f_equal. rewrite skipn_app, Lf, Nat.sub_diag. rewrite skipn_all2 by lia. cbn [app skipn].
  rewrite firstn_app, map_length, Nat.sub_diag, firstn_O, app_nil_r. apply firstn_all2. rewrite map_length. lia.
Qed.
(** discard of mem_file forgets exactly the region. *)
Theorem C110_discard : forall align off size m, 0 < align -> off + size <= length m -> exists m', mem_discard align off size m = Some m' /\
  length m' = length m /\ forall i, nth_error m' i = if (off <=? i) && (i <? off + size) then Some None else nth_error m i.
Proof. intros. apply discard_ok; lia. Qed.
(** Outside the file the implementations differ: a write behind the end extends the file (syscall), kills the process
    (mmap), destroys memory (mem); an empty access succeeds (syscall) or throws (mmap); an access that does not start
    at a page throws (mmap). *)
Theorem C110_outside_refuted : forall page, 0 < page ->
  sys_write (fun _ => 1) page [1] (repeat 0 page) = (SOk, repeat 0 page ++ [1]) /\
  fst (mmap_write page page [1] (repeat 0 page)) = SCrash /\
  mem_write page [1] (repeat (Some 0) page) = None /\
  sys_read (fun _ => 1) 0 0 [] = (SOk, []) /\ fst (mmap_read page 0 0 []) = SThrow /\
  (1 < page -> fst (mmap_read page 1 1 (repeat 0 page)) = SThrow).
Proof.
  intros page P. split; [|split; [|split; [|split; [|split]]]].
  - unfold sys_write. cbn [write_loop length Nat.min Nat.eqb firstn skipn]. f_equal. unfold k_write. cbn [length].
    rewrite repeat_length, Nat.sub_diag. cbn [repeat]. rewrite app_nil_r, firstn_all2 by (rewrite repeat_length; lia).
    rewrite skipn_all2 by (rewrite repeat_length; lia). reflexivity.
  - unfold mmap_write, mmap_ok. cbn [length]. rewrite Nat.mod_same by lia. cbn [negb andb Nat.eqb].
    assert (mapped page (repeat 0 page) = page) as ->.
    { unfold mapped. rewrite repeat_length. replace ((page + (page - 1)) / page) with 1; [lia|].
      apply (Nat.div_unique (page + (page - 1)) page 1 (page - 1)); lia. }
    rewrite (proj2 (Nat.ltb_lt _ _)) by lia. reflexivity.
  - unfold mem_write. rewrite repeat_length. cbn [length]. rewrite (proj2 (Nat.leb_gt _ _)) by lia. reflexivity.
  - reflexivity.
  - reflexivity.
  - intros Q. unfold mmap_read, mmap_ok. rewrite Nat.mod_small by lia. reflexivity.
Qed.
(** The bytes a growing mem_file gains are not zero but undefined; those of the others are zero. *)
Theorem C110_grow_refuted : forall n, 0 < n -> mem_run [Resize n; Read 0 n] [] = Some [[]; repeat None n] /\
  sys_run [(Resize n, fun _ => n); (Read 0 n, fun _ => n)] [] = Some [[]; repeat 0 n].
Proof.
  intros n P. split.
  - cbn [mem_run]. unfold mem_set_size, mem_read. rewrite firstn_nil. cbn [app length]. rewrite Nat.sub_0_r, repeat_length. cbn [Nat.add].
    rewrite Nat.leb_refl. cbn [skipn]. rewrite firstn_all2 by (rewrite repeat_length; apply le_n). reflexivity.
  - rewrite (C110_syscall 1 _ [] (mkA 0 (fun _ => 0))).
    + cbn [map fst a_run a_step snd a_resize]. do 2 f_equal. unfold a_read. cbn [at_]. f_equal.
      transitivity (map (fun _ : nat => 0) (seq 0 n)).
      * apply map_ext. intros i. cbn [a_resize at_]. now destruct (i <? n).
      * clear P. generalize 0 at 2. induction n as [|n IH]; intros s; [reflexivity|]. cbn. f_equal. apply IH.
    + split; [reflexivity|]. intros [|i]; reflexivity.
    + cbn. split; [exact I|]. split; [|exact I]. split; [lia|]. split; [reflexivity|lia].
    + intros x i [<-|[<-|[]]]; exact P.
Qed.
(** set_size of a file that is read-only does nothing and does not say so. *)
Theorem C110_set_size_refuted : exists c, ufs_size (ufs_set_size false 5 c) <> 5.
Proof. exists []. discriminate. Qed.
Theorem C110_set_size : forall n c, ufs_size (ufs_set_size true n c) = n.
Proof. intros. apply k_truncate_length. Qed.
Example C110_example : all_inside 2 [Resize 4; Write 2 [8; 9]; Write 0 [5]; Read 0 4; Resize 3; Read 2 1] (mkA 0 (fun _ => 0)) /\
  a_run [Resize 4; Write 2 [8; 9]; Write 0 [5]; Read 0 4; Resize 3; Read 2 1] (mkA 0 (fun _ => 0)) = [[]; []; []; [5; 0; 8; 9]; []; [8]] /\
  mem_run [Resize 4; Write 2 [8; 9]; Write 0 [5]; Read 0 4; Resize 3; Read 2 1] [] =
    Some [[]; []; []; [Some 5; None; Some 8; Some 9]; []; [Some 8]] /\
  d_inside [Resize 4; Write 2 [8; 9]; Write 0 [5]; Read 0 4; Resize 3; Read 2 1] 0 /\ d_shows [] (mkD 0 (fun _ => None)).
Proof. split; [|split; [reflexivity|split; [reflexivity|split; [cbn; lia|split; [reflexivity|intros [|i]; reflexivity]]]]]. cbn. repeat split; try discriminate; lia. Qed.

(** ** C111: one file for each block *)
Fixpoint fpb_run (p : list (bop * (nat -> nat))) (len : nat -> nat) (f : fpb) : option (list (list nat)) :=
  match p with
  | [] => Some []
  | (o, ans) :: t =>
    let '(s, out, f') :=
      match o with
      | BWrite x data => let '(s, f') := fpb_write true ans x data f in (s, [], f')
      | BRead x => fpb_read true ans x (len x) f
      | BDiscard x => (SOk, [], fpb_discard x f)
      end in
    match s, fpb_run t len f' with SOk, Some outs => Some (out :: outs) | _, _ => None end
  end.
Definition keeps (len : nat -> nat) (f : fpb) (b : nat -> list nat) : Prop :=
  forall o, length (b o) = len o /\ match blocks f o with Some c => c = b o | None => b o = repeat 0 (len o) end.
Lemma k_truncate_id c : k_truncate (length c) c = c.
Proof. unfold k_truncate. rewrite firstn_all, Nat.sub_diag. apply app_nil_r. Qed.
Lemma open_keeps len f b o : keeps len f b -> fpb_open true o (len o) f = Some (b o).
Proof.
  intros K. destruct (K o) as [L E]. unfold fpb_open. destruct (blocks f o) as [c|].
  - subst c. rewrite <- L. now rewrite k_truncate_id.
  - rewrite E. unfold k_truncate. rewrite firstn_nil. cbn [length app]. now rewrite Nat.sub_0_r.
Qed.
Lemma set_keeps len f b o d : keeps len f b -> length d = len o -> keeps len (set_block o (Some d) f) (fun x => if x =? o then d else b x).
Proof.
  intros K L x. cbn [set_block blocks]. destruct (Nat.eqb_spec x o) as [->|N]; [split; [exact L|reflexivity]|apply K].
Qed.
Lemma shows_self c : shows c (mkA (length c) (fun i => nth i c 0)).
Proof. split; reflexivity. Qed.
Lemma read_all ans c : (forall i, 0 < ans i) -> sys_read ans 0 (length c) c = (SOk, c).
Proof.
  intros H. assert (fst (sys_read ans 0 (length c) c) = SOk) as E.
  { apply read_loop_succeeds; [lia|exact H|]. destruct c; [right; reflexivity|left; cbn; lia]. }
  destruct (sys_read ans 0 (length c) c) as [s buf] eqn:R. cbn in E. subst s. f_equal.
  apply read_loop_ok in R. destruct R as [L N]. apply (nth_ext _ _ 0 0 L). intros i Hi. rewrite N by lia. reflexivity.
Qed.
Lemma write_all ans c d : (forall i, 0 < ans i) -> length c = length d -> sys_write ans 0 d c = (SOk, d).
Proof.
  intros H L. assert (fst (sys_write ans 0 d c) = SOk) as E by (apply write_loop_succeeds; [lia|exact H]).
  destruct (sys_write ans 0 d c) as [s c'] eqn:R. cbn in E. subst s. f_equal.
  apply write_loop_prefix in R. destruct R as (k & _ & -> & Hk). rewrite (Hk eq_refl), firstn_all.
  unfold k_write. destruct d as [|x d]; [destruct c; [reflexivity|discriminate]|]. cbn [firstn app Nat.add].
  rewrite skipn_all2 by lia. now rewrite app_nil_r.
Qed.

(** If every access to an offset has the same length, reads return the last write. *)
Theorem C111_blocks_partial : forall len p, (forall x, In x p -> fits len (fst x) /\ forall i, 0 < snd x i) ->
  fpb_run p len fpb0 = Some (b_run len (map fst p) (fun o => repeat 0 (len o))).
Proof.
  intros len p H.
  assert (keeps len fpb0 (fun o => repeat 0 (len o))) as K0 by (intros o; split; [apply repeat_length|reflexivity]).
  revert H K0. generalize fpb0 as f. generalize (fun o => repeat 0 (len o)) as b.
  induction p as [|[o ans] t IH]; intros b f H K; [reflexivity|]. cbn [fpb_run map fst b_run].
  destruct (H _ (or_introl eq_refl)) as [Hf Ha]. cbn [fst snd] in Hf, Ha.
  assert (forall x, In x t -> fits len (fst x) /\ forall i, 0 < snd x i) as Ht by (intros x Hx; apply H; now right).
  destruct o as [o data|o|o]; cbn [b_step fst snd fits] in *.
  - unfold fpb_write. rewrite Hf, (open_keeps _ _ _ _ K). rewrite (write_all ans (b o) data Ha) by (rewrite Hf; apply K).
    rewrite (IH (fun x => if x =? o then data else b x) _ Ht (set_keeps _ _ _ _ _ K Hf)). reflexivity.
  - unfold fpb_read. rewrite (open_keeps _ _ _ _ K). destruct (K o) as [L _].
    rewrite <- L at 1. rewrite (read_all ans (b o) Ha).
    assert (keeps len (set_block o (Some (b o)) f) b) as K1.
    { intros x. cbn [set_block blocks]. destruct (Nat.eqb_spec x o) as [->|N]; [split; [exact L|reflexivity]|apply K]. }
    rewrite (IH b _ Ht K1). reflexivity.
  - assert (keeps len (fpb_discard o f) (fun x => if x =? o then repeat 0 (len o) else b x)) as K1.
    { intros x. cbn [fpb_discard set_block blocks]. destruct (Nat.eqb_spec x o) as [->|N]; [split; [apply repeat_length|reflexivity]|apply K]. }
    rewrite (IH _ _ Ht K1). reflexivity.
Qed.
(** A read of fewer bytes deletes the rest of the block. *)
Theorem C111_short_read_refuted : exists f f' f'' d, fpb_write true (fun _ => 9) 0 [1; 2; 3; 4] fpb0 = (SOk, f) /\
  fpb_read true (fun _ => 9) 0 2 f = (SOk, [1; 2], f') /\ fpb_read true (fun _ => 9) 0 4 f' = (SOk, d, f'') /\ d = [1; 2; 0; 0].
Proof. eexists. eexists. eexists. eexists. split; [reflexivity|]. split; [reflexivity|]. split; reflexivity. Qed.
(** Bytes written at one offset are not found through another offset. *)
Theorem C111_offset_refuted : exists f f' d, fpb_write true (fun _ => 9) 0 [1; 2; 3; 4] fpb0 = (SOk, f) /\
  fpb_read true (fun _ => 9) 2 2 f = (SOk, d, f') /\ d = [0; 0].
Proof. eexists. eexists. eexists. split; [reflexivity|]. split; reflexivity. Qed.
(** The size is forgotten with the object. *)
Theorem C111_size_refuted : exists f n, fpb_size (fpb_set_size n f) = n /\ fpb_size (fpb_reopen (fpb_set_size n f)) <> n.
Proof. exists fpb0, 5. split; [reflexivity|discriminate]. Qed.
(** Different offsets have different files, none of them is the lock file. *)
Fixpoint value (acc : nat) (l : list ascii) : nat := match l with [] => acc | c :: t => value (10 * acc + (nat_of_ascii c - 48)) t end.
Lemma value_app l1 : forall acc l2, value acc (l1 ++ l2) = value (value acc l1) l2.
Proof. induction l1 as [|c l IH]; intros acc l2; [reflexivity|]. cbn [app value]. apply IH. Qed.
Lemma digit_value d : d < 10 -> nat_of_ascii (ascii_of_nat (48 + d)) - 48 = d /\ ascii_of_nat (48 + d) <> "l"%char.
Proof. intros H. do 10 (destruct d as [|d]; [split; [reflexivity|discriminate]|]). lia. Qed.
Lemma digits_value fuel : forall n acc, n < 10 ^ fuel -> exists l, digits_go fuel n acc = l ++ acc /\ value 0 l = n /\
  length l <= fuel /\ ~ In "l"%char l.
Proof.
  induction fuel as [|f IH]; intros n acc H.
  - exists []. cbn in H. repeat split; [cbn; lia|cbn; lia|intros []].
  - cbn [digits_go]. assert (n mod 10 < 10) as M by (apply Nat.mod_upper_bound; lia).
    assert (n = 10 * (n / 10) + n mod 10) as D by (apply Nat.div_mod; lia).
    destruct (digit_value _ M) as [V Nl]. destruct (Nat.eqb_spec (n / 10) 0) as [Z|Z].
    + exists [ascii_of_nat (48 + n mod 10)]. split; [reflexivity|]. split; [cbn [value]; rewrite V; lia|].
      split; [cbn; lia|]. intros [E|[]]. congruence.
    + destruct (IH (n / 10) (ascii_of_nat (48 + n mod 10) :: acc)) as (l & E & Vl & Ll & Il).
      { rewrite Nat.pow_succ_r' in H. apply Nat.div_lt_upper_bound; lia. }
      exists (l ++ [ascii_of_nat (48 + n mod 10)]). split; [rewrite E, <- app_assoc; reflexivity|].
      split; [rewrite value_app, Vl; cbn [value]; rewrite V; lia|]. split; [rewrite app_length; cbn; lia|].
      intros K. apply in_app_or in K. destruct K as [K|[K|[]]]; [exact (Il K)|congruence].
Qed.
Lemma value_zeros k l : value 0 (repeat "0"%char k ++ l) = value 0 l.
Proof. induction k as [|k IH]; [reflexivity|]. cbn [repeat app value]. exact IH. Qed.
Theorem C111_names : forall prefix o1 o2, o1 < 10 ^ 20 -> o2 < 10 ^ 20 ->
  (filename_for_block prefix o1 = filename_for_block prefix o2 -> o1 = o2) /\ filename_for_block prefix o1 <> lock_name prefix.
Proof.
  intros prefix o1 o2 H1 H2. unfold filename_for_block, lock_name.
  destruct (digits_value 20 o1 [] H1) as (l1 & E1 & V1 & L1 & I1). destruct (digits_value 20 o2 [] H2) as (l2 & E2 & V2 & L2 & I2).
  rewrite E1, E2, !app_nil_r. clear E1 E2. split.
  - intros E. apply app_inv_head in E. apply app_inv_head in E. apply (f_equal (value 0)) in E. rewrite !value_zeros in E. congruence.
  - intros E. apply app_inv_head in E.
    assert (repeat "0"%char (20 - length l1) ++ l1 = list_ascii_of_string "lock") as E' by (injection E; intros Q; exact Q).
    assert (In "l"%char (repeat "0"%char (20 - length l1) ++ l1)) as K by (rewrite E'; cbn; tauto).
    apply in_app_or in K. destruct K as [K|K]; [apply repeat_spec in K; discriminate|exact (I1 K)].
Qed.
Example C111_example : let len := fun o => if o =? 0 then 2 else 3 in
  let p := [BWrite 0 [1; 2]; BRead 4; BWrite 4 [5; 6; 7]; BRead 0; BDiscard 0; BRead 0; BRead 4] in
  (forall x, In x p -> fits len x) /\
  b_run len p (fun o => repeat 0 (len o)) = [[]; [0; 0; 0]; []; [1; 2]; []; [0; 0]; [5; 6; 7]] /\
  fpb_run (map (fun o => (o, fun _ => 1)) p) len fpb0 = Some [[]; [0; 0; 0]; []; [1; 2]; []; [0; 0]; [5; 6; 7]].
Proof. split; [|split; reflexivity]. intros x H. cbn in H. repeat (destruct H as [<-|H]; [cbn; tauto|]). destruct H. Qed.

(** ** C112: descriptors *)
(** A constructed file holds one descriptor; REQUIRE_DIRECT never opens without O_DIRECT; without any direct flag
    O_DIRECT is not used. *)
Theorem C112_open : forall m o1 o2 fs lk u, ufs_construct m o1 o2 fs lk = (SOk, u) ->
  fds u = 1 /\ fd u = true /\ (m_require m = true -> odirect u = true) /\
  (m_require m = false -> m_direct m = false -> odirect u = false) /\
  (odirect u = false -> m_direct m = true -> o1 = Einval) /\ (m_nolock m = false -> lk = true).
Proof.
  intros [d r nl] o1 o2 fs lk u. unfold ufs_construct, ufs_after_open. cbn [m_direct m_require m_nolock].
  destruct o1, o2, fs, lk, d, r, nl; cbn; intros H; try discriminate; injection H as <-; cbn; repeat split; congruence.
Qed.
(** A refused O_DIRECT is no error unless required. *)
Theorem C112_fallback : forall m, m_direct m = true -> m_require m = false ->
  exists u, ufs_construct m Einval Opened true true = (SOk, u) /\ odirect u = false.
Proof. intros [d r nl]. cbn. intros -> ->. destruct nl; eexists; split; reflexivity. Qed.
(** A constructor that throws after open (the lock is held by another process) leaves the descriptor open. *)
Theorem C112_leak_refuted : exists m u, ufs_construct m Opened Other true false = (SThrow, u) /\ fds u = 1.
Proof. exists (mkMode false false false). eexists. split; reflexivity. Qed.
(** A descriptor whose close fails is closed again by the destructor, when it may belong to another file. *)
Theorem C112_double_close_refuted : exists u u1 u2, u = mkUfs 1 true false /\
  ufs_close false u = (SThrow, u1, 1) /\ fds u1 = 0 /\ ufs_close true u1 = (SOk, u2, 1).
Proof. eexists. eexists. eexists. split; [reflexivity|]. split; [reflexivity|]. split; reflexivity. Qed.
(** Otherwise close releases the descriptor and is idempotent. *)
Theorem C112_close_partial : forall m o1 o2 fs lk u, ufs_construct m o1 o2 fs lk = (SOk, u) ->
  exists u1, ufs_close true u = (SOk, u1, 1) /\ fds u1 = 0 /\ forall ok, ufs_close ok u1 = (SOk, u1, 0).
Proof.
  intros m o1 o2 fs lk u H. apply C112_open in H. destruct H as (F & D & _). unfold ufs_close. rewrite D. cbn [negb].
  eexists. split; [reflexivity|]. rewrite F. split; reflexivity.
Qed.
Example C112_example : ufs_construct (mkMode true false false) Einval Opened true true = (SOk, mkUfs 1 true false) /\
  fst (ufs_construct (mkMode true true false) Einval Opened true true) = SThrow.
Proof. split; reflexivity. Qed.

Print Assumptions C109_read.
Print Assumptions C109_write.
Print Assumptions C109_frame.
Print Assumptions C109_ends.
Print Assumptions C109_succeeds_partial.
Print Assumptions C109_past_end_refuted.
Print Assumptions C110_syscall.
Print Assumptions C110_mmap.
Print Assumptions C110_mmap_last_page.
Print Assumptions C110_mmap_tail_refuted.
Print Assumptions C110_mem.
Print Assumptions C110_mem_exact.
Print Assumptions C110_mem_defined.
Print Assumptions C110_discard.
Print Assumptions C110_outside_refuted.
Print Assumptions C110_grow_refuted.
Print Assumptions C110_set_size.
Print Assumptions C110_set_size_refuted.
Print Assumptions C111_blocks_partial.
Print Assumptions C111_short_read_refuted.
Print Assumptions C111_offset_refuted.
Print Assumptions C111_size_refuted.
Print Assumptions C111_names.
Print Assumptions C112_open.
Print Assumptions C112_fallback.
Print Assumptions C112_leak_refuted.
Print Assumptions C112_double_close_refuted.
Print Assumptions C112_close_partial.
