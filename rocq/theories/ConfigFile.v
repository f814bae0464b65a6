(** Proofs about lines, files, ranges and device ids. *)
From Coq Require Import String Ascii ZArith List Bool Lia.
From Verif Require Import ConfigModel ConfigSpec Config ConfigSize ConfigDisk.
Import ListNotations.
Open Scope Z_scope.

(** ** Accepted options *)
Lemma split2 p : p <> [] -> exists k v, split p "=" 2 (Some 2%nat) = [k; v] /\
  ((p = k /\ v = []) \/ p = k ++ "="%char :: v).
Proof.
  intros N. unfold split. destruct p as [|c t]; [congruence|]. set (s := c :: t).
  pose proof (split_go_join "=" s (Some 2%nat)) as J. pose proof (split_go_limit "=" s 1) as Lm.
  pose proof (split_go_nonempty "=" s (Some 2%nat)) as E.
  destruct (split_go "=" (Some 2%nat) s) as [|k [|v [|? ?]]]; [congruence| | |cbn in Lm; lia].
  - exists k, []. split; [reflexivity|]. left. cbn in J. now split.
  - exists k, v. split; [reflexivity|]. right. cbn in J. now symmetry.
Qed.

Lemma step_cases p c c' : option_step p c = Ok c' -> option_text p /\
  (c' = c \/ (exists b, c' = set_autogrow b c) \/ c' = set_delete true c \/ (exists d, c' = set_direct d c) \/
   (exists n, c' = set_queue (to_int n) c /\ ~ named (io_impl c) "linuxaio") \/
   (exists n, c' = set_qlen (to_int n) c /\ named (io_impl c) "linuxaio") \/
   (exists n, c' = set_device (to_unsigned (to_int n)) c) \/
   (c' = set_raw true c /\ named (io_impl c) "syscall") \/
   (c' = set_unlink true c /\ (named (io_impl c) "syscall" \/ named (io_impl c) "linuxaio" \/
      named (io_impl c) "mmap" \/ named (io_impl c) "wbtl"))).
Proof.
  destruct (list_eq_dec ascii_dec p []) as [->|N].
  - intros H. cbn in H. injection H as <-. split; [left; cbn; tauto|left; reflexivity].
  - destruct (split2 p N) as (k & v & E & J). unfold option_step. rewrite E. cbn [nth].
    assert (forall x, In x plain_options -> option_text x) as P by (intros x Hx; now left).
    assert (forall s, In (list_ascii_of_string s) value_options -> eqs k s = true -> option_text p) as V.
    { intros s Hs Hk. apply eqs_iff in Hk. right. exists (list_ascii_of_string s). split; [exact Hs|].
      destruct J as [[-> _]| ->]; rewrite Hk; [left; reflexivity|right; now exists v]. }
    assert (forall s t, eqs k s = true -> eqs v t = true -> list_ascii_of_string t <> [] ->
      p = list_ascii_of_string s ++ "="%char :: list_ascii_of_string t) as KV.
    { intros s t Hk Hv Nt. apply eqs_iff in Hk, Hv. destruct J as [[_ J]| ->]; [congruence|]. now rewrite Hk, Hv. }
    destruct (eqs p "") eqn:E0. { apply eqs_iff in E0. contradiction. }
    destruct (eqs p "autogrow") eqn:E1; cbn [orb]. { apply eqs_iff in E1. intros [= <-]. split; [subst p; apply P; cbn; tauto|right; left; eexists; reflexivity]. }
    destruct (eqs p "noautogrow") eqn:E2; cbn [orb]. { apply eqs_iff in E2. intros [= <-]. split; [subst p; apply P; cbn; tauto|right; left; eexists; reflexivity]. }
    cbn [orb]. destruct (eqs k "autogrow") eqn:E3.
    { repeat match goal with |- (if eqs v ?t then _ else _) = _ -> _ =>
        let B := fresh "B" in destruct (eqs v t) eqn:B;
        [intros [= <-]; split; [rewrite (KV _ _ E3 B ltac:(discriminate)); apply P; cbn; tauto|right; left; eexists; reflexivity]|clear B] end.
      discriminate. }
    destruct (eqs p "delete") eqn:E4; cbn [orb]. { apply eqs_iff in E4. intros [= <-]. split; [subst p; apply P; cbn; tauto|do 2 right; left; reflexivity]. }
    destruct (eqs p "delete_on_exit") eqn:E5; cbn [orb]. { apply eqs_iff in E5. intros [= <-]. split; [subst p; apply P; cbn; tauto|do 2 right; left; reflexivity]. }
    destruct (eqs p "direct") eqn:E6; cbn [orb]. { apply eqs_iff in E6. intros [= <-]. split; [subst p; apply P; cbn; tauto|do 3 right; left; eexists; reflexivity]. }
    destruct (eqs p "nodirect") eqn:E7; cbn [orb]. { apply eqs_iff in E7. intros [= <-]. split; [subst p; apply P; cbn; tauto|do 3 right; left; eexists; reflexivity]. }
    cbn [orb]. destruct (eqs k "direct") eqn:E8.
    { repeat match goal with |- (if eqs v ?t then _ else _) = _ -> _ =>
        let B := fresh "B" in destruct (eqs v t) eqn:B;
        [intros [= <-]; split; [rewrite (KV _ _ E8 B ltac:(discriminate)); apply P; cbn; tauto|do 3 right; left; eexists; reflexivity]|clear B] end.
      discriminate. }
    destruct (eqs k "queue") eqn:E9.
    { destruct (eqs (io_impl c) "linuxaio") eqn:I; [discriminate|]. destruct (number v) as [n|]; [|discriminate].
      intros [= <-]. split; [apply (V "queue"%string); [cbn; tauto|exact E9]|]. do 4 right. left. exists n. split; [reflexivity|].
      intros K. apply eqs_iff in K. congruence. }
    destruct (eqs k "queue_length") eqn:E10.
    { destruct (eqs (io_impl c) "linuxaio") eqn:I; [|discriminate]. cbn [negb]. destruct (number v) as [n|]; [|discriminate].
      intros [= <-]. split; [apply (V "queue_length"%string); [cbn; tauto|exact E10]|]. do 5 right. left. exists n. split; [reflexivity|].
      apply eqs_iff. exact I. }
    destruct (eqs k "device_id" || eqs k "devid") eqn:E11.
    { destruct (number v) as [n|]; [|discriminate]. intros [= <-]. apply orb_true_iff in E11.
      split; [destruct E11 as [K|K]; [apply (V "device_id"%string)|apply (V "devid"%string)]; try exact K; cbn; tauto|]. do 6 right. left. now exists n. }
    destruct (eqs p "raw_device") eqn:E12.
    { apply eqs_iff in E12. destruct (eqs (io_impl c) "syscall") eqn:I; [|discriminate]. intros [= <-].
      split; [subst p; apply P; cbn; tauto|]. do 7 right. left. split; [reflexivity|]. now apply eqs_iff. }
    destruct (eqs p "unlink" || eqs p "unlink_on_open") eqn:E13; [|discriminate].
    destruct (eqs (io_impl c) "syscall" || eqs (io_impl c) "linuxaio" || eqs (io_impl c) "mmap" || eqs (io_impl c) "wbtl") eqn:I; [|discriminate].
    intros [= <-]. rewrite !orb_true_iff, !eqs_iff in I. apply orb_true_iff in E13. rewrite !eqs_iff in E13.
    split; [destruct E13 as [-> | ->]; apply P; cbn; tauto|]. do 8 right. split; [reflexivity|]. unfold named. tauto.
Qed.

Lemma options_text ps : forall c c', options ps c = Ok c' -> Forall option_text ps.
Proof.
  induction ps as [|p ps IH]; intros c c' H; [constructor|]. cbn [options] in H.
  destruct (option_step p c) eqn:E; try discriminate. constructor; [apply (step_cases _ _ _ E)|eapply IH; exact H].
Qed.

(** Everything [writable] asks for but the queue -2. *)
Definition sane (c : disk) : Prop :=
  io_impl c <> [] /\ no_char " " (io_impl c) /\
  (- 2 ^ 31 <= queue c < 2 ^ 31 /\ (queue c = -1 \/ ~ named (io_impl c) "linuxaio")) /\
  0 <= device_id c < 2 ^ 32 /\
  (raw_device c = true -> named (io_impl c) "syscall") /\
  (unlink_on_open c = true -> named (io_impl c) "syscall" \/ named (io_impl c) "linuxaio" \/
     named (io_impl c) "mmap" \/ named (io_impl c) "wbtl") /\
  - 2 ^ 31 <= queue_length c < 2 ^ 31 /\ (queue_length c = 0 \/ named (io_impl c) "linuxaio").
Lemma step_sane p c c' : option_step p c = Ok c' -> sane c -> sane c'.
Proof.
  intros H (A & B & (C1 & C2) & D & E & F & G & I). apply step_cases in H. destruct H as [_ H].
  assert (forall n, 0 <= to_unsigned n < 2 ^ 32) as U by (intros n; apply Z.mod_pos_bound; lia).
  unfold sane.
  destruct H as [->|[[b ->]|[->|[[d ->]|[(n & -> & Hn)|[(n & -> & Hn)|[[n ->]|[[-> Hn]|[-> Hn]]]]]]]]];
  cbn [set_autogrow set_delete set_direct set_queue set_qlen set_device set_raw set_unlink
       path size io_impl autogrow delete_on_exit direct flash queue device_id raw_device unlink_on_open queue_length];
  try pose proof (to_int_range n) as TI; try pose proof (U (to_int n)) as UI; clear U; tauto.
Qed.
Lemma options_sane ps : forall c c', options ps c = Ok c' -> sane c -> sane c'.
Proof.
  induction ps as [|p ps IH]; intros c c' H S; cbn [options] in H; [injection H as <-; exact S|].
  destruct (option_step p c) eqn:E; try discriminate. eapply IH; [exact H|]. eapply step_sane; eassumption.
Qed.

Lemma skip_blanks_head s c t : skip_blanks s = c :: t -> c <> " "%char.
Proof.
  induction s as [|x s IH]; [discriminate|]. cbn [skip_blanks]. destruct (is x " ") eqn:B; [exact IH|].
  intros [= -> ->] ->. vm_compute in B. discriminate.
Qed.
Lemma cut_blank_none_inv s : cut_blank s = None -> no_char " " s.
Proof.
  induction s as [|c s IH]; intros H; [intros []|]. cbn [cut_blank] in H. destruct (is c " ") eqn:B; [discriminate|].
  destruct (cut_blank s) as [[a b]|]; [discriminate|]. intros [->|K]; [vm_compute in B; discriminate|exact (IH eq_refl K)].
Qed.
Lemma parse_fileio_sane c c' : parse_fileio c = Ok c' -> queue c = -1 -> 0 <= device_id c < 2 ^ 32 ->
  raw_device c = false -> unlink_on_open c = false -> queue_length c = 0 -> sane c'.
Proof.
  unfold parse_fileio. intros H Q D R U Ln. destruct (skip_blanks (io_impl c)) as [|x t] eqn:S; [discriminate|].
  pose proof (skip_blanks_head _ _ _ S) as Hx.
  assert (forall impl, impl <> [] -> no_char " " impl -> sane (set_impl impl c)) as Q0.
  { intros impl N B. unfold sane.
    cbn [set_impl path size io_impl autogrow delete_on_exit direct flash queue device_id raw_device unlink_on_open queue_length].
    rewrite Q, R, U, Ln. repeat (split; [first [assumption|lia|discriminate|tauto]|]). left. reflexivity. }
  destruct (cut_blank (x :: t)) as [[impl params]|] eqn:C.
  - apply options_sane in H; [exact H|]. destruct (cut_blank_some _ _ _ C) as [E B]. apply Q0; [|exact B].
    intros ->. cbn in E. congruence.
  - injection H as <-. apply Q0; [discriminate|]. now apply cut_blank_none_inv.
Qed.

Lemma line_sane pid line c : parse_line pid line disk0 = Ok c -> sane c.
Proof.
  unfold parse_line. destruct (if eqs _ "disk" then _ else _) as [fl|]; [|discriminate].
  destruct (parse_size _ _) as [[] sz]; [|discriminate]. intros H.
  refine (parse_fileio_sane _ _ H _ _ _ _ _); try reflexivity. cbn. unfold DEFAULT_DEVICE_ID. lia.
Qed.

Lemma line_round_trip pid line c : parse_line pid line disk0 = Ok c -> flash c = false -> queue c <> -2 ->
  disk_config (path c) (size c) (fileio_string c) = Ok c.
Proof.
  intros H F Q. apply round_trip; [|exact F]. apply line_sane in H.
  destruct H as (A & B & (C1 & C2) & D & E & G & I). unfold writable. tauto.
Qed.

(** ** Lines *)
Definition adapt (fl z : bool) (c : disk) : disk :=
  mkDisk (path c) (size c) (io_impl c) (autogrow c) (delete_on_exit c || z) (direct c) fl (queue c) (device_id c)
    (raw_device c) (unlink_on_open c) (queue_length c).
Definition rmap {A B} (h : A -> B) (r : result A) : result B :=
  match r with Ok a => Ok (h a) | Runtime => Runtime | OutOfRange => OutOfRange end.
Lemma step_adapt fl z p c : option_step p (adapt fl z c) = rmap (adapt fl z) (option_step p c).
Proof.
  unfold option_step. change (io_impl (adapt fl z c)) with (io_impl c).
  repeat match goal with
  | |- context [if ?b then _ else _] => destruct b; try reflexivity
  | |- context [match number ?v with _ => _ end] => destruct (number v); try reflexivity
  end.
Qed.
Lemma options_adapt fl z ps : forall c, options ps (adapt fl z c) = rmap (adapt fl z) (options ps c).
Proof.
  induction ps as [|p ps IH]; intros c; [reflexivity|]. cbn [options]. rewrite step_adapt.
  destruct (option_step p c); [apply IH|reflexivity|reflexivity].
Qed.
Lemma fileio_adapt fl z c : parse_fileio (adapt fl z c) = rmap (adapt fl z) (parse_fileio c).
Proof.
  unfold parse_fileio. change (io_impl (adapt fl z c)) with (io_impl c).
  destruct (skip_blanks (io_impl c)); [reflexivity|]. destruct (cut_blank _) as [[impl ps]|]; [|reflexivity].
  apply (options_adapt fl z (split ps " " 0 None) (set_impl impl c)).
Qed.

Lemma split3 a b r : no_char "," a -> no_char "," b ->
  split (a ++ ","%char :: b ++ ","%char :: r) "," 3 (Some 3%nat) = [a; b; r].
Proof.
  intros A B. unfold split. destruct (a ++ _) eqn:E; [destruct a; discriminate|]. rewrite <- E.
  rewrite split_go_app by (assumption || reflexivity). cbn [one_less].
  rewrite split_go_app by (assumption || reflexivity). cbn [one_less]. now rewrite split_go_one.
Qed.

Lemma replace_pid_cons pid a t : replace_pid pid (a :: t) =
  match t with b :: d :: rest => if is a "#" && is b "#" && is d "#" then pid ++ rest else a :: replace_pid pid t | _ => a :: t end.
Proof. destruct t as [|b [|d rest]]; reflexivity. Qed.
Lemma is_hash a : is a "#" = true <-> a = "#"%char.
Proof. unfold is. cbn. rewrite orb_false_r. apply Ascii.eqb_eq. Qed.
Lemma replace_pid_ok pid p : pid_path pid p (replace_pid pid p).
Proof.
  induction p as [|a t IH].
  - left. split; [reflexivity|]. intros [|? ?] b H; discriminate.
  - rewrite replace_pid_cons. destruct t as [|b [|d rest]].
    + left. split; [reflexivity|]. intros [|? [|? ?]] ? H; discriminate.
    + left. split; [reflexivity|]. intros [|? [|? [|? ?]]] ? H; discriminate.
    + destruct (is a "#" && is b "#" && is d "#") eqn:E.
      * rewrite !andb_true_iff, !is_hash in E. destruct E as [[-> ->] ->]. right. exists [], rest.
        split; [reflexivity|]. split; [reflexivity|]. intros a' b' _. cbn. lia.
      * assert (forall y, a :: b :: d :: rest <> hashes ++ y) as H0.
        { intros y H. cbn in H. injection H as -> -> -> _. discriminate. }
        destruct IH as [[-> IH]|(x & y & Ex & -> & IH)].
        -- left. split; [reflexivity|]. intros [|c x] y H; [exact (H0 y H)|]. injection H as _ H. exact (IH x y H).
        -- right. exists (a :: x), y. split; [now rewrite Ex|]. split; [reflexivity|].
           intros [|c x'] y' H; [exfalso; exact (H0 y' H)|]. injection H as _ H. apply IH in H. cbn [length]. lia.
Qed.

Lemma line_disk pid (key : string) p s fi n f fl : no_char "," p -> no_char "," s -> size_text "M" s n f -> n * f < 2 ^ 64 ->
  n < 2 ^ 64 -> (key = "disk"%string /\ fl = false \/ key = "flash"%string /\ fl = true) ->
  parse_line pid (L key ++ "="%char :: p ++ ","%char :: s ++ ","%char :: fi) disk0 =
  rmap (adapt fl (n * f =? 0)) (disk_config (replace_pid pid p) (n * f) fi).
Proof.
  intros Hp Hs T B Bn K.
  assert (0 <= n /\ 0 <= f) as [Pn Pf].
  { destruct T as (ds & j & u & k & [_ Fd] & <- & Hu & _). split; [now apply decval_nonneg|].
    destruct Hu as [Hu|[_ [Hu|[-> _]]]]; [| |lia].
    - assert (forallb (fun y => 0 <=? snd y) units = true) as A by (vm_compute; reflexivity).
      rewrite forallb_forall in A. apply A in Hu. cbn in Hu. lia.
    - assert (forallb (fun y => 0 <=? snd y) default_units = true) as A by (vm_compute; reflexivity).
      rewrite forallb_forall in A. apply A in Hu. cbn in Hu. lia. }
  assert (0 <= n * f) as Pnf by (apply Z.mul_nonneg_nonneg; assumption).
  unfold parse_line. rewrite split_value.
  2:{ destruct K as [[-> _]|[-> _]]; intros H; cbn in H; repeat (destruct H as [H|H]; [discriminate|]); destruct H. }
  cbn [nth]. rewrite split3 by assumption. cbn [nth]. rewrite (parse_size_text _ _ _ _ T).
  rewrite Z.min_l by lia. rewrite (Z.mod_small (n * f)) by (split; [exact Pnf|exact B]).
  unfold disk_config. rewrite <- fileio_adapt.
  destruct K as [[-> ->]|[-> ->]]; reflexivity.
Qed.

(** ** Files *)
Lemma read_lines_ok pid lines : forall reg fls, read_lines pid lines = Ok (reg, fls) ->
  exists all, Forall2 (fun l d => parse_line pid l disk0 = Ok d) (filter describes lines) all /\
    reg = filter (fun d => negb (flash d)) all /\ fls = filter flash all.
Proof.
  induction lines as [|l lines IH]; intros reg fls H; cbn [read_lines filter] in *.
  - injection H as <- <-. exists []. repeat split. constructor.
  - destruct l as [|c t].
    + cbn [describes]. now apply IH.
    + destruct (is c "#") eqn:B.
      * apply is_hash in B. subst c. cbn. now apply IH.
      * assert (describes (c :: t) = true) as ->.
        { cbn [describes]. destruct (Ascii.eqb_spec c "#") as [->|]; [vm_compute in B; discriminate|reflexivity]. }
        destruct (parse_line pid (c :: t) disk0) as [d| |] eqn:P; try discriminate.
        destruct (read_lines pid lines) as [[r f]| |]; try discriminate.
        destruct (IH _ _ eq_refl) as (all & F & -> & ->). exists (d :: all). split; [constructor; assumption|].
        cbn [filter]. injection H as H. destruct (flash d); injection H as <- <-; now split.
Qed.

Lemma load_ok pid lines g : load_config_file pid (Some lines) config0 = Ok g ->
  exists all, Forall2 (fun l d => parse_line pid l disk0 = Ok d) (filter describes lines) all /\
    disks g = filter (fun d => negb (flash d)) all ++ filter flash all /\
    first_flash g = Some (length (filter (fun d => negb (flash d)) all)).
Proof.
  unfold load_config_file. destruct (read_lines pid lines) as [[reg fls]| |] eqn:E; try discriminate.
  destruct (read_lines_ok _ _ _ _ E) as (all & F & -> & ->). cbn [config0 disks app]. intros H. exists all.
  split; [exact F|]. destruct (filter (fun d => negb (flash d)) all ++ filter flash all) eqn:K; [discriminate|].
  injection H as <-. now split.
Qed.

(** ** Device ids *)
Lemma open_length ds : forall i g l g', open_disks i ds g = Some (l, g') -> length l = length ds.
Proof.
  induction ds as [|d ds IH]; intros i g l g' H; cbn [open_disks] in H; [injection H as <- _; reflexivity|].
  destruct (assign_device _ g) as [[d' g1]|]; [|discriminate].
  destruct (open_disks (i + 1) ds g1) as [[l1 g2]|] eqn:E; [|discriminate]. injection H as <- _. cbn. f_equal. eauto.
Qed.

Lemma open_ids ds : forall i g l g' m, open_disks i ds g = Some (l, g') -> max_device g = Some m -> 0 <= m ->
  (forall d, In d ds -> 0 <= device_id d /\ (device_id d = DEFAULT_DEVICE_ID \/ device_id d + Z.of_nat (length ds) + 1 < 2 ^ 32)) ->
  m + Z.of_nat (length ds) + 1 < 2 ^ 32 ->
  forall a x e, nth_error ds a = Some x -> nth_error l a = Some e ->
    (device_id x <> DEFAULT_DEVICE_ID -> device_id e = device_id x) /\
    device_id e <> DEFAULT_DEVICE_ID /\
    (device_id x = DEFAULT_DEVICE_ID -> m <= device_id e /\
       forall b y, (b < a)%nat -> nth_error l b = Some y -> device_id y <> device_id e).
Proof.
  induction ds as [|d ds IH]; intros i g l g' m H M Pm B Bm a x e Ha He; cbn [open_disks] in H.
  - destruct a; discriminate.
  - set (d1 := assign_queue i d) in *.
    assert (device_id d1 = device_id d) as Ed.
    { unfold d1, assign_queue. destruct (queue d =? DEFAULT_QUEUE); destruct (eqs _ _); reflexivity. }
    unfold assign_device in H. rewrite M, Ed in H. cbn [length] in *.
    assert (forall y, In y ds -> 0 <= device_id y /\ (device_id y = DEFAULT_DEVICE_ID \/ device_id y + Z.of_nat (length ds) + 1 < 2 ^ 32)) as B'.
    { intros y Hy. specialize (B y (or_intror Hy)). lia. }
    destruct (B d (or_introl eq_refl)) as [P0 P1].
    destruct (Z.eqb_spec (device_id d) DEFAULT_DEVICE_ID) as [Ed0|Nd0].
    + destruct (open_disks (i + 1) ds _) as [[l1 g2]|] eqn:E; [|discriminate]. injection H as <- <-.
      assert (to_unsigned (m + 1) = m + 1) as Tu by (unfold to_unsigned; apply Z.mod_small; lia).
      rewrite Tu in E. destruct a as [|a]; cbn in Ha, He.
      * injection Ha as <-. injection He as <-. cbn [set_device device_id]. split; [congruence|]. split; [unfold DEFAULT_DEVICE_ID; lia|].
        intros _. split; [lia|]. intros b y Hb. lia.
      * specialize (IH _ _ _ _ _ E eq_refl ltac:(lia) B' ltac:(lia) a x e Ha He). destruct IH as (I1 & I2 & I3).
        split; [exact I1|]. split; [exact I2|]. intros Dx. destruct (I3 Dx) as [I4 I5]. split; [lia|].
        intros [|b] y Hb Hy; cbn in Hy; [injection Hy as <-; cbn; lia|]. apply (I5 b y); [lia|exact Hy].
    + destruct P1 as [P1|P1]; [congruence|].
      destruct (open_disks (i + 1) ds _) as [[l1 g2]|] eqn:E; [|discriminate]. injection H as <- <-.
      assert (to_unsigned (device_id d + 1) = device_id d + 1) as Tu by (unfold to_unsigned; apply Z.mod_small; lia).
      rewrite Tu in E.
      assert ((if m <? device_id d + 1 then device_id d + 1 else m) = Z.max m (device_id d + 1)) as Mx.
      { destruct (Z.ltb_spec m (device_id d + 1)); lia. }
      rewrite Mx in E. destruct a as [|a]; cbn in Ha, He.
      * injection Ha as <-. injection He as <-. rewrite Ed. split; [reflexivity|]. split; [exact Nd0|]. congruence.
      * specialize (IH _ _ _ _ _ E eq_refl ltac:(lia) B' ltac:(lia) a x e Ha He). destruct IH as (I1 & I2 & I3).
        split; [exact I1|]. split; [exact I2|]. intros Dx. destruct (I3 Dx) as [I4 I5]. split; [lia|].
        intros [|b] y Hb Hy; cbn in Hy; [injection Hy as <-; rewrite Ed; lia|]. apply (I5 b y); [lia|exact Hy].
Qed.

Lemma assign_device_queue d g d' g' : assign_device d g = Some (d', g') -> queue d' = queue d.
Proof.
  unfold assign_device. destruct (max_device g); [|discriminate].
  match goal with |- context [if ?b then _ else _] => destruct b end; intros [= <- _]; reflexivity.
Qed.
Lemma open_queues ds : forall i g l g', open_disks i ds g = Some (l, g') ->
  forall a x e, nth_error ds a = Some x -> nth_error l a = Some e ->
    (named (io_impl x) "linuxaio" -> queue e = -2) /\
    (~ named (io_impl x) "linuxaio" -> queue x = -1 -> queue e = i + Z.of_nat a) /\
    (~ named (io_impl x) "linuxaio" -> queue x <> -1 -> queue e = queue x).
Proof.
  induction ds as [|d ds IH]; intros i g l g' H a x e Ha He; cbn [open_disks] in H; [destruct a; discriminate|].
  destruct (assign_device (assign_queue i d) g) as [[d' g1]|] eqn:A; [|discriminate].
  destruct (open_disks (i + 1) ds g1) as [[l1 g2]|] eqn:E; [|discriminate]. injection H as <- _.
  destruct a as [|a]; cbn in Ha, He.
  - injection Ha as <-. injection He as <-. apply assign_device_queue in A. rewrite A. unfold assign_queue.
    unfold DEFAULT_QUEUE. destruct (Z.eqb_spec (queue d) (-1)) as [Eq|Nq];
    cbn [set_queue io_impl queue];
    destruct (eqs (io_impl d) "linuxaio") eqn:I;
    [apply eqs_iff in I | | apply eqs_iff in I | ];
    try (assert (~ named (io_impl d) "linuxaio") as NI by (intros K; apply eqs_iff in K; congruence));
    cbn [set_queue queue]; unfold named in *; repeat split; intros; try contradiction; try congruence; try reflexivity; lia.
  - destruct (IH _ _ _ _ E a x e Ha He) as (I1 & I2 & I3). repeat split; [exact I1| |exact I3].
    intros N Q. rewrite (I2 N Q). lia.
Qed.
