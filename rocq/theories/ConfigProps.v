(** The theorems about the disk configuration: C104 to C108. *)
From Coq Require Import String Ascii ZArith List Bool Lia.
From Verif Require Import ConfigModel ConfigSpec Config ConfigSize ConfigDisk ConfigFile.
Import ListNotations.
Open Scope Z_scope.

Lemma unit_in u f : existsb (fun y => str_eqb u (fst y) && (f =? snd y)) units = true -> In (u, f) units.
Proof.
  intros H. apply existsb_exists in H. destruct H as ([x g] & Hx & E). apply andb_true_iff in E. destruct E as [E1 E2].
  apply str_eqb_eq in E1. apply Z.eqb_eq in E2. cbn in E1, E2. now subst.
Qed.
Lemma unit_nonneg u ut f : unit_factor u ut f -> 0 <= f.
Proof.
  intros [Hu|[_ [Hu|[-> _]]]]; [| |lia].
  - assert (forallb (fun y => 0 <=? snd y) units = true) as A by (vm_compute; reflexivity).
    rewrite forallb_forall in A. apply A in Hu. cbn in Hu. lia.
  - assert (forallb (fun y => 0 <=? snd y) default_units = true) as A by (vm_compute; reflexivity).
    rewrite forallb_forall in A. apply A in Hu. cbn in Hu. lia.
Qed.
Lemma digits_text s : forallb (fun c => match digit c with Some _ => true | None => false end) s = true -> Forall is_digit s.
Proof.
  intros H. rewrite forallb_forall in H. apply Forall_forall. intros c Hc. specialize (H c Hc).
  destruct (digit c) eqn:E; [exact (digit_inv _ _ E)|discriminate].
Qed.
Lemma split_go_two sep a t : split_go sep None (a ++ sep :: t) = split_go sep None a ++ split_go sep None t.
Proof.
  induction a as [|c a IH]; cbn [app split_go more].
  - rewrite Ascii.eqb_refl. reflexivity.
  - rewrite andb_true_r, IH. destruct (Ascii.eqb c sep); cbn [one_less]; [now rewrite IH|].
    pose proof (split_go_nonempty sep a None). destruct (split_go sep None a); [congruence|reflexivity].
Qed.

(** ** C104: sizes *)
(** Every size written as a number with a unit is accepted with its exact value. *)
Theorem C104_exact : forall def_unit s n f, size_text def_unit s n f -> n < 2 ^ 64 -> n * f < 2 ^ 64 ->
  parse_size s def_unit = (true, n * f).
Proof.
  intros u s n f T B Bf. rewrite (parse_size_text _ _ _ _ T).
  assert (0 <= n) as P. { destruct T as (ds & j & ut & k & [_ F] & <- & _). now apply decval_nonneg. }
  assert (0 <= f) as Pf. { destruct T as (ds & j & ut & k & _ & _ & Hu & _). exact (unit_nonneg _ _ _ Hu). }
  rewrite Z.min_l by lia. rewrite Z.mod_small; [reflexivity|]. split; [now apply Z.mul_nonneg_nonneg|exact Bf].
Qed.
(** A string that starts with a digit is accepted only if it is such a size; the value is right modulo 2^64. *)
Theorem C104_sound_partial : forall def_unit c s v, is_digit c -> parse_size (c :: s) def_unit = (true, v) ->
  exists n f, size_text def_unit (c :: s) n f /\ v = (Z.min n (2 ^ 64 - 1) * f) mod 2 ^ 64.
Proof. intros. now apply parse_size_accepted. Qed.
(** Accepted strings without a number: the empty string, a bare unit. *)
Theorem C104_no_number_refuted : exists s t, s = [] /\ t = list_ascii_of_string "GiB" /\
  parse_size s "M" = (true, 0) /\ parse_size t "M" = (true, 0) /\
  (forall n f, ~ size_text "M" s n f) /\ (forall n f, ~ size_text "M" t n f).
Proof.
  exists [], (list_ascii_of_string "GiB"). split; [reflexivity|]. split; [reflexivity|].
  split; [reflexivity|]. split; [reflexivity|].
  split; intros n f (ds & j & u & k & [N F] & _ & _ & E); destruct ds as [|c ds]; try congruence; cbn in E; try discriminate.
  injection E as <- _. inversion F as [|x y Hc]; subst. vm_compute in Hc.
  repeat (destruct Hc as [Hc|Hc]; [discriminate|]). destruct Hc.
Qed.
(** Negative and too large sizes are accepted with another value. *)
Theorem C104_overflow_refuted : exists s t u,
  s = list_ascii_of_string "-1B" /\ parse_size s "M" = (true, 2 ^ 64 - 1) /\
  t = list_ascii_of_string "16777216 TiB" /\ size_text "M" t (2 ^ 24) (1024 ^ 4) /\ parse_size t "M" = (true, 0) /\
  u = list_ascii_of_string "100000000000000000000B" /\ size_text "M" u (10 ^ 20) 1 /\ parse_size u "M" = (true, 2 ^ 64 - 1).
Proof.
  eexists _, _, _. split; [reflexivity|]. split; [reflexivity|]. split; [reflexivity|]. split.
  { exists (list_ascii_of_string "16777216"), 1%nat, (list_ascii_of_string "TiB"), 0%nat.
    split; [split; [discriminate|apply digits_text; vm_compute; reflexivity]|]. split; [reflexivity|]. split; [|reflexivity].
    left. apply unit_in. vm_compute. reflexivity. }
  split; [reflexivity|]. split; [reflexivity|]. split; [|reflexivity].
  exists (list_ascii_of_string "100000000000000000000"), 0%nat, (list_ascii_of_string "B"), 0%nat.
  split; [split; [discriminate|apply digits_text; vm_compute; reflexivity]|]. split; [reflexivity|]. split; [|reflexivity].
  left. apply unit_in. vm_compute. reflexivity.
Qed.
Example C104_example : size_text "M" (list_ascii_of_string "44 GiB  ") 44 (1024 ^ 3) /\
  parse_size (list_ascii_of_string "44 GiB  ") "M" = (true, 44 * 1024 ^ 3) /\
  size_text "M" (list_ascii_of_string "7") 7 (1024 ^ 2) /\
  parse_size (list_ascii_of_string "7") "M" = (true, 7 * 1024 ^ 2) /\
  fst (parse_size (list_ascii_of_string "7 xB") "M") = false.
Proof.
  split.
  { exists (list_ascii_of_string "44"), 1%nat, (list_ascii_of_string "GiB"), 2%nat.
    split; [split; [discriminate|apply digits_text; vm_compute; reflexivity]|]. split; [reflexivity|]. split; [|reflexivity].
    left. apply unit_in. vm_compute. reflexivity. }
  split; [reflexivity|]. split; [|split; reflexivity].
  exists (list_ascii_of_string "7"), 0%nat, [], 0%nat.
  split; [split; [discriminate|apply digits_text; vm_compute; reflexivity]|]. split; [reflexivity|]. split; [|reflexivity].
  right. split; [reflexivity|]. left. cbn. tauto.
Qed.

(** ** C105: writing the options of a disk and reading them back *)
Theorem C105_roundtrip_partial : forall c, writable c -> flash c = false ->
  disk_config (path c) (size c) (fileio_string c) = Ok c.
Proof. exact round_trip. Qed.
(** Disks of accepted lines. *)
Theorem C105_lines_partial : forall pid line c, parse_line pid line disk0 = Ok c -> flash c = false -> queue c <> -2 ->
  disk_config (path c) (size c) (fileio_string c) = Ok c.
Proof. exact line_round_trip. Qed.
(** Flash disks: the written options are always rejected. *)
Theorem C105_flash_refuted :
  (exists pid line c, parse_line pid line disk0 = Ok c /\ flash c = true) /\
  forall pid line c, parse_line pid line disk0 = Ok c -> flash c = true ->
    disk_config (path c) (size c) (fileio_string c) = Runtime.
Proof.
  split.
  - exists [], (list_ascii_of_string "flash=/f,1,syscall"). eexists. split; [vm_compute; reflexivity|reflexivity].
  - intros pid line c H F. apply line_sane in H. destruct H as (N & B & _). now apply flash_rejected.
Qed.
(** The queue -2 is written as the default queue. *)
Theorem C105_queue_refuted : exists pid line c d, parse_line pid line disk0 = Ok c /\ queue c = -2 /\
  disk_config (path c) (size c) (fileio_string c) = Ok d /\ queue d = -1.
Proof.
  exists [], (list_ascii_of_string "disk=/f,1,syscall queue=-2"). eexists. eexists.
  split; [vm_compute; reflexivity|]. split; [reflexivity|]. split; vm_compute; reflexivity.
Qed.
(** Accepted options are known ones. *)
Theorem C105_known : forall p sz impl rest c, no_char " " impl -> impl <> [] ->
  disk_config p sz (impl ++ " "%char :: rest) = Ok c ->
  forall a b x, rest = a ++ x ++ b -> no_char " " x ->
    (a = [] \/ exists a', a = a' ++ [" "%char]) -> (b = [] \/ exists b', b = " "%char :: b') -> option_text x.
Proof.
  intros p sz impl rest c B N H a b x -> Bx Ha Hb. unfold disk_config, parse_fileio in H.
  cbn [io_impl] in H. rewrite skip_blanks_id in H by assumption.
  destruct (impl ++ " "%char :: a ++ x ++ b) eqn:K; [destruct impl; discriminate|]. rewrite <- K in H. clear K.
  rewrite cut_blank_app in H by exact B. apply options_text in H.
  destruct x as [|c0 x]; [left; left; reflexivity|]. set (y := c0 :: x) in *.
  rewrite Forall_forall in H. apply H. clear H.
  assert (forall s, In y (split_go " " None s) -> s <> [] -> In y (split s " " 0 None)) as Q.
  { intros s Hs Ns. unfold split, pad. destruct s; [congruence|]. rewrite app_nil_r. exact Hs. }
  apply Q; [|destruct a; discriminate].
  assert (In y (split_go " " None (y ++ b))) as Hy.
  { destruct Hb as [->|[b' ->]].
    - rewrite app_nil_r, split_go_clean_one by exact Bx. now left.
    - rewrite split_go_app by (exact Bx || reflexivity). now left. }
  destruct Ha as [->|[a' ->]]; [exact Hy|]. rewrite <- app_assoc. cbn [app].
  rewrite split_go_two. apply in_or_app. right. exact Hy.
Qed.
(** Options without a number are read as the number zero. *)
Theorem C105_number_refuted : exists c d, disk_config [] 1 (list_ascii_of_string "syscall queue") = Ok c /\ queue c = 0 /\
  disk_config [] 1 (list_ascii_of_string "syscall devid=") = Ok d /\ device_id d = 0.
Proof. eexists. eexists. split; [vm_compute; reflexivity|]. split; [reflexivity|]. split; [vm_compute; reflexivity|reflexivity]. Qed.
Definition sample : disk :=
  mkDisk (list_ascii_of_string "/d") 5 (list_ascii_of_string "linuxaio") false true DIRECT_ON false (-1) 3 false true 64.
Example C105_example : writable sample /\ flash sample = false /\
  fileio_string sample = list_ascii_of_string "linuxaio autogrow=no delete_on_exit direct=on devid=3 unlink_on_open queue_length=64" /\
  disk_config [] 1 (list_ascii_of_string "syscall autogrow=maybe") = Runtime.
Proof.
  split; [|split; [reflexivity|split; vm_compute; reflexivity]].
  unfold writable. cbn [sample io_impl queue device_id raw_device unlink_on_open queue_length].
  split; [discriminate|]. split; [intros H; vm_compute in H; repeat (destruct H as [H|H]; [discriminate|]); destruct H|].
  split; [split; [lia|split; [lia|left; reflexivity]]|]. split; [lia|]. split; [discriminate|].
  split; [intros _; right; left; reflexivity|]. split; [lia|right; reflexivity].
Qed.

(** ** C106: configuration files *)
(** A line gives the disk with the path (### replaced by the process id), the size and the options of its fields. *)
Theorem C106_line : forall pid key p s fi n f fl, no_char "," p -> no_char "," s -> size_text "M" s n f ->
  n < 2 ^ 64 -> n * f < 2 ^ 64 -> (key = "disk"%string /\ fl = false \/ key = "flash"%string /\ fl = true) ->
  let line := list_ascii_of_string key ++ "="%char :: p ++ ","%char :: s ++ ","%char :: fi in
  exists p', pid_path pid p p' /\
    match disk_config p' (n * f) fi with
    | Ok c => exists d, parse_line pid line disk0 = Ok d /\ path d = path c /\ size d = size c /\ flash d = fl /\
        io_impl d = io_impl c /\ autogrow d = autogrow c /\ direct d = direct c /\ queue d = queue c /\
        device_id d = device_id c /\ raw_device d = raw_device c /\ unlink_on_open d = unlink_on_open c /\
        queue_length d = queue_length c /\ (delete_on_exit d = true <-> delete_on_exit c = true \/ n * f = 0)
    | Runtime => parse_line pid line disk0 = Runtime
    | OutOfRange => parse_line pid line disk0 = OutOfRange
    end.
Proof.
  intros pid key p s fi n f fl Hp Hs T Bn B K line. exists (replace_pid pid p). split; [apply replace_pid_ok|].
  unfold line. change (list_ascii_of_string key) with (L key). rewrite (line_disk pid key p s fi n f fl Hp Hs T B Bn K).
  destruct (disk_config (replace_pid pid p) (n * f) fi) as [c| |]; [|reflexivity|reflexivity].
  exists (adapt fl (n * f =? 0) c). split; [reflexivity|]. repeat (split; [reflexivity|]).
  cbn [adapt delete_on_exit]. rewrite orb_true_iff, Z.eqb_eq. reflexivity.
Qed.
(** After one file the regular range holds exactly the disk= lines, the flash range exactly the flash= lines, in the
    order of the file. *)
Theorem C106_ranges : forall pid lines g, initialize pid (Some lines) config0 = Ok g ->
  exists all a b, Forall2 (fun l d => parse_line pid l disk0 = Ok d) (filter describes lines) all /\
    regular_disk_range g = Some (0%nat, a) /\ flash_range g = Some (a, b) /\ b = length (disks g) /\
    firstn a (disks g) = filter (fun d => negb (flash d)) all /\ skipn a (disks g) = filter flash all /\
    disks g <> [].
Proof.
  intros pid lines g. unfold initialize. cbn [config0 disks].
  fold config0. destruct (load_config_file pid (Some lines) config0) as [g1| |] eqn:E; try discriminate.
  pose proof E as E0. apply load_ok in E. destruct E as (all & F & D & Ff). intros [= <-].
  exists all, (length (filter (fun d => negb (flash d)) all)), (length (disks g1)).
  split; [exact F|]. unfold regular_disk_range, flash_range. cbn [first_flash disks]. rewrite Ff, D.
  split; [reflexivity|]. split; [reflexivity|]. split; [reflexivity|].
  rewrite firstn_app, Nat.sub_diag, firstn_all, firstn_O, app_nil_r.
  rewrite skipn_app, Nat.sub_diag, skipn_all, skipn_O. split; [reflexivity|]. split; [reflexivity|].
  rewrite <- D. unfold load_config_file in E0. destruct (read_lines pid lines) as [[r fl]| |]; try discriminate.
  cbn [config0 disks app] in E0. destruct (r ++ fl) eqn:K; [discriminate|]. injection E0 as <-. discriminate.
Qed.
(** Only [add_disk]: the ranges are never set. *)
Theorem C106_add_disk_refuted : forall pid file d ds, exists g,
  initialize pid file (fold_left (fun g d => add_disk d g) (d :: ds) config0) = Ok g /\
  disks g = d :: ds /\ regular_disk_range g = None /\ flash_range g = None.
Proof.
  intros pid file d ds.
  assert (forall l g, fold_left (fun g d => add_disk d g) l g = mkConfig (disks g ++ l) (first_flash g) (initialized g) (max_device g)) as Q.
  { induction l as [|x l IH]; intros g; cbn [fold_left]; [rewrite app_nil_r; now destruct g|]. rewrite IH. unfold add_disk.
    cbn [disks first_flash initialized max_device]. now rewrite <- app_assoc. }
  rewrite Q. cbn [config0 disks app first_flash initialized max_device]. eexists. repeat split; reflexivity.
Qed.
(** Two files: a flash disk in the regular range. *)
Theorem C106_two_files_refuted : exists pid l1 l2 g1 g2 a d,
  load_config_file pid (Some l1) config0 = Ok g1 /\ load_config_file pid (Some l2) g1 = Ok g2 /\
  regular_disk_range g2 = Some (0%nat, a) /\ nth_error (firstn a (disks g2)) 1 = Some d /\ flash d = true.
Proof.
  exists [], [list_ascii_of_string "disk=/a,1,syscall"; list_ascii_of_string "flash=/b,1,syscall"],
    [list_ascii_of_string "disk=/c,1,syscall"].
  eexists. eexists. eexists. eexists. split; [vm_compute; reflexivity|]. split; [vm_compute; reflexivity|].
  split; [reflexivity|]. split; reflexivity.
Qed.
(** A file with an error: the disks before the error are used nevertheless, the ranges are undefined. *)
Theorem C106_half_loaded_refuted : exists pid lines g, load_config_file pid (Some lines) config0 = Runtime /\
  initialize pid (Some lines) (after_load pid (Some lines) config0) = Ok g /\
  length (disks g) = 1%nat /\ regular_disk_range g = None.
Proof.
  exists [], [list_ascii_of_string "disk=/a,1,syscall"; list_ascii_of_string "disk=/b,1,syscall colour=red"]. eexists.
  split; [vm_compute; reflexivity|]. split; [vm_compute; reflexivity|]. split; reflexivity.
Qed.
(** Not every error is the documented std::runtime_error. *)
Theorem C106_exception_refuted : exists pid line, parse_line pid line disk0 = OutOfRange.
Proof. exists [], (list_ascii_of_string "disk=/a,1"). vm_compute. reflexivity. Qed.
(** Parsing a second line into the same object keeps options of the first. *)
Theorem C106_reuse_refuted : exists pid l1 l2 c1 c2 fresh, parse_line pid l1 disk0 = Ok c1 /\ parse_line pid l2 c1 = Ok c2 /\
  parse_line pid l2 disk0 = Ok fresh /\ raw_device c2 = true /\ raw_device fresh = false.
Proof.
  exists [], (list_ascii_of_string "disk=/dev/sdb1,1,syscall raw_device"), (list_ascii_of_string "disk=/a,1,mmap").
  eexists. eexists. eexists. split; [vm_compute; reflexivity|]. split; [vm_compute; reflexivity|].
  split; [vm_compute; reflexivity|]. split; reflexivity.
Qed.
Example C106_example : exists g, initialize (list_ascii_of_string "77") (Some
    [list_ascii_of_string "# two disks"; list_ascii_of_string "flash=/b,1,syscall"; []; list_ascii_of_string "disk=/c###,2GiB,mmap queue=4"]) config0 = Ok g /\
  map path (disks g) = [list_ascii_of_string "/c77"; list_ascii_of_string "/b"] /\ map size (disks g) = [2 ^ 31; 2 ^ 20] /\
  regular_disk_range g = Some (0, 1)%nat /\ flash_range g = Some (1, 2)%nat.
Proof. eexists. split; [vm_compute; reflexivity|]. repeat split; reflexivity. Qed.

(** ** C107: device ids and queues of the opened disks *)
(** Explicit ids are kept; an automatic id differs from the ids of all disks opened before. *)
Theorem C107_ids_partial : forall ds g l g', max_device g = Some 0 ->
  (forall d, In d ds -> 0 <= device_id d /\ (device_id d = 2 ^ 32 - 1 \/ device_id d + Z.of_nat (length ds) + 1 < 2 ^ 32)) ->
  Z.of_nat (length ds) + 1 < 2 ^ 32 -> open_disks 0 ds g = Some (l, g') ->
  length l = length ds /\
  forall a x e, nth_error ds a = Some x -> nth_error l a = Some e ->
    (device_id x <> 2 ^ 32 - 1 -> device_id e = device_id x) /\ device_id e <> 2 ^ 32 - 1 /\
    (device_id x = 2 ^ 32 - 1 -> forall b y, (b < a)%nat -> nth_error l b = Some y -> device_id y <> device_id e).
Proof.
  intros ds g l g' M B Bl H. split; [exact (open_length _ _ _ _ _ H)|]. intros a x e Ha He.
  destruct (open_ids ds 0 g l g' 0 H M ltac:(lia) B ltac:(lia) a x e Ha He) as (I1 & I2 & I3).
  split; [exact I1|]. split; [exact I2|]. intros D. apply (I3 D).
Qed.
(** An explicit id may be the automatic id of an earlier disk; two automatic ids may be equal after 2^32-2. *)
Definition with_id (i : Z) : disk := mkDisk [] 0 (list_ascii_of_string "syscall") true false DIRECT_TRY false (-1) i false false 0.
Theorem C107_ids_refuted : exists g l1 l2 h1 h2, initialize [] None config0 = Ok g /\
  open_disks 0 [with_id (2 ^ 32 - 1); with_id 0] g = Some (l1, h1) /\ map device_id l1 = [0; 0] /\
  open_disks 0 [with_id (2 ^ 32 - 1); with_id (2 ^ 32 - 2); with_id (2 ^ 32 - 1); with_id (2 ^ 32 - 1)] g = Some (l2, h2) /\
  map device_id l2 = [0; 2 ^ 32 - 2; 2 ^ 32 - 1; 0].
Proof.
  eexists. eexists. eexists. eexists. eexists. split; [vm_compute; reflexivity|]. split; [vm_compute; reflexivity|].
  split; [reflexivity|]. split; [vm_compute; reflexivity|]. reflexivity.
Qed.
(** A file created before the configuration is initialized takes its id from an uninitialized counter. *)
Theorem C107_uninitialized_refuted : forall d ds, assign_device d (fold_left (fun g d => add_disk d g) ds config0) = None.
Proof.
  intros d ds. assert (forall l g, max_device g = None -> max_device (fold_left (fun g d => add_disk d g) l g) = None) as Q.
  { induction l as [|x l IH]; intros g H; [exact H|]. cbn [fold_left]. apply IH. exact H. }
  unfold assign_device. rewrite Q; reflexivity.
Qed.
(** Queues: linuxaio disks share one queue, the others get the queue of their index unless one is given. *)
Theorem C107_queues : forall ds g l g', open_disks 0 ds g = Some (l, g') ->
  forall a x e, nth_error ds a = Some x -> nth_error l a = Some e ->
    (named (io_impl x) "linuxaio" -> queue e = -2) /\
    (~ named (io_impl x) "linuxaio" -> queue x = -1 -> queue e = Z.of_nat a) /\
    (~ named (io_impl x) "linuxaio" -> queue x <> -1 -> queue e = queue x).
Proof. intros ds g l g' H a x e Ha He. exact (open_queues ds 0 g l g' H a x e Ha He). Qed.
Example C107_example : exists g l h, initialize [] None config0 = Ok g /\ max_device g = Some 0 /\
  open_disks 0 [with_id 5; with_id (2 ^ 32 - 1); with_id 2; with_id (2 ^ 32 - 1)] g = Some (l, h) /\
  map device_id l = [5; 6; 2; 7] /\ map queue l = [0; 1; 2; 3].
Proof. eexists. eexists. eexists. split; [vm_compute; reflexivity|]. split; [reflexivity|]. split; [vm_compute; reflexivity|]. split; reflexivity. Qed.

(** ** C108: split *)
Theorem C108_split : forall s sep min limit, s <> [] -> exists fields,
  split s sep min limit = fields ++ repeat [] (min - length fields) /\ fields <> [] /\ join sep fields = s /\
  (forall n, limit = Some (S n) -> (length fields <= S n)%nat) /\
  (forall i x, nth_error fields i = Some x -> (S i < length fields)%nat -> ~ In sep x) /\
  (limit = None \/ (exists n, limit = Some n /\ length fields < n)%nat -> forall x, In x fields -> ~ In sep x).
Proof.
  intros s sep min limit N. exists (split_go sep limit s). unfold split, pad. destruct s as [|c s]; [congruence|].
  split; [reflexivity|]. split; [apply split_go_nonempty|]. split; [apply split_go_join|].
  split; [intros n ->; apply split_go_limit|]. split.
  - intros i x H L0. apply (split_go_clean sep (c :: s) limit i x H). now left.
  - intros H x Hx. apply In_nth_error in Hx. destruct Hx as [i Hi]. apply (split_go_clean sep (c :: s) limit i x Hi).
    destruct H as [H|H]; [right; left; exact H|right; right; exact H].
Qed.
Theorem C108_empty : forall sep min limit, split [] sep min limit = repeat [] min.
Proof. reflexivity. Qed.
(** The documented upper limit: exceeded when it is zero, or smaller than the minimum. *)
Theorem C108_limit_refuted : exists s, length (split s "," 0 (Some 0%nat)) = 2%nat /\ length (split s "," 3 (Some 2%nat)) = 3%nat.
Proof. exists (list_ascii_of_string "a,b"). split; reflexivity. Qed.
Example C108_example :
  split (list_ascii_of_string "a,b,,c=d,e") "," 0 (Some 3%nat) = map list_ascii_of_string ["a"; "b"; ",c=d,e"]%string /\
  split (list_ascii_of_string "a,b,,c") "," 6 None = map list_ascii_of_string ["a"; "b"; ""; "c"; ""; ""]%string.
Proof. split; reflexivity. Qed.

Print Assumptions C104_exact.
Print Assumptions C104_sound_partial.
Print Assumptions C104_no_number_refuted.
Print Assumptions C104_overflow_refuted.
Print Assumptions C105_roundtrip_partial.
Print Assumptions C105_lines_partial.
Print Assumptions C105_flash_refuted.
Print Assumptions C105_queue_refuted.
Print Assumptions C105_known.
Print Assumptions C105_number_refuted.
Print Assumptions C106_line.
Print Assumptions C106_ranges.
Print Assumptions C106_add_disk_refuted.
Print Assumptions C106_two_files_refuted.
Print Assumptions C106_half_loaded_refuted.
Print Assumptions C106_exception_refuted.
Print Assumptions C106_reuse_refuted.
Print Assumptions C107_ids_partial.
Print Assumptions C107_ids_refuted.
Print Assumptions C107_uninitialized_refuted.
Print Assumptions C107_queues.
Print Assumptions C108_split.
Print Assumptions C108_empty.
Print Assumptions C108_limit_refuted.
