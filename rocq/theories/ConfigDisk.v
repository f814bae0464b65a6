(** Proofs about disks: options, lines, files, device ids. *)
From Coq Require Import String Ascii ZArith List Bool Lia.
From Verif Require Import ConfigModel ConfigSpec Config ConfigSize.
Import ListNotations.
Open Scope Z_scope.

(** ** Numbers written and read *)
Lemma decval_from_app a b : forall acc, decval_from acc (a ++ b) = decval_from (decval_from acc a) b.
Proof. induction a as [|c a IH]; intros acc; cbn [app decval_from]; [reflexivity|apply IH]. Qed.

Lemma ascii_digit_ok d : 0 <= d <= 9 -> is_digit (ascii_digit d) /\ Z.of_N (N_of_ascii (ascii_digit d)) - 48 = d.
Proof.
  intros H. assert (d = 0 \/ d = 1 \/ d = 2 \/ d = 3 \/ d = 4 \/ d = 5 \/ d = 6 \/ d = 7 \/ d = 8 \/ d = 9) as C by lia.
  repeat (destruct C as [->|C]; [split; [vm_compute; tauto|reflexivity]|]). subst d. split; [vm_compute; tauto|reflexivity].
Qed.

Lemma dec_go_ok f : forall n acc, 0 <= n < 10 ^ Z.of_nat (S f) ->
  exists ds, dec_go (S f) n acc = ds ++ acc /\ number_text ds /\ decval ds = n.
Proof.
  induction f as [|f IH]; intros n acc Hn.
  - change (10 ^ Z.of_nat 1) with 10 in Hn. destruct (ascii_digit_ok n ltac:(lia)) as [D V].
    exists [ascii_digit n]. cbn [dec_go]. rewrite Z.mod_small by lia.
    split; [destruct (n / 10 =? 0); reflexivity|]. split; [split; [discriminate|constructor; [exact D|constructor]]|].
    unfold decval. cbn [decval_from]. lia.
  - remember (S f) as f1. cbn [dec_go].
    assert (0 <= n mod 10 < 10) as Hm by (apply Z.mod_pos_bound; lia).
    assert (n = 10 * (n / 10) + n mod 10) as Hd by (apply Z.div_mod; lia).
    destruct (ascii_digit_ok (n mod 10) ltac:(lia)) as [D V].
    destruct (n / 10 =? 0) eqn:E.
    + apply Z.eqb_eq in E. exists [ascii_digit (n mod 10)]. split; [reflexivity|].
      split; [split; [discriminate|constructor; [exact D|constructor]]|]. unfold decval. cbn [decval_from]. lia.
    + destruct (IH (n / 10) (ascii_digit (n mod 10) :: acc)) as (ds & E2 & [N F] & W).
      { rewrite Nat2Z.inj_succ, Z.pow_succ_r in Hn by lia. lia. }
      exists (ds ++ [ascii_digit (n mod 10)]). split; [rewrite E2, <- app_assoc; reflexivity|].
      split; [split; [destruct ds; discriminate|apply Forall_app; split; [exact F|constructor; [exact D|constructor]]]|].
      unfold decval. rewrite decval_from_app. fold (decval ds). rewrite W. cbn [decval_from]. lia.
Qed.

Lemma number_dec q : - 2 ^ 32 < q < 2 ^ 32 -> number (dec q) = Some (q mod 2 ^ 64).
Proof.
  intros H. unfold dec. destruct (q <? 0) eqn:E.
  - apply Z.ltb_lt in E. destruct (dec_go_ok 9 (- q) []) as (ds & -> & [N F] & V); [cbn; lia|].
    rewrite app_nil_r. destruct ds as [|c ds]; [congruence|].
    assert (is_digit c) as Hc by (inversion F; assumption).
    assert (sign (skip_space (L "-" ++ c :: ds)) = (true, c :: ds)) as Es by reflexivity.
    unfold number, strtoul. rewrite Es. cbv iota beta.
    rewrite (proj1 (digit_some c Hc)).
    replace (digits (c :: ds) 0) with (- q, @nil ascii).
    2:{ rewrite <- (app_nil_r (c :: ds)), (digits_all (c :: ds) F []) by discriminate. fold (decval (c :: ds)). now rewrite V. }
    rewrite (proj2 (Z.leb_gt _ _)) by lia. now rewrite Z.opp_involutive.
  - apply Z.ltb_ge in E. destruct (dec_go_ok 9 q []) as (ds & -> & N & V); [cbn; lia|].
    unfold number. rewrite strtoul_digits; [|exact N|discriminate]. rewrite V, (proj2 (Z.leb_gt _ _)) by lia.
    now rewrite Z.mod_small by lia.
Qed.

Lemma to_int_mod q : - 2 ^ 31 <= q < 2 ^ 31 -> to_int (q mod 2 ^ 64) = q.
Proof.
  intros H. unfold to_int. assert ((q mod 2 ^ 64 + 2 ^ 31) mod 2 ^ 32 = q + 2 ^ 31) as ->; [|lia].
  assert (q mod 2 ^ 64 = q \/ q mod 2 ^ 64 = q + 2 ^ 64) as [->| ->].
  { destruct (Z.ltb_spec q 0); [right|left].
    - rewrite <- (Z.mod_small (q + 2 ^ 64) (2 ^ 64)) by lia.
      replace (q + 2 ^ 64) with (q + 1 * 2 ^ 64) by lia. symmetry. apply Z.mod_add. lia.
    - apply Z.mod_small. lia. }
  - apply Z.mod_small. lia.
  - replace (q + 2 ^ 64 + 2 ^ 31) with (q + 2 ^ 31 + 2 ^ 32 * 2 ^ 32) by lia. rewrite Z.mod_add by lia.
    apply Z.mod_small. lia.
Qed.
Lemma to_int_range z : - 2 ^ 31 <= to_int z < 2 ^ 31.
Proof. unfold to_int. pose proof (Z.mod_pos_bound (z + 2 ^ 31) (2 ^ 32)). lia. Qed.
Lemma device_mod d : 0 <= d < 2 ^ 32 -> to_unsigned (to_int (d mod 2 ^ 64)) = d.
Proof.
  intros H. rewrite Z.mod_small by lia. unfold to_unsigned, to_int.
  rewrite Zminus_mod_idemp_l. replace (d + 2 ^ 31 - 2 ^ 31) with d by lia. apply Z.mod_small. lia.
Qed.

(** ** Splitting joined tokens *)
Lemma split_go_clean_one sep x : no_char sep x -> split_go sep None x = [x].
Proof.
  induction x as [|c x IH]; intros H; [reflexivity|]. cbn [split_go more]. rewrite andb_true_r.
  destruct (Ascii.eqb_spec c sep) as [->|N]; [exfalso; apply H; now left|].
  rewrite IH; [reflexivity|]. intros K. apply H. now right.
Qed.
Lemma split_go_app sep limit x r : no_char sep x -> more limit = true ->
  split_go sep limit (x ++ sep :: r) = x :: split_go sep (one_less limit) r.
Proof.
  intros H M. induction x as [|c x IH].
  - cbn [app split_go]. rewrite Ascii.eqb_refl, M. reflexivity.
  - cbn [app split_go]. destruct (Ascii.eqb_spec c sep) as [->|N]; [exfalso; apply H; now left|]. cbn [andb].
    rewrite IH; [reflexivity|]. intros K. apply H. now right.
Qed.
Lemma split_go_of_join sep l : l <> [] -> Forall (no_char sep) l -> split_go sep None (join sep l) = l.
Proof.
  induction l as [|x l IH]; intros N F; [congruence|]. inversion F; subst. rewrite join_cons.
  destruct l as [|y l]; [rewrite app_nil_r; now apply split_go_clean_one|].
  rewrite split_go_app by (assumption || reflexivity). cbn [one_less]. rewrite IH; [reflexivity|discriminate|assumption].
Qed.

Lemma split_join sep l : l <> [] -> Forall (no_char sep) l -> Forall (fun x => x <> []) l ->
  split (join sep l) sep 0 None = l.
Proof.
  intros N F G. unfold split, pad. destruct (join sep l) eqn:E.
  - exfalso. destruct l as [|x l]; [congruence|]. inversion G; subst. rewrite join_cons in E. destruct x; [congruence|discriminate].
  - rewrite <- E, split_go_of_join by assumption. cbn [Nat.sub repeat]. now rewrite app_nil_r.
Qed.

(** ** Options *)
Lemma options_app a : forall b c, options (a ++ b) c =
  match options a c with Ok c' => options b c' | Runtime => Runtime | OutOfRange => OutOfRange end.
Proof.
  induction a as [|p a IH]; intros b c; cbn [app options]; [reflexivity|].
  destruct (option_step p c); [apply IH|reflexivity|reflexivity].
Qed.

Definition tk (s : string) : str := L s.
Definition tokens1 (c : disk) : list str :=
  (if autogrow c then [] else [L "autogrow=no"])
  ++ (if delete_on_exit c then [L "delete_on_exit"] else [])
  ++ match direct c with DIRECT_OFF => [L "direct=off"] | DIRECT_TRY => [] | DIRECT_ON => [L "direct=on"] end.
Definition tokens2 (c : disk) : list str :=
  (if negb (queue c =? DEFAULT_QUEUE) && negb (queue c =? DEFAULT_LINUXAIO_QUEUE) then [L "queue=" ++ dec (queue c)] else [])
  ++ (if negb (device_id c =? DEFAULT_DEVICE_ID) then [L "devid=" ++ dec (device_id c)] else [])
  ++ (if raw_device c then [L "raw_device"] else [])
  ++ (if unlink_on_open c then [L "unlink_on_open"] else [])
  ++ (if negb (queue_length c =? 0) then [L "queue_length=" ++ dec (queue_length c)] else []).
Definition tokens (c : disk) : list str := tokens1 c ++ (if flash c then [L "flash"] else []) ++ tokens2 c.
Fixpoint blanked (l : list str) : str := match l with [] => [] | p :: t => " "%char :: p ++ blanked t end.
Lemma blanked_app a b : blanked (a ++ b) = blanked a ++ blanked b.
Proof. induction a as [|p a IH]; [reflexivity|]. cbn [app blanked]. now rewrite IH, <- app_assoc. Qed.
Lemma blanked_join l : blanked l = match l with [] => [] | _ => " "%char :: join " " l end.
Proof.
  induction l as [|p l IH]; [reflexivity|]. cbn [blanked]. rewrite IH, join_cons. destruct l; reflexivity.
Qed.

Lemma fileio_tokens c : fileio_string c = io_impl c ++ blanked (tokens c).
Proof.
  unfold fileio_string, tokens, tokens1, tokens2. f_equal. rewrite !blanked_app, <- !app_assoc.
  repeat match goal with |- ?a ++ ?b = ?x ++ ?y => f_equal end;
  repeat match goal with |- context [if ?b then _ else _] => destruct b end; try destruct (direct c);
  cbn [blanked]; rewrite ?app_nil_r; reflexivity.
Qed.

Lemma dec_go_chars f : forall n acc (P : ascii -> Prop), (forall d, 0 <= d <= 9 -> P (ascii_digit d)) -> Forall P acc ->
  Forall P (dec_go f n acc).
Proof.
  induction f as [|f IH]; intros n acc P Hd Ha; cbn [dec_go]; [exact Ha|].
  assert (Forall P (ascii_digit (n mod 10) :: acc)).
  { constructor; [apply Hd; pose proof (Z.mod_pos_bound n 10); lia|exact Ha]. }
  destruct (n / 10 =? 0); [assumption|]. now apply IH.
Qed.
Lemma digit_not_blank d : 0 <= d <= 9 -> ascii_digit d <> " "%char.
Proof.
  intros H. assert (d = 0 \/ d = 1 \/ d = 2 \/ d = 3 \/ d = 4 \/ d = 5 \/ d = 6 \/ d = 7 \/ d = 8 \/ d = 9) as C by lia.
  repeat (destruct C as [->|C]; [discriminate|]). subst d. discriminate.
Qed.
Lemma dec_no_blank q : no_char " " (dec q).
Proof.
  assert (forall n, Forall (fun c => c <> " "%char) (dec_go 10 n [])) as F.
  { intros n. apply dec_go_chars; [apply digit_not_blank|constructor]. }
  intros H. unfold dec in H. destruct (q <? 0).
  - cbn [L list_ascii_of_string app] in H. destruct H as [H|H]; [discriminate|]. exact (proj1 (Forall_forall _ _) (F _) _ H eq_refl).
  - exact (proj1 (Forall_forall _ _) (F _) _ H eq_refl).
Qed.

Definition good (p : str) : Prop := no_char " " p /\ p <> [].
Lemma good_const s d : existsb (fun c => Ascii.eqb c " ") (L s) = false -> L s <> [] -> no_char " " d -> good (L s ++ d).
Proof.
  intros H N D. split.
  - intros K. apply in_app_or in K. destruct K as [K|K]; [|exact (D K)].
    assert (existsb (fun c => Ascii.eqb c " ") (L s) = true); [|congruence]. apply existsb_exists. exists " "%char. now split.
  - destruct (L s); [congruence|discriminate].
Qed.
Lemma tokens_good c : Forall good (tokens c).
Proof.
  assert (forall s, existsb (fun c => Ascii.eqb c " ") (L s) = false -> L s <> [] -> good (L s)) as Q.
  { intros s A B. rewrite <- (app_nil_r (L s)). apply good_const; [exact A|exact B|intros []]. }
  unfold tokens, tokens1, tokens2. repeat (apply Forall_app; split);
  repeat match goal with |- context [if ?b then _ else _] => destruct b end; try destruct (direct c);
  try constructor; try constructor; try (apply Q; [reflexivity|discriminate]);
  apply good_const; try reflexivity; try discriminate; apply dec_no_blank.
Qed.

Lemma cut_blank_none s : no_char " " s -> cut_blank s = None.
Proof.
  induction s as [|c s IH]; intros H; [reflexivity|]. cbn [cut_blank].
  destruct (is c " ") eqn:B; [apply is_blank in B; exfalso; apply H; now left|].
  rewrite IH; [reflexivity|]. intros K. apply H. now right.
Qed.
Lemma cut_blank_app a b : no_char " " a -> cut_blank (a ++ " "%char :: b) = Some (a, b).
Proof.
  induction a as [|c a IH]; intros H; [reflexivity|]. cbn [app cut_blank].
  destruct (is c " ") eqn:B; [apply is_blank in B; exfalso; apply H; now left|].
  rewrite IH; [reflexivity|]. intros K. apply H. now right.
Qed.
Lemma cut_blank_some s a b : cut_blank s = Some (a, b) -> s = a ++ " "%char :: b /\ no_char " " a.
Proof.
  revert a. induction s as [|c s IH]; intros a H; [discriminate|]. cbn [cut_blank] in H.
  destruct (is c " ") eqn:B.
  - apply is_blank in B. injection H as <- <-. subst c. split; [reflexivity|intros []].
  - destruct (cut_blank s) as [[a' b']|]; [|discriminate]. injection H as <- <-.
    destruct (IH _ eq_refl) as [-> N]. split; [reflexivity|].
    intros [->|K]; [vm_compute in B; discriminate|exact (N K)].
Qed.
Lemma skip_blanks_id s : no_char " " s -> forall r, s <> [] -> skip_blanks (s ++ r) = s ++ r.
Proof.
  intros H r N. destruct s as [|c s]; [congruence|]. cbn [app skip_blanks].
  destruct (is c " ") eqn:B; [|reflexivity]. apply is_blank in B. exfalso. apply H. now left.
Qed.

(** The options of a written disk. *)
Lemma parse_written c x : io_impl c <> [] -> no_char " " (io_impl c) -> io_impl x = fileio_string c ->
  parse_fileio x = options (tokens c) (set_impl (io_impl c) x).
Proof.
  intros N B E. unfold parse_fileio. rewrite E, fileio_tokens, skip_blanks_id by assumption.
  destruct (io_impl c ++ blanked (tokens c)) eqn:K; [destruct (io_impl c); [congruence|discriminate]|].
  rewrite <- K. clear K. rewrite blanked_join. pose proof (tokens_good c) as G. destruct (tokens c) as [|p t].
  - rewrite app_nil_r, cut_blank_none by exact B. reflexivity.
  - rewrite cut_blank_app by exact B. rewrite split_join; [reflexivity|discriminate| |].
    + eapply Forall_impl; [|exact G]. intros y Hy. apply Hy.
    + eapply Forall_impl; [|exact G]. intros y Hy. apply Hy.
Qed.

Lemma tokens1_ok c p s i fl q dev raw unl ql :
  options (tokens1 c) (mkDisk p s i true false DIRECT_TRY fl q dev raw unl ql) =
  Ok (mkDisk p s i (autogrow c) (delete_on_exit c) (direct c) fl q dev raw unl ql).
Proof. unfold tokens1. destruct (autogrow c), (delete_on_exit c), (direct c); reflexivity. Qed.

Lemma split_value (k : string) v : no_char "=" (L k) -> split (L k ++ "="%char :: v) "=" 2 (Some 2%nat) = [L k; v].
Proof.
  intros H. unfold split. destruct (L k ++ "="%char :: v) eqn:E; [destruct (L k); discriminate|]. rewrite <- E.
  rewrite split_go_app by (assumption || reflexivity). cbn [one_less]. rewrite split_go_one. reflexivity.
Qed.

Lemma eqs_iff a s : eqs a s = true <-> a = list_ascii_of_string s.
Proof. unfold eqs, L. apply str_eqb_eq. Qed.

Lemma step_queue v n c : number v = Some n -> ~ named (io_impl c) "linuxaio" ->
  option_step (L "queue=" ++ v) c = Ok (set_queue (to_int n) c).
Proof.
  intros N H. unfold option_step.
  replace (split (L "queue=" ++ v) "=" 2 (Some 2%nat)) with [L "queue"; v].
  2:{ symmetry. apply (split_value "queue" v). intros K. cbn in K. repeat (destruct K as [K|K]; [discriminate|]). destruct K. }
  cbn [nth]. destruct (eqs (io_impl c) "linuxaio") eqn:E; [apply eqs_iff in E; contradiction|].
  rewrite N. reflexivity.
Qed.
Lemma step_devid v n c : number v = Some n -> option_step (L "devid=" ++ v) c = Ok (set_device (to_unsigned (to_int n)) c).
Proof.
  intros N. unfold option_step. replace (split (L "devid=" ++ v) "=" 2 (Some 2%nat)) with [L "devid"; v].
  2:{ symmetry. apply (split_value "devid" v). intros K. cbn in K. repeat (destruct K as [K|K]; [discriminate|]). destruct K. }
  cbn [nth]. rewrite N. reflexivity.
Qed.
Lemma step_qlen v n c : number v = Some n -> named (io_impl c) "linuxaio" ->
  option_step (L "queue_length=" ++ v) c = Ok (set_qlen (to_int n) c).
Proof.
  intros N H. unfold option_step. replace (split (L "queue_length=" ++ v) "=" 2 (Some 2%nat)) with [L "queue_length"; v].
  2:{ symmetry. apply (split_value "queue_length" v). intros K. cbn in K. repeat (destruct K as [K|K]; [discriminate|]). destruct K. }
  cbn [nth]. rewrite (proj2 (eqs_iff _ _) H). rewrite N. reflexivity.
Qed.

Lemma tokens2_ok c a d dr fl : writable c ->
  options (tokens2 c) (mkDisk (path c) (size c) (io_impl c) a d dr fl DEFAULT_QUEUE DEFAULT_DEVICE_ID false false 0) =
  Ok (mkDisk (path c) (size c) (io_impl c) a d dr fl (queue c) (device_id c) (raw_device c) (unlink_on_open c) (queue_length c)).
Proof.
  intros (N & B & (Q1 & Q2 & Q3) & D & R & U & Ln & Lx). unfold tokens2.
  rewrite options_app.
  match goal with |- match options ?l ?x with _ => _ end = _ =>
    assert (options l x = Ok (set_queue (queue c) x)) as -> end.
  { unfold DEFAULT_QUEUE at 1, DEFAULT_LINUXAIO_QUEUE. destruct (Z.eqb_spec (queue c) (-1)) as [->|Nq]; [reflexivity|].
    destruct (Z.eqb_spec (queue c) (-2)) as [|Nq2]; [congruence|]. cbn [negb andb options].
    rewrite (step_queue _ _ _ (number_dec (queue c) ltac:(lia))); [|cbn [io_impl]; tauto].
    rewrite to_int_mod by lia. reflexivity. }
  cbn [set_queue path size io_impl autogrow delete_on_exit direct flash queue device_id raw_device unlink_on_open queue_length].
  rewrite options_app.
  match goal with |- match options ?l ?x with _ => _ end = _ =>
    assert (options l x = Ok (set_device (device_id c) x)) as -> end.
  { destruct (Z.eqb_spec (device_id c) DEFAULT_DEVICE_ID) as [->|Nq]; [reflexivity|]. cbn [negb options].
    rewrite (step_devid _ _ _ (number_dec (device_id c) ltac:(lia))). rewrite device_mod by lia. reflexivity. }
  cbn [set_device path size io_impl autogrow delete_on_exit direct flash queue device_id raw_device unlink_on_open queue_length].
  rewrite options_app.
  match goal with |- match options ?l ?x with _ => _ end = _ =>
    assert (options l x = Ok (set_raw (raw_device c) x)) as -> end.
  { destruct (raw_device c); [|reflexivity]. specialize (R eq_refl). unfold named in R. rewrite R. reflexivity. }
  cbn [set_raw path size io_impl autogrow delete_on_exit direct flash queue device_id raw_device unlink_on_open queue_length].
  rewrite options_app.
  match goal with |- match options ?l ?x with _ => _ end = _ =>
    assert (options l x = Ok (set_unlink (unlink_on_open c) x)) as -> end.
  { destruct (unlink_on_open c); [|reflexivity]. specialize (U eq_refl). unfold named in U.
    destruct U as [U|[U|[U|U]]]; rewrite U; reflexivity. }
  cbn [set_unlink path size io_impl autogrow delete_on_exit direct flash queue device_id raw_device unlink_on_open queue_length].
  destruct (Z.eqb_spec (queue_length c) 0) as [->|Nq]; [reflexivity|]. cbn [negb options].
  rewrite (step_qlen _ _ _ (number_dec (queue_length c) ltac:(lia))); [|cbn [io_impl]; tauto].
  rewrite to_int_mod by lia. reflexivity.
Qed.

Lemma round_trip c : writable c -> flash c = false -> disk_config (path c) (size c) (fileio_string c) = Ok c.
Proof.
  intros W F. unfold disk_config. rewrite (parse_written c) by (try apply W; reflexivity).
  unfold tokens. rewrite F. cbn [app]. rewrite options_app. unfold set_impl.
  cbn [path size io_impl autogrow delete_on_exit direct flash queue device_id raw_device unlink_on_open queue_length].
  rewrite tokens1_ok, tokens2_ok by exact W. rewrite <- F. destruct c. reflexivity.
Qed.

Lemma flash_rejected c : io_impl c <> [] -> no_char " " (io_impl c) -> flash c = true ->
  disk_config (path c) (size c) (fileio_string c) = Runtime.
Proof.
  intros N B F. unfold disk_config. rewrite (parse_written c) by (try assumption; reflexivity).
  unfold tokens. rewrite F, options_app. unfold set_impl.
  cbn [path size io_impl autogrow delete_on_exit direct flash queue device_id raw_device unlink_on_open queue_length].
  rewrite tokens1_ok. reflexivity.
Qed.
