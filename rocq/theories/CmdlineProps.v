(** The theorems about the command line parser: C113 to C115. *)
From Coq Require Import String Ascii ZArith List Bool Lia Arith.
From Verif Require Import ConfigModel ConfigSpec Config ConfigSize ConfigProps CmdlineModel CmdlineSpec Cmdline CmdlineWrap.
Import ListNotations.
Open Scope nat_scope.
Notation chars := list_ascii_of_string.

(** ** C113: the accepted command lines *)
(** A command line is accepted if and only if it is a list of items of declared options and parameters with texts of
    their types, all required parameters are given and nobody asks for help; the variables get exactly the values. *)
Theorem C113_exact : forall opts params st argv st', Forall (fun p => kd p <> Flag) params ->
  (exists found, process opts params [] st argv = (Accepted, found, st')) <->
  (~ asks_help argv /\ exists items given, argv = concat (map render items) /\
     line accepts opts params false 0 st items given st' /\ complete params given).
Proof.
  intros opts params st argv st' NF. unfold process. pose proof (help_iff argv) as Hh. destruct (existsb help_word argv).
  - split; [intros [f H]; discriminate|]. intros [H _]. destruct H. now apply Hh.
  - assert (~ asks_help argv) as Na by (intros A; apply Hh in A; discriminate). split.
    + intros [f H]. split; [exact Na|]. apply (loop_sound _ _ NF) in H. destruct H as (items & g & -> & Ln & -> & C).
      exists items, g. split; [reflexivity|]. split; [exact Ln|]. intros j p Hj Hr. specialize (C j p Hj Hr).
      rewrite app_nil_r in C. now apply in_rev.
    + intros (_ & items & g & -> & Ln & C). rewrite (loop_complete _ _ _ _ _ _ _ _ Ln) by lia.
      assert (missing params (rev g ++ []) = false) as ->.
      { apply missing_iff. intros j p Hj Hr. rewrite app_nil_r. apply -> in_rev. exact (C j p Hj Hr). }
      eexists. reflexivity.
Qed.
(** In particular all documented forms are understood. *)
Lemma means_accepts k old s v : means k old s v -> accepts k old s v.
Proof.
  destruct k; cbn [means accepts]; try (intros H; exact H).
  - intros (sg & neg & ds & -> & Sg & N & B & ->). exists [], sg, neg, ds, []. rewrite app_nil_r. split; [reflexivity|]. split; [constructor|].
    split; [exact Sg|]. split; [exact N|]. split; [discriminate|]. split; [exact B|reflexivity].
  - intros (N & B & ->). exists [], [], false, s, []. rewrite app_nil_r. split; [reflexivity|]. split; [constructor|]. split; [left; now split|].
    split; [exact N|]. split; [discriminate|]. split; [exact B|]. f_equal. symmetry. apply Z.mod_small. split; [|exact B]. apply decval_nonneg, N.
  - intros (n & f & T & Bn & B & ->). exists (n * f)%Z.
    assert (0 <= n)%Z as P. { destruct T as (ds & j & ut & q & [_ F] & <- & _). now apply decval_nonneg. }
    assert (0 <= f)%Z as Pf. { destruct T as (ds & j & ut & q & _ & _ & Hu & _). exact (unit_nonneg _ _ _ Hu). }
    assert (0 <= n * f)%Z as Pp by (now apply Z.mul_nonneg_nonneg).
    split; [|split; [now split|reflexivity]]. rewrite (parse_size_text _ _ _ _ T). rewrite Z.min_l by lia. rewrite Z.mod_small by lia. reflexivity.
  - intros (n & f & T & Bn & B & ->). exists (n * f)%Z.
    assert (0 <= n)%Z as P. { destruct T as (ds & j & ut & q & [_ F] & <- & _). now apply decval_nonneg. }
    assert (0 <= f)%Z as Pf. { destruct T as (ds & j & ut & q & _ & _ & Hu & _). exact (unit_nonneg _ _ _ Hu). }
    assert (0 <= n * f)%Z as Pp by (now apply Z.mul_nonneg_nonneg).
    split; [|reflexivity]. rewrite (parse_size_text _ _ _ _ T). rewrite Z.min_l by lia. rewrite Z.mod_small by lia. reflexivity.
Qed.
Lemma gives_means o t st st' : gives means o t st st' -> gives accepts o t st st'.
Proof.
  unfold gives. destruct (kd o); try (intros H; exact H); intros (s & v & -> & M & ->); exists s, v; (split; [reflexivity|]);
    (split; [now apply means_accepts|reflexivity]).
Qed.
Lemma line_means opts params e i st items g st' : line means opts params e i st items g st' -> line accepts opts params e i st items g st'.
Proof.
  induction 1; [constructor|eapply L_long; eauto using gives_means|eapply L_short; eauto using gives_means|
    eapply L_param; eauto using means_accepts|constructor; assumption|constructor; assumption].
Qed.
Theorem C113_documented_partial : forall opts params st items given st', Forall (fun p => kd p <> Flag) params ->
  line means opts params false 0 st items given st' -> complete params given -> ~ asks_help (concat (map render items)) ->
  exists found, process opts params [] st (concat (map render items)) = (Accepted, found, st').
Proof.
  intros opts params st items given st' NF Ln C Na. apply (C113_exact _ _ _ _ _ NF). split; [exact Na|].
  exists items, given. split; [reflexivity|]. split; [now apply line_means|exact C].
Qed.
Theorem C113_ends : forall opts params found st argv, Forall (fun p => kd p <> Flag) params ->
  fst (fst (process opts params found st argv)) <> Fuel.
Proof.
  intros opts params found st argv NF. unfold process. destruct (existsb help_word argv); [discriminate|]. apply loop_fuel; [exact NF|lia].
Qed.
Theorem C113_help : forall opts params found st argv, asks_help argv -> process opts params found st argv = (Help, found, st).
Proof. intros opts params found st argv H. unfold process. apply help_iff in H. now rewrite H. Qed.
(** Command lines that are accepted although they are wrong: the 5 of -n5 and the letters behind a flag are dropped, a lone
    dash is dropped, 12abc is 12, a negative number for an unsigned variable. *)
Definition opt_n := mkArg (Some "n"%char) (chars "number") [] [] Int false 0.
Definition opt_u := mkArg (Some "u"%char) (chars "unsigned") [] [] Uint false 1.
Definition opt_v := mkArg (Some "v"%char) (chars "verbose") [] [] Flag false 2.
Definition opt_s := mkArg (Some "s"%char) (chars "string") [] [] Str false 3.
Definition st0 : nat -> value := fun _ => VNum 1.
Definition result (argv : list string) := let '(o, _, st) := process [opt_n; opt_u; opt_v; opt_s] [] [] st0 (map chars argv) in (o, map st (seq 0 4)).
Theorem C113_ignored_refuted :
  result ["-n5"; "7"]%string = (Accepted, [VNum 7; VNum 1; VNum 1; VNum 1]) /\
  result ["-vn"]%string = (Accepted, [VNum 1; VNum 1; VBool true; VNum 1]) /\
  result ["-"]%string = (Accepted, [VNum 1; VNum 1; VNum 1; VNum 1]) /\
  result ["-n"; "12abc"]%string = (Accepted, [VNum 12; VNum 1; VNum 1; VNum 1]) /\
  result ["-u"; "-1"]%string = (Accepted, [VNum 1; VNum (2 ^ 32 - 1); VNum 1; VNum 1]).
Proof. repeat split; vm_compute; reflexivity. Qed.
(** The usual -- does not end the options but is an unknown option; only words with three dashes do. *)
Theorem C113_separator_refuted : forall opts params found st argv, (forall o, In o opts -> longkey o <> []) ->
  ~ asks_help argv -> process opts params found st (chars "--" :: argv) = (Rejected, found, st).
Proof.
  intros opts params found st argv N H. unfold process. destruct (existsb help_word (chars "--" :: argv)) eqn:E.
  - apply help_iff in E. destruct H. destruct E as [[E|E]|[E|E]]; try discriminate; [now left|now right].
  - cbn [length]. cbn [loop list_ascii_of_string]. rewrite !is1. cbn [andb negb]. change (Ascii.eqb "-" "-") with true. cbn [andb].
    destruct (find _ opts) as [o|] eqn:Fo; [|reflexivity]. apply find_some in Fo. destruct Fo as [Io Eo].
    destruct (longkey o) eqn:K; [|discriminate]. destruct (N o Io K).
Qed.
(** A value -h is taken for the request for help. *)
Theorem C113_help_value_refuted : exists opts st items st', Forall documented items /\ line means opts [] false 0 st items [] st' /\
  process opts [] [] st (concat (map render items)) = (Help, [], st).
Proof.
  exists [opt_s], st0, [ILong (chars "string") (Some (chars "-h"))]. eexists. split; [constructor; [exact I|constructor]|]. split; [|reflexivity].
  eapply L_long with (o := opt_s); [|intros [t E]; discriminate|do 2 eexists; repeat split|constructor].
  exists [], []. split; [reflexivity|]. split; [reflexivity|constructor].
Qed.
(** A rejected command line has changed variables, even the one of the wrong option. *)
Theorem C113_atomic_refuted :
  result ["-n"; "5"; "--nothing"]%string = (Rejected, [VNum 5; VNum 1; VNum 1; VNum 1]) /\
  (exists o st, kd o = Bytes64 /\ exists st', process [o] [] [] st [chars "--size"; chars "3 apples"] = (Rejected, [], st') /\ st' 0 <> st 0).
Proof.
  split; [vm_compute; reflexivity|]. exists (mkArg None (chars "size") [] [] Bytes64 false 0), st0. split; [reflexivity|].
  eexists. split; [vm_compute; reflexivity|]. vm_compute. discriminate.
Qed.
Definition par_file := mkArg None (chars "file") [] [] Str true 4.
Definition par_list := mkArg None (chars "names") [] [] StrList false 5.
Definition example_items := [ILong (chars "number") (Some (chars "-12")); IParam (chars "x"); IShort "v" [] None; IParam (chars "y"); IParam (chars "z")].
Example C113_example : Forall documented example_items /\ ~ asks_help (concat (map render example_items)) /\
  (exists st', line means [opt_n; opt_v] [par_file; par_list] false 0 st0 example_items [0; 1; 1] st' /\
     map st' [0; 2; 4; 5] = [VNum (-12); VBool true; VStr (chars "x"); VList [chars "y"; chars "z"]]) /\
  complete [par_file; par_list] [0; 1; 1].
Proof.
  split; [repeat constructor|]. split.
  { intros [H|H]; cbn in H; repeat (destruct H as [H|H]; [discriminate|]); exact H. }
  split.
  - eexists. split.
    + eapply L_long with (o := opt_n); [exists [], [opt_v]; split; [reflexivity|split; [reflexivity|constructor]]|intros [t E]; discriminate| |].
      { exists (chars "-12"), (VNum (-12)). split; [reflexivity|]. split; [|reflexivity]. exists ["-"%char], true, (chars "12").
        split; [reflexivity|]. split; [right; right; now split|]. split; [split; [discriminate|]|split; [vm_compute; split; congruence|reflexivity]].
        repeat constructor; cbn; tauto. }
      eapply L_param with (p := par_file); [right; intros [t E]; discriminate|reflexivity|reflexivity|].
      eapply L_short with (o := opt_v); [exists [opt_n], []; split; [reflexivity|split; [reflexivity|constructor; [discriminate|constructor]]]|discriminate|split; reflexivity|].
      eapply L_param with (p := par_list); [right; intros [t E]; discriminate|reflexivity|reflexivity|].
      eapply L_param with (p := par_list); [right; intros [t E]; discriminate|reflexivity|reflexivity|constructor].
    + reflexivity.
  - intros [|[|j]] p Hj Hr; cbn in Hj; [left; reflexivity|injection Hj as <-; discriminate|destruct j; discriminate].
Qed.

(** ** C114: parameters *)
Lemma line_order R opts params : Forall (fun p => kd p <> StrList) params -> forall e i st items g st',
  line R opts params e i st items g st' -> g = seq i (length g) /\ length g <= length params - i.
Proof.
  intros NL e i st items g st' H. induction H as [| | |e i st s p v l g st2 D Np A Ln IH| |]; try (split; [reflexivity|cbn; lia]); try exact IHline.
  assert (kd p <> StrList) as Ns by (rewrite Forall_forall in NL; apply NL; exact (nth_error_In _ _ Np)).
  assert ((if match kd p with StrList => true | _ => false end then i else S i) = S i) as E by (destruct (kd p); congruence).
  rewrite E in IH. destruct IH as [E1 E2]. assert (i < length params) as B by (apply nth_error_Some; congruence).
  cbn [length seq]. split; [now rewrite E1 at 1|lia].
Qed.
(** Without lists: the texts go to the parameters in order, and there are enough of them. *)
Theorem C114_order : forall opts params st argv found st', Forall (fun p => kd p <> Flag /\ kd p <> StrList) params ->
  process opts params [] st argv = (Accepted, found, st') ->
  rev found = seq 0 (length found) /\ length found <= length params /\
  forall j p, nth_error params j = Some p -> required p = true -> j < length found.
Proof.
  intros opts params st argv found st' NF H.
  assert (Forall (fun p => kd p <> Flag) params /\ Forall (fun p => kd p <> StrList) params) as [N1 N2].
  { split; (eapply Forall_impl; [|exact NF]); cbn; tauto. }
  unfold process in H. destruct (existsb help_word argv); [discriminate|]. apply (loop_sound _ _ N1) in H.
  destruct H as (items & g & -> & Ln & -> & C). destruct (line_order _ _ _ N2 _ _ _ _ _ _ Ln) as [E B].
  rewrite app_nil_r in *. rewrite rev_involutive, rev_length. split; [exact E|]. split; [lia|]. intros j p Hj Hr.
  specialize (C j p Hj Hr). apply in_rev in C. rewrite E in C. apply in_seq in C. lia.
Qed.
(** All required parameters were given. *)
Theorem C114_required : forall opts params st argv found st', Forall (fun p => kd p <> Flag) params ->
  process opts params [] st argv = (Accepted, found, st') -> forall j p, nth_error params j = Some p -> required p = true -> In j found.
Proof.
  intros opts params st argv found st' NF H. unfold process in H. destruct (existsb help_word argv); [discriminate|].
  apply (loop_sound _ _ NF) in H. destruct H as (_ & _ & _ & _ & _ & C). exact C.
Qed.
(** A list takes all texts that follow: a required parameter behind it can never be given. *)
Lemma line_list R opts params j q : nth_error params j = Some q -> kd q = StrList -> forall e i st items g st',
  line R opts params e i st items g st' -> i <= j -> Forall (fun x => x <= j) g.
Proof.
  intros Nq Kq e i st items g st' H. induction H as [| | |e i st s p v l g st2 D Np A Ln IH| |]; intros B; try (constructor; fail); try (now apply IHline).
  constructor; [exact B|]. apply IH. destruct (Nat.eq_dec i j) as [->|N].
  - assert (p = q) as -> by congruence. rewrite Kq. lia.
  - destruct (kd p); lia.
Qed.
Theorem C114_after_list_refuted : forall opts params j k p q, Forall (fun p => kd p <> Flag) params ->
  nth_error params j = Some q -> kd q = StrList -> nth_error params k = Some p -> required p = true -> j < k ->
  forall st argv found st', process opts params [] st argv <> (Accepted, found, st').
Proof.
  intros opts params j k p q NF Nq Kq Np Rp B st argv found st' H. unfold process in H. destruct (existsb help_word argv); [discriminate|].
  apply (loop_sound _ _ NF) in H. destruct H as (items & g & -> & Ln & -> & C).
  apply (line_list _ _ _ _ _ Nq Kq) in Ln; [|lia]. specialize (C k p Np Rp). rewrite app_nil_r in C. apply in_rev in C.
  rewrite Forall_forall in Ln. specialize (Ln k C). lia.
Qed.
(** A second call of process on the same parser does not ask for the required parameters again. *)
Theorem C114_stale_refuted : exists params st found st', process [] params [] st [chars "x"] = (Accepted, found, st') /\
  process [] params found st [] = (Accepted, found, st) /\ process [] params [] st [] = (Rejected, [], st).
Proof. exists [par_file], st0. do 2 eexists. split; [reflexivity|]. split; reflexivity. Qed.
Example C114_example : Forall (fun p => kd p <> Flag /\ kd p <> StrList) [par_file; opt_n] /\
  exists found st', process [opt_v] [par_file; opt_n] [] st0 [chars "x"; chars "-v"; chars "3"] = (Accepted, found, st') /\
    found = [1; 0] /\ map st' [0; 2; 4] = [VNum 3; VBool true; VStr (chars "x")].
Proof.
  split; [repeat constructor; discriminate|]. do 2 eexists. split; [vm_compute; reflexivity|]. split; reflexivity.
Qed.

(** ** C115: wrapped texts *)
(** The lines are the text; they break after spaces (or inside a word that fills the line). *)
Theorem C115_text : forall fuel text W first rest cur nl lines, output_wrap fuel text W first rest cur nl = Some lines -> broken rest nl first text lines.
Proof. intros. eapply wrap_broken. eassumption. Qed.
Theorem C115_width : forall fuel text W first rest cur nl lines, rest <= W -> nl <= W -> cur + first <= W ->
  output_wrap fuel text W first rest cur nl = Some lines ->
  match lines with [] => True | x :: t => narrow (W - cur) x /\ Forall (narrow W) t end.
Proof. intros fuel text W first rest cur nl lines B1 B2 B3 H. exact (wrap_width _ _ _ _ _ _ _ _ B1 B2 B3 H). Qed.
(** It ends if the indentations are smaller than the width. *)
Theorem C115_ends_partial : forall text W first rest cur nl, rest < W -> nl < W ->
  exists lines, output_wrap (S (length text)) text W first rest cur nl = Some lines.
Proof.
  intros text W first rest cur nl B1 B2. destruct (output_wrap (S (length text)) text W first rest cur nl) as [l|] eqn:E; [now exists l|].
  exfalso. revert E. apply wrap_ends; try assumption; [lia|right; lia].
Qed.
(** Otherwise it does not: empty lines are printed for ever. *)
Theorem C115_hang_refuted : forall fuel text c W first rest cur nl, W <= rest -> W <= cur + first -> c <> "010"%char ->
  output_wrap fuel (c :: text) W first rest cur nl = None.
Proof. intros. now apply wrap_hangs. Qed.
(** So the usage of a program with an option of 76 or more characters is never printed to its end; with shorter options it is. *)
Theorem C115_usage_refuted : forall opts o a c text, In o opts -> 76 <= length (option_text o) -> In a opts -> desc a = c :: text -> c <> "010"%char ->
  forall fuel, usage_options fuel opts = None.
Proof.
  intros opts o a c text Io L76 Ia Ed Nc fuel. unfold usage_options.
  assert (78 <= maxlong option_text opts) as M by (pose proof (proj2 (maxlong_ge option_text opts 8) o Io); unfold maxlong; lia).
  apply (usage_none _ _ _ a Ia). rewrite Ed. apply C115_hang_refuted; [unfold linewrap; lia|unfold linewrap; lia|exact Nc].
Qed.
Theorem C115_usage_partial : forall text opts, (text = option_text \/ text = param_text) -> (forall o, In o opts -> length (text o : str) <= 75) ->
  exists fuel, usage fuel (maxlong text opts) opts <> None.
Proof.
  intros text opts _ H.
  assert (maxlong text opts <= 77) as M by (apply maxlong_le; [lia|]; intros o I; specialize (H o I); lia).
  assert (exists fuel, forall a, In a opts -> length (desc a) < fuel) as [fuel Hf].
  { clear. induction opts as [|x l [fuel IH]]; [exists 0; intros a []|]. exists (S (Nat.max fuel (length (desc x)))).
    intros a [<-|I]; [lia|]. specialize (IH a I). lia. }
  exists fuel. apply usage_some. intros a I. specialize (Hf a I). apply wrap_ends; unfold linewrap; lia.
Qed.
(** A word that fits on a line is cut when the space before it starts the line. *)
Theorem C115_cut_refuted : output_wrap 9 (chars "abcde fghij") 5 0 0 0 0 = Some [(0, chars "abcde"); (0, chars " fghi"); (0, chars "j")].
Proof. reflexivity. Qed.
Example C115_example : output_wrap 9 (chars "one two three") 8 0 2 1 0 = Some [(0, chars "one "); (2, chars "two "); (2, chars "three")] /\
  broken 2 0 0 (chars "one two three") [(0, chars "one "); (2, chars "two "); (2, chars "three")].
Proof. split; [reflexivity|]. apply (C115_text 9 _ 8 0 2 1 0). reflexivity. Qed.

Print Assumptions C113_exact.
Print Assumptions C113_documented_partial.
Print Assumptions C113_ends.
Print Assumptions C113_help.
Print Assumptions C113_ignored_refuted.
Print Assumptions C113_separator_refuted.
Print Assumptions C113_help_value_refuted.
Print Assumptions C113_atomic_refuted.
Print Assumptions C114_order.
Print Assumptions C114_required.
Print Assumptions C114_after_list_refuted.
Print Assumptions C114_stale_refuted.
Print Assumptions C115_text.
Print Assumptions C115_width.
Print Assumptions C115_ends_partial.
Print Assumptions C115_hang_refuted.
Print Assumptions C115_usage_refuted.
Print Assumptions C115_usage_partial.
Print Assumptions C115_cut_refuted.
