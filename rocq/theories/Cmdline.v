(** Lemmas about the command line parser. *)
From Coq Require Import String Ascii ZArith List Bool Lia Arith.
From Verif Require Import ConfigModel ConfigSpec Config ConfigSize CmdlineModel CmdlineSpec.
Import ListNotations.
Open Scope nat_scope.

(** ** Numbers *)
Lemma is_space_iff c : is_space c = true <-> white c.
Proof.
  unfold is_space, code, white. rewrite orb_true_iff, andb_true_iff, Z.eqb_eq, !Z.leb_le.
  unfold nat_of_ascii. pose proof (N2Z.is_nonneg (N_of_ascii c)) as P. split.
  - intros H. cbn [In]. lia.
  - intros H. cbn [In] in H. lia.
Qed.
Lemma skip_space_split s : exists sp, s = sp ++ skip_space s /\ Forall white sp.
Proof.
  induction s as [|c t IH]; [exists []; split; [reflexivity|constructor]|]. cbn [skip_space].
  destruct (is_space c) eqn:E; [|exists []; split; [reflexivity|constructor]].
  destruct IH as (sp & Es & F). exists (c :: sp). split; [cbn [app]; f_equal; exact Es|]. constructor; [now apply is_space_iff|exact F].
Qed.
Lemma skip_space_app sp s : Forall white sp -> (forall c t, s = c :: t -> ~ white c) -> skip_space (sp ++ s) = s.
Proof.
  intros F H. induction F as [|c t W F IH]; cbn [app].
  - destruct s as [|c t]; [reflexivity|]. cbn [skip_space]. destruct (is_space c) eqn:E; [|reflexivity].
    apply is_space_iff in E. destruct (H c t eq_refl E).
  - cbn [skip_space]. apply is_space_iff in W. rewrite W. exact IH.
Qed.
Lemma digit_white c : is_digit c -> ~ white c /\ is c "-" = false /\ is c "+" = false.
Proof.
  unfold is_digit, white. cbn [list_ascii_of_string In]. intros H.
  repeat (destruct H as [<-|H]; [split; [cbn; lia|split; reflexivity]|]). destruct H.
Qed.
Lemma is1 c d : is c (String d EmptyString) = Ascii.eqb c d.
Proof. unfold is. cbn [L list_ascii_of_string existsb]. now rewrite orb_false_r. Qed.

Lemma scan_iff s neg v : scan s = Some (neg, v) <->
  exists sp sg ds junk, s = sp ++ sg ++ ds ++ junk /\ Forall white sp /\ sign_text sg neg /\ number_text ds /\
    (forall c t, junk = c :: t -> ~ is_digit c) /\ v = decval ds.
Proof.
  split.
  - unfold scan. destruct (skip_space_split s) as (sp & Es & F). set (r := skip_space s) in *. clearbody r. subst s.
    assert (exists sg s1, sign r = (let '(n, _) := sign r in n, s1) /\ r = sg ++ s1 /\ sign_text sg (fst (sign r))) as (sg & s1 & E1 & E2 & E3).
    { unfold sign. destruct r as [|c t]; [exists [], []; repeat split; left; split; reflexivity|].
      rewrite !is1. destruct (Ascii.eqb_spec c "-") as [->|].
      - exists ["-"%char], t. repeat split. right. right. split; reflexivity.
      - destruct (Ascii.eqb_spec c "+") as [->|].
        + exists ["+"%char], t. repeat split. right. left. split; reflexivity.
        + exists [], (c :: t). repeat split. left. split; reflexivity. }
    destruct (sign r) as [n s1'] eqn:Er. injection E1 as ->. cbn [fst] in E3.
    destruct s1 as [|c t]; [discriminate|]. destruct (digit c) as [d|] eqn:Ed; [|discriminate]. intros H. injection H as <- <-.
    destruct (digits_split (c :: t)) as (ds & rest & Eq & Fd & Hr). apply digit_inv in Ed.
    exists sp, sg, ds, rest. rewrite E2, Eq. split; [reflexivity|]. split; [exact F|]. split; [exact E3|].
    assert (ds <> []) as Nd. { intros ->. cbn in Eq. exact (Hr c t (eq_sym Eq) Ed). }
    split; [split; assumption|]. split; [exact Hr|]. transitivity (fst (digits (ds ++ rest) 0%Z)); [now rewrite <- Eq|]. rewrite (digits_all ds Fd rest 0%Z Hr). reflexivity.
  - intros (sp & sg & ds & junk & -> & F & Sg & [Nd Fd] & Hj & ->). unfold scan.
    destruct ds as [|c ds]; [congruence|]. inversion Fd as [|x y Hc Fd']; subst. destruct (digit_white c Hc) as (Wc & Mc & Pc).
    assert (skip_space (sp ++ sg ++ (c :: ds) ++ junk) = sg ++ (c :: ds) ++ junk) as ->.
    { apply skip_space_app; [exact F|]. intros c' t' E. destruct Sg as [[-> _]|[[-> _]|[-> _]]]; injection E as <- _; [exact Wc|cbn; lia|cbn; lia]. }
    assert (sign (sg ++ (c :: ds) ++ junk) = (neg, (c :: ds) ++ junk)) as ->.
    { destruct Sg as [[-> ->]|[[-> ->]|[-> ->]]]; [|reflexivity|reflexivity]. cbn [app]. unfold sign. now rewrite Mc, Pc. }
    rewrite (digits_all (c :: ds) Fd junk 0%Z Hj). cbn [app]. destruct (digit_some c Hc) as [-> _]. reflexivity.
Qed.

(** Processing an argument is exactly giving it a value. *)
Lemma process_done a st argv st' rest : arg_process a st argv = PDone st' rest <->
  exists t, argv = texts t ++ rest /\ gives accepts a t st st'.
Proof.
  unfold arg_process, gives. destruct (kd a) eqn:K.
  - split.
    + intros H. injection H as <- <-. exists None. repeat split.
    + intros (t & -> & -> & ->). reflexivity.
  - destruct argv as [|s argv].
    { split; [discriminate|]. intros (t & E & s & v & -> & _). discriminate. }
    unfold scan_d. split.
    + destruct (scan s) as [[neg v]|] eqn:E; [|discriminate]. apply scan_iff in E. destruct E as (sp & sg & ds & junk & -> & F & Sg & N & J & ->).
      destruct (_ && _)%bool eqn:B; [|discriminate]. intros H. injection H as <- <-.
      apply andb_true_iff in B. rewrite Z.leb_le, Z.ltb_lt in B. eexists (Some _). split; [reflexivity|].
      do 2 eexists. split; [reflexivity|]. split; [|reflexivity]. cbn [accepts]. exists sp, sg, neg, ds, junk. repeat (split; [assumption||reflexivity|]). reflexivity.
    + intros (t & E & s' & v & -> & (sp & sg & neg & ds & junk & Es & F & Sg & N & J & B & ->) & ->). injection E as <- ->.
      assert (scan s = Some (neg, decval ds)) as -> by (apply scan_iff; exists sp, sg, ds, junk; repeat (split; [assumption|]); reflexivity).
      destruct B as [B1 B2]. apply Z.leb_le in B1. apply Z.ltb_lt in B2. rewrite B1, B2. reflexivity.
  - destruct argv as [|s argv].
    { split; [discriminate|]. intros (t & E & s & v & -> & _). discriminate. }
    unfold scan_u. split.
    + destruct (scan s) as [[neg v]|] eqn:E; [|discriminate]. apply scan_iff in E. destruct E as (sp & sg & ds & junk & -> & F & Sg & N & J & ->).
      destruct (_ <? _)%Z eqn:B; [|discriminate]. intros H. injection H as <- <-.
      apply Z.ltb_lt in B. eexists (Some _). split; [reflexivity|].
      do 2 eexists. split; [reflexivity|]. split; [|reflexivity]. cbn [accepts]. exists sp, sg, neg, ds, junk. repeat (split; [assumption||reflexivity|]). reflexivity.
    + intros (t & E & s' & v & -> & (sp & sg & neg & ds & junk & Es & F & Sg & N & J & B & ->) & ->). injection E as <- ->.
      assert (scan s = Some (neg, decval ds)) as -> by (apply scan_iff; exists sp, sg, ds, junk; repeat (split; [assumption|]); reflexivity).
      apply Z.ltb_lt in B. rewrite B. reflexivity.
  - destruct argv as [|s argv].
    { split; [discriminate|]. intros (t & E & s & v & -> & _). discriminate. }
    destruct (parse_size s zero) as [ok v] eqn:P. split.
    + destruct ok; [|discriminate]. destruct (Z.eqb_spec (v mod 2 ^ 32) v) as [B|]; [|discriminate]. cbv zeta. rewrite B. intros H. injection H as <- <-.
      exists (Some s). split; [reflexivity|]. do 2 eexists. split; [reflexivity|]. split; [|reflexivity].
      exists v. split; [exact P|]. split; [|reflexivity]. pose proof (Z.mod_pos_bound v (2 ^ 32)). lia.
    + intros (t & E & s' & v' & -> & (n & P' & B & ->) & ->). injection E as <- ->. rewrite P in P'. injection P' as -> ->.
      rewrite Z.mod_small by exact B. rewrite Z.eqb_refl. reflexivity.
  - destruct argv as [|s argv].
    { split; [discriminate|]. intros (t & E & s & v & -> & _). discriminate. }
    destruct (parse_size s zero) as [ok v] eqn:P. split.
    + destruct ok; [|discriminate]. intros H. injection H as <- <-.
      exists (Some s). split; [reflexivity|]. do 2 eexists. split; [reflexivity|]. split; [|reflexivity]. exists v. split; [exact P|reflexivity].
    + intros (t & E & s' & v' & -> & (n & P' & ->) & ->). injection E as <- ->. rewrite P in P'. injection P' as -> ->. reflexivity.
  - destruct argv as [|s argv].
    { split; [discriminate|]. intros (t & E & s & v & -> & _). discriminate. }
    split.
    + intros H. injection H as <- <-. exists (Some s). split; [reflexivity|]. do 2 eexists. repeat split.
    + intros (t & E & s' & v' & -> & -> & ->). injection E as <- ->. reflexivity.
  - destruct argv as [|s argv].
    { split; [discriminate|]. intros (t & E & s & v & -> & _). discriminate. }
    split.
    + intros H. injection H as <- <-. exists (Some s). split; [reflexivity|]. do 2 eexists. repeat split.
    + intros (t & E & s' & v' & -> & -> & ->). injection E as <- ->. reflexivity.
Qed.

(** ** Whole command lines *)
Lemma find_iff (P : arg -> bool) o opts : find P opts = Some o <-> first (fun x => P x = true) o opts.
Proof.
  induction opts as [|x l IH]; cbn [find].
  - split; [discriminate|]. intros (l1 & l2 & E & _). destruct l1; discriminate.
  - destruct (P x) eqn:E.
    + split.
      * intros H. injection H as <-. exists [], l. split; [reflexivity|]. split; [exact E|constructor].
      * intros (l1 & l2 & El & Po & F). destruct l1 as [|y l1]; injection El as <- _; [reflexivity|].
        inversion F as [|? ? Hn _]. congruence.
    + rewrite IH. split.
      * intros (l1 & l2 & -> & Po & F). exists (x :: l1), l2. split; [reflexivity|]. split; [exact Po|]. constructor; [congruence|exact F].
      * intros (l1 & l2 & El & Po & F). destruct l1 as [|y l1]; injection El as <- ->; [congruence|].
        exists l1, l2. split; [reflexivity|]. split; [exact Po|]. now inversion F.
Qed.
Lemma first_ext (P Q : arg -> Prop) o opts : (forall x, P x <-> Q x) -> first P o opts <-> first Q o opts.
Proof.
  intros H. unfold first. split; intros (l1 & l2 & E & Po & F); exists l1, l2; (split; [exact E|]); (split; [now apply H|]);
    (eapply Forall_impl; [|exact F]); intros x Hx Hq; apply Hx; now apply H.
Qed.
Lemma find_long n o opts : find (fun o => str_eqb n (longkey o)) opts = Some o <-> first (fun x => longkey x = n) o opts.
Proof. rewrite find_iff. apply first_ext. intros x. rewrite str_eqb_eq. split; congruence. Qed.
Lemma find_short c o opts : find (fun o => match key o with Some k => Ascii.eqb c k | None => false end) opts = Some o <->
  first (fun x => key x = Some c) o opts.
Proof.
  rewrite find_iff. apply first_ext. intros x. destruct (key x) as [k|]; [|split; discriminate].
  rewrite Ascii.eqb_eq. split; congruence.
Qed.
Lemma missing_iff params found : missing params found = false <-> complete params found.
Proof.
  unfold missing, complete. split.
  - intros H j p Hj Hr. apply Bool.not_true_iff_false in H. destruct (in_dec Nat.eq_dec j found) as [I|N]; [exact I|]. exfalso. apply H.
    apply existsb_exists. exists j. split; [apply in_seq; split; [lia|]; cbn; apply nth_error_Some; congruence|].
    rewrite Hj, Hr. cbn [andb]. apply negb_true_iff, Bool.not_true_iff_false. intros E. apply existsb_exists in E.
    destruct E as (x & Ix & Ex). apply Nat.eqb_eq in Ex. now subst x.
  - intros H. apply Bool.not_true_iff_false. intros E. apply existsb_exists in E. destruct E as (j & _ & E).
    destruct (nth_error params j) as [p|] eqn:Hj; [|discriminate]. apply andb_true_iff in E. destruct E as [Hr E].
    specialize (H j p Hj Hr). apply negb_true_iff, Bool.not_true_iff_false in E. apply E. apply existsb_exists. exists j. split; [exact H|apply Nat.eqb_refl].
Qed.
Lemma set_update st d v : set d v st = update st d v. Proof. reflexivity. Qed.
(** A parameter takes one text. *)
Lemma param_done p st s rest st' rest' : kd p <> Flag -> arg_process p st (s :: rest) = PDone st' rest' <->
  rest' = rest /\ exists v, accepts (kd p) (st (dest p)) s v /\ st' = update st (dest p) v.
Proof.
  intros N. rewrite process_done. unfold gives. split.
  - intros (t & E & G). destruct (kd p); try congruence; destruct G as (x & v & -> & A & ->); injection E as <- <-; (split; [reflexivity|]); exists v; now split.
  - intros (-> & v & A & ->). exists (Some s). split; [reflexivity|]. destruct (kd p); try congruence; exists s, v; repeat split; exact A.
Qed.

Lemma loop_sound opts params : Forall (fun p => kd p <> Flag) params -> forall fuel ended i found st argv found' st',
  loop fuel opts params ended i found st argv = (Accepted, found', st') ->
  exists items g, argv = concat (map render items) /\ line accepts opts params ended i st items g st' /\
    found' = rev g ++ found /\ complete params found'.
Proof.
  intros NF. induction fuel as [|f IH]; intros ended i found st argv found' st' H; (destruct argv as [|a rest]; cbn [loop] in H).
  1, 3: destruct (missing params found) eqn:M; [discriminate|]; injection H as <- <-; exists [], [];
    (split; [reflexivity|]); (split; [constructor|]); (split; [reflexivity|]); now apply missing_iff.
  1: discriminate.
  assert (forall o, match arg_process o st rest with
        | PDone st1 rest' => loop f opts params ended i found st1 rest' | PFail st1 => (Rejected, found, st1) | PUndefined => (Undefined, found, st) end
        = (Accepted, found', st') -> exists t st1 items g, rest = texts t ++ concat (map render items) /\ gives accepts o t st st1 /\
          line accepts opts params ended i st1 items g st' /\ found' = rev g ++ found /\ complete params found') as HO.
  { intros o Ho. destruct (arg_process o st rest) as [st1 rest'| |] eqn:Po; try discriminate.
    apply process_done in Po. destruct Po as (t & -> & G). apply IH in Ho. destruct Ho as (items & g & -> & Ln & Ef & C).
    exists t, st1, items, g. repeat (split; [assumption||reflexivity|]). exact C. }
  assert (match nth_error params i with
        | Some p => match arg_process p st (a :: rest) with
          | PDone st1 rest' => loop f opts params ended (if repeated p then i else S i) (i :: found) st1 rest'
          | PFail st1 => (Rejected, found, st1) | PUndefined => (Undefined, found, st) end
        | None => (Rejected, found, st) end = (Accepted, found', st') -> (ended = true \/ ~ dash_first a) ->
        exists items g, a :: rest = concat (map render items) /\ line accepts opts params ended i st items g st' /\
          found' = rev g ++ found /\ complete params found') as HP.
  { intros Hp D. destruct (nth_error params i) as [p|] eqn:Np; [|discriminate].
    destruct (arg_process p st (a :: rest)) as [st1 rest'| |] eqn:Pp; try discriminate.
    assert (kd p <> Flag) as Nf by (rewrite Forall_forall in NF; apply NF; exact (nth_error_In _ _ Np)).
    apply (param_done _ _ _ _ _ _ Nf) in Pp. destruct Pp as (-> & v & A & ->). apply IH in Hp. destruct Hp as (items & g & -> & Ln & -> & C).
    exists (IParam a :: items), (i :: g). split; [reflexivity|]. split; [eapply L_param; eassumption|].
    split; [cbn [rev]; now rewrite <- app_assoc|exact C]. }
  destruct a as [|c a1]; [apply HP; [exact H|right; intros [t Et]; discriminate]|].
  rewrite is1 in H. destruct (Ascii.eqb_spec c "-") as [->|Nc]; cbn [andb] in H;
    [|apply HP; [exact H|right; intros [t Et]; injection Et as E; congruence]].
  destruct ended; cbn [negb] in H; [apply HP; [exact H|now left]|]. clear HP.
  destruct a1 as [|c1 a2].
  { apply IH in H. destruct H as (items & g & -> & Ln & Ef & C). exists (IDash :: items), g. split; [reflexivity|].
    split; [now constructor|]. now split. }
  rewrite is1 in H. destruct (Ascii.eqb_spec c1 "-") as [->|Nc1].
  - destruct (match a2 with c2 :: _ => is c2 "-" | [] => false end) eqn:D.
    + destruct a2 as [|c2 a3]; [discriminate|]. rewrite is1 in D. apply Ascii.eqb_eq in D. subst c2.
      apply IH in H. destruct H as (items & g & -> & Ln & Ef & C). exists (IEnd a3 :: items), g. split; [reflexivity|].
      split; [now constructor|]. now split.
    + destruct (find _ opts) as [o|] eqn:Fo; [|discriminate]. apply find_long in Fo. apply HO in H.
      destruct H as (t & st1 & items & g & -> & G & Ln & Ef & C). exists (ILong a2 t :: items), g. split; [reflexivity|].
      split; [|now split]. eapply L_long; [exact Fo| |exact G|exact Ln]. intros [t' ->]. rewrite is1 in D. discriminate.
  - destruct (find _ opts) as [o|] eqn:Fo; [|discriminate]. apply find_short in Fo. apply HO in H.
    destruct H as (t & st1 & items & g & -> & G & Ln & Ef & C). exists (IShort c1 a2 t :: items), g. split; [reflexivity|].
    split; [|now split]. eapply L_short; [exact Fo|exact Nc1|exact G|exact Ln].
Qed.

Lemma texts_length t : length (texts t) <= 1. Proof. destruct t; cbn; lia. Qed.
Lemma loop_complete opts params ended i st items g st' : line accepts opts params ended i st items g st' ->
  forall fuel found, length (concat (map render items)) <= fuel ->
  loop fuel opts params ended i found st (concat (map render items)) =
  (if missing params (rev g ++ found) then Rejected else Accepted, rev g ++ found, st').
Proof.
  induction 1 as [e i st|i st n t o st1 l g st2 Fo Nd G Ln IH|i st c ig t o st1 l g st2 Fo Nc G Ln IH|e i st s p v l g st2 D Np A Ln IH
                  |i st l g st2 Ln IH|i st ig l g st2 Ln IH]; intros fuel found B.
  - destruct fuel; reflexivity.
  - cbn [map concat render app] in *. destruct fuel as [|f]; [cbn in B; lia|]. cbn [length] in B. rewrite app_length in B.
    cbn [loop list_ascii_of_string app]. rewrite !is1. cbn [Ascii.eqb andb negb].
    assert ((match n with c2 :: _ => is c2 "-" | [] => false end) = false) as ->.
    { destruct n as [|c2 n]; [reflexivity|]. rewrite is1. destruct (Ascii.eqb_spec c2 "-") as [->|]; [|reflexivity]. destruct Nd. now exists n. }
    change (Ascii.eqb "-" "-") with true. cbn [andb].
    rewrite (proj2 (find_long n o opts) Fo).
    rewrite (proj2 (process_done o st (texts t ++ concat (map render l)) st1 (concat (map render l)))) by (exists t; now split).
    apply IH. lia.
  - cbn [map concat render app] in *. destruct fuel as [|f]; [cbn in B; lia|]. cbn [length] in B. rewrite app_length in B.
    cbn [loop]. rewrite !is1. change (Ascii.eqb "-" "-") with true. cbn [andb negb].
    destruct (Ascii.eqb_spec c "-") as [->|_]; [congruence|].
    rewrite (proj2 (find_short c o opts) Fo).
    rewrite (proj2 (process_done o st (texts t ++ concat (map render l)) st1 (concat (map render l)))) by (exists t; now split).
    apply IH. lia.
  - cbn [map concat render app] in *. destruct fuel as [|f]; [cbn in B; lia|]. cbn [length] in B.
    assert (kd p <> Flag) as Nf by (intros E; rewrite E in A; exact A).
    assert (arg_process p st (s :: concat (map render l)) = PDone (update st (dest p) v) (concat (map render l))) as Pp.
    { apply (param_done _ _ _ _ _ _ Nf). split; [reflexivity|]. exists v. now split. }
    assert (match nth_error params i with
        | Some p => match arg_process p st (s :: concat (map render l)) with
          | PDone st1 rest' => loop f opts params e (if repeated p then i else S i) (i :: found) st1 rest'
          | PFail st1 => (Rejected, found, st1) | PUndefined => (Undefined, found, st) end
        | None => (Rejected, found, st) end =
        (if missing params (rev (i :: g) ++ found) then Rejected else Accepted, rev (i :: g) ++ found, st2)) as HP.
    { rewrite Np, Pp. unfold repeated. rewrite IH by lia. cbn [rev]. now rewrite <- app_assoc. }
    cbn [loop]. destruct s as [|c s]; [exact HP|]. rewrite is1. destruct (Ascii.eqb_spec c "-") as [->|]; [|exact HP].
    destruct e; [exact HP|]. destruct D as [D|D]; [discriminate|]. destruct D. now exists s.
  - cbn [map concat render app list_ascii_of_string] in *. destruct fuel as [|f]; [cbn in B; lia|]. cbn [length] in B.
    cbn [loop]. rewrite !is1. change (Ascii.eqb "-" "-") with true. cbn [andb negb]. apply IH. lia.
  - cbn [map concat render app list_ascii_of_string] in *. destruct fuel as [|f]; [cbn in B; lia|]. cbn [length] in B.
    cbn [loop]. rewrite !is1. change (Ascii.eqb "-" "-") with true. cbn [andb negb]. apply IH. lia.
Qed.

(** Every round takes an argument. *)
Lemma process_rest a st argv st' rest : arg_process a st argv = PDone st' rest -> length rest <= length argv /\ (kd a <> Flag -> length rest < length argv).
Proof.
  intros H. apply process_done in H. destruct H as (t & -> & G). rewrite app_length. split; [lia|]. intros N. unfold gives in G.
  destruct (kd a); try congruence; destruct G as (s & v & -> & _); cbn; lia.
Qed.
Lemma loop_fuel opts params : Forall (fun p => kd p <> Flag) params -> forall fuel ended i found st argv, length argv <= fuel ->
  fst (fst (loop fuel opts params ended i found st argv)) <> Fuel.
Proof.
  intros NF. induction fuel as [|f IH]; intros ended i found st argv B; (destruct argv as [|a rest]; cbn [loop]).
  1, 3: destruct (missing params found); discriminate.
  1: cbn in B; lia.
  cbn [length] in B.
  assert (forall o, fst (fst (match arg_process o st rest with
        | PDone st1 rest' => loop f opts params ended i found st1 rest' | PFail st1 => (Rejected, found, st1) | PUndefined => (Undefined, found, st) end)) <> Fuel) as HO.
  { intros o. destruct (arg_process o st rest) as [st1 rest'| |] eqn:Po; try discriminate. apply IH. apply process_rest in Po. lia. }
  assert (fst (fst (match nth_error params i with
        | Some p => match arg_process p st (a :: rest) with
          | PDone st1 rest' => loop f opts params ended (if repeated p then i else S i) (i :: found) st1 rest'
          | PFail st1 => (Rejected, found, st1) | PUndefined => (Undefined, found, st) end
        | None => (Rejected, found, st) end)) <> Fuel) as HP.
  { destruct (nth_error params i) as [p|] eqn:Np; [|discriminate].
    assert (kd p <> Flag) as Nf by (rewrite Forall_forall in NF; apply NF; exact (nth_error_In _ _ Np)).
    destruct (arg_process p st (a :: rest)) as [st1 rest'| |] eqn:Pp; try discriminate. apply IH. apply process_rest in Pp.
    destruct Pp as [_ Pp]. specialize (Pp Nf). cbn in Pp. lia. }
  destruct a as [|c a1]; [exact HP|]. destruct (_ && _)%bool; [|exact HP]. clear HP.
  destruct a1 as [|c1 a2]; [apply IH; lia|]. destruct (is c1 "-").
  - destruct (match a2 with c2 :: _ => is c2 "-" | [] => false end); [apply IH; lia|]. destruct (find _ opts); [apply HO|discriminate].
  - destruct (find _ opts); [apply HO|discriminate].
Qed.
Lemma help_iff argv : existsb help_word argv = true <-> asks_help argv.
Proof.
  unfold asks_help. rewrite existsb_exists. unfold help_word. split.
  - intros (x & I & E). apply orb_true_iff in E. rewrite !str_eqb_eq in E. destruct E as [->| ->]; [left|right]; exact I.
  - intros [I|I]; eexists; (split; [exact I|]); reflexivity.
Qed.
