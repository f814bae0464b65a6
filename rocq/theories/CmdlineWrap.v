(** Lemmas about the wrapping of texts. *)
From Coq Require Import String Ascii ZArith List Bool Lia Arith.
From Verif Require Import ConfigModel ConfigSpec CmdlineModel CmdlineSpec Cmdline.
Import ListNotations.
Open Scope nat_scope.

Lemma wrap_scan_spec s : forall room k ls k' ls', wrap_scan room s k ls = (k', ls') -> exists m, k' = k + m /\ m <= room /\ m <= length s /\
  ~ In newline (firstn m s) /\ (m = room \/ skipn m s = [] \/ exists t, skipn m s = newline :: t) /\
  (ls' = ls /\ ~ In " "%char (firstn m s) \/
   k <= ls' < k' /\ firstn (S (ls' - k)) s = firstn (ls' - k) s ++ [" "%char] /\ ~ In " "%char (skipn (S (ls' - k)) (firstn m s))).
Proof.
  induction s as [|c t IH]; intros room k ls k' ls' H.
  - assert (wrap_scan room [] k ls = (k, ls)) as E by (destruct room; reflexivity). rewrite E in H. injection H as <- <-.
    exists 0. cbn. repeat (split; [lia||tauto|]). tauto.
  - destruct room as [|r]; cbn [wrap_scan] in H.
    { injection H as <- <-. exists 0. cbn. repeat (split; [lia||tauto|]). tauto. }
    destruct (Ascii.eqb_spec c newline) as [->|N].
    { injection H as <- <-. exists 0. cbn. split; [lia|]. split; [lia|]. split; [lia|]. split; [tauto|]. split; [right; right; now exists t|]. tauto. }
    apply IH in H. destruct H as (m & Ek & R & Lm & Nn & St & Sp). exists (S m). cbn [firstn skipn length In].
    split; [lia|]. split; [lia|]. split; [lia|]. split; [intros [E|E]; [now apply N|exact (Nn E)]|].
    split; [destruct St as [->|St]; [now left|now right]|]. rewrite is1 in Sp.
    destruct Sp as [[-> Ns]|(Bk & Ef & Ns)].
    + destruct (Ascii.eqb_spec c " ") as [->|Nc].
      * right. split; [lia|]. rewrite Nat.sub_diag. cbn [firstn skipn]. split; [reflexivity|exact Ns].
      * left. split; [reflexivity|]. intros [E|E]; [now apply Nc|exact (Ns E)].
    + right. split; [lia|]. replace (ls' - k) with (S (ls' - S k)) by lia. split; [|exact Ns].
      change (c :: firstn (S (ls' - S k)) t = c :: (firstn (ls' - S k) t ++ [" "%char])). now rewrite Ef.
Qed.
Lemma firstn_sub (A : Type) (x : A) s : forall n m, n <= m -> In x (firstn n s) -> In x (firstn m s).
Proof.
  induction s as [|c t IH]; intros [|n] [|m] H I; cbn in *; try contradiction; try lia. destruct I as [I|I]; [now left|right]. apply (IH n m); [lia|exact I].
Qed.
Lemma skipn_S_tl (A : Type) (l : list A) n : skipn (S n) l = skipn n (tl l).
Proof. destruct l; [now rewrite skipn_nil, skipn_nil|reflexivity]. Qed.
Lemma wrap_to_spec room s : let n := wrap_to room s in
  n <= room /\ n <= length s /\ ~ In newline (firstn n s) /\
  ((exists t, skipn n s = newline :: t) \/ skipn n s = [] \/ (exists l', firstn n s = l' ++ [" "%char]) \/ ~ In " "%char (tl (firstn n s))) /\
  (0 < room -> forall c t, s = c :: t -> c <> newline -> 0 < n).
Proof.
  unfold wrap_to. destruct (wrap_scan room s 0 0) as [k ls] eqn:E. apply wrap_scan_spec in E.
  destruct E as (m & -> & R & Lm & Nn & St & Sp). cbn [Nat.add] in *.
  assert (0 < room -> forall c t, s = c :: t -> c <> newline -> 0 < m) as Pm.
  { intros P c t -> Nc. destruct m; [|lia]. cbn in St. destruct St as [St|[St|[t' St]]]; [lia|discriminate|]. injection St as -> _. congruence. }
  destruct (skipn m s) as [|c t] eqn:K.
  { repeat split; try assumption. right. now left. }
  destruct (Ascii.eqb_spec c newline) as [->|N]; cbn [negb andb].
  { repeat split; try assumption. left. now exists t. }
  destruct (Nat.eqb_spec ls 0) as [Z|Z]; cbn [negb].
  - repeat split; try assumption. right. right. right. destruct Sp as [[_ Ns]|(B & Ef & Ns)].
    + intros I. apply Ns. destruct (firstn m s); [destruct I|now right].
    + rewrite Z, skipn_S_tl in Ns. exact Ns.
  - destruct Sp as [[Es _]|(B & Ef & Ns)]; [congruence|]. rewrite Nat.sub_0_r in Ef.
    repeat split; try lia.
    + intros I. apply Nn. apply (firstn_sub _ _ s (S ls) m); [lia|exact I].
    + right. right. left. eexists. exact Ef.
Qed.

Lemma wrap_broken fuel : forall W rest nl ind cur s lines, wrap fuel W rest nl ind cur s = Some lines -> broken rest nl ind s lines.
Proof.
  induction fuel as [|f IH]; intros W rest nl ind cur s lines H; (destruct s as [|c t]; cbn [wrap] in H; [injection H as <-; constructor|]); [discriminate|].
  set (s := c :: t) in *. clearbody s. cbv zeta in H. destruct (wrap_to_spec (W - (cur + ind)) s) as (_ & Ln & Nn & Br & _).
  set (n := wrap_to (W - (cur + ind)) s) in *. clearbody n. pose proof (firstn_skipn n s) as Es.
  destruct (skipn n s) as [|c' t'] eqn:K.
  { injection H as <-. rewrite <- Es at 1. apply B_line; [exact Nn|now left|constructor]. }
  destruct (Ascii.eqb_spec c' newline) as [->|N].
  - destruct (wrap f W rest nl nl 0 t') as [l|] eqn:Wr; [|discriminate]. injection H as <-. rewrite <- Es at 1.
    apply B_newline; [exact Nn|exact (IH _ _ _ _ _ _ _ Wr)].
  - destruct (wrap f W rest nl rest 0 (c' :: t')) as [l|] eqn:Wr; [|discriminate]. injection H as <-. rewrite <- Es at 1.
    apply B_line; [exact Nn| |exact (IH _ _ _ _ _ _ _ Wr)].
    destruct Br as [[x Ex]|[Ex|Br]]; [injection Ex as E _; congruence|discriminate|now right].
Qed.
Lemma wrap_width fuel : forall W rest nl ind cur s lines, rest <= W -> nl <= W -> cur + ind <= W ->
  wrap fuel W rest nl ind cur s = Some lines ->
  match lines with [] => True | x :: t => narrow (W - cur) x /\ Forall (narrow W) t end.
Proof.
  induction fuel as [|f IH]; intros W rest nl ind cur s lines Br Bn Bi H; (destruct s as [|c t]; cbn [wrap] in H; [injection H as <-; exact I|]); [discriminate|].
  set (s := c :: t) in *. clearbody s. cbv zeta in H. destruct (wrap_to_spec (W - (cur + ind)) s) as (Rn & Ln & _).
  set (n := wrap_to (W - (cur + ind)) s) in *. clearbody n.
  assert (narrow (W - cur) (ind, firstn n s)) as Nw by (unfold narrow; cbn [fst snd]; rewrite firstn_length; lia).
  assert (forall ind' l, match l with [] => True | x :: t => narrow (W - 0) x /\ Forall (narrow W) t end ->
    narrow (W - cur) (ind', firstn n s) -> narrow (W - cur) (ind', firstn n s) /\ Forall (narrow W) l) as K.
  { intros ind' l Hl Hn. split; [exact Hn|]. destruct l as [|x l]; [constructor|]. rewrite Nat.sub_0_r in Hl. now constructor. }
  destruct (skipn n s) as [|c' t'].
  { injection H as <-. apply K; [exact I|exact Nw]. }
  destruct (Ascii.eqb c' newline).
  - destruct (wrap f W rest nl nl 0 t') as [l|] eqn:Wr; [|discriminate]. injection H as <-. apply K; [|exact Nw].
    apply (IH W rest nl nl 0 t'); try assumption; lia.
  - destruct (wrap f W rest nl rest 0 (c' :: t')) as [l|] eqn:Wr; [|discriminate]. injection H as <-. apply K; [|exact Nw].
    apply (IH W rest nl rest 0 (c' :: t')); try assumption; lia.
Qed.
Lemma wrap_ends fuel : forall W rest nl ind cur s, rest < W -> nl < W -> length s <= fuel -> cur + ind < W \/ length s < fuel ->
  wrap fuel W rest nl ind cur s <> None.
Proof.
  induction fuel as [|f IH]; intros W rest nl ind cur s Br Bn Bf Bi; (destruct s as [|c t]; cbn [wrap]; [discriminate|]); [cbn in Bf; lia|].
  destruct (wrap_to_spec (W - (cur + ind)) (c :: t)) as (_ & Ln & Nn & _ & Pos).
  set (n := wrap_to (W - (cur + ind)) (c :: t)) in *.
  assert (length (skipn n (c :: t)) = S (length t) - n) as Ls by (rewrite skipn_length; reflexivity).
  assert (n = 0 -> skipn n (c :: t) = c :: t) as Z by (intros ->; reflexivity). clearbody n.
  destruct (skipn n (c :: t)) as [|c' t'] eqn:K; [discriminate|]. cbn [length] in *.
  destruct (Ascii.eqb_spec c' newline) as [->|N].
  - destruct (wrap f W rest nl nl 0 t') eqn:Wr; [discriminate|]. exfalso. apply (IH W rest nl nl 0 t'); try assumption; lia.
  - destruct (wrap f W rest nl rest 0 (c' :: t')) eqn:Wr; [discriminate|]. exfalso.
    assert (0 < n \/ length t < f) as P.
    { destruct Bi as [Bi|Bi]; [|right; lia]. left. apply (Pos ltac:(lia) c t eq_refl). intros ->.
      destruct n as [|n]; [specialize (Z eq_refl); injection Z as -> _; congruence|]. apply Nn. now left. }
    apply (IH W rest nl rest 0 (c' :: t')); try assumption; cbn [length]; lia.
Qed.
Lemma wrap_hangs fuel : forall W rest nl ind cur c t, W <= rest -> W <= cur + ind -> c <> newline -> wrap fuel W rest nl ind cur (c :: t) = None.
Proof.
  induction fuel as [|f IH]; intros W rest nl ind cur c t Br Bi N; [reflexivity|]. cbn [wrap].
  replace (W - (cur + ind)) with 0 by lia. assert (wrap_to 0 (c :: t) = 0) as ->.
  { unfold wrap_to. cbn [wrap_scan skipn]. rewrite andb_false_r. reflexivity. }
  cbn [skipn]. destruct (Ascii.eqb_spec c newline) as [|_]; [congruence|]. rewrite IH by (assumption || lia). reflexivity.
Qed.

(** ** print_usage *)
Lemma maxlong_ge text l : forall m, m <= fold_left (fun m a => Nat.max (length (text a) + 2) m) l m /\
  forall a : arg, In a l -> length (text a : str) + 2 <= fold_left (fun m a => Nat.max (length (text a) + 2) m) l m.
Proof.
  induction l as [|x l IH]; intros m; cbn [fold_left]; [split; [lia|intros a []]|].
  destruct (IH (Nat.max (length (text x) + 2) m)) as [G1 G2]. split; [lia|]. intros a [<-|I]; [lia|now apply G2].
Qed.
Lemma maxlong_le text l b : forall m, m <= b -> (forall a : arg, In a l -> length (text a : str) + 2 <= b) ->
  fold_left (fun m a => Nat.max (length (text a) + 2) m) l m <= b.
Proof.
  induction l as [|x l IH]; intros m Bm H; cbn [fold_left]; [exact Bm|]. apply IH.
  - specialize (H x (or_introl eq_refl)). lia.
  - intros a I. apply H. now right.
Qed.
Lemma usage_none fuel max l a : In a l -> output_wrap fuel (desc a) linewrap 0 (max + 2) (max + 2) 8 = None -> usage fuel max l = None.
Proof.
  intros I H. induction l as [|x l IH]; [destruct I|]. cbn [usage]. destruct I as [->|I]; [now rewrite H|].
  rewrite (IH I). now destruct (output_wrap fuel (desc x) linewrap 0 (max + 2) (max + 2) 8).
Qed.
Lemma usage_some fuel max l : (forall a, In a l -> output_wrap fuel (desc a) linewrap 0 (max + 2) (max + 2) 8 <> None) -> usage fuel max l <> None.
Proof.
  induction l as [|x l IH]; intros H; cbn [usage]; [discriminate|].
  destruct (output_wrap fuel (desc x) linewrap 0 (max + 2) (max + 2) 8) eqn:E; [|destruct (H x (or_introl eq_refl) E)].
  destruct (usage fuel max l) eqn:U; [discriminate|]. destruct (IH (fun a I => H a (or_intror I)) eq_refl).
Qed.
