From Coq Require Import List Bool Arith Lia.
From Verif Require Import ScanModel ScanSpec ScanProofs StreamModel StreamSpec.
Import ListNotations.

Lemma skipn_add {X} n m : forall l : list X, skipn n (skipn m l) = skipn (n + m) l.
Proof. rewrite Nat.add_comm. induction m as [|m IH]; intro l; [reflexivity|]. destruct l as [|x l]; [rewrite !skipn_nil; reflexivity|]. cbn [skipn plus]. apply IH. Qed.
Lemma iterator_ok {A} (l : list A) : yields iterator2stream l l.
Proof. induction l as [|x l IH]; cbn; [reflexivity|]. split; [reflexivity|]. split; [reflexivity|]. exists l. split; [reflexivity|exact IH]. Qed.
Lemma generator_ok {G A} (gen : G -> A * G) g : yields_all (generator2stream gen) (generator_new gen g) (nth_result gen g).
Proof.
  exists (fun n => (fix run n s := match n with 0 => s | S n => run n (gen (snd s)) end) n (gen g)).
  split; [reflexivity|]. intro n. split; [reflexivity|].
  assert (forall n s, (fix run n (s : A * G) := match n with 0 => s | S n => run n (gen (snd s)) end) (n + 1) s =
                      gen (snd ((fix run n s := match n with 0 => s | S n => run n (gen (snd s)) end) n s))) as R.
  { clear. induction n as [|n IH]; intro s; [reflexivity|]. cbn [plus]. rewrite IH. reflexivity. }
  split; [|cbn; rewrite R; reflexivity]. cbn. f_equal. revert g. induction n as [|n IH]; intro g; [reflexivity|]. cbn [nth_result]. rewrite <- IH. reflexivity.
Qed.

Section T.
  Context {S A B O : Type}.
  Variable I : stream S A.
  Variable op : O -> list A -> O * B.
  Notation cons' := (fun p : A * list A => fst p :: snd p).
  Lemma shortest_zero : forall (ls : list (list A)), shortest ls = 0 -> ls <> [] -> In [] ls.
  Proof.
    unfold shortest. intros ls. assert (forall b, fold_right (fun (l : list A) m => Nat.min (length l) m) b ls = 0 -> b = 0 \/ In [] ls) as G.
    { intro b. induction ls as [|l ls IH]; cbn; [auto|]. intro H. destruct l as [|x l]; [auto|]. cbn [length] in H. destruct (IH ltac:(lia)); auto. }
    intros H N. destruct (G _ H) as [E|?]; [|assumption]. destruct ls as [|[|x l] ls]; [congruence|left; reflexivity|discriminate].
  Qed.
  Lemma shortest_pos (ls : list (list A)) : shortest ls <> 0 -> ~ In [] ls.
  Proof.
    unfold shortest. generalize (length (hd [] ls)). intro b. induction ls as [|l ls IH]; cbn; [auto|]. intros H [->|HI]; [cbn in H; lia|]. apply IH; [lia|exact HI].
  Qed.
  Lemma split_heads (ls : list (list A)) : ~ In [] ls -> exists ps, ls = map cons' ps.
  Proof.
    induction ls as [|l ls IH]; intro H; [exists []; reflexivity|]. destruct IH as [ps ->]; [intro; apply H; right; assumption|].
    destruct l as [|x l]; [exfalso; apply H; left; reflexivity|]. exists ((x, l) :: ps). reflexivity.
  Qed.
  Lemma shortest_cons ps : ps <> [] -> shortest (map cons' ps) = Datatypes.S (shortest (map snd ps)).
  Proof.
    intro N. unfold shortest. assert (forall b, fold_right (fun (l : list A) m => Nat.min (length l) m) (Datatypes.S b) (map cons' ps) = Datatypes.S (fold_right (fun (l : list A) m => Nat.min (length l) m) b (map snd ps))) as G.
    { intro b. clear N. induction ps as [|p ps IH]; cbn [map fold_right]; [reflexivity|]. rewrite IH. cbn. reflexivity. }
    rewrite <- G. f_equal. destruct ps; [congruence|]. reflexivity.
  Qed.
  Lemma row_zero ps : row 0 (map cons' ps) = map fst ps.
  Proof. unfold row. induction ps as [|p ps IH]; cbn; [reflexivity|]. f_equal. exact IH. Qed.
  Lemma row_succ k ps : row (Datatypes.S k) (map cons' ps) = row k (map snd ps).
  Proof. unfold row. induction ps as [|p ps IH]; cbn [map flat_map]; [reflexivity|]. rewrite IH. reflexivity. Qed.
  Lemma rows_cons ps : ps <> [] -> rows (map cons' ps) = map fst ps :: rows (map snd ps).
  Proof.
    intro N. unfold rows. rewrite shortest_cons by exact N. cbn [seq map]. rewrite row_zero. f_equal. rewrite <- seq_shift, map_map. apply map_ext. intro k. apply row_succ.
  Qed.
  Lemma inputs_empty ss ls : Forall2 (yields I) ss ls -> In [] ls -> t_inputs_empty I ss = true.
  Proof.
    intros H HI. apply existsb_exists. induction H as [|s l ss ls Y _ IH]; [destruct HI|]. destruct HI as [->|HI]; [exists s; split; [left; reflexivity|exact Y]|].
    destruct (IH HI) as (s' & H1 & H2). exists s'. split; [right; exact H1|exact H2].
  Qed.
  Lemma inputs_cons ps : forall ss, Forall2 (yields I) ss (map cons' ps) ->
    t_inputs_empty I ss = false /\ all (map (s_get I) ss) = Some (map fst ps) /\ exists ss', all (map (s_next I) ss) = Some ss' /\ Forall2 (yields I) ss' (map snd ps).
  Proof.
    unfold t_inputs_empty. induction ps as [|p ps IH]; intros ss H; inversion H as [|s l ss1 ls Y H2]; subst.
    - split; [reflexivity|]. split; [reflexivity|]. exists []. split; [reflexivity|constructor].
    - destruct (IH _ H2) as (E1 & E2 & ss' & E3 & E4). cbn [yields] in Y. destruct Y as (Y1 & Y2 & s' & Y3 & Y4). cbn [map existsb all]. rewrite Y1, E1, Y2, E2, Y3, E3. cbn.
      split; [reflexivity|]. split; [reflexivity|]. exists (s' :: ss'). split; [reflexivity|]. constructor; assumption.
  Qed.
  Theorem transform_ok n : forall ss ls o cur, shortest ls = n -> ls <> [] -> Forall2 (yields I) ss ls ->
    exists st, t_eval I op ss o cur = Some st /\ yields (transform I op) st (applied op o (rows ls)).
  Proof.
    induction n as [|n IH]; intros ss ls o cur HN HL H.
    - pose proof (inputs_empty ss ls H (shortest_zero ls HN HL)) as E. exists (ss, o, cur). unfold t_eval. rewrite E. split; [reflexivity|]. unfold rows. rewrite HN. cbn. exact E.
    - destruct (split_heads ls) as [ps ->]; [apply shortest_pos; lia|]. assert (ps <> []) as NP by (intros ->; apply HL; reflexivity).
      destruct (inputs_cons ps ss H) as (E1 & E2 & ss' & E3 & E4). unfold t_eval. rewrite E1, E2. cbn [obind]. destruct (op o (map fst ps)) as [o' b] eqn:EO.
      eexists. split; [reflexivity|]. rewrite rows_cons by exact NP. cbn [applied]. rewrite EO. cbn [yields]. split; [exact E1|]. split; [reflexivity|].
      destruct (IH ss' (map snd ps) o' (Some b)) as (st & ES & Y); [rewrite shortest_cons in HN by exact NP; lia|intro E; apply NP; destruct ps; [reflexivity|discriminate]|exact E4|].
      exists st. split; [|exact Y]. cbn [transform s_next]. rewrite E3. cbn [obind]. exact ES.
  Qed.
End T.

Lemma choose_ok {S A} (I : stream S (list A)) which : forall l xs s, yields I s l -> Forall2 (fun t x => nth_error t which = Some x) l xs -> yields (choose I which) s xs.
Proof.
  induction l as [|t l IH]; intros xs s Y H; inversion H; subst; cbn [yields] in *; [exact Y|]. destruct Y as (Y1 & Y2 & s' & Y3 & Y4). split; [exact Y1|].
  split; [cbn; rewrite Y2; cbn; assumption|]. exists s'. split; [exact Y3|]. apply IH; assumption.
Qed.

Section U.
  Context {S A : Type}.
  Variable I : stream S A.
  Variable pred : A -> A -> bool.
  Lemma unique_skip_ok fuel : forall s l cur old, yields I s l -> length l <= fuel ->
    exists s' cur' ys rest, unique_skip I pred fuel s cur old = Some (s', cur') /\ l = ys ++ rest /\ Forall (fun y => pred y old = true) ys /\
      (forall y, hd_error rest = Some y -> pred y old = false /\ cur' = y) /\ yields I s' rest.
  Proof.
    induction fuel as [|fuel IH]; intros s l cur old Y HL; cbn [unique_skip].
    - destruct l; [|cbn in HL; lia]. cbn in Y. rewrite Y. exists s, cur, [], []. repeat split; try constructor; try discriminate. exact Y.
    - destruct l as [|x l]; cbn [yields] in Y.
      + rewrite Y. exists s, cur, [], []. repeat split; try constructor; try discriminate. exact Y.
      + destruct Y as (Y1 & Y2 & s1 & Y3 & Y4). rewrite Y1, Y2. cbn [obind]. destruct (pred x old) eqn:P.
        * rewrite Y3. cbn [obind]. destruct (IH s1 l x old Y4 ltac:(cbn in HL; lia)) as (s' & cur' & ys & rest & E & -> & F & H & Y'). exists s', cur', (x :: ys), rest.
          split; [exact E|]. split; [reflexivity|]. split; [constructor; assumption|]. split; assumption.
        * exists s, x, [], (x :: l). split; [reflexivity|]. split; [reflexivity|]. split; [constructor|]. split; [intros y Ey; cbn in Ey; injection Ey as <-; auto|]. cbn [yields]. split; [exact Y1|]. split; [exact Y2|]. exists s1. auto.
  Qed.
  Lemma unique_run fuel n : forall s l, length l <= n -> n <= fuel -> yields I s l -> forall cur, (forall x, hd_error l = Some x -> cur = Some x) ->
    exists out, yields (unique I pred fuel) (s, cur) out /\ collapses pred l out.
  Proof.
    induction n as [|n IH]; intros s l HL HF Y cur HC.
    - destruct l; [|cbn in HL; lia]. exists []. split; [exact Y|constructor].
    - destruct l as [|x l]; [exists []; split; [exact Y|constructor]|]. cbn [yields] in Y. destruct Y as (Y1 & Y2 & s1 & Y3 & Y4). cbn in HL.
      destruct (unique_skip_ok fuel s1 l x x Y4 ltac:(lia)) as (s' & cur' & ys & rest & E & -> & F & H & Y'). rewrite app_length in HL.
      destruct (IH s' rest ltac:(lia) ltac:(lia) Y' (Some cur')) as (out & YO & C); [intros y Hy; f_equal; apply (H y Hy)|].
      exists (x :: out). split.
      + cbn [yields]. split; [exact Y1|]. rewrite (HC x eq_refl). split; [reflexivity|]. exists (s', Some cur'). split; [|exact YO]. cbn. rewrite Y3. cbn [obind]. rewrite E. reflexivity.
      + constructor; [exact F|intros y Hy; apply (H y Hy)|exact C].
  Qed.
  Theorem unique_ok fuel s l : length l <= fuel -> yields I s l -> exists st out, unique_new I s = Some st /\ yields (unique I pred fuel) st out /\ collapses pred l out.
  Proof.
    intros HF Y. unfold unique_new. destruct l as [|x l].
    - pose proof Y as Y0. cbn in Y0. rewrite Y0. destruct (unique_run fuel 0 s [] ltac:(cbn; lia) ltac:(lia) Y None) as (out & H1 & H2); [discriminate|]. exists (s, None), out. auto.
    - pose proof Y as (Y1 & Y2 & _). rewrite Y1, Y2. cbn [obind]. destruct (unique_run fuel _ s (x :: l) (le_n _) HF Y (Some x)) as (out & H1 & H2); [intros y Ey; injection Ey as <-; reflexivity|]. exists (s, Some x), out. auto.
  Qed.
  Lemma collapses_det l out : collapses pred l out -> forall out', collapses pred l out' -> out = out'.
  Proof.
    induction 1 as [|x ys rest out F H C IH]; intros out' C'.
    - inversion C'. reflexivity.
    - remember (x :: ys ++ rest) as l eqn:El. destruct C' as [|x' ys' rest' out'' F' H' C'']; [discriminate|]. injection El as -> E. f_equal. apply IH.
      assert (rest' = rest) as <-; [|exact C'']. clear - F H F' H' E. revert ys' F' E. induction ys as [|y ys IHy]; intros [|y' ys'] F' E; cbn [app] in *.
      + exact E.
      + subst rest. inversion F' as [|? ? P _]. subst. rewrite (H _ eq_refl) in P. discriminate.
      + subst rest'. inversion F as [|? ? P _]. subst. rewrite (H' _ eq_refl) in P. discriminate.
      + injection E as -> E. inversion F; inversion F'; subst. eapply IHy; eassumption.
  Qed.
End U.

Section M.
  Context {S A : Type}.
  Variable I : stream S A.
  Definition taken (room : option nat) (l : list A) : nat := match room with None => length l | Some r => Nat.min r (length l) end.
  Lemma materialize_ok fuel : forall room s l, length l <= fuel -> yields I s l ->
    exists s', materialize I fuel room s = Some (firstn (taken room l) l, s') /\ yields I s' (skipn (taken room l) l).
  Proof.
    induction fuel as [|fuel IH]; intros room s l HL Y; cbn [materialize].
    - destruct l; [|cbn in HL; lia]. pose proof Y as Y0. cbn in Y0. rewrite Y0. exists s. rewrite firstn_nil, skipn_nil. auto.
    - destruct l as [|x l]; [pose proof Y as Y0; cbn in Y0; rewrite Y0; exists s; rewrite firstn_nil, skipn_nil; auto|].
      pose proof Y as (Y1 & Y2 & s1 & Y3 & Y4). rewrite Y1. cbn in HL.
      destruct room as [[|r]|].
      + exists s. auto.
      + rewrite Y2, Y3. cbn [obind option_map Nat.pred]. destruct (IH (Some r) s1 l ltac:(lia) Y4) as (s' & E & Y'). rewrite E. cbn [obind taken length Nat.min] in *. exists s'. auto.
      + rewrite Y2, Y3. cbn [obind option_map]. destruct (IH None s1 l ltac:(lia) Y4) as (s' & E & Y'). rewrite E. cbn [obind taken length] in *. exists s'. auto.
  Qed.

  Variable B : nat.
  Hypothesis HB : 0 < B.
  Definition room_of (out : nat) (outend : option nat) : option nat := option_map (fun e => e - out) outend.
  Lemma next_aligned first fuel : first mod B <> 0 -> B - first mod B <= Datatypes.S fuel -> (first + 1) mod B = 0 \/ B - (first + 1) mod B <= fuel.
  Proof.
    intros N HF. pose proof (Nat.mod_upper_bound first B ltac:(lia)) as U. destruct (Nat.eq_dec (Datatypes.S (first mod B)) B) as [EB|NB].
    - left. rewrite Nat.add_mod by lia. destruct (Nat.eq_dec B 1) as [->|B1]; [reflexivity|]. rewrite (Nat.mod_small 1) by lia. replace (first mod B + 1) with B by lia. apply Nat.mod_same. lia.
    - right. rewrite Nat.add_mod by lia. rewrite (Nat.mod_small 1) by lia. rewrite (Nat.mod_small (first mod B + 1)) by lia. lia.
  Qed.
  Lemma mat_head_ok fuel : forall (v : list A) out outend s l,
    (match outend with Some e => out <= e <= length v | None => True end) -> out + taken (room_of out outend) l <= length v -> (out mod B = 0 \/ B - out mod B <= fuel) -> yields I s l ->
    exists k s', k <= taken (room_of out outend) l /\ (k = taken (room_of out outend) l \/ (out + k) mod B = 0) /\
      mat_head I B fuel v out outend s = Some (replaced v out (out + k) (firstn k l), out + k, s') /\ yields I s' (skipn k l).
  Proof.
    assert (forall (v : list A) out outend s l, out + taken (room_of out outend) l <= length v -> yields I s l -> (taken (room_of out outend) l = 0 \/ out mod B = 0) ->
      exists k s', k <= taken (room_of out outend) l /\ (k = taken (room_of out outend) l \/ (out + k) mod B = 0) /\
      Some (v, out, s) = Some (replaced v out (out + k) (firstn k l), out + k, s') /\ yields I s' (skipn k l)) as STOP.
    { intros v out outend s l HR Y HC. exists 0, s. rewrite Nat.add_0_r. split; [lia|]. split; [destruct HC; auto|]. split; [|exact Y]. cbn [firstn]. rewrite (replaced_same A v out) by lia. reflexivity. }
    induction fuel as [|fuel IH]; intros v out outend s l HE HR HF Y; cbn [mat_head].
    - assert (out mod B = 0) as E by (pose proof (Nat.mod_upper_bound out B ltac:(lia)); lia). rewrite E. cbn [Nat.eqb]. apply STOP; auto.
    - destruct (Nat.eqb_spec (out mod B) 0) as [E|N]; [apply STOP; auto|].
      destruct (s_empty I s || match outend with Some e => Nat.eqb out e | None => false end) eqn:C.
      + apply STOP; [exact HR|exact Y|]. left. apply orb_true_iff in C. destruct C as [C|C].
        * destruct l as [|x l]; [destruct outend; cbn; lia|]. destruct Y as (Y1 & _). congruence.
        * destruct outend as [e|]; [|discriminate]. apply Nat.eqb_eq in C. cbn. lia.
      + apply orb_false_iff in C. destruct C as [C1 C2]. destruct l as [|x l]; [cbn in Y; congruence|]. pose proof Y as (Y1 & Y2 & s1 & Y3 & Y4). rewrite Y2. cbn [obind].
        assert (0 < taken (room_of out outend) (x :: l)) as P. { destruct outend as [e|]; cbn; [apply Nat.eqb_neq in C2; lia|lia]. }
        assert (taken (room_of out outend) (x :: l) = Datatypes.S (taken (room_of (out + 1) outend) l)) as ET.
        { destruct outend as [e|]; cbn [room_of option_map taken length] in *; [|reflexivity]. apply Nat.eqb_neq in C2. lia. }
        destruct (Nat.ltb_spec out (length v)); [|lia]. rewrite Y3. cbn [obind].
        destruct (IH (set_nth A out x v) (out + 1) outend s1 l) as (k & s' & H1 & H2 & H3 & H4).
        * rewrite set_nth_length. destruct outend as [e|]; [|exact HE]. apply Nat.eqb_neq in C2. lia.
        * rewrite set_nth_length. lia.
        * apply next_aligned; [exact N|]. destruct HF as [HF|HF]; [congruence|exact HF].
        * exact Y4.
        * exists (Datatypes.S k), s'. rewrite ET. split; [lia|]. replace (out + Datatypes.S k) with (out + 1 + k) by lia. split; [lia|]. split; [|exact H4]. rewrite H3.
          rewrite (replaced_one A B HB v) by lia. rewrite Nat.add_1_r. rewrite (replaced_replaced A B HB v).
          -- cbn [firstn app]. reflexivity.
          -- lia.
          -- lia.
          -- lia.
          -- cbn [length]. lia.
          -- rewrite firstn_length. assert (taken (room_of (out + 1) outend) l <= length l) by (destruct outend; cbn; lia). lia.
  Qed.
  Theorem mat_vector_ok fuel (v : list A) nb out outend s l : length v = nb * B ->
    (match outend with Some e => out <= e <= length v | None => True end) -> out + taken (room_of out outend) l <= length v -> length l <= fuel -> yields I s l ->
    let n := taken (room_of out outend) l in
    exists s', mat_vector I B fuel v out outend s = Some (replaced v out (out + n) (firstn n l), out + n, s') /\ yields I s' (skipn n l).
  Proof.
    intros HV HE HR HF Y n. unfold mat_vector.
    destruct (mat_head_ok B v out outend s l HE HR ltac:(right; lia) Y) as (k & s1 & H1 & H2 & H3 & H4). rewrite H3. cbn [obind]. fold n in HR, H1, H2.
    assert (n <= length l) as HN by (unfold n; destruct outend; cbn; lia).
    set (v1 := replaced v out (out + k) (firstn k l)) in *.
    assert (length v1 = length v) as HL1 by (apply (replaced_length A B HB v out (out + k)); [lia|lia|rewrite firstn_length; lia]).
    destruct (Nat.eqb_spec ((out + k) mod B) 0) as [E|NE]; cbn [negb].
    - set (bg := out + k) in *.
      destruct (materialize_ok fuel (option_map (fun e => e - bg) outend) s1 (skipn k l)) as (s2 & E2 & Y2); [rewrite skipn_length; lia|exact H4|]. rewrite E2. cbn [obind].
      assert (taken (option_map (fun e => e - bg) outend) (skipn k l) = n - k) as ET.
      { unfold n, bg. destruct outend as [e|]; cbn [option_map taken room_of]; rewrite skipn_length; cbn [room_of option_map taken] in *; lia. }
      rewrite ET in Y2 |- *. set (l2 := firstn (n - k) (skipn k l)). assert (length l2 = n - k) as HL2 by (unfold l2; rewrite firstn_length, skipn_length; lia). rewrite HL2.
      set (last := bg + (n - k)). replace (out + n) with last by (unfold last, bg; lia).
      destruct (parts A B HB v1 nb bg last) as (p & h & mid & t & q & EV & Hp & Hh & Hm & Ht); [congruence|unfold last, bg; lia|].
      assert (h = []) as -> by (rewrite E in Hh; destruct h; [reflexivity|discriminate]).
      replace (Nat.leb (last + tail_length B last) (length v1)) with true by (symmetry; apply Nat.leb_le, (tail_le A B HB v1 nb); [congruence|unfold last, bg; lia]).
      cbn [obind]. rewrite EV. pose proof (Nat.div_mod bg B ltac:(lia)) as D.
      assert (firstn (tail_length B last) (skipn last (p ++ [] ++ mid ++ t ++ q)) = t) as ->.
      { cbn [app]. replace (p ++ mid ++ t ++ q) with ((p ++ mid) ++ t ++ q) by (rewrite <- !app_assoc; reflexivity).
        rewrite skipn_len' by (rewrite app_length; unfold last in *; lia). apply firstn_len'. lia. }
      pose proof (close_parts A B HB p [] mid t q l2 bg last Hp Hh Hm Ht ltac:(unfold last; lia) ltac:(unfold last in *; lia)) as CP. cbn [app] in CP |- *.
      rewrite CP. cbn [obind]. change (p ++ mid ++ t ++ q) with (p ++ [] ++ mid ++ t ++ q). rewrite <- EV. exists s2. split.
      + unfold v1. rewrite (replaced_replaced A B HB v).
        * f_equal. f_equal. f_equal. f_equal. unfold l2. rewrite <- (firstn_skipn k (firstn n l)). rewrite firstn_firstn, skipn_firstn_comm. rewrite Nat.min_l by lia. reflexivity.
        * unfold bg. lia.
        * unfold last. lia.
        * unfold last, bg. lia.
        * rewrite firstn_length. unfold bg. lia.
        * unfold last. lia.
      + rewrite skipn_add in Y2. replace (n - k + k) with n in Y2 by lia. exact Y2.
    - destruct H2 as [->|?]; [|contradiction]. exists s1. auto.
  Qed.
End M.

Section V.
  Context {A : Type}.
  Variable B : nat.
  Hypothesis HB : 0 < B.
  Lemma vstream_run (mid : list A) : forall r cur, mid <> [] -> yields vstream (cur, cur + length mid, Some (mid ++ r)) mid.
  Proof.
    induction mid as [|x mid IH]; intros r cur N; [congruence|]. cbn [yields length]. cbn [vstream s_empty s_get s_next app hd_error obind get].
    destruct (Nat.eqb_spec cur (cur + S (length mid))); [lia|]. split; [reflexivity|]. split; [reflexivity|].
    eexists. split; [reflexivity|]. destruct mid as [|y mid].
    - cbn [length]. rewrite Nat.eqb_refl. cbn. apply Nat.eqb_refl.
    - cbn [length]. destruct (Nat.eqb_spec (cur + 1) (cur + S (S (length mid)))); [lia|]. replace (cur + S (S (length mid))) with (cur + 1 + length (y :: mid)) by (cbn; lia). apply IH. discriminate.
  Qed.
  Theorem vstream_ok (v : list A) nb first last : length v = nb * B -> first <= last <= length v ->
    exists st, vstream_new B v first last = Some st /\ yields vstream st (range v first last).
  Proof.
    intros HV HR. unfold vstream_new. destruct (Nat.eqb_spec first last) as [->|N].
    - eexists. split; [reflexivity|]. unfold range. rewrite Nat.sub_diag. cbn. apply Nat.eqb_refl.
    - destruct (parts A B HB v nb first last HV HR) as (p & h & mid & t & q & -> & Hp & Hh & Hm & Ht).
      rewrite (open_parts A B HB) by (assumption || lia). cbn [obind]. rewrite <- Hh, (skip_ok A). cbn [obind].
      eexists. split; [reflexivity|]. rewrite (range_parts A B HB) by assumption.
      replace last with (first + length mid) by lia. apply vstream_run. destruct mid; [cbn in Hm; lia|discriminate].
  Qed.
  Theorem sr_ok (v : list A) nb first last : length v = nb * B -> first <= last <= length v ->
    exists st, sr_new B v first last = Some st /\ yields sr_stream st (range v first last).
  Proof.
    intros HV HR. unfold sr_new. destruct (Nat.ltb_spec (last - first) B).
    - eexists. split; [reflexivity|]. fold (range v first last). pose proof (iterator_ok (range v first last)) as Y. revert Y. generalize (range v first last) at 1 3. generalize (range v first last).
      induction l as [|x l IH]; intros s Y; cbn [yields] in *; [exact Y|]. destruct Y as (Y1 & Y2 & s' & Y3 & Y4). split; [exact Y1|]. split; [exact Y2|]. exists (inl s'). split; [cbn in *; rewrite Y3; reflexivity|]. apply IH. exact Y4.
    - destruct (vstream_ok v nb first last HV HR) as (st & -> & Y). cbn [obind]. eexists. split; [reflexivity|]. revert st Y. generalize (range v first last).
      induction l as [|x l IH]; intros s Y; cbn [yields] in *; [exact Y|]. destruct Y as (Y1 & Y2 & s' & Y3 & Y4). split; [exact Y1|]. split; [exact Y2|]. exists (inr s'). split; [cbn in *; rewrite Y3; reflexivity|]. apply IH. exact Y4.
  Qed.
End V.
