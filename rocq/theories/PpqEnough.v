(** Filling the extract buffer gets as many elements as asked for when hinted blocks arrive. *)
From Coq Require Import List Bool Arith Lia Permutation Sorted.
From Verif Require Import OrderLib MwmergeSpec MwSortModel MwSort PpqModel PpqSpec Ppq PpqTake PpqOps.
Import ListNotations.
Open Scope nat_scope.

Section Ppq.
  Variable A : Type.
  Variable lt : A -> A -> bool.
  Notation iarr := (iarr A). Notation earr := (earr A). Notation st := (st A).
  Notation ivals := (ivals A). Notation eall := (eall A). Notation eem := (eem A). Notation eram := (eram A).
  Notation heaps := (heaps A). Notation eb := (eb A). Notation ias := (ias A). Notation eas := (eas A).
  Notation eok := (eok A lt). Notation iok := (iok A lt). Notation ints := (ints A). Notation exts := (exts A).
  Notation Inn := (Inn A lt). Notation inner := (inner A). Notation elements := (elements A).

  Definition nblocks (es : list earr) : nat := length (concat (map eem es)).
  Lemma limiting_some es : forall i j v, limiting A lt i es = Some (j, v) -> i <= j /\ exists e, nth_error es (j - i) = Some e /\ eem e <> [].
  Proof.
    induction es as [|e es IH]; intros i j v H; [discriminate|]. cbn [limiting] in H.
    assert (Hrec : limiting A lt (S i) es = Some (j, v) -> i <= j /\ exists e', nth_error (e :: es) (j - i) = Some e' /\ eem e' <> []).
    { intro E. destruct (IH _ _ _ E) as (H1 & e' & H2 & H3). split; [lia|]. exists e'. replace (j - i) with (S (j - S i)) by lia. auto. }
    destruct (eem e) as [|[|x b] bs] eqn:E; auto.
    assert (Hx : forall j v, Some (i, x) = Some (j, v) -> i <= j /\ exists e', nth_error (e :: es) (j - i) = Some e' /\ eem e' <> []).
    { intros j' v' Q. injection Q as <- <-. split; [lia|]. exists e. rewrite Nat.sub_diag. split; [reflexivity|congruence]. }
    destruct (limiting A lt (S i) es) as [(k, y)|]; [|exact (Hx _ _ H)]. destruct (lt y x); [exact (Hrec H)|exact (Hx _ _ H)].
  Qed.
  Lemma limiting_none es : Forall eok es -> forall i, limiting A lt i es = None -> exts es = concat (map eram es).
  Proof.
    induction 1 as [|e es (_ & He) Hes IH]; intros i H; [reflexivity|]. cbn [limiting] in H. unfold Ppq.exts in *. cbn [map concat]. unfold PpqModel.eall at 1.
    destruct (eem e) as [|[|x b] bs] eqn:E.
    - cbn [concat]. rewrite app_nil_r. rewrite (IH _ H). reflexivity.
    - inversion He; congruence.
    - destruct (limiting A lt (S i) es) as [(k, y)|]; [destruct (lt y x)|]; discriminate.
  Qed.
  Lemma wait_less es i v k : limiting A lt 0 es = Some (i, v) -> nblocks (wait A i (S k) es) < nblocks es.
  Proof.
    intro H. destruct (limiting_some _ _ _ _ H) as (_ & e & E & Hn). rewrite Nat.sub_0_r in E. unfold wait. rewrite E.
    destruct (set_nth_split es i e (EA A (elevel A e) (eram e ++ concat (firstn (S k) (eem e))) (skipn (S k) (eem e))) E) as (l1 & l2 & -> & ->).
    unfold nblocks. rewrite !map_app, !concat_app, !app_length. cbn [map concat PpqModel.eem]. rewrite !app_length, skipn_length. destruct (eem e); [congruence|]. cbn [length]. lia.
  Qed.
  Lemma below_none (l : list (list A)) : map (below A lt None) l = l.
  Proof. induction l as [|x l IH]; [reflexivity|]. cbn [map below]. now rewrite IH. Qed.
  Lemma fill_enough l mn waits : Forall (fun k => 0 < k) waits -> forall es, Forall eok es -> nblocks es <= length waits -> mn <= length (ints l ++ exts es) ->
    mn <= total A (map (below A lt (option_map snd (limiting A lt 0 (fill A lt waits mn es l)))) (arrays A (fill A lt waits mn es l) l)).
  Proof.
    assert (Hnone : forall es, Forall eok es -> mn <= length (ints l ++ exts es) -> limiting A lt 0 es = None -> mn <= total A (map (below A lt None) (arrays A es l))).
    { intros es He Hm E. rewrite below_none. unfold total, arrays. rewrite concat_app, app_length. rewrite (limiting_none es He 0 E), app_length in Hm. unfold Ppq.ints in Hm. lia. }
    induction 1 as [|k waits Hk Hw IH]; intros es He Hl Hm; cbn [fill]; destruct (mn <=? _) eqn:E.
    1,3: apply Nat.leb_le in E; exact E.
    - destruct (limiting A lt 0 es) as [(i, v)|] eqn:El.
      + destruct (limiting_some _ _ _ _ El) as (_ & e & E' & Hn). pose proof (wait_less es i v 0 El). cbn [length] in Hl. lia.
      + rewrite El. exact (Hnone es He Hm El).
    - destruct (limiting A lt 0 es) as [(i, v)|] eqn:El.
      + destruct k as [|k]; [lia|]. destruct (wait_ok A lt i (S k) es He) as (W1 & W2). pose proof (wait_less es i v k El). cbn [length] in Hl.
        apply IH; [exact W1|lia|]. unfold Ppq.exts. rewrite W2. exact Hm.
      + rewrite El. exact (Hnone es He Hm El).
  Qed.
  Lemma reach_enough limit waits : Forall (fun k => 0 < k) waits -> forall es es' v full, nblocks es <= length waits -> reach A lt waits limit es = (es', v, full) -> full = true.
  Proof.
    induction 1 as [|k waits Hk Hw IH]; intros es es' v full Hl E; cbn [reach] in E; destruct (limiting A lt 0 es) as [(i, w)|] eqn:El; try (injection E as <- <- <-; reflexivity).
    - destruct (lt limit w); [injection E as <- <- <-; reflexivity|]. pose proof (wait_less es i w 0 El). cbn [length] in Hl. lia.
    - destruct (lt limit w); [injection E as <- <- <-; reflexivity|]. destruct k as [|k]; [lia|]. pose proof (wait_less es i w k El). cbn [length] in Hl. refine (IH _ _ _ _ _ E). lia.
  Qed.
  Lemma nblocks_le es : Forall eok es -> nblocks es <= length (exts es).
  Proof.
    induction 1 as [|e es (_ & He) Hes IH]; [cbn; lia|]. unfold nblocks, Ppq.exts in *. cbn [map concat]. rewrite !app_length. unfold PpqModel.eall at 1. rewrite app_length.
    assert (length (eem e) <= length (concat (eem e))); [|lia]. clear -He. induction He as [|b bs Hb _ IH]; [cbn; lia|]. cbn [concat length]. rewrite app_length. destruct b; [congruence|]. cbn [length]. lia.
  Qed.

  Hypothesis SW : strict_weak lt.
  Variable mm : list (list A) -> nat -> list A * list (list A).
  Hypothesis Hmm : forall seqs n, Forall (sorted lt) seqs -> n <= length (concat seqs) -> merged lt false seqs n (fst (mm seqs n)) (snd (mm seqs n)).
  (** between the minimum and the maximum size asked for *)
  Lemma refill_enough ebl waits mn mx s : Inn s -> eb s = [] -> Forall (fun k => 0 < k) waits -> length (inner s) <= length waits ->
    mn <= length (inner s) -> (0 < mn \/ inner s = []) -> mn <= (if mx =? 0 then ebl else mx) ->
    exists s', refill A lt mm ebl waits mn mx s = Some s' /\ mn <= length (eb s').
  Proof.
    intros (_ & H2 & H3 & _) Hnil Hw Hl Hm Hpos Hmx. unfold refill. cbv zeta. set (mx' := if mx =? 0 then ebl else mx) in *.
    destruct (clean_eas_ok A lt _ H3) as (C1 & C2). destruct (clean_ias_ok A lt _ H2) as (C3 & C4 & C5).
    assert (Ein : inner s = ints (clean_ias A (ias s)) ++ exts (clean_eas A (eas s))) by (unfold Ppq.inner; now rewrite Hnil, C2, C5).
    destruct (is_nil (clean_eas A (eas s)) && is_nil (clean_ias A (ias s))) eqn:En.
    - eexists. split; [reflexivity|]. apply andb_true_iff in En. destruct En as (N1 & N2). rewrite Ein in Hm.
      destruct (clean_eas A (eas s)); [|discriminate]. destruct (clean_ias A (ias s)); [|discriminate]. exact Hm.
    - assert (Hne : inner s <> []).
      { intro E. rewrite Ein in E. apply app_eq_nil in E. destruct E as (Ei & Ee). unfold clean_ias, clean_eas, Ppq.ints, Ppq.exts in *. apply andb_false_iff in En.
        destruct En as [En|En].
        - destruct (filter _ (eas s)) as [|e l] eqn:Ef; [discriminate|]. assert (Hin : In e (filter (fun e => negb (is_nil (eall e))) (eas s))) by (rewrite Ef; now left).
          apply filter_In in Hin. destruct Hin as (_ & Hin). cbn [map concat] in Ee. apply app_eq_nil in Ee. rewrite (proj1 Ee) in Hin. discriminate.
        - destruct (filter _ (ias s)) as [|e l] eqn:Ef; [discriminate|]. assert (Hin : In e (filter (fun i => negb (is_nil (ivals i))) (ias s))) by (rewrite Ef; now left).
          apply filter_In in Hin. destruct Hin as (_ & Hin). cbn [map concat PpqModel.ivals] in Ei. apply app_eq_nil in Ei. rewrite (proj1 Ei) in Hin. discriminate. }
      destruct Hpos as [Hpos|]; [|contradiction].
      pose proof (fill_enough (clean_ias A (ias s)) mn waits Hw (clean_eas A (eas s)) C1) as F. destruct (fill_ok A lt (clean_ias A (ias s)) mn waits _ C1) as (F1 & F2).
      set (es := fill A lt waits mn _ _) in *. pose proof (limiting_ok A lt SW es F1 0) as B.
      set (lim := option_map snd (limiting A lt 0 es)) in *. set (tot := total A (map (below A lt lim) (arrays A es (clean_ias A (ias s))))) in *.
      assert (Ht : mn <= tot).
      { apply F; [|rewrite <- Ein; exact Hm]. pose proof (nblocks_le _ C1) as Hb. rewrite Ein, app_length in Hl. lia. }
      pose proof (Nat.min_glb _ _ _ Ht Hmx) as Hmin.
      destruct (Nat.eqb_spec (Nat.min tot mx') 0) as [E0|Hn]; [rewrite E0 in Hmin; lia|].
      destruct (take A lt mm lim (Nat.min tot mx') es (clean_ias A (ias s))) as ((out, l'), es') eqn:Et. eexists. split; [reflexivity|].
      destruct (take_ok A lt SW mm Hmm lim _ es _ out l' es' F1 C3 B (Nat.le_min_l tot mx') Et) as (T1 & _). cbn [PpqModel.eb]. rewrite T1. exact Hmin.
  Qed.
  Lemma least_some l : l <> [] -> exists c, least A lt l = Some c.
  Proof. destruct l as [|c l]; [congruence|]. intros _. cbn [least]. destruct (least A lt l) as [d|]; [destruct (lt _ _)|]; eauto. Qed.
  Lemma ensure_enough ebl waits s : Inv A lt s -> 0 < ebl -> Forall (fun k => 0 < k) waits -> length (elements s) <= length waits ->
    exists s', ensure A lt mm ebl waits s = Some s'.
  Proof.
    intros (Hh & Hi) He Hw Hl. unfold ensure. destruct (is_nil (eb s)) eqn:En; [|eauto]. apply is_nil_true in En.
    assert (El : total A (map ivals (ias s)) + total A (map eall (eas s)) = length (inner s)).
    { unfold Ppq.inner, total. rewrite En. cbn [app]. rewrite app_length. reflexivity. }
    rewrite El. destruct (refill_enough ebl waits (Nat.min ebl (length (inner s))) 0 s Hi En Hw) as (s' & Hs & _); [| | | |eauto].
    - rewrite elements_inner, app_length in Hl. lia.
    - apply Nat.le_min_r.
    - destruct (inner s); [now right|]. left. cbn [length]. lia.
    - apply Nat.le_min_l.
  Qed.
  Lemma nonempty_players ebl waits s s' : Inv A lt s -> elements s <> [] -> ensure A lt mm ebl waits s = Some s' -> exists c, least A lt (players A s') = Some c.
  Proof.
    intros Hi Hne E. destruct (ensure_ok A lt SW mm Hmm ebl waits s s' Hi E) as (E1 & E2 & E3). apply least_some. intro C.
    destruct (elements s) as [|x r] eqn:Es; [congruence|]. destruct (players_cover A lt SW s' x E1 E3) as (c & Hc & _); [|rewrite C in Hc; contradiction].
    apply (Permutation_in _ (Permutation_sym E2)). now left.
  Qed.
  Lemma top_enough ebl waits s : Inv A lt s -> 0 < ebl -> Forall (fun k => 0 < k) waits -> length (elements s) <= length waits -> elements s <> [] ->
    (exists x s', top A lt mm ebl waits s = Some (x, s')) /\ exists s', pop A lt mm ebl waits s = Some s'.
  Proof.
    intros Hi He Hw Hl Hne. destruct (ensure_enough ebl waits s Hi He Hw Hl) as (s1 & E). destruct (nonempty_players ebl waits s s1 Hi Hne E) as (c & Hc).
    unfold top, pop. rewrite E, Hc. split; [eauto|]. destruct (ensure_ok A lt SW mm Hmm ebl waits s s1 Hi E) as (E1 & _).
    destruct (removal A lt s1 c E1 (proj1 (least_ok A lt SW _ c Hc))) as (s2 & _ & _ & R). eauto.
  Qed.
  Variable srt : list A -> list A.
  Hypothesis Hsrt : sorts lt srt.
  Lemma bulk_pop_enough bs ebl lsz maxl d1 d2 waits n s out s' : 0 < bs -> Inv A lt s -> Forall (fun k => 0 < k) waits -> length (elements s) <= length waits ->
    0 < n -> bulk_pop A lt mm srt bs ebl lsz maxl d1 d2 waits n s = Some (out, s') -> length out = Nat.min n (length (elements s)).
  Proof.
    intros Hbs Hi Hw Hl Hn H.
    destruct (bulk_pop_ok A lt SW mm Hmm srt Hsrt bs ebl lsz maxl Hbs d1 d2 waits n s out s' Hi Hn H) as (_ & (_ & P & _) & Hle).
    unfold bulk_pop in H. cbv zeta in H. set (k := Nat.min n (length (elements s))) in *.
    assert (Hup : length out <= k). { unfold k. apply Nat.min_glb; [exact Hle|]. rewrite (Permutation_length P), app_length. lia. }
    set (r := if 0 <? total A (heaps s) then _ else _) in H.
    assert (Hr : forall s1, r = Some s1 -> Inv A lt s1 /\ concat (heaps s1) = [] /\ Permutation (elements s1) (elements s)).
    { intros s1 E. unfold r in E. destruct (0 <? total A (heaps s)) eqn:Et; [exact (flush_heaps_ok A lt mm Hmm srt Hsrt bs lsz maxl Hbs d1 s s1 Hi E)|]. injection E as <-. split; [exact Hi|]. split; [exact (total_zero _ _ Et)|reflexivity]. }
    destruct r as [s1|]; [|discriminate]. destruct (Hr s1 eq_refl) as ((H1 & H2) & H3 & H4).
    destruct (convert_eb A mm bs lsz maxl d2 s1) as [s2|] eqn:E2; [|discriminate]. destruct (convert_eb_ok A lt mm Hmm bs lsz maxl Hbs d2 s1 s2 H2 E2) as (C1 & C2 & C3 & C4).
    assert (El : length (inner s2) = length (elements s)). { rewrite <- (Permutation_length H4), elements_inner, H3. cbn [app]. exact (Permutation_length C4). }
    assert (Hk : k <= length (inner s2)) by (rewrite El; unfold k; apply Nat.le_min_r).
    destruct (refill_enough ebl waits k k s2 C1 C2 Hw) as (s3 & E3 & Hge); [lia|exact Hk| | |].
    - destruct (inner s2); [now right|]. left. unfold k. rewrite <- El. cbn [length]. lia.
    - destruct (Nat.eqb_spec k 0); lia.
    - rewrite E3 in H. injection H as <- <-. lia.
  Qed.
  Lemma bulk_pop_limit_enough bs lsz maxl d1 d2 waits limit n s out full s' : 0 < bs -> Inv A lt s -> Forall (fun k => 0 < k) waits -> length (elements s) <= length waits ->
    bulk_pop_limit A lt mm srt bs lsz maxl d1 d2 waits limit n s = Some (out, full, s') -> full = false -> length out = n.
  Proof.
    intros Hbs (Hh & Hi) Hw Hl H Hfull. unfold bulk_pop_limit in H. destruct (convert_eb A mm bs lsz maxl d1 s) as [s1|] eqn:E1; [|discriminate].
    destruct (convert_eb_ok A lt mm Hmm bs lsz maxl Hbs d1 s s1 Hi E1) as (C1 & C2 & C3 & C4).
    assert (Hi1 : Inv A lt s1) by (split; [rewrite C3; exact Hh|exact C1]).
    assert (Hl1 : length (elements s1) <= length waits) by (rewrite !elements_inner, app_length in *; rewrite C3, (Permutation_length C4); exact Hl).
    set (r := if 0 <? total A (heaps s1) then _ else _) in H.
    assert (Hr : forall s2, r = Some s2 -> Inv A lt s2 /\ Permutation (elements s2) (elements s1)).
    { intros s2 E. unfold r in E. destruct (0 <? total A (heaps s1)) eqn:Et; [|injection E as <-; split; [exact Hi1|reflexivity]].
      destruct (flush_limit_ok A lt SW mm Hmm srt Hsrt bs lsz maxl Hbs d2 limit s1 s2 Hi1 C2 E) as (F1 & _ & F2 & _). auto. }
    destruct r as [s2|]; [|discriminate]. destruct (Hr s2 eq_refl) as ((G1 & G2 & G3 & G4 & _) & B2).
    destruct (reach A lt waits limit (eas s2)) as ((es, v), fl) eqn:Er. destruct (reach_ok A lt SW limit waits _ _ _ _ G4 Er) as (W1 & W2 & W3 & W4 & W5). cbv zeta in H.
    assert (Hf : fl = true).
    { apply (reach_enough limit waits Hw (eas s2) es v fl); [|exact Er]. pose proof (nblocks_le _ G4) as Hb. rewrite <- (Permutation_length B2) in Hl1. rewrite elements_inner in Hl1. unfold Ppq.inner in Hl1. rewrite !app_length in Hl1. lia. }
    set (t := total A (map (below A lt (Some v)) (arrays A es (ias s2)))) in *.
    destruct (take A lt mm (Some v) (Nat.min t n) es (ias s2)) as ((out', l'), es') eqn:Et. injection H as <- <- <-.
    destruct (take_ok A lt SW mm Hmm (Some v) _ es _ out' l' es' W1 G3 W3 (Nat.le_min_l t n) Et) as (T1 & _). rewrite T1. rewrite Hf in Hfull. cbn [andb] in Hfull. apply Nat.leb_gt in Hfull. apply Nat.min_r. apply Nat.lt_le_incl. exact Hfull.
  Qed.
End Ppq.
