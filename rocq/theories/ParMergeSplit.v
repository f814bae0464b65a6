(** Rows of exact and of sampling splitting. *)
From Coq Require Import List Bool Arith Lia Permutation Sorted ZArith.
From Verif Require Import OrderLib MultiseqModel MultiseqSpec MultiseqProps MwmergeModel MwmergeSpec Mwmerge ParMergeModel ParMergeSpec ParMerge ParMergeAll.
Import ListNotations.
Open Scope nat_scope.

Lemma map_all_ok {X Y} (f : X -> option Y) (P : X -> Y -> Prop) l : (forall x, In x l -> exists y, f x = Some y /\ P x y) ->
  exists r, map_all f l = Some r /\ Forall2 P l r.
Proof.
  induction l as [|x l IH]; intro H; [exists []; split; [reflexivity|constructor]|].
  destruct (H x (or_introl eq_refl)) as (y & E & Hy). destruct IH as (r & Er & Hr); [intros z Hz; apply H; now right|].
  exists (y :: r). cbn [map_all]. rewrite E. cbn [bind]. rewrite Er. split; [reflexivity|constructor; assumption].
Qed.

(** ascending ranks *)
Fixpoint asc (strict : Prop) (a : nat) (l : list nat) : Prop :=
  match l with [] => True | b :: l => a <= b /\ (strict -> a < b) /\ asc strict b l end.
Lemma starts_asc (strict : Prop) c s k : (strict -> 1 <= c) -> forall i start a, start = i * c + Nat.min i s -> a <= start -> (strict -> a < start) ->
  asc strict a (starts k i c s start ++ [(i + k) * c + Nat.min (i + k) s]).
Proof.
  intro Hc. induction k as [|k IH]; intros i start a Hst Ha Hs; cbn [starts app asc].
  - rewrite Nat.add_0_r, <- Hst. auto.
  - split; [exact Ha|]. split; [exact Hs|]. replace (i + S k) with (S i + k) by lia.
    apply IH; [| |intro h; specialize (Hc h)]; destruct (Nat.ltb_spec i s); subst start; cbn [Nat.mul]; lia.
Qed.
Lemma starts_length k : forall i c s st, length (starts k i c s st) = k.
Proof. induction k as [|k IH]; intros; [reflexivity|]. cbn [starts length]. now rewrite IH. Qed.
Lemma equally_split_ok n k (strict : Prop) : (strict -> S k <= n) ->
  exists inner, equally_split n (S k) = 0 :: inner ++ [n] /\ length inner = k /\ asc strict 0 (inner ++ [n]).
Proof.
  intro Hs. unfold equally_split. set (c := n / S k). set (s := n mod S k). cbn [starts app]. eexists. split; [reflexivity|].
  split; [apply starts_length|].
  assert (Hn : n = (1 + k) * c + Nat.min (1 + k) s).
  { pose proof (Nat.mod_upper_bound n (S k) ltac:(lia)) as Hu. pose proof (Nat.div_mod n (S k) ltac:(lia)) as E. fold c s in Hu, E. change (1 + k) with (S k). lia. }
  assert (Hc : strict -> 1 <= c). { intro h. specialize (Hs h). unfold c. apply Nat.div_le_lower_bound; lia. }
  replace [n] with [(1 + k) * c + Nat.min (1 + k) s] by (now rewrite <- Hn). apply starts_asc; [exact Hc| | |intro h; specialize (Hc h)]; destruct (Nat.ltb_spec 0 s); cbn [Nat.mul]; lia.
Qed.
Lemma asc_le (strict : Prop) l : forall a, asc strict a l -> forall n, last l a <= n -> Forall (fun r => r <= n) (a :: l).
Proof.
  induction l as [|b l IH]; intros a H n Hn; [constructor; [exact Hn|constructor]|]. destruct H as (Hab & _ & H).
  assert (El : last (b :: l) a = last l b) by (clear; revert b; induction l as [|c l IH]; intro b; [reflexivity|]; cbn [last] in *; destruct l; [reflexivity|apply IH]).
  rewrite El in Hn. specialize (IH b H n Hn). constructor; [|exact IH]. inversion IH; subst. lia.
Qed.

(** rows that cross *)
Lemma sum_dominates b : forall b', length b = length b' -> (forall j, nth j b' 0 <= nth j b 0) -> list_sum b' <= list_sum b /\ (forall i, nth i b' 0 < nth i b 0 -> list_sum b' < list_sum b).
Proof.
  induction b as [|x b IH]; intros [|x' b'] Hl H; try discriminate.
  { split; [cbn; lia|]. intros [|i] Hi; cbn in Hi; lia. }
  destruct (IH b' ltac:(now injection Hl) (fun j => H (S j))) as (H1 & H2). pose proof (H 0) as H0. cbn [nth] in H0.
  cbn [list_sum fold_right]. change (fold_right Nat.add 0) with list_sum. split; [lia|]. intros [|i] Hi; cbn [nth] in Hi; [lia|]. specialize (H2 i Hi). lia.
Qed.
Lemma le_or_crossed b : forall b', length b = length b' -> Forall2 Nat.le b b' \/ exists i, i < length b /\ nth i b' 0 < nth i b 0.
Proof.
  induction b as [|x b IH]; intros [|x' b'] Hl; try discriminate; [left; constructor|].
  destruct (Nat.le_gt_cases x x') as [Hx|Hx].
  - destruct (IH b' ltac:(now injection Hl)) as [H|(i & Hi & H)]; [left; constructor; assumption|right; exists (S i); cbn; split; [lia|exact H]].
  - right. exists 0. cbn. split; lia.
Qed.
Lemma below_or b' : forall b, (exists j, j < length b' /\ nth j b 0 < nth j b' 0) \/ forall j, nth j b' 0 <= nth j b 0.
Proof.
  induction b' as [|x' b' IH]; intro b.
  - right. intro j. destruct j; cbn; lia.
  - destruct (Nat.le_gt_cases x' (nth 0 b 0)) as [Hx|Hx]; [|left; exists 0; cbn; split; [lia|exact Hx]].
    destruct (IH (tl b)) as [(j & Hj & H)|H].
    + left. exists (S j). cbn [length nth]. split; [lia|]. destruct b; [destruct j; exact H|exact H].
    + right. intros [|j]; [exact Hx|]. specialize (H j). cbn [nth]. destruct b; [destruct j; exact H|exact H].
Qed.

Section Split.
  Variable A : Type.
  Variable lt : A -> A -> bool.
  Hypothesis SW : strict_weak lt.
  Notation seqs := (list (list A * list A)).

  Lemma parts_nth (L : list (list A)) : forall b i, length b = length L -> nth i (parts L b) ([], []) = (firstn (nth i b 0) (nth i L []), skipn (nth i b 0) (nth i L [])).
  Proof.
    unfold parts. induction L as [|l L IH]; intros [|o b] i Hl; try discriminate; [destruct i; reflexivity|].
    destruct i as [|i]; [reflexivity|]. cbn [combine map nth]. apply IH. now injection Hl.
  Qed.
  Lemma nth_part_in (L : list (list A)) b i x : length b = length L ->
    (In x (firstn (nth i b 0) (nth i L [])) -> In x (concat (map fst (parts L b)))) /\ (In x (skipn (nth i b 0) (nth i L [])) -> In x (concat (map snd (parts L b)))).
  Proof.
    intro Hl. pose proof (parts_nth L b i Hl) as E.
    assert (Hlen : length (parts L b) = length L) by (unfold parts; rewrite map_length, combine_length; lia).
    destruct (Nat.lt_ge_cases i (length L)) as [Hi|Hi].
    - assert (Hin : In (nth i (parts L b) ([], [])) (parts L b)) by (apply nth_In; lia).
      split; intro Hx; apply in_concat; [exists (fst (nth i (parts L b) ([], [])))|exists (snd (nth i (parts L b) ([], [])))];
        (split; [apply in_map; exact Hin|rewrite E; exact Hx]).
    - rewrite (nth_overflow L) by exact Hi. rewrite firstn_nil, skipn_nil. split; intros [].
  Qed.
  Lemma inside_nth (L : list (list A)) b i : inside L b -> nth i b 0 <= length (nth i L []).
  Proof. intro H. revert i. induction H as [|l o L b Ho _ IH]; intros [|i]; cbn; try lia. apply IH. Qed.
  Lemma good_origin st (ne : seqs) : good A lt st (map fst ne) (origin ne) /\ list_sum (origin ne) = 0.
  Proof.
    assert (E : forall p, In p (parts (map fst ne) (origin ne)) -> fst p = []).
    { intros p Hp. unfold parts in Hp. apply in_map_iff in Hp. destruct Hp as ((l, o) & <- & Hin). apply in_combine_r in Hin.
      unfold origin in Hin. apply in_map_iff in Hin. destruct Hin as (? & <- & _). reflexivity. }
    split; [split; [|split]|].
    - unfold origin. clear. induction ne; cbn; constructor; [lia|assumption].
    - intros x y Hx. apply in_concat in Hx. destruct Hx as (l & Hl & Hx). apply in_map_iff in Hl. destruct Hl as (p & <- & Hp). rewrite (E p Hp) in Hx. contradiction.
    - intros _. apply (fop_of_nth _ _ ([], [])). intros i j Hij x y _ Hy. rewrite (E (nth j (parts (map fst ne) (origin ne)) ([], []))) in Hy by (apply nth_In; lia). contradiction.
    - unfold origin. clear. induction ne; [reflexivity|exact IHne].
  Qed.
  Lemma good_sizes st (ne : seqs) : good A lt st (map fst ne) (sizes ne) /\ list_sum (sizes ne) = total ne.
  Proof.
    assert (E : forall p, In p (parts (map fst ne) (sizes ne)) -> snd p = []).
    { clear. induction ne as [|r ne IH]; [intros p []|]. unfold sizes. cbn [map]. intros p [<-|Hp]; [cbn; apply skipn_all|exact (IH p Hp)]. }
    split; [split; [|split]|reflexivity].
    - unfold sizes. clear. induction ne; cbn; constructor; [lia|assumption].
    - intros x y _ Hy. apply in_concat in Hy. destruct Hy as (l & Hl & Hy). apply in_map_iff in Hl. destruct Hl as (p & <- & Hp). rewrite (E p Hp) in Hy. contradiction.
    - intros _. apply (fop_of_nth _ _ ([], [])). intros i j Hij x y Hx. rewrite (E (nth i (parts (map fst ne) (sizes ne)) ([], []))) in Hx by (apply nth_In; lia). contradiction.
  Qed.

  (** without ties rows are in the order of their sums *)
  Lemma rows_ordered st L b b' : no_ties lt L -> good A lt st L b -> good A lt st L b' -> list_sum b <= list_sum b' -> Forall2 Nat.le b b'.
  Proof.
    intros Hn (I1 & L1 & _) (I2 & L2 & _) Hsum. pose proof (inside_length _ _ I1) as E1. pose proof (inside_length _ _ I2) as E2.
    destruct (le_or_crossed b b' ltac:(congruence)) as [H|(i & Hi & H)]; [exact H|exfalso].
    destruct (below_or b' b) as [(j & Hj & Hb)|Hb].
    2:{ pose proof (proj2 (sum_dominates b b' ltac:(congruence) Hb) i H). lia. }
    pose proof (inside_nth L b i I1) as N1. pose proof (inside_nth L b' j I2) as N2.
    assert (Nth : forall (l : list A) a c, a < c -> c <= length l -> exists x, In x (firstn c l) /\ In x (skipn a l) /\ In x l).
    { clear. intros l a c Hac Hc. destruct (nth_error l a) as [x|] eqn:E; [|apply nth_error_None in E; lia]. exists x.
      destruct (nth_error_split l a E) as (l1 & l2 & -> & Hl). subst a. split.
      - rewrite firstn_app, firstn_all2 by lia. apply in_app_iff. right. destruct (c - length l1) eqn:Ec; [lia|]. now left.
      - split; [rewrite skipn_app, skipn_all, Nat.sub_diag; now left|]. apply in_app_iff. right. now left. }
    destruct (Nth (nth i L []) (nth i b' 0) (nth i b 0) H N1) as (x & X1 & X2 & X3).
    destruct (Nth (nth j L []) (nth j b 0) (nth j b' 0) Hb N2) as (y & Y1 & Y2 & Y3).
    assert (Hxy : le lt x y) by (apply L1; [apply (nth_part_in L b i x E1); exact X1|apply (nth_part_in L b j y E1); exact Y2]).
    assert (Hyx : le lt y x) by (apply L2; [apply (nth_part_in L b' j y E2); exact Y1|apply (nth_part_in L b' i x E2); exact X2]).
    unfold le in *. destruct (Hn i j x y) as [C|C]; [intros ->; lia|exact X3|exact Y3| |]; congruence.
  Qed.

  (** exact splitting *)
  Lemma combine_map_r {X Y} (f : Y -> nat) (L : list X) : forall b, combine L (map f b) = map (fun p => (fst p, f (snd p))) (combine L b).
  Proof. induction L as [|l L IH]; intros [|o b]; try reflexivity. cbn [map combine fst snd]. now rewrite IH. Qed.
  Lemma partition_row st (ne : seqs) r : Forall (sorted lt) (map fst ne) -> lengths_fit (map fst ne) -> (st = true -> no_ties lt (map fst ne)) ->
    r <= total ne -> exists b, partition A lt ne r = Some b /\ good A lt st (map fst ne) b /\ list_sum b = r.
  Proof.
    intros Hs Hf Hn Hr. destruct (C53_partition A lt (map fst ne) (Z.of_nat r) SW Hs Hf) as (offs & E & S1 & S2 & S3).
    { rewrite total_concat in Hr. lia. }
    exists (map Z.to_nat offs). unfold partition. rewrite E. split; [reflexivity|].
    assert (Hi : inside (map fst ne) (map Z.to_nat offs)) by (clear -S1; induction S1; cbn [map]; constructor; [lia|assumption]).
    assert (E1 : concat (map fst (parts (map fst ne) (map Z.to_nat offs))) = before (map fst ne) offs).
    { unfold parts, before. rewrite combine_map_r, !map_map. reflexivity. }
    assert (E2 : concat (map snd (parts (map fst ne) (map Z.to_nat offs))) = behind (map fst ne) offs).
    { unfold parts, behind. rewrite combine_map_r, !map_map. reflexivity. }
    split; [|rewrite <- (sum_pre _ _ Hi); rewrite E1; lia]. split; [exact Hi|]. rewrite E1, E2. split; [exact S3|].
    intro Hst. specialize (Hn Hst). pose proof (inside_length _ _ Hi) as Hl. apply (fop_of_nth _ _ ([], [])). intros i j Hij x y Hx Hy.
    rewrite parts_nth in Hx, Hy by exact Hl. cbn [fst snd] in Hx, Hy.
    assert (Hle : le lt y x).
    { apply S3; [rewrite <- E1; apply (nth_part_in _ _ j y Hl); exact Hy|rewrite <- E2; apply (nth_part_in _ _ i x Hl); exact Hx]. }
    assert (Hx' : In x (nth i (map fst ne) [])) by (rewrite <- (firstn_skipn (nth i (map Z.to_nat offs) 0) (nth i (map fst ne) [])); apply in_app_iff; now right).
    assert (Hy' : In y (nth j (map fst ne) [])) by (rewrite <- (firstn_skipn (nth j (map Z.to_nat offs) 0) (nth j (map fst ne) [])); apply in_app_iff; now left).
    destruct (Hn i j x y ltac:(lia) Hx' Hy') as [C|C]; [unfold le in Hle; congruence|exact C].
  Qed.
  Lemma rows_chain st (strict : Prop) L : no_ties lt L -> forall rs rows, Forall2 (fun r b => good A lt st L b /\ list_sum b = r) rs rows ->
    forall a b, good A lt st L b -> list_sum b = a -> asc strict a rs -> chain strict b rows.
  Proof.
    intro Hn. induction 1 as [|r b' rs rows (G & E) _ IH]; intros a b Gb Eb Ha; [exact I|]. destruct Ha as (Ha & Hs & Hr). cbn [chain].
    split; [apply (rows_ordered st L); auto; lia|]. split; [intro h; specialize (Hs h); lia|]. exact (IH r b' G E Hr).
  Qed.

  Lemma exact_rows st (strict : Prop) (ne : seqs) len p : Forall (sorted lt) (map fst ne) -> lengths_fit (map fst ne) ->
    len <= total ne -> 1 <= p -> (st = true -> no_ties lt (map fst ne)) -> (strict -> p <= len) -> (len = total ne \/ 2 <= p) ->
    no_ties lt (map fst ne) \/ (len = total ne /\ p <= 2) ->
    exists rows, exact_splitting A lt ne len (total ne) p = Some (origin ne :: rows) /\ Forall (good A lt st (map fst ne)) (origin ne :: rows) /\
      Forall (fun b => list_sum b <= len) rows /\ chain strict (origin ne) rows /\ list_sum (last (origin ne :: rows) []) = len.
  Proof.
    intros Hs Hf Hlen Hp Hst Hstrict Htight Hcase. destruct p as [|k]; [lia|].
    destruct (equally_split_ok len k strict Hstrict) as (inner & Ee & Hk & Hasc).
    assert (Hall : Forall (fun r => r <= len) (0 :: inner ++ [len])).
    { apply (asc_le strict); [exact Hasc|]. rewrite last_last. lia. }
    inversion Hall as [|? ? _ Hin]; subst.
    destruct (map_all_ok (partition A lt ne) (fun r b => good A lt st (map fst ne) b /\ list_sum b = r) inner) as (offs & Eo & Fo).
    { intros r Hr. apply partition_row; auto. rewrite Forall_forall in Hin. specialize (Hin r ltac:(apply in_app_iff; now left)). lia. }
    unfold exact_splitting. cbv zeta. rewrite Ee. cbn [tl]. replace (S (length inner) - 1) with (length inner) by lia.
    rewrite firstn_app, firstn_all, Nat.sub_diag. cbn [firstn]. rewrite app_nil_r, Eo. cbn [bind].
    assert (Hend : exists e, (if Nat.eqb (total ne) len then Some (sizes ne) else if Nat.leb 2 (S (length inner)) then partition A lt ne len else None) = Some e /\
                     good A lt st (map fst ne) e /\ list_sum e = len /\ (len = total ne -> e = sizes ne)).
    { destruct (Nat.eqb_spec (total ne) len) as [E|E].
      - exists (sizes ne). rewrite <- E. split; [reflexivity|]. destruct (good_sizes st ne). repeat split; try assumption; apply H.
      - destruct (Nat.leb_spec 2 (S (length inner))); [|exfalso; destruct Htight; lia]. destruct (partition_row st ne len Hs Hf Hst Hlen) as (e & E1 & E2 & E3). exists e. repeat (split; [assumption|]). intro; lia. }
    destruct Hend as (e & -> & Ge & Se & Ze). cbn [bind]. exists (offs ++ [e]). split; [reflexivity|].
    destruct (good_origin st ne) as (G0 & S0).
    assert (Hrows : Forall2 (fun r b => good A lt st (map fst ne) b /\ list_sum b = r) (inner ++ [len]) (offs ++ [e])) by (apply Forall2_app; [exact Fo|constructor; [split; assumption|constructor]]).
    split; [constructor; [exact G0|]; clear -Hrows; induction Hrows; constructor; [apply H|assumption]|].
    split; [clear -Hrows Hin; induction Hrows as [|r b rs rows (_ & E) _ IH]; [constructor|]; inversion Hin; subst; constructor; [assumption|auto]|].
    split; [|change (origin ne :: offs ++ [e]) with ((origin ne :: offs) ++ [e]); now rewrite last_last].
    destruct Hcase as [Hn|(Htot & H2)]; [exact (rows_chain st strict _ Hn _ _ Hrows 0 _ G0 S0 Hasc)|].
    assert (Hz : forall b, inside (map fst ne) b -> Forall2 Nat.le (origin ne) b).
    { unfold origin. clear. induction ne as [|r ne IH]; intros b Hb; inversion Hb; subst; constructor; [unfold Nat.le; lia|auto]. }
    assert (Hup : forall b, inside (map fst ne) b -> Forall2 Nat.le b (sizes ne)).
    { unfold sizes. clear. induction ne as [|r ne IH]; intros b Hb; inversion Hb; subst; constructor; [assumption|auto]. }
    destruct inner as [|r [|r2 inner]]; [| |cbn in H2; lia].
    - inversion Fo; subst. cbn [app chain]. cbn [app asc] in Hasc. destruct Hasc as (_ & Hx & _). split; [apply Hz; apply Ge|]. split; [intro h; specialize (Hx h); lia|exact I].
    - inversion Fo as [|? b ? ? (Gb & Sb) Fo']; subst. inversion Fo'; subst. cbn [app chain]. cbn [app asc] in Hasc. destruct Hasc as (_ & Hx & _ & Hy & _).
      split; [apply Hz; apply Gb|]. split; [intro h; specialize (Hx h); lia|].
      split; [|split; [intro h; specialize (Hy h); lia|exact I]].
      rewrite (Ze ltac:(congruence)). apply Hup. apply Gb.
  Qed.

  (** sampling splitting *)
  Lemma upper_before v l x : In x (firstn (upper_bound A lt v l) l) -> lt v x = false.
  Proof. induction l as [|y l IH]; cbn [upper_bound]; [intros []|]. destruct (lt v y) eqn:E; [intros []|]. cbn [firstn]. intros [<-|H]; [exact E|exact (IH H)]. Qed.
  Lemma upper_behind v l x : sorted lt l -> In x (skipn (upper_bound A lt v l) l) -> lt v x = true.
  Proof.
    induction l as [|y l IH]; intros Hs; cbn [upper_bound]; [intros []|]. inversion Hs as [|? ? Hs' Hall]; subst. destruct (lt v y) eqn:E.
    - cbn [skipn]. intros [<-|H]; [exact E|]. rewrite Forall_forall in Hall. specialize (Hall x H). unfold le in Hall.
      destruct (sw_incomp _ SW v x y E) as [C|C]; [exact C|congruence].
    - cbn [skipn]. intro H. exact (IH Hs' H).
  Qed.
  Lemma upper_mono v v' l : le lt v v' -> upper_bound A lt v l <= upper_bound A lt v' l.
  Proof.
    intro H. induction l as [|y l IH]; cbn [upper_bound]; [lia|]. destruct (lt v y) eqn:E; [lia|]. destruct (lt v' y) eqn:E'; [|lia].
    unfold le in H. destruct (sw_incomp _ SW v' v y E'); congruence.
  Qed.
  Definition bounds (ne : seqs) (v : A) : list nat := map (fun r => upper_bound A lt v (fst r)) ne.
  Lemma upper_inside v l : upper_bound A lt v l <= length l.
  Proof. induction l as [|y l IH]; cbn [upper_bound length]; [lia|]. destruct (lt v y); lia. Qed.
  Lemma bounds_in (ne : seqs) v p : In p (parts (map fst ne) (bounds ne v)) -> exists r, In r ne /\ p = (firstn (upper_bound A lt v (fst r)) (fst r), skipn (upper_bound A lt v (fst r)) (fst r)).
  Proof.
    unfold bounds. induction ne as [|r ne IH]; [intros []|]. cbn [map]. intros [<-|H]; [exists r; split; [now left|reflexivity]|]. destruct (IH H) as (r' & H1 & H2). exists r'. split; [now right|exact H2].
  Qed.
  Lemma good_bounds st (ne : seqs) v : Forall (sorted lt) (map fst ne) -> good A lt st (map fst ne) (bounds ne v).
  Proof.
    intro Hs. rewrite Forall_forall in Hs.
    assert (Hlt : forall p q x y, In p (parts (map fst ne) (bounds ne v)) -> In q (parts (map fst ne) (bounds ne v)) -> In x (fst p) -> In y (snd q) -> lt x y = true).
    { intros p q x y Hp Hq Hx Hy. apply bounds_in in Hp, Hq. destruct Hp as (r & Hr & ->), Hq as (r' & Hr' & ->). cbn [fst snd] in *.
      apply upper_before in Hx. apply upper_behind in Hy; [|apply Hs; apply in_map; exact Hr']. destruct (sw_incomp _ SW v x y Hy); [congruence|assumption]. }
    split; [|split].
    - unfold bounds. clear. induction ne; cbn [map]; constructor; [apply upper_inside|assumption].
    - intros x y Hx Hy. apply in_concat in Hx, Hy. destruct Hx as (l & Hl & Hx), Hy as (l' & Hl' & Hy). apply in_map_iff in Hl, Hl'.
      destruct Hl as (p & <- & Hp), Hl' as (q & <- & Hq). apply (lt_le A lt SW). exact (Hlt p q x y Hp Hq Hx Hy).
    - intros _. apply (fop_of_nth _ _ ([], [])). intros i j Hij x y Hx Hy.
      exact (Hlt _ _ y x (nth_In _ _ (proj2 Hij)) (nth_In _ _ (Nat.lt_trans _ _ _ (proj1 Hij) (proj2 Hij))) Hy Hx).
  Qed.
  Lemma sorted_nth_le (l : list A) : sorted lt l -> forall i j x y, i <= j -> nth_error l i = Some x -> nth_error l j = Some y -> le lt x y.
  Proof.
    induction 1 as [|z l Hl IH Hall]; intros i j x y Hij Hx Hy; [destruct i; discriminate|]. destruct i as [|i], j as [|j]; cbn [nth_error] in Hx, Hy; try lia.
    - injection Hx as <-. injection Hy as <-. apply (le_refl A lt SW).
    - injection Hx as <-. rewrite Forall_forall in Hall. apply Hall. exact (nth_error_In _ _ Hy).
    - exact (IH i j x y ltac:(lia) Hx Hy).
  Qed.
  Lemma sum_le b b' : Forall2 Nat.le b b' -> list_sum b <= list_sum b'.
  Proof. induction 1 as [|x y b b' H _ IH]; [reflexivity|]. cbn [list_sum fold_right]. change (fold_right Nat.add 0) with list_sum. unfold Nat.le in H. lia. Qed.

  Lemma sampling_rows st pick (ne : seqs) p : Forall (sorted lt) (map fst ne) -> Forall (fun l => 0 < length l) (map fst ne) -> 1 <= p ->
    (forall n i, 0 < n -> i < p * 10 -> pick n i < n) -> ne <> [] ->
    exists rows, sampling_splitting A lt pick ne (total ne) (total ne) p = Some (origin ne :: rows) /\ Forall (good A lt st (map fst ne)) (origin ne :: rows) /\
      Forall (fun b => list_sum b <= total ne) rows /\ chain False (origin ne) rows /\ list_sum (last (origin ne :: rows) []) = total ne.
  Proof.
    intros Hs Hpos Hp Hpick Hne. unfold sampling_splitting. cbv zeta.
    destruct (map_all_ok (fun r => samples_of A pick (p * 10) (fst r)) (fun _ l => length l = p * 10) ne) as (sm & Es & Fs).
    { intros r Hr. unfold samples_of. rewrite Forall_forall in Hpos. specialize (Hpos (fst r) (in_map fst _ _ Hr)).
      destruct (map_all_ok (fun i => nth_error (fst r) (pick (length (fst r)) i)) (fun _ _ => True) (seq 0 (p * 10))) as (l & El & Fl).
      { intros i Hi. apply in_seq in Hi. specialize (Hpick (length (fst r)) i Hpos ltac:(lia)). destruct (nth_error (fst r) (pick (length (fst r)) i)) as [x|] eqn:E; [exists x; auto|apply nth_error_None in E; lia]. }
      exists l. split; [exact El|]. transitivity (length (seq 0 (p * 10))); [|apply seq_length]. clear El. induction Fl; cbn; congruence. }
    rewrite Es. cbn [bind]. set (sa := ssort lt (concat sm)).
    assert (Hlen : length sa = p * 10 * length ne).
    { unfold sa. rewrite (Permutation_length (ssort_perm A lt (concat sm))). clear -Fs. induction Fs as [|r l ne sm H _ IH]; [cbn; lia|]. cbn [concat length]. rewrite app_length, IH, H. lia. }
    assert (Hsa : sorted lt sa) by (apply (ssort_sorted A lt SW)).
    assert (Hk : 0 < length ne) by (destruct ne; [congruence|cbn; lia]).
    destruct (map_all_ok (fun slab => v <- nth_error sa (p * 10 * length ne * slab / p) ;; Some (map (fun r => upper_bound A lt v (fst r)) ne))
      (fun slab b => exists v, nth_error sa (10 * length ne * slab) = Some v /\ b = bounds ne v) (seq 1 (p - 1))) as (inner & Ei & Fi).
    { intros slab Hsl. apply in_seq in Hsl. replace (p * 10 * length ne * slab) with (10 * length ne * slab * p) by lia. rewrite Nat.div_mul by lia.
      assert (Hidx : 10 * length ne * slab < length sa).
      { rewrite Hlen. replace (p * 10 * length ne) with (10 * length ne * p) by lia. apply Nat.mul_lt_mono_pos_l; lia. }
      destruct (nth_error sa (10 * length ne * slab)) as [v|] eqn:E; [|apply nth_error_None in E; lia]. exists (bounds ne v). split; [reflexivity|]. exists v. split; [reflexivity|reflexivity]. }
    rewrite Ei. cbn [bind]. exists (inner ++ [sizes ne]). split; [reflexivity|].
    destruct (good_origin st ne) as (G0 & S0). destruct (good_sizes st ne) as (G1 & S1).
    assert (Hup : forall b, inside (map fst ne) b -> Forall2 Nat.le b (sizes ne)).
    { unfold sizes. clear. induction ne as [|r ne IH]; intros b Hb; inversion Hb; subst; constructor; [assumption|auto]. }
    assert (Hz : forall b, inside (map fst ne) b -> Forall2 Nat.le (origin ne) b).
    { unfold origin. clear. induction ne as [|r ne IH]; intros b Hb; inversion Hb; subst; constructor; [unfold Nat.le; lia|auto]. }
    assert (Hgi : Forall (good A lt st (map fst ne)) inner).
    { clear -Fi Hs SW. induction Fi as [|k b ks bs (v & _ & ->) _ IH]; constructor; [apply good_bounds; exact Hs|exact IH]. }
    assert (Hg : Forall (good A lt st (map fst ne)) (inner ++ [sizes ne])) by (apply Forall_app; split; [exact Hgi|constructor; [exact G1|constructor]]).
    split; [constructor; assumption|]. split.
    { rewrite Forall_forall in *. intros b Hb. rewrite <- S1. apply sum_le. apply Hup. apply (Hg b Hb). }
    split; [|change (origin ne :: inner ++ [sizes ne]) with ((origin ne :: inner) ++ [sizes ne]); now rewrite last_last].
    assert (Hch : forall n a inner b, Forall2 (fun slab b => exists v, nth_error sa (10 * length ne * slab) = Some v /\ b = bounds ne v) (seq a n) inner ->
      inside (map fst ne) b -> (forall v, nth_error sa (10 * length ne * a) = Some v -> Forall2 Nat.le b (bounds ne v)) -> chain False b (inner ++ [sizes ne])).
    { induction n as [|n IH]; intros a inn b F Hb Hnext; cbn [seq] in F; inversion F as [|? b' ? inn' (v & Ev & Eb) F']; subst; cbn [app chain].
      - split; [apply Hup; exact Hb|]. split; [intros []|exact I].
      - split; [apply Hnext; exact Ev|]. split; [intros []|]. apply (IH (S a)); [exact F'|apply (good_bounds false ne v Hs)|].
        intros v' Ev'. assert (Hvv : le lt v v') by (apply (sorted_nth_le sa Hsa (10 * length ne * a) (10 * length ne * S a)); [apply Nat.mul_le_mono_l; lia|exact Ev|exact Ev']).
        unfold bounds. clear -Hvv SW. induction ne as [|r ne IH]; cbn [map]; constructor; [apply upper_mono; exact Hvv|exact IH]. }
    apply (Hch (p - 1) 1); [exact Fi|apply G0|]. intros v _. apply Hz. apply (good_bounds false ne v Hs).
  Qed.
End Split.
