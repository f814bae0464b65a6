(** Taking elements from the arrays of the parallel priority queue, the players of its trees, its operations. *)
From Coq Require Import List Bool Arith Lia Permutation Sorted.
From Verif Require Import OrderLib MwmergeSpec MwSortModel MwSort PpqModel PpqSpec Ppq.
Import ListNotations.
Open Scope nat_scope.

Section Ppq.
  Variable A : Type.
  Variable lt : A -> A -> bool.
  Hypothesis SW : strict_weak lt.
  Variable mm : list (list A) -> nat -> list A * list (list A).
  Hypothesis Hmm : forall seqs n, Forall (sorted lt) seqs -> n <= length (concat seqs) -> merged lt false seqs n (fst (mm seqs n)) (snd (mm seqs n)).
  Notation iarr := (iarr A). Notation earr := (earr A). Notation st := (st A).
  Notation ivals := (ivals A). Notation eall := (eall A). Notation eem := (eem A). Notation eram := (eram A). Notation itree := (itree A).
  Notation heaps := (heaps A). Notation eb := (eb A). Notation ias := (ias A). Notation eas := (eas A).
  Notation eok := (eok A lt). Notation iok := (iok A lt). Notation reg := (reg A). Notation ints := (ints A). Notation exts := (exts A). Notation suffix := (suffix A).
  Notation Inn := (Inn A lt). Notation inner := (inner A).

  (** the rest behind the limit *)
  Definition beyond (lim : option A) (l : list A) : list A := match lim with Some v => skipn (lower A lt v l) l | None => [] end.
  Lemma below_beyond lim l : below A lt lim l ++ beyond lim l = l.
  Proof. destruct lim; cbn; [apply firstn_skipn|apply app_nil_r]. Qed.
  Lemma below_sorted lim l : sorted lt l -> sorted lt (below A lt lim l).
  Proof. intro H. rewrite <- (below_beyond lim l) in H. apply (sorted_app_inv A lt) in H. apply H. Qed.

  Definition removed (l : list (list A)) (pres R : list (list A)) : list (list A) :=
    map (fun q => skipn (length (fst (snd q)) - length (snd (snd q))) (fst q)) (combine l (combine pres R)).
  Lemma removed_ok lim l : forall R, Forall2 suffix (map (below A lt lim) l) R ->
    Forall2 suffix l (removed l (map (below A lt lim) l) R) /\
    Permutation (concat (removed l (map (below A lt lim) l) R)) (concat R ++ concat (map (beyond lim) l)) /\
    Permutation (concat l) (concat (map (below A lt lim) l) ++ concat (map (beyond lim) l)).
  Proof.
    induction l as [|a l IH]; intros R F; cbn [map] in F; inversion F as [|? r ? R' (t & Et) F']; subst; [split; [constructor|split; constructor]|].
    destruct (IH R' F') as (H1 & H2 & H3). cbn [map combine removed]. fold (removed l (map (below A lt lim) l) R'). unfold removed. cbn [combine map fst snd concat].
    fold (removed l (map (below A lt lim) l) R').
    assert (E : skipn (length (below A lt lim a) - length r) a = r ++ beyond lim a).
    { rewrite <- (below_beyond lim a) at 2. rewrite Et, app_length. replace (length t + length r - length r) with (length t) by lia.
      rewrite <- app_assoc, skipn_app, skipn_all, Nat.sub_diag. reflexivity. }
    rewrite E. split; [|split].
    - constructor; [|exact H1]. exists t. rewrite app_assoc, <- Et. symmetry. apply below_beyond.
    - rewrite H2. perm.
    - rewrite H3. rewrite <- (below_beyond lim a) at 1. perm.
  Qed.
  Lemma set_rams (es : list earr) : forall R, Forall2 suffix (map eram es) R -> Forall eok es ->
    let es' := map (fun q => EA A (elevel A (fst q)) (snd q) (eem (fst q))) (combine es R) in
    Forall eok es' /\ Permutation (exts es') (concat R ++ concat (map (fun e => concat (eem e)) es)) /\ length es' = length es.
  Proof.
    induction es as [|e es IH]; intros R F H; cbn [map] in F; inversion F as [|? r ? R' (t & Et) F']; subst; [split; [constructor|split; [constructor|reflexivity]]|].
    inversion H as [|? ? (He1 & He2) H']; subst. destruct (IH R' F' H') as (H1 & H2 & H3). cbv zeta in *. cbn [combine map fst snd concat]. split; [|split].
    - constructor; [|exact H1]. split; [|exact He2]. unfold PpqModel.eall in *. cbn [PpqModel.eram PpqModel.eem]. rewrite Et, <- app_assoc in He1. apply (sorted_app_inv A lt) in He1. apply He1.
    - unfold Ppq.exts in *. cbn [map concat]. rewrite H2. unfold PpqModel.eall at 1. cbn [PpqModel.eram PpqModel.eem]. perm.
    - cbn [length]. now rewrite H3.
  Qed.
  Lemma exts_split (es : list earr) : Permutation (exts es) (concat (map eram es) ++ concat (map (fun e => concat (eem e)) es)).
  Proof. induction es as [|e es IH]; [constructor|]. unfold Ppq.exts in *. cbn [map concat]. rewrite IH. unfold PpqModel.eall. perm. Qed.
  Lemma set_ivals (l : list iarr) : forall R, Forall2 suffix (map ivals l) R -> iok l ->
    let l' := map (fun q => IA A (ilevel A (fst q)) (snd q) (itree (fst q))) (combine l R) in iok l' /\ ints l' = concat R.
  Proof.
    induction l as [|i l IH]; intros R F H; cbn [map] in F; inversion F as [|? r ? R' (t & Et) F']; subst; [split; [constructor|reflexivity]|].
    inversion H as [|? ? Hi H']; subst. destruct (IH R' F' H') as (H1 & H2). cbv zeta in *. cbn [combine map fst snd]. split.
    - constructor; [|exact H1]. cbn [PpqModel.ivals]. rewrite Et in Hi. apply (sorted_app_inv A lt) in Hi. apply Hi.
    - unfold Ppq.ints in *. cbn [map concat PpqModel.ivals]. now rewrite H2.
  Qed.

  (** the limit is not greater than anything in the blocks that are not accessible *)
  Definition bounds (lim : option A) (es : list earr) : Prop := forall e y, In e es -> In y (concat (eem e)) -> match lim with Some v => le lt v y | None => False end.
  Lemma take_ok lim n es l out l' es' : Forall eok es -> iok l -> bounds lim es -> n <= total A (map (below A lt lim) (arrays A es l)) ->
    take A lt mm lim n es l = (out, l', es') ->
    length out = n /\ sorted lt out /\ Permutation (out ++ ints l' ++ exts es') (ints l ++ exts es) /\ Forall eok es' /\ iok l' /\ reg l' /\
    (forall x y, In x out -> In y (ints l' ++ exts es') -> le lt x y) /\
    (forall v, lim = Some v -> forall x, In x out -> lt x v = true) /\
    (n = total A (map (below A lt lim) (arrays A es l)) -> forall y, In y (ints l' ++ exts es') -> match lim with Some v => lt y v = false | None => False end).
  Proof.
    intros He Hi Hb Hn H. unfold take in H. cbv zeta in H. set (ar := arrays A es l) in *. set (pres := map (below A lt lim) ar) in *. set (r := mm pres n) in *.
    assert (Har : Forall (sorted lt) ar).
    { unfold ar, arrays. apply Forall_app. split; apply Forall_map; [|exact Hi]. rewrite Forall_forall in *. intros e Hin. destruct (He e Hin) as (H1 & _).
      unfold PpqModel.eall in H1. apply (sorted_app_inv A lt) in H1. apply H1. }
    assert (Hpres : Forall (sorted lt) pres) by (apply Forall_map; rewrite Forall_forall in *; intros a Ha; apply below_sorted; apply (Har a Ha)).
    destruct (mm_split A lt mm Hmm pres n Hpres Hn) as (M1 & M2 & M3 & M4 & M5). fold r in M1, M2, M3, M4, M5.
    destruct (removed_ok lim ar (snd r) M4) as (R1 & R2 & R3). fold pres in R1, R2, R3. fold (removed ar pres (snd r)) in H. set (rests := removed ar pres (snd r)) in *.
    assert (Hsp : exists Ra Rb, rests = Ra ++ Rb /\ Forall2 suffix (map eram es) Ra /\ Forall2 suffix (map ivals l) Rb).
    { unfold ar, arrays in R1. apply Forall2_app_inv_l in R1. destruct R1 as (Ra & Rb & Fa & Fb & E). exists Ra, Rb. auto. }
    destruct Hsp as (Ra & Rb & Er & Fa & Fb). destruct (set_rams es Ra Fa He) as (E1 & E2 & E3). destruct (set_ivals l Rb Fb Hi) as (I1 & I2). cbv zeta in E1, E2, E3, I1, I2.
    assert (La : length Ra = length es). { clear -Fa. revert Ra Fa. induction es as [|e es IH]; intros Ra Fa; cbn [map] in Fa; inversion Fa; subst; cbn; [reflexivity|]. f_equal. auto. }
    rewrite Er in H. rewrite <- La in H. rewrite firstn_app, firstn_all, Nat.sub_diag in H. cbn [firstn] in H. rewrite app_nil_r, E3, <- La in H.
    rewrite skipn_app, skipn_all, Nat.sub_diag in H. cbn [skipn app] in H.
    set (es1 := map _ (combine es Ra)) in *. set (l1 := map _ (combine l Rb)) in *. injection H as <- <- <-.
    destruct (clean_ias_ok A lt l1 I1) as (K1 & K2 & K3). destruct (clean_eas_ok A lt es1 E1) as (K4 & K5). rewrite K3, K5, I2.
    set (em := concat (map (fun e => concat (eem e)) es)) in *.
    assert (Pr : Permutation (concat Rb ++ exts es1) (concat (snd r) ++ concat (map (beyond lim) ar) ++ em)).
    { rewrite E2. rewrite app_assoc. rewrite app_assoc. apply Permutation_app_tail. rewrite <- R2, Er, concat_app. apply Permutation_app_comm. }
    assert (Hlow : forall v, lim = Some v -> forall x, In x (fst r) -> lt x v = true).
    { intros v -> x Hx. assert (Hin : In x (concat pres)) by (apply (Permutation_in _ (Permutation_sym M3)); apply in_app_iff; now left).
      apply in_concat in Hin. destruct Hin as (c & Hc & Hx'). apply in_map_iff in Hc. destruct Hc as (a & <- & _). exact (lower_before A lt v a x Hx'). }
    assert (Hhigh : forall y, In y (concat (map (beyond lim) ar)) -> match lim with Some v => lt y v = false | None => False end).
    { intros y Hy. apply in_concat in Hy. destruct Hy as (c & Hc & Hy). apply in_map_iff in Hc. destruct Hc as (a & <- & Ha). destruct lim as [v|]; [|exact Hy].
      rewrite Forall_forall in Har. exact (lower_behind A lt SW v a y (Har a Ha) Hy). }
    assert (Hem : forall y, In y em -> match lim with Some v => lt y v = false | None => False end).
    { intros y Hy. unfold em in Hy. apply in_concat in Hy. destruct Hy as (c & Hc & Hy). apply in_map_iff in Hc. destruct Hc as (e & <- & Hin). exact (Hb e y Hin Hy). }
    split; [exact M1|]. split; [exact M2|]. split; [|split; [exact K4|split; [exact K1|split; [exact K2|split; [|split; [exact Hlow|]]]]]].
    - rewrite Pr. rewrite (exts_split es). fold em. transitivity (concat ar ++ em); [rewrite R3, M3; perm|]. unfold ar, arrays. rewrite concat_app. unfold Ppq.ints. perm.
    - intros x y Hx Hy. apply (Permutation_in _ Pr) in Hy. apply in_app_iff in Hy. destruct Hy as [Hy|Hy]; [exact (M5 x y Hx Hy)|].
      assert (Hl : match lim with Some v => lt y v = false | None => False end) by (apply in_app_iff in Hy; destruct Hy as [Hy|Hy]; [exact (Hhigh y Hy)|exact (Hem y Hy)]).
      destruct lim as [v|]; [|contradiction]. apply (le_trans A lt SW x v y); [apply (lt_le A lt SW); exact (Hlow v eq_refl x Hx)|exact Hl].
    - intros En y Hy. apply (Permutation_in _ Pr) in Hy. apply in_app_iff in Hy. destruct Hy as [Hy|Hy].
      + pose proof (Permutation_length M3) as EL. rewrite app_length, M1 in EL. change (length (concat pres)) with (total A pres) in EL. rewrite <- En in EL. destruct (concat (snd r)); [contradiction|cbn in EL; lia].
      + apply in_app_iff in Hy. destruct Hy as [Hy|Hy]; [exact (Hhigh y Hy)|exact (Hem y Hy)].
  Qed.

  Lemma em_sorted e x b bs y : eok e -> eem e = (x :: b) :: bs -> In y (concat (eem e)) -> le lt x y.
  Proof.
    intros (H1 & _) E Hy. unfold PpqModel.eall in H1. rewrite E in H1, Hy. apply (sorted_app_inv A lt) in H1. destruct H1 as (_ & H1 & _). cbn [concat app] in H1, Hy. exact (sorted_hd A lt SW x _ y H1 Hy).
  Qed.
  Lemma limiting_ok (es : list earr) : Forall eok es -> forall i, bounds (option_map snd (limiting A lt i es)) es.
  Proof.
    induction 1 as [|e es He Hes IH]; intros i f y Hf Hy; [contradiction|]. cbn [limiting]. specialize (IH (S i)).
    destruct (eem e) as [|[|x b] bs] eqn:E.
    - destruct Hf as [<-|Hf]; [rewrite E in Hy; contradiction|exact (IH f y Hf Hy)].
    - destruct He as (_ & He). rewrite E in He. inversion He; congruence.
    - assert (Hx : f = e -> le lt x y) by (intros ->; exact (em_sorted e x b bs y He E Hy)).
      destruct (limiting A lt (S i) es) as [(j, z)|]; cbn [option_map snd] in *.
      + destruct (lt z x) eqn:Ez; cbn [option_map snd].
        * destruct Hf as [<-|Hf]; [|exact (IH f y Hf Hy)]. apply (le_trans A lt SW z x y); [apply (lt_le A lt SW); exact Ez|auto].
        * destruct Hf as [<-|Hf]; [auto|]. apply (le_trans A lt SW x z y); [exact Ez|exact (IH f y Hf Hy)].
      + destruct Hf as [<-|Hf]; [auto|]. destruct (IH f y Hf Hy).
  Qed.
  Lemma wait_ok i k (es : list earr) : Forall eok es -> Forall eok (wait A i k es) /\ map eall (wait A i k es) = map eall es.
  Proof.
    intro H. unfold wait. destruct (nth_error es i) as [e|] eqn:E; [|auto].
    set (e' := EA A (elevel A e) (eram e ++ concat (firstn k (eem e))) (skipn k (eem e))).
    assert (Ee : eall e' = eall e). { unfold PpqModel.eall, e'. cbn [PpqModel.eram PpqModel.eem]. rewrite <- app_assoc, <- concat_app, firstn_skipn. reflexivity. }
    destruct (set_nth_split es i e e' E) as (l1 & l2 & -> & ->). rewrite !map_app. cbn [map]. rewrite Ee. split; [|reflexivity].
    apply Forall_app in H. destruct H as (H1 & H2). inversion H2 as [|? ? (H3 & H4) H5]; subst. apply Forall_app. split; [exact H1|]. constructor; [|exact H5].
    split; [rewrite Ee; exact H3|]. unfold e'. cbn [PpqModel.eem]. rewrite <- (firstn_skipn k (eem e)) in H4. apply Forall_app in H4. apply H4.
  Qed.
  Lemma fill_ok l mn waits : forall es, Forall eok es -> Forall eok (fill A lt waits mn es l) /\ map eall (fill A lt waits mn es l) = map eall es.
  Proof.
    induction waits as [|k waits IH]; intros es H; cbn [fill]; destruct (_ <=? _); auto; destruct (limiting A lt 0 es) as [(i, v)|]; auto. destruct k as [|k]; [auto|].
    destruct (wait_ok i (S k) es H) as (H1 & H2). destruct (IH _ H1) as (H3 & H4). rewrite H4. auto.
  Qed.
  Lemma reach_ok limit waits : forall es es' v full, Forall eok es -> reach A lt waits limit es = (es', v, full) ->
    Forall eok es' /\ map eall es' = map eall es /\ bounds (Some v) es' /\ le lt v limit /\ (full = true -> v = limit).
  Proof.
    induction waits as [|k waits IH]; intros es es' v full H E; cbn [reach] in E; pose proof (limiting_ok es H 0) as B;
      destruct (limiting A lt 0 es) as [(i, w)|]; cbn [option_map snd] in B.
    1,3: destruct (lt limit w) eqn:Ew.
    - injection E as <- <- <-. split; [exact H|]. split; [reflexivity|]. split; [|split; [apply (le_refl A lt SW)|reflexivity]].
      intros e y He Hy. apply (le_trans A lt SW limit w y); [apply (lt_le A lt SW); exact Ew|exact (B e y He Hy)].
    - injection E as <- <- <-. split; [exact H|]. split; [reflexivity|]. split; [exact B|]. split; [exact Ew|discriminate].
    - injection E as <- <- <-. split; [exact H|]. split; [reflexivity|]. split; [|split; [apply (le_refl A lt SW)|reflexivity]].
      intros e y He Hy. apply (le_trans A lt SW limit w y); [apply (lt_le A lt SW); exact Ew|exact (B e y He Hy)].
    - destruct k as [|k].
      + injection E as <- <- <-. split; [exact H|]. split; [reflexivity|]. split; [exact B|]. split; [exact Ew|discriminate].
      + destruct (wait_ok i (S k) es H) as (H1 & H2). rewrite <- H2. exact (IH _ _ _ _ H1 E).
    - injection E as <- <- <-. split; [exact H|]. split; [reflexivity|]. split; [intros e y He Hy; destruct (B e y He Hy)|]. split; [apply (le_refl A lt SW)|reflexivity].
    - injection E as <- <- <-. split; [exact H|]. split; [reflexivity|]. split; [intros e y He Hy; destruct (B e y He Hy)|]. split; [apply (le_refl A lt SW)|reflexivity].
  Qed.

  Lemma is_nil_map (es : list earr) : is_nil es = true -> es = [].
  Proof. destruct es; [reflexivity|discriminate]. Qed.
  Lemma refill_ok ebl waits mn mx s s' : Inn s -> eb s = [] -> refill A lt mm ebl waits mn mx s = Some s' ->
    Inn s' /\ heaps s' = heaps s /\ Permutation (inner s') (inner s) /\ (eb s' = [] -> inner s' = []) /\
    (forall x y, In x (eb s') -> In y (ints (ias s') ++ exts (eas s')) -> le lt x y) /\ length (eb s') <= (if mx =? 0 then ebl else mx).
  Proof.
    intros (_ & H2 & H3 & _) Hnil H. unfold refill in H. cbv zeta in H. set (mx' := if mx =? 0 then ebl else mx) in *.
    destruct (clean_eas_ok A lt _ H3) as (C1 & C2). destruct (clean_ias_ok A lt _ H2) as (C3 & C4 & C5).
    assert (Ein : inner s = ints (clean_ias A (ias s)) ++ exts (clean_eas A (eas s))) by (unfold Ppq.inner; now rewrite Hnil, C2, C5).
    destruct (is_nil (clean_eas A (eas s)) && is_nil (clean_ias A (ias s))) eqn:En.
    - injection H as <-. apply andb_true_iff in En. destruct En as (N1 & N2). assert (N3 : clean_eas A (eas s) = []) by (destruct (clean_eas A (eas s)); [reflexivity|discriminate]).
      assert (N4 : clean_ias A (ias s) = []) by (destruct (clean_ias A (ias s)); [reflexivity|discriminate]). rewrite Ein, N3, N4.
      split; [apply (Inn_nil A lt); constructor|]. split; [reflexivity|]. split; [constructor|]. split; [reflexivity|]. split; [intros x y []|cbn; lia].
    - destruct (fill_ok (clean_ias A (ias s)) mn waits _ C1) as (F1 & F2). set (es := fill A lt waits mn _ _) in *. pose proof (limiting_ok es F1 0) as B.
      set (lim := option_map snd (limiting A lt 0 es)) in *. set (tot := total A (map (below A lt lim) (arrays A es (clean_ias A (ias s))))) in *.
      destruct (Nat.eqb_spec (Nat.min tot mx') 0) as [|Hn]; [discriminate|].
      destruct (take A lt mm lim (Nat.min tot mx') es (clean_ias A (ias s))) as ((out, l'), es') eqn:Et. injection H as <-.
      destruct (take_ok lim _ es _ out l' es' F1 C3 B (Nat.le_min_l tot mx') Et) as (T1 & T2 & T3 & T4 & T5 & T6 & T7 & _).
      cbn [PpqModel.eb PpqModel.ias PpqModel.eas PpqModel.heaps]. split; [|split; [reflexivity|split; [|split; [|split; [exact T7|rewrite T1; apply Nat.le_min_r]]]]].
      + split; [exact T2|]. split; [exact T5|]. split; [exact T4|]. intros _. split; [exact T6|]. intros x y Hx Hy. apply (T7 x y Hx). apply in_app_iff. now right.
      + unfold Ppq.inner at 1. cbn [PpqModel.eb PpqModel.ias PpqModel.eas]. rewrite T3, Ein. unfold Ppq.exts. rewrite F2. reflexivity.
      + intros ->. cbn [length] in T1. congruence.
  Qed.
End Ppq.
