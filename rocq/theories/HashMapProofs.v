(** The operations of [HashMapModel] refine those of [HashMapSpec]. *)
From Coq Require Import List Bool Arith NArith Lia Sorting.Sorted Permutation.
From Verif Require Import OrderLib HashMapModel HashMapSpec HashMapBase HashMapStream.
Import ListNotations.

Lemma Forall2_nth_l {A B} (R : A -> B -> Prop) l1 l2 i x : Forall2 R l1 l2 -> nth_error l1 i = Some x ->
  exists y, nth_error l2 i = Some y /\ R x y.
Proof.
  intro H. revert i. induction H as [|a b l1 l2 Hab H IH]; intros [|i] Q; try discriminate.
  - injection Q as <-. exists b. split; [reflexivity|exact Hab].
  - apply IH, Q.
Qed.
Lemma Forall2_nth_r {A B} (R : A -> B -> Prop) l1 l2 i y : Forall2 R l1 l2 -> nth_error l2 i = Some y ->
  exists x, nth_error l1 i = Some x /\ R x y.
Proof.
  intro H. revert i. induction H as [|a b l1 l2 Hab H IH]; intros [|i] Q; try discriminate.
  - injection Q as <-. exists a. split; [reflexivity|exact Hab].
  - apply IH, Q.
Qed.
Lemma Forall2_len {A B} (R : A -> B -> Prop) l1 l2 : Forall2 R l1 l2 -> length l1 = length l2.
Proof. induction 1; cbn; congruence. Qed.

Lemma nth_ext' {A} (l l' : list A) : (forall i, nth_error l i = nth_error l' i) -> l = l'.
Proof.
  revert l'. induction l as [|a l IH]; intros [|b l'] H; try reflexivity; try (discriminate (H 0)).
  f_equal; [injection (H 0); auto|]. apply IH. intro i. apply (H (S i)).
Qed.

Section Refine.
  Context {K V L : Type}.
  Notation E := (K * V)%type.
  Variable hash : K -> N.
  Variable cmp : K -> K -> bool.
  Variable keqb : K -> K -> bool.
  Variable edef : E.
  Variable vdef : V.
  Variable ss spb inc : nat.
  Variable bkt : N -> nat -> nat.
  Variable nbuck : L -> N -> N.
  Variable lgt : L -> N -> nat -> bool.
  Variable maxb : N.
  Variable fits : N -> bool.
  Variable junk : nat -> nat -> E.
  Variable srt : list E -> list E.

  Notation klt := (klt hash cmp).
  Notation kleq := (kleq hash cmp).
  Notation keq := (keq cmp).
  Notation node := (@node K V).
  Notation bucket := (@bucket K V).
  Notation hv := (@hv K V).
  Notation core := (@core K V L).
  Notation BS := (spb * ss).
  Notation asc := (asc hash cmp).
  Notation alook := (@alook K V cmp).
  Notation blook := (@blook K V cmp).
  Notation nfind := (@nfind K V cmp).
  Notation wfmem := (@wfmem K V ss spb).
  Notation ext := (@ext K V ss spb).
  Notation start := (@start K V ss spb).
  Notation layout := (@layout K V ss spb).
  Notation values := (values hash cmp ss spb).
  Notation wchunks := (wchunks edef ss spb inc junk).
  Notation wmem := (wmem ss spb inc junk).
  Notation winit := (winit ss spb junk).
  Notation dist := (dist hash edef ss spb inc bkt junk).
  Notation dist2 := (dist2 hash cmp edef ss spb inc bkt junk).
  Notation take_bucket := (take_bucket hash bkt).
  Notation bmerge := (bmerge hash cmp).
  Notation hit := (hit hash cmp).
  Notation fki := (fki hash cmp).
  Notation fke := (fke hash cmp edef ss spb).
  Notation rebuild := (rebuild hash cmp edef ss spb inc bkt nbuck maxb fits junk).
  Notation bulk := (bulk hash cmp keqb edef ss spb inc bkt nbuck maxb fits junk srt).
  Notation grow := (grow hash cmp edef ss spb inc bkt nbuck maxb fits junk).
  Notation make_room := (make_room hash cmp edef ss spb inc bkt nbuck maxb fits junk).
  Notation n_new := (n_new nbuck maxb).
  Notation put_node := (put_node hash cmp).
  Notation ins_node := (ins_node hash cmp).
  Notation exec := (exec hash cmp keqb edef vdef ss spb inc bkt nbuck lgt maxb fits junk srt).
  Notation run := (run hash cmp keqb edef vdef ss spb inc bkt nbuck lgt maxb fits junk srt).
  Notation card := (@card K V keq).
  Notation sput := (@sput K V keq).
  Notation sdel := (@sdel K V keq).

  (** The requirements on the template parameters and on the arithmetic of the code. *)
  Record params_ok : Prop := {
    po_sw : strict_weak cmp;
    po_hash : forall a b, keq a b = true -> hash a = hash b;
    po_eqb : forall a b, keqb a b = keq a b;
    po_ss : 0 < ss;
    po_spb : 0 < spb;
    po_maxb : (0 < maxb)%N;
    po_bkt : forall k n, 0 < n -> fits (N.of_nat n) = true -> bkt (hash k) n < n;
    po_mono : forall k k' n, (hash k <= hash k')%N -> bkt (hash k) n <= bkt (hash k') n;
    po_srt : sorts (fun a b => klt (fst a) (fst b)) srt }.

  Hypothesis PO : params_ok.
  Let SW := po_sw PO.
  Let HH := po_hash PO.
  Let SS := po_ss PO.
  Let SP := po_spb PO.

  Definition B (n : nat) (k : K) : nat := bkt (hash k) n.
  Lemma B_keq n a b : keq a b = true -> B n a = B n b.
  Proof. intro H. unfold B. rewrite (HH _ _ H). reflexivity. Qed.
  Lemma B_klt n a b : klt a b = true -> B n a <= B n b.
  Proof.
    intro H. apply (po_mono PO). unfold HashMapModel.klt in H. apply orb_true_iff in H. destruct H as [H|H].
    - apply N.ltb_lt in H. lia.
    - apply andb_true_iff in H. destruct H as (H & _). apply N.eqb_eq in H. lia.
  Qed.
  Lemma B_lt n a b : B n a < B n b -> klt a b = true.
  Proof.
    intro H. unfold HashMapModel.klt. apply orb_true_iff. left. apply N.ltb_lt.
    destruct (N.lt_ge_cases (hash a) (hash b)) as [|G]; [assumption|]. pose proof (po_mono PO b a n G). unfold B in H. lia.
  Qed.

  (** ** Chunks of ascending values, one for every bucket *)

  Definition chunked (n i : nat) (cs : list (list E)) : Prop :=
    forall j c e, nth_error cs j = Some c -> In e c -> B n (fst e) = i + j.
  Lemma chunked_cons n i c cs : chunked n i (c :: cs) -> (forall e, In e c -> B n (fst e) = i) /\ chunked n (S i) cs.
  Proof.
    intro H. split.
    - intros e He. rewrite (H 0 c e eq_refl He). lia.
    - intros j d e Hd He. rewrite (H (S j) d e Hd He). lia.
  Qed.
  Lemma chunked_in n i cs e : chunked n i cs -> In e (concat cs) -> i <= B n (fst e).
  Proof.
    intros H He. apply in_concat in He. destruct He as (c & Hc & He). apply In_nth_error in Hc. destruct Hc as (j & Hc).
    rewrite (H j c e Hc He). lia.
  Qed.
  Lemma chunk_look n cs : forall i k, chunked n i cs -> i <= B n k ->
    alook (concat cs) k = match nth_error cs (B n k - i) with Some c => alook c k | None => None end.
  Proof.
    induction cs as [|c cs IH]; intros i k H Hi; [now destruct (B n k - i)|].
    apply chunked_cons in H. destruct H as (H1 & H2). cbn [concat]. rewrite alook_app.
    destruct (Nat.eq_dec (B n k) i) as [Q|Q].
    - rewrite Q, Nat.sub_diag. cbn [nth_error]. destruct (alook c k); [reflexivity|].
      apply alook_none. intros e He. destruct (keq (fst e) k) eqn:Z; [|reflexivity].
      pose proof (chunked_in _ _ _ _ H2 He) as G. rewrite (B_keq n _ _ Z) in G. lia.
    - rewrite (alook_none cmp c).
      + replace (B n k - i) with (S (B n k - S i)) by lia. cbn [nth_error]. apply IH; [exact H2|lia].
      + intros e He. destruct (keq (fst e) k) eqn:Z; [|reflexivity]. rewrite <- (B_keq n _ _ Z), (H1 e He) in Q. congruence.
  Qed.
  Lemma asc_chunks n cs : forall i, chunked n i cs -> Forall (fun c => asc (map fst c)) cs -> asc (map fst (concat cs)).
  Proof.
    induction cs as [|c cs IH]; intros i H F; [constructor|]. inversion F; subst. apply chunked_cons in H. destruct H as (H0 & H4).
    cbn [concat]. rewrite map_app. apply FOP_app. split; [assumption|]. split; [eapply IH; eassumption|].
    intros x y Hx Hy. apply in_map_iff in Hx, Hy. destruct Hx as (e & <- & He), Hy as (e' & <- & He').
    apply (B_lt n). rewrite (H0 e He). pose proof (chunked_in _ _ _ _ H4 He'). lia.
  Qed.
  Lemma asc_in_concat (cs : list (list E)) c : asc (map fst (concat cs)) -> In c cs -> asc (map fst c).
  Proof.
    induction cs as [|d cs IH]; [contradiction|]. cbn [concat]. rewrite map_app. intros H [<-|Hc].
    - apply FOP_app in H. apply H.
    - apply IH; [|exact Hc]. apply FOP_app in H. apply H.
  Qed.

  (** ** States *)

  Definition bok (m : list (list E)) (n i : nat) (b : bucket) : Prop :=
    asc (map nkey (blist b)) /\ asc (map fst (ext m b))
    /\ (forall x, In x (blist b) -> B n (nkey x) = i) /\ (forall e, In e (ext m b) -> B n (fst e) = i).
  Definition wf (m : list (list E)) (bs : list bucket) : Prop :=
    wfmem m /\ layout m bs /\ fits (N.of_nat (length bs)) = true
    /\ forall i b, nth_error bs i = Some b -> bok m (length bs) i b.
  Definition look (m : list (list E)) (bs : list bucket) (k : K) : option V :=
    match nth_error bs (B (length bs) k) with
    | Some b => blook (blist b) (ext m b) k
    | None => None
    end.
  Lemma look_keq m bs a b : keq a b = true -> look m bs a = look m bs b.
  Proof.
    intro H. unfold look. rewrite (B_keq _ _ _ H). destruct (nth_error bs _); [|reflexivity]. apply (blook_keq cmp SW), H.
  Qed.

  Lemma stream_ok m bs : wf m bs ->
    exists Xs, stream_buckets hash cmp ss spb m 0 bs rinit = Some (tagl 0 Xs) /\ length Xs = length bs
      /\ chunked (length bs) 0 Xs /\ asc (map fst (concat Xs))
      /\ (forall k, alook (concat Xs) k = look m bs k).
  Proof.
    intros (W & LY & _ & HB).
    destruct (values_ok hash cmp ss spb SW HH SS SP m bs W LY) as (Xs & E1 & E2).
    { rewrite Forall_forall. intros b Hb. apply In_nth_error in Hb. destruct Hb as (i & Hb).
      destruct (HB i b Hb) as (A1 & A2 & _). split; assumption. }
    exists Xs. split; [exact E1|]. pose proof (Forall2_len _ _ _ E2) as LE. split; [congruence|].
    assert (CH : chunked (length bs) 0 Xs).
    { intros j X e HX He. destruct (Forall2_nth_r _ _ _ _ _ E2 HX) as (b & Hb & (_ & _ & S3)).
      destruct (HB j b Hb) as (_ & _ & A3 & A4). destruct (S3 e He) as [(x & X1 & X2)|X1].
      - rewrite <- X2, (A3 x X1). lia.
      - rewrite (A4 e X1). lia. }
    split; [exact CH|].
    assert (AX : asc (map fst (concat Xs))).
    { apply (asc_chunks (length bs) Xs 0 CH). rewrite Forall_forall. intros X HX. apply In_nth_error in HX. destruct HX as (j & HX).
      destruct (Forall2_nth_r _ _ _ _ _ E2 HX) as (b & Hb & (S1 & _)). exact S1. }
    split; [exact AX|]. intro k. rewrite (chunk_look (length bs) Xs 0 k CH) by lia. rewrite Nat.sub_0_r. unfold look.
    destruct (nth_error bs (B (length bs) k)) as [b|] eqn:N.
    - destruct (Forall2_nth_l _ _ _ _ _ E2 N) as (X & HX & (_ & S2 & _)). rewrite HX. apply S2.
    - apply nth_error_None in N. destruct (nth_error Xs _) eqn:Q; [|reflexivity].
      exfalso. assert (Z : nth_error Xs (B (length bs) k) <> None) by congruence. apply nth_error_Some in Z. lia.
  Qed.

  (** New buckets with the given chunks. *)
  Lemma install_ok n cs : n = length cs -> fits (N.of_nat n) = true -> chunked n 0 cs -> asc (map fst (concat cs)) ->
    let y := wchunks cs winit in
    wf (wmem (snd y)) (fst y) /\ length (fst y) = n
    /\ (forall k, look (wmem (snd y)) (fst y) k = alook (concat cs) k)
    /\ tot (fst y) = N.of_nat (length (concat cs))
    /\ Forall2 (holds ss spb (wmem (snd y))) (fst y) cs.
  Proof.
    intros Hn F CH A y. destruct (written edef ss spb inc junk SS SP cs) as (W1 & W2 & W3). fold y in W1, W2, W3.
    pose proof (Forall2_len _ _ _ W3) as LN.
    assert (LN2 : length (fst y) = n) by congruence.
    split; [|split; [exact LN2|split; [|split; [|exact W3]]]].
    - split; [exact W1|]. split; [exact W2|]. rewrite LN2. split; [exact F|]. intros i b Hb.
      destruct (Forall2_nth_l _ _ _ _ _ W3 Hb) as (c & Hc & (H1 & H2 & H3)). unfold bok. rewrite H1, H3. repeat split.
      + constructor.
      + apply (asc_in_concat cs); [exact A|eapply nth_error_In, Hc].
      + contradiction.
      + intros e He. rewrite (CH i c e Hc He). lia.
    - intro k. rewrite (chunk_look n cs 0 k CH) by lia. rewrite Nat.sub_0_r. unfold look. rewrite LN2.
      destruct (nth_error (fst y) (B n k)) as [b|] eqn:N.
      + destruct (Forall2_nth_l _ _ _ _ _ W3 N) as (c & Hc & (H1 & H2 & H3)). rewrite Hc, H1, H3. reflexivity.
      + apply nth_error_None in N. rewrite LN in N. apply nth_error_None in N. rewrite N. reflexivity.
    - unfold tot. assert (G : forall bs cs t, Forall2 (holds ss spb (wmem (snd y))) bs cs ->
        fold_left (fun t (b : bucket) => (t + N.of_nat (bn b))%N) bs t = (t + N.of_nat (length (concat cs)))%N).
      { clear. intros bs ds. revert bs. induction ds as [|c ds IH]; intros bs t H; inversion H as [|b ? bs' ? Hb Hr]; subst; cbn [fold_left concat length]; [lia|].
        rewrite (IH bs' _ Hr). destruct Hb as (_ & H2 & _). rewrite app_length, H2. lia. }
      rewrite (G _ _ _ W3). reflexivity.
  Qed.

  (** ** Distributing the stream over buckets *)

  Fixpoint takes {A} (key : A -> K) (n i cnt : nat) (vs : list A) : list (list A) :=
    match cnt with
    | 0 => []
    | S cnt' => fst (take_bucket key n i vs) :: takes key n (S i) cnt' (snd (take_bucket key n i vs))
    end.
  Lemma take_ok {A} (key : A -> K) n i vs : asc (map key vs) -> (forall x, In x vs -> i <= B n (key x)) ->
    vs = fst (take_bucket key n i vs) ++ snd (take_bucket key n i vs)
    /\ (forall x, In x (fst (take_bucket key n i vs)) -> B n (key x) = i)
    /\ (forall x, In x (snd (take_bucket key n i vs)) -> S i <= B n (key x)).
  Proof.
    induction vs as [|v vs IH]; intros A1 H; [repeat split; contradiction|]. cbn [HashMapModel.take_bucket].
    cbn [map] in A1. apply asc_cons in A1. destruct A1 as (A1 & A2). fold (B n (key v)).
    destruct (Nat.eqb_spec (B n (key v)) i) as [Q|Q].
    - destruct IH as (I1 & I2 & I3); [exact A2|intros; apply H; right; assumption|]. cbn [fst snd].
      split; [cbn [app]; rewrite <- I1; reflexivity|]. split; [|exact I3]. intros x [<-|Hx]; [exact Q|apply I2, Hx].
    - cbn [fst snd app]. split; [reflexivity|]. split; [contradiction|].
      assert (G : S i <= B n (key v)) by (pose proof (H v (or_introl eq_refl)); lia).
      intros x [<-|Hx]; [exact G|]. pose proof (B_klt n _ _ (A1 _ (in_map key _ _ Hx))). lia.
  Qed.
  Lemma takes_ok {A} (key : A -> K) n cnt : forall i vs, asc (map key vs) ->
    (forall x, In x vs -> i <= B n (key x) < i + cnt) ->
    concat (takes key n i cnt vs) = vs /\ length (takes key n i cnt vs) = cnt
    /\ forall j T x, nth_error (takes key n i cnt vs) j = Some T -> In x T -> B n (key x) = i + j.
  Proof.
    induction cnt as [|cnt IH]; intros i vs A1 H.
    - destruct vs as [|v vs]; [|exfalso; pose proof (H v (or_introl eq_refl)); lia]. repeat split. intros [|j] T x Q; discriminate.
    - cbn [takes]. destruct (take_ok key n i vs A1) as (T1 & T2 & T3); [intros x Hx; apply H, Hx|].
      set (t1 := fst (take_bucket key n i vs)) in *. set (t2 := snd (take_bucket key n i vs)) in *.
      rewrite T1 in A1. rewrite map_app in A1. apply FOP_app in A1. destruct A1 as (_ & A2 & _).
      destruct (IH (S i) t2 A2) as (I1 & I2 & I3).
      { intros x Hx. split; [apply T3, Hx|]. assert (In x vs) by (rewrite T1; apply in_or_app; right; exact Hx).
        pose proof (H x H0). lia. }
      cbn [concat length]. split; [rewrite I1; symmetry; exact T1|]. split; [rewrite I2; reflexivity|].
      intros [|j] T x Q Hx; cbn [nth_error] in Q.
      + injection Q as <-. rewrite (T2 x Hx). lia.
      + rewrite (I3 j T x Q Hx). lia.
  Qed.

  Fixpoint tevs (i : nat) (T : list (list hv)) : list (@ev K) :=
    match T with [] => [] | X :: T' => fix_ext i 0 X ++ tevs (S i) T' end.
  Lemma dist_eq n cnt : forall i vs w,
    dist n i cnt vs w = (fst (wchunks (map (map hval) (takes hkey n i cnt vs)) w),
                         snd (wchunks (map (map hval) (takes hkey n i cnt vs)) w),
                         tevs i (takes hkey n i cnt vs)).
  Proof.
    induction cnt as [|cnt IH]; intros i vs w; [reflexivity|].
    cbn [HashMapModel.dist takes map HashMapStream.wchunks tevs]. cbv zeta. rewrite IH. cbn [fst snd]. rewrite map_length. reflexivity.
  Qed.

  Lemma N2n (n : N) : fits n = true -> fits (N.of_nat (N.to_nat n)) = true.
  Proof. rewrite N2Nat.id. auto. Qed.
  Lemma B_range n k : fits n = true -> (0 < n)%N -> B (N.to_nat n) k < N.to_nat n.
  Proof. intros F H. apply (po_bkt PO); [lia|apply N2n, F]. Qed.

  (** What a rebuild does; the events tell where every value went. *)
  Definition moved (m : list (list E)) (bs : list bucket) (Xs : list (list E)) (evs : list (@ev K)) : Prop :=
    exists T, evs = tevs 0 T /\ concat T = tagl 0 Xs
      /\ forall i j X h, nth_error T i = Some X -> nth_error X j = Some h ->
           i = B (length bs) (hkey h)
           /\ exists b, nth_error bs i = Some b /\ blist b = [] /\ nth_error (ext m b) j = Some (hval h).

  Lemma rebuild_ok c nd : wf (mem c) (bks c) -> fits (n_new c nd) = true ->
    ((0 < n_new c nd)%N \/ forall k, look (mem c) (bks c) k = None) ->
    exists c' evs Xs, rebuild c nd = Some (c', evs) /\ wf (mem c') (bks c')
      /\ (forall k, look (mem c') (bks c') k = look (mem c) (bks c) k)
      /\ length (bks c') = N.to_nat (n_new c nd)
      /\ chunked (length (bks c)) 0 Xs /\ asc (map fst (concat Xs))
      /\ (forall k, alook (concat Xs) k = look (mem c) (bks c) k)
      /\ ntot c' = N.of_nat (length (concat Xs)) /\ obl c' = false /\ bufsz c' = 0
      /\ maxbuf c' = maxbuf c /\ lf c' = lf c /\ moved (mem c') (bks c') Xs evs.
  Proof.
    intros W F Z. destruct (stream_ok _ _ W) as (Xs & E1 & E2 & E3 & E4 & E5).
    unfold HashMapModel.rebuild. rewrite F. unfold HashMapModel.values. rewrite E1.
    set (n := N.to_nat (n_new c nd)). rewrite dist_eq. cbn [fst snd].
    assert (VK : map hkey (tagl 0 Xs) = map fst (concat Xs)).
    { rewrite <- (tagl_hval 0 Xs), map_map. reflexivity. }
    assert (RG : forall x, In x (tagl 0 Xs) -> 0 <= B n (hkey x) < 0 + n).
    { intros x Hx. destruct Z as [Z|Z]; [split; [lia|apply B_range; assumption]|].
      exfalso. apply (in_map hval) in Hx. rewrite tagl_hval in Hx.
      pose proof (alook_in hash cmp SW HH _ _ (fst (hval x)) E4 Hx (keq_refl cmp SW _)) as Q. rewrite E5, Z in Q. discriminate. }
    destruct (takes_ok hkey n n 0 (tagl 0 Xs)) as (T1 & T2 & T3); [rewrite VK; exact E4|exact RG|].
    set (T := takes hkey n 0 n (tagl 0 Xs)) in *. set (cs := map (map hval) T) in *.
    assert (CC : concat cs = concat Xs).
    { unfold cs. rewrite <- concat_map, T1. apply tagl_hval. }
    destruct (install_ok n cs) as (I1 & I2 & I3 & I4 & I5).
    { unfold cs. rewrite map_length. congruence. }
    { apply N2n, F. }
    { intros j c0 e Hc He. unfold cs in Hc. rewrite nth_error_map in Hc. destruct (nth_error T j) as [X|] eqn:NT; [|discriminate].
      injection Hc as <-. apply in_map_iff in He. destruct He as (h & <- & Hh). apply (T3 j X h NT Hh). }
    { rewrite CC. exact E4. }
    eexists _, _, Xs. split; [reflexivity|]. cbn [mem bks ntot obl bufsz maxbuf lf].
    split; [exact I1|]. split; [intro k; rewrite I3, CC; apply E5|]. split; [exact I2|]. split; [exact E3|]. split; [exact E4|].
    split; [exact E5|]. split; [rewrite I4, CC; reflexivity|]. do 4 (split; [reflexivity|]).
    exists T. split; [reflexivity|]. split; [exact T1|]. intros i j X h HX Hh.
    rewrite I2. split; [symmetry; apply (T3 i X h HX); eapply nth_error_In, Hh|].
    assert (HC : nth_error cs i = Some (map hval X)) by (unfold cs; rewrite nth_error_map, HX; reflexivity).
    destruct (Forall2_nth_r _ _ _ _ _ I5 HC) as (b & Hb & (H1 & _ & H3)). exists b. split; [exact Hb|]. split; [exact H1|].
    rewrite H3, nth_error_map, Hh. reflexivity.
  Qed.

  (** ** Counting *)

  Lemma card_asc (l : list E) (m : smap) : asc (map fst l) -> (forall k, alook l k = m k) -> card m (length l).
  Proof.
    intros A H. exists (map fst l). split; [apply map_length|]. split.
    - eapply ForallOrdPairs_ind with (P := fun l => ForallOrdPairs (fun a b => keq a b = false) l); [constructor| |exact A].
      intros a l0 F _ IH. constructor; [|exact IH]. eapply Forall_impl; [|exact F]. intros b Hb. apply (klt_neq hash cmp HH), Hb.
    - intro k. rewrite <- H. split.
      + intro Q. destruct (alook l k) as [v|] eqn:Al; [|congruence]. apply alook_some in Al. destruct Al as (e & H1 & H2 & _).
        exists (fst e). split; [apply in_map, H1|exact H2].
      + intros (k' & H1 & H2). apply in_map_iff in H1. destruct H1 as (e & <- & He).
        rewrite (alook_in hash cmp SW HH _ _ _ A He H2). discriminate.
  Qed.
  Lemma card_eq (m m' : @smap K V) n : (forall k, m k = m' k) -> card m n -> card m' n.
  Proof. intros H (l & H1 & H2 & H3). exists l. split; [exact H1|]. split; [exact H2|]. intro k. rewrite <- H. apply H3. Qed.
  Lemma card_same (m m' : @smap K V) n : (forall k, m k = None <-> m' k = None) -> card m n -> card m' n.
  Proof.
    intros H (l & H1 & H2 & H3). exists l. split; [exact H1|]. split; [exact H2|]. intro k. rewrite <- H3. specialize (H k).
    destruct (m k), (m' k); intuition congruence.
  Qed.
  Lemma card_put (m : smap) k v n : m k = None -> card m n -> card (sput m k v) (S n).
  Proof.
    intros Hk (l & H1 & H2 & H3). exists (k :: l). split; [cbn; congruence|]. split.
    - constructor; [|exact H2]. rewrite Forall_forall. intros x Hx. destruct (keq k x) eqn:Q; [|reflexivity].
      exfalso. apply (proj2 (H3 k)); [|exact Hk]. exists x. split; [exact Hx|]. rewrite keq_sym. exact Q.
    - intro k'. unfold HashMapSpec.sput. destruct (keq k k') eqn:Q.
      + split; [intros _; exists k; split; [left; reflexivity|exact Q]|discriminate].
      + rewrite H3. split; intros (x & X1 & X2).
        * exists x. split; [right; exact X1|exact X2].
        * destruct X1 as [<-|X1]; [congruence|]. exists x. split; assumption.
  Qed.
  Lemma card_put_same (m : smap) k v n : proper keq m -> m k <> None -> card m n -> card (sput m k v) n.
  Proof.
    intros P Hk. apply card_same. intro k'. unfold HashMapSpec.sput. destruct (keq k k') eqn:Q; [|reflexivity].
    rewrite <- (P _ _ Q). split; congruence.
  Qed.
  Lemma card_del (m : smap) k n : proper keq m -> m k <> None -> card m n -> exists n', n = S n' /\ card (sdel m k) n'.
  Proof.
    intros P Hk (l & H1 & H2 & H3). destruct (proj1 (H3 k) Hk) as (x & X1 & X2).
    apply in_split in X1. destruct X1 as (l1 & l2 & ->). exists (length (l1 ++ l2)). rewrite !app_length in *. cbn [length] in H1.
    split; [lia|]. apply FOP_app in H2. destruct H2 as (A1 & A2 & A3). inversion A2 as [|? ? A4 A5]; subst.
    exists (l1 ++ l2). split; [apply app_length|]. split.
    - apply FOP_app. split; [exact A1|]. split; [exact A5|]. intros a b Ha Hb. apply A3; [exact Ha|right; exact Hb].
    - intro k'. unfold HashMapSpec.sdel. destruct (keq k k') eqn:Q.
      + split; [congruence|]. intros (y & Y1 & Y2). exfalso.
        assert (XY : keq x y = true).
        { eapply (keq_trans cmp SW); [exact X2|]. eapply (keq_trans cmp SW); [exact Q|]. rewrite keq_sym. exact Y2. }
        apply in_app_or in Y1. destruct Y1 as [Y1|Y1].
        * pose proof (A3 y x Y1 (or_introl eq_refl)) as Z. rewrite keq_sym in Z. congruence.
        * rewrite Forall_forall in A4. rewrite (A4 y Y1) in XY. discriminate.
      + rewrite H3. split; intros (y & Y1 & Y2); exists y; (split; [|exact Y2]).
        * apply in_app_or in Y1. apply in_or_app. destruct Y1 as [Y1|[<-|Y1]]; [left; exact Y1| |right; exact Y1].
          exfalso. rewrite keq_sym in X2. rewrite (keq_trans cmp SW _ _ _ X2 Y2) in Q. discriminate.
        * apply in_app_or in Y1. apply in_or_app. destruct Y1 as [Y1|Y1]; [left; exact Y1|right; right; exact Y1].
  Qed.
  Lemma card_del_none (m : smap) k n : proper keq m -> m k = None -> card m n -> card (sdel m k) n.
  Proof.
    intros P Hk. apply card_same. intro k'. unfold HashMapSpec.sdel. destruct (keq k k') eqn:Q; [|reflexivity].
    rewrite <- (P _ _ Q). tauto.
  Qed.
  Lemma card_uniq (m : @smap K V) a b : card m a -> card m b -> a = b.
  Proof.
    assert (G : forall a b, card m a -> card m b -> a <= b).
    { intros a0 b0 (l & H1 & H2 & H3) (l' & H1' & H2' & H3'). subst a0 b0.
      assert (I : forall x, In x l -> exists y, In y l' /\ keq y x = true).
      { intros x Hx. apply H3'. apply H3. exists x. split; [exact Hx|apply (keq_refl cmp SW)]. }
      clear - H2 I SW. revert l' I. induction H2 as [|x l HF HP IH]; intros l' I; [cbn; lia|].
      destruct (I x (or_introl eq_refl)) as (y & Y1 & Y2). apply in_split in Y1. destruct Y1 as (l1 & l2 & ->).
      assert (Q : length l <= length (l1 ++ l2)).
      { apply IH. intros z Hz. destruct (I z (or_intror Hz)) as (t & T1 & T2). apply in_app_or in T1.
        destruct T1 as [T1|[<-|T1]].
        - exists t. split; [apply in_or_app; left; exact T1|exact T2].
        - exfalso. rewrite Forall_forall in HF. rewrite keq_sym in Y2. pose proof (HF z Hz) as Q1.
          pose proof (keq_trans cmp SW _ _ _ Y2 T2). congruence.
        - exists t. split; [apply in_or_app; right; exact T1|exact T2]. }
      rewrite app_length in *. cbn [length]. lia. }
    intros A1 A2. pose proof (G _ _ A1 A2). pose proof (G _ _ A2 A1). lia.
  Qed.
  Lemma card_0 : card (@sempty K V) 0.
  Proof.
    exists []. split; [reflexivity|]. split; [constructor|]. intro k. unfold sempty.
    split; [congruence|]. intros (x & [] & _).
  Qed.

  (** ** Looking into a bucket *)

  Definition nlive (n : node) : option V := if ndel n then None else Some (snd (nval n)).

  Lemma fetch_ok m bs k : wf m bs -> bs <> [] ->
    exists b, nth_error bs (B (length bs) k) = Some b /\ bok m (length bs) (B (length bs) k) b
      /\ ((exists n, hit (blist b) k = Some n /\ keq (nkey n) k = true /\ look m bs k = nlive n)
          \/ (hit (blist b) k = None /\ nfind (blist b) k = None /\ exists r, fke m b k = Some r
              /\ ((fke_hit cmp b k r = true /\ look m bs k = Some (snd (snd r))
                   /\ nth_error (ext m b) (fst r) = Some (snd r) /\ keq (fst (snd r)) k = true)
                  \/ (fke_hit cmp b k r = false /\ look m bs k = None)))).
  Proof.
    intros (W & LY & F & HB) NE.
    assert (LT : B (length bs) k < length bs).
    { apply (po_bkt PO); [|exact F]. destruct bs; [congruence|cbn; lia]. }
    destruct (nth_error bs (B (length bs) k)) as [b|] eqn:NB; [|apply nth_error_None in NB; lia].
    pose proof (HB _ _ NB) as BO. exists b. split; [reflexivity|]. split; [exact BO|]. destruct BO as (A1 & A2 & _).
    assert (LK : look m bs k = blook (blist b) (ext m b) k) by (unfold look; rewrite NB; reflexivity).
    pose proof (hit_nfind hash cmp SW HH (blist b) k A1) as HN. unfold HashMapBase.blook in LK.
    destruct (hit (blist b) k) as [n|] eqn:Q.
    - left. exists n. split; [reflexivity|]. rewrite <- HN in LK. split; [|exact LK].
      symmetry in HN. apply find_some in HN. apply HN.
    - right. split; [reflexivity|]. split; [congruence|]. rewrite <- HN in LK.
      destruct (fke_ok hash cmp ss spb SW HH SS SP edef m bs _ b k W LY NB A2) as (r & R1 & R2). exists r. split; [exact R1|].
      destruct (fke_hit_spec hash cmp ss spb SW HH SS SP edef b (ext m b) k r) as [(H1 & H2 & H3 & H4)|(H1 & H2)].
      + eapply (layout_len ss spb SS SP); eassumption.
      + exact A2.
      + exact R2.
      + left. rewrite LK. tauto.
      + right. rewrite LK. tauto.
  Qed.

  (** ** Changing a chain *)

  Lemma layout_lset m bs i b b' : layout m bs -> nth_error bs i = Some b ->
    bn b' = bn b -> bblk b' = bblk b -> bsub b' = bsub b -> layout m (lset bs i b').
  Proof.
    intros LY NB E1 E2 E3. destruct (lset_split _ _ _ NB) as (l1 & l2 & -> & <-). rewrite lset_app.
    assert (ST : start b' = start b) by (unfold HashMapBase.start; rewrite E2, E3; reflexivity).
    destruct m as [|x m].
    - cbn [HashMapBase.layout] in *. rewrite Forall_app in *. destruct LY as (Y1 & Y2). split; [exact Y1|]. inversion Y2; subst.
      constructor; [congruence|assumption].
    - cbn [HashMapBase.layout] in *. destruct LY as (Y1 & Y2). split.
      + clear Y2 NB. revert Y1. generalize 0 as p. induction l1 as [|a l1 IH]; intros p Y1; cbn [app lay] in *.
        * rewrite ST, E1, E3. exact Y1.
        * destruct Y1 as (Z1 & Z2 & Z3 & Z4). repeat split; try assumption. apply IH, Z4.
      + destruct l1; cbn [app] in *; [congruence|exact Y2].
  Qed.

  Lemma upd_ok m bs i b l' : wf m bs -> nth_error bs i = Some b -> asc (map nkey l') ->
    (forall x, In x l' -> B (length bs) (nkey x) = i) ->
    let bs' := lset bs i (set_list b l') in
    wf m bs' /\ length bs' = length bs /\ nth_error bs' i = Some (set_list b l')
    /\ forall k, look m bs' k = if B (length bs) k =? i then blook l' (ext m b) k else look m bs k.
  Proof.
    intros (W & LY & F & HB) NB A1 A2 bs'.
    assert (LI : i < length bs) by (apply nth_error_Some; congruence).
    assert (LN : length bs' = length bs) by (apply lset_length, LI).
    split; [|split; [exact LN|split]].
    - split; [exact W|]. split; [eapply layout_lset; [exact LY|exact NB|reflexivity..]|]. rewrite LN. split; [exact F|].
      intros j x Hx. unfold bs' in Hx. rewrite nth_lset in Hx by exact LI. destruct (Nat.eqb_spec j i) as [Q|Q]; [|apply HB, Hx].
      injection Hx as <-. subst j. destruct (HB _ _ NB) as (_ & B2 & _ & B4). repeat split; assumption.
    - unfold bs'. rewrite nth_lset, Nat.eqb_refl by exact LI. reflexivity.
    - intro k. unfold look. rewrite LN. unfold bs'. rewrite nth_lset by exact LI.
      destruct (Nat.eqb_spec (B (length bs) k) i) as [Q|Q]; reflexivity.
  Qed.

  Definition has (m : list (list E)) (bs : list bucket) (k : K) (n : node) : Prop :=
    exists b, nth_error bs (B (length bs) k) = Some b /\ hit (blist b) k = Some n.

  Lemma put_ok m bs k b n n' : wf m bs -> nth_error bs (B (length bs) k) = Some b -> hit (blist b) k = Some n ->
    keq (nkey n') k = true ->
    let bs' := lset bs (B (length bs) k) (set_list b (lset (blist b) (fki (blist b) k - 1) n')) in
    wf m bs' /\ length bs' = length bs /\ has m bs' k n'
    /\ (forall k', look m bs' k' = if keq k k' then nlive n' else look m bs k').
  Proof.
    intros W NB H Hk bs'. pose proof W as (_ & _ & _ & HB). destruct (HB _ _ NB) as (A1 & A2 & A3 & A4).
    destruct (chain_put hash cmp SW HH (blist b) k n n' A1 H Hk) as (C1 & C2 & C3 & C4 & C5).
    set (l' := lset (blist b) (fki (blist b) k - 1) n') in *.
    destruct (upd_ok m bs _ b l' W NB C1) as (U1 & U2 & U3 & U4).
    { intros x Hx. destruct (C3 x Hx) as [->|Hx']; [apply B_keq, Hk|apply A3, Hx']. }
    fold bs' in U1, U2, U3, U4. split; [exact U1|]. split; [exact U2|]. split.
    - exists (set_list b l'). rewrite U2. split; [exact U3|]. cbn [blist set_list]. rewrite (hit_nfind hash cmp SW HH l' k C1), C2, (keq_refl cmp SW). reflexivity.
    - intro k'. rewrite U4. destruct (Nat.eqb_spec (B (length bs) k') (B (length bs) k)) as [Q|Q].
      + unfold HashMapBase.blook. rewrite C2. destruct (keq k k'); [reflexivity|]. unfold look. rewrite Q, NB. reflexivity.
      + destruct (keq k k') eqn:Z; [|reflexivity]. apply (B_keq (length bs)) in Z. congruence.
  Qed.
  Lemma ins_ok m bs k b n' : wf m bs -> nth_error bs (B (length bs) k) = Some b -> hit (blist b) k = None ->
    keq (nkey n') k = true ->
    let bs' := lset bs (B (length bs) k) (set_list b (lins (blist b) (fki (blist b) k) n')) in
    wf m bs' /\ length bs' = length bs /\ has m bs' k n'
    /\ (forall k', look m bs' k' = if keq k k' then nlive n' else look m bs k').
  Proof.
    intros W NB H Hk bs'. pose proof W as (_ & _ & _ & HB). destruct (HB _ _ NB) as (A1 & A2 & A3 & A4).
    destruct (chain_ins hash cmp SW HH (blist b) k n' A1 H Hk) as (C1 & C2 & C3 & C4).
    set (l' := lins (blist b) (fki (blist b) k) n') in *.
    destruct (upd_ok m bs _ b l' W NB C1) as (U1 & U2 & U3 & U4).
    { intros x Hx. destruct (C3 x Hx) as [->|Hx']; [apply B_keq, Hk|apply A3, Hx']. }
    fold bs' in U1, U2, U3, U4. split; [exact U1|]. split; [exact U2|]. split.
    - exists (set_list b l'). rewrite U2. split; [exact U3|]. cbn [blist set_list]. rewrite (hit_nfind hash cmp SW HH l' k C1), C2, (keq_refl cmp SW). reflexivity.
    - intro k'. rewrite U4. destruct (Nat.eqb_spec (B (length bs) k') (B (length bs) k)) as [Q|Q].
      + unfold HashMapBase.blook. rewrite C2. destruct (keq k k'); [reflexivity|]. unfold look. rewrite Q, NB. reflexivity.
      + destruct (keq k k') eqn:Z; [|reflexivity]. apply (B_keq (length bs)) in Z. congruence.
  Qed.

  (** ** Through iterators *)

  (** The iterator refers to the value with key [k]. *)
  Definition points (c : core) (it : itspec) (k : K) : Prop :=
    is_b it = B (length (bks c)) k /\
    match is_src it with
    | Internal => exists k' n, is_node it = Some k' /\ keq k' k = true /\ has (mem c) (bks c) k n /\ ndel n = false
    | _ => exists b e, nth_error (bks c) (is_b it) = Some b /\ nfind (blist b) k = None
             /\ nth_error (ext (mem c) b) (is_ext it) = Some e /\ keq (fst e) k = true
    end.

  Lemma has_keq m bs k k' n : keq k k' = true -> wf m bs -> has m bs k n -> has m bs k' n.
  Proof.
    intros Q (_ & _ & _ & HB) (b & H1 & H2). exists b. rewrite <- (B_keq _ _ _ Q). split; [exact H1|].
    destruct (HB _ _ H1) as (A1 & _).
    rewrite (hit_nfind hash cmp SW HH _ k A1) in H2. rewrite (hit_nfind hash cmp SW HH _ k' A1). rewrite <- (nfind_keq cmp SW (blist b) k k' Q). exact H2.
  Qed.
  Lemma has_look m bs k n : wf m bs -> has m bs k n -> keq (nkey n) k = true /\ look m bs k = nlive n.
  Proof.
    intros (_ & _ & _ & HB) (b & H1 & H2). destruct (HB _ _ H1) as (A1 & _).
    rewrite (hit_nfind hash cmp SW HH _ _ A1) in H2. unfold look. rewrite H1. unfold HashMapBase.blook. rewrite H2.
    split; [|reflexivity]. apply find_some in H2. apply H2.
  Qed.

  Lemma it_pos_ok (c : core) b i ie e : wf (mem c) (bks c) -> nth_error (bks c) i = Some b -> nth_error (ext (mem c) b) ie = Some e ->
    let p := it_pos ss spb c b ie in
    ie < bn b /\ snd p < BS /\ pos ss spb p = start b + ie /\ fst p < length (mem c)
    /\ nth_error (concat (mem c)) (start b + ie) = Some e.
  Proof.
    intros (W & LY & _ & _) NB NE p.
    pose proof (layout_len ss spb SS SP (mem c) (bks c) i b LY NB) as LL.
    assert (LT : ie < bn b) by (rewrite <- LL; apply nth_error_Some; congruence).
    rewrite ext_nth in NE by exact LT.
    destruct (layout_nth ss spb SS SP (mem c) (bks c) i b LY NB) as [Z|(Z1 & Z2)]; [lia|].
    destruct (riter_ok ss spb SS SP (mem c) (bblk b, bsub b * ss) ie W) as (R1 & R2).
    - cbn [snd]. apply Nat.mul_lt_mono_pos_r; assumption.
    - unfold HashMapBase.pos. cbn [fst snd]. unfold HashMapBase.start in Z2. lia.
    - fold (it_pos ss spb c b ie) in R1, R2. fold p in R1, R2.
      assert (PE : pos ss spb p = start b + ie) by (rewrite R1; reflexivity).
      split; [exact LT|]. split; [exact R2|]. split; [exact PE|]. split; [|exact NE].
      apply (pos_lt ss spb SS SP (mem c) p W R2). rewrite PE. lia.
  Qed.

  Lemma deref_ok (c : core) it k : wf (mem c) (bks c) -> points c it k ->
    exists e, deref hash cmp ss spb c it = Some e /\ keq (fst e) k = true /\ look (mem c) (bks c) k = Some (snd e).
  Proof.
    intros W (PB & P). unfold deref. destruct (is_src it) eqn:SR.
    - destruct P as (k' & n & P1 & P2 & P3 & P4). destruct (has_look _ _ _ _ W P3) as (HK & HL).
      rewrite keq_sym in P2. destruct (has_keq _ _ _ _ _ P2 W P3) as (b & B1 & B2).
      rewrite PB, (B_keq _ _ _ P2), B1, P1, B2. exists (nval n). split; [reflexivity|]. split; [exact HK|].
      rewrite HL. unfold nlive. rewrite P4. reflexivity.
    - destruct P as (b & e & P1 & P2 & P3 & P4). rewrite P1.
      destruct (it_pos_ok c b _ _ e W P1 P3) as (Q1 & Q2 & Q3 & Q4 & Q5). exists e.
      split; [rewrite (rvalue_ok ss spb SS SP (mem c) _ (proj1 W) Q2), Q3; exact Q5|]. split; [exact P4|].
      unfold look. rewrite <- PB, P1. unfold HashMapBase.blook. rewrite P2. destruct W as (_ & _ & _ & HB).
      destruct (HB _ _ P1) as (_ & A2 & _). eapply (alook_nth hash cmp SW HH); eassumption.
    - destruct P as (b & e & P1 & P2 & P3 & P4). rewrite P1.
      destruct (it_pos_ok c b _ _ e W P1 P3) as (Q1 & Q2 & Q3 & Q4 & Q5). exists e.
      split; [rewrite (rvalue_ok ss spb SS SP (mem c) _ (proj1 W) Q2), Q3; exact Q5|]. split; [exact P4|].
      unfold look. rewrite <- PB, P1. unfold HashMapBase.blook. rewrite P2. destruct W as (_ & _ & _ & HB).
      destruct (HB _ _ P1) as (_ & A2 & _). eapply (alook_nth hash cmp SW HH); eassumption.
  Qed.

  Lemma lset_concat (m : list (list E)) p q blk e : wfmem m -> nth_error m p = Some blk -> q < BS ->
    concat (lset m p (lset blk q e)) = lset (concat m) (p * BS + q) e /\ wfmem (lset m p (lset blk q e)).
  Proof.
    intros W NP Q. destruct (lset_split _ _ _ NP) as (l1 & l2 & -> & <-). rewrite lset_app.
    unfold HashMapBase.wfmem in W. rewrite Forall_app in W. destruct W as (W1 & W2). inversion W2 as [|? ? W3 W4]; subst.
    split.
    - destruct (nth_error blk q) as [x|] eqn:NQ; [|apply nth_error_None in NQ; lia].
      destruct (lset_split _ _ _ NQ) as (b1 & b2 & -> & <-). rewrite lset_app, !concat_app. cbn [concat]. rewrite <- !app_assoc. cbn [app].
      rewrite !app_assoc.
      replace (length l1 * BS + length b1) with (length (concat l1 ++ b1)); [rewrite lset_app; reflexivity|].
      rewrite app_length. f_equal. apply (concat_len ss spb SS SP). exact W1.
    - apply Forall_app. split; [exact W1|]. constructor; [|exact W4]. rewrite lset_length; lia.
  Qed.

  Lemma assign_ext_ok m bs i b j e v p q blk : wf m bs -> nth_error bs i = Some b -> nth_error (ext m b) j = Some e ->
    nth_error m p = Some blk -> q < BS -> p * BS + q = start b + j ->
    let m' := lset m p (lset blk q (fst e, v)) in
    wf m' bs /\ (forall k, look m' bs k =
                   if (B (length bs) k =? i) && negb (match nfind (blist b) k with Some _ => true | None => false end) && keq (fst e) k
                   then Some v else look m bs k).
  Proof.
    intros (W & LY & F & HB) NB NE NP HQ HP m'.
    destruct (lset_concat m p q blk (fst e, v) W NP HQ) as (C1 & C2). fold m' in C1, C2. rewrite HP in C1. clearbody m'.
    pose proof (layout_len ss spb SS SP m bs i b LY NB) as LL.
    assert (LT : j < bn b) by (rewrite <- LL; apply nth_error_Some; congruence).
    assert (NE2 : nth_error (concat m) (start b + j) = Some e) by (rewrite <- NE, ext_nth by exact LT; reflexivity).
    assert (LC : start b + j < length (concat m)) by (apply nth_error_Some; congruence).
    assert (LEN : length (concat m') = length (concat m)) by (rewrite C1; apply lset_length, LC).
    assert (MF : map fst (concat m') = map fst (concat m)).
    { rewrite C1. destruct (lset_split _ _ _ NE2) as (l1 & l2 & E1 & E2). rewrite <- E2, E1, lset_app, !map_app. reflexivity. }
    assert (EF : forall b', map fst (ext m' b') = map fst (ext m b')).
    { intro b'. unfold HashMapBase.ext. rewrite <- !firstn_map, <- !skipn_map, MF. reflexivity. }
    assert (EIN : forall b', ~ (start b' <= start b + j < start b' + bn b') -> ext m' b' = ext m b').
    { intros b' N. apply nth_ext'. intro t. destruct (Nat.lt_ge_cases t (bn b')) as [Lt|Ge].
      - rewrite !ext_nth, C1, nth_lset by assumption. destruct (Nat.eqb_spec (start b' + t) (start b + j)); [lia|reflexivity].
      - transitivity (@None E); [|symmetry]; apply nth_error_None; unfold HashMapBase.ext; rewrite firstn_length; lia. }
    assert (W' : wf m' bs).
    { split; [exact C2|]. split.
      - unfold HashMapBase.layout in *. destruct m as [|x m0]; [exfalso; cbn in LC; lia|].
        destruct m' as [|y m1]; [exfalso; rewrite <- LEN in LC; cbn in LC; lia|]. rewrite LEN. exact LY.
      - split; [exact F|]. intros i' b' Hb'. destruct (HB i' b' Hb') as (A1 & A2 & A3 & A4). unfold bok. rewrite EF.
        split; [exact A1|]. split; [exact A2|]. split; [exact A3|]. intros x Hx. apply (in_map fst) in Hx. rewrite EF in Hx.
        apply in_map_iff in Hx. destruct Hx as (y & <- & Hy). apply A4, Hy. }
    split; [exact W'|].
    destruct (HB i b NB) as (A1 & A2 & A3 & A4).
    assert (EX : ext m' b = lset (ext m b) j (fst e, v)).
    { apply nth_ext'. intro t. assert (LJ : j < length (ext m b)) by (rewrite LL; exact LT). rewrite nth_lset by exact LJ.
      destruct (Nat.lt_ge_cases t (bn b)) as [Lt|Ge].
      - rewrite !ext_nth, C1, nth_lset by assumption. destruct (Nat.eqb_spec t j) as [Q|Q].
        + subst. rewrite Nat.eqb_refl. reflexivity.
        + destruct (Nat.eqb_spec (start b + t) (start b + j)); [lia|reflexivity].
      - destruct (Nat.eqb_spec t j); [lia|]. transitivity (@None E); [|symmetry]; apply nth_error_None; unfold HashMapBase.ext; rewrite firstn_length; lia. }
    intro k. unfold look. destruct (Nat.eqb_spec (B (length bs) k) i) as [Q|Q].
    - rewrite Q, NB. unfold HashMapBase.blook. destruct (nfind (blist b) k); [reflexivity|]. cbn [andb negb].
      rewrite EX. destruct (lset_split _ _ _ NE) as (l1 & l2 & E1 & E2). rewrite <- E2, E1, lset_app, !alook_app, !alook_cons. cbn [fst snd].
      destruct (keq (fst e) k) eqn:Z; [|reflexivity].
      rewrite (alook_none cmp l1); [reflexivity|]. intros x Hx. rewrite E1 in A2. rewrite map_app in A2. apply FOP_app in A2.
      destruct A2 as (_ & _ & A2). rewrite <- (keq_r cmp SW _ _ (fst x) Z). apply (klt_neq hash cmp HH). apply A2; [apply in_map, Hx|left; reflexivity].
    - cbn [andb]. destruct (nth_error bs (B (length bs) k)) as [b'|] eqn:NB'; [|reflexivity]. rewrite EIN; [reflexivity|].
      intros (G1 & G2). destruct (HB _ _ NB') as (_ & _ & _ & D4). apply Q. symmetry. rewrite <- (A4 e); [|eapply nth_error_In, NE].
      apply D4. apply (nth_error_In _ (start b + j - start b')). rewrite ext_nth by lia.
      replace (start b' + (start b + j - start b')) with (start b + j) by lia. exact NE2.
  Qed.

  Lemma assign_ok (c : core) it k v : wf (mem c) (bks c) -> points c it k ->
    exists c', assign hash cmp ss spb c it v = Some c' /\ wf (mem c') (bks c') /\ length (bks c') = length (bks c)
      /\ (forall k', look (mem c') (bks c') k' = if keq k k' then Some v else look (mem c) (bks c) k')
      /\ bufsz c' = bufsz c /\ maxbuf c' = maxbuf c /\ obl c' = obl c /\ ntot c' = ntot c /\ lf c' = lf c.
  Proof.
    intros W (PB & P). unfold assign. destruct (is_src it) eqn:SR.
    - destruct P as (k' & n & P1 & P2 & P3 & P4). destruct (has_look _ _ _ _ W P3) as (HK & HL).
      rewrite keq_sym in P2. destruct (has_keq _ _ _ _ _ P2 W P3) as (b & B1 & B2).
      rewrite PB, (B_keq _ _ _ P2), B1, P1, B2.
      assert (HK' : keq (nkey n) k' = true) by (eapply (keq_trans cmp SW); eassumption).
      destruct (put_ok (mem c) (bks c) k' b n {| nval := (nkey n, v); ndel := ndel n |} W B1 B2 HK') as (U1 & U2 & U3 & U4).
      eexists. split; [reflexivity|]. cbn [mem bks bufsz maxbuf obl ntot lf HashMapModel.put_node upd_bucket set_bks].
      split; [exact U1|]. split; [exact U2|]. split; [|repeat split].
      intro t. rewrite U4. rewrite (keq_l cmp SW _ _ t P2). unfold nlive. cbn [ndel nval snd]. rewrite P4. reflexivity.
    - destruct P as (b & e & P1 & P2 & P3 & P4). rewrite P1.
      destruct (it_pos_ok c b _ _ e W P1 P3) as (Q1 & Q2 & Q3 & Q4 & Q5).
      set (p := it_pos ss spb c b (is_ext it)) in *.
      pose proof (flat_nth ss spb SS SP (mem c) (fst p) (snd p) (proj1 W) Q2) as FN. unfold HashMapBase.pos in Q3. rewrite Q3, Q5 in FN.
      destruct (nth_error (mem c) (fst p)) as [blk|] eqn:NP; [|discriminate]. rewrite <- FN.
      destruct (assign_ext_ok (mem c) (bks c) _ b _ e v _ _ blk W P1 P3 NP Q2 Q3) as (U1 & U2).
      eexists. split; [reflexivity|]. cbn [mem bks bufsz maxbuf obl ntot lf set_mem].
      split; [exact U1|]. split; [reflexivity|]. split; [|repeat split]. intro t. rewrite U2.
      destruct (keq k t) eqn:Z.
      + rewrite <- (B_keq _ _ _ Z), <- PB, Nat.eqb_refl. rewrite <- (nfind_keq cmp SW _ _ _ Z), P2. cbn [andb negb].
        rewrite (keq_trans cmp SW _ _ _ P4 Z). reflexivity.
      + rewrite (keq_l cmp SW _ _ t P4), Z, andb_false_r. reflexivity.
    - destruct P as (b & e & P1 & P2 & P3 & P4). rewrite P1.
      destruct (it_pos_ok c b _ _ e W P1 P3) as (Q1 & Q2 & Q3 & Q4 & Q5).
      set (p := it_pos ss spb c b (is_ext it)) in *.
      pose proof (flat_nth ss spb SS SP (mem c) (fst p) (snd p) (proj1 W) Q2) as FN. unfold HashMapBase.pos in Q3. rewrite Q3, Q5 in FN.
      destruct (nth_error (mem c) (fst p)) as [blk|] eqn:NP; [|discriminate]. rewrite <- FN.
      destruct (assign_ext_ok (mem c) (bks c) _ b _ e v _ _ blk W P1 P3 NP Q2 Q3) as (U1 & U2).
      eexists. split; [reflexivity|]. cbn [mem bks bufsz maxbuf obl ntot lf set_mem].
      split; [exact U1|]. split; [reflexivity|]. split; [|repeat split]. intro t. rewrite U2.
      destruct (keq k t) eqn:Z.
      + rewrite <- (B_keq _ _ _ Z), <- PB, Nat.eqb_refl. rewrite <- (nfind_keq cmp SW _ _ _ Z), P2. cbn [andb negb].
        rewrite (keq_trans cmp SW _ _ _ P4 Z). reflexivity.
      + rewrite (keq_l cmp SW _ _ t P4), Z, andb_false_r. reflexivity.
  Qed.

  (** ** An iterator followed through a rebuild *)

  Definition ekey (e : @ev K) : option K := match e with E2ext _ k _ _ => Some k | _ => None end.
  Lemma fix_ext_keys X : forall i ie, map ekey (fix_ext i ie X) = map (fun h : hv => Some (hkey h)) X.
  Proof. induction X as [|h X IH]; intros i ie; [reflexivity|]. cbn. rewrite IH. reflexivity. Qed.
  Lemma tevs_keys T : forall i, map ekey (tevs i T) = map (fun h : hv => Some (hkey h)) (concat T).
  Proof.
    induction T as [|X T IH]; intro i; [reflexivity|]. cbn [tevs concat]. rewrite !map_app, fix_ext_keys, IH. reflexivity.
  Qed.
  Lemma fix_ext_nth (X : list hv) : forall i ie j h, nth_error X j = Some h ->
    nth_error (fix_ext i ie X) j = Some (E2ext (hb h) (hkey h) i (ie + j)).
  Proof.
    induction X as [|x X IH]; intros i ie [|j] h Q; try discriminate; cbn in *.
    - injection Q as <-. rewrite Nat.add_0_r. reflexivity.
    - rewrite (IH _ _ _ _ Q). do 2 f_equal. lia.
  Qed.
  Lemma tevs_nth (T : list (list hv)) : forall i d X j h, nth_error T d = Some X -> nth_error X j = Some h ->
    In (E2ext (hb h) (hkey h) (i + d) j) (tevs i T).
  Proof.
    induction T as [|Y T IH]; intros i [|d] X j h H1 H2; try discriminate; cbn [nth_error] in H1; cbn [tevs]; apply in_or_app.
    - left. injection H1 as ->. rewrite Nat.add_0_r. apply (fix_ext_nth X i 0) in H2. eapply nth_error_In, H2.
    - right. replace (i + S d) with (S i + d) by lia. eapply IH; eassumption.
  Qed.
  Lemma follow_other evs : forall it, (forall e k, In e evs -> ekey e = Some k -> keq k (is_key it) = false) ->
    fold_left (follow cmp) evs it = it.
  Proof.
    induction evs as [|e evs IH]; intros it H; [reflexivity|]. cbn [fold_left].
    assert (Q : follow cmp it e = it).
    { destruct e as [| | |bo k bw ie|]; try reflexivity. cbn [follow]. rewrite (H (E2ext bo k bw ie) k (or_introl eq_refl) eq_refl), andb_false_r. reflexivity. }
    rewrite Q. apply IH. intros e' k He'. apply H. right. exact He'.
  Qed.
  Lemma follow_moved m bs Xs evs (it : @itspec K) k v : moved m bs Xs evs -> asc (map fst (concat Xs)) ->
    keq (is_key it) k = true -> alook (concat Xs) k = Some v ->
    (forall h, In h (tagl 0 Xs) -> keq (hkey h) k = true -> hb h = is_b it) ->
    let it' := fold_left (follow cmp) evs it in
    is_src it' = External /\ is_b it' = B (length bs) k
    /\ exists b e, nth_error bs (is_b it') = Some b /\ blist b = [] /\ nth_error (ext m b) (is_ext it') = Some e
         /\ keq (fst e) k = true.
  Proof.
    intros (T & -> & T1 & T2) A Hk AL HB it'.
    apply alook_some in AL. destruct AL as (e & E1 & E2 & E3). rewrite <- (tagl_hval 0 Xs), <- T1 in E1.
    apply in_map_iff in E1. destruct E1 as (h & <- & Hh).
    pose proof Hh as Hh0. apply in_concat in Hh. destruct Hh as (X & HX & Hh).
    apply In_nth_error in HX, Hh. destruct HX as (d & HX), Hh as (j & Hh).
    destruct (T2 _ _ _ _ HX Hh) as (D1 & b & D2 & D0 & D3).
    pose proof (tevs_nth T 0 d X j h HX Hh) as IN. cbn [Nat.add] in IN. apply in_split in IN. destruct IN as (ev1 & ev2 & EV).
    assert (AK : asc (map hkey (concat T))).
    { rewrite T1. rewrite <- (tagl_hval 0 Xs), map_map in A. exact A. }
    pose proof (tevs_keys T 0) as TK. rewrite EV, map_app in TK. cbn [map ekey] in TK.
    assert (G : forall x l1 l2 (l : list hv), asc (map hkey l) -> l1 ++ Some x :: l2 = map (fun h => Some (hkey h)) l -> keq x k = true ->
              (forall y, In (Some y) l1 -> keq y k = false) /\ (forall y, In (Some y) l2 -> keq y k = false)).
    { clear - SW HH. intros x l1 l2 l AK Q Z.
      assert (Q2 : exists a1 a2, l = a1 ++ a2 /\ map (fun h => Some (hkey h)) a1 = l1 /\ map (fun h => Some (hkey h)) a2 = Some x :: l2).
      { symmetry in Q. apply map_eq_app in Q. destruct Q as (a1 & a2 & Q1 & Q2 & Q3). exists a1, a2. tauto. }
      destruct Q2 as (a1 & a2 & -> & <- & Q2). destruct a2 as [|h a2]; [discriminate|]. cbn [map] in Q2. injection Q2 as <- <-.
      rewrite map_app in AK. apply FOP_app in AK. destruct AK as (_ & K2 & K3). cbn [map] in K2. apply asc_cons in K2. destruct K2 as (K2 & _).
      split; intros y Hy; apply in_map_iff in Hy; destruct Hy as (g & Hg & Ig); injection Hg as <-.
      - rewrite <- (keq_r cmp SW _ _ (hkey g) Z). apply (klt_neq hash cmp HH), K3; [apply in_map, Ig|left; reflexivity].
      - rewrite keq_sym, <- (keq_l cmp SW _ _ (hkey g) Z). apply (klt_neq hash cmp HH), K2, in_map, Ig. }
    destruct (G _ _ _ _ AK TK E2) as (G1 & G2).
    assert (HB' : hb h = is_b it) by (apply HB; [rewrite <- T1; exact Hh0|exact E2]).
    assert (EQ : it' = {| is_b := d; is_node := None; is_ext := j; is_src := External; is_valid := true; is_key := is_key it |}).
    { unfold it'. rewrite EV, fold_left_app. rewrite (follow_other ev1).
      2:{ intros e y He Ky. rewrite (keq_r cmp SW _ _ y Hk). apply G1. rewrite <- Ky. apply in_map, He. }
      cbn [fold_left]. cbn [follow]. rewrite HB', Nat.eqb_refl.
      assert (Z : keq (hkey h) (is_key it) = true) by (rewrite (keq_r cmp SW _ _ _ Hk); exact E2). rewrite Z. cbn [andb].
      apply follow_other. cbn [is_key]. intros e y He Ky. rewrite (keq_r cmp SW _ _ y Hk). apply G2. rewrite <- Ky. apply in_map, He. }
    rewrite EQ. cbn [is_src is_b is_ext]. split; [reflexivity|]. split; [rewrite D1; apply B_keq; exact E2|].
    exists b, (hval h). split; [exact D2|]. split; [exact D0|]. split; [exact D3|exact E2].
  Qed.

  (** ** Insertion of a range *)

  Lemma drop_same_split k (l : list E) : exists p, l = p ++ drop_same keqb k l /\ (forall x, In x p -> keq k (fst x) = true)
    /\ match drop_same keqb k l with [] => True | y :: _ => keq k (fst y) = false end.
  Proof.
    induction l as [|e l (p & P1 & P2 & P3)]; [exists []; repeat split; contradiction|]. cbn [drop_same].
    rewrite (po_eqb PO). destruct (keq k (fst e)) eqn:Q.
    - exists (e :: p). split; [cbn; congruence|]. split; [|exact P3]. intros x [<-|Hx]; [exact Q|apply P2, Hx].
    - exists []. split; [reflexivity|]. split; [contradiction|exact Q].
  Qed.
  Lemma unique_ok fuel : forall l : list E, length l <= fuel -> sorted (fun a b => klt (fst a) (fst b)) l ->
    asc (map fst (unique keqb fuel l)) /\ (forall e, In e (unique keqb fuel l) -> In e l)
    /\ (forall e, In e l -> exists e', In e' (unique keqb fuel l) /\ keq (fst e') (fst e) = true)
    /\ length (unique keqb fuel l) <= length l.
  Proof.
    induction fuel as [|fuel IH]; intros [|e l] HL HS; cbn [unique]; try (cbn in HL; lia);
      try (split; [constructor|split; [contradiction|split; [contradiction|cbn; lia]]]).
    destruct (drop_same_split (fst e) l) as (p & P1 & P2 & P3). set (d := drop_same keqb (fst e) l) in *.
    apply StronglySorted_inv in HS. destruct HS as (S1 & S2). rewrite Forall_forall in S2.
    assert (SD : sorted (fun a b : E => klt (fst a) (fst b)) d).
    { rewrite P1 in S1. apply sorted_app_inv in S1. apply S1. }
    assert (LD : length l = length p + length d) by (rewrite P1 at 1; apply app_length).
    destruct (IH d) as (I1 & I2 & I3 & I4); [cbn in HL; lia|exact SD|].
    assert (GT : forall x, In x d -> klt (fst e) (fst x) = true).
    { destruct d as [|y d']; [contradiction|]. intros x Hx.
      assert (GY : klt (fst e) (fst y) = true).
      { destruct (klt (fst e) (fst y)) eqn:Z; [reflexivity|]. exfalso.
        assert (Iy : In y l) by (rewrite P1; apply in_or_app; right; left; reflexivity).
        rewrite (proj2 (keq_klt hash cmp HH (fst e) (fst y))) in P3; [discriminate|]. split; [exact Z|exact (S2 y Iy)]. }
      destruct Hx as [<-|Hx]; [exact GY|]. apply StronglySorted_inv in SD. destruct SD as (_ & SD). rewrite Forall_forall in SD.
      pose proof (SD x Hx) as Q. unfold OrderLib.le in Q.
      destruct (sw_incomp _ (klt_SW hash cmp SW) _ (fst x) _ GY); [assumption|congruence]. }
    split; [|split; [|split]].
    - cbn [map]. apply asc_cons. split; [|exact I1]. intros k Hk. apply in_map_iff in Hk. destruct Hk as (x & <- & Hx). apply GT, I2, Hx.
    - intros x [<-|Hx]; [left; reflexivity|right]. rewrite P1. apply in_or_app. right. apply I2, Hx.
    - intros x [<-|Hx]; [exists e; split; [left; reflexivity|apply (keq_refl cmp SW)]|].
      rewrite P1 in Hx. apply in_app_or in Hx. destruct Hx as [Hx|Hx].
      + exists e. split; [left; reflexivity|apply P2, Hx].
      + destruct (I3 x Hx) as (e' & H1 & H2). exists e'. split; [right; exact H1|exact H2].
    - cbn [length]. lia.
  Qed.

  Lemma bmerge_ok fuel : forall i ie (os : list hv) (ns : list E), length os + length ns < fuel ->
    asc (map hkey os) -> asc (map fst ns) ->
    let Z := fst (bmerge fuel i ie os ns) in
    asc (map fst Z) /\ (forall e, In e Z -> In e (map hval os) \/ In e ns) /\ length Z <= length os + length ns
    /\ forall k, alook Z k = match alook ns k with Some v => Some v | None => alook (map hval os) k end.
  Proof.
    induction fuel as [|fuel IH]; intros i ie os ns HL A1 A2 Z; [lia|].
    assert (CONS : forall (x : E) Z', asc (map fst Z') -> (forall e, In e Z' -> klt (fst x) (fst e) = true) -> asc (map fst (x :: Z'))).
    { intros x Z' HA HZ. cbn [map]. apply asc_cons. split; [|exact HA]. intros k Hk. apply in_map_iff in Hk.
      destruct Hk as (y & <- & Hy). apply HZ, Hy. }
    assert (AO : forall (o : hv) os', asc (map hkey (o :: os')) -> asc (map hkey os') /\ forall e, In e (map hval os') -> klt (hkey o) (fst e) = true).
    { intros o os' H. cbn [map] in H. apply asc_cons in H. destruct H as (H1 & H2). split; [exact H2|]. intros e He. apply in_map_iff in He.
      destruct He as (h & <- & Hh). apply H1, (in_map hkey), Hh. }
    assert (AN : forall (n : E) ns', asc (map fst (n :: ns')) -> asc (map (@fst K V) ns') /\ forall e, In e ns' -> klt (fst n) (fst e) = true).
    { intros n ns' H. cbn [map] in H. apply asc_cons in H. destruct H as (H1 & H2). split; [exact H2|]. intros e He. apply H1, in_map, He. }
    unfold Z. clear Z. destruct os as [|o os]; [destruct ns as [|n ns]|destruct ns as [|n ns]]; cbn [HashMapModel.bmerge length] in *.
    - cbn. split; [constructor|]. split; [contradiction|]. split; [lia|reflexivity].
    - destruct (AN _ _ A2) as (N1 & N2). destruct (IH i (S ie) [] ns) as (I1 & I2 & I3 & I4); [cbn; lia|constructor|exact N1|]. cbn [fst] in *.
      split; [apply CONS; [exact I1|]; intros e He; destruct (I2 e He) as [[]|H]; apply N2, H|].
      split; [intros e [<-|He]; [right; left; reflexivity|]; destruct (I2 e He) as [[]|H]; right; right; exact H|].
      split; [cbn [length] in *; lia|]. intro k. rewrite !alook_cons, I4. destruct (keq (fst n) k); reflexivity.
    - destruct (AO _ _ A1) as (O1 & O2). destruct (IH i (S ie) os []) as (I1 & I2 & I3 & I4); [cbn; lia|exact O1|constructor|]. cbn [fst] in *.
      split; [apply CONS; [exact I1|]; intros e He; destruct (I2 e He) as [H|[]]; apply O2, H|].
      split; [intros e [<-|He]; [left; left; reflexivity|]; destruct (I2 e He) as [H|[]]; left; right; exact H|].
      split; [cbn [length] in *; lia|]. intro k. cbn [map]. rewrite !alook_cons, I4. reflexivity.
    - destruct (AO _ _ A1) as (O1 & O2), (AN _ _ A2) as (N1 & N2). fold (klt (hkey o) (fst n)).
      destruct (klt (hkey o) (fst n)) eqn:Q1; [|destruct (keq (hkey o) (fst n)) eqn:Q2]; cbn [fst].
      + destruct (IH i (S ie) os (n :: ns)) as (I1 & I2 & I3 & I4); [cbn [length]; lia|exact O1|exact A2|].
        assert (ON : forall e, In e (n :: ns) -> klt (hkey o) (fst e) = true).
        { intros e [<-|He]; [exact Q1|]. eapply (klt_trans hash cmp SW); [exact Q1|apply N2, He]. }
        split; [apply CONS; [exact I1|]; intros e He; destruct (I2 e He) as [H|H]; [apply O2, H|apply ON, H]|].
        split; [intros e [<-|He]; [left; left; reflexivity|]; destruct (I2 e He) as [H|H]; [left; right; exact H|right; exact H]|].
        split; [cbn [length] in *; lia|]. intro k. cbn [map]. rewrite (alook_cons cmp (hval o) (fst _)), (alook_cons cmp (hval o) (map _ _)), I4.
        fold (hkey o). destruct (keq (hkey o) k) eqn:Q3; [|reflexivity].
        rewrite (alook_none cmp (n :: ns)); [reflexivity|]. intros e He. rewrite <- (keq_r cmp SW _ _ (fst e) Q3), keq_sym.
        apply (klt_neq hash cmp HH), ON, He.
      + destruct (IH i (S ie) os ns) as (I1 & I2 & I3 & I4); [cbn [length]; lia|exact O1|exact N1|].
        assert (NO : forall e, In e (map hval os) -> klt (fst n) (fst e) = true).
        { intros e He. rewrite <- (klt_keq_l hash cmp SW HH _ _ (fst e) Q2). apply O2, He. }
        split; [apply CONS; [exact I1|]; intros e He; destruct (I2 e He) as [H|H]; [apply NO, H|apply N2, H]|].
        split; [intros e [<-|He]; [right; left; reflexivity|]; destruct (I2 e He) as [H|H]; [left; right; exact H|right; right; exact H]|].
        split; [cbn [length] in *; lia|]. intro k. cbn [map]. rewrite !alook_cons, I4. fold (hkey o).
        rewrite (keq_l cmp SW _ _ k Q2). destruct (keq (fst n) k); reflexivity.
      + assert (Q3 : klt (fst n) (hkey o) = true).
        { destruct (klt (fst n) (hkey o)) eqn:Q3; [reflexivity|]. rewrite (proj2 (keq_klt hash cmp HH _ _)) in Q2; [discriminate|split; assumption]. }
        destruct (IH i (S ie) (o :: os) ns) as (I1 & I2 & I3 & I4); [cbn [length]; lia|exact A1|exact N1|].
        assert (NO : forall e, In e (map hval (o :: os)) -> klt (fst n) (fst e) = true).
        { intros e [<-|He]; [exact Q3|]. eapply (klt_trans hash cmp SW); [exact Q3|apply O2, He]. }
        split; [apply CONS; [exact I1|]; intros e He; destruct (I2 e He) as [H|H]; [apply NO, H|apply N2, H]|].
        split; [intros e [<-|He]; [right; left; reflexivity|]; destruct (I2 e He) as [H|H]; [left; exact H|right; right; exact H]|].
        split; [cbn [length] in *; lia|]. intro k. rewrite (alook_cons cmp n (fst _)), (alook_cons cmp n ns), I4.
        destruct (keq (fst n) k); reflexivity.
  Qed.

  Definition zb (i : nat) (X : list hv) (Y : list E) : list E * list (@ev K) := bmerge (S (length X + length Y)) i 0 X Y.
  Fixpoint zipm (i : nat) (To : list (list hv)) (Tn : list (list E)) : list (list E) :=
    match To, Tn with X :: To', Y :: Tn' => fst (zb i X Y) :: zipm (S i) To' Tn' | _, _ => [] end.
  Fixpoint zevs (i : nat) (To : list (list hv)) (Tn : list (list E)) : list (@ev K) :=
    match To, Tn with X :: To', Y :: Tn' => snd (zb i X Y) ++ zevs (S i) To' Tn' | _, _ => [] end.
  Lemma dist2_eq n cnt : forall i os ns w,
    dist2 n i cnt os ns w = (fst (wchunks (zipm i (takes hkey n i cnt os) (takes fst n i cnt ns)) w),
                             snd (wchunks (zipm i (takes hkey n i cnt os) (takes fst n i cnt ns)) w),
                             zevs i (takes hkey n i cnt os) (takes fst n i cnt ns)).
  Proof.
    induction cnt as [|cnt IH]; intros i os ns w; [reflexivity|].
    cbn [HashMapModel.dist2 takes zipm zevs HashMapStream.wchunks]. cbv zeta. rewrite IH. unfold zb. reflexivity.
  Qed.
  Lemma zipm_nth To : forall Tn i j, length Tn = length To ->
    nth_error (zipm i To Tn) j =
      match nth_error To j, nth_error Tn j with Some X, Some Y => Some (fst (zb (i + j) X Y)) | _, _ => None end.
  Proof.
    induction To as [|X To IH]; intros [|Y Tn] i [|j] H; try discriminate; try reflexivity; cbn [zipm nth_error].
    - rewrite Nat.add_0_r. reflexivity.
    - rewrite IH by (cbn in H; lia). replace (S i + j) with (i + S j) by lia. reflexivity.
  Qed.
  Lemma zipm_len To : forall Tn i, length Tn = length To -> length (zipm i To Tn) = length To.
  Proof. induction To as [|X To IH]; intros [|Y Tn] i H; try discriminate; [reflexivity|]. cbn in *. rewrite IH; lia. Qed.
  Lemma zipm_size To : forall Tn i, Forall (fun X => asc (map hkey X)) To -> Forall (fun Y => asc (map fst Y)) Tn ->
    length (concat (zipm i To Tn)) <= length (concat To) + length (concat Tn).
  Proof.
    induction To as [|X To IH]; intros [|Y Tn] i H1 H2; cbn [zipm concat length]; try lia.
    inversion H1; inversion H2; subst. rewrite !app_length.
    destruct (bmerge_ok (S (length X + length Y)) i 0 X Y) as (_ & _ & G & _); [lia|assumption..|]. fold (zb i X Y) in G.
    pose proof (IH Tn (S i) ltac:(assumption) ltac:(assumption)). lia.
  Qed.

  Lemma asc_sub {A} (key : A -> K) (cs : list (list A)) : asc (map key (concat cs)) -> Forall (fun c => asc (map key c)) cs.
  Proof.
    induction cs as [|d cs IH]; [constructor|]. cbn [concat]. rewrite map_app. intro H. apply FOP_app in H. destruct H as (H1 & H2 & _).
    constructor; [exact H1|apply IH, H2].
  Qed.

  (** Where the values went, for a rebuild as well as for an insertion of a range. *)
  Definition emoved (m : list (list E)) (bs : list bucket) (Xs : list (list E)) (evs : list (@ev K)) : Prop :=
    map ekey evs = map (fun h : hv => Some (hkey h)) (tagl 0 Xs)
    /\ forall e, In e evs -> exists h i j b e', In h (tagl 0 Xs) /\ e = E2ext (hb h) (hkey h) i j
         /\ i = B (length bs) (hkey h) /\ nth_error bs i = Some b /\ blist b = []
         /\ nth_error (ext m b) j = Some e' /\ keq (fst e') (hkey h) = true.
  Lemma fix_ext_in (X : list hv) : forall i ie e, In e (fix_ext i ie X) ->
    exists j h, nth_error X j = Some h /\ e = E2ext (hb h) (hkey h) i (ie + j).
  Proof.
    induction X as [|x X IH]; intros i ie e H; [contradiction|]. cbn in H. destruct H as [<-|H].
    - exists 0, x. split; [reflexivity|]. rewrite Nat.add_0_r. reflexivity.
    - destruct (IH _ _ _ H) as (j & h & H1 & ->). exists (S j), h. split; [exact H1|]. f_equal. lia.
  Qed.
  Lemma tevs_in (T : list (list hv)) : forall i e, In e (tevs i T) ->
    exists d X j h, nth_error T d = Some X /\ nth_error X j = Some h /\ e = E2ext (hb h) (hkey h) (i + d) j.
  Proof.
    induction T as [|Y T IH]; intros i e H; [contradiction|]. cbn [tevs] in H. apply in_app_or in H. destruct H as [H|H].
    - apply fix_ext_in in H. destruct H as (j & h & H1 & ->). exists 0, Y, j, h. rewrite Nat.add_0_r. repeat split. exact H1.
    - destruct (IH _ _ H) as (d & X & j & h & H1 & H2 & ->). exists (S d), X, j, h. split; [exact H1|]. split; [exact H2|]. f_equal. lia.
  Qed.
  Lemma moved_emoved m bs Xs evs : moved m bs Xs evs -> emoved m bs Xs evs.
  Proof.
    intros (T & -> & T1 & T2). split; [rewrite tevs_keys, T1; reflexivity|]. intros e He.
    apply tevs_in in He. destruct He as (d & X & j & h & H1 & H2 & ->). cbn [Nat.add].
    destruct (T2 _ _ _ _ H1 H2) as (D1 & b & D2 & D3 & D4). exists h, d, j, b, (hval h).
    split; [rewrite <- T1; apply in_concat; exists X; split; eapply nth_error_In; eassumption|].
    split; [reflexivity|]. split; [exact D1|]. split; [exact D2|]. split; [exact D3|]. split; [exact D4|apply (keq_refl cmp SW)].
  Qed.
  Lemma bmerge_evs fuel : forall i ie (os : list hv) (ns : list E), length os + length ns < fuel ->
    let z := bmerge fuel i ie os ns in
    map ekey (snd z) = map (fun h : hv => Some (hkey h)) os
    /\ forall e, In e (snd z) -> exists h j e', In h os /\ e = E2ext (hb h) (hkey h) i (ie + j)
         /\ nth_error (fst z) j = Some e' /\ keq (fst e') (hkey h) = true.
  Proof.
    induction fuel as [|fuel IH]; intros i ie os ns HL z; [lia|]. unfold z. clear z.
    assert (UP : forall (x : E) (Z : list E) os' (P : hv -> Prop) evs,
       (forall e, In e evs -> exists h j e', In h os' /\ e = E2ext (hb h) (hkey h) i (S ie + j) /\ nth_error Z j = Some e' /\ keq (fst e') (hkey h) = true) ->
       (forall h, In h os' -> P h) ->
       forall e, In e evs -> exists h j e', P h /\ e = E2ext (hb h) (hkey h) i (ie + j) /\ nth_error (x :: Z) j = Some e' /\ keq (fst e') (hkey h) = true).
    { intros x Z os' P evs H HP e He. destruct (H e He) as (h & j & e' & H1 & -> & H2 & H3). exists h, (S j), e'.
      split; [apply HP, H1|]. split; [f_equal; lia|]. split; [exact H2|exact H3]. }
    destruct os as [|o os]; [destruct ns as [|n ns]|destruct ns as [|n ns]]; cbn [HashMapModel.bmerge length] in *.
    - split; [reflexivity|contradiction].
    - destruct (IH i (S ie) [] ns) as (I1 & I2); [cbn; lia|]. cbn [fst snd]. split; [exact I1|].
      apply (UP n _ [] (fun h => In h [])); [exact I2|auto].
    - destruct (IH i (S ie) os []) as (I1 & I2); [cbn; lia|]. cbn [fst snd map ekey]. split; [rewrite I1; reflexivity|].
      intros e [<-|He].
      + exists o, 0, (hval o). split; [left; reflexivity|]. rewrite Nat.add_0_r. repeat split. apply (keq_refl cmp SW).
      + revert e He. apply (UP (hval o) _ os (fun h => In h (o :: os))); [exact I2|intros h Hh; right; exact Hh].
    - fold (klt (hkey o) (fst n)). destruct (klt (hkey o) (fst n)) eqn:Q1; [|destruct (keq (hkey o) (fst n)) eqn:Q2]; cbn [fst snd].
      + destruct (IH i (S ie) os (n :: ns)) as (I1 & I2); [cbn [length]; lia|]. cbn [map ekey]. split; [rewrite I1; reflexivity|].
        intros e [<-|He].
        * exists o, 0, (hval o). split; [left; reflexivity|]. rewrite Nat.add_0_r. repeat split. apply (keq_refl cmp SW).
        * revert e He. apply (UP (hval o) _ os (fun h => In h (o :: os))); [exact I2|intros h Hh; right; exact Hh].
      + destruct (IH i (S ie) os ns) as (I1 & I2); [cbn [length]; lia|]. cbn [map ekey]. split; [rewrite I1; reflexivity|].
        intros e [<-|He].
        * exists o, 0, n. split; [left; reflexivity|]. rewrite Nat.add_0_r. repeat split. rewrite keq_sym. exact Q2.
        * revert e He. apply (UP n _ os (fun h => In h (o :: os))); [exact I2|intros h Hh; right; exact Hh].
      + destruct (IH i (S ie) (o :: os) ns) as (I1 & I2); [cbn [length]; lia|]. split; [exact I1|].
        apply (UP n _ (o :: os) (fun h => In h (o :: os))); [exact I2|auto].
  Qed.
  Lemma zevs_keys To : forall Tn i, length Tn = length To ->
    map ekey (zevs i To Tn) = map (fun h : hv => Some (hkey h)) (concat To).
  Proof.
    induction To as [|X To IH]; intros [|Y Tn] i H; try discriminate; [reflexivity|]. cbn [zevs concat]. rewrite !map_app, IH by (cbn in H; lia).
    unfold zb. rewrite (proj1 (bmerge_evs (S (length X + length Y)) i 0 X Y (Nat.lt_succ_diag_r _))). reflexivity.
  Qed.
  Lemma zevs_in To : forall Tn i e, length Tn = length To -> In e (zevs i To Tn) ->
    exists d X Y h j e', nth_error To d = Some X /\ nth_error Tn d = Some Y /\ In h X /\ e = E2ext (hb h) (hkey h) (i + d) j
      /\ nth_error (fst (zb (i + d) X Y)) j = Some e' /\ keq (fst e') (hkey h) = true.
  Proof.
    induction To as [|X To IH]; intros [|Y Tn] i e H He; try discriminate; [contradiction|]. cbn [zevs] in He. apply in_app_or in He.
    destruct He as [He|He].
    - destruct (proj2 (bmerge_evs (S (length X + length Y)) i 0 X Y (Nat.lt_succ_diag_r _)) e He) as (h & j & e' & H1 & -> & H2 & H3).
      exists 0, X, Y, h, j, e'. rewrite Nat.add_0_r. repeat split; assumption.
    - destruct (IH Tn (S i) e ltac:(cbn in H; lia) He) as (d & X' & Y' & h & j & e' & H1 & H2 & H3 & -> & H4 & H5).
      exists (S d), X', Y', h, j, e'. replace (i + S d) with (S i + d) by lia. repeat split; assumption.
  Qed.

  Definition n_bulk (c : core) (l : list E) : N := N.min (nbuck (lf c) ((ntot c + N.of_nat (length l)) mod U64)%N) maxb.

  Lemma bulk_ok (c : core) l : wf (mem c) (bks c) -> fits (n_bulk c l) = true ->
    ((0 < n_bulk c l)%N \/ l = [] /\ forall k, look (mem c) (bks c) k = None) ->
    exists c' evs Z n0, bulk c l = Some (c', evs) /\ wf (mem c') (bks c')
      /\ length (bks c') = N.to_nat (n_bulk c l)
      /\ (forall k, look (mem c') (bks c') k = alook Z k) /\ asc (map fst Z) /\ ntot c' = N.of_nat (length Z)
      /\ smerged keq (look (mem c) (bks c)) l (look (mem c') (bks c'))
      /\ card (look (mem c) (bks c)) n0 /\ length Z <= n0 + length l
      /\ obl c' = false /\ bufsz c' = 0 /\ maxbuf c' = maxbuf c /\ lf c' = lf c
      /\ exists Xs, chunked (length (bks c)) 0 Xs /\ asc (map fst (concat Xs)) /\ (forall k, alook (concat Xs) k = look (mem c) (bks c) k)
           /\ emoved (mem c') (bks c') Xs evs.
  Proof.
    intros W F ZC. destruct (stream_ok _ _ W) as (Xs & E1 & E2 & E3 & E4 & E5).
    unfold HashMapModel.bulk. fold (n_bulk c l). rewrite F. unfold HashMapModel.values. rewrite E1.
    set (n := N.to_nat (n_bulk c l)). rewrite dist2_eq. cbn [fst snd].
    destruct (po_srt PO l) as (SP1 & SP2).
    destruct (unique_ok (length (srt l)) (srt l) (Nat.le_refl _) SP2) as (Q1 & Q2 & Q3 & Q4).
    set (us := unique keqb (length (srt l)) (srt l)) in *.
    assert (VK : map hkey (tagl 0 Xs) = map fst (concat Xs)).
    { rewrite <- (tagl_hval 0 Xs), map_map. reflexivity. }
    assert (RO : forall x, In x (tagl 0 Xs) -> 0 <= B n (hkey x) < 0 + n).
    { intros x Hx. destruct ZC as [Z|(_ & Z)]; [split; [lia|apply B_range; assumption]|].
      exfalso. apply (in_map hval) in Hx. rewrite tagl_hval in Hx.
      pose proof (alook_in hash cmp SW HH _ _ (fst (hval x)) E4 Hx (keq_refl cmp SW _)) as Q. rewrite E5, Z in Q. discriminate. }
    assert (RN : forall x, In x us -> 0 <= B n (fst x) < 0 + n).
    { intros x Hx. destruct ZC as [Z|(Z & _)]; [split; [lia|apply B_range; assumption]|].
      exfalso. apply Q2 in Hx. rewrite Z in SP1. apply Permutation_sym, Permutation_nil in SP1. rewrite Z, SP1 in Hx. destruct Hx. }
    destruct (takes_ok hkey n n 0 (tagl 0 Xs)) as (T1 & T2 & T3); [rewrite VK; exact E4|exact RO|].
    destruct (takes_ok fst n n 0 us) as (U1 & U2 & U3); [exact Q1|exact RN|].
    set (To := takes hkey n 0 n (tagl 0 Xs)) in *. set (Tn := takes fst n 0 n us) in *.
    assert (LEN : length Tn = length To) by congruence.
    assert (FO : Forall (fun X => asc (map hkey X)) To) by (apply asc_sub; rewrite T1, VK; exact E4).
    assert (FN : Forall (fun Y => asc (map fst Y)) Tn) by (apply asc_sub; rewrite U1; exact Q1).
    assert (BM : forall j X Y, nth_error To j = Some X -> nth_error Tn j = Some Y -> let Z := fst (zb j X Y) in
        asc (map fst Z) /\ (forall e, In e Z -> In e (map hval X) \/ In e Y)
        /\ forall k, alook Z k = match alook Y k with Some v => Some v | None => alook (map hval X) k end).
    { intros j X Y HX HY Z. rewrite Forall_forall in FO, FN.
      destruct (bmerge_ok (S (length X + length Y)) j 0 X Y) as (M1 & M2 & _ & M4); [lia| | |].
      - apply FO. eapply nth_error_In, HX.
      - apply FN. eapply nth_error_In, HY.
      - split; [exact M1|]. split; [exact M2|exact M4]. }
    set (cs := zipm 0 To Tn). assert (LC : length cs = n) by (unfold cs; rewrite zipm_len; congruence).
    assert (CH : chunked n 0 cs).
    { intros j c0 e Hc He. unfold cs in Hc. rewrite zipm_nth in Hc by exact LEN.
      destruct (nth_error To j) as [X|] eqn:NX; [|discriminate]. destruct (nth_error Tn j) as [Y|] eqn:NY; [|discriminate].
      injection Hc as <-. destruct (BM _ _ _ NX NY) as (_ & M2 & _). cbn [Nat.add] in He. destruct (M2 e He) as [H|H].
      - apply in_map_iff in H. destruct H as (h & <- & Hh). apply (T3 _ _ _ NX Hh).
      - apply (U3 _ _ _ NY H). }
    assert (AC : asc (map fst (concat cs))).
    { apply (asc_chunks n cs 0 CH). rewrite Forall_forall. intros c0 Hc. apply In_nth_error in Hc. destruct Hc as (j & Hc).
      unfold cs in Hc. rewrite zipm_nth in Hc by exact LEN.
      destruct (nth_error To j) as [X|] eqn:NX; [|discriminate]. destruct (nth_error Tn j) as [Y|] eqn:NY; [|discriminate].
      injection Hc as <-. apply (BM _ _ _ NX NY). }
    destruct (install_ok n cs (eq_sym LC) (N2n _ F) CH AC) as (I1 & I2 & I3 & I4 & I5).
    assert (LK : forall k, alook (concat cs) k = match alook us k with Some v => Some v | None => look (mem c) (bks c) k end).
    { intro k. rewrite (chunk_look n cs 0 k CH) by lia. rewrite Nat.sub_0_r. unfold cs. rewrite zipm_nth by exact LEN. cbn [Nat.add].
      rewrite <- E5, <- (tagl_hval 0 Xs), <- T1, <- U1.
      rewrite (chunk_look n Tn 0 k) by (try lia; exact U3). rewrite Nat.sub_0_r.
      rewrite concat_map, (chunk_look n (map (map hval) To) 0 k); [|intros j c0 e Hc He|lia].
      2:{ rewrite nth_error_map in Hc. destruct (nth_error To j) as [X|] eqn:NX; [|discriminate]. injection Hc as <-.
          apply in_map_iff in He. destruct He as (h & <- & Hh). apply (T3 _ _ _ NX Hh). }
      rewrite Nat.sub_0_r, nth_error_map.
      destruct (nth_error To (B n k)) as [X|] eqn:NX; cbn [option_map].
      - destruct (nth_error Tn (B n k)) as [Y|] eqn:NY; [apply (BM _ _ _ NX NY)|].
        apply nth_error_None in NY. assert (Z : nth_error To (B n k) <> None) by congruence. apply nth_error_Some in Z. lia.
      - destruct (nth_error Tn (B n k)) as [Y|] eqn:NY; [|reflexivity].
        apply nth_error_None in NX. assert (Z : nth_error Tn (B n k) <> None) by congruence. apply nth_error_Some in Z. lia. }
    eexists _, _, (concat cs), (length (concat Xs)). split; [reflexivity|]. cbn [mem bks ntot obl bufsz maxbuf lf].
    split; [exact I1|]. split; [exact I2|]. split; [exact I3|]. split; [exact AC|]. split; [exact I4|]. split; [|split; [|split]].
    - intro k. rewrite I3, LK. destruct (alook us k) as [v|] eqn:Al.
      + right. apply alook_some in Al. destruct Al as (e & H1 & H2 & H3). exists e. split; [eapply Permutation_in; [exact SP1|apply Q2, H1]|].
        split; [exact H2|congruence].
      + left. split; [|reflexivity]. intros e He. destruct (keq (fst e) k) eqn:Z; [|reflexivity]. exfalso.
        destruct (Q3 e) as (e' & H1 & H2); [eapply Permutation_in; [apply Permutation_sym, SP1|exact He]|].
        rewrite (alook_in hash cmp SW HH us e' k Q1 H1) in Al; [discriminate|]. eapply (keq_trans cmp SW); eassumption.
    - apply (card_asc (concat Xs)); assumption.
    - pose proof (zipm_size To Tn 0 FO FN) as G. fold cs in G. rewrite U1, T1 in G.
      rewrite <- (map_length hval (tagl 0 Xs)), tagl_hval in G. apply Permutation_length in SP1. lia.
    - split; [reflexivity|]. split; [reflexivity|]. split; [reflexivity|]. split; [reflexivity|]. exists Xs.
      split; [exact E3|]. split; [exact E4|]. split; [exact E5|]. split; [rewrite zevs_keys by exact LEN; rewrite T1; reflexivity|].
      intros e He. apply zevs_in in He; [|exact LEN]. destruct He as (d & X & Y & h & j & e' & H1 & H2 & H3 & -> & H4 & H5). cbn [Nat.add] in *.
      assert (NC : nth_error cs d = Some (fst (zb d X Y))) by (unfold cs; rewrite zipm_nth by exact LEN; rewrite H1, H2; reflexivity).
      destruct (Forall2_nth_r _ _ _ _ _ I5 NC) as (b & B1 & (B2 & _ & B3)).
      exists h, d, j, b, e'. split; [rewrite <- T1; apply in_concat; exists X; split; [eapply nth_error_In, H1|exact H3]|].
      split; [reflexivity|]. split; [rewrite I2; symmetry; apply (T3 _ _ _ H1 H3)|]. split; [exact B1|]. split; [exact B2|].
      split; [rewrite B3; exact H4|exact H5].
  Qed.

  (** ** The invariant *)

  (** [s]: size() is reliable.  [g]: only operations that count correctly have been
      used, and no more than [u] values have been inserted. *)
  Definition Inv (s g : bool) (u : N) (c : core) (m : smap) : Prop :=
    wf (mem c) (bks c) /\ (forall k, look (mem c) (bks c) k = m k) /\ (bks c = [] -> ntot c = 0%N)
    /\ (s = true -> obl c = false -> exists n, card m n /\ ntot c = N.of_nat n)
    /\ (g = true -> exists n, card m n /\ (N.of_nat n <= ntot c <= u)%N).

  Definition small (m : @smap K V) : Prop := forall n, card m n -> (N.of_nat n + 1 < U64)%N.
  Definition none (m : @smap K V) : Prop := forall k, m k = None.

  Lemma Inv_proper s g u c m : Inv s g u c m -> proper keq m.
  Proof. intros (_ & H & _) a b Q. rewrite <- !H. apply look_keq, Q. Qed.
  Lemma Inv_u s g u u' c m : Inv s g u c m -> (u <= u')%N -> Inv s g u' c m.
  Proof.
    intros (H1 & H2 & H3 & H4 & H5) L'. split; [exact H1|]. split; [exact H2|]. split; [exact H3|]. split; [exact H4|].
    intro G. destruct (H5 G) as (n & N1 & N2). exists n. split; [exact N1|lia].
  Qed.
  Lemma Inv_s s g u c m : Inv s g u c m -> Inv false g u c m.
  Proof. intros (H1 & H2 & H3 & H4 & H5). split; [exact H1|]. split; [exact H2|]. split; [exact H3|]. split; [discriminate|exact H5]. Qed.
  Lemma Inv_true s g u c m : Inv true g u c m -> Inv s g u c m.
  Proof. destruct s; [auto|apply Inv_s]. Qed.
  Lemma Inv_g s g u c m b : Inv s g u c m -> Inv s (g && b) u c m.
  Proof.
    intros (H1 & H2 & H3 & H4 & H5). split; [exact H1|]. split; [exact H2|]. split; [exact H3|]. split; [exact H4|].
    intro G. apply andb_true_iff in G. apply H5, G.
  Qed.
  Lemma Inv_empty s g u c m : Inv s g u c m -> bks c = [] -> none m.
  Proof. intros (_ & H & _) Q k. rewrite <- H. unfold look. rewrite Q. destruct (B _ k); reflexivity. Qed.

  (** The part of a state that other operations of the same step do not change. *)
  Definition rest (c c' : core) : Prop := maxbuf c' = maxbuf c /\ lf c' = lf c.

  Lemma rebuild_inv s g u c nd m : Inv s g u c m -> fits (n_new c nd) = true -> ((0 < n_new c nd)%N \/ none m) ->
    exists c' evs Xs, rebuild c nd = Some (c', evs) /\ Inv true g u c' m /\ ((0 < n_new c nd)%N -> bks c' <> [])
      /\ obl c' = false /\ bufsz c' = 0 /\ rest c c'
      /\ chunked (length (bks c)) 0 Xs /\ asc (map fst (concat Xs)) /\ (forall k, alook (concat Xs) k = m k)
      /\ moved (mem c') (bks c') Xs evs.
  Proof.
    intros (H1 & H2 & H3 & H4 & H5) F Z.
    destruct (rebuild_ok c nd H1 F) as (c' & evs & Xs & R1 & R2 & R3 & R4 & R5 & R6 & R7 & R8 & R9 & R10 & R11 & R12 & R13).
    { destruct Z as [Z|Z]; [left; exact Z|right]. intro k. rewrite H2. apply Z. }
    exists c', evs, Xs. split; [exact R1|].
    assert (AX : forall k, alook (concat Xs) k = m k) by (intro k; rewrite R7; apply H2).
    assert (CX : card m (length (concat Xs))) by (apply (card_asc (concat Xs)); assumption).
    split.
    { split; [exact R2|]. split; [intro k; rewrite R3; apply H2|]. split; [|split].
      - intro Q. rewrite R8. destruct (concat Xs) as [|e l] eqn:EX; [reflexivity|]. exfalso.
        assert (Y : m (fst e) = None).
        { rewrite <- (H2 (fst e)), <- R3. unfold look. rewrite Q. destruct (B _ (fst e)); reflexivity. }
        rewrite <- AX, alook_cons, (keq_refl cmp SW) in Y. discriminate.
      - intros _ _. exists (length (concat Xs)). split; assumption.
      - intro G. destruct (H5 G) as (n & N1 & N2). exists n. split; [exact N1|]. rewrite (card_uniq _ _ _ CX N1) in R8. lia. }
    split.
    { intros P Q. rewrite Q in R4. cbn in R4. lia. }
    split; [exact R9|]. split; [exact R10|]. split; [split; assumption|]. split; [exact R5|]. split; [exact R6|]. split; [exact AX|exact R13].
  Qed.

  Lemma n_new_0 (c : core) : n_new c 0 = nbuck (lf c) (ntot c).
  Proof. unfold HashMapModel.n_new. destruct (nbuck (lf c) (ntot c)); reflexivity. Qed.

  (** A rebuild for [t] values gives at least one bucket, or the map is empty. *)
  Definition good_n (l : L) (t : N) (m : @smap K V) : Prop := fits (nbuck l t) = true /\ ((0 < nbuck l t)%N \/ none m).
  Definition good_p (l : L) (t : N) : Prop := fits (nbuck l t) = true /\ (0 < nbuck l t)%N.

  Lemma grow_inv s g u c m : Inv s g u c m -> bks c <> [] -> (maxbuf c <= S (bufsz c) -> good_n (lf c) (ntot c) m) ->
    exists c' evs, grow c = Some (c', evs) /\ Inv s g u c' m /\ rest c c'
      /\ ((c' = set_bufsz c (S (bufsz c)) /\ evs = [])
          \/ exists Xs, chunked (length (bks c)) 0 Xs /\ asc (map fst (concat Xs)) /\ (forall k, alook (concat Xs) k = m k)
               /\ moved (mem c') (bks c') Xs evs).
  Proof.
    intros I NE HG. unfold HashMapModel.grow. cbn [maxbuf bufsz set_bufsz]. destruct (Nat.leb_spec (maxbuf c) (S (bufsz c))) as [Q|Q].
    - destruct (HG Q) as (G1 & G2).
      destruct (rebuild_inv s g u (set_bufsz c (S (bufsz c))) 0 m) as (c' & evs & Xs & R1 & R2 & R3 & R4 & R5 & R6 & R7 & R8 & R9 & R10).
      + exact I.
      + rewrite n_new_0. exact G1.
      + rewrite n_new_0. exact G2.
      + exists c', evs. split; [exact R1|]. split; [apply Inv_true, R2|]. split; [exact R6|]. right. exists Xs. tauto.
    - eexists _, _. split; [reflexivity|]. split; [exact I|]. split; [split; reflexivity|]. left. split; reflexivity.
  Qed.

  Lemma room_inv s g u c m : Inv s g u c m -> bks c <> [] -> (maxbuf c <= S (bufsz c) -> good_p (lf c) (ntot c)) ->
    exists c' evs, make_room c = Some (c', evs) /\ Inv s g u c' m /\ bks c' <> [] /\ rest c c'.
  Proof.
    intros I NE HG. unfold HashMapModel.make_room. destruct (Nat.leb_spec (maxbuf c) (bufsz c + 1)) as [Q|Q].
    - destruct HG as (G1 & G2); [lia|].
      destruct (rebuild_inv s g u c 0 m I) as (c' & evs & Xs & R1 & R2 & R3 & R4 & R5 & R6 & R7 & R8 & R9 & R10).
      + rewrite n_new_0. exact G1.
      + rewrite n_new_0. left. exact G2.
      + exists c', evs. split; [exact R1|]. split; [apply Inv_true, R2|]. split; [apply R3; rewrite n_new_0; exact G2|exact R6].
    - exists c, []. split; [reflexivity|]. split; [exact I|]. split; [exact NE|split; reflexivity].
  Qed.

  Lemma uinc_small t : (t + 1 < U64)%N -> uinc t = (t + 1)%N.
  Proof. intro H. unfold uinc. apply N.mod_small, H. Qed.
  Lemma udec_pos t : (0 < t <= U64)%N -> udec t = (t - 1)%N.
  Proof.
    intro H. unfold udec. assert (U : (0 < U64)%N) by (unfold U64; apply N.neq_0_lt_0, N.pow_nonzero; discriminate).
    replace (t + (U64 - 1))%N with (t - 1 + 1 * U64)%N by lia. rewrite N.mod_add by lia. apply N.mod_small. lia.
  Qed.

  (** Changes of a chain. *)
  Lemma mod_same s g u c m bs' t : Inv s g u c m -> wf (mem c) bs' -> length bs' = length (bks c) -> bks c <> [] ->
    (forall k, look (mem c) bs' k = m k) -> Inv s g u (set_bufsz (set_bks c bs') t) m.
  Proof.
    intros (H1 & H2 & H3 & H4 & H5) W LE NE HL. split; [exact W|]. split; [exact HL|].
    split; [cbn; intro Q; destruct bs'; [destruct (bks c); [congruence|discriminate]|discriminate]|]. split; [exact H4|exact H5].
  Qed.
  Lemma len_ne (A : Type) (l l' : list A) : length l' = length l -> l <> [] -> l' <> [].
  Proof. destruct l, l'; cbn; congruence. Qed.

  Lemma Inv_add s g u c m k v bs' ob : Inv s g u c m -> small m -> (g = true -> (u + 1 < U64)%N) -> m k = None ->
    wf (mem c) bs' -> bs' <> [] -> (forall k', look (mem c) bs' k' = if keq k k' then Some v else m k') ->
    (ob = false -> obl c = false) ->
    Inv s g (u + 1) {| bks := bs'; mem := mem c; bufsz := bufsz c; maxbuf := maxbuf c; obl := ob; ntot := uinc (ntot c); lf := lf c |}
      (sput m k v).
  Proof.
    intros I SM GU HK W NE HL HO. pose proof I as (H1 & H2 & H3 & H4 & H5).
    split; [exact W|]. split; [exact HL|]. split; [cbn; congruence|]. cbn [obl ntot]. split.
    - intros Hs Ho. destruct (H4 Hs (HO Ho)) as (n & N1 & N2). exists (S n). split; [apply card_put; assumption|].
      pose proof (SM n N1). rewrite uinc_small; lia.
    - intro G. destruct (H5 G) as (n & N1 & N2). exists (S n). split; [apply card_put; assumption|].
      pose proof (GU G). rewrite uinc_small; lia.
  Qed.
  Lemma Inv_over s g u c m k v bs' : Inv s g u c m -> (g = true -> (u + 1 < U64)%N) ->
    wf (mem c) bs' -> bs' <> [] -> (forall k', look (mem c) bs' k' = if keq k k' then Some v else m k') ->
    Inv s g (u + 1) {| bks := bs'; mem := mem c; bufsz := bufsz c; maxbuf := maxbuf c; obl := true; ntot := uinc (ntot c); lf := lf c |}
      (sput m k v).
  Proof.
    intros I GU W NE HL. pose proof I as (H1 & H2 & H3 & H4 & H5).
    split; [exact W|]. split; [exact HL|]. split; [cbn; congruence|]. cbn [obl ntot]. split; [discriminate|].
    intro G. destruct (H5 G) as (n & N1 & N2). pose proof (GU G). destruct (m k) eqn:Q.
    - exists n. split; [apply card_put_same; [eapply Inv_proper, I|congruence|exact N1]|]. rewrite uinc_small; lia.
    - exists (S n). split; [apply card_put; assumption|]. rewrite uinc_small; lia.
  Qed.
  Lemma Inv_put s g u c m k v bs' bf : Inv s g u c m -> m k <> None ->
    wf (mem c) bs' -> bs' <> [] -> (forall k', look (mem c) bs' k' = if keq k k' then Some v else m k') ->
    Inv s g u {| bks := bs'; mem := mem c; bufsz := bf; maxbuf := maxbuf c; obl := obl c; ntot := ntot c; lf := lf c |}
      (sput m k v).
  Proof.
    intros I HK W NE HL. pose proof I as (H1 & H2 & H3 & H4 & H5).
    split; [exact W|]. split; [exact HL|]. split; [cbn; congruence|]. cbn [obl ntot]. pose proof (Inv_proper _ _ _ _ _ I). split.
    - intros Hs Ho. destruct (H4 Hs Ho) as (n & N1 & N2). exists n. split; [apply card_put_same; assumption|exact N2].
    - intro G. destruct (H5 G) as (n & N1 & N2). exists n. split; [apply card_put_same; assumption|exact N2].
  Qed.
  Lemma Inv_del s g u c m k bs' ob : Inv s g u c m -> small m -> (g = true -> (u < U64)%N) -> m k <> None ->
    wf (mem c) bs' -> bs' <> [] -> (forall k', look (mem c) bs' k' = if keq k k' then None else m k') ->
    (ob = false -> obl c = false) ->
    Inv s g u {| bks := bs'; mem := mem c; bufsz := bufsz c; maxbuf := maxbuf c; obl := ob; ntot := udec (ntot c); lf := lf c |}
      (sdel m k).
  Proof.
    intros I SM GU HK W NE HL HO. pose proof I as (H1 & H2 & H3 & H4 & H5). pose proof (Inv_proper _ _ _ _ _ I) as PR.
    split; [exact W|]. split; [exact HL|]. split; [cbn; congruence|]. cbn [obl ntot]. split.
    - intros Hs Ho. destruct (H4 Hs (HO Ho)) as (n & N1 & N2). destruct (card_del m k n PR HK N1) as (n' & -> & N3).
      exists n'. split; [exact N3|]. pose proof (SM _ N1). rewrite udec_pos; lia.
    - intro G. destruct (H5 G) as (n & N1 & N2). destruct (card_del m k n PR HK N1) as (n' & -> & N3).
      exists n'. split; [exact N3|]. pose proof (GU G). rewrite udec_pos; lia.
  Qed.

  Lemma eta_core (c : core) : {| bks := bks c; mem := mem c; bufsz := bufsz c; maxbuf := maxbuf c; obl := obl c; ntot := ntot c; lf := lf c |} = c.
  Proof. destruct c. reflexivity. Qed.

  (** ** Operations *)

  Lemma returned_tevs T : forall i es, returned cmp (tevs i T ++ es) = returned cmp es.
  Proof.
    assert (F : forall (X : list hv) i ie es, returned cmp (fix_ext i ie X ++ es) = returned cmp es).
    { induction X as [|h X IH]; intros i ie es; [reflexivity|]. cbn. apply IH. }
    induction T as [|X T IH]; intros i es; [reflexivity|]. cbn [tevs]. rewrite <- app_assoc, F. apply IH.
  Qed.

  Definition int_it (i : nat) (k1 k : K) : itspec :=
    {| is_b := i; is_node := Some k1; is_ext := 0; is_src := Internal; is_valid := false; is_key := k |}.
  Lemma points_int (c : core) it k n : wf (mem c) (bks c) -> is_b it = B (length (bks c)) k -> is_src it = Internal ->
    (exists k1, is_node it = Some k1 /\ keq k1 k = true) -> has (mem c) (bks c) k n -> ndel n = false -> points c it k.
  Proof.
    intros W E1 E2 (k1 & E3 & E4) H D. split; [exact E1|]. rewrite E2. exists k1, n. tauto.
  Qed.

  (** The first rebuild of [insert]. *)
  Definition first_ok (c : core) : Prop :=
    if length (bks c) =? 0 then fits (n_new c 128) = true /\ (0 < n_new c 128)%N /\ (maxbuf c <= 1 -> good_p (lf c) 1)
    else maxbuf c <= S (bufsz c) -> good_p (lf c) (uinc (ntot c)).

  Lemma insert_ok s g u c m k v : Inv s g u c m -> small m -> (g = true -> (u + 1 < U64)%N) -> first_ok c ->
    exists c' evs b it, insert hash cmp edef ss spb inc bkt nbuck maxb fits junk c k v = Some (c', evs, b)
      /\ (if b then m k = None /\ Inv s g (u + 1) c' (sput m k v) else m k <> None /\ Inv s g (u + 1) c' m)
      /\ returned cmp evs = Some it /\ points c' it k.
  Proof.
    intros I SM GU FO. unfold HashMapModel.insert.
    assert (X : exists c0 e0 T, (if length (bks c) =? 0 then rebuild c 128 else Some (c, [])) = Some (c0, tevs e0 T)
        /\ Inv s g u c0 m /\ bks c0 <> [] /\ (maxbuf c0 <= S (bufsz c0) -> good_p (lf c0) (uinc (ntot c0)))).
    { unfold first_ok in FO. destruct (Nat.eqb_spec (length (bks c)) 0) as [Q|Q].
      - destruct FO as (F1 & F2 & F3). apply length_zero_iff_nil in Q.
        destruct (rebuild_inv s g u c 128 m I F1 (or_introl F2)) as (c0 & evs & Xs & R1 & R2 & R3 & R4 & R5 & (R6a & R6b) & R7 & R8 & R9 & (T & R10 & _)).
        exists c0, 0, T. split; [rewrite R1, R10; reflexivity|]. split; [apply Inv_true, R2|]. split; [apply R3, F2|].
        rewrite R5, R6a, R6b. intro Z.
        assert (N0 : ntot c0 = 0%N).
        { destruct R2 as (_ & _ & _ & R2 & _). destruct (R2 eq_refl R4) as (n & N1 & N2).
          rewrite N2. pose proof (Inv_empty _ _ _ _ _ I Q) as EM.
          rewrite (card_uniq m n 0 N1); [reflexivity|]. eapply card_eq; [|apply card_0]. intro t. symmetry. apply EM. }
        rewrite N0. replace (uinc 0) with 1%N by (vm_compute; reflexivity). apply F3, Z.
      - exists c, 0, []. split; [reflexivity|]. split; [exact I|]. split; [destruct (bks c); [exfalso; apply Q; reflexivity|discriminate]|exact FO]. }
    destruct X as (c0 & e0 & T & -> & I0 & NE & HG). clear I FO. pose proof I0 as (W & HL & _).
    destruct (fetch_ok _ _ k W NE) as (b & B1 & B2 & FE). unfold b_of. fold (B (length (bks c0)) k). rewrite B1.
    destruct FE as [(n & F1 & F2 & F3)|(F1 & F0 & r & F2 & F3)]; rewrite F1.
    - rewrite HL in F3. unfold nlive in F3. destruct (ndel n) eqn:D.
      + destruct (put_ok (mem c0) (bks c0) k b n {| nval := (k, v); ndel := false |} W B1 F1 (keq_refl cmp SW k)) as (U1 & U2 & U3 & U4).
        eexists _, _, true, _. split; [reflexivity|]. split; [|split].
        * split; [exact F3|]. apply (Inv_add s g u c0 m k v _ (obl c0)); try assumption; [|intro k'; rewrite U4, HL; reflexivity|auto].
          eapply len_ne; eassumption.
        * rewrite returned_tevs. reflexivity.
        * cbn [fold_left]. eapply points_int; [exact U1|exact (f_equal (fun n => B n k) (eq_sym U2))|reflexivity| |exact U3|reflexivity].
          exists k. split; [reflexivity|apply (keq_refl cmp SW)].
      + eexists _, _, false, _. split; [reflexivity|]. split; [|split].
        * split; [congruence|]. eapply Inv_u; [exact I0|lia].
        * rewrite returned_tevs. reflexivity.
        * cbn [fold_left]. eapply points_int; [exact W|reflexivity|reflexivity| |exists b; split; [exact B1|exact F1]|exact D].
          exists (nkey n). split; [reflexivity|exact F2].
    - rewrite F2. destruct F3 as [(G1 & G2 & G3 & G4)|(G1 & G2)]; rewrite G1; rewrite HL in G2.
      + eexists _, _, false, _. split; [reflexivity|]. split; [|split].
        * split; [congruence|]. eapply Inv_u; [exact I0|lia].
        * rewrite returned_tevs. reflexivity.
        * cbn [fold_left]. split; [reflexivity|]. cbn [is_src is_b is_ext]. exists b, (snd r). tauto.
      + destruct (ins_ok (mem c0) (bks c0) k b {| nval := (k, v); ndel := false |} W B1 F1 (keq_refl cmp SW k)) as (U1 & U2 & U3 & U4).
        set (c1 := ins_node (set_ntot c0 (uinc (ntot c0))) (B (length (bks c0)) k) b k {| nval := (k, v); ndel := false |}).
        assert (NE1 : bks c1 <> []) by (eapply len_ne; eassumption).
        assert (I1 : Inv s g (u + 1) c1 (sput m k v)).
        { apply (Inv_add s g u c0 m k v _ (obl c0)); try assumption; [intro k'; rewrite U4, HL; reflexivity|auto]. }
        destruct (grow_inv s g (u + 1) c1 (sput m k v) I1 NE1) as (c' & evs & R1 & R2 & R3 & R4).
        { intro Z. destruct (HG Z) as (Y1 & Y2). split; [exact Y1|left; exact Y2]. }
        rewrite R1. eexists _, _, true, _. split; [reflexivity|]. split; [|split].
        * split; [exact G2|exact R2].
        * rewrite returned_tevs. reflexivity.
        * destruct R4 as [(-> & ->)|(Xs & X1 & X2 & X3 & X4)].
          -- cbn [fold_left snd]. eapply points_int; [exact U1|exact (f_equal (fun n => B n k) (eq_sym U2))|reflexivity| |exact U3|reflexivity].
             exists k. split; [reflexivity|apply (keq_refl cmp SW)].
          -- cbn [snd fst]. destruct (follow_moved _ _ Xs evs (mk_int (B (length (bks c0)) k) k) k v X4 X2) as (Y1 & Y2 & b' & e & Y3 & Y4 & Y5 & Y6).
             ++ apply (keq_refl cmp SW).
             ++ rewrite X3. unfold HashMapSpec.sput. rewrite (keq_refl cmp SW). reflexivity.
             ++ intros h Hh Hk. apply (tagl_in ss spb SS SP) in Hh. destruct Hh as (j & X & J1 & J2 & J3). rewrite J3. cbn [mk_int is_b].
                pose proof (X1 j X (hval h) J1 J2) as Q. rewrite <- Q. replace (length (bks c1)) with (length (bks c0)) by (symmetry; exact U2).
                apply B_keq, Hk.
             ++ split; [exact Y2|]. rewrite Y1. exists b', e. rewrite Y4. tauto.
  Qed.

  Lemma insert_obl_ok s g u c m k v : Inv s g u c m -> small m -> (g = true -> (u + 1 < U64)%N) -> bks c <> [] ->
    (maxbuf c <= S (bufsz c) -> good_p (lf c) (uinc (ntot c))) ->
    exists c' evs, insert_oblivious hash cmp edef ss spb inc bkt nbuck maxb fits junk c k v = Some (c', evs)
      /\ Inv s g (u + 1) c' (sput m k v).
  Proof.
    intros I SM GU NE HG. unfold HashMapModel.insert_oblivious. pose proof I as (W & HL & _).
    destruct (fetch_ok _ _ k W NE) as (b & B1 & B2 & FE). unfold b_of. fold (B (length (bks c)) k). rewrite B1.
    destruct FE as [(n & F1 & F2 & F3)|(F1 & F0 & _)]; rewrite F1.
    - destruct (put_ok (mem c) (bks c) k b n {| nval := (k, v); ndel := false |} W B1 F1 (keq_refl cmp SW k)) as (U1 & U2 & U3 & U4).
      eexists _, _. split; [reflexivity|]. rewrite HL in F3. unfold nlive in F3. destruct (ndel n).
      + apply (Inv_add s g u c m k v _ (obl c)); try assumption; [|intro k'; rewrite U4, HL; reflexivity|auto]. eapply len_ne; eassumption.
      + eapply Inv_u with (u := u); [|lia]. apply (Inv_put s g u c m k v _ (bufsz c)); try assumption; [congruence| |intro k'; rewrite U4, HL; reflexivity].
        eapply len_ne; eassumption.
    - destruct (ins_ok (mem c) (bks c) k b {| nval := (k, v); ndel := false |} W B1 F1 (keq_refl cmp SW k)) as (U1 & U2 & U3 & U4).
      set (c1 := ins_node (set_obl (set_ntot c (uinc (ntot c))) true) (B (length (bks c)) k) b k {| nval := (k, v); ndel := false |}).
      assert (NE1 : bks c1 <> []) by (eapply len_ne; eassumption).
      assert (I1 : Inv s g (u + 1) c1 (sput m k v)).
      { apply (Inv_over s g u c m k v); try assumption. intro k'. rewrite U4, HL. reflexivity. }
      destruct (grow_inv s g (u + 1) c1 (sput m k v) I1 NE1) as (c' & evs & R1 & R2 & R3 & R4).
      { intro Z. destruct (HG Z) as (Y1 & Y2). split; [exact Y1|left; exact Y2]. }
      rewrite R1. eexists _, _. split; [reflexivity|exact R2].
  Qed.

  Lemma erase_ok s g u c m k : Inv s g u c m -> small m -> (g = true -> (u < U64)%N) -> bks c <> [] ->
    (maxbuf c <= S (bufsz c) -> m k <> None -> good_n (lf c) (udec (ntot c)) (sdel m k)) ->
    exists c' evs b, erase hash cmp edef vdef ss spb inc bkt nbuck maxb fits junk c k = Some (c', evs, b)
      /\ if b then m k <> None /\ Inv s g u c' (sdel m k) else m k = None /\ Inv s g u c' m.
  Proof.
    intros I SM GU NE HG. unfold HashMapModel.erase. pose proof I as (W & HL & _).
    destruct (fetch_ok _ _ k W NE) as (b & B1 & B2 & FE). unfold b_of. fold (B (length (bks c)) k). rewrite B1.
    destruct FE as [(n & F1 & F2 & F3)|(F1 & F0 & r & F2 & F3)]; rewrite F1.
    - rewrite HL in F3. unfold nlive in F3. destruct (ndel n) eqn:D.
      + eexists _, _, false. split; [reflexivity|]. split; assumption.
      + destruct (put_ok (mem c) (bks c) k b n {| nval := nval n; ndel := true |} W B1 F1 F2) as (U1 & U2 & U3 & U4).
        eexists _, _, true. split; [reflexivity|]. split; [congruence|].
        apply (Inv_del s g u c m k _ (obl c)); try assumption; [congruence| |intro k'; rewrite U4, HL; reflexivity|auto]. eapply len_ne; eassumption.
    - rewrite F2. destruct F3 as [(G1 & G2 & G3 & G4)|(G1 & G2)]; rewrite G1; rewrite HL in G2.
      + destruct (ins_ok (mem c) (bks c) k b {| nval := (k, vdef); ndel := true |} W B1 F1 (keq_refl cmp SW k)) as (U1 & U2 & U3 & U4).
        set (c1 := ins_node (set_ntot c (udec (ntot c))) (B (length (bks c)) k) b k {| nval := (k, vdef); ndel := true |}).
        assert (NE1 : bks c1 <> []) by (eapply len_ne; eassumption).
        assert (I1 : Inv s g u c1 (sdel m k)).
        { apply (Inv_del s g u c m k _ (obl c)); try assumption; [congruence|intro k'; rewrite U4, HL; reflexivity|auto]. }
        destruct (grow_inv s g u c1 (sdel m k) I1 NE1) as (c' & evs & R1 & R2 & R3 & R4).
        { intro Z. apply HG; [exact Z|congruence]. }
        rewrite R1. eexists _, _, true. split; [reflexivity|]. split; [congruence|exact R2].
      + eexists _, _, false. split; [reflexivity|]. split; assumption.
  Qed.

  Lemma erase_obl_ok s g u c m k : Inv s g u c m -> small m -> (g = true -> (u < U64)%N) -> bks c <> [] ->
    (maxbuf c <= S (bufsz c) -> good_n (lf c) (udec (ntot c)) (sdel m k)) ->
    exists c' evs, erase_oblivious hash cmp edef vdef ss spb inc bkt nbuck maxb fits junk c k = Some (c', evs)
      /\ Inv s (g && match m k with Some _ => true | None => false end) u c' (sdel m k).
  Proof.
    intros I SM GU NE HG. unfold HashMapModel.erase_oblivious. pose proof I as (W & HL & _).
    destruct (fetch_ok _ _ k W NE) as (b & B1 & B2 & FE). unfold b_of. fold (B (length (bks c)) k). rewrite B1.
    pose proof (Inv_proper _ _ _ _ _ I) as PR.
    destruct FE as [(n & F1 & F2 & F3)|(F1 & F0 & _)]; rewrite F1.
    - rewrite HL in F3. unfold nlive in F3. destruct (ndel n) eqn:D.
      + eexists _, _. split; [reflexivity|]. rewrite F3. apply Inv_g. destruct I as (I1 & I2 & I3 & I4 & I5).
        assert (SD : forall k', sdel m k k' = m k').
        { intro k'. unfold HashMapSpec.sdel. destruct (keq k k') eqn:Q; [|reflexivity]. rewrite <- (PR _ _ Q). congruence. }
        split; [exact I1|]. split; [intro k'; rewrite SD; apply I2|]. split; [exact I3|]. split.
        * intros Hs Ho. destruct (I4 Hs Ho) as (x & X1 & X2). exists x. split; [|exact X2]. apply card_del_none; assumption.
        * intro G. destruct (I5 G) as (x & X1 & X2). exists x. split; [|exact X2]. apply card_del_none; assumption.
      + destruct (put_ok (mem c) (bks c) k b n {| nval := nval n; ndel := true |} W B1 F1 F2) as (U1 & U2 & U3 & U4).
        eexists _, _. split; [reflexivity|]. apply Inv_g.
        apply (Inv_del s g u c m k _ (obl c)); try assumption; [congruence| |intro k'; rewrite U4, HL; reflexivity|auto]. eapply len_ne; eassumption.
    - destruct (ins_ok (mem c) (bks c) k b {| nval := (k, vdef); ndel := true |} W B1 F1 (keq_refl cmp SW k)) as (U1 & U2 & U3 & U4).
      set (c1 := ins_node (set_obl (set_ntot c (udec (ntot c))) true) (B (length (bks c)) k) b k {| nval := (k, vdef); ndel := true |}).
      assert (NE1 : bks c1 <> []) by (eapply len_ne; eassumption).
      assert (I1 : Inv s (g && match m k with Some _ => true | None => false end) u c1 (sdel m k)).
      { destruct (m k) eqn:Q.
        - apply Inv_g. apply (Inv_del s g u c m k _ true); try assumption; [congruence|intro k'; rewrite U4, HL; reflexivity|discriminate].
        - rewrite andb_false_r. split; [exact U1|]. split; [intro k'; cbn [c1]; etransitivity; [apply U4|]; rewrite HL; reflexivity|].
          split; [intro Y; exfalso; apply NE1, Y|]. split; discriminate. }
      destruct (grow_inv s _ u c1 (sdel m k) I1 NE1) as (c' & evs & R1 & R2 & R3 & R4); [exact HG|].
      rewrite R1. eexists _, _. split; [reflexivity|exact R2].
  Qed.

  Lemma find_ok s g u c m k : Inv s g u c m -> bks c <> [] -> (maxbuf c <= S (bufsz c) -> good_p (lf c) (ntot c)) ->
    exists c' evs r, find hash cmp edef ss spb inc bkt nbuck maxb fits junk c k = Some (c', evs, r)
      /\ Inv s g u c' m /\ bks c' <> []
      /\ match r with
         | None => m k = None
         | Some it => m k <> None /\ points c' it k /\ is_src it = Internal /\ is_key it = k
         end.
  Proof.
    intros I NE HG. unfold HashMapModel.find.
    destruct (room_inv s g u c m I NE HG) as (c0 & e0 & R1 & I0 & NE0 & _). rewrite R1. pose proof I0 as (W & HL & _).
    destruct (fetch_ok _ _ k W NE0) as (b & B1 & B2 & FE). unfold b_of. fold (B (length (bks c0)) k). rewrite B1.
    destruct FE as [(n & F1 & F2 & F3)|(F1 & F0 & r & F2 & F3)]; rewrite F1.
    - rewrite HL in F3. unfold nlive in F3. eexists _, _, _. split; [reflexivity|]. split; [exact I0|]. split; [exact NE0|].
      destruct (ndel n) eqn:D; [exact F3|]. split; [congruence|]. split; [|split; reflexivity].
      eapply points_int; [exact W|reflexivity|reflexivity| |exists b; split; [exact B1|exact F1]|exact D].
      exists (nkey n). split; [reflexivity|exact F2].
    - rewrite F2. destruct F3 as [(G1 & G2 & G3 & G4)|(G1 & G2)]; rewrite G1; rewrite HL in G2.
      + destruct (ins_ok (mem c0) (bks c0) k b {| nval := snd r; ndel := false |} W B1 F1 G4) as (U1 & U2 & U3 & U4).
        eexists _, _, _. split; [reflexivity|]. split; [|split].
        * apply (mod_same s g u c0 m _ (S (bufsz c0)) I0 U1 U2 NE0). intro k'. rewrite U4. destruct (keq k k') eqn:Q; [|apply HL].
          unfold nlive. cbn [ndel nval]. rewrite <- G2. apply (Inv_proper _ _ _ _ _ I0), Q.
        * eapply len_ne; eassumption.
        * split; [congruence|]. split; [|split; reflexivity].
          eapply points_int; [exact U1|exact (f_equal (fun n => B n k) (eq_sym U2))|reflexivity| |exact U3|reflexivity].
          exists (fst (snd r)). split; [reflexivity|exact G4].
      + eexists _, _, _. split; [reflexivity|]. split; [exact I0|]. split; [exact NE0|exact G2].
  Qed.

  Lemma cfind_ok (c : core) m k : wf (mem c) (bks c) -> (forall k, look (mem c) (bks c) k = m k) -> bks c <> [] ->
    exists r, cfind hash cmp edef ss spb bkt c k = Some r
      /\ match r with None => m k = None | Some it => m k <> None /\ points c it k end.
  Proof.
    intros W HL NE. unfold HashMapModel.cfind.
    destruct (fetch_ok _ _ k W NE) as (b & B1 & B2 & FE). unfold b_of. fold (B (length (bks c)) k). rewrite B1.
    destruct FE as [(n & F1 & F2 & F3)|(F1 & F0 & r & F2 & F3)]; rewrite F1.
    - rewrite HL in F3. unfold nlive in F3. eexists. split; [reflexivity|]. destruct (ndel n) eqn:D; [exact F3|]. split; [congruence|].
      eapply points_int; [exact W|reflexivity|reflexivity| |exists b; split; [exact B1|exact F1]|exact D].
      exists (nkey n). split; [reflexivity|exact F2].
    - rewrite F2. eexists. split; [reflexivity|].
      destruct F3 as [(G1 & G2 & G3 & G4)|(G1 & G2)]; rewrite G1; rewrite HL in G2; [|exact G2].
      split; [congruence|]. split; [reflexivity|]. cbn [is_src is_b is_ext]. exists b, (snd r). tauto.
  Qed.

  Lemma index_ok s g u c m k : Inv s g u c m -> bks c <> [] -> (maxbuf c <= S (bufsz c) -> good_p (lf c) (ntot c)) ->
    exists c' evs it, index hash cmp edef vdef ss spb inc bkt nbuck maxb fits junk c k = Some (c', evs, it)
      /\ points c' it k
      /\ match m k with
         | Some _ => Inv s g u c' m
         | None => Inv false (g && false) u c' (sput m k vdef)
         end.
  Proof.
    intros I NE HG. unfold HashMapModel.index.
    destruct (room_inv s g u c m I NE HG) as (c0 & e0 & R1 & I0 & NE0 & _). rewrite R1. pose proof I0 as (W & HL & _).
    destruct (fetch_ok _ _ k W NE0) as (b & B1 & B2 & FE). unfold b_of. fold (B (length (bks c0)) k). rewrite B1.
    destruct FE as [(n & F1 & F2 & F3)|(F1 & F0 & r & F2 & F3)]; rewrite F1.
    - rewrite HL in F3. unfold nlive in F3. eexists _, _, _. split; [reflexivity|]. destruct (ndel n) eqn:D.
      + destruct (put_ok (mem c0) (bks c0) k b n {| nval := (nkey n, vdef); ndel := false |} W B1 F1 F2) as (U1 & U2 & U3 & U4).
        split.
        * eapply points_int; [exact U1|exact (f_equal (fun n => B n k) (eq_sym U2))|reflexivity| |exact U3|reflexivity].
          exists (nkey n). split; [reflexivity|exact F2].
        * rewrite F3, andb_false_r. split; [exact U1|]. split; [intro k'; etransitivity; [apply U4|]; rewrite HL; reflexivity|].
          split; [intro Y; exfalso; eapply (len_ne _ _ _ U2 NE0); exact Y|]. split; discriminate.
      + split; [|rewrite F3; exact I0].
        eapply points_int; [exact W|reflexivity|reflexivity| |exists b; split; [exact B1|exact F1]|exact D].
        exists (nkey n). split; [reflexivity|exact F2].
    - rewrite F2. destruct F3 as [(G1 & G2 & G3 & G4)|(G1 & G2)]; rewrite G1; rewrite HL in G2.
      + destruct (ins_ok (mem c0) (bks c0) k b {| nval := snd r; ndel := false |} W B1 F1 G4) as (U1 & U2 & U3 & U4).
        eexists _, _, _. split; [reflexivity|]. split.
        * eapply points_int; [exact U1|exact (f_equal (fun n => B n k) (eq_sym U2))|reflexivity| |exact U3|reflexivity].
          exists (fst (snd r)). split; [reflexivity|exact G4].
        * rewrite G2. apply (mod_same s g u c0 m _ (S (bufsz c0)) I0 U1 U2 NE0). intro k'. rewrite U4. destruct (keq k k') eqn:Q; [|apply HL].
          unfold nlive. cbn [ndel nval]. rewrite <- G2. apply (Inv_proper _ _ _ _ _ I0), Q.
      + destruct (ins_ok (mem c0) (bks c0) k b {| nval := (k, vdef); ndel := false |} W B1 F1 (keq_refl cmp SW k)) as (U1 & U2 & U3 & U4).
        eexists _, _, _. split; [reflexivity|]. split.
        * eapply points_int; [exact U1|exact (f_equal (fun n => B n k) (eq_sym U2))|reflexivity| |exact U3|reflexivity].
          exists k. split; [reflexivity|apply (keq_refl cmp SW)].
        * rewrite G2, andb_false_r. split; [exact U1|]. split; [intro k'; etransitivity; [apply U4|]; rewrite HL; reflexivity|].
          split; [intro Y; exfalso; eapply (len_ne _ _ _ U2 NE0); exact Y|]. split; discriminate.
  Qed.

  Lemma assign_inv s g u c m it k v : Inv s g u c m -> points c it k -> m k <> None ->
    exists c', assign hash cmp ss spb c it v = Some c' /\ Inv s g u c' (sput m k v).
  Proof.
    intros I P HK. pose proof I as (W & HL & H3 & H4 & H5). pose proof (Inv_proper _ _ _ _ _ I) as PR.
    destruct (assign_ok c it k v W P) as (c' & A1 & A2 & A3 & A4 & A5 & A6 & A7 & A8 & A9).
    exists c'. split; [exact A1|]. split; [exact A2|]. split; [intro k'; rewrite A4, HL; reflexivity|].
    split; [rewrite A8; intro Q; apply H3; rewrite Q in A3; destruct (bks c); [reflexivity|discriminate]|].
    rewrite A7, A8. split.
    - intros Hs Ho. destruct (H4 Hs Ho) as (n & N1 & N2). exists n. split; [apply card_put_same; assumption|exact N2].
    - intro G. destruct (H5 G) as (n & N1 & N2). exists n. split; [apply card_put_same; assumption|exact N2].
  Qed.

  Lemma erase_it_ok s g u c m it k : Inv s g u c m -> small m -> (g = true -> (u < U64)%N) -> m k <> None -> bks c <> [] ->
    points c it k -> is_src it = Internal ->
    exists c' evs, erase_it hash cmp edef vdef ss spb inc bkt nbuck maxb fits junk c it = Some (c', evs) /\ Inv s g u c' (sdel m k).
  Proof.
    intros I SM GU HK NE (P1 & P2) SRC. rewrite SRC in P2. destruct P2 as (k' & n & Q1 & Q2 & Q3 & Q4).
    pose proof I as (W & HL & _). destruct (has_look _ _ _ _ W Q3) as (HN & _).
    rewrite keq_sym in Q2. destruct (has_keq _ _ _ _ _ Q2 W Q3) as (b & B1 & B2).
    unfold HashMapModel.erase_it. rewrite SRC. cbn [bks set_ntot]. rewrite P1, (B_keq _ _ _ Q2), B1, Q1, B2.
    assert (HN' : keq (nkey n) k' = true) by (eapply (keq_trans cmp SW); eassumption).
    destruct (put_ok (mem c) (bks c) k' b n {| nval := nval n; ndel := true |} W B1 B2 HN') as (U1 & U2 & U3 & U4).
    eexists _, _. split; [reflexivity|].
    apply (Inv_del s g u c m k _ (obl c)); try assumption; [|intro t; rewrite U4, HL, (keq_l cmp SW _ _ t Q2); reflexivity|auto].
    eapply len_ne; eassumption.
  Qed.

  (** ** One operation *)

  Definition weight (o : @op K V L) : N :=
    match o with
    | OInsert _ _ | OInsertObl _ _ | OInsertSet _ _ _ => 1
    | OBulk l => N.of_nat (length l)
    | _ => 0
    end%N.
  (** The operation leaves num_total_ at least the number of values. *)
  Definition counts (m : @smap K V) (o : @op K V L) : bool :=
    match o with
    | OEraseObl k | OIndex k | OIndexSet k _ => match m k with Some _ => true | None => false end
    | _ => true
    end.

  (** There are buckets, and a rebuild caused by the operation creates buckets unless the map is empty. *)
  Definition safe (c : core) (m : @smap K V) (o : @op K V L) : Prop :=
    match o with
    | OInsert _ _ | OInsertSet _ _ _ => first_ok c
    | OInsertObl _ _ => bks c <> [] /\ (maxbuf c <= S (bufsz c) -> good_p (lf c) (uinc (ntot c)))
    | OErase k => bks c <> [] /\ (maxbuf c <= S (bufsz c) -> m k <> None -> good_n (lf c) (udec (ntot c)) (sdel m k))
    | OEraseObl k => bks c <> [] /\ (maxbuf c <= S (bufsz c) -> good_n (lf c) (udec (ntot c)) (sdel m k))
    | OFind _ | OFindSet _ _ | OFindErase _ | OIndex _ | OIndexSet _ _ =>
        bks c <> [] /\ (maxbuf c <= S (bufsz c) -> good_p (lf c) (ntot c))
    | OCFind _ | OCount _ => bks c <> []
    | OClear | OSize => True
    | ORehash n => fits (n_new c n) = true /\ ((0 < n_new c n)%N \/ none m)
    | OLoad l => lgt l (ntot c) (length (bks c)) = true -> good_n l (ntot c) m
    | OMaxBuf n => n <= bufsz c -> good_n (lf c) (ntot c) m
    | OBulk l => fits (n_bulk c l) = true /\ ((0 < n_bulk c l)%N \/ l = [] /\ none m)
    end.
  Lemma none_eq (m m' : @smap K V) : (forall k, m k = m' k) -> none m -> none m'.
  Proof. intros H N k. rewrite <- H. apply N. Qed.
  Lemma safe_eq c m m' o : (forall k, m k = m' k) -> safe c m o -> safe c m' o.
  Proof.
    intros H. assert (HD : forall k k', sdel m k k' = sdel m' k k') by (intros; unfold HashMapSpec.sdel; rewrite H; reflexivity).
    assert (GN : forall l t a b, (forall k : K, a k = b k) -> good_n l t a -> good_n l t b).
    { intros l t a b Hab (G1 & G2). split; [exact G1|]. destruct G2 as [G2|G2]; [left; exact G2|right; eapply none_eq; eassumption]. }
    destruct o; cbn [safe]; try (intro Q; exact Q).
    - intros (A1 & A2). split; [exact A1|]. intros Z1 Z2. eapply GN; [apply HD|]. apply A2; [exact Z1|rewrite H; exact Z2].
    - intros (A1 & A2). split; [exact A1|]. intros Z1. eapply GN; [apply HD|]. apply A2, Z1.
    - intros (A1 & [A2|A2]); (split; [exact A1|]); [left; exact A2|right; eapply none_eq; eassumption].
    - intros A Z. eapply GN; [exact H|]. apply A, Z.
    - intros A Z. eapply GN; [exact H|]. apply A, Z.
    - intros (A1 & [A2|(A2 & A3)]); (split; [exact A1|]); [left; exact A2|right; split; [exact A2|eapply none_eq; eassumption]].
  Qed.

  Lemma Inv_eq s g u c m m' : (forall k, m k = m' k) -> Inv s g u c m -> Inv s g u c m'.
  Proof.
    intros H (H1 & H2 & H3 & H4 & H5). split; [exact H1|]. split; [intro k; rewrite <- H; apply H2|]. split; [exact H3|]. split.
    - intros Hs Ho. destruct (H4 Hs Ho) as (n & N1 & N2). exists n. split; [eapply card_eq; eassumption|exact N2].
    - intros G. destruct (H5 G) as (n & N1 & N2). exists n. split; [eapply card_eq; eassumption|exact N2].
  Qed.

  Lemma wf_clear n : fits (N.of_nat n) = true -> wf [] (repeat (@bucket0 K V) n) /\ forall k, look [] (repeat (@bucket0 K V) n) k = None.
  Proof.
    intro F. split.
    - split; [constructor|]. split.
      + apply Forall_forall. intros b Hb. apply repeat_spec in Hb. subst. split; reflexivity.
      + rewrite repeat_length. split; [exact F|]. intros i b Hb. apply nth_error_In, repeat_spec in Hb. subst.
        split; [constructor|]. split; [constructor|]. split; contradiction.
    - intro k. unfold look. destruct (nth_error _ _) as [b|] eqn:N; [|reflexivity]. apply nth_error_In, repeat_spec in N. subst. reflexivity.
  Qed.

  Lemma step_ok s g u c m o : Inv s g u c m -> small m -> (g = true -> (u + weight o + 1 < U64)%N) -> safe c m o ->
    exists c' r s' m', exec c o = Some (c', r) /\ sstep keq vdef s m o r s' m'
      /\ Inv s' (g && counts m o) (u + weight o) c' m'.
  Proof.
    intros I SM GU SF. pose proof I as (W & HL & H3 & H4 & H5). pose proof (Inv_proper _ _ _ _ _ I) as PR.
    assert (GU' : g = true -> (u < U64)%N) by (intro G; specialize (GU G); lia).
    destruct o; cbn [HashMapModel.exec weight counts safe] in *; try rewrite andb_true_r; try rewrite N.add_0_r in *.
    - (* insert *)
      destruct (insert_ok s g u c m k v I SM) as (c' & evs & b & it & R1 & R2 & _); [intro G; specialize (GU G); lia|exact SF|].
      rewrite R1. cbn [fst snd]. destruct b; destruct R2 as (R2 & R3).
      + eexists _, _, _, _. split; [reflexivity|]. split; [apply S_insert_new, R2|exact R3].
      + eexists _, _, _, _. split; [reflexivity|]. split; [apply S_insert_old, R2|exact R3].
    - (* insert_oblivious *)
      destruct SF as (F1 & F2).
      destruct (insert_obl_ok s g u c m k v I SM) as (c' & evs & R1 & R2); [intro G; specialize (GU G); lia|exact F1|exact F2|].
      unfold ret. rewrite R1. eexists _, _, _, _. split; [reflexivity|]. split; [apply S_insert_obl|exact R2].
    - (* erase *)
      destruct SF as (F1 & F2). destruct (erase_ok s g u c m k I SM GU' F1 F2) as (c' & evs & b & R1 & R2).
      rewrite R1. cbn [fst snd]. destruct b; destruct R2 as (R2 & R3).
      + eexists _, _, _, _. split; [reflexivity|]. split; [apply S_erase_old, R2|exact R3].
      + eexists _, _, _, _. split; [reflexivity|]. split; [apply S_erase_no, R2|exact R3].
    - (* erase_oblivious *)
      destruct SF as (F1 & F2). destruct (erase_obl_ok s g u c m k I SM GU' F1 F2) as (c' & evs & R1 & R2).
      unfold ret. rewrite R1. eexists _, _, _, _. split; [reflexivity|]. split; [apply S_erase_obl|exact R2].
    - (* clear *)
      eexists _, _, _, _. split; [reflexivity|]. split; [apply S_clear|].
      assert (RP : map (fun _ => @bucket0 K V) (bks c) = repeat bucket0 (length (bks c))).
      { clear. induction (bks c) as [|x l IH]; [reflexivity|]. cbn. rewrite IH. reflexivity. }
      cbn [fst snd clear]. unfold Inv. cbn [bks mem obl ntot]. rewrite RP.
      destruct (wf_clear (length (bks c))) as (C1 & C2); [apply W|]. split; [exact C1|]. split; [intro k; rewrite C2; reflexivity|].
      split; [reflexivity|]. split.
      + intros _ _. exists 0. split; [apply card_0|reflexivity].
      + intros _. exists 0. split; [apply card_0|lia].
    - (* find *)
      destruct SF as (F1 & F2). destruct (find_ok s g u c m k I F1 F2) as (c' & evs & r & R1 & R2 & R3 & R4).
      rewrite R1. cbn [fst snd]. destruct r as [it|].
      + destruct R4 as (R4 & R5 & _). destruct (deref_ok c' it k (proj1 R2) R5) as (e & D1 & D2 & D3). rewrite D1.
        eexists _, _, _, _. split; [reflexivity|]. rewrite (proj1 (proj2 R2)) in D3. rewrite <- D3. split; [apply S_find|exact R2].
      + eexists _, _, _, _. split; [reflexivity|]. rewrite <- R4. split; [apply S_find|exact R2].
    - (* find, assign *)
      destruct SF as (F1 & F2). destruct (find_ok s g u c m k I F1 F2) as (c' & evs & r & R1 & R2 & R3 & R4).
      rewrite R1. cbn [fst snd]. destruct r as [it|].
      + destruct R4 as (R4 & R5 & _). destruct (assign_inv s g u c' m it k v R2 R5 R4) as (c2 & D1 & D2). rewrite D1.
        eexists _, _, _, _. split; [reflexivity|]. split; [apply S_findset_old, R4|exact D2].
      + eexists _, _, _, _. split; [reflexivity|]. split; [apply S_findset_no, R4|exact R2].
    - (* find, erase *)
      destruct SF as (F1 & F2). destruct (find_ok s g u c m k I F1 F2) as (c' & evs & r & R1 & R2 & R3 & R4).
      rewrite R1. cbn [fst snd]. destruct r as [it|].
      + destruct R4 as (R4 & R5 & R6 & _). destruct (erase_it_ok s g u c' m it k R2 SM GU' R4 R3 R5 R6) as (c2 & evs2 & D1 & D2).
        unfold ret. rewrite D1. eexists _, _, _, _. split; [reflexivity|]. split; [apply S_finderase_old, R4|exact D2].
      + eexists _, _, _, _. split; [reflexivity|]. split; [apply S_finderase_no, R4|exact R2].
    - (* insert, assign *)
      destruct (insert_ok s g u c m k v I SM) as (c' & evs & b & it & R1 & R2 & R3 & R4); [intro G; specialize (GU G); lia|exact SF|].
      rewrite R1. cbn [fst snd]. rewrite R3. destruct b; destruct R2 as (R2 & R5).
      + destruct (assign_inv s g (u + 1) c' (sput m k v) it k w R5 R4) as (c2 & D1 & D2).
        { unfold HashMapSpec.sput. rewrite (keq_refl cmp SW). discriminate. }
        rewrite D1. eexists _, _, _, _. split; [reflexivity|]. split; [apply S_insertset_new, R2|].
        eapply Inv_eq; [|exact D2]. intro t. unfold HashMapSpec.sput. destruct (keq k t); reflexivity.
      + destruct (assign_inv s g (u + 1) c' m it k w R5 R4 R2) as (c2 & D1 & D2).
        rewrite D1. eexists _, _, _, _. split; [reflexivity|]. split; [apply S_insertset_old, R2|exact D2].
    - (* const find *)
      destruct (cfind_ok c m k W HL SF) as (r & R1 & R2). rewrite R1. destruct r as [it|].
      + destruct R2 as (R2 & R3). destruct (deref_ok c it k W R3) as (e & D1 & D2 & D3). rewrite D1.
        eexists _, _, _, _. split; [reflexivity|]. rewrite HL in D3. rewrite <- D3. split; [apply S_cfind|exact I].
      + eexists _, _, _, _. split; [reflexivity|]. rewrite <- R2. split; [apply S_cfind|exact I].
    - (* count *)
      destruct (cfind_ok c m k W HL SF) as (r & R1 & R2). rewrite R1. destruct r as [it|].
      + eexists _, _, _, _. split; [reflexivity|]. split; [apply S_count_old, R2|exact I].
      + eexists _, _, _, _. split; [reflexivity|]. split; [apply S_count_no, R2|exact I].
    - (* operator[] *)
      destruct SF as (F1 & F2). destruct (index_ok s g u c m k I F1 F2) as (c' & evs & it & R1 & R2 & R3). rewrite R1. cbn [fst snd].
      assert (W' : wf (mem c') (bks c')) by (destruct (m k); apply R3).
      destruct (deref_ok c' it k W' R2) as (e & D1 & D2 & D3). rewrite D1. destruct (m k) as [v|] eqn:MK.
      + rewrite (proj1 (proj2 R3)), MK in D3. injection D3 as <-. rewrite andb_true_r.
        eexists _, _, _, _. split; [reflexivity|]. split; [apply S_index_old, MK|exact R3].
      + rewrite (proj1 (proj2 R3)) in D3. unfold HashMapSpec.sput in D3. rewrite (keq_refl cmp SW) in D3. injection D3 as <-.
        eexists _, _, _, _. split; [reflexivity|]. split; [apply S_index_new, MK|exact R3].
    - (* assignment to operator[] *)
      destruct SF as (F1 & F2). destruct (index_ok s g u c m k I F1 F2) as (c' & evs & it & R1 & R2 & R3). rewrite R1. cbn [fst snd].
      destruct (m k) as [w|] eqn:MK.
      + destruct (assign_inv s g u c' m it k v R3 R2) as (c2 & D1 & D2); [congruence|]. rewrite D1, andb_true_r.
        eexists _, _, _, _. split; [reflexivity|]. split; [apply S_indexset_old; congruence|exact D2].
      + destruct (assign_inv false (g && false) u c' (sput m k vdef) it k v R3 R2) as (c2 & D1 & D2).
        { unfold HashMapSpec.sput. rewrite (keq_refl cmp SW). discriminate. }
        rewrite D1. eexists _, _, _, _. split; [reflexivity|]. split; [apply S_indexset_new, MK|].
        eapply Inv_eq; [|exact D2]. intro t. unfold HashMapSpec.sput. destruct (keq k t); reflexivity.
    - (* size *)
      unfold size. destruct (obl c) eqn:OB.
      + destruct (stream_ok _ _ W) as (Xs & E1 & E2 & E3 & E4 & E5). unfold HashMapModel.values. rewrite E1. cbn [fst snd].
        assert (LT : length (tagl 0 Xs) = length (concat Xs)) by (rewrite <- (map_length hval), tagl_hval; reflexivity).
        assert (CX : card m (length (concat Xs))) by (apply (card_asc (concat Xs)); [exact E4|intro k; rewrite E5; apply HL]).
        assert (IX : forall s', Inv s' g u (set_obl (set_ntot c (N.of_nat (length (tagl 0 Xs)))) false) m).
        { intro s'. split; [exact W|]. split; [exact HL|]. split; [|split].
          - cbn. intro Q. rewrite LT. destruct (concat Xs) as [|e l] eqn:EX; [reflexivity|]. exfalso.
            pose proof (Inv_empty _ _ _ _ _ I Q (fst e)) as Y. rewrite <- HL, <- E5, alook_cons, (keq_refl cmp SW) in Y. discriminate.
          - intros _ _. exists (length (concat Xs)). split; [exact CX|cbn; rewrite LT; reflexivity].
          - intro G. destruct (H5 G) as (n & N1 & N2). exists n. split; [exact N1|]. cbn. rewrite LT, (card_uniq _ _ _ CX N1). lia. }
        destruct s.
        * eexists _, _, _, _. split; [reflexivity|]. split; [rewrite LT; apply S_size, CX|apply IX].
        * eexists _, _, _, _. split; [reflexivity|]. split; [apply S_size_any|apply IX].
      + cbn [fst snd]. destruct s.
        * destruct (H4 eq_refl eq_refl) as (n & N1 & N2). eexists _, _, _, _. split; [reflexivity|]. rewrite N2.
          split; [apply S_size, N1|exact I].
        * eexists _, _, _, _. split; [reflexivity|]. split; [apply S_size_any|exact I].
    - (* rehash *)
      destruct SF as (F1 & F2). destruct (rebuild_inv s g u c n m I F1 F2) as (c' & evs & Xs & R1 & R2 & _).
      unfold ret. rewrite R1. eexists _, _, _, _. split; [reflexivity|]. split; [apply S_rehash|exact R2].
    - (* opt_load_factor *)
      unfold ret, set_load.
      assert (I' : Inv s g u {| bks := bks c; mem := mem c; bufsz := bufsz c; maxbuf := maxbuf c; obl := obl c; ntot := ntot c; lf := l |} m) by exact I.
      destruct (lgt l (ntot c) (length (bks c))) eqn:Q.
      + destruct (SF eq_refl) as (F1 & F2).
        destruct (rebuild_inv s g u _ 0 m I') as (c' & evs & Xs & R1 & R2 & _); [rewrite n_new_0; exact F1|rewrite n_new_0; exact F2|].
        rewrite R1. eexists _, _, _, _. split; [reflexivity|]. split; [apply S_load|apply Inv_true, R2].
      + eexists _, _, _, _. split; [reflexivity|]. split; [apply S_load|exact I'].
    - (* max_buffer_size *)
      unfold ret, set_maxbuf.
      assert (I' : Inv s g u {| bks := bks c; mem := mem c; bufsz := bufsz c; maxbuf := n; obl := obl c; ntot := ntot c; lf := lf c |} m) by exact I.
      destruct (Nat.leb_spec n (bufsz c)) as [Q|Q].
      + destruct (SF Q) as (F1 & F2).
        destruct (rebuild_inv s g u _ 0 m I') as (c' & evs & Xs & R1 & R2 & _); [rewrite n_new_0; exact F1|rewrite n_new_0; exact F2|].
        rewrite R1. eexists _, _, _, _. split; [reflexivity|]. split; [apply S_maxbuf|apply Inv_true, R2].
      + eexists _, _, _, _. split; [reflexivity|]. split; [apply S_maxbuf|exact I'].
    - (* insert of a range *)
      destruct SF as (F1 & F2).
      destruct (bulk_ok c l W F1) as (c' & evs & Z & n0 & R1 & R2 & R3 & R4 & R5 & R6 & R7 & R8 & R9 & R10 & R11 & R12 & R13).
      { destruct F2 as [F2|(F2 & F3)]; [left; exact F2|right; split; [exact F2|intro k; rewrite HL; apply F3]]. }
      unfold ret. rewrite R1. exists c', RUnit, true, (look (mem c') (bks c')). split; [reflexivity|].
      assert (CZ : card (look (mem c') (bks c')) (length Z)) by (apply (card_asc Z); [exact R5|intro k; symmetry; apply R4]).
      split.
      + apply S_bulk.
        * intro k. destruct (R7 k) as [(A1 & A2)|A]; [left; split; [exact A1|rewrite A2; apply HL]|right; exact A].
        * intros a b Q. apply look_keq, Q.
      + split; [exact R2|]. split; [reflexivity|]. split; [|split].
        * intro Q. rewrite R6. destruct Z as [|e Z]; [reflexivity|]. exfalso.
          pose proof (R4 (fst e)) as Y. rewrite alook_cons, (keq_refl cmp SW) in Y. unfold look in Y. rewrite Q in Y.
          destruct (B _ (fst e)) in Y; discriminate.
        * intros _ _. exists (length Z). split; [exact CZ|exact R6].
        * intro G. destruct (H5 G) as (n & N1 & N2). exists (length Z). split; [exact CZ|]. rewrite R6.
          assert (n0 = n) by (apply (card_uniq m); [eapply card_eq; [exact HL|exact R8]|exact N1]). subst n0. lia.
  Qed.

  (** ** Histories *)

  (** Every operation is safe in the state it is applied to. *)
  Fixpoint safes (c : core) (os : list (@op K V L)) : Prop :=
    match os with
    | [] => True
    | o :: os' => safe c (look (mem c) (bks c)) o /\ small (look (mem c) (bks c))
        /\ forall c' r, exec c o = Some (c', r) -> safes c' os'
    end.
  Lemma run_safe os : forall s c m, Inv s false 0 c m -> safes c os ->
    exists c' rs s' m', run c os = Some (c', rs) /\ srun keq vdef s m os rs s' m' /\ Inv s' false 0 c' m'.
  Proof.
    induction os as [|o os IH]; intros s c m I SF.
    - eexists _, _, _, _. split; [reflexivity|]. split; [constructor|exact I].
    - cbn [safes] in SF. destruct SF as (F1 & F2 & F3). pose proof I as (_ & HL & _).
      destruct (step_ok s false 0 c m o I) as (c1 & r & s1 & m1 & R1 & R2 & R3).
      + intros n Hn. apply F2. eapply card_eq; [|exact Hn]. intro k. symmetry. apply HL.
      + discriminate.
      + eapply safe_eq; [exact HL|exact F1].
      + cbn [HashMapModel.run]. rewrite R1. cbn [fst snd].
        assert (R3' : Inv s1 false 0 c1 m1).
        { destruct R3 as (A1 & A2 & A3 & A4 & _). split; [exact A1|]. split; [exact A2|]. split; [exact A3|]. split; [exact A4|discriminate]. }
        destruct (IH s1 c1 m1 R3' (F3 _ _ R1)) as (c' & rs & s' & m' & Q1 & Q2 & Q3).
        rewrite Q1. eexists _, _, _, _. split; [reflexivity|]. split; [econstructor; eassumption|exact Q3].
  Qed.

  (** In terms of the interface: keys are looked up in maps with values only,
      erase_oblivious and operator[] get keys of the map. *)
  Definition nonempty (m : @smap K V) : Prop := exists k, m k <> None.
  Definition tame (m : @smap K V) (o : @op K V L) : Prop :=
    match o with
    | OInsertObl _ _ | OErase _ | OFind _ | OFindSet _ _ | OFindErase _ | OCFind _ | OCount _ => nonempty m
    | OEraseObl k | OIndex k | OIndexSet k _ => m k <> None
    | ORehash n => fits n = true
    | _ => True
    end.
  Fixpoint tames (s : bool) (m : @smap K V) (os : list (@op K V L)) : Prop :=
    match os with
    | [] => True
    | o :: os' => tame m o /\ forall r s' m', sstep keq vdef s m o r s' m' -> tames s' m' os'
    end.
  Definition weights (os : list (@op K V L)) : N := fold_right (fun o t => (weight o + t)%N) 0%N os.

  Record sizes_ok (cap : N) : Prop := {
    so_cap : (cap + 1 < U64)%N;
    so_nbuck : forall l t, (t <= cap)%N -> fits (nbuck l t) = true /\ ((0 < t)%N -> (0 < nbuck l t)%N);
    so_down : forall a b, (a <= b)%N -> fits b = true -> fits a = true;
    so_128 : fits 128 = true }.

  Lemma card_none (m : @smap K V) : card m 0 -> none m.
  Proof.
    intros (l & L1 & _ & L3) k. destruct l; [|discriminate]. destruct (m k) eqn:Q; [|reflexivity].
    exfalso. destruct (proj1 (L3 k)) as (x & [] & _). congruence.
  Qed.
  Lemma card_pos (m : @smap K V) n : nonempty m -> card m n -> 0 < n.
  Proof. intros (k & Hk) C. destruct n; [|lia]. exfalso. apply Hk, card_none, C. Qed.

  Lemma tame_safe cap u s c m o : sizes_ok cap -> Inv s true u c m -> (u + weight o <= cap)%N -> tame m o -> safe c m o.
  Proof.
    intros SO I HU T. pose proof I as (W & HL & H3 & H4 & H5). destruct (H5 eq_refl) as (n & N1 & N2 & N3).
    pose proof (so_cap _ SO) as SC. pose proof (Inv_proper _ _ _ _ _ I) as PR.
    assert (NE : nonempty m -> bks c <> []).
    { intros (k & Hk) Q. apply Hk. apply (Inv_empty _ _ _ _ _ I Q). }
    assert (GP : forall t l, (0 < t <= cap)%N -> good_p l t).
    { intros t l (T1 & T2). destruct (so_nbuck _ SO l t T2) as (Q1 & Q2). split; [exact Q1|apply Q2, T1]. }
    assert (POS : nonempty m -> (0 < ntot c)%N) by (intro Q; pose proof (card_pos m n Q N1); lia).
    assert (INC : (u + 1 <= cap)%N -> good_p (lf c) (uinc (ntot c))).
    { intro Q. rewrite uinc_small by lia. apply GP. lia. }
    assert (DEC : forall k, m k <> None -> good_n (lf c) (udec (ntot c)) (sdel m k)).
    { intros k Hk. pose proof (POS (ex_intro _ k Hk)) as P. rewrite udec_pos by lia.
      destruct (so_nbuck _ SO (lf c) (ntot c - 1)) as (Q1 & Q2); [lia|]. split; [exact Q1|].
      destruct (N.eq_dec (ntot c - 1) 0) as [Z|Z]; [right|left; apply Q2; lia].
      destruct (card_del m k n PR Hk N1) as (n' & -> & Q3). apply card_none. replace 0 with n' by lia. exact Q3. }
    assert (GN : forall l, good_n l (ntot c) m).
    { intro l. destruct (so_nbuck _ SO l (ntot c)) as (Q1 & Q2); [lia|]. split; [exact Q1|].
      destruct (N.eq_dec (ntot c) 0) as [Z|Z]; [right|left; apply Q2; lia]. apply card_none. replace 0 with n by lia. exact N1. }
    assert (FIRST : (u + 1 <= cap)%N -> first_ok c).
    { intro Q. unfold first_ok. destruct (length (bks c) =? 0).
      - pose proof (po_maxb PO) as MB. destruct (so_nbuck _ SO (lf c) (ntot c)) as (Q1 & Q2); [lia|].
        unfold HashMapModel.n_new. destruct (N.ltb_spec (nbuck (lf c) (ntot c)) 128) as [Z|Z].
        + split; [eapply (so_down _ SO); [apply N.le_min_l|apply (so_128 _ SO)]|]. split; [lia|]. intros _. apply GP. lia.
        + split; [exact Q1|]. split; [lia|]. intros _. apply GP. lia.
      - intros _. apply INC, Q. }
    destruct o; cbn [tame safe weight] in *; try exact Logic.I.
    - apply FIRST, HU.
    - split; [apply NE, T|intros _; apply INC, HU].
    - split; [apply NE, T|intros _ Z; apply DEC, Z].
    - split; [apply NE; exists k; exact T|intros _; apply DEC, T].
    - split; [apply NE, T|intros _; apply GP; pose proof (POS T); lia].
    - split; [apply NE, T|intros _; apply GP; pose proof (POS T); lia].
    - split; [apply NE, T|intros _; apply GP; pose proof (POS T); lia].
    - apply FIRST, HU.
    - apply NE, T.
    - apply NE, T.
    - assert (Q : nonempty m) by (exists k; exact T). split; [apply NE, Q|intros _; apply GP; pose proof (POS Q); lia].
    - assert (Q : nonempty m) by (exists k; exact T). split; [apply NE, Q|intros _; apply GP; pose proof (POS Q); lia].
    - unfold HashMapModel.n_new. destruct (GN (lf c)) as (G1 & G2). destruct (N.ltb_spec (nbuck (lf c) (ntot c)) n0) as [Z|Z].
      + split; [eapply (so_down _ SO); [apply N.le_min_l|exact T]|]. pose proof (po_maxb PO). left. lia.
      + split; assumption.
    - intros _. apply GN.
    - intros _. apply GN.
    - unfold n_bulk. rewrite N.mod_small by lia. destruct (so_nbuck _ SO (lf c) (ntot c + N.of_nat (length l))) as (Q1 & Q2); [lia|].
      split; [eapply (so_down _ SO); [apply N.le_min_l|exact Q1]|]. pose proof (po_maxb PO) as MB.
      destruct (N.eq_dec (ntot c + N.of_nat (length l)) 0) as [Z|Z]; [right|left; specialize (Q2 ltac:(lia)); lia].
      split; [destruct l; [reflexivity|cbn in Z; lia]|]. apply card_none. replace 0 with n by lia. exact N1.
  Qed.

  Lemma tame_counts m o : tame m o -> counts m o = true.
  Proof. destruct o; cbn; try reflexivity; intro H; destruct (m k); congruence. Qed.

  Lemma run_tame cap os : sizes_ok cap -> forall u s c m, Inv s true u c m -> (u + weights os <= cap)%N -> tames s m os ->
    exists c' rs s' m', run c os = Some (c', rs) /\ srun keq vdef s m os rs s' m' /\ Inv s' true (u + weights os) c' m'.
  Proof.
    intro SO. induction os as [|o os IH]; intros u s c m I HU T.
    - eexists _, _, _, _. split; [reflexivity|]. split; [constructor|]. replace (u + weights [])%N with u by (cbn; lia). exact I.
    - destruct T as (T1 & T2). cbn [weights fold_right] in HU. fold (weights os) in HU. pose proof (so_cap _ SO) as SC.
      assert (HU1 : (u + weight o <= cap)%N) by lia.
      destruct (step_ok s true u c m o I) as (c1 & r & s1 & m1 & R1 & R2 & R3).
      + intros n Hn. destruct I as (_ & _ & _ & _ & H5). destruct (H5 eq_refl) as (n' & N1 & N2). rewrite (card_uniq _ _ _ Hn N1). lia.
      + intros _. lia.
      + eapply tame_safe; eassumption.
      + rewrite (tame_counts m o T1) in R3. cbn [andb] in R3. cbn [HashMapModel.run]. rewrite R1. cbn [fst snd].
        destruct (IH (u + weight o)%N s1 c1 m1 R3) as (c' & rs & s' & m' & Q1 & Q2 & Q3); [lia|apply (T2 _ _ _ R2)|].
        rewrite Q1. eexists _, _, _, _. split; [reflexivity|]. split; [econstructor; eassumption|].
        cbn [weights fold_right]. fold (weights os). rewrite N.add_assoc. exact Q3.
  Qed.

  Lemma init_Inv n mx l : fits (N.of_nat n) = true -> Inv true true 0 (init n mx l) sempty.
  Proof.
    intro F. destruct (wf_clear n F) as (C1 & C2). split; [exact C1|]. split; [intro k; rewrite C2; reflexivity|].
    split; [reflexivity|]. split; intros; exists 0; (split; [apply card_0|cbn; lia]).
  Qed.

  (** Every history whose operations are safe. *)
  Theorem refines_safe n mx l os : fits (N.of_nat n) = true -> safes (init n mx l) os ->
    exists c' rs s' m', run (init n mx l) os = Some (c', rs) /\ srun keq vdef true sempty os rs s' m' /\ Inv s' false 0 c' m'.
  Proof.
    intros F SF. apply (run_safe os true (init n mx l) sempty); [|exact SF].
    destruct (init_Inv n mx l F) as (A1 & A2 & A3 & A4 & _). split; [exact A1|]. split; [exact A2|]. split; [exact A3|]. split; [exact A4|discriminate].
  Qed.
  (** Every history that respects the restrictions. *)
  Theorem refines_tame cap n mx l os : fits (N.of_nat n) = true -> sizes_ok cap -> (weights os <= cap)%N ->
    tames true sempty os ->
    exists c' rs s' m', run (init n mx l) os = Some (c', rs) /\ srun keq vdef true sempty os rs s' m' /\ Inv s' true (weights os) c' m'.
  Proof.
    intros F SO HU T. apply (run_tame cap os SO 0%N); [apply init_Inv, F|lia|exact T].
  Qed.
End Refine.
