(** Where the iterators of a hash map are after each operation. *)
From Coq Require Import List Bool Arith NArith Lia.
From Verif Require Import OrderLib HashMapModel HashMapSpec HashMapBase HashMapStream HashMapProofs HashMapIterModel HashMapIter
  HashMapRegModel HashMapRegSpec HashMapTrack.
Import ListNotations.

Section Ops.
  Context {K V L : Type}.
  Notation E := (K * V)%type.
  Variable hash : K -> N.
  Variable cmp : K -> K -> bool.
  Variable keqb : K -> K -> bool.
  Variable edef : E.
  Variable vdef : V.
  Variable ss spb inc : nat.
  Variable bkt : N -> nat -> nat.
  Variable nbuck : L -> N -> N.
  Variable lgt : L -> N -> nat -> bool.
  Variable maxb : N.
  Variable fits : N -> bool.
  Variable junk : nat -> nat -> E.
  Variable srt : list E -> list E.

  Notation klt := (klt hash cmp).
  Notation keq := (keq cmp).
  Notation node := (@node K V).
  Notation bucket := (@bucket K V).
  Notation core := (@core K V L).
  Notation ev := (@ev K).
  Notation obj := (@obj K).
  Notation iter := (@iter K).
  Notation asc := (asc hash cmp).
  Notation alook := (@alook K V cmp).
  Notation nfind := (@nfind K V cmp).
  Notation hit := (hit hash cmp).
  Notation ext := (@ext K V ss spb).
  Notation start := (@start K V ss spb).
  Notation layout := (@layout K V ss spb).
  Notation rnext := (rnext ss spb).
  Notation B := (B hash bkt).
  Notation wf := (@wf K V hash cmp ss spb bkt fits).
  Notation look := (@look K V hash cmp ss spb bkt).
  Notation iat := (@iat K V L hash cmp ss spb bkt).
  Notation slow := (@slow K hash cmp).
  Notation rgood := (@rgood K V ss spb).
  Notation cut := (@cut K V hash cmp ss spb).
  Notation to_int := (@to_int K V ss spb).
  Notation put_node := (put_node hash cmp).
  Notation ins_node := (ins_node hash cmp).
  Notation rebuild := (rebuild hash cmp edef ss spb inc bkt nbuck maxb fits junk).
  Notation grow := (grow hash cmp edef ss spb inc bkt nbuck maxb fits junk).
  Notation make_room := (make_room hash cmp edef ss spb inc bkt nbuck maxb fits junk).
  Notation n_new := (n_new nbuck maxb).
  Notation Inv := (@Inv K V L hash cmp ss spb bkt fits).
  Notation lk c := (look (mem c) (bks c)).

  Hypothesis PO : params_ok hash cmp keqb ss spb bkt maxb fits srt.
  Let SW := po_sw _ _ _ _ _ _ _ _ _ PO.
  Let HH := po_hash _ _ _ _ _ _ _ _ _ PO.
  Let SS := po_ss _ _ _ _ _ _ _ _ _ PO.
  Let SP := po_spb _ _ _ _ _ _ _ _ _ PO.
  Notation klt_trans := (klt_trans hash cmp SW).
  Notation klt_keq_l := (klt_keq_l hash cmp SW HH).
  Notation klt_keq_r := (klt_keq_r hash cmp SW HH).
  Notation B_keq := (B_keq hash cmp keqb ss spb bkt maxb fits srt PO).


  Notation cat := (@cat K V L hash cmp ss spb bkt).
  Notation liat := (@liat K V L hash cmp ss spb bkt).
  Notation track := (@track K V L hash cmp ss spb bkt).
  Notation oevs := (@oevs K V cmp ss spb).
  Notation smap := (@smap K V).
  Notation good_p := (good_p nbuck fits).
  Notation good_n := (good_n nbuck fits).
  Notation TT := (fun _ : K => True).
  Notation track_refl := (@track_refl K V L hash cmp keqb edef ss spb bkt maxb fits junk srt PO).
  Notation liat_look := (@liat_look K V L hash cmp keqb edef ss spb bkt maxb fits junk srt PO).
  Notation fetch_ok := (@fetch_ok K V hash cmp keqb edef ss spb bkt maxb fits junk srt PO).
  Notation iat_cat := (@iat_cat K V L hash cmp keqb edef ss spb bkt maxb fits junk srt PO).
  Notation points_iat := (@points_iat K V L hash cmp keqb edef ss spb bkt maxb fits junk srt PO).
  Notation cfind_iat := (@cfind_iat K V L hash cmp keqb edef ss spb bkt maxb fits junk srt PO).
  Notation cfind_ok := (@cfind_ok K V L hash cmp keqb edef ss spb bkt maxb fits junk srt PO).
  Notation points_int := (@points_int K V L hash cmp edef ss spb bkt fits junk).
  Notation rebuild_inv := (@rebuild_inv K V L hash cmp keqb edef ss spb inc bkt nbuck maxb fits junk srt PO).
  Notation rebuild_track := (@rebuild_track K V L hash cmp keqb edef ss spb inc bkt nbuck maxb fits junk srt PO).
  Notation grow_track := (@grow_track K V L hash cmp keqb edef ss spb inc bkt nbuck maxb fits junk srt PO).
  Notation room_track := (@room_track K V L hash cmp keqb edef ss spb inc bkt nbuck maxb fits junk srt PO).
  Notation track_mono := (@track_mono K V L hash cmp ss spb bkt).
  Notation track_ext := (@track_ext K V L hash cmp ss spb bkt).
  Notation track_ext_l := (@track_ext_l K V L hash cmp ss spb bkt).
  Notation first_ok := (@first_ok K V L nbuck maxb fits).
  Notation insert := (insert hash cmp edef ss spb inc bkt nbuck maxb fits junk).
  Notation insert_oblivious := (insert_oblivious hash cmp edef ss spb inc bkt nbuck maxb fits junk).
  Notation erase := (erase hash cmp edef vdef ss spb inc bkt nbuck maxb fits junk).
  Notation erase_it := (erase_it hash cmp edef vdef ss spb inc bkt nbuck maxb fits junk).
  Notation erase_oblivious := (erase_oblivious hash cmp edef vdef ss spb inc bkt nbuck maxb fits junk).
  Notation find := (find hash cmp edef ss spb inc bkt nbuck maxb fits junk).
  Notation cfind := (cfind hash cmp edef ss spb bkt).
  Notation index := (index hash cmp edef vdef ss spb inc bkt nbuck maxb fits junk).
  Notation exec := (exec hash cmp keqb edef vdef ss spb inc bkt nbuck lgt maxb fits junk srt).
  Notation mevs := (mevs hash cmp keqb edef vdef ss spb inc bkt nbuck lgt maxb fits junk srt).
  Notation fke_hit := (fke_hit cmp).

  Lemma len_ne2 (A : Type) (l l' : list A) : length l' = length l -> l <> [] -> l' <> [].
  Proof. destruct l, l'; try discriminate; congruence. Qed.

  (** ** Putting and inserting nodes *)

  Section Chain.
    Variables (c c' : core) (k : K) (b : bucket) (i : nat).
    Hypothesis W : wf (mem c) (bks c).
    Hypothesis NB : nth_error (bks c) (B (length (bks c)) k) = Some b.
    Hypothesis EI : i = B (length (bks c)) k.
    Hypothesis EM : mem c' = mem c.
    Variable n' : node.
    Hypothesis KN : keq (nkey n') k = true.
    Variable k2 : K.
    Hypothesis K2 : keq k k2 = true.

    Section Put.
      Variable n : node.
      Hypothesis HT : hit (blist b) k = Some n.
      Hypothesis EB : bks c' = bks (put_node c i b k n').
      Let l' := lset (blist b) (fki hash cmp (blist b) k - 1) n'.
      Lemma put_eb : bks c' = lset (bks c) (B (length (bks c)) k) (set_list b l').
      Proof. rewrite EB, EI. reflexivity. Qed.
      Lemma put_wf : wf (mem c') (bks c') /\ length (bks c') = length (bks c) /\ has hash cmp bkt (mem c') (bks c') k n'
        /\ forall x, lk c' x = if keq k x then nlive n' else lk c x.
      Proof. rewrite EM, put_eb. apply (put_ok _ _ _ _ _ _ _ _ _ PO (mem c) (bks c) k b n n' W NB HT KN). Qed.
      Lemma put_nf : forall x, nfind l' x = if keq k x then Some n' else nfind (blist b) x.
      Proof.
        destruct W as (_ & _ & _ & HB). destruct (HB _ _ NB) as (A1 & _).
        apply (chain_put hash cmp SW HH (blist b) k n n' A1 HT KN).
      Qed.
      Lemma put_hit : nfind (blist b) k <> None.
      Proof.
        destruct W as (_ & _ & _ & HB). destruct (HB _ _ NB) as (A1 & _). rewrite <- (hit_nfind hash cmp SW HH _ _ A1). congruence.
      Qed.
      Lemma put_live mm P : ndel n' = false -> track mm P false c [] c'.
      Proof.
        intro D. apply (track_none _ _ _ edef _ _ _ _ _ junk _ PO c c' b l' k n' W NB EM put_eb put_nf KN (proj2 (proj2 (proj2 put_wf)))).
        - intros _. apply put_hit.
        - intros x _ _ _. split; [apply put_hit|exact D].
      Qed.
      Lemma put_dead mm P : ndel n' = true -> track mm P false c [E2end i k2] c'.
      Proof.
        intro D. apply (track_end _ _ _ edef _ _ _ _ _ junk _ PO c c' b l' k k2 n' W NB EM put_eb put_nf KN (proj2 (proj2 (proj2 put_wf))) K2 i EI); [|exact D].
        intros _. apply put_hit.
      Qed.
    End Put.

    Section Ins.
      Hypothesis HT : hit (blist b) k = None.
      Hypothesis EB : bks c' = bks (ins_node c i b k n').
      Let l' := lins (blist b) (fki hash cmp (blist b) k) n'.
      Lemma ins_eb : bks c' = lset (bks c) (B (length (bks c)) k) (set_list b l').
      Proof. rewrite EB, EI. reflexivity. Qed.
      Lemma ins_wf : wf (mem c') (bks c') /\ length (bks c') = length (bks c) /\ has hash cmp bkt (mem c') (bks c') k n'
        /\ forall x, lk c' x = if keq k x then nlive n' else lk c x.
      Proof. rewrite EM, ins_eb. apply (ins_ok _ _ _ _ _ _ _ _ _ PO (mem c) (bks c) k b n' W NB HT KN). Qed.
      Lemma ins_nf : forall x, nfind l' x = if keq k x then Some n' else nfind (blist b) x.
      Proof.
        destruct W as (_ & _ & _ & HB). destruct (HB _ _ NB) as (A1 & _).
        apply (chain_ins hash cmp SW HH (blist b) k n' A1 HT KN).
      Qed.
      Lemma ins_miss : nfind (blist b) k = None.
      Proof.
        destruct W as (_ & _ & _ & HB). destruct (HB _ _ NB) as (A1 & _). rewrite <- (hit_nfind hash cmp SW HH _ _ A1). exact HT.
      Qed.
      Lemma ins_none mm (P : K -> Prop) : (forall x, P x -> keq k x = true -> lk c x = None) -> track mm P true c [] c'.
      Proof.
        intro D. apply (track_none _ _ _ edef _ _ _ _ _ junk _ PO c c' b l' k n' W NB EM ins_eb ins_nf KN (proj2 (proj2 (proj2 ins_wf)))); [discriminate|].
        intros x Px Hx Q. exfalso. apply Q, D; assumption.
      Qed.
      Lemma ins_dead mm P : ndel n' = true -> track mm P true c [E2end i k2] c'.
      Proof.
        intro D. apply (track_end _ _ _ edef _ _ _ _ _ junk _ PO c c' b l' k k2 n' W NB EM ins_eb ins_nf KN (proj2 (proj2 (proj2 ins_wf))) K2 i EI); [|exact D].
        discriminate.
      Qed.
      Lemma ins_int P : ndel n' = false -> track (mem c) P true c [E2int i k2] c'.
      Proof.
        intro D. apply (track_int _ _ _ edef _ _ _ _ _ junk _ PO c c' b l' k k2 n' W NB EM ins_eb ins_nf KN (proj2 (proj2 (proj2 ins_wf))) K2 i EI); [|exact D].
        apply ins_miss.
      Qed.
    End Ins.
  End Chain.

  (** ** Operations that return an iterator *)

  Definition at_new (c : core) (r : option (@itspec K)) (k : K) : Prop :=
    match r with
    | Some sp => cat c {| i_sp := sp; i_rd := None |} k Sure /\ lk c k <> None
    | None => lk c k = None
    end.
  Definition mk_track (mm : list (list E)) (c : core) (evs : list ev) (c' : core) (k : K) : Prop :=
    exists e0 r e1 c1, evs = e0 ++ EMk r :: e1 /\ track mm TT true c e0 c1 /\ track mm TT true c1 e1 c'
      /\ (forall x, lk c1 x = lk c' x) /\ at_new c1 r k.

  Lemma both_new c sp k : wf (mem c) (bks c) -> cat c {| i_sp := sp; i_rd := None |} k Sure -> cat c {| i_sp := sp; i_rd := None |} k Sure /\ lk c k <> None.
  Proof. intros W H. split; [exact H|]. apply (liat_look _ _ _ W (proj1 H)). Qed.
  Lemma cat_int_new c sp k n : wf (mem c) (bks c) -> is_b sp = B (length (bks c)) k -> is_src sp = Internal ->
    (exists k1, is_node sp = Some k1 /\ keq k1 k = true) -> has hash cmp bkt (mem c) (bks c) k n -> ndel n = false ->
    keq (is_key sp) k = true -> is_valid sp = false -> cat c {| i_sp := sp; i_rd := None |} k Sure /\ lk c k <> None.
  Proof.
    intros W E1 E2 E3 E4 E5 E6 E7. apply (both_new _ _ _ W). apply (iat_cat c _ k Sure W).
    - apply (points_iat c sp k W); [|congruence|exact E6|intros _; exact E7|congruence].
      apply (points_int c sp k n); assumption.
    - intros _ Z. cbn [i_sp] in Z. congruence.
  Qed.
  Lemma cfind_cat c k it : wf (mem c) (bks c) -> bks c <> [] -> cfind c k = Some (Some it) ->
    cat c {| i_sp := it; i_rd := None |} k Sure.
  Proof.
    intros W NE H. apply (iat_cat c _ k Sure W).
    - apply (cfind_iat c k it W NE H).
    - intros _ SR k' NK. cbn [i_sp] in *. revert H. unfold HashMapModel.cfind.
      destruct (fetch_ok _ _ k W NE) as (b & B1 & B2 & FE). unfold b_of. fold (B (length (bks c)) k). rewrite B1.
      destruct B2 as (A1 & _).
      destruct FE as [(n & F1 & F2 & F3)|(F1 & F0 & r & F2 & F3)]; rewrite F1.
      + destruct (ndel n); [discriminate|]. intro Q. injection Q as <-. discriminate SR.
      + rewrite F2. destruct (fke_hit b k r); [|discriminate]. intro Q. injection Q as <-. cbn [is_key is_node] in *.
        unfold pnode, fnode in NK.
        destruct (chain_split hash cmp SW HH (blist b) k A1) as [(l1 & n & l2 & _ & _ & _ & Z & _)|(l1 & l2 & E1 & E2 & _ & _ & E3 & E4)]; [congruence|].
        rewrite E2 in NK. destruct l1 as [|a l1] using rev_ind; [discriminate|]. clear IHl1. rewrite app_length in NK. cbn [length] in NK. rewrite Nat.add_1_r in NK.
        rewrite E1, <- app_assoc in NK. cbn [app] in NK. rewrite nth_error_app2 in NK by lia. rewrite Nat.sub_diag in NK. cbn [nth_error] in NK.
        injection NK as <-. apply (klt_asym hash cmp SW), E3, in_or_app. right. left. reflexivity.
  Qed.
  Lemma cfind_new c k r : wf (mem c) (bks c) -> bks c <> [] -> cfind c k = Some r -> at_new c r k.
  Proof.
    intros W NE H. destruct r as [it|]; [apply (both_new _ _ _ W), (cfind_cat c k it W NE H)|].
    destruct (cfind_ok c (lk c) k W) as (r & R1 & R2); [reflexivity|exact NE|]. rewrite R1 in H. injection H as ->. exact R2.
  Qed.

  (** Two steps of which the first keeps every key. *)
  Lemma track_seq mm P i j c e1 c1 e2 c2 : wf (mem c) (bks c) -> track mm P i c e1 c1 -> (forall k, lk c1 k = lk c k) ->
    track mm P j c1 e2 c2 -> track mm P (i || j) c (e1 ++ e2) c2.
  Proof.
    intros W (N1 & T1) HS (N2 & T2). split; [apply Forall_app; split; assumption|]. intros o k q Pk EN CT.
    destruct (T1 o k q Pk EN CT) as (o1 & O1 & M1 & C1). pose proof (liat_look _ _ _ W (proj1 CT)) as NN. rewrite <- HS in NN.
    destruct (lk c1 k) eqn:Q; [|congruence]. destruct C1 as (EN1 & C1). destruct (T2 o1 k _ Pk EN1 C1) as (o2 & O2 & M2 & C2).
    exists o2. rewrite oevs_app, O1. split; [exact O2|]. split; [congruence|]. destruct (lk c2 k); [|exact C2]. rewrite <- weaken_or. exact C2.
  Qed.
  Lemma track_then mm P i j c e1 c1 e2 c2 : track mm P i c e1 c1 -> track mm P j c1 e2 c2 -> (forall k, lk c2 k = lk c1 k) ->
    track mm P (i || j) c (e1 ++ e2) c2.
  Proof. intros T1 T2 H. eapply track_app; [exact T1|exact T2|]. intros k Q. rewrite H. exact Q. Qed.
  Lemma track_up mm P c e1 c1 c2 : wf (mem c) (bks c) -> track mm P false c e1 c1 -> (forall k, lk c1 k = lk c k) ->
    track mm P true c1 [] c2 -> track mm P true c e1 c2.
  Proof. intros W T1 H T2. rewrite <- (app_nil_r e1). apply (track_seq mm P false true c e1 c1 [] c2 W T1 H T2). Qed.

  Lemma insert_track mm s g u c m k v c' evs r : Inv s g u c m -> first_ok c ->
    insert c k v = Some (c', evs, r) -> mk_track mm c evs c' k.
  Proof.
    intros IN FO. unfold HashMapModel.insert.
    assert (X : exists c0 e0, (if length (bks c) =? 0 then rebuild c 128 else Some (c, [])) = Some (c0, e0)
        /\ track mm TT false c e0 c0 /\ wf (mem c0) (bks c0) /\ (forall x, lk c0 x = lk c x)
        /\ bks c0 <> [] /\ (maxbuf c0 <= S (bufsz c0) -> good_p (lf c0) (uinc (ntot c0)))).
    { unfold HashMapProofs.first_ok in FO. pose proof IN as (W & HL & _). destruct (Nat.eqb_spec (length (bks c)) 0) as [Q|Q].
      - destruct FO as (F1 & F2 & F3). apply length_zero_iff_nil in Q.
        destruct (rebuild_inv s g u c 128 m IN F1 (or_introl F2)) as (c0 & evs0 & Xs & R1 & R2 & R3 & R4 & R5 & (R6a & R6b) & _).
        destruct (rebuild_track mm TT c 128 c0 evs0 W) as (T1 & T2 & T3); [split; [exact F1|left; exact F2]|exact R1|].
        exists c0, evs0. split; [exact R1|]. split; [exact T1|]. split; [exact T2|]. split; [exact T3|]. split; [apply R3, F2|].
        rewrite R5, R6a, R6b. intro Z.
        assert (N0 : ntot c0 = 0%N).
        { destruct R2 as (_ & _ & _ & R2 & _). destruct (R2 eq_refl R4) as (n & N1 & N2).
          rewrite N2. pose proof (Inv_empty _ _ _ _ _ _ _ _ _ _ _ IN Q) as EMP.
          rewrite (card_uniq _ _ _ _ _ _ _ _ _ PO m n 0 N1); [reflexivity|]. eapply card_eq; [|apply card_0]. intro t. symmetry. apply EMP. }
        rewrite N0. replace (uinc 0) with 1%N by (vm_compute; reflexivity). apply F3, Z.
      - exists c, []. split; [reflexivity|]. split; [apply track_refl, W|]. split; [exact W|]. split; [reflexivity|].
        split; [destruct (bks c); [exfalso; apply Q; reflexivity|discriminate]|exact FO]. }
    destruct X as (c0 & e0 & -> & T0 & W & HL & NE & HG). pose proof (proj1 IN) as Wc.
    destruct (fetch_ok _ _ k W NE) as (b & B1 & B2 & FE).
    pose proof (fun rr => cfind_new c0 k rr W NE) as CF. unfold HashMapModel.cfind in CF. unfold b_of in *. fold (B (length (bks c0)) k) in *. rewrite B1 in *.
    assert (TR : track mm TT true c0 [] c0) by (eapply track_mono, track_refl, W).
    destruct FE as [(n & F1 & F2 & F3)|(F1 & F0 & rr & F2 & F3)]; rewrite F1 in *.
    - destruct (ndel n) eqn:D; intro Q; injection Q as <- <- _.
      + set (c1 := set_ntot (put_node c0 (B (length (bks c0)) k) b k {| nval := (k, v); ndel := false |}) (uinc (ntot c0))).
        destruct (put_wf c0 c1 k b _ W B1 eq_refl eq_refl {| nval := (k, v); ndel := false |} (keq_refl cmp SW k) n F1 eq_refl) as (U1 & U2 & U3 & U4).
        pose proof (put_live c0 c1 k b _ W B1 eq_refl eq_refl {| nval := (k, v); ndel := false |} (keq_refl cmp SW k) n F1 eq_refl mm TT eq_refl) as T1.
        exists e0, (Some (mk_int (B (length (bks c0)) k) k)), [], c1. split; [reflexivity|]. split; [|split; [|split; [reflexivity|]]].
        * apply (track_up mm TT c e0 c0 c1 Wc T0 HL), (track_mono _ _ false), T1.
        * eapply track_mono, track_refl, U1.
        * apply (cat_int_new c1 _ k {| nval := (k, v); ndel := false |} U1); try reflexivity; [cbn [mk_int is_b]; rewrite U2; reflexivity| |exact U3|apply (keq_refl cmp SW)].
          exists k. split; [reflexivity|apply (keq_refl cmp SW)].
      + eexists e0, _, [], c0. split; [reflexivity|]. split; [eapply track_mono, T0|]. split; [exact TR|]. split; [reflexivity|]. apply CF. reflexivity.
    - rewrite F2 in *. destruct F3 as [(G1 & G2 & G3 & G4)|(G1 & G2)]; rewrite G1 in *.
      + intro Q; injection Q as <- <- _.
        eexists e0, _, [], c0. split; [reflexivity|]. split; [eapply track_mono, T0|]. split; [exact TR|]. split; [reflexivity|]. apply CF. reflexivity.
      + set (c1 := ins_node (set_ntot c0 (uinc (ntot c0))) (B (length (bks c0)) k) b k {| nval := (k, v); ndel := false |}).
        destruct (ins_wf c0 c1 k b _ W B1 eq_refl eq_refl {| nval := (k, v); ndel := false |} (keq_refl cmp SW k) F1 eq_refl) as (U1 & U2 & U3 & U4).
        pose proof (ins_none c0 c1 k b _ W B1 eq_refl eq_refl {| nval := (k, v); ndel := false |} (keq_refl cmp SW k) F1 eq_refl mm TT) as T1.
        destruct (grow c1) as [(c2 & e1)|] eqn:GR; [|discriminate]. intro Q; injection Q as <- <- _. cbn [fst snd].
        destruct (grow_track mm TT c1 c2 e1 U1) as (T2 & W2 & L2); [|exact GR|].
        { intro Z. destruct (HG Z) as (Y1 & Y2). split; [exact Y1|left; exact Y2]. }
        exists e0, (Some (mk_int (B (length (bks c0)) k) k)), e1, c1. split; [reflexivity|]. split; [|split; [|split; [intro x; symmetry; apply L2|]]].
        * apply (track_up mm TT c e0 c0 c1 Wc T0 HL), T1. intros x _ Hx. rewrite <- (look_keq _ _ _ _ _ _ _ _ _ PO _ _ _ _ Hx). exact G2.
        * eapply track_mono, T2.
        * apply (cat_int_new c1 _ k {| nval := (k, v); ndel := false |} U1); try reflexivity; [cbn [mk_int is_b]; rewrite U2; reflexivity| |exact U3|apply (keq_refl cmp SW)].
          exists k. split; [reflexivity|apply (keq_refl cmp SW)].
  Qed.

  Lemma insert_obl_track c k v c' evs : wf (mem c) (bks c) -> bks c <> [] ->
    (maxbuf c <= S (bufsz c) -> good_p (lf c) (uinc (ntot c))) ->
    insert_oblivious c k v = Some (c', evs) -> mk_track (mem c) c evs c' k.
  Proof.
    intros W NE HG. unfold HashMapModel.insert_oblivious.
    destruct (fetch_ok _ _ k W NE) as (b & B1 & B2 & FE). unfold b_of in *. fold (B (length (bks c)) k) in *. rewrite B1.
    destruct FE as [(n & F1 & F2 & F3)|(F1 & F0 & _)]; rewrite F1.
    - intro Q. injection Q as <- <-.
      set (c1 := put_node (if ndel n then set_ntot c (uinc (ntot c)) else c) (B (length (bks c)) k) b k {| nval := (k, v); ndel := false |}).
      assert (E1 : bks c1 = bks (put_node c (B (length (bks c)) k) b k {| nval := (k, v); ndel := false |})) by (unfold c1; destruct (ndel n); reflexivity).
      assert (E2 : mem c1 = mem c) by (unfold c1; destruct (ndel n); reflexivity).
      destruct (put_wf c c1 k b _ W B1 eq_refl E2 {| nval := (k, v); ndel := false |} (keq_refl cmp SW k) n F1 E1) as (U1 & U2 & U3 & U4).
      pose proof (put_live c c1 k b _ W B1 eq_refl E2 {| nval := (k, v); ndel := false |} (keq_refl cmp SW k) n F1 E1 (mem c) TT eq_refl) as T1.
      exists [], (Some (mk_int (B (length (bks c)) k) k)), [], c1. split; [reflexivity|]. split; [eapply track_mono, T1|].
      split; [eapply track_mono, track_refl, U1|]. split; [reflexivity|].
      apply (cat_int_new c1 _ k {| nval := (k, v); ndel := false |} U1); try reflexivity; [cbn [mk_int is_b]; rewrite U2; reflexivity| |exact U3|apply (keq_refl cmp SW)].
      exists k. split; [reflexivity|apply (keq_refl cmp SW)].
    - set (c1 := ins_node (set_obl (set_ntot c (uinc (ntot c))) true) (B (length (bks c)) k) b k {| nval := (k, v); ndel := false |}).
      destruct (ins_wf c c1 k b _ W B1 eq_refl eq_refl {| nval := (k, v); ndel := false |} (keq_refl cmp SW k) F1 eq_refl) as (U1 & U2 & U3 & U4).
      pose proof (ins_int c c1 k b _ W B1 eq_refl eq_refl {| nval := (k, v); ndel := false |} (keq_refl cmp SW k) k (keq_refl cmp SW k) F1 eq_refl TT eq_refl) as T1.
      destruct (grow c1) as [(c2 & e1)|] eqn:GR; [|discriminate]. intro Q; injection Q as <- <-. cbn [fst snd].
      destruct (grow_track (mem c) TT c1 c2 e1 U1) as (T2 & W2 & L2); [|exact GR|].
      { intro Z. destruct (HG Z) as (Y1 & Y2). split; [exact Y1|left; exact Y2]. }
      exists [E2int (B (length (bks c)) k) k], (Some (mk_int (B (length (bks c)) k) k)), e1, c1. split; [reflexivity|]. split; [exact T1|].
      split; [eapply track_mono, T2|]. split; [intro x; symmetry; apply L2|].
      apply (cat_int_new c1 _ k {| nval := (k, v); ndel := false |} U1); try reflexivity; [cbn [mk_int is_b]; rewrite U2; reflexivity| |exact U3|apply (keq_refl cmp SW)].
      exists k. split; [reflexivity|apply (keq_refl cmp SW)].
  Qed.

  Lemma find_track s g u c m k c' evs r : Inv s g u c m -> bks c <> [] -> (maxbuf c <= S (bufsz c) -> good_p (lf c) (ntot c)) ->
    find c k = Some (c', evs, r) -> mk_track (mem c') c evs c' k.
  Proof.
    intros IN NE HG FD.
    assert (AN : at_new c' r k).
    { destruct (find_ok _ _ _ edef _ _ inc _ nbuck _ _ junk _ PO s g u c m k IN NE HG) as (c2 & evs2 & r2 & R1 & R2 & R3 & R4).
      pose proof FD as FD2. rewrite R1 in FD2. injection FD2 as -> -> ->. destruct r as [it|].
      - apply (both_new _ _ _ (proj1 R2)). apply (iat_cat c' _ k Sure (proj1 R2)); [|intros _ Z; cbn [i_sp] in Z; destruct R4 as (_ & _ & R4 & _); congruence].
        exact (find_iat _ _ _ edef _ _ inc _ nbuck _ _ junk _ PO s g u c c' m k evs it IN NE HG FD).
      - cbn [at_new]. rewrite (proj1 (proj2 R2)). exact R4. }
    revert FD. unfold HashMapModel.find.
    destruct (room_inv _ _ _ edef _ _ inc _ nbuck _ _ junk _ PO s g u c m IN NE HG) as (c0 & e0 & R1 & I0 & NE0 & _). rewrite R1.
    destruct (room_track (mem c') TT c c0 e0 (proj1 IN) HG R1) as (T0 & W & HL).
    destruct (fetch_ok _ _ k W NE0) as (b & B1 & B2 & FE). unfold b_of. fold (B (length (bks c0)) k). rewrite B1.
    assert (TR : track (mem c') TT true c0 [] c0) by (eapply track_mono, track_refl, W).
    destruct FE as [(n & F1 & F2 & F3)|(F1 & F0 & rr & F2 & F3)]; rewrite F1.
    - intro Q; injection Q as <- <- <-. eexists e0, _, [], c0. split; [reflexivity|]. split; [eapply track_mono, T0|]. split; [exact TR|]. split; [reflexivity|exact AN].
    - rewrite F2. destruct F3 as [(G1 & G2 & G3 & G4)|(G1 & G2)]; rewrite G1.
      + set (c1 := set_bufsz _ _). intro Q; injection Q as <- <- <-.
        destruct (ins_wf c0 c1 k b _ W B1 eq_refl eq_refl {| nval := snd rr; ndel := false |} G4 F1 eq_refl) as (U1 & U2 & U3 & U4).
        assert (G4' : keq k (fst (snd rr)) = true) by (rewrite keq_sym; exact G4).
        pose proof (ins_int c0 c1 k b _ W B1 eq_refl eq_refl {| nval := snd rr; ndel := false |} G4 (fst (snd rr)) G4' F1 eq_refl TT eq_refl) as T1.
        eexists (e0 ++ [E2int (B (length (bks c0)) k) (fst (snd rr))]), _, [], c1. split; [rewrite <- app_assoc; reflexivity|].
        split; [apply (track_seq _ TT false true c e0 c0 _ c1 (proj1 IN) T0 HL T1)|]. split; [eapply track_mono, track_refl, U1|]. split; [reflexivity|exact AN].
      + intro Q; injection Q as <- <- <-. eexists e0, _, [], c0. split; [reflexivity|]. split; [eapply track_mono, T0|]. split; [exact TR|]. split; [reflexivity|exact AN].
  Qed.

  (** ** Erasing *)

  Lemma erase_track mm P c k c' evs r : wf (mem c) (bks c) -> bks c <> [] ->
    (maxbuf c <= S (bufsz c) -> lk c k <> None -> good_n (lf c) (udec (ntot c)) (sdel keq (lk c) k)) ->
    erase c k = Some (c', evs, r) -> track mm P true c evs c'.
  Proof.
    intros W NE HG. unfold HashMapModel.erase.
    destruct (fetch_ok _ _ k W NE) as (b & B1 & B2 & FE). unfold b_of. fold (B (length (bks c)) k). rewrite B1.
    destruct FE as [(n & F1 & F2 & F3)|(F1 & F0 & rr & F2 & F3)]; rewrite F1.
    - destruct (ndel n) eqn:D; intro Q; injection Q as <- <- _; [eapply track_mono, track_refl, W|].
      match goal with |- HashMapTrack.track _ _ _ _ _ _ _ _ _ _ ?x => set (c1 := x) end. apply (track_mono mm P false), (put_dead c c1 k b _ W B1 eq_refl eq_refl {| nval := nval n; ndel := true |} F2 k (keq_refl cmp SW k) n F1 eq_refl mm P eq_refl).
    - rewrite F2. destruct F3 as [(G1 & G2 & G3 & G4)|(G1 & G2)]; rewrite G1.
      + set (c1 := ins_node _ _ _ _ _). destruct (grow c1) as [(c2 & e1)|] eqn:GR; [|discriminate]. intro Q; injection Q as <- <- _.
        destruct (ins_wf c c1 k b _ W B1 eq_refl eq_refl {| nval := (k, vdef); ndel := true |} (keq_refl cmp SW k) F1 eq_refl) as (U1 & U2 & U3 & U4).
        destruct (grow_track mm P c1 c2 e1 U1) as (T2 & W2 & L2); [|exact GR|].
        { intro Z. destruct HG as (Y1 & Y2); [exact Z|congruence|]. split; [exact Y1|]. destruct Y2 as [Y2|Y2]; [left; exact Y2|right].
          intro x. rewrite U4. specialize (Y2 x). unfold sdel in Y2. destruct (keq k x); [reflexivity|exact Y2]. }
        cbn [fst snd]. apply (track_then mm P true false c [E2end (B (length (bks c)) k) k] c1 e1 c2); [|exact T2|exact L2].
        eapply (ins_dead c c1 k b _ W B1 eq_refl eq_refl {| nval := (k, vdef); ndel := true |}); [apply (keq_refl cmp SW)..|exact F1|reflexivity|reflexivity].
      + intro Q; injection Q as <- <- _. eapply track_mono, track_refl, W.
  Qed.
  Lemma erase_obl_track mm P c k c' evs : wf (mem c) (bks c) -> bks c <> [] ->
    (maxbuf c <= S (bufsz c) -> good_n (lf c) (udec (ntot c)) (sdel keq (lk c) k)) ->
    erase_oblivious c k = Some (c', evs) -> track mm P true c evs c'.
  Proof.
    intros W NE HG. unfold HashMapModel.erase_oblivious.
    destruct (fetch_ok _ _ k W NE) as (b & B1 & B2 & FE). unfold b_of. fold (B (length (bks c)) k). rewrite B1.
    destruct FE as [(n & F1 & F2 & F3)|(F1 & F0 & _)]; rewrite F1.
    - destruct (ndel n) eqn:D; intro Q; injection Q as <- <-; [eapply track_mono, track_refl, W|].
      match goal with |- HashMapTrack.track _ _ _ _ _ _ _ _ _ _ ?x => set (c1 := x) end. apply (track_mono mm P false), (put_dead c c1 k b _ W B1 eq_refl eq_refl {| nval := nval n; ndel := true |} F2 k (keq_refl cmp SW k) n F1 eq_refl mm P eq_refl).
    - set (c1 := ins_node _ _ _ _ _). destruct (grow c1) as [(c2 & e1)|] eqn:GR; [|discriminate]. intro Q; injection Q as <- <-.
      destruct (ins_wf c c1 k b _ W B1 eq_refl eq_refl {| nval := (k, vdef); ndel := true |} (keq_refl cmp SW k) F1 eq_refl) as (U1 & U2 & U3 & U4).
      destruct (grow_track mm P c1 c2 e1 U1) as (T2 & W2 & L2); [|exact GR|].
      { intro Z. destruct HG as (Y1 & Y2); [exact Z|]. split; [exact Y1|]. destruct Y2 as [Y2|Y2]; [left; exact Y2|right].
        intro x. rewrite U4. specialize (Y2 x). unfold sdel in Y2. destruct (keq k x); [reflexivity|exact Y2]. }
      cbn [fst snd]. apply (track_then mm P true false c [E2end (B (length (bks c)) k) k] c1 e1 c2); [|exact T2|exact L2].
      eapply (ins_dead c c1 k b _ W B1 eq_refl eq_refl {| nval := (k, vdef); ndel := true |}); [apply (keq_refl cmp SW)..|exact F1|reflexivity|reflexivity].
  Qed.

  Lemma liat_points c sp rd k : wf (mem c) (bks c) -> liat c {| i_sp := sp; i_rd := rd |} k -> points hash cmp ss spb bkt c sp k /\ bks c <> [].
  Proof.
    intros (_ & _ & _ & HB) (b & NB & HBK & HK & H). cbn [i_sp i_rd] in *. split; [|intro Z; rewrite Z in NB; destruct (is_b sp); discriminate].
    split; [exact HBK|]. destruct (HB _ _ NB) as (A1 & _). destruct (is_src sp); [| |contradiction].
    - destruct H as ((k' & n & F1 & F2 & F3 & F4) & _). exists k', n. split; [exact F1|].
      assert (Z : keq k' k = true).
      { destruct (List.find_some _ _ F2) as (_ & Z). cbv beta in Z. rewrite keq_sym in Z. eapply (keq_trans cmp SW); [exact Z|exact F3]. }
      split; [exact Z|]. split; [|exact F4]. exists b. rewrite <- HBK. split; [exact NB|].
      rewrite (hit_nfind hash cmp SW HH _ _ A1), <- (nfind_keq cmp SW _ _ _ Z). exact F2.
    - destruct H as (F1 & (e & F2 & F3) & _). exists b, e. tauto.
  Qed.

  Lemma erase_it_track mm P s g u c m sp rd k : Inv s g u c m -> small cmp m -> (g = true -> (u < U64)%N) -> m k <> None ->
    liat c {| i_sp := sp; i_rd := rd |} k ->
    (maxbuf c <= S (bufsz c) -> good_n (lf c) (udec (ntot c)) (sdel keq m k)) ->
    exists c' evs, erase_it c sp = Some (c', evs) /\ Inv s g u c' (sdel keq m k) /\ track mm P true c evs c'.
  Proof.
    intros IN SM GU MK LI HG. pose proof IN as (W & HL & _). destruct (liat_points c sp rd k W LI) as (PT & NE).
    destruct LI as (b & NB & HBK & HK & H). cbn [i_sp i_rd] in *. pose proof W as (_ & _ & _ & HB). destruct (HB _ _ NB) as (A1 & _).
    destruct (is_src sp) eqn:SR; [| |contradiction].
    - destruct (erase_it_ok _ _ _ edef vdef _ _ inc _ nbuck _ _ junk _ PO s g u c m sp k IN SM GU MK NE PT SR) as (c' & evs & R1 & R2).
      exists c', evs. split; [exact R1|]. split; [exact R2|]. revert R1. unfold HashMapModel.erase_it. rewrite SR. cbn [bks set_ntot]. rewrite NB.
      destruct H as ((k' & n & F1 & F2 & F3 & F4) & _). rewrite F1, (hit_nfind hash cmp SW HH _ _ A1), F2. intro Q. injection Q as <- <-.
      assert (Z0 : keq (nkey n) k' = true) by (destruct (List.find_some _ _ F2) as (_ & Z); exact Z).
      assert (Z1 : keq k' k = true) by (rewrite keq_sym in Z0; eapply (keq_trans cmp SW); [exact Z0|exact F3]).
      assert (Z2 : keq k' (is_key sp) = true) by (rewrite (keq_r cmp SW _ _ k' HK); exact Z1).
      assert (EI : is_b sp = B (length (bks c)) k') by (rewrite HBK; symmetry; apply B_keq, Z1).
      assert (HT : hit (blist b) k' = Some n) by (rewrite (hit_nfind hash cmp SW HH _ _ A1); exact F2).
      pose proof NB as NB2. rewrite EI in NB2.
      match goal with |- HashMapTrack.track _ _ _ _ _ _ _ _ _ _ ?x => set (c1 := x) end. apply (track_mono mm P false).
      apply (put_dead c c1 k' b (is_b sp) W NB2 EI eq_refl {| nval := nval n; ndel := true |} Z0 (is_key sp) Z2 n HT eq_refl mm P eq_refl).
    - destruct H as (F1 & _). unfold HashMapModel.erase_it. rewrite SR. cbn [bks set_ntot]. rewrite NB.
      assert (KK : keq k (is_key sp) = true) by (rewrite keq_sym; exact HK).
      assert (HT : hit (blist b) (is_key sp) = None) by (rewrite (hit_nfind hash cmp SW HH _ _ A1), <- (nfind_keq cmp SW _ _ _ KK); exact F1).
      rewrite HT.
      assert (EI : is_b sp = B (length (bks c)) (is_key sp)) by (rewrite HBK; apply B_keq, KK).
      pose proof NB as NB2. rewrite EI in NB2.
      set (c1 := ins_node _ _ _ _ _).
      destruct (ins_wf c c1 (is_key sp) b (is_b sp) W NB2 EI eq_refl {| nval := (is_key sp, vdef); ndel := true |} (keq_refl cmp SW _) HT eq_refl) as (U1 & U2 & U3 & U4).
      assert (NE1 : bks c1 <> []) by (eapply len_ne2; eassumption).
      assert (U5 : forall x, lk c1 x = sdel keq m k x).
      { intro x. rewrite U4. unfold sdel. rewrite <- (keq_l cmp SW _ _ x KK). destruct (keq k x); [reflexivity|apply HL]. }
      assert (I1 : Inv s g u c1 (sdel keq m k)).
      { refine (Inv_del _ _ _ _ _ _ _ _ _ PO s g u c m k (bks c1) (obl c) IN SM GU MK _ NE1 _ _); [exact U1|exact U5|auto]. }
      destruct (grow_inv _ _ _ edef _ _ inc _ nbuck _ _ junk _ PO s g u c1 (sdel keq m k) I1 NE1) as (c2 & e1 & R1 & R2 & _ & _); [exact HG|].
      rewrite R1. exists c2, (E2end (is_b sp) (is_key sp) :: e1). split; [reflexivity|]. split; [exact R2|].
      destruct (grow_track mm P c1 c2 e1 U1) as (T2 & W2 & L2); [|exact R1|].
      { intro Z. destruct (HG Z) as (Y1 & Y2). split; [exact Y1|]. destruct Y2 as [Y2|Y2]; [left; exact Y2|right]. intro x. rewrite U5. apply Y2. }
      apply (track_then mm P true false c [E2end (is_b sp) (is_key sp)] c1 e1 c2); [|exact T2|exact L2].
      apply (ins_dead c c1 (is_key sp) b (is_b sp) W NB2 EI eq_refl {| nval := (is_key sp, vdef); ndel := true |} (keq_refl cmp SW _) (is_key sp) (keq_refl cmp SW _) HT eq_refl mm P eq_refl).
  Qed.

  (** ** Assignments *)

  Lemma lset_fst (l : list E) i e v : nth_error l i = Some e -> map fst (lset l i (fst e, v)) = map fst l.
  Proof. intro H. destruct (lset_split _ _ _ H) as (l1 & l2 & E1 & <-). rewrite E1, lset_app, !map_app. reflexivity. Qed.
  Lemma assign_track mm P c sp rd k v c' : wf (mem c) (bks c) -> liat c {| i_sp := sp; i_rd := rd |} k ->
    assign hash cmp ss spb c sp v = Some c' -> track mm P false c [] c'.
  Proof.
    intros W LI. destruct (liat_points c sp rd k W LI) as (PT & NE).
    destruct (assign_ok _ _ _ _ _ _ _ _ _ PO c sp k v W PT) as (c2 & R1 & R2 & R3 & R4 & _).
    destruct LI as (b & NB & HBK & HK & H). cbn [i_sp i_rd] in *. pose proof W as (WM & _ & _ & HB). destruct (HB _ _ NB) as (A1 & _).
    intro Q0. pose proof Q0 as Q. rewrite R1 in Q0. injection Q0 as ->. revert Q. unfold assign. rewrite NB. destruct (is_src sp) eqn:SR; [| |contradiction].
    - destruct H as ((k' & n & F1 & F2 & F3 & F4) & _). rewrite F1, (hit_nfind hash cmp SW HH _ _ A1), F2. intro Q. injection Q as <-.
      assert (Z0 : keq (nkey n) k' = true) by (destruct (List.find_some _ _ F2) as (_ & Z); exact Z).
      assert (Z1 : keq k' k = true) by (rewrite keq_sym in Z0; eapply (keq_trans cmp SW); [exact Z0|exact F3]).
      assert (EI : is_b sp = B (length (bks c)) k') by (rewrite HBK; symmetry; apply B_keq, Z1).
      assert (HT : hit (blist b) k' = Some n) by (rewrite (hit_nfind hash cmp SW HH _ _ A1); exact F2).
      pose proof NB as NB2. rewrite EI in NB2.
      match goal with |- HashMapTrack.track _ _ _ _ _ _ _ _ _ _ ?x => set (c1 := x) end.
      apply (put_live c c1 k' b (is_b sp) W NB2 EI eq_refl {| nval := (nkey n, v); ndel := ndel n |} Z0 n HT eq_refl mm P F4).
    - set (p := it_pos ss spb c b (is_ext sp)). destruct (nth_error (mem c) (fst p)) as [blk|] eqn:NP; [|discriminate].
      destruct (nth_error blk (snd p)) as [e|] eqn:NQ; [|discriminate]. intro Q. injection Q as <-.
      split; [constructor|]. intros o x q Px EN CT. exists o. split; [reflexivity|]. split; [reflexivity|].
      pose proof (liat_look _ _ _ W (proj1 CT)) as LX. rewrite R4.
      assert (CX : cat (set_mem c (lset (mem c) (fst p) (lset blk (snd p) (fst e, v)))) (it_of o) x q).
      { eapply cat_mem; [| | |exact CT]; cbn [set_mem bks mem]; [reflexivity| |].
        - assert (LP : fst p < length (mem c)) by (apply nth_error_Some; congruence).
          split; intro Z; [rewrite Z in LP; cbn in LP; lia|]. apply (f_equal (@length _)) in Z. rewrite lset_length in Z by exact LP. cbn in Z. lia.
        - intro b'. unfold HashMapBase.ext. rewrite <- !firstn_map, <- !skipn_map. do 2 f_equal.
          destruct (lset_split _ _ _ NP) as (l1 & l2 & E1 & E2). rewrite <- E2, E1, lset_app, !concat_app. cbn [concat]. rewrite !map_app, (lset_fst _ _ _ _ NQ). reflexivity. }
      destruct (keq k x); [split; [exact EN|exact CX]|]. destruct (lk c x); [split; [exact EN|exact CX]|congruence].
  Qed.

  (** ** [operator\[\]], [clear] *)

  Lemma index_track mm (P : K -> Prop) s g u c m k c' evs it : Inv s g u c m -> bks c <> [] ->
    (maxbuf c <= S (bufsz c) -> good_p (lf c) (ntot c)) -> (forall x, P x -> keq k x = false) ->
    index c k = Some (c', evs, it) ->
    track mm P true c evs c' /\ wf (mem c') (bks c') /\ liat c' {| i_sp := it; i_rd := None |} k.
  Proof.
    intros IN NE HG HP ID.
    assert (AN : wf (mem c') (bks c') /\ liat c' {| i_sp := it; i_rd := None |} k).
    { destruct (index_ok _ _ _ edef vdef _ _ inc _ nbuck _ _ junk _ PO s g u c m k IN NE HG) as (c2 & evs2 & it2 & R1 & R2 & R3).
      pose proof ID as ID2. rewrite R1 in ID2. injection ID2 as -> -> ->. assert (W' : wf (mem c') (bks c')) by (destruct (m k); apply R3).
      split; [exact W'|]. assert (IS : exists i k', it = mk_int i k' /\ keq k' k = true).
      { revert ID. unfold HashMapModel.index. destruct (room_inv _ _ _ edef _ _ inc _ nbuck _ _ junk _ PO s g u c m IN NE HG) as (c0 & e0 & Q1 & I0 & NE0 & _). rewrite Q1.
        destruct (fetch_ok _ _ k (proj1 I0) NE0) as (b & B1 & B2 & FE). unfold b_of. fold (B (length (bks c0)) k). rewrite B1.
        destruct FE as [(n & F1 & F2 & F3)|(F1 & F0 & rr & F2 & F3)]; rewrite F1.
        - intro Q. injection Q as _ _ <-. eexists _, _. split; [reflexivity|exact F2].
        - rewrite F2. intro Q. injection Q as _ _ <-. eexists _, _. split; [reflexivity|].
          destruct F3 as [(G1 & _ & _ & G4)|(G1 & _)]; rewrite G1; [exact G4|apply (keq_refl cmp SW)]. }
      destruct IS as (i & k' & -> & KK).
      eapply iat_liat; [exact edef|exact junk|exact PO|exact W'|]. apply (points_iat c' _ k W' R2); [discriminate|exact KK|reflexivity|discriminate]. }
    split; [|exact AN]. clear AN. revert ID. unfold HashMapModel.index.
    destruct (room_inv _ _ _ edef _ _ inc _ nbuck _ _ junk _ PO s g u c m IN NE HG) as (c0 & e0 & R1 & I0 & NE0 & _). rewrite R1.
    destruct (room_track mm P c c0 e0 (proj1 IN) HG R1) as (T0 & W & HL).
    destruct (fetch_ok _ _ k W NE0) as (b & B1 & B2 & FE). unfold b_of. fold (B (length (bks c0)) k). rewrite B1.
    destruct FE as [(n & F1 & F2 & F3)|(F1 & F0 & rr & F2 & F3)]; rewrite F1.
    - destruct (ndel n) eqn:D; [|intro Q; injection Q as <- <- _; eapply track_mono, T0].
      set (c1 := set_ntot _ _). intro Q; injection Q as <- <- _. apply (track_up mm P c e0 c0 c1 (proj1 IN) T0 HL), (track_mono mm P false).
      apply (put_live c0 c1 k b _ W B1 eq_refl eq_refl {| nval := (nkey n, vdef); ndel := false |} F2 n F1 eq_refl mm P eq_refl).
    - rewrite F2. set (e := if fke_hit b k rr then snd rr else (k, vdef)). set (c1 := set_bufsz _ _). intro Q; injection Q as <- <- _.
      assert (KE : keq (fst e) k = true).
      { unfold e. destruct F3 as [(G1 & _ & _ & G4)|(G1 & _)]; rewrite G1; [exact G4|apply (keq_refl cmp SW)]. }
      apply (track_up mm P c e0 c0 c1 (proj1 IN) T0 HL).
      apply (ins_none c0 c1 k b _ W B1 eq_refl eq_refl {| nval := e; ndel := false |} KE F1 eq_refl mm P).
      intros x Px Hx. rewrite (HP x Px) in Hx. discriminate.
  Qed.
  Lemma clear_track mm P c : fits (N.of_nat (length (bks c))) = true -> track mm P false c [EAllEnd] (fst (clear c)).
  Proof.
    intro F. split; [repeat constructor|]. intros o k q Pk EN CT. exists (to_end o). unfold HashMapTrack.oevs. cbn [foldo]. unfold oev. rewrite EN.
    split; [reflexivity|]. split; [reflexivity|].
    assert (RP : map (fun _ => @bucket0 K V) (bks c) = repeat bucket0 (length (bks c))).
    { clear. induction (bks c) as [|x l IH]; [reflexivity|]. cbn. rewrite IH. reflexivity. }
    cbn [fst clear bks mem]. rewrite RP. rewrite (proj2 (wf_clear _ _ _ _ _ _ _ F)). reflexivity.
  Qed.

  (** ** Operations that return no iterator *)

  Lemma exec_track s g u c m o c' r evs : Inv s g u c m -> safe cmp nbuck lgt maxb fits c m o -> plain o ->
    mevs c o = Some evs -> exec c o = Some (c', r) ->
    track (mem c) (fun x => forall k, key_of o = Some k -> keq k x = false) (inserts o) c evs c'.
  Proof.
    intros IN SF PL. set (P := fun x => _). pose proof IN as (W & HL & _).
    assert (GN : forall l t (a b : smap), (forall k : K, a k = b k) -> good_n l t a -> good_n l t b).
    { intros l t a b Hab (G1 & G2). split; [exact G1|]. destruct G2 as [G2|G2]; [left; exact G2|right]. intro x. rewrite <- Hab. apply G2. }
    assert (SD : forall k x, sdel keq m k x = sdel keq (lk c) k x) by (intros k x; unfold sdel; rewrite HL; reflexivity).
    destruct o; cbn [plain] in PL; try contradiction; cbn [HashMapRegModel.mevs HashMapModel.exec inserts safe] in *; unfold ret.
    - destruct SF as (F1 & F2). destruct (erase c k) as [((c2 & e2) & b2)|] eqn:Q; [|discriminate]. intros E1 E2. injection E1 as <-. injection E2 as <- _. cbn [fst snd].
      apply (erase_track (mem c) P c k c2 e2 b2 W F1); [|exact Q]. intros Z1 Z2. eapply GN; [apply SD|]. apply F2; [exact Z1|rewrite <- HL; exact Z2].
    - destruct SF as (F1 & F2). destruct (erase_oblivious c k) as [(c2 & e2)|] eqn:Q; [|discriminate]. intros E1 E2. injection E1 as <-. injection E2 as <- _. cbn [fst snd].
      apply (erase_obl_track (mem c) P c k c2 e2 W F1); [|exact Q]. intros Z1. eapply GN; [apply SD|]. apply F2, Z1.
    - intros E1 E2. injection E1 as <-. injection E2 as <- _. apply clear_track, W.
    - intros E1 E2. injection E1 as <-. destruct (cfind c k); [|discriminate]. injection E2 as <- _. apply track_refl, W.
    - destruct SF as (F1 & F2). destruct (index c k) as [((c2 & e2) & it)|] eqn:Q; [|discriminate]. intros E1. injection E1 as <-. cbn [fst snd].
      destruct (deref hash cmp ss spb c2 it); [|discriminate]. intro E2. injection E2 as <- _.
      apply (index_track (mem c) P s g u c m k c2 e2 it IN F1 F2); [|exact Q]. intros x Px. apply Px. reflexivity.
    - destruct SF as (F1 & F2). destruct (index c k) as [((c2 & e2) & it)|] eqn:Q; [|discriminate]. intros E1. injection E1 as <-. cbn [fst snd].
      destruct (assign hash cmp ss spb c2 it v) as [c3|] eqn:AS; [|discriminate]. intro E2. injection E2 as <- _.
      destruct (index_track (mem c) P s g u c m k c2 e2 it IN F1 F2) as (T1 & W2 & L2); [intros x Px; apply Px; reflexivity|exact Q|].
      rewrite <- (app_nil_r e2). apply (track_app _ _ _ _ _ (mem c) P true false c e2 c2 [] c3 T1); [apply (assign_track (mem c) P c2 it None k v c3 W2 L2 AS)|].
      destruct (assign_ok _ _ _ _ _ _ _ _ _ PO c2 it k v W2 (proj1 (liat_points c2 it None k W2 L2))) as (c4 & R1 & R2 & R3 & R4 & _).
      rewrite AS in R1. injection R1 as <-. intros x Hx. rewrite R4. destruct (keq k x) eqn:Z; [|exact Hx]. exfalso.
      rewrite <- (look_keq _ _ _ _ _ _ _ _ _ PO _ _ _ _ Z) in Hx. apply (liat_look _ _ _ W2 L2 Hx).
    - intros E1. injection E1 as <-. unfold size. destruct (obl c); [destruct (values hash cmp ss spb c); [|discriminate]|]; intro E2; injection E2 as <- _; cbn [fst].
      + eapply track_ext; [| |apply (track_refl _ _ c W)]; reflexivity.
      + apply track_refl, W.
    - destruct SF as (F1 & F2). destruct (rebuild c n) as [(c2 & e2)|] eqn:Q; [|discriminate]. intros E1 E2. injection E1 as <-. injection E2 as <- _.
      apply (rebuild_track (mem c) P c n c2 e2 W); [|exact Q]. split; [exact F1|]. destruct F2 as [F2|F2]; [left; exact F2|right; intro x; rewrite HL; apply F2].
    - unfold set_load. destruct (lgt l (ntot c) (length (bks c))) eqn:LG.
      + destruct (SF eq_refl) as (F1 & F2). set (c1 := {| bks := _ |}). destruct (rebuild c1 0) as [(c2 & e2)|] eqn:Q; [|discriminate]. intros E1 E2. injection E1 as <-. injection E2 as <- _.
        apply (track_ext_l (mem c) P false c c1 _ _ eq_refl eq_refl). apply (rebuild_track (mem c) P c1 0 c2 e2 W); [|exact Q].
        split; rewrite n_new_0; [exact F1|]. destruct F2 as [F2|F2]; [left; exact F2|right; intro x; cbn [c1 mem bks]; rewrite HL; apply F2].
      + intros E1 E2. injection E1 as <-. injection E2 as <- _. eapply track_ext; [| |apply (track_refl _ _ c W)]; reflexivity.
    - unfold set_maxbuf. destruct (Nat.leb_spec n (bufsz c)) as [LG|LG].
      + destruct (SF LG) as (F1 & F2). set (c1 := {| bks := _ |}). destruct (rebuild c1 0) as [(c2 & e2)|] eqn:Q; [|discriminate]. intros E1 E2. injection E1 as <-. injection E2 as <- _.
        apply (track_ext_l (mem c) P false c c1 _ _ eq_refl eq_refl). apply (rebuild_track (mem c) P c1 0 c2 e2 W); [|exact Q].
        split; rewrite n_new_0; [exact F1|]. destruct F2 as [F2|F2]; [left; exact F2|right; intro x; cbn [c1 mem bks]; rewrite HL; apply F2].
      + intros E1 E2. injection E1 as <-. injection E2 as <- _. eapply track_ext; [| |apply (track_refl _ _ c W)]; reflexivity.
    - destruct SF as (F1 & F2).
      destruct (bulk_ok _ _ _ edef _ _ inc _ nbuck _ _ junk _ PO c l W F1) as (c2 & e2 & Z & n0 & R1 & R2 & R3 & R4 & R5 & R6 & R7 & R8 & R9 & R10 & R11 & R12 & R13 & Xs & X1 & X2 & X3 & X4).
      { destruct F2 as [F2|(F2 & F3)]; [left; exact F2|right; split; [exact F2|intro k; rewrite HL; apply F3]]. }
      rewrite R1. intros E1 E2. injection E1 as <-. injection E2 as <- _. cbn [fst snd].
      apply (track_moved _ _ _ edef _ _ _ _ _ junk _ PO (mem c) P c c2 Xs e2 W X1 X2 X3 X4).
      intros k Hk. destruct (R7 k) as [(A1 & A2)|A]; [rewrite A2; exact Hk|]. destruct A as (v & _ & _ & A). congruence.
  Qed.

  (** ** Operations of one iterator *)

  Lemma touch_ok c (o : obj) k : wf (mem c) (bks c) -> liat c (it_of o) k ->
    exists o', touch hash cmp ss spb c o = Some o' /\ o_map o' = o_map o /\ o_end o' = o_end o /\ o_sp o' = o_sp o
      /\ (forall q, cat c (it_of o) k q -> cat c (it_of o') k q)
      /\ forall v, write hash cmp ss spb c o' v = assign hash cmp ss spb c (o_sp o') v.
  Proof.
    intros W (b & NB & HBK & HK & H). cbn [it_of i_sp i_rd] in *. unfold touch. destruct (is_src (o_sp o)) eqn:SR; [| |contradiction].
    - exists o. split; [reflexivity|]. split; [reflexivity|]. split; [reflexivity|]. split; [reflexivity|]. split; [auto|]. intro v. unfold write. rewrite SR. reflexivity.
    - rewrite NB. destruct H as (H1 & (e & H2 & H2') & H3 & H4 & H5). pose proof W as (WM & LY & _ & _).
      destruct (it_pos_ok _ _ _ _ _ _ _ _ _ PO c b _ _ e W NB H2) as (Q1 & Q2 & Q3 & Q4 & Q5).
      assert (R : exists r, reader hash cmp ss spb (mem c) b (it_of o) = Some (is_ext (o_sp o), r) /\ rgood (mem c) b (is_ext (o_sp o)) r).
      { unfold reader. cbn [it_of i_sp i_rd]. destruct (o_rd o) as [r|]; [exists r; split; [reflexivity|exact H4]|].
        unfold init_reader. rewrite H3. eexists. split; [reflexivity|].
        apply (riter_good _ _ _ edef _ _ _ _ _ junk _ PO (mem c) (bks c) (is_b (o_sp o)) b WM LY NB). lia. }
      destruct R as (r & R1 & R2). rewrite R1. cbn [fst snd]. eexists. split; [reflexivity|]. cbn [o_map o_end o_sp o_rd].
      assert (SPE : {| is_b := is_b (o_sp o); is_node := is_node (o_sp o); is_ext := is_ext (o_sp o); is_src := External; is_valid := true; is_key := is_key (o_sp o) |} = o_sp o).
      { destruct (o_sp o). cbn in *. rewrite SR, H3. reflexivity. }
      split; [reflexivity|]. split; [reflexivity|]. split; [exact SPE|]. split.
      + intros q (_ & CQ). split.
        * exists b. cbn [it_of i_sp i_rd o_sp o_rd is_b is_key is_src is_node is_ext is_valid]. split; [exact NB|]. split; [exact HBK|]. split; [exact HK|].
          split; [exact H1|]. split; [exists e; split; assumption|]. split; [reflexivity|]. split; [exact R2|exact H5].
        * unfold it_of in *. cbn [o_sp o_rd] in *. rewrite SPE. destruct q; exact CQ.
      + intro v. unfold write, assign. cbn [o_sp o_rd is_src is_b is_ext]. rewrite NB.
        replace r with (it_pos ss spb c b (is_ext (o_sp o))); [reflexivity|].
        destruct R2 as [(R2 & _)|(_ & R3 & R4)]; [rewrite R2 in Q4; cbn in Q4; lia|].
        assert (PE : pos ss spb r = pos ss spb (it_pos ss spb c b (is_ext (o_sp o)))) by lia.
        destruct r as (r1 & r2), (it_pos ss spb c b (is_ext (o_sp o))) as (p1 & p2). unfold pos in PE. cbn [fst snd] in *.
        assert (BP : (spb * ss) <> 0) by lia.
        assert (r1 = p1).
        { pose proof (Nat.div_unique (r1 * (spb * ss) + r2) ((spb * ss)) r1 r2 R4 ltac:(lia)) as D1.
          pose proof (Nat.div_unique (p1 * (spb * ss) + p2) ((spb * ss)) p1 p2 Q2 ltac:(lia)) as D2. rewrite PE in D1. congruence. }
        subst. f_equal. lia.
  Qed.

  Lemma ext_inj (c : core) b i e i' e' : asc (map fst (ext (mem c) b)) -> nth_error (ext (mem c) b) i = Some e -> nth_error (ext (mem c) b) i' = Some e' ->
    keq (fst e) (fst e') = true -> i = i'.
  Proof.
    intros A H1 H2 Q. destruct (Nat.lt_trichotomy i i') as [Z|[Z|Z]]; [|exact Z|]; exfalso.
    - pose proof (es_lt hash cmp ss spb (mem c) b A _ _ _ _ H1 H2 Z) as Y. rewrite (klt_keq_l _ _ (fst e') Q) in Y.
      rewrite (HashMapIter.klt_irr _ _ _ _ _ _ _ _ _ PO) in Y. discriminate.
    - pose proof (es_lt hash cmp ss spb (mem c) b A _ _ _ _ H2 H1 Z) as Y. rewrite (klt_keq_r _ _ (fst e') Q) in Y.
      rewrite (HashMapIter.klt_irr _ _ _ _ _ _ _ _ _ PO) in Y. discriminate.
  Qed.
  Lemma eq_ok c (x y : obj) k k' : wf (mem c) (bks c) -> liat c (it_of x) k -> liat c (it_of y) k' -> o_map x = o_map y ->
    o_end x = false -> o_end y = false -> obj_eqb cmp x y = keq k k'.
  Proof.
    intros W (b & NB & HBK & HK & H) (b' & NB' & HBK' & HK' & H') EM EX EY. cbn [it_of i_sp i_rd] in *. unfold obj_eqb. rewrite EX, EY, EM, eqb_reflx. cbn [andb].
    pose proof W as (_ & _ & _ & HB). destruct (HB _ _ NB) as (A1 & A2 & _).
    assert (KT : forall a b c, keq a b = true -> keq b c = true -> keq a c = true) by (intros; eapply (keq_trans cmp SW); eassumption).
    destruct (keq k k') eqn:KK.
    - assert (BE : is_b (o_sp x) = is_b (o_sp y)) by (rewrite HBK, HBK'; apply B_keq, KK). rewrite BE, Nat.eqb_refl. cbn [andb].
      rewrite <- BE in NB'. rewrite NB in NB'. injection NB' as <-.
      destruct (is_src (o_sp x)) eqn:SX; [| |contradiction]; (destruct (is_src (o_sp y)) eqn:SY; [| |contradiction]); cbn [src_eqb andb].
      + destruct H as ((k1 & n1 & F1 & F2 & F3 & F4) & _). destruct H' as ((k2 & n2 & G1 & G2 & G3 & G4) & _). rewrite F1, G1.
        destruct (List.find_some _ _ F2) as (_ & Z1). destruct (List.find_some _ _ G2) as (_ & Z2). cbv beta in Z1, Z2.
        eapply KT; [rewrite keq_sym; exact Z1|]. eapply KT; [exact F3|]. eapply KT; [exact KK|]. eapply KT; [rewrite keq_sym; exact G3|exact Z2].
      + exfalso. destruct H as ((k1 & n1 & F1 & F2 & F3 & F4) & _). destruct H' as (G1 & _). destruct (List.find_some _ _ F2) as (Z1 & _).
        apply (nfind_in cmp _ _ k' Z1); [eapply KT; eassumption|exact G1].
      + exfalso. destruct H' as ((k1 & n1 & F1 & F2 & F3 & F4) & _). destruct H as (G1 & _). destruct (List.find_some _ _ F2) as (Z1 & _).
        apply (nfind_in cmp _ _ k Z1); [eapply KT; [exact F3|rewrite keq_sym; exact KK]|exact G1].
      + destruct H as (_ & (e & F2 & F3) & _). destruct H' as (_ & (e' & G2 & G3) & _). apply Nat.eqb_eq.
        apply (ext_inj c b _ e _ e' A2 F2 G2). eapply KT; [exact F3|]. eapply KT; [exact KK|]. rewrite keq_sym. exact G3.
    - destruct (is_b (o_sp x) =? is_b (o_sp y)) eqn:BE; [|reflexivity]. apply Nat.eqb_eq in BE. cbn [andb].
      rewrite <- BE in NB'. rewrite NB in NB'. injection NB' as <-.
      destruct (is_src (o_sp x)) eqn:SX; [| |contradiction]; (destruct (is_src (o_sp y)) eqn:SY; [| |contradiction]); cbn [src_eqb andb]; try reflexivity.
      + destruct H as ((k1 & n1 & F1 & F2 & F3 & F4) & _). destruct H' as ((k2 & n2 & G1 & G2 & G3 & G4) & _). rewrite F1, G1.
        destruct (keq k1 k2) eqn:Z; [|reflexivity]. exfalso. rewrite <- (nfind_keq cmp SW _ _ _ Z), F2 in G2. injection G2 as <-.
        rewrite keq_sym in F3. rewrite (KT _ _ _ F3 G3) in KK. discriminate.
      + destruct H as (_ & (e & F2 & F3) & _). destruct H' as (_ & (e' & G2 & G3) & _). apply Nat.eqb_neq. intro Z. rewrite Z, G2 in F2. injection F2 as <-.
        rewrite keq_sym in F3. rewrite (KT _ _ _ F3 G3) in KK. discriminate.
  Qed.
End Ops.
