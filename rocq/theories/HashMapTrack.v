(** Where the iterators of a hash map are after an operation: for a single object,
    without the register. *)
From Coq Require Import List Bool Arith NArith Lia.
From Verif Require Import OrderLib HashMapModel HashMapSpec HashMapBase HashMapStream HashMapProofs HashMapIterModel HashMapIter
  HashMapRegModel HashMapRegSpec.
Import ListNotations.

Section Track.
  Context {K V L : Type}.
  Notation E := (K * V)%type.
  Variable hash : K -> N.
  Variable cmp : K -> K -> bool.
  Variable keqb : K -> K -> bool.
  Variable edef : E.
  Variable vdef : V.
  Variable ss spb inc : nat.
  Variable bkt : N -> nat -> nat.
  Variable nbuck : L -> N -> N.
  Variable lgt : L -> N -> nat -> bool.
  Variable maxb : N.
  Variable fits : N -> bool.
  Variable junk : nat -> nat -> E.
  Variable srt : list E -> list E.

  Notation klt := (klt hash cmp).
  Notation keq := (keq cmp).
  Notation node := (@node K V).
  Notation bucket := (@bucket K V).
  Notation core := (@core K V L).
  Notation ev := (@ev K).
  Notation obj := (@obj K).
  Notation iter := (@iter K).
  Notation asc := (asc hash cmp).
  Notation alook := (@alook K V cmp).
  Notation nfind := (@nfind K V cmp).
  Notation hit := (hit hash cmp).
  Notation ext := (@ext K V ss spb).
  Notation start := (@start K V ss spb).
  Notation layout := (@layout K V ss spb).
  Notation rnext := (rnext ss spb).
  Notation B := (B hash bkt).
  Notation wf := (@wf K V hash cmp ss spb bkt fits).
  Notation look := (@look K V hash cmp ss spb bkt).
  Notation iat := (@iat K V L hash cmp ss spb bkt).
  Notation slow := (@slow K hash cmp).
  Notation rgood := (@rgood K V ss spb).
  Notation cut := (@cut K V hash cmp ss spb).
  Notation to_int := (@to_int K V ss spb).
  Notation put_node := (put_node hash cmp).
  Notation ins_node := (ins_node hash cmp).
  Notation rebuild := (rebuild hash cmp edef ss spb inc bkt nbuck maxb fits junk).
  Notation grow := (grow hash cmp edef ss spb inc bkt nbuck maxb fits junk).
  Notation make_room := (make_room hash cmp edef ss spb inc bkt nbuck maxb fits junk).
  Notation n_new := (n_new nbuck maxb).
  Notation Inv := (@Inv K V L hash cmp ss spb bkt fits).
  Notation lk c := (look (mem c) (bks c)).

  Hypothesis PO : params_ok hash cmp keqb ss spb bkt maxb fits srt.
  Let SW := po_sw _ _ _ _ _ _ _ _ _ PO.
  Let HH := po_hash _ _ _ _ _ _ _ _ _ PO.
  Let SS := po_ss _ _ _ _ _ _ _ _ _ PO.
  Let SP := po_spb _ _ _ _ _ _ _ _ _ PO.
  Notation klt_trans := (klt_trans hash cmp SW).
  Notation klt_keq_l := (klt_keq_l hash cmp SW HH).
  Notation klt_keq_r := (klt_keq_r hash cmp SW HH).
  Notation B_keq := (B_keq hash cmp keqb ss spb bkt maxb fits srt PO).

  (** ** Being at a key *)

  Definition liat (c : core) (it : iter) (k : K) : Prop :=
    let sp := i_sp it in
    exists b, nth_error (bks c) (is_b sp) = Some b /\ is_b sp = B (length (bks c)) k /\ keq (is_key sp) k = true
      /\ match is_src sp with
         | Internal =>
             (exists k' n, is_node sp = Some k' /\ nfind (blist b) k' = Some n /\ keq (nkey n) k = true /\ ndel n = false)
             /\ (is_valid sp = true -> is_ext sp <= bn b /\ cut (mem c) b k (is_ext sp))
             /\ match i_rd it with Some r => is_valid sp = true /\ rgood (mem c) b (is_ext sp) r | None => True end
         | External =>
             nfind (blist b) k = None
             /\ (exists e, nth_error (ext (mem c) b) (is_ext sp) = Some e /\ keq (fst e) k = true)
             /\ is_valid sp = true
             /\ match i_rd it with Some r => rgood (mem c) b (is_ext sp) r | None => True end
             /\ match is_node sp with Some k' => nfind (blist b) k' <> None | None => True end
         | Unknown => False
         end.
  (** The nodes before the node of the iterator are not after the key. *)
  Definition wk (c : core) (it : iter) (k : K) : Prop :=
    is_src (i_sp it) = External -> forall k' b, is_node (i_sp it) = Some k' -> nth_error (bks c) (is_b (i_sp it)) = Some b ->
    forall x, nfind (blist b) x <> None -> klt x k' = true -> klt k x = false.
  Definition cat (c : core) (it : iter) (k : K) (q : qual) : Prop :=
    liat c it k /\ match q with Sure => slow it | Begun => wk c it k | Lost => True end.

  Lemma slow_wk c it k : keq (is_key (i_sp it)) k = true -> slow it -> wk c it k.
  Proof.
    intros HK S SR k' b NK NB x _ Hx. destruct (klt k x) eqn:Q; [|reflexivity].
    pose proof (S SR k' NK) as Z. rewrite (klt_keq_l _ _ k' HK), (klt_trans _ _ _ Q Hx) in Z. discriminate.
  Qed.
  Lemma nfind_ne (l : list node) x : nfind l x <> None -> exists n, In n l /\ keq (nkey n) x = true.
  Proof.
    intro H. unfold HashMapBase.nfind in H. destruct (List.find _ l) as [n|] eqn:Q; [|congruence].
    apply find_some in Q. exists n. exact Q.
  Qed.
  Lemma nfind_in (l : list node) n x : In n l -> keq (nkey n) x = true -> nfind l x <> None.
  Proof.
    intros H1 H2 Q. unfold HashMapBase.nfind in Q. apply (find_none _ _ Q) in H1. congruence.
  Qed.
  Lemma iat_liat c it k : wf (mem c) (bks c) -> iat c it k -> liat c it k /\ wk c it k.
  Proof.
    intros (_ & _ & _ & HB) (b & NB & HBK & HK & H). destruct (HB _ _ NB) as (A1 & _).
    unfold liat, wk. cbv zeta. destruct (is_src (i_sp it)) eqn:SR; [| |contradiction].
    - split; [|discriminate]. exists b. tauto.
    - destruct H as (H1 & H2 & H3 & H4 & H5). split.
      + exists b. split; [exact NB|]. split; [exact HBK|]. split; [exact HK|]. split; [exact H1|]. split; [exact H2|]. split; [exact H3|]. split; [exact H4|].
        destruct (is_node (i_sp it)) as [k'|]; [|exact I]. destruct H5 as (pre & n & suf & Q1 & Q2 & Q3).
        apply (nfind_in _ n); [rewrite Q1; apply in_or_app; right; left; reflexivity|exact Q2].
      + intros _ k' b' NK NB' x Hx Lx. rewrite NK in H5. replace b' with b in * by congruence. destruct H5 as (pre & n & suf & Q1 & Q2 & Q3).
        destruct (nfind_ne _ _ Hx) as (y & Y1 & Y2). rewrite <- (klt_keq_r _ _ k Y2). apply Q3.
        rewrite Q1 in Y1, A1. rewrite map_app in A1. apply FOP_app in A1. destruct A1 as (_ & A1 & _). cbn [map] in A1. apply asc_cons in A1.
        rewrite <- (klt_keq_l _ _ k' Y2), <- (klt_keq_r _ _ (nkey y) Q2) in Lx.
        apply in_app_or in Y1. destruct Y1 as [Y1|[Y1|Y1]]; [exact Y1| |].
        * exfalso. rewrite Y1, (klt_irr hash cmp keqb ss spb bkt maxb fits srt PO) in Lx. discriminate.
        * exfalso. pose proof (proj1 A1 (nkey y) (in_map _ _ _ Y1)) as Z. apply (klt_asym hash cmp SW) in Z. congruence.
  Qed.
  Lemma liat_iat c it k : wf (mem c) (bks c) -> liat c it k -> wk c it k -> iat c it k.
  Proof.
    intros (_ & _ & _ & HB) (b & NB & HBK & HK & H) W. destruct (HB _ _ NB) as (A1 & _). exists b.
    split; [exact NB|]. split; [exact HBK|]. split; [exact HK|]. destruct (is_src (i_sp it)) eqn:SR; [exact H| |exact H].
    destruct H as (H1 & H2 & H3 & H4 & H5). split; [exact H1|]. split; [exact H2|]. split; [exact H3|]. split; [exact H4|].
    destruct (is_node (i_sp it)) as [k'|] eqn:NK; [|exact I]. destruct (nfind_ne _ _ H5) as (n & N1 & N2).
    apply in_split in N1. destruct N1 as (pre & suf & Q). exists pre, n, suf. split; [exact Q|]. split; [exact N2|]. intros x Hx.
    apply (W SR k' b NK NB).
    - apply (nfind_in _ x); [rewrite Q; apply in_or_app; left; exact Hx|apply (keq_refl cmp SW)].
    - rewrite <- (klt_keq_r _ _ (nkey x) N2). rewrite Q, map_app in A1. apply FOP_app in A1. apply A1; [apply in_map, Hx|left; reflexivity].
  Qed.
  Lemma cat_iat c it k q : wf (mem c) (bks c) -> q <> Lost -> cat c it k q -> iat c it k.
  Proof.
    intros W HQ (H1 & H2). apply liat_iat; [exact W|exact H1|]. destruct q; [|exact H2|congruence].
    apply slow_wk; [|exact H2]. destruct H1 as (b & _ & _ & H & _). exact H.
  Qed.
  Lemma iat_cat c it k q : wf (mem c) (bks c) -> iat c it k -> (q = Sure -> slow it) -> cat c it k q.
  Proof.
    intros W H S. destruct (iat_liat c it k W H) as (H1 & H2). split; [exact H1|]. destruct q; [apply S; reflexivity|exact H2|exact I].
  Qed.
  Lemma cat_mono c it k ins q : cat c it k (weaken ins q) -> cat c it k (weaken true q).
  Proof. intros (H1 & H2). split; [exact H1|]. destruct ins; [exact H2|]. destruct q; [exact H2|exact I|exact I]. Qed.
  Lemma cat_sure c it k q : cat c it k Sure -> cat c it k q.
  Proof.
    intros (H1 & H2). split; [exact H1|]. destruct q; [exact H2| |exact I]. apply slow_wk; [|exact H2].
    destruct H1 as (b & _ & _ & H & _). exact H.
  Qed.
  Lemma cat_int c it k q : is_src (i_sp it) = Internal -> liat c it k -> cat c it k q.
  Proof. intros SR H. apply cat_sure. split; [exact H|]. intro Q. congruence. Qed.

  Lemma liat_value c it k : wf (mem c) (bks c) -> liat c it k ->
    exists e, value hash cmp ss spb c it = Some e /\ keq (fst e) k = true /\ lk c k = Some (snd e).
  Proof.
    intros W H. destruct (is_src (i_sp it)) eqn:SR.
    - apply (iat_value _ _ _ edef _ _ _ _ _ junk _ PO c W). apply liat_iat; [exact W|exact H|]. intro Q. congruence.
    - set (it' := {| i_sp := {| is_b := is_b (i_sp it); is_node := None; is_ext := is_ext (i_sp it); is_src := External;
                                is_valid := is_valid (i_sp it); is_key := is_key (i_sp it) |}; i_rd := i_rd it |}).
      assert (H' : iat c it' k).
      { destruct H as (b & NB & HBK & HK & H). exists b. cbn [it' i_sp i_rd is_b is_node is_ext is_src is_valid is_key].
        split; [exact NB|]. split; [exact HBK|]. split; [exact HK|]. rewrite SR in H. tauto. }
      destruct (iat_value _ _ _ edef _ _ _ _ _ junk _ PO c W it' k H') as (e & E1 & E2 & E3). exists e. split; [|split; assumption].
      rewrite <- E1. unfold value. cbn [it' i_sp i_rd is_b is_src]. rewrite SR. destruct H as (b & NB & _ & _ & H). rewrite NB, SR in *.
      unfold reader, init_reader. cbn [it' i_sp i_rd is_b is_src is_valid is_ext]. destruct H as (_ & _ & V1 & _). rewrite V1. reflexivity.
    - exfalso. destruct H as (b & _ & _ & _ & H). rewrite SR in H. exact H.
  Qed.
  Lemma liat_look c it k : wf (mem c) (bks c) -> liat c it k -> lk c k <> None.
  Proof. intros W H. destruct (liat_value c it k W H) as (e & _ & _ & Q). congruence. Qed.

  Lemma cat_ext c c' it k q : bks c' = bks c -> mem c' = mem c -> cat c it k q -> cat c' it k q.
  Proof. intros E1 E2. unfold cat, liat, wk. rewrite E1, E2. auto. Qed.
  (** Values may be overwritten in external memory. *)
  Lemma cat_mem c c' it k q : bks c' = bks c -> (mem c = [] <-> mem c' = []) ->
    (forall b, map fst (ext (mem c') b) = map fst (ext (mem c) b)) -> cat c it k q -> cat c' it k q.
  Proof.
    intros E1 E2 E3.
    assert (G : forall b ie r, rgood (mem c) b ie r -> rgood (mem c') b ie r).
    { intros b ie r [(Q1 & Q2)|(Q1 & Q2)]; [left; split; [apply E2, Q1|exact Q2]|right; split; [|exact Q2]]. intro Z. apply Q1, E2, Z. }
    assert (N : forall b j e, nth_error (ext (mem c') b) j = Some e -> exists e', nth_error (ext (mem c) b) j = Some e' /\ fst e' = fst e).
    { intros b j e H. pose proof (f_equal (fun l => nth_error l j) (E3 b)) as Q. cbv beta in Q. rewrite !nth_error_map, H in Q. cbn in Q.
      destruct (nth_error (ext (mem c) b) j) as [e'|]; [|discriminate]. exists e'. split; [reflexivity|]. cbn in Q. congruence. }
    assert (N' : forall b j e, nth_error (ext (mem c) b) j = Some e -> exists e', nth_error (ext (mem c') b) j = Some e' /\ fst e' = fst e).
    { intros b j e H. pose proof (f_equal (fun l => nth_error l j) (E3 b)) as Q. cbv beta in Q. rewrite !nth_error_map, H in Q. cbn in Q.
      destruct (nth_error (ext (mem c') b) j) as [e'|]; [|discriminate]. exists e'. split; [reflexivity|]. cbn in Q. congruence. }
    intros (H1 & H2). split; [|destruct q; try exact H2; unfold wk in *; rewrite E1; exact H2].
    destruct H1 as (b & NB & HBK & HK & H). exists b. rewrite E1. split; [exact NB|]. split; [exact HBK|]. split; [exact HK|].
    destruct (is_src (i_sp it)); [| |exact H].
    - destruct H as (F1 & F2 & F3). split; [exact F1|]. split.
      + intro Q. destruct (F2 Q) as (Q1 & Q2). split; [exact Q1|]. intros t e He. destruct (N _ _ _ He) as (e' & He' & <-). apply Q2, He'.
      + destruct (i_rd it); [|exact I]. destruct F3 as (F3 & F4). split; [exact F3|apply G, F4].
    - destruct H as (F1 & (e & F2 & F2') & F3 & F4 & F5). split; [exact F1|]. split.
      + destruct (N' _ _ _ F2) as (e' & Q1 & Q2). exists e'. split; [exact Q1|]. rewrite Q2. exact F2'.
      + split; [exact F3|]. split; [|exact F5]. destruct (i_rd it); [apply G, F4|exact I].
  Qed.

  (** ** A change of a chain *)

  Section Upd.
    Variables (c c' : core) (b : bucket) (l' : list node) (kk : K) (n' : node).
    Hypothesis W : wf (mem c) (bks c).
    Hypothesis NB : nth_error (bks c) (B (length (bks c)) kk) = Some b.
    Hypothesis EM : mem c' = mem c.
    Hypothesis EB : bks c' = lset (bks c) (B (length (bks c)) kk) (set_list b l').
    Hypothesis NF : forall x, nfind l' x = if keq kk x then Some n' else nfind (blist b) x.
    Hypothesis KN : keq (nkey n') kk = true.

    Lemma upd_len : length (bks c') = length (bks c).
    Proof. rewrite EB. apply lset_length. apply nth_error_Some. congruence. Qed.
    Lemma upd_nth i : nth_error (bks c') i = if i =? B (length (bks c)) kk then Some (set_list b l') else nth_error (bks c) i.
    Proof. rewrite EB. apply nth_lset. apply nth_error_Some. congruence. Qed.
    Lemma nf_ne x : nfind (blist b) x <> None -> nfind l' x <> None.
    Proof. rewrite NF. destruct (keq kk x); [discriminate|auto]. Qed.

    Lemma upd_cat ins it k q : (ins = false -> nfind (blist b) kk <> None) -> cat c it k q ->
      (keq kk k = false \/ nfind (blist b) kk <> None /\ ndel n' = false) -> cat c' it k (weaken ins q).
    Proof.
      intros HI (H1 & H2) HC. pose proof upd_len as UL. pose proof upd_nth as UN. split.
      - destruct H1 as (b0 & NB0 & HBK & HK & H). unfold liat. cbv zeta. rewrite UL, UN, EM.
        destruct (Nat.eqb_spec (is_b (i_sp it)) (B (length (bks c)) kk)) as [Q|Q].
        + rewrite Q in NB0. replace b0 with b in * by congruence. clear NB0. exists (set_list b l'). split; [reflexivity|]. split; [exact HBK|]. split; [exact HK|].
          cbn [set_list blist bn]. destruct (is_src (i_sp it)); [| |exact H].
          * destruct H as ((k' & n & F1 & F2 & F3 & F4) & F5 & F6). split; [|split; [exact F5|exact F6]].
            assert (NK : keq k' k = true).
            { destruct (List.find_some _ _ F2) as (_ & Z). cbv beta in Z. rewrite keq_sym in Z. eapply (keq_trans cmp SW); [exact Z|exact F3]. }
            destruct (keq kk k') eqn:Z.
            -- exists k', n'. split; [exact F1|]. rewrite NF, Z. split; [reflexivity|].
               assert (Z2 : keq kk k = true) by (eapply (keq_trans cmp SW); eassumption).
               split; [eapply (keq_trans cmp SW); [exact KN|exact Z2]|]. destruct HC as [HC|(_ & HC)]; [congruence|exact HC].
            -- exists k', n. split; [exact F1|]. rewrite NF, Z. tauto.
          * destruct H as (F1 & F2 & F3 & F4 & F5). split.
            -- rewrite NF. destruct (keq kk k) eqn:Z; [|exact F1]. destruct HC as [HC|(HC & _)]; [congruence|].
               exfalso. apply HC. rewrite (nfind_keq cmp SW _ _ _ Z). exact F1.
            -- split; [exact F2|]. split; [exact F3|]. split; [exact F4|]. destruct (is_node (i_sp it)); [apply nf_ne, F5|exact I].
        + exists b0. split; [exact NB0|]. split; [exact HBK|]. split; [exact HK|exact H].
      - destruct q; cbn [weaken]; [destruct ins; exact H2| |destruct ins; exact I]. destruct ins; [exact I|]. cbn [weaken].
        intros SR k' b' NK NB' x Hx Lx. rewrite UN in NB'.
        destruct (Nat.eqb_spec (is_b (i_sp it)) (B (length (bks c)) kk)) as [Q|Q].
        + injection NB' as <-. cbn [set_list blist] in Hx. rewrite <- Q in NB. apply (H2 SR k' b NK NB x); [|exact Lx].
          rewrite NF in Hx. destruct (keq kk x) eqn:Z; [|exact Hx]. rewrite <- (nfind_keq cmp SW _ _ _ Z). apply HI. reflexivity.
        + apply (H2 SR k' b' NK NB' x Hx Lx).
    Qed.

    (** A value of external memory is brought to internal memory. *)
    Lemma conv_cat o k k2 q : is_src (o_sp o) = External -> liat c (it_of o) k -> keq kk k = true -> keq kk k2 = true -> ndel n' = false ->
      cat c' (it_of (to_int (mem c) o k2)) k q.
    Proof.
      intros SR (b0 & NB0 & HBK & HK & H) Z1 Z2 DN. apply cat_int; [reflexivity|]. pose proof upd_len as UL. pose proof upd_nth as UN.
      cbn [it_of i_sp i_rd] in *. rewrite SR in H. destruct H as (F1 & (e & F2 & F2') & F3 & F4 & F5).
      assert (BE : B (length (bks c)) k = B (length (bks c)) kk) by (symmetry; apply B_keq, Z1).
      exists (set_list b l'). cbn [HashMapRegModel.to_int it_of o_sp o_rd i_sp i_rd is_b is_node is_ext is_src is_valid is_key set_list blist bn].
      rewrite UN, UL. pose proof HBK as HBK2. rewrite BE in HBK2. rewrite HBK2, Nat.eqb_refl. split; [reflexivity|]. split; [congruence|]. split; [exact HK|].
      rewrite HBK2 in NB0. replace b0 with b in * by congruence. clear NB0 b0. rewrite EM.
      destruct W as (WM & LY & _ & HB). destruct (HB _ _ NB) as (_ & A2 & _).
      assert (LT : is_ext (o_sp o) < bn b).
      { rewrite <- (layout_len ss spb SS SP (mem c) (bks c) _ b LY NB). apply nth_error_Some. congruence. }
      split; [|split].
      - exists k2, n'. split; [reflexivity|]. rewrite NF, Z2. split; [reflexivity|]. split; [|exact DN]. eapply (keq_trans cmp SW); eassumption.
      - intros _. split; [lia|]. intros t x Hx. change (nth_error (ext (mem c) b) t = Some x) in Hx.
        rewrite <- (klt_keq_l _ _ (fst x) F2'). destruct (Nat.leb_spec (S (is_ext (o_sp o))) t) as [Q|Q].
        + eapply (es_lt hash cmp ss spb (mem c) b A2); [exact F2|exact Hx|lia].
        + destruct (Nat.eq_dec t (is_ext (o_sp o))) as [Y|Y].
          * subst t. replace x with e by congruence. apply (klt_irr hash cmp keqb ss spb bkt maxb fits srt PO).
          * apply (klt_asym hash cmp SW). eapply (es_lt hash cmp ss spb (mem c) b A2); [exact Hx|exact F2|lia].
      - destruct (o_rd o) as [r|]; [|exact I]. split; [exact F3|].
        apply (rnext_good _ _ _ edef _ _ _ _ _ junk _ PO (mem c) (bks c) _ b WM LY NB); assumption.
    Qed.
  End Upd.

  (** ** Events on one object *)

  Definition oev (mm : list (list E)) (o : obj) (e : ev) : option obj :=
    if o_end o then Some o
    else match e with
         | EMk _ => Some o
         | E2ext bo k bw ie => Some (if (is_b (o_sp o) =? bo) && keq k (is_key (o_sp o)) then to_ext o bw ie else o)
         | E2int i k => if (is_b (o_sp o) =? i) && keq (is_key (o_sp o)) k
                        then match is_src (o_sp o) with External => Some (to_int mm o k) | _ => None end
                        else Some o
         | E2end i k => Some (if (is_b (o_sp o) =? i) && keq k (is_key (o_sp o)) then to_end o else o)
         | EAllEnd => Some (to_end o)
         end.
  Definition oevs (mm : list (list E)) (o : obj) (evs : list ev) : option obj := foldo (oev mm) evs o.

  Lemma foldo_app {S A} (f : S -> A -> option S) l1 l2 s :
    foldo f (l1 ++ l2) s = match foldo f l1 s with Some s' => foldo f l2 s' | None => None end.
  Proof. revert s. induction l1 as [|x l1 IH]; intro s; [reflexivity|]. cbn. destruct (f s x); [apply IH|reflexivity]. Qed.
  Lemma oevs_app mm o l1 l2 : oevs mm o (l1 ++ l2) = match oevs mm o l1 with Some o' => oevs mm o' l2 | None => None end.
  Proof. apply foldo_app. Qed.
  Lemma oevs_end mm o l : o_end o = true -> oevs mm o l = Some o.
  Proof. intro H. induction l as [|e l IH]; [reflexivity|]. unfold oevs. cbn. unfold oev at 1. rewrite H. exact IH. Qed.

  Definition notmk (e : ev) : Prop := match e with EMk _ => False | _ => True end.
  (** An iterator at a key with [P] is at the key afterwards if the key is there, and is at the end otherwise. *)
  Definition track (mm : list (list E)) (P : K -> Prop) (ins : bool) (c : core) (evs : list ev) (c' : core) : Prop :=
    Forall notmk evs /\
    forall o k q, P k -> o_end o = false -> cat c (it_of o) k q ->
    exists o', oevs mm o evs = Some o' /\ o_map o' = o_map o
      /\ match lk c' k with
         | Some _ => o_end o' = false /\ cat c' (it_of o') k (weaken ins q)
         | None => o_end o' = true
         end.

  Lemma weaken_or i j q : weaken j (weaken i q) = weaken (i || j) q.
  Proof. destruct i, j, q; reflexivity. Qed.
  Lemma track_app mm P i j c e1 c1 e2 c2 : track mm P i c e1 c1 -> track mm P j c1 e2 c2 ->
    (forall k, lk c1 k = None -> lk c2 k = None) -> track mm P (i || j) c (e1 ++ e2) c2.
  Proof.
    intros (N1 & T1) (N2 & T2) HN. split; [apply Forall_app; split; assumption|]. intros o k q Pk EN CT.
    destruct (T1 o k q Pk EN CT) as (o1 & O1 & M1 & C1). rewrite oevs_app, O1. destruct (lk c1 k) eqn:Q.
    - destruct C1 as (EN1 & C1). destruct (T2 o1 k _ Pk EN1 C1) as (o2 & O2 & M2 & C2). exists o2. split; [exact O2|]. split; [congruence|].
      destruct (lk c2 k); [|exact C2]. rewrite <- weaken_or. exact C2.
    - exists o1. rewrite (oevs_end _ _ _ C1). split; [reflexivity|]. split; [exact M1|]. rewrite (HN k Q). exact C1.
  Qed.
  Lemma track_mono mm P ins c evs c' : track mm P ins c evs c' -> track mm P true c evs c'.
  Proof.
    intros (N & T). split; [exact N|]. intros o k q Pk EN CT. destruct (T o k q Pk EN CT) as (o' & O1 & M1 & C1). exists o'. split; [exact O1|]. split; [exact M1|].
    destruct (lk c' k); [|exact C1]. destruct C1 as (C1 & C2). split; [exact C1|]. eapply cat_mono, C2.
  Qed.
  Lemma track_ext mm P ins c evs c' c'' : bks c'' = bks c' -> mem c'' = mem c' -> track mm P ins c evs c' -> track mm P ins c evs c''.
  Proof.
    intros E1 E2 (N & T). split; [exact N|]. intros o k q Pk EN CT. destruct (T o k q Pk EN CT) as (o' & O1 & M1 & C1). exists o'. split; [exact O1|]. split; [exact M1|].
    rewrite E1, E2. destruct (lk c' k); [|exact C1]. destruct C1 as (C1 & C2). split; [exact C1|]. eapply cat_ext; eassumption.
  Qed.
  Lemma track_ext_l mm P ins c0 c evs c' : bks c = bks c0 -> mem c = mem c0 -> track mm P ins c evs c' -> track mm P ins c0 evs c'.
  Proof.
    intros E1 E2 (N & T). split; [exact N|]. intros o k q Pk EN CT. apply (T o k q Pk EN). eapply cat_ext; [| |exact CT]; assumption.
  Qed.
  Lemma track_refl mm P c : wf (mem c) (bks c) -> track mm P false c [] c.
  Proof.
    intros W. split; [constructor|]. intros o k q Pk EN CT. exists o. split; [reflexivity|]. split; [reflexivity|].
    destruct (lk c k) eqn:Q; [split; assumption|]. exfalso. apply (liat_look _ _ _ W (proj1 CT) Q).
  Qed.

  (** *** Rebuilding *)

  Lemma oevs_other mm evs : forall o, Forall (fun e => match e with E2ext _ k _ _ => keq k (is_key (o_sp o)) = false | _ => False end) evs ->
    oevs mm o evs = Some o.
  Proof.
    induction evs as [|e evs IH]; intros o H; [reflexivity|]. inversion H as [|? ? H1 H2]; subst. unfold oevs. cbn [foldo].
    assert (Q : oev mm o e = Some o).
    { unfold oev. destruct (o_end o); [reflexivity|]. destruct e; try contradiction. rewrite H1, andb_false_r. reflexivity. }
    rewrite Q. apply IH, H2.
  Qed.
  Lemma track_moved mm P c c' Xs evs : wf (mem c) (bks c) ->
    chunked hash bkt (length (bks c)) 0 Xs -> asc (map fst (concat Xs)) -> (forall k, alook (concat Xs) k = lk c k) ->
    emoved hash cmp ss spb bkt (mem c') (bks c') Xs evs -> (forall k, lk c k <> None -> lk c' k <> None) ->
    track mm P false c evs c'.
  Proof.
    intros W CH AX AL (M1 & M2) HL. split.
    { apply Forall_forall. intros e He. destruct (M2 e He) as (h & i & j & b & e' & _ & -> & _). exact I. }
    intros o k q Pk EN CT. pose proof (liat_look _ _ _ W (proj1 CT)) as LK.
    pose proof (HL _ LK) as LK'. destruct (lk c' k) as [v'|]; [|congruence]. clear LK' v'.
    destruct (lk c k) as [v|] eqn:Q; [|congruence]. rewrite <- AL in Q. apply alook_some in Q. destruct Q as (e & E1 & E2 & E3).
    rewrite <- (tagl_hval 0 Xs) in E1. apply in_map_iff in E1. destruct E1 as (h0 & <- & Hh0).
    assert (IN : In (Some (hkey h0)) (map (ekey (K := K)) evs)) by (rewrite M1; apply (in_map (fun h => Some (hkey h))), Hh0).
    apply in_map_iff in IN. destruct IN as (e & Ke & He). pose proof (M2 _ He) as (h & i & j & b & e' & Hh & -> & D1 & D2 & D3 & D4 & D5).
    cbn [ekey] in Ke. injection Ke as Ke. change (keq (hkey h0) k = true) in E2. rewrite <- Ke in E2. clear h0 Hh0 Ke E3.
    apply in_split in He. destruct He as (ev1 & ev2 & ->).
    assert (AK : asc (map hkey (tagl 0 Xs))).
    { rewrite <- (tagl_hval 0 Xs), map_map in AX. exact AX. }
    assert (HK : keq (is_key (o_sp o)) k = true) by (destruct CT as ((b0 & _ & _ & H & _) & _); exact H).
    assert (BK : is_b (o_sp o) = B (length (bks c)) k) by (destruct CT as ((b0 & _ & H & _) & _); exact H).
    assert (HB : hb h = B (length (bks c)) k).
    { apply (tagl_in ss spb SS SP) in Hh. destruct Hh as (t & X & J1 & J2 & J3). rewrite J3.
      pose proof (CH t X (hval h) J1 J2) as Z. rewrite <- Z. apply B_keq, E2. }
    rewrite map_app in M1. cbn [map ekey] in M1. symmetry in M1. apply map_eq_app in M1. destruct M1 as (a1 & a2 & Y1 & Y2 & Y3).
    destruct a2 as [|g a2]; [discriminate|]. cbn [map] in Y3. injection Y3 as Y3 Y4.
    rewrite Y1, map_app in AK. apply FOP_app in AK. destruct AK as (_ & K2 & K3). cbn [map] in K2. apply asc_cons in K2. destruct K2 as (K2 & _).
    assert (GK : keq (hkey g) k = true) by (rewrite Y3; exact E2).
    assert (S1 : forall y, In y a1 -> keq (hkey y) k = false).
    { intros y Hy. rewrite <- (keq_r cmp SW _ _ (hkey y) GK). apply (klt_neq hash cmp HH), K3; [apply in_map, Hy|left; reflexivity]. }
    assert (S2 : forall y, In y a2 -> keq (hkey y) k = false).
    { intros y Hy. rewrite keq_sym, <- (keq_l cmp SW _ _ (hkey y) GK). apply (klt_neq hash cmp HH), K2, in_map, Hy. }
    assert (O1 : forall l (a : list (@hv K V)), (forall e, In e l -> In e (ev1 ++ E2ext (hb h) (hkey h) i j :: ev2)) ->
               map (fun h : @hv K V => Some (hkey h)) a = map (ekey (K := K)) l -> (forall y, In y a -> keq (hkey y) k = false) ->
               Forall (fun e => match e with E2ext _ x _ _ => keq x (is_key (o_sp o)) = false | _ => False end) l).
    { intros l a IN ME SA. apply Forall_forall. intros e He. pose proof (M2 e (IN e He)) as (h1 & i1 & j1 & b1 & e1 & _ & -> & _).
      rewrite (keq_r cmp SW _ _ (hkey h1) HK).
      assert (Z : In (Some (hkey h1)) (map (fun h : @hv K V => Some (hkey h)) a)) by (rewrite ME; apply (in_map (ekey (K := K))) in He; exact He).
      apply in_map_iff in Z. destruct Z as (y & Z1 & Z2). injection Z1 as <-. apply SA, Z2. }
    exists (to_ext o i j). split; [|split; [reflexivity|]].
    - rewrite oevs_app. rewrite (oevs_other mm ev1 o); [|apply (O1 ev1 a1); [intros e He; apply in_or_app; left; exact He|exact Y2|exact S1]].
      unfold oevs. cbn [foldo]. unfold oev at 1. rewrite EN, HB, BK, Nat.eqb_refl.
      rewrite (keq_r cmp SW _ _ (hkey h) HK), E2. cbn [andb]. apply oevs_other.
      cbn [to_ext o_sp is_key]. apply (O1 ev2 a2); [intros e He; apply in_or_app; right; right; exact He|exact Y4|exact S2].
    - split; [exact EN|]. apply cat_sure. split; [|intros _ k' Z; discriminate Z].
      exists b. cbn [to_ext it_of o_sp o_rd i_sp i_rd is_b is_key is_src is_node is_valid is_ext].
      split; [exact D2|]. split; [rewrite D1; apply B_keq, E2|]. split; [exact HK|]. rewrite D3. split; [reflexivity|].
      split; [exists e'; split; [exact D4|eapply (keq_trans cmp SW); eassumption]|]. repeat split.
  Qed.

  Definition good_r (c : core) (nd : N) : Prop := fits (n_new c nd) = true /\ ((0 < n_new c nd)%N \/ forall k, lk c k = None).
  Lemma rebuild_track mm P c nd c' evs : wf (mem c) (bks c) -> good_r c nd -> rebuild c nd = Some (c', evs) ->
    track mm P false c evs c' /\ wf (mem c') (bks c') /\ forall k, lk c' k = lk c k.
  Proof.
    intros W (G1 & G2) Q.
    destruct (rebuild_ok _ _ _ edef _ _ inc _ nbuck _ _ junk _ PO c nd W G1 G2) as (c2 & evs2 & Xs & R1 & R2 & R3 & R4 & R5 & R6 & R7 & R8 & R9 & R10 & R11 & R12 & R13).
    rewrite R1 in Q. injection Q as -> ->. split; [|split; assumption].
    apply (track_moved mm P c c' Xs evs W R5 R6 R7); [|intro k; rewrite R3; auto].
    apply (moved_emoved _ _ _ _ _ _ _ _ _ PO), R13.
  Qed.
  Lemma grow_track mm P c c' evs : wf (mem c) (bks c) ->
    (maxbuf c <= S (bufsz c) -> good_n nbuck fits (lf c) (ntot c) (lk c)) -> grow c = Some (c', evs) ->
    track mm P false c evs c' /\ wf (mem c') (bks c') /\ forall k, lk c' k = lk c k.
  Proof.
    intros W HG. unfold HashMapModel.grow. cbn [maxbuf bufsz set_bufsz]. destruct (Nat.leb_spec (maxbuf c) (S (bufsz c))) as [Q|Q]; intro R.
    - destruct (HG Q) as (G1 & G2).
      destruct (rebuild_track mm P (set_bufsz c (S (bufsz c))) 0 c' evs) as (T1 & T2 & T3); [exact W| |exact R|].
      + split; rewrite n_new_0; assumption.
      + split; [|split; assumption]. eapply track_ext_l; [| |exact T1]; reflexivity.
    - injection R as <- <-. split; [|split; [exact W|reflexivity]]. eapply track_ext; [| |apply (track_refl mm P c W)]; reflexivity.
  Qed.
  Lemma room_track mm P c c' evs : wf (mem c) (bks c) ->
    (maxbuf c <= S (bufsz c) -> good_p nbuck fits (lf c) (ntot c)) -> make_room c = Some (c', evs) ->
    track mm P false c evs c' /\ wf (mem c') (bks c') /\ forall k, lk c' k = lk c k.
  Proof.
    intros W HG. unfold HashMapModel.make_room. destruct (Nat.leb_spec (maxbuf c) (bufsz c + 1)) as [Q|Q]; intro R.
    - destruct HG as (G1 & G2); [lia|]. apply (rebuild_track mm P c 0 c' evs W); [|exact R]. split; rewrite n_new_0; auto.
    - injection R as <- <-. split; [|split; [exact W|reflexivity]]. apply track_refl, W.
  Qed.

  (** *** Changing a chain *)

  Section UpdTrack.
    Variables (c c' : core) (b : bucket) (l' : list node) (kk k2 : K) (n' : node).
    Hypothesis W : wf (mem c) (bks c).
    Hypothesis NB : nth_error (bks c) (B (length (bks c)) kk) = Some b.
    Hypothesis EM : mem c' = mem c.
    Hypothesis EB : bks c' = lset (bks c) (B (length (bks c)) kk) (set_list b l').
    Hypothesis NF : forall x, nfind l' x = if keq kk x then Some n' else nfind (blist b) x.
    Hypothesis KN : keq (nkey n') kk = true.
    Hypothesis LK : forall x, lk c' x = if keq kk x then nlive n' else lk c x.
    Hypothesis K2 : keq kk k2 = true.
    Variable i : nat.
    Hypothesis EI : i = B (length (bks c)) kk.

    (** An event for [kk] concerns the iterators at [kk]. *)
    Lemma ev_hits o k q : cat c (it_of o) k q -> (is_b (o_sp o) =? i) && keq k2 (is_key (o_sp o)) = keq kk k.
    Proof.
      intros ((b0 & _ & HBK & HK & _) & _). cbn [it_of i_sp] in *. rewrite HBK, EI.
      rewrite (keq_r cmp SW _ _ k2 HK), <- (keq_l cmp SW _ _ k K2). destruct (keq kk k) eqn:Z; [|apply andb_false_r].
      rewrite (B_keq _ _ _ Z), Nat.eqb_refl. reflexivity.
    Qed.
    Lemma cat_stay ins o k q : (ins = false -> nfind (blist b) kk <> None) -> cat c (it_of o) k q -> keq kk k = false ->
      match lk c' k with Some _ => cat c' (it_of o) k (weaken ins q) | None => False end.
    Proof.
      intros HI CT Z. rewrite LK, Z. destruct (lk c k) eqn:Q; [|apply (liat_look _ _ _ W (proj1 CT) Q)].
      apply (upd_cat c c' b l' kk n' NB EM EB NF KN ins _ k q HI CT). left. exact Z.
    Qed.
    Lemma track_none mm (P : K -> Prop) ins : (ins = false -> nfind (blist b) kk <> None) ->
      (forall k, P k -> keq kk k = true -> lk c k <> None -> nfind (blist b) kk <> None /\ ndel n' = false) ->
      track mm P ins c [] c'.
    Proof.
      intros HI HP. split; [constructor|]. intros o k q Pk EN CT. exists o. split; [reflexivity|]. split; [reflexivity|].
      destruct (keq kk k) eqn:Z.
      - pose proof (HP k Pk Z (liat_look _ _ _ W (proj1 CT))) as HC. rewrite LK, Z. unfold nlive. rewrite (proj2 HC). split; [exact EN|].
        apply (upd_cat c c' b l' kk n' NB EM EB NF KN ins _ k q HI CT). right. exact HC.
      - pose proof (cat_stay ins o k q HI CT Z) as Q. destruct (lk c' k); [split; assumption|contradiction].
    Qed.
    Lemma track_end mm P ins : (ins = false -> nfind (blist b) kk <> None) -> ndel n' = true ->
      track mm P ins c [E2end i k2] c'.
    Proof.
      intros HI HD. split; [repeat constructor|]. intros o k q Pk EN CT. unfold oevs. cbn [foldo]. unfold oev. rewrite EN, (ev_hits o k q CT).
      destruct (keq kk k) eqn:Z.
      - exists (to_end o). split; [reflexivity|]. split; [reflexivity|]. rewrite LK, Z. unfold nlive. rewrite HD. reflexivity.
      - exists o. split; [reflexivity|]. split; [reflexivity|].
        pose proof (cat_stay ins o k q HI CT Z) as Q. destruct (lk c' k); [split; assumption|contradiction].
    Qed.
    Lemma track_int P : nfind (blist b) kk = None -> ndel n' = false ->
      track (mem c) P true c [E2int i k2] c'.
    Proof.
      intros HI HD. split; [repeat constructor|]. intros o k q Pk EN CT. unfold oevs. cbn [foldo]. unfold oev. rewrite EN.
      rewrite (keq_sym cmp (is_key (o_sp o)) k2), (ev_hits o k q CT).
      destruct (keq kk k) eqn:Z.
      - assert (SR : is_src (o_sp o) = External).
        { destruct CT as ((b0 & NB0 & HBK & HK & H) & _). cbn [it_of i_sp i_rd] in *. destruct (is_src (o_sp o)); [|reflexivity|contradiction].
          exfalso. destruct H as ((k' & n & F1 & F2 & F3 & F4) & _).
          rewrite HBK, <- (B_keq _ _ _ Z), NB in NB0. injection NB0 as <-.
          destruct (List.find_some _ _ F2) as (F5 & _). apply (nfind_in _ n kk F5); [|exact HI].
          eapply (keq_trans cmp SW); [exact F3|]. rewrite keq_sym. exact Z. }
        rewrite SR. exists (to_int (mem c) o k2). split; [reflexivity|]. split; [reflexivity|]. rewrite LK, Z. unfold nlive. rewrite HD.
        split; [exact EN|]. apply (conv_cat c c' b l' kk n' W NB EM EB NF KN o k k2 _ SR (proj1 CT) Z K2 HD).
      - exists o. split; [reflexivity|]. split; [reflexivity|].
        pose proof (cat_stay true o k q) as Q. destruct (lk c' k); [split; [assumption|apply Q; [discriminate|assumption..]]|].
        exfalso. apply Q; [discriminate|assumption..].
    Qed.
  End UpdTrack.
End Track.
