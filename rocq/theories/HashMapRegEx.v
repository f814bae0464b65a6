(** For the examples of C91 and C92: the specification of programs with iterators, computed for
    maps of numbers given by lists.  [run_spec] relates it to the specification. *)
From Coq Require Import List Bool Arith NArith Lia.
From Verif Require Import OrderLib HashMapModel HashMapSpec HashMapBase HashMapProofs HashMapProps HashMapRegModel HashMapRegSpec.
Import ListNotations.

Notation keqN := (keq N.ltb).
Notation befN := (key_before Ex.hash N.ltb).
Notation kltN := (klt Ex.hash N.ltb).
Notation ropN := (@rop N N N).
Notation rresN := (@rres N N).
Notation sstN := (@sst N N).
Notation curN := (@cur N).
Notation rstepN := (@rstep N N N keqN befN 0%N).
Notation rrunsN := (@rruns N N N keqN befN 0%N).
Notation legalN := (@legal N N N keqN (tame Ex.fits)).
Notation legalsN := (@legals N N N keqN befN 0%N (tame Ex.fits)).

Lemma keqN_eq a b : keqN a b = true <-> a = b.
Proof.
  unfold keq. rewrite andb_true_iff, !negb_true_iff, !N.ltb_ge. split; [intros; lia|intros ->; lia].
Qed.
Lemma keqN_eqb a b : keqN a b = (a =? b)%N.
Proof. apply eq_true_iff_eq. rewrite keqN_eq, N.eqb_eq. reflexivity. Qed.
Lemma kltN_total a b : kltN a b = false -> kltN b a = false -> a = b.
Proof.
  unfold klt. destruct (N.ltb_spec (Ex.hash a) (Ex.hash b)); [discriminate|]. destruct (N.ltb_spec (Ex.hash b) (Ex.hash a)); [discriminate|].
  cbn [orb]. replace (Ex.hash a =? Ex.hash b)%N with true by (symmetry; apply N.eqb_eq; lia). replace (Ex.hash b =? Ex.hash a)%N with true by (symmetry; apply N.eqb_eq; lia).
  cbn [andb]. rewrite !N.ltb_ge. lia.
Qed.
Lemma kltN_irrefl a : kltN a a = false.
Proof. unfold klt. rewrite !N.ltb_irrefl, andb_false_r. reflexivity. Qed.
Lemma kltN_trans a b c : kltN a b = true -> kltN b c = true -> kltN a c = true.
Proof.
  rewrite <- !key_before_klt. unfold key_before. rewrite !N.ltb_lt. lia.
Qed.

(** Maps as lists. *)
Notation fmap := (list (N * N)).
Fixpoint flook (l : fmap) (k : N) : option N :=
  match l with [] => None | (k', v) :: l' => if (k' =? k)%N then Some v else flook l' k end.
Definition fdel (l : fmap) (k : N) : fmap := filter (fun e => negb (k =? fst e)%N) l.
Definition fput (l : fmap) (k v : N) : fmap := (k, v) :: l.
Fixpoint fmin (p : N -> bool) (l : list N) : option N :=
  match l with
  | [] => None
  | k :: l' => match fmin p l' with
               | Some k' => if p k && kltN k k' then Some k else Some k'
               | None => if p k then Some k else None
               end
  end.
Lemma flook_put l k v x : flook (fput l k v) x = sput keqN (flook l) k v x.
Proof. cbn. unfold sput. rewrite keqN_eqb. reflexivity. Qed.
Lemma flook_del l k x : flook (fdel l k) x = sdel keqN (flook l) k x.
Proof.
  unfold sdel. rewrite keqN_eqb. induction l as [|(a & v) l IH]; cbn [fdel filter fst flook]; [destruct (k =? x)%N; reflexivity|].
  destruct (N.eqb_spec k a) as [<-|Q]; cbn [negb flook]; fold (fdel l k).
  - rewrite IH. destruct (N.eqb_spec k x); reflexivity.
  - destruct (N.eqb_spec a x) as [->|Q2]; [|exact IH]. apply N.eqb_neq in Q. rewrite Q. reflexivity.
Qed.
Lemma flook_in l k : flook l k <> None -> In k (map fst l).
Proof.
  induction l as [|(a & v) l IH]; cbn; [congruence|]. destruct (N.eqb_spec a k) as [->|Q]; auto.
Qed.
Lemma in_flook l k : In k (map fst l) -> flook l k <> None.
Proof.
  induction l as [|(a & v) l IH]; cbn; [intros []|]. destruct (N.eqb_spec a k) as [->|Q]; [discriminate|]. intros [H|H]; [congruence|apply IH, H].
Qed.
Lemma fmin_some p l : match fmin p l with
                      | Some k => In k l /\ p k = true /\ forall x, In x l -> p x = true -> kltN x k = false
                      | None => forall x, In x l -> p x = false
                      end.
Proof.
  induction l as [|k l IH]; cbn [fmin]; [intros x []|]. destruct (fmin p l) as [k'|].
  - destruct IH as (I1 & I2 & I3). destruct (p k) eqn:P, (kltN k k') eqn:Q; cbn [andb].
    + split; [left; reflexivity|]. split; [exact P|]. intros x [<-|H] Px; [apply kltN_irrefl|]. destruct (kltN x k) eqn:Y; [|reflexivity].
      rewrite <- (I3 x H Px). symmetry. eapply kltN_trans; eassumption.
    + split; [right; exact I1|]. split; [exact I2|]. intros x [<-|H] Px; [exact Q|apply I3; assumption].
    + split; [right; exact I1|]. split; [exact I2|]. intros x [<-|H] Px; [congruence|apply I3; assumption].
    + split; [right; exact I1|]. split; [exact I2|]. intros x [<-|H] Px; [congruence|apply I3; assumption].
  - destruct (p k) eqn:P.
    + split; [left; reflexivity|]. split; [exact P|]. intros x [<-|H] Px; [apply kltN_irrefl|]. rewrite (IH x H) in Px. discriminate.
    + intros x [<-|H]; [exact P|apply IH, H].
Qed.

Record fst_ := { fm : bool -> fmap; fv : list (nat * curN) }.
Fixpoint vlook (l : list (nat * curN)) (x : nat) : option curN :=
  match l with [] => None | (y, c) :: l' => if y =? x then Some c else vlook l' x end.
Definition vdel (l : list (nat * curN)) (x : nat) := filter (fun e : nat * curN => negb (fst e =? x)) l.
Definition vput l x c := (x, c) :: vdel l x.
Definition vmap (f : curN -> curN) (l : list (nat * curN)) := map (fun e : nat * curN => (fst e, f (snd e))) l.
Lemma vlook_del l x y : vlook (vdel l x) y = if y =? x then None else vlook l y.
Proof.
  unfold vdel. induction l as [|(z & c) l IH]; cbn [filter fst negb vlook]; [destruct (y =? x); reflexivity|].
  destruct (Nat.eqb_spec z x) as [->|Q]; cbn [negb vlook].
  - rewrite IH, (Nat.eqb_sym x y). destruct (y =? x); reflexivity.
  - rewrite IH. destruct (Nat.eqb_spec y x) as [E|Q2]; [|reflexivity]. apply Nat.eqb_neq in Q. rewrite E, Q. reflexivity.
Qed.
Lemma vlook_put l x c y : vlook (vput l x c) y = updn (vlook l) x (Some c) y.
Proof.
  unfold vput, updn. cbn [vlook]. rewrite vlook_del, (Nat.eqb_sym x y). destruct (y =? x); reflexivity.
Qed.
Lemma vlook_map f l x : vlook (vmap f l) x = option_map f (vlook l x).
Proof. induction l as [|(z & c) l IH]; cbn; [reflexivity|]. destruct (z =? x); [reflexivity|exact IH]. Qed.
Lemma vlook_in l x c : vlook l x = Some c -> In (x, c) l.
Proof.
  induction l as [|(z & d) l IH]; cbn; [discriminate|]. destruct (Nat.eqb_spec z x) as [->|Q]; [intro H; injection H as ->; left; reflexivity|]. intro H. right. apply IH, H.
Qed.

Definition fset (f : fst_) (ins a : bool) (l : fmap) : fst_ :=
  {| fm := updb (fm f) a l; fv := vmap (settle ins a (flook l)) (fv f) |}.
Definition fbind (f : fst_) (x : nat) (c : curN) : fst_ := {| fm := fm f; fv := vput (fv f) x c |}.
Definition has (l : fmap) (k : N) : bool := match flook l k with Some _ => true | None => false end.

(** One operation: the result and the state.  [None]: not needed for the examples. *)
Definition fexec (f : fst_) (o : ropN) : option (rresN * fst_) :=
  match o with
  | RMap a (OErase k) => if has (fm f a) k then Some (QR (RNum 1), fset f true a (fdel (fm f a) k)) else Some (QR (RNum 0), fset f true a (fm f a))
  | RMap a (OIndexSet k v) => Some (QR RUnit, fset f true a (fput (fm f a) k v))
  | RMap a (ORehash n) => Some (QR RUnit, fset f false a (fm f a))
  | RMap a OClear => Some (QR RUnit, fset f false a [])
  | RInsert a x k v =>
    let l := if has (fm f a) k then fm f a else fput (fm f a) k v in
    Some (QB (negb (has (fm f a) k)), fbind (fset f true a l) x (at_key (flook l) a k))
  | RInsertObl a x k v => let l := fput (fm f a) k v in Some (QU, fbind (fset f true a l) x (at_key (flook l) a k))
  | RFind a x k => Some (QU, fbind (fset f true a (fm f a)) x (at_key (flook (fm f a)) a k))
  | RCFind a x k => Some (QU, fbind f x (at_key (flook (fm f a)) a k))
  | RBegin a x => Some (QU, fbind f x (match fmin (fun _ => true) (map fst (fm f a)) with Some k => CAt a k Begun | None => CPast end))
  | REnd a x => Some (QU, fbind f x CEnd)
  | RCopy x y => do c <- vlook (fv f) y; Some (QU, fbind f x c)
  | RDrop x => Some (QU, {| fm := fm f; fv := vdel (fv f) x |})
  | RNext x =>
    match vlook (fv f) x with
    | Some (CAt a k q) => Some (QU, fbind f x (match fmin (kltN k) (map fst (fm f a)) with Some k' => CAt a k' q | None => CPast end))
    | _ => None
    end
  | RGet x =>
    match vlook (fv f) x with
    | Some (CAt a k q) => do v <- flook (fm f a) k; Some (QE (k, v), f)
    | _ => None
    end
  | RSet x v =>
    match vlook (fv f) x with
    | Some (CAt a k q) => Some (QU, fset f false a (fput (fm f a) k v))
    | _ => None
    end
  | REraseIt _ x =>
    match vlook (fv f) x with
    | Some (CAt a k q) => Some (QU, fset f true a (fdel (fm f a) k))
    | _ => None
    end
  | REq x y => do c <- vlook (fv f) x; do d <- vlook (fv f) y; Some (QB (same keqN c d), f)
  | RSwap => Some (QU, {| fm := fun a => fm f (negb a); fv := vmap (@turn N) (fv f) |})
  | _ => None
  end.

Definition Rf (s : sstN) (f : fst_) : Prop := (forall a k, s_m s a k = flook (fm f a) k) /\ forall x, s_v s x = vlook (fv f) x.

Lemma settle_ext ins a (m m' : @smap N N) (c : curN) : (forall k, m k = m' k) -> settle ins a m c = settle ins a m' c.
Proof. intro H. destruct c; cbn; rewrite ?H; reflexivity. Qed.
Lemma Rf_set s f ins a m' g l : Rf s f -> (forall k, m' k = flook l k) -> Rf (settles ins a m' g s) (fset f ins a l).
Proof.
  intros (H1 & H2) H. split.
  - intros b k. cbn [settles fset s_m fm]. unfold updb. destruct (eqb b a); [apply H|apply H1].
  - intro x. cbn [settles fset s_v fv]. rewrite vlook_map, H2. destruct (vlook (fv f) x); [|reflexivity]. cbn. f_equal. apply settle_ext, H.
Qed.
Lemma Rf_bind s f x c : Rf s f -> Rf (bind s x (Some c)) (fbind f x c).
Proof.
  intros (H1 & H2). split; [exact H1|]. intro y. cbn [bind fbind s_v fv]. rewrite vlook_put. unfold updn. destruct (y =? x); [reflexivity|apply H2].
Qed.
Lemma at_key_ext (m m' : @smap N N) a k : m k = m' k -> at_key m a k = at_key m' a k.
Proof. intro H. unfold at_key. rewrite H. reflexivity. Qed.
Lemma least l p k : flook l k <> None -> p k = true -> (forall k', p k' = true -> kltN k' k = true -> flook l k' = None) -> fmin p (map fst l) = Some k.
Proof.
  intros H1 H2 H3. pose proof (fmin_some p (map fst l)) as F. destruct (fmin p (map fst l)) as [x|].
  - destruct F as (F1 & F2 & F3). f_equal. apply kltN_total; [|apply F3; [apply flook_in, H1|exact H2]].
    destruct (kltN x k) eqn:Q; [|reflexivity]. exfalso. apply (in_flook l x F1). apply H3; assumption.
  - rewrite (F k (flook_in l k H1)) in H2. discriminate.
Qed.
Lemma none_least l p : (forall k, p k = true -> flook l k = None) -> fmin p (map fst l) = None.
Proof.
  intro H. pose proof (fmin_some p (map fst l)) as F. destruct (fmin p (map fst l)) as [x|]; [|reflexivity].
  destruct F as (F1 & F2 & _). exfalso. exact (in_flook l x F1 (H x F2)).
Qed.

Lemma fexec_ok s f o r s' r' f' : Rf s f -> fexec f o = Some (r', f') -> rstepN s o r s' -> r = r' /\ Rf s' f'.
Proof.
  intros R F H. pose proof R as (R1 & R2).
  assert (HS : forall a k, s_m s a k <> None -> has (fm f a) k = true) by (intros a k Q; unfold has; rewrite <- R1; destruct (s_m s a k); congruence).
  assert (HN : forall a k, s_m s a k = None -> has (fm f a) k = false) by (intros a k Q; unfold has; rewrite <- R1, Q; reflexivity).
  destruct H; cbn [fexec] in F.
  - match goal with H : sstep _ _ _ _ _ _ _ _ |- _ => rename H into ST end.
    inversion ST; subst; try discriminate F.
    + rewrite HS in F by assumption. injection F as <- <-. split; [reflexivity|]. apply Rf_set; [exact R|]. intro x. rewrite flook_del. unfold sdel. rewrite R1. reflexivity.
    + rewrite HN in F by assumption. injection F as <- <-. split; [reflexivity|]. apply Rf_set; [exact R|apply R1].
    + injection F as <- <-. split; [reflexivity|]. apply Rf_set; [exact R|reflexivity].
    + injection F as <- <-. split; [reflexivity|]. apply Rf_set; [exact R|]. intro x. rewrite flook_put. unfold sput. rewrite R1. reflexivity.
    + injection F as <- <-. split; [reflexivity|]. apply Rf_set; [exact R|]. intro x. rewrite flook_put. unfold sput. rewrite R1. reflexivity.
    + injection F as <- <-. split; [reflexivity|]. apply Rf_set; [exact R|apply R1].
  - match goal with H : sstep _ _ _ _ _ _ _ _ |- _ => rename H into ST end. cbv zeta in F. injection F as <- <-.
    assert (HL : forall x, m' x = flook (if has (fm f a) k then fm f a else fput (fm f a) k v) x /\ b = negb (has (fm f a) k)).
    { intro y. inversion ST; subst; [rewrite HN by assumption|rewrite HS by assumption]; (split; [|reflexivity]); [rewrite flook_put; unfold sput; rewrite R1; reflexivity|apply R1]. }
    split; [destruct (HL k) as (_ & ->); reflexivity|]. rewrite (at_key_ext _ (flook (if has (fm f a) k then fm f a else fput (fm f a) k v)) _ _ (proj1 (HL k))).
    apply Rf_bind, Rf_set; [exact R|intro y; apply HL].
  - match goal with H : sstep _ _ _ _ _ _ _ _ |- _ => inversion H; subst end. cbv zeta in F. injection F as <- <-. split; [reflexivity|].
    assert (HL : forall y, sput keqN (s_m st a) k v y = flook (fput (fm f a) k v) y) by (intro y; rewrite flook_put; unfold sput; rewrite R1; reflexivity).
    rewrite (at_key_ext _ _ _ _ (HL k)). apply Rf_bind, Rf_set; [exact R|exact HL].
  - injection F as <- <-. split; [reflexivity|]. rewrite (at_key_ext _ _ _ _ (R1 a k)). apply Rf_bind, Rf_set; [exact R|apply R1].
  - injection F as <- <-. split; [reflexivity|]. rewrite (at_key_ext _ _ _ _ (R1 a k)). apply Rf_bind, R.
  - injection F as <- <-. split; [reflexivity|]. rewrite (least _ _ k); [apply Rf_bind, R|rewrite <- R1; assumption|reflexivity|]. intros y _ Y. rewrite <- R1. apply H0, key_before_klt, Y.
  - injection F as <- <-. split; [reflexivity|]. rewrite none_least; [apply Rf_bind, R|]. intros y _. rewrite <- R1. apply H.
  - injection F as <- <-. split; [reflexivity|apply Rf_bind, R].
  - rewrite <- R2, H in F. injection F as <- <-. split; [reflexivity|apply Rf_bind, R].
  - injection F as <- <-. split; [reflexivity|]. split; [exact R1|]. intro y. cbn [bind s_v fv]. rewrite vlook_del. unfold updn. destruct (y =? x); [reflexivity|apply R2].
  - rewrite <- R2, H in F. injection F as <- <-. split; [reflexivity|]. rewrite (least _ _ k'); [apply Rf_bind, R|rewrite <- R1; assumption|apply key_before_klt; assumption|].
    intros y Y1 Y2. rewrite <- R1. apply H2; apply key_before_klt; assumption.
  - rewrite <- R2, H in F. injection F as <- <-. split; [reflexivity|]. rewrite none_least; [apply Rf_bind, R|]. intros y Y. rewrite <- R1. apply H0, key_before_klt, Y.
  - rewrite <- R2, H in F. rewrite <- R1, H1 in F. injection F as <- <-. split; [|exact R]. apply keqN_eq in H0. subst k. destruct e; reflexivity.
  - rewrite <- R2, H in F. injection F as <- <-. split; [reflexivity|]. apply Rf_set; [exact R|]. intro y. rewrite flook_put. unfold sput. rewrite R1. reflexivity.
  - rewrite <- R2, H in F. injection F as <- <-. split; [reflexivity|]. apply Rf_set; [exact R|]. intro y. rewrite flook_del. unfold sdel. rewrite R1. reflexivity.
  - rewrite <- !R2, H, H0 in F. injection F as <- <-. split; [reflexivity|exact R].
  - injection F as <- <-. split; [reflexivity|]. split; [intros a k; apply R1|]. intro y. cbn [s_v fv]. rewrite vlook_map, R2. reflexivity.
Qed.

(** The rules. *)
Definition isat (c : option curN) : bool := match c with Some (CAt _ _ _) => true | _ => false end.
Definition ispast (c : option curN) : bool := match c with Some CPast => true | _ => false end.
Definition some {A} (c : option A) : bool := match c with Some _ => true | None => false end.
Definition flegal (full : bool) (f : fst_) (o : ropN) : bool :=
  match o with
  | RMap a (OErase k) => negb (length (fm f a) =? 0)
  | RMap a (OIndexSet k v) => has (fm f a) k && (full || forallb (fun e : nat * curN => match snd e with CAt a' k' _ => negb (eqb a a' && (k =? k')%N) | _ => true end) (fv f))
  | RMap a (ORehash n) => Ex.fits n
  | RMap a OClear => true
  | RMap _ _ => false
  | RInsert _ _ _ _ | RBegin _ _ | REnd _ _ => true
  | RInsertObl a _ _ _ | RFind a _ _ | RCFind a _ _ => negb (length (fm f a) =? 0)
  | RCopy _ y => some (vlook (fv f) y)
  | RDrop x => some (vlook (fv f) x)
  | RNext x => match vlook (fv f) x with Some (CAt _ _ Lost) => full | Some (CAt _ _ _) => true | _ => false end
  | RGet x | RSet x _ => isat (vlook (fv f) x)
  | REraseIt a x => match vlook (fv f) x with Some (CAt a' _ _) => eqb a' a | _ => false end
  | REq x y => some (vlook (fv f) x) && some (vlook (fv f) y)
               && (full || negb (ispast (vlook (fv f) x) && isat (vlook (fv f) y)) && negb (ispast (vlook (fv f) y) && isat (vlook (fv f) x)))
  | RSwap => full || forallb (fun e : nat * curN => negb (isat (Some (snd e)))) (fv f)
  end.
Lemma isat_ok s f x : Rf s f -> isat (vlook (fv f) x) = true <-> is_at s x.
Proof.
  intros (_ & R2). unfold is_at. rewrite R2. destruct (vlook (fv f) x) as [[| |a k q]|]; cbn; split; intro H; try discriminate; try (destruct H as (? & ? & ? & H); discriminate); [|reflexivity].
  exists a, k, q. reflexivity.
Qed.
Lemma flegal_ok full s f o : Rf s f -> flegal full f o = true -> legalN full s o.
Proof.
  intros R F. pose proof R as (R1 & R2).
  assert (NEM : forall a, negb (length (fm f a) =? 0) = true -> nonempty (s_m s a)).
  { intros a Q. destruct (fm f a) as [|(k & v) l] eqn:M; [discriminate|]. exists k. rewrite R1, M. cbn. rewrite N.eqb_refl. discriminate. }
  destruct o; cbn [flegal legal] in *; try exact I; try (apply (NEM a), F).
  - destruct o; try discriminate; cbn [plain tame].
    + split; [exact I|]. split; [apply NEM, F|]. right. discriminate.
    + split; [exact I|]. split; [exact I|]. right. discriminate.
    + apply andb_true_iff in F. destruct F as (F1 & F2). split; [exact I|]. split; [unfold has in F1; rewrite R1; destruct (flook (fm f a) k); [discriminate|discriminate]|].
      destruct full; [left; reflexivity|right]. cbn [orb] in F2. intros k1 Q. injection Q as <-. intros x k' q V. rewrite R2 in V. apply vlook_in in V.
      rewrite forallb_forall in F2. specialize (F2 _ V). cbn in F2. rewrite eqb_reflx in F2. cbn [andb] in F2. rewrite keqN_eqb. destruct (k =? k')%N; [discriminate|reflexivity].
    + split; [exact I|]. split; [exact F|]. right. discriminate.
  - unfold alive. rewrite R2. destruct (vlook (fv f) y); discriminate.
  - unfold alive. rewrite R2. destruct (vlook (fv f) x); discriminate.
  - unfold is_at. rewrite R2. destruct (vlook (fv f) x) as [[| |a k q]|]; try discriminate. split; [exists a, k, q; reflexivity|].
    destruct q; [right; discriminate|right; discriminate|left; exact F].
  - apply (isat_ok s f x R), F.
  - apply (isat_ok s f x R), F.
  - rewrite R2. destruct (vlook (fv f) x) as [[| |a' k q]|]; try discriminate. apply eqb_prop in F. subst a'. exists k, q. reflexivity.
  - apply andb_true_iff in F. destruct F as (F1 & F2). apply andb_true_iff in F1. destruct F1 as (F0 & F1). unfold alive. rewrite <- !(isat_ok s f _ R), !R2.
    split; [destruct (vlook (fv f) x); discriminate|]. split; [destruct (vlook (fv f) y); discriminate|]. destruct full; [left; reflexivity|right]. cbn [orb] in F2.
    apply andb_true_iff in F2. destruct F2 as (F2 & F3). split; intros (Q1 & Q2); [rewrite Q1, Q2 in F2|rewrite Q1, Q2 in F3]; discriminate.
  - destruct full; [left; reflexivity|right]. cbn [orb] in F. intros x (a & k & q & V). rewrite R2 in V. apply vlook_in in V. rewrite forallb_forall in F. specialize (F _ V). discriminate.
Qed.

(** Programs: the results, if the program keeps to the rules. *)
Fixpoint fruns (full : bool) (f : fst_) (os : list ropN) : option (list rresN) :=
  match os with
  | [] => Some []
  | o :: os' => if flegal full f o then do x <- fexec f o; do rs <- fruns full (snd x) os'; Some (fst x :: rs) else None
  end.
Definition finit : fst_ := {| fm := fun _ => []; fv := [] |}.
Lemma fruns_ok full os : forall s f rs, Rf s f -> fruns full f os = Some rs -> legalsN full s os /\ forall rs' s', rrunsN s os rs' s' -> rs' = rs.
Proof.
  induction os as [|o os IH]; intros s f rs R F; cbn [fruns] in F.
  - injection F as <-. split; [exact I|]. intros rs' s' H. inversion H; reflexivity.
  - destruct (flegal full f o) eqn:FL; [|discriminate]. destruct (fexec f o) as [(r & f1)|] eqn:FE; [|discriminate]. cbn [fst snd] in F.
    destruct (fruns full f1 os) as [rs1|] eqn:FR; [|discriminate]. injection F as <-. split.
    + split; [eapply flegal_ok; eassumption|]. intros r' s' H. destruct (fexec_ok _ _ _ _ _ _ _ R FE H) as (_ & R'). apply (IH _ _ _ R' FR).
    + intros rs' s' H. inversion H as [|? ? ? s1 ? ? ? H1 H2]; subst. destruct (fexec_ok _ _ _ _ _ _ _ R FE H1) as (-> & R'). f_equal. eapply (IH _ _ _ R' FR), H2.
Qed.
Theorem run_spec full os rs : fruns full finit os = Some rs -> legalsN full sinit os /\ forall rs' s', rrunsN sinit os rs' s' -> rs' = rs.
Proof. apply fruns_ok. split; reflexivity. Qed.
