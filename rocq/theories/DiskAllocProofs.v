From Coq Require Import ZArith List Bool Lia Permutation.
From Verif Require Import DiskAllocModel DiskAllocSpec.
Import ListNotations.
Local Open Scope Z_scope.

(** * Counting how many ranges contain a byte *)
Definition ind (r : region) (b : Z) : Z := if (fst r <=? b) && (b <? fst r + snd r) then 1 else 0.
Fixpoint cnt (l : list region) (b : Z) : Z :=
  match l with [] => 0 | r :: t => ind r b + cnt t b end.

Lemma ind_cases r b : (ind r b = 1 /\ contains r b) \/ (ind r b = 0 /\ ~ contains r b).
Proof.
  unfold ind, contains. destruct (Z.leb_spec (fst r) b), (Z.ltb_spec b (fst r + snd r)); cbn; lia.
Qed.
Lemma ind_nonneg r b : 0 <= ind r b.
Proof. destruct (ind_cases r b); lia. Qed.
Lemma cnt_nonneg l b : 0 <= cnt l b.
Proof. induction l; cbn; [lia|]. pose proof (ind_nonneg a b). lia. Qed.
Lemma cnt_app l m b : cnt (l ++ m) b = cnt l b + cnt m b.
Proof. induction l; cbn; lia. Qed.
Lemma cnt_in r l b : In r l -> contains r b -> 1 <= cnt l b.
Proof.
  induction l as [|x l IH]; intros I C; cbn; [destruct I|].
  destruct I as [->|I].
  - pose proof (cnt_nonneg l b). destruct (ind_cases r b); [lia|tauto].
  - pose proof (ind_nonneg x b). specialize (IH I C). lia.
Qed.
Lemma cnt_pos l b : 1 <= cnt l b -> exists r, In r l /\ contains r b.
Proof.
  induction l as [|x l IH]; cbn; [lia|]. intros H.
  destruct (ind_cases x b) as [[_ C]|[E _]]; [exists x; auto|].
  destruct IH as (r & I & C); [lia|]. exists r; auto.
Qed.
Lemma cnt_pairwise l : (forall b, cnt l b <= 1) -> pairwise_disjoint l.
Proof.
  induction l as [|x l IH]; intros H; [constructor|]. constructor.
  - apply Forall_forall. intros s Hs (b & C1 & C2). specialize (H b). cbn in H.
    pose proof (cnt_in s l b Hs C2). destruct (ind_cases x b); [lia|tauto].
  - apply IH. intros b. specialize (H b). cbn in H. pose proof (ind_nonneg x b). lia.
Qed.
Lemma bytes_app l m : bytes_of (l ++ m) = bytes_of l + bytes_of m.
Proof. unfold bytes_of. induction l; cbn; lia. Qed.

Lemma bytes_cons r l : bytes_of (r :: l) = snd r + bytes_of l.
Proof. reflexivity. Qed.
Lemma bytes_nil : bytes_of [] = 0.
Proof. reflexivity. Qed.

(** * Canonical lists *)
Notation canon := maximal_ranges.
Fixpoint lend (lo : Z) (l : list region) : Z :=
  match l with [] => lo | r :: t => lend (fst r + snd r) t end.

Lemma canon_app lo b a : canon lo (b ++ a) <-> canon lo b /\ canon (lend lo b) a.
Proof. revert lo. induction b as [|r b IH]; intros lo; cbn; [tauto|]. rewrite IH. tauto. Qed.
Lemma lend_app lo b a : lend lo (b ++ a) = lend (lend lo b) a.
Proof. revert lo. induction b; intros; cbn; auto. Qed.
Lemma canon_weaken lo lo' l : lo' <= lo -> canon lo l -> canon lo' l.
Proof. destruct l; cbn; [tauto|]. intros. intuition lia. Qed.
Lemma canon_lend lo l : canon lo l -> lo <= lend lo l.
Proof.
  revert lo. induction l as [|r l IH]; intros lo; cbn; [lia|]. intros (A & B & C).
  specialize (IH _ C). lia.
Qed.
Lemma canon_in lo l r : canon lo l -> In r l -> lo < fst r /\ 0 < snd r /\ fst r + snd r <= lend lo l.
Proof.
  revert lo. induction l as [|x l IH]; intros lo H I; [destruct I|]. destruct H as (A & B & C). cbn.
  destruct I as [->|I]; [pose proof (canon_lend _ _ C); lia|]. specialize (IH _ C I). lia.
Qed.
Lemma canon_cnt_lo lo l b : canon lo l -> b <= lo -> cnt l b = 0.
Proof.
  intros H Hb. destruct (Z.eq_dec (cnt l b) 0); auto. exfalso.
  pose proof (cnt_nonneg l b).
  destruct (cnt_pos l b) as (r & I & C); [lia|]. pose proof (canon_in _ _ _ H I). unfold contains in C. lia.
Qed.

(** split at upper_bound *)
Lemma canon_split lo l p : canon lo l ->
  l = filter (fun e => fst e <=? p) l ++ filter (fun e => p <? fst e) l.
Proof.
  revert lo. induction l as [|r l IH]; intros lo H; [reflexivity|]. destruct H as (A & B & C).
  cbn. destruct (Z.leb_spec (fst r) p), (Z.ltb_spec p (fst r)); try lia; cbn.
  - f_equal. eauto.
  - assert (E : filter (fun e => fst e <=? p) l = []).
    { clear IH. assert (forall e, In e l -> p < fst e).
      { intros e I. pose proof (canon_in _ _ _ C I). lia. }
      clear -H1. induction l as [|x l IH]; [reflexivity|]. cbn.
      pose proof (H1 x (or_introl eq_refl)). destruct (Z.leb_spec (fst x) p); [lia|].
      apply IH. intros; apply H1; right; auto. }
    specialize (IH _ C). rewrite E in IH |- *. cbn in *. rewrite <- IH. reflexivity.
Qed.

Lemma filter_all {A} (f : A -> bool) l : (forall x, In x l -> f x = true) -> filter f l = l.
Proof.
  induction l as [|a l IH]; intros H; [reflexivity|]. cbn. rewrite (H a) by (left; auto).
  f_equal. apply IH. intros; apply H; right; auto.
Qed.

Lemma erase_mid lo b r a : canon lo (b ++ r :: a) -> map_erase (b ++ r :: a) (fst r) = b ++ a.
Proof.
  intros H. apply canon_app in H. destruct H as (H1 & A & B & C).
  unfold map_erase. rewrite filter_app. cbn. rewrite Z.eqb_refl. cbn. f_equal; apply filter_all; intros x I.
  - pose proof (canon_in _ _ _ H1 I). destruct (Z.eqb_spec (fst x) (fst r)); [lia|reflexivity].
  - pose proof (canon_in _ _ _ C I). destruct (Z.eqb_spec (fst x) (fst r)); [lia|reflexivity].
Qed.

Lemma set_mid b a k v : (forall x, In x b -> fst x < k) -> (forall x, In x a -> k < fst x) ->
  map_set (b ++ a) k v = b ++ (k, v) :: a.
Proof.
  intros Hb Ha. induction b as [|x b IH]; cbn.
  - destruct a as [|[k' v'] a]; cbn; [reflexivity|].
    pose proof (Ha _ (or_introl eq_refl)). cbn in *. destruct (Z.ltb_spec k k'); [reflexivity|lia].
  - destruct x as [k' v']. pose proof (Hb _ (or_introl eq_refl)) as K. cbn in K.
    destruct (Z.ltb_spec k k'); [lia|]. destruct (Z.eqb_spec k k'); [lia|].
    f_equal. apply IH. intros; apply Hb; right; auto.
Qed.

Lemma overlap_iff r p s : 0 < s -> 0 < snd r ->
  (overlap r (p, s) <-> fst r < p + s /\ p < fst r + snd r).
Proof.
  intros Hs Hr. unfold overlap, contains; cbn. split.
  - intros (b & A & B). lia.
  - intros (A & B). exists (Z.max (fst r) p). lia.
Qed.

(** * add_free_region *)
Definition afr_ok (lo : Z) (a a' : alloc) (p s : Z) : Prop :=
  canon lo (free_space a') /\
  (forall b, cnt (free_space a') b = cnt (free_space a) b + ind (p, s) b) /\
  bytes_of (free_space a') = bytes_of (free_space a) + s /\
  free_bytes a' = free_bytes a + s /\ disk_bytes a' = disk_bytes a /\
  cfg_bytes a' = cfg_bytes a /\ autogrow a' = autogrow a.

Lemma last_snoc {A} (l : list A) x d : last (l ++ [x]) d = x.
Proof. induction l; [reflexivity|]. cbn. destruct (l ++ [x]) eqn:E; [destruct l; discriminate|]. exact IHl. Qed.

Lemma ind_join p s q t b : 0 <= s -> 0 <= t -> p + s = q ->
  ind (p, s) b + ind (q, t) b = ind (p, s + t) b.
Proof.
  intros. unfold ind; cbn.
  destruct (Z.leb_spec p b), (Z.ltb_spec b (p + s)), (Z.leb_spec q b), (Z.ltb_spec b (q + t)),
    (Z.ltb_spec b (p + (s + t))); cbn; lia.
Qed.

Lemma finish_ok lo a p s b r x m : 
  let q := fst r in let z := snd r in
  canon lo (b ++ r :: x) ->
  m = b ++ x ->
  (forall byte, cnt (b ++ r :: x) byte = cnt (free_space a) byte + ind (p, s) byte) ->
  bytes_of (b ++ r :: x) = bytes_of (free_space a) + s ->
  exists a', Some (mk_alloc (map_set m q z) (free_bytes a + s) (disk_bytes a) (cfg_bytes a) (autogrow a)) = Some a'
    /\ afr_ok lo a a' p s.
Proof.
  intros q z H -> C B. eexists. split; [reflexivity|].
  assert (E : map_set (b ++ x) q z = b ++ r :: x).
  { rewrite set_mid.
    - unfold q, z. now destruct r.
    - intros y I. apply canon_app in H. destruct H as (H1 & A & _).
      pose proof (canon_in _ _ _ H1 I). unfold q. lia.
    - intros y I. apply canon_app in H. destruct H as (H1 & A & A' & A'').
      pose proof (canon_in _ _ _ A'' I). unfold q. lia. }
  unfold afr_ok. cbn [free_space free_bytes disk_bytes cfg_bytes autogrow]. rewrite E.
  split; [exact H|]. split; [exact C|]. split; [exact B|]. repeat split; reflexivity.
Qed.

Lemma afr_spec lo a p s : canon lo (free_space a) -> lo < p -> 0 < s ->
  ((exists r, In r (free_space a) /\ overlap r (p, s)) /\ add_free_region a p s = None) \/
  ((forall r, In r (free_space a) -> ~ overlap r (p, s)) /\
   exists a', add_free_region a p s = Some a' /\ afr_ok lo a a' p s).
Proof.
  intros HC Hp Hs. unfold add_free_region.
  destruct (free_space a) as [|f0 ft] eqn:EF.
  { right. split; [intros r []|]. eexists. split; [reflexivity|].
    unfold afr_ok; rewrite EF; cbn. repeat split; try lia. }
  set (fs := f0 :: ft) in *.
  assert (HF : fs = f0 :: ft) by reflexivity. clearbody fs.
  pose proof (canon_split lo fs p HC) as SP.
  assert (KB : forall x, In x (filter (fun e => fst e <=? p) fs) -> fst x <= p).
  { intros x I. apply filter_In in I. destruct I as [_ I]. apply Z.leb_le in I. exact I. }
  assert (KA : forall x, In x (filter (fun e => p <? fst e) fs) -> p < fst x).
  { intros x I. apply filter_In in I. destruct I as [_ I]. apply Z.ltb_lt in I. exact I. }
  set (before := filter (fun e => fst e <=? p) fs) in *.
  set (after := filter (fun e => p <? fst e) fs) in *.
  clearbody before after.
  assert (CB : canon lo before /\ canon (lend lo before) after) by (apply canon_app; rewrite <- SP; exact HC).
  destruct CB as [CB CA].
  set (pred := match before with [] => f0 | _ => last before f0 end).
  assert (PB : before = [] \/ exists b', before = b' ++ [pred]).
  { unfold pred. clear. destruct before as [|x t]; [left; reflexivity|right].
    destruct (exists_last (l := x :: t) ltac:(discriminate)) as (b' & y & E).
    exists b'. rewrite E. f_equal. f_equal. rewrite last_snoc. reflexivity. }
  destruct PB as [PB|(b' & PB)].
  - (* no predecessor *)
    subst before. cbn [app] in SP. rewrite HF in SP. subst after. unfold pred. clear pred.
    cbn [hd_error]. pose proof (KA f0 (or_introl eq_refl)) as K.
    destruct (Z.leb_spec (fst f0) p); [lia|]. cbn [andb].
    destruct (Z.leb_spec p (fst f0)); [|lia].
    cbn [lend] in CA. destruct CA as (C1 & C2 & C3).
    destruct (Z.ltb_spec (fst f0) (p + s)) as [L|L]; cbn [andb].
    { left. split; [|reflexivity]. exists f0. split; [rewrite HF; left; auto|].
      apply overlap_iff; lia. }
    right. split.
    { intros r I O. rewrite HF in I. destruct I as [<-|I].
      - apply overlap_iff in O; lia.
      - pose proof (canon_in _ _ _ C3 I). apply overlap_iff in O; lia. }
    assert (EE : fst f0 =? p + s = true ->
      exists a', Some (mk_alloc (map_set (map_erase fs (fst f0)) p (s + snd f0)) (free_bytes a + s) (disk_bytes a) (cfg_bytes a) (autogrow a)) = Some a' /\ afr_ok lo a a' p s).
    { intros Q. apply Z.eqb_eq in Q.
      apply (finish_ok lo a p s [] (p, s + snd f0) ft).
      - cbn. repeat split; try lia. replace (p + (s + snd f0)) with (fst f0 + snd f0) by lia. exact C3.
      - rewrite HF. apply (erase_mid lo [] f0 ft). cbn. repeat split; auto.
      - intros b. rewrite EF, HF. cbn [app cnt]. rewrite <- (ind_join p s (fst f0) (snd f0)) by lia.
        destruct f0; cbn [fst snd]. lia.
      - rewrite EF, HF. cbn. lia. }
    assert (EN : fst f0 =? p + s = false ->
      exists a', Some (mk_alloc (map_set fs p s) (free_bytes a + s) (disk_bytes a) (cfg_bytes a) (autogrow a)) = Some a' /\ afr_ok lo a a' p s).
    { intros Q. apply Z.eqb_neq in Q.
      apply (finish_ok lo a p s [] (p, s) fs).
      - rewrite HF. cbn. repeat split; try lia. exact C3.
      - reflexivity.
      - intros b. rewrite EF. cbn [app cnt]. lia.
      - rewrite EF. cbn [app]. rewrite bytes_cons. cbn [snd]. lia. }
    destruct (1 <? Z.of_nat (length fs)); destruct (fst f0 =? p + s) eqn:Q; cbn [andb]; auto.
  - (* predecessor *)
    assert (NB : match before with [] => false | _ => true end = true) by (rewrite PB; destruct b'; reflexivity).
    pose proof CB as CB'. rewrite PB in CB'. apply canon_app in CB'. destruct CB' as (D1 & D2 & D3 & _).
    assert (LB : lend lo before = fst pred + snd pred) by (rewrite PB, lend_app; reflexivity).
    rewrite LB in CA.
    assert (Kp : fst pred <= p) by (apply KB; rewrite PB; apply in_or_app; right; left; auto).
    rewrite NB. clearbody pred. clear NB KB.
    destruct (Z.leb_spec (fst pred) p); [|lia]. cbn [andb].
    destruct (Z.ltb_spec p (fst pred + snd pred)) as [L|L].
    { left. split; [|reflexivity]. exists pred. split.
      - rewrite SP, PB. apply in_or_app; left. apply in_or_app; right; left; auto.
      - apply overlap_iff; lia. }
    destruct after as [|sc t].
    + (* no successor *)
      cbn [hd_error]. right. rewrite app_nil_r in SP. clear HF. rewrite SP in EF, HC |- *. clear SP fs. rewrite PB in *. clear PB before.
      split.
      { intros r I O. apply in_app_or in I. destruct I as [I|[<-|[]]].
        - pose proof (canon_in _ _ _ D1 I). apply overlap_iff in O; lia.
        - apply overlap_iff in O; lia. }
      destruct (Z.eqb_spec (fst pred + snd pred) p) as [Q|Q].
      * apply (finish_ok lo a p s b' (fst pred, s + snd pred) []).
        -- apply canon_app. split; [exact D1|]. cbn. repeat split; lia.
        -- apply (erase_mid lo). exact CB.
        -- intros b. rewrite EF, !cnt_app. cbn [cnt].
           replace (s + snd pred) with (snd pred + s) by lia.
           rewrite <- (ind_join (fst pred) (snd pred) p s) by lia. destruct pred; cbn [fst snd]; lia.
        -- rewrite EF, !bytes_app. unfold bytes_of. cbn [fold_right fst snd]. lia.
      * apply (finish_ok lo a p s (b' ++ [pred]) (p, s) []).
        -- apply canon_app. split; [exact CB|]. rewrite LB. cbn. repeat split; lia.
        -- rewrite app_nil_r. reflexivity.
        -- intros b. rewrite EF, !cnt_app. cbn [cnt]. lia.
        -- rewrite EF, !bytes_app. unfold bytes_of. cbn [fold_right fst snd]. lia.
    + cbn [hd_error]. pose proof (KA sc (or_introl eq_refl)) as K.
      destruct CA as (C1 & C2 & C3).
      destruct (Z.leb_spec p (fst sc)); [|lia]. cbn [andb].
      destruct (Z.ltb_spec (fst sc) (p + s)) as [M|M].
      { left. split; [|reflexivity]. exists sc. split.
        - rewrite SP. apply in_or_app; right; left; auto.
        - apply overlap_iff; lia. }
      right. clear HF. rewrite SP in EF, HC |- *. clear SP fs. split.
      { intros r I O. apply in_app_or in I. destruct I as [I|[<-|I]].
        - rewrite PB in I. apply in_app_or in I. destruct I as [I|[<-|[]]].
          + pose proof (canon_in _ _ _ D1 I). apply overlap_iff in O; lia.
          + apply overlap_iff in O; lia.
        - apply overlap_iff in O; lia.
        - pose proof (canon_in _ _ _ C3 I). apply overlap_iff in O; lia. }
      assert (LN : 1 <? Z.of_nat (length (before ++ sc :: t)) = true).
      { apply Z.ltb_lt. rewrite PB, !app_length. cbn [length]. lia. }
      rewrite LN.
      assert (ER : map_erase (before ++ sc :: t) (fst sc) = before ++ t) by (apply (erase_mid lo); exact HC).
      destruct (Z.eqb_spec (fst sc) (p + s)) as [Q|Q]; destruct (Z.eqb_spec (fst pred + snd pred) p) as [R|R].
      * rewrite ER. apply (finish_ok lo a p s b' (fst pred, s + snd sc + snd pred) t).
        -- apply canon_app. split; [exact D1|]. cbn. repeat split; try lia.
           replace (fst pred + (s + snd sc + snd pred)) with (fst sc + snd sc) by lia. exact C3.
        -- rewrite PB, <- app_assoc. cbn [app]. apply (erase_mid lo).
           apply canon_app. split; [exact D1|]. cbn. repeat split; try lia.
           apply (canon_weaken (fst sc + snd sc)); [lia|exact C3].
        -- intros b. rewrite EF, PB, !cnt_app. cbn [cnt].
           replace (s + snd sc + snd pred) with (snd pred + (s + snd sc)) by lia.
           rewrite <- (ind_join (fst pred) (snd pred) p (s + snd sc)) by lia.
           rewrite <- (ind_join p s (fst sc) (snd sc)) by lia.
           destruct pred, sc; cbn [fst snd]; lia.
        -- rewrite EF, PB, !bytes_app. unfold bytes_of. cbn [fold_right fst snd]. lia.
      * rewrite ER. apply (finish_ok lo a p s before (p, s + snd sc) t).
        -- apply canon_app. split; [exact CB|]. rewrite LB. cbn. repeat split; try lia.
           replace (p + (s + snd sc)) with (fst sc + snd sc) by lia. exact C3.
        -- reflexivity.
        -- intros b. rewrite EF, !cnt_app. cbn [cnt].
           rewrite <- (ind_join p s (fst sc) (snd sc)) by lia. destruct sc; cbn [fst snd]; lia.
        -- rewrite EF, !bytes_app. unfold bytes_of. cbn [fold_right fst snd]. lia.
      * apply (finish_ok lo a p s b' (fst pred, s + snd pred) (sc :: t)).
        -- apply canon_app. split; [exact D1|]. cbn. repeat split; try lia. exact C3.
        -- rewrite PB, <- app_assoc. cbn [app]. apply (erase_mid lo).
           rewrite PB, <- app_assoc in HC. exact HC.
        -- intros b. rewrite EF, PB, !cnt_app. cbn [cnt].
           replace (s + snd pred) with (snd pred + s) by lia.
           rewrite <- (ind_join (fst pred) (snd pred) p s) by lia.
           destruct pred; cbn [fst snd]; lia.
        -- rewrite EF, PB, !bytes_app. unfold bytes_of. cbn [fold_right fst snd]. lia.
      * apply (finish_ok lo a p s before (p, s) (sc :: t)).
        -- apply canon_app. split; [exact CB|]. rewrite LB. cbn. repeat split; try lia. exact C3.
        -- reflexivity.
        -- intros b. rewrite EF, !cnt_app. cbn [cnt]. lia.
        -- rewrite EF, !bytes_app. unfold bytes_of. cbn [fold_right fst snd]. lia.
Qed.

(** * The system invariant *)
Definition inv (s : sys) : Prop :=
  let '(a, live) := s in
  canon (-1) (free_space a) /\
  (forall b, cnt (free_space a) b + cnt live b = if (0 <=? b) && (b <? disk_bytes a) then 1 else 0) /\
  free_bytes a = bytes_of (free_space a) /\
  bytes_of (free_space a) + bytes_of live = disk_bytes a /\
  Forall (fun r => 0 < snd r) live /\ 0 <= disk_bytes a.

Lemma bytes_canon_nonneg lo l : canon lo l -> 0 <= bytes_of l.
Proof.
  revert lo; induction l as [|r l IH]; intros lo H; [rewrite bytes_nil; lia|].
  destruct H as (A & B & C). rewrite bytes_cons. specialize (IH _ C). lia.
Qed.
Lemma in_free_inside a live r : inv (a, live) -> In r (free_space a) ->
  0 <= fst r /\ 0 < snd r /\ fst r + snd r <= disk_bytes a.
Proof.
  intros (H1 & H2 & _) I. pose proof (canon_in _ _ _ H1 I) as (A & B & C).
  split; [lia|]. split; [lia|].
  specialize (H2 (fst r + snd r - 1)).
  assert (1 <= cnt (free_space a) (fst r + snd r - 1)) by (apply (cnt_in r); auto; unfold contains; lia).
  pose proof (cnt_nonneg live (fst r + snd r - 1)).
  destruct (Z.ltb_spec (fst r + snd r - 1) (disk_bytes a)); [lia|].
  rewrite andb_false_r in H2. lia.
Qed.
Lemma in_live_inside a live r : inv (a, live) -> In r live ->
  0 <= fst r /\ 0 < snd r /\ fst r + snd r <= disk_bytes a.
Proof.
  intros (H1 & H2 & _ & _ & H5 & _) I. rewrite Forall_forall in H5. specialize (H5 _ I).
  assert (G : forall b, contains r b -> 0 <= b < disk_bytes a).
  { intros b C. specialize (H2 b). pose proof (cnt_in r live b I C). pose proof (cnt_nonneg (free_space a) b).
    destruct (Z.leb_spec 0 b), (Z.ltb_spec b (disk_bytes a)); cbn in H2; lia. }
  pose proof (G (fst r)). pose proof (G (fst r + snd r - 1)). unfold contains in *. lia.
Qed.
Lemma live_not_free a live r f : inv (a, live) -> In r live -> In f (free_space a) -> ~ overlap f r.
Proof.
  intros (H1 & H2 & _) I J (b & C & D). specialize (H2 b).
  pose proof (cnt_in r live b I D). pose proof (cnt_in f _ b J C).
  destruct ((0 <=? b) && (b <? disk_bytes a)); lia.
Qed.

Lemma remove1_spec r l : In r l ->
  (forall b, cnt (remove1 r l) b = cnt l b - ind r b) /\
  bytes_of (remove1 r l) = bytes_of l - snd r /\
  (forall x, In x (remove1 r l) -> In x l).
Proof.
  induction l as [|x l IH]; intros I; [destruct I|]. cbn [remove1].
  unfold region_eqb. destruct (Z.eqb_spec (fst r) (fst x)) as [E|E].
  - destruct (Z.eqb_spec (snd r) (snd x)) as [F|F]; cbn [andb].
    + assert (r = x) by (destruct r, x; cbn in *; congruence). subst x.
      split; [intros b; cbn; lia|]. split; [rewrite bytes_cons; lia|]. intros; right; auto.
    + assert (J : In r l) by (destruct I as [->|]; [congruence|auto]).
      destruct (IH J) as (A & B & C). split; [intros b; cbn; rewrite A; lia|].
      split; [rewrite !bytes_cons, B; lia|]. intros y [->|K]; [left|right]; auto.
  - cbn [andb]. assert (J : In r l) by (destruct I as [->|]; [congruence|auto]).
    destruct (IH J) as (A & B & C). split; [intros b; cbn; rewrite A; lia|].
    split; [rewrite !bytes_cons, B; lia|]. intros y [->|K]; [left|right]; auto.
Qed.

Lemma grow_ok a live n : inv (a, live) -> 0 < n ->
  exists a', grow_file a n = Some a' /\ inv (a', live) /\ disk_bytes a' = disk_bytes a + n /\
    free_bytes a' = free_bytes a + n /\ autogrow a' = autogrow a /\ cfg_bytes a' = cfg_bytes a /\
    (forall b, cnt (free_space a') b = cnt (free_space a) b + ind (disk_bytes a, n) b).
Proof.
  intros HI Hn. pose proof HI as (H1 & H2 & H3 & H4 & H5 & H6).
  unfold grow_file. destruct (Z.eqb_spec n 0); [lia|].
  destruct (afr_spec (-1) a (disk_bytes a) n H1 ltac:(lia) Hn) as [((r & I & O) & _)|(_ & a' & E & R)].
  - exfalso. pose proof (in_free_inside _ _ _ HI I). apply overlap_iff in O; lia.
  - destruct R as (R1 & R2 & R3 & R4 & R5 & R6 & R7). rewrite E. eexists. split; [reflexivity|].
    cbn [free_space free_bytes disk_bytes cfg_bytes autogrow].
    rewrite R5, R4, R6, R7. split; [|do 4 (split; [reflexivity|]); exact R2].
    cbn [inv free_space free_bytes disk_bytes]. split; [exact R1|]. split.
    { intros b. rewrite R2. specialize (H2 b). unfold ind; cbn [fst snd].
      destruct (Z.leb_spec 0 b), (Z.ltb_spec b (disk_bytes a)), (Z.leb_spec (disk_bytes a) b),
        (Z.ltb_spec b (disk_bytes a + n)); cbn [andb] in *; lia. }
    split; [lia|]. split; [lia|]. split; [exact H5|lia].
Qed.

(** * Taking a region *)
Lemma offsets_len p l : length (offsets_from p l) = length l.
Proof. revert p; induction l; intros; cbn; auto. Qed.
Lemma sum_nonneg l : Forall (fun z => 0 < z) l -> 0 <= sum l.
Proof. unfold sum. induction 1; cbn; lia. Qed.
Lemma cnt_offsets l : Forall (fun z => 0 < z) l -> forall p b, cnt (combine (offsets_from p l) l) b = ind (p, sum l) b.
Proof.
  induction 1 as [|z l Hz Hl IH]; intros p b; cbn [offsets_from combine cnt].
  - unfold ind, sum; cbn. destruct (Z.leb_spec p b), (Z.ltb_spec b (p + 0)); cbn; lia.
  - rewrite IH. pose proof (sum_nonneg l Hl). rewrite (ind_join p z (p + z) (sum l)) by lia. reflexivity.
Qed.
Lemma bytes_offsets l p : bytes_of (combine (offsets_from p l) l) = sum l.
Proof. revert p; induction l as [|z l IH]; intros p; [reflexivity|]. cbn [offsets_from combine]. rewrite bytes_cons, IH. reflexivity. Qed.

Lemma find_some_split {A} (f : A -> bool) l x : find f l = Some x ->
  exists b a, l = b ++ x :: a /\ f x = true /\ forall y, In y b -> f y = false.
Proof.
  induction l as [|y l IH]; cbn; [discriminate|]. destruct (f y) eqn:E.
  - intros K; injection K as <-. exists [], l. repeat split; auto. intros ? [].
  - intros K. destruct (IH K) as (b & a & -> & F & G). exists (y :: b), a. repeat split; auto.
    intros z [<-|I]; auto.
Qed.

Lemma take_ok a live sp sizes : inv (a, live) -> Forall (fun z => 0 < z) sizes ->
  first_fit (free_space a) (sum sizes) = Some sp ->
  let '(a', o) := take_region a sp sizes in
  inv (a', live ++ combine o sizes) /\ o = offsets_from (fst sp) sizes /\
  disk_bytes a' = disk_bytes a /\ free_bytes a' = free_bytes a - sum sizes /\
  autogrow a' = autogrow a /\ cfg_bytes a' = cfg_bytes a /\
  In sp (free_space a) /\ sum sizes <= snd sp /\
  (forall b, cnt (free_space a') b = cnt (free_space a) b - ind (fst sp, sum sizes) b).
Proof.
  intros HI HS HF. pose proof HI as (H1 & H2 & H3 & H4 & H5 & H6).
  pose proof (sum_nonneg _ HS) as SN.
  apply find_some_split in HF. destruct HF as (bf & af & EQ & FT & _). apply Z.leb_le in FT.
  unfold take_region. cbn [free_space free_bytes disk_bytes cfg_bytes autogrow fst snd].
  set (m' := if sum sizes <? snd sp then _ else _).
  assert (K : canon (-1) m' /\ (forall b, cnt m' b = cnt (free_space a) b - ind (fst sp, sum sizes) b) /\
              bytes_of m' = bytes_of (free_space a) - sum sizes).
  { rewrite EQ in H1. pose proof H1 as HH. apply canon_app in HH. destruct HH as (A & B & C & D).
    unfold m'. rewrite EQ, (erase_mid (-1)) by exact H1.
    destruct (Z.ltb_spec (sum sizes) (snd sp)) as [L|L].
    - assert (KS : map_set (bf ++ af) (fst sp + sum sizes) (snd sp - sum sizes) =
                   bf ++ (fst sp + sum sizes, snd sp - sum sizes) :: af).
      { apply set_mid; intros x I.
        - pose proof (canon_in _ _ _ A I). lia.
        - pose proof (canon_in _ _ _ D I). lia. }
      rewrite KS. split; [|split].
      + apply canon_app. split; [exact A|]. cbn. repeat split; try lia.
        replace (fst sp + sum sizes + (snd sp - sum sizes)) with (fst sp + snd sp) by lia. exact D.
      + intros b. rewrite !cnt_app. cbn [cnt].
        pose proof (ind_join (fst sp) (sum sizes) (fst sp + sum sizes) (snd sp - sum sizes) b ltac:(lia) ltac:(lia) eq_refl) as J.
        replace (sum sizes + (snd sp - sum sizes)) with (snd sp) in J by lia.
        destruct sp as [u v]; cbn [fst snd] in *. lia.
      + rewrite !bytes_app, !bytes_cons. cbn [snd]. lia.
    - assert (Q : sum sizes = snd sp) by lia. rewrite Q. split; [|split].
      + apply canon_app. split; [exact A|]. apply (canon_weaken (fst sp + snd sp)); [lia|exact D].
      + intros b. rewrite !cnt_app. cbn [cnt]. destruct sp; cbn [fst snd]. lia.
      + rewrite !bytes_app, !bytes_cons. lia. }
  clearbody m'. destruct K as (K1 & K2 & K3).
  split; [|split; [reflexivity|]].
  - cbn [inv free_space free_bytes disk_bytes]. split; [exact K1|]. split.
    { intros b. rewrite K2, cnt_app, cnt_offsets by exact HS. specialize (H2 b). lia. }
    split; [lia|]. split; [rewrite bytes_app, bytes_offsets; lia|]. split; [|exact H6].
    apply Forall_app. split; [exact H5|]. clear -HS. generalize (fst sp). induction HS; intros p; cbn; constructor; auto.
  - repeat (split; [reflexivity|]). split; [rewrite EQ; apply in_or_app; right; left; auto|].
    split; [lia|exact K2].
Qed.

(** * One locked section *)
Inductive section_spec (bs : Z) (sizes : list Z) (a : alloc) (live : list region) : section_result -> Prop :=
| ss_done a' o g : inv (a', live ++ combine o sizes) -> length o = length sizes ->
    (exists p, o = offsets_from p sizes) ->
    0 <= g -> disk_bytes a' = disk_bytes a + g -> free_bytes a' = free_bytes a + g - sum sizes ->
    autogrow a' = autogrow a -> cfg_bytes a' = cfg_bytes a ->
    (free_bytes a < sum sizes -> autogrow a = true) ->
    section_spec bs sizes a live (SDone a' o)
| ss_split a' g : inv (a', live) -> sum sizes <> bs -> first_fit (free_space a') (sum sizes) = None ->
    sum sizes <= free_bytes a' ->
    (a' = a \/ autogrow a = true) -> 0 <= g -> disk_bytes a' = disk_bytes a + g -> free_bytes a' = free_bytes a + g ->
    autogrow a' = autogrow a -> cfg_bytes a' = cfg_bytes a ->
    section_spec bs sizes a live (SSplit a')
| ss_throw : free_bytes a < sum sizes -> autogrow a = false -> section_spec bs sizes a live (SThrow a).

Lemma first_fit_none fs n : first_fit fs n = None -> forall r, In r fs -> snd r < n.
Proof.
  intros H r I. pose proof (find_none _ _ H r I) as K. cbn in K. apply Z.leb_gt in K. exact K.
Qed.
Lemma first_fit_exists fs n r : In r fs -> n <= snd r -> exists sp, first_fit fs n = Some sp.
Proof.
  intros I L. destruct (first_fit fs n) eqn:E; [eauto|]. pose proof (first_fit_none _ _ E r I). lia.
Qed.

Lemma contig : forall n lo l b, canon lo l -> (forall x, b <= x < b + Z.of_nat n -> 1 <= cnt l x) -> (0 < n)%nat ->
  exists r, In r l /\ Z.of_nat n <= snd r.
Proof.
  intros n lo l b HC H Hn. destruct (cnt_pos l b) as (r & I & C); [apply H; lia|].
  exists r. split; [exact I|].
  (* the region holding b must reach b + n: the byte after a region is not free *)
  destruct (Z_le_gt_dec (b + Z.of_nat n) (fst r + snd r)) as [L|L]; [unfold contains in C; lia|].
  exfalso. specialize (H (fst r + snd r)). unfold contains in C.
  assert (H' : 1 <= cnt l (fst r + snd r)) by (apply H; lia). clear H.
  destruct (cnt_pos _ _ H') as (q & J & D). unfold contains in D.
  apply in_split in I. destruct I as (l1 & l2 & ->). apply canon_app in HC. destruct HC as (A1 & A2 & A3 & A4).
  apply in_app_or in J. destruct J as [J|[<-|J]].
  - pose proof (canon_in _ _ _ A1 J). lia.
  - lia.
  - pose proof (canon_in _ _ _ A4 J). lia.
Qed.

Lemma section_ok bs sizes a live : inv (a, live) -> 0 < bs -> Forall (fun z => 0 < z) sizes ->
  section_spec bs sizes a live (alloc_section bs sizes a).
Proof.
  intros HI Hb HS. unfold alloc_section. pose proof (sum_nonneg _ HS) as SN.
  set (grown := if free_bytes a <? sum sizes then _ else _).
  assert (G : (grown = None /\ free_bytes a < sum sizes /\ autogrow a = false) \/
     exists a1 g, grown = Some a1 /\ inv (a1, live) /\ 0 <= g /\ disk_bytes a1 = disk_bytes a + g /\
       free_bytes a1 = free_bytes a + g /\ autogrow a1 = autogrow a /\ cfg_bytes a1 = cfg_bytes a /\
       sum sizes <= free_bytes a1 /\ (a1 = a \/ autogrow a = true) /\ (free_bytes a < sum sizes -> autogrow a = true)).
  { unfold grown. destruct (Z.ltb_spec (free_bytes a) (sum sizes)) as [L|L].
    - assert (FP : 0 <= free_bytes a).
      { destruct HI as (H1 & _ & -> & _). eapply bytes_canon_nonneg; eauto. }
      destruct (autogrow a) eqn:AG; [right|left; auto].
      destruct (grow_ok a live (sum sizes) HI ltac:(lia)) as (a1 & E & I1 & D1 & F1 & A1 & C1 & _).
      exists a1, (sum sizes). rewrite E. repeat split; auto; try lia; try congruence; try apply I1.
    - right. exists a, 0. repeat split; auto; try lia; try apply HI. }
  clearbody grown. destruct G as [(-> & L & AG)|(a1 & g & -> & I1 & Hg & D1 & F1 & A1 & C1 & L1 & Ch & Ag)].
  { constructor; auto. }
  destruct (first_fit (free_space a1) (sum sizes)) as [sp|] eqn:EF.
  { pose proof (take_ok a1 live sp sizes I1 HS EF) as T. destruct (take_region a1 sp sizes) as [a' o].
    destruct T as (T1 & T2 & T3 & T4 & T5 & T6 & _). apply (ss_done bs sizes a live a' o g); auto; try congruence; try lia.
    - rewrite T2. apply offsets_len.
    - eauto. }
  destruct (Z.eqb_spec (sum sizes) bs) as [Q|Q].
  2: { apply (ss_split bs sizes a live a1 g); auto. }
  destruct (grow_ok a1 live bs I1 Hb) as (a2 & E & I2 & D2 & F2 & A2 & C2 & CN).
  rewrite E.
  destruct (first_fit (free_space a2) (sum sizes)) as [sp|] eqn:EF2.
  { pose proof (take_ok a2 live sp sizes I2 HS EF2) as T. destruct (take_region a2 sp sizes) as [a' o].
    destruct T as (T1 & T2 & T3 & T4 & T5 & T6 & _). apply (ss_done bs sizes a live a' o (g + bs)); auto; try congruence; try lia.
    - rewrite T2. apply offsets_len.
    - eauto. }
  exfalso.
  (* the grown area is contiguous, so some region is large enough *)
  destruct I2 as (N1 & _).
  destruct (contig (Z.to_nat bs) (-1) (free_space a2) (disk_bytes a1) N1) as (r & I & L).
  - intros x Hx. rewrite CN. rewrite Z2Nat.id in Hx by lia. pose proof (cnt_nonneg (free_space a1) x).
    destruct (ind_cases (disk_bytes a1, bs) x) as [[-> _]|[_ N]]; [lia|]. exfalso. apply N. unfold contains; cbn. lia.
  - lia.
  - pose proof (first_fit_none _ _ EF2 r I). rewrite Z2Nat.id in L by lia. lia.
Qed.

(** * Histories *)
Lemma exec_inv s e : inv s -> legal_event s e -> inv (exec s e).
Proof.
  destruct s as [a live]. intros HI L. destruct e as [bs sizes|r]; cbn [exec].
  - destruct L as [Hb HS]. pose proof (section_ok bs sizes a live HI Hb HS) as S.
    destruct S; auto.
  - cbn [legal_event fst snd] in L. unfold delete_block. destruct L as [L|(Hs & f & I & O)].
    + pose proof (in_live_inside _ _ _ HI L) as (P1 & P2 & P3).
      destruct (afr_spec (-1) a (fst r) (snd r) (proj1 HI) ltac:(lia) P2) as [((f & I & O) & _)|(_ & a' & E & R)].
      * exfalso. apply (live_not_free _ _ _ _ HI L I). destruct r; exact O.
      * rewrite E. destruct R as (R1 & R2 & R3 & R4 & R5 & R6 & R7).
        destruct HI as (H1 & H2 & H3 & H4 & H5 & H6).
        destruct (remove1_spec r live L) as (M1 & M2 & M3).
        cbn [inv]. rewrite R5. split; [exact R1|]. split.
        { intros b. rewrite R2, M1. specialize (H2 b). destruct r; cbn [fst snd] in *. lia. }
        split; [lia|]. split; [lia|]. split; [|exact H6].
        rewrite Forall_forall in *. intros x X. apply H5, M3, X.
    + destruct (afr_spec (Z.min (-1) (fst r - 1)) a (fst r) (snd r)) as [(_ & E)|(N & _)]; try lia.
      * apply (canon_weaken (-1)); [lia|exact (proj1 HI)].
      * rewrite E. exact HI.
      * exfalso. apply (N f I). destruct r; exact O.
Qed.
Lemma run_inv es : forall s, inv s -> legal s es -> inv (run s es).
Proof.
  induction es as [|e es IH]; intros s HI L; [exact HI|]. destruct L as [L1 L2].
  cbn. apply IH; auto. apply exec_inv; auto.
Qed.
Lemma empty_inv cfg g : inv (empty_alloc cfg g, []).
Proof.
  cbn. repeat split; auto; try lia. intros b. destruct (Z.leb_spec 0 b), (Z.ltb_spec b 0); cbn; lia.
Qed.
Lemma make_ok cfg g : 0 <= cfg -> exists a, make_alloc cfg g = Some a /\ inv (a, []) /\
  disk_bytes a = cfg /\ free_bytes a = cfg /\ cfg_bytes a = cfg /\ autogrow a = g /\
  (forall b, cnt (free_space a) b = ind (0, cfg) b).
Proof.
  intros H. unfold make_alloc. destruct (Z.eq_dec cfg 0) as [->|N].
  - exists (empty_alloc 0 g). split; [reflexivity|]. split; [apply empty_inv|]. repeat (split; [reflexivity|]).
    intros b. unfold ind; cbn. destruct (Z.leb_spec 0 b), (Z.ltb_spec b 0); cbn; lia.
  - destruct (grow_ok (empty_alloc cfg g) [] cfg (empty_inv cfg g) ltac:(lia)) as (a & E & I & D & F & A & C & CN).
    exists a. rewrite E. repeat (split; auto).
Qed.
Lemma reachable_inv cfg g s : 0 <= cfg -> reachable cfg g s -> inv s.
Proof.
  intros H (a0 & es & E & L & <-). destruct (make_ok cfg g H) as (a & E' & I & _).
  rewrite E in E'. injection E' as <-. apply run_inv; auto.
Qed.

(** * C01, C02, C04 *)
Lemma inv_partition a live : inv (a, live) -> partition_of_disk (disk_bytes a) (free_space a) live.
Proof.
  intros HI. pose proof HI as (H1 & H2 & H3 & H4 & H5 & H6). split; [|split].
  - apply cnt_pairwise. intros b. rewrite cnt_app. specialize (H2 b).
    destruct ((0 <=? b) && (b <? disk_bytes a)); lia.
  - intros r I. apply in_app_or in I. unfold inside. destruct I as [I|I].
    + pose proof (in_free_inside _ _ _ HI I). lia.
    + pose proof (in_live_inside _ _ _ HI I). lia.
  - intros b Hb. apply cnt_pos. rewrite cnt_app, H2.
    destruct (Z.leb_spec 0 b), (Z.ltb_spec b (disk_bytes a)); cbn; lia.
Qed.

Lemma pd_app l m : pairwise_disjoint (l ++ m) -> pairwise_disjoint l /\ pairwise_disjoint m /\
  (forall r s, In r l -> In s m -> ~ overlap r s).
Proof.
  induction l as [|x l IH]; cbn; intros H.
  - split; [constructor|]. split; [exact H|]. intros r s [].
  - inversion_clear H as [|? ? A B]. destruct (IH B) as (C & D & E).
    rewrite Forall_app in A. destruct A as [A1 A2]. split; [constructor; auto|]. split; [exact D|].
    intros r s [<-|I] J; [rewrite Forall_forall in A2; auto|auto].
Qed.

Lemma contiguous_served bs sizes a live p : inv (a, live) -> 0 < bs -> Forall (fun z => 0 < z) sizes -> sizes <> [] ->
  inside (p, sum sizes) (disk_bytes a) -> (forall r, In r live -> ~ overlap r (p, sum sizes)) ->
  exists a' o, alloc_section bs sizes a = SDone a' o /\ disk_bytes a' = disk_bytes a.
Proof.
  intros HI Hb HS HN (P1 & P2) HO. cbn [fst snd] in *.
  assert (SP : 0 < sum sizes).
  { destruct sizes as [|z l]; [congruence|]. inversion_clear HS. cbn. pose proof (sum_nonneg l H0). unfold sum in *. lia. }
  pose proof HI as (H1 & H2 & H3 & H4 & H5 & H6).
  destruct (contig (Z.to_nat (sum sizes)) (-1) (free_space a) p H1) as (r & I & L).
  - intros x Hx. rewrite Z2Nat.id in Hx by lia. specialize (H2 x).
    assert (cnt live x = 0).
    { pose proof (cnt_nonneg live x). destruct (Z.eq_dec (cnt live x) 0); auto. exfalso.
      destruct (cnt_pos live x) as (q & J & C); [lia|]. apply (HO q J). exists x. split; [exact C|]. unfold contains; cbn; lia. }
    destruct (Z.leb_spec 0 x), (Z.ltb_spec x (disk_bytes a)); cbn in H2; lia.
  - lia.
  - rewrite Z2Nat.id in L by lia.
    assert (FB : sum sizes <= free_bytes a).
    { rewrite H3. apply in_split in I. destruct I as (l1 & l2 & E). rewrite E, bytes_app, bytes_cons.
      rewrite E in H1. apply canon_app in H1. destruct H1 as (A1 & A2 & A3 & A4).
      pose proof (bytes_canon_nonneg _ _ A1). pose proof (bytes_canon_nonneg _ _ A4). lia. }
    destruct (first_fit_exists (free_space a) (sum sizes) r I L) as (sp & E).
    unfold alloc_section. destruct (Z.ltb_spec (free_bytes a) (sum sizes)); [lia|]. rewrite E.
    pose proof (take_ok a live sp sizes HI HS E) as T. destruct (take_region a sp sizes) as [a' o].
    exists a', o. split; [reflexivity|]. apply T.
Qed.

(** * C05: what can happen on a fixed-size disk *)
Lemma fixed_size_growth bs sizes a live : inv (a, live) -> 0 < bs -> Forall (fun z => 0 < z) sizes ->
  autogrow a = false ->
  match alloc_section bs sizes a with
  | SThrow a' => a' = a /\ free_bytes a < sum sizes
  | SSplit a' => a' = a /\ sum sizes <> bs /\ sum sizes <= free_bytes a /\ (forall r, In r (free_space a) -> snd r < sum sizes)
  | SDone a' _ =>
      disk_bytes a' = disk_bytes a \/
      (disk_bytes a' = disk_bytes a + bs /\ sum sizes = bs /\ bs <= free_bytes a /\
       forall r, In r (free_space a) -> snd r < bs)
  end.
Proof.
  intros HI Hb HS AG. unfold alloc_section. rewrite AG.
  destruct (Z.ltb_spec (free_bytes a) (sum sizes)) as [L|L]; [split; [reflexivity|exact L]|].
  destruct (first_fit (free_space a) (sum sizes)) as [sp|] eqn:E.
  { pose proof (take_ok a live sp sizes HI HS E) as T. destruct (take_region a sp sizes) as [a' o].
    left. apply T. }
  pose proof (first_fit_none _ _ E) as FN.
  destruct (Z.eqb_spec (sum sizes) bs) as [Q|Q].
  2: { split; [reflexivity|]. split; [exact Q|]. split; [exact L|]. intros r I. apply (FN r I). }
  destruct (grow_ok a live bs HI Hb) as (a2 & E2 & I2 & D2 & _). 
  pose proof (section_ok bs sizes a live HI Hb HS) as S. unfold alloc_section in S.
  rewrite AG in S. destruct (Z.ltb_spec (free_bytes a) (sum sizes)); [lia|]. rewrite E, E2 in S.
  destruct (Z.eqb_spec (sum sizes) bs); [|congruence].
  rewrite E2. destruct (first_fit (free_space a2) (sum sizes)) as [sp|] eqn:EF.
  - pose proof (take_ok a2 live sp sizes I2 HS EF) as T. destruct (take_region a2 sp sizes) as [a' o].
    right. split; [rewrite <- D2; apply T|]. split; [exact Q|]. split; [lia|].
    intros r I. rewrite <- Q. apply (FN r I).
  - exfalso. inversion S. congruence.
Qed.

(** Uniform block size *)
Definition aligned (B : Z) (a : alloc) (live : list region) : Prop :=
  (forall b, cnt (free_space a) b = cnt (free_space a) (B * (b / B))) /\
  (forall r, In r live -> (B | fst r) /\ snd r = B).

Lemma ind_aligned B p s b : 0 < B -> (B | p) -> (B | s) -> ind (p, s) b = ind (p, s) (B * (b / B)).
Proof.
  intros HB (x & ->) (y & ->). unfold ind; cbn [fst snd].
  pose proof (Z.div_mod b B ltac:(lia)). pose proof (Z.mod_pos_bound b B HB).
  set (q := b / B) in *. replace (x * B + y * B) with ((x + y) * B) by lia. 
  assert (E1 : (x * B <=? b) = (x * B <=? B * q)).
  { destruct (Z.leb_spec (x * B) b), (Z.leb_spec (x * B) (B * q)); auto; exfalso; [|lia].
    assert (q < x) by nia. assert (q + 1 <= x) by lia. nia. }
  assert (E2 : (b <? (x + y) * B) = (B * q <? (x + y) * B)).
  { destruct (Z.ltb_spec b ((x + y) * B)), (Z.ltb_spec (B * q) ((x + y) * B)); auto; exfalso; [lia|].
    assert (q < x + y) by nia. assert (q + 1 <= x + y) by lia. nia. }
  rewrite E1, E2. reflexivity.
Qed.

Lemma canon_gap lo l r : canon lo l -> In r l ->
  cnt l (fst r - 1) = 0 /\ cnt l (fst r) = 1 /\ cnt l (fst r + snd r - 1) = 1 /\ cnt l (fst r + snd r) = 0.
Proof.
  intros H I. apply in_split in I. destruct I as (l1 & l2 & ->).
  apply canon_app in H. destruct H as (A1 & A2 & A3 & A4). rewrite !cnt_app. cbn [cnt].
  assert (Z1 : forall b, lend lo l1 <= b -> cnt l1 b = 0).
  { intros b Hb. pose proof (cnt_nonneg l1 b). destruct (Z.eq_dec (cnt l1 b) 0); auto. exfalso.
    destruct (cnt_pos l1 b) as (q & J & C); [lia|]. pose proof (canon_in _ _ _ A1 J). unfold contains in C. lia. }
  assert (Z2 : forall b, b <= fst r + snd r -> cnt l2 b = 0) by (intros; eapply canon_cnt_lo; eauto).
  rewrite !Z1, !Z2 by lia. unfold ind.
  destruct (Z.leb_spec (fst r) (fst r - 1)), (Z.leb_spec (fst r) (fst r)), (Z.ltb_spec (fst r - 1) (fst r + snd r)),
   (Z.ltb_spec (fst r) (fst r + snd r)), (Z.leb_spec (fst r) (fst r + snd r - 1)), (Z.leb_spec (fst r) (fst r + snd r)),
   (Z.ltb_spec (fst r + snd r - 1) (fst r + snd r)), (Z.ltb_spec (fst r + snd r) (fst r + snd r)); cbn; lia.
Qed.

Lemma boundary_div B p : 0 < B -> (p - 1) / B <> p / B -> (B | p).
Proof.
  intros HB N. exists (p / B). pose proof (Z.div_mod p B ltac:(lia)). pose proof (Z.mod_pos_bound p B HB).
  destruct (Z.eq_dec (p mod B) 0); [lia|]. exfalso. apply N. symmetry.
  apply Z.div_unique with (p mod B - 1); lia.
Qed.

Lemma aligned_region B a live r : 0 < B -> inv (a, live) -> aligned B a live -> In r (free_space a) ->
  (B | fst r) /\ (B | snd r).
Proof.
  intros HB (H1 & _) (A & _) I. destruct (canon_gap _ _ _ H1 I) as (G1 & G2 & G3 & G4).
  assert (D1 : (B | fst r)).
  { apply boundary_div; auto. intros E. rewrite (A (fst r - 1)), E, <- A in G1. lia. }
  assert (D2 : (B | fst r + snd r)).
  { apply boundary_div; auto. intros E. rewrite (A (fst r + snd r - 1)), E, <- A in G3. lia. }
  split; [exact D1|]. replace (snd r) with (fst r + snd r - fst r) by lia. apply Z.divide_sub_r; auto.
Qed.

Lemma sum_uniform B l : Forall (eq B) l -> sum l = Z.of_nat (length l) * B.
Proof. unfold sum. induction 1; cbn -[Z.mul Z.of_nat]; [reflexivity|]. rewrite Nat2Z.inj_succ. lia. Qed.

Lemma offsets_aligned B l p r : (B | p) -> Forall (eq B) l -> In r (combine (offsets_from p l) l) -> (B | fst r) /\ snd r = B.
Proof.
  intros Hp H. revert p Hp. induction H as [|z l <- Hl IH]; intros p Hp I; [destruct I|].
  cbn in I. destruct I as [<-|I]; [auto|]. apply (IH (p + B)); auto. apply Z.divide_add_r; auto. apply Z.divide_refl.
Qed.

(** a history in which only blocks of size B are allocated *)
Definition uniform_event (B : Z) (e : event) : Prop :=
  match e with EAlloc bs sizes => bs = B /\ Forall (eq B) sizes | EFree _ => True end.

Lemma uniform_step B s e : 0 < B -> inv s -> aligned B (fst s) (snd s) -> autogrow (fst s) = false ->
  legal_event s e -> uniform_event B e ->
  aligned B (fst (exec s e)) (snd (exec s e)) /\ disk_bytes (fst (exec s e)) = disk_bytes (fst s) /\
  autogrow (fst (exec s e)) = false.
Proof.
  destruct s as [a live]. cbn [fst snd]. intros HB HI HA AG L U. destruct e as [bs sizes|r]; cbn [exec].
  - destruct U as [-> U]. destruct L as [_ HS]. unfold alloc_section. rewrite AG.
    destruct (Z.ltb_spec (free_bytes a) (sum sizes)) as [Q|Q]; [cbn; auto|].
    destruct (first_fit (free_space a) (sum sizes)) as [sp|] eqn:E.
    + pose proof (take_ok a live sp sizes HI HS E) as T. destruct (take_region a sp sizes) as [a' o].
      destruct T as (T1 & T2 & T3 & T4 & T5 & T6 & T7 & T8 & T9). cbn [fst snd].
      destruct (aligned_region B a live sp HB HI HA T7) as [D1 D2].
      split; [|split; [exact T3|congruence]]. destruct HA as [A1 A2]. split.
      * intros b. rewrite !T9. rewrite (A1 b). f_equal. apply ind_aligned; auto.
        rewrite (sum_uniform B) by auto. apply Z.divide_factor_r.
      * intros r I. apply in_app_or in I. destruct I as [I|I]; [auto|]. rewrite T2 in I.
        apply (offsets_aligned B sizes (fst sp)); auto.
    + destruct (Z.eqb_spec (sum sizes) B) as [Q2|Q2]; [|cbn; auto]. exfalso.
      destruct (free_space a) as [|r0 t] eqn:EF.
      * destruct HI as (_ & _ & F & _). rewrite F, EF, bytes_nil in Q. lia.
      * assert (I0 : In r0 (free_space a)) by (rewrite EF; left; auto).
        destruct (aligned_region B a live r0 HB HI HA I0) as [_ D].
        pose proof (in_free_inside _ _ _ HI I0) as (_ & P & _).
        rewrite <- EF in E. pose proof (first_fit_none _ _ E r0 I0).
        apply Z.divide_pos_le in D; lia.
  - unfold delete_block. cbn [legal_event fst snd] in L.
    destruct (add_free_region a (fst r) (snd r)) as [a'|] eqn:E; [|cbn; auto].
    destruct L as [L|(Hs & f & I & O)].
    + pose proof (in_live_inside _ _ _ HI L) as (P1 & P2 & P3).
      destruct (afr_spec (-1) a (fst r) (snd r) (proj1 HI) ltac:(lia) P2) as [(_ & E')|(_ & a'' & E' & R)]; [congruence|].
      rewrite E in E'. injection E' as <-. destruct R as (R1 & R2 & R3 & R4 & R5 & R6 & R7). cbn [fst snd].
      split; [|split; congruence]. destruct HA as [A1 A2]. destruct (A2 r L) as [D1 D2]. split.
      * intros b. rewrite !R2, (A1 b). f_equal. apply ind_aligned; auto. rewrite D2. apply Z.divide_refl.
      * intros x X. apply A2. apply (remove1_spec r live L). exact X.
    + exfalso. destruct (afr_spec (Z.min (-1) (fst r - 1)) a (fst r) (snd r)) as [(_ & E')|(N & _)]; try lia.
      * apply (canon_weaken (-1)); [lia|exact (proj1 HI)].
      * congruence.
      * apply (N f I). destruct r; exact O.
Qed.

Lemma uniform_run B es : 0 < B -> forall s, inv s -> aligned B (fst s) (snd s) -> autogrow (fst s) = false ->
  legal s es -> Forall (uniform_event B) es -> disk_bytes (fst (run s es)) = disk_bytes (fst s).
Proof.
  intros HB. induction es as [|e es IH]; intros s HI HA AG L U; [reflexivity|].
  destruct L as [L1 L2]. inversion_clear U. cbn.
  destruct (uniform_step B s e HB HI HA AG L1 H) as (A & D & G).
  rewrite <- D. apply IH; auto. apply exec_inv; auto.
Qed.

Lemma uniform_fixed B cfg es a0 : 0 < B -> 0 <= cfg -> (B | cfg) -> make_alloc cfg false = Some a0 ->
  legal (a0, []) es -> Forall (uniform_event B) es -> disk_bytes (fst (run (a0, []) es)) = cfg.
Proof.
  intros HB HC HD HM L U. destruct (make_ok cfg false HC) as (a & E & I & D & F & C & G & CN).
  rewrite HM in E. injection E as <-. rewrite (uniform_run B es HB (a0, [])); auto.
  split; [|intros r []]. intros b. cbn [fst]. rewrite !CN. apply ind_aligned; auto. apply Z.divide_0_r.
Qed.

(** * C06: a whole call, run without interference *)
Lemma combine_firstn_skipn {A B} (o1 o2 : list A) (l : list B) n : length o1 = n -> (n <= length l)%nat ->
  combine (o1 ++ o2) l = combine o1 (firstn n l) ++ combine o2 (skipn n l).
Proof.
  revert n l. induction o1 as [|x o1 IH]; intros n l H L; cbn in H; subst n; [reflexivity|].
  destruct l as [|y l]; cbn in L; [lia|]. cbn. f_equal. apply IH; auto. lia.
Qed.
Lemma sum_app l m : sum (l ++ m) = sum l + sum m.
Proof. unfold sum. induction l; cbn; lia. Qed.
Lemma div2_bounds n : (2 <= n)%nat -> (1 <= Nat.div2 n < n)%nat.
Proof.
  intros H. pose proof (Nat.div2_odd n). split; [|apply Nat.lt_div2; lia].
  destruct (Nat.odd n); cbn in *; lia.
Qed.

Lemma new_blocks_ok bs : 0 < bs -> forall fuel sizes a live, inv (a, live) -> Forall (eq bs) sizes ->
  (1 <= length sizes <= fuel)%nat -> (sum sizes <= free_bytes a \/ autogrow a = true) ->
  exists a' o g, new_blocks fuel bs sizes a = Done a' o /\ inv (a', live ++ combine o sizes) /\
    length o = length sizes /\ 0 <= g /\ disk_bytes a' = disk_bytes a + g /\
    free_bytes a' = free_bytes a + g - sum sizes /\ autogrow a' = autogrow a /\ cfg_bytes a' = cfg_bytes a.
Proof.
  intros Hb. induction fuel as [|fuel IH]; intros sizes a live HI HU HL HF; [lia|].
  assert (HS : Forall (fun z => 0 < z) sizes) by (revert HU; apply Forall_impl; intros; subst; auto).
  cbn [new_blocks]. pose proof (section_ok bs sizes a live HI Hb HS) as S.
  destruct S as [a' o g I1 LO _ G1 G2 G3 G4 G5 _|a' g I1 NE FF LE CH G1 G2 G3 G4 G5|Q AG].
  - exists a', o, g. auto 10.
  - assert (L2 : (2 <= length sizes)%nat).
    { destruct (Nat.eq_dec (length sizes) 1) as [E|E]; [|lia]. exfalso. apply NE.
      rewrite (sum_uniform bs), E by auto. lia. }
    pose proof (div2_bounds _ L2) as M. set (mid := Nat.div2 (length sizes)) in *.
    pose proof (firstn_skipn mid sizes) as FS.
    assert (SS : sum sizes = sum (firstn mid sizes) + sum (skipn mid sizes)) by (rewrite <- sum_app, FS; reflexivity).
    assert (U1 : Forall (eq bs) (firstn mid sizes) /\ Forall (eq bs) (skipn mid sizes)) by (apply Forall_app; rewrite FS; auto).
    destruct U1 as [U1 U2].
    assert (SN : 0 <= sum (skipn mid sizes)) by (apply sum_nonneg; revert U2; apply Forall_impl; intros; subst; auto).
    destruct (IH (firstn mid sizes) a' live I1 U1) as (a1 & o1 & g1 & E1 & J1 & L1 & K1 & K2 & K3 & K4 & K5).
    { rewrite firstn_length. lia. }
    { left. lia. }
    destruct (IH (skipn mid sizes) a1 (live ++ combine o1 (firstn mid sizes)) J1 U2) as (a2 & o2 & g2 & E2 & J2 & L3 & N1 & N2 & N3 & N4 & N5).
    { rewrite skipn_length. lia. }
    { left. lia. }
    rewrite E1, E2. exists a2, (o1 ++ o2), (g + g1 + g2). split; [reflexivity|].
    rewrite firstn_length in L1. rewrite skipn_length in L3.
    split.
    { rewrite (combine_firstn_skipn o1 o2 sizes mid) by lia. rewrite app_assoc. exact J2. }
    split; [rewrite app_length; lia|]. split; [lia|]. split; [lia|]. split; [lia|]. split; congruence.
  - destruct HF as [HF|HF]; [lia|congruence].
Qed.

Lemma new_blocks_throw bs fuel sizes a : (0 < fuel)%nat -> free_bytes a < sum sizes -> autogrow a = false ->
  new_blocks fuel bs sizes a = Throw a.
Proof.
  intros HF L AG. destruct fuel; [lia|]. cbn [new_blocks]. unfold alloc_section. rewrite AG.
  destruct (Z.ltb_spec (free_bytes a) (sum sizes)); [reflexivity|lia].
Qed.

(** * Statements used by DiskAllocProps.v *)
Lemma C01_main : forall cfg grow a live, 0 <= cfg -> reachable cfg grow (a, live) ->
  pairwise_disjoint live /\ (forall r, In r live -> inside r (get_total_bytes a)) /\
  partition_of_disk (get_total_bytes a) (free_space a) live.
Proof.
  intros cfg g a live H R. apply reachable_inv in R; auto. pose proof (inv_partition _ _ R) as P.
  split; [|split; [|exact P]].
  - apply (pd_app _ _ (proj1 P)).
  - intros r I. apply P. apply in_or_app; auto.
Qed.

Lemma C01_fresh : forall cfg grow a live bs sizes a' o, 0 <= cfg -> reachable cfg grow (a, live) ->
  0 < bs -> Forall (fun z => 0 < z) sizes -> alloc_section bs sizes a = SDone a' o ->
  length o = length sizes /\
  (forall r s, In r live -> In s (combine o sizes) -> ~ overlap r s) /\
  pairwise_disjoint (combine o sizes) /\
  (forall r, In r (combine o sizes) -> inside r (get_total_bytes a')).
Proof.
  intros cfg g a live bs sizes a' o H R Hb HS E. apply reachable_inv in R; auto.
  pose proof (section_ok bs sizes a live R Hb HS) as S. rewrite E in S. inversion_clear S as [? ? ? I L| |].
  pose proof (inv_partition _ _ I) as (P1 & P2 & _).
  apply pd_app in P1. destruct P1 as (_ & P1 & _). apply pd_app in P1. destruct P1 as (_ & Q1 & Q2).
  split; [exact L|]. split; [exact Q2|]. split; [exact Q1|].
  intros r J. apply P2. apply in_or_app. right. apply in_or_app. auto.
Qed.

Lemma C02_init : forall cfg grow, 0 <= cfg -> exists a, make_alloc cfg grow = Some a /\
  get_total_bytes a = cfg /\ get_free_bytes a = cfg /\ get_used_bytes a = 0.
Proof.
  intros cfg g H. destruct (make_ok cfg g H) as (a & E & _ & D & F & _). exists a.
  unfold get_total_bytes, get_free_bytes, get_used_bytes. repeat split; auto; lia.
Qed.

Lemma C02_main : forall cfg grow a live, 0 <= cfg -> reachable cfg grow (a, live) ->
  get_free_bytes a = bytes_of (free_space a) /\
  get_free_bytes a + bytes_of live = get_total_bytes a /\
  get_used_bytes a = bytes_of live /\ 0 <= get_free_bytes a.
Proof.
  intros cfg g a live H R. apply reachable_inv in R; auto. destruct R as (H1 & H2 & H3 & H4 & _).
  pose proof (bytes_canon_nonneg _ _ H1). unfold get_total_bytes, get_free_bytes, get_used_bytes. repeat split; lia.
Qed.

Lemma C03_main : forall cfg grow a live, 0 <= cfg -> reachable cfg grow (a, live) ->
  (forall p n f, 0 < n -> In f (free_space a) -> overlap f (p, n) -> delete_block a (p, n) = None) /\
  (forall p n, 0 < n -> (forall f, In f (free_space a) -> ~ overlap f (p, n)) -> delete_block a (p, n) <> None) /\
  (forall r, In r live -> delete_block a r <> None) /\
  (forall r a', In r live -> delete_block a r = Some a' -> delete_block a' r = None).
Proof.
  intros cfg g a live H R. apply reachable_inv in R; auto.
  assert (W : forall p n, 0 < n ->
    ((exists r, In r (free_space a) /\ overlap r (p, n)) /\ add_free_region a p n = None) \/
    ((forall r, In r (free_space a) -> ~ overlap r (p, n)) /\ exists a', add_free_region a p n = Some a')).
  { intros p n Hn. destruct (afr_spec (Z.min (-1) (p - 1)) a p n) as [?|(N & a' & E & _)]; auto; try lia.
    - apply (canon_weaken (-1)); [lia|exact (proj1 R)].
    - right. split; eauto. }
  assert (LV : forall r, In r live -> delete_block a r <> None).
  { intros r I. unfold delete_block. pose proof (in_live_inside _ _ _ R I) as (_ & P & _).
    destruct (W (fst r) (snd r) P) as [((f & J & O) & _)|(_ & a' & E)]; [|congruence].
    exfalso. apply (live_not_free _ _ _ _ R I J). destruct r; exact O. }
  split; [|split; [|split]].
  - intros p n f Hn I O. unfold delete_block; cbn. destruct (W p n Hn) as [[_ E]|(N & _)]; [exact E|].
    exfalso. apply (N f I O).
  - intros p n Hn N. unfold delete_block; cbn. destruct (W p n Hn) as [((f & I & O) & _)|(_ & a' & E)]; [|congruence].
    exfalso. apply (N f I O).
  - exact LV.
  - intros r a' I E. pose proof (in_live_inside _ _ _ R I) as (P1 & P2 & _). unfold delete_block in *.
    destruct (afr_spec (-1) a (fst r) (snd r) (proj1 R) ltac:(lia) P2) as [(_ & E')|(_ & a'' & E' & K)]; [congruence|].
    rewrite E in E'. injection E' as <-. destruct K as (K1 & K2 & _).
    destruct (afr_spec (-1) a' (fst r) (snd r) K1 ltac:(lia) P2) as [(_ & E'')|(N & _)]; [exact E''|].
    exfalso. specialize (K2 (fst r)).
    destruct (ind_cases (fst r, snd r) (fst r)) as [[Q C]|[_ C]]; [|apply C; unfold contains; cbn; lia].
    pose proof (cnt_nonneg (free_space a) (fst r)).
    destruct (cnt_pos (free_space a') (fst r)) as (f & J & D); [lia|].
    apply (N f J). exists (fst r). split; auto.
Qed.

Lemma C04_main : forall cfg grow a live, 0 <= cfg -> reachable cfg grow (a, live) ->
  maximal_ranges (-1) (free_space a) /\
  (forall bs sizes p, 0 < bs -> Forall (fun z => 0 < z) sizes -> sizes <> [] ->
     inside (p, sum sizes) (get_total_bytes a) ->
     (forall r, In r live -> ~ overlap r (p, sum sizes)) ->
     exists a' o, alloc_section bs sizes a = SDone a' o /\ get_total_bytes a' = get_total_bytes a).
Proof.
  intros cfg g a live H R. apply reachable_inv in R; auto. split; [exact (proj1 R)|].
  intros bs sizes p. exact (contiguous_served bs sizes a live p R).
Qed.

Lemma reachable_autogrow cfg g a live : 0 <= cfg -> reachable cfg g (a, live) -> autogrow a = g.
Proof.
  intros H (a0 & es & E & L & Q). destruct (make_ok cfg g H) as (a' & E' & I & _ & _ & _ & G & _).
  rewrite E in E'. injection E' as <-.
  assert (K : forall es s, inv s -> legal s es -> autogrow (fst (run s es)) = autogrow (fst s)).
  { clear. induction es as [|e es IH]; intros s I L; [reflexivity|]. destruct L as [L1 L2].
    change (run s (e :: es)) with (run (exec s e) es). rewrite IH; auto; [|apply exec_inv; auto]. destruct s as [a live]. destruct e as [bs sizes|r]; cbn [exec].
    - destruct L1 as [Hb HS]. pose proof (section_ok bs sizes a live I Hb HS) as S. destruct S; cbn [fst]; auto.
    - unfold delete_block. destruct (add_free_region a (fst r) (snd r)) as [a'|] eqn:E; [|reflexivity]. cbn [fst].
      clear -E. unfold add_free_region in E.
      repeat match type of E with
      | match ?x with _ => _ end = Some _ => destruct x; try discriminate
      | (let '(_, _) := ?x in _) = Some _ => destruct x
      end; injection E as <-; reflexivity. }
  specialize (K es (a0, []) I L). rewrite Q in K. cbn in K. congruence.
Qed.

Lemma C05_growth : forall cfg a live bs sizes, 0 <= cfg -> reachable cfg false (a, live) ->
  0 < bs -> Forall (fun z => 0 < z) sizes ->
  match alloc_section bs sizes a with
  | SThrow a' => a' = a /\ get_free_bytes a < sum sizes
  | SSplit a' => a' = a /\ sum sizes <> bs /\ sum sizes <= get_free_bytes a /\
                 (forall r, In r (free_space a) -> snd r < sum sizes)
  | SDone a' _ =>
      get_total_bytes a' = get_total_bytes a \/
      (get_total_bytes a' = get_total_bytes a + bs /\ sum sizes = bs /\ bs <= get_free_bytes a /\
       forall r, In r (free_space a) -> snd r < bs)
  end.
Proof.
  intros cfg a live bs sizes H R Hb HS. pose proof (reachable_autogrow _ _ _ _ H R) as AG.
  apply reachable_inv in R; auto. exact (fixed_size_growth bs sizes a live R Hb HS AG).
Qed.

(** the witness: 4 bytes, four 1-byte blocks, blocks 0 and 2 freed *)
Definition frag_history : list event := [EAlloc 1 [1; 1; 1; 1]; EFree (0, 1); EFree (2, 1)].
Definition frag_alloc : alloc := mk_alloc [(0, 1); (2, 1)] 2 4 4 false.
Lemma frag_reachable : reachable 4 false (frag_alloc, [(1, 1); (3, 1)]).
Proof.
  exists (mk_alloc [(0, 4)] 4 4 4 false), frag_history. split; [reflexivity|]. split; [|reflexivity].
  cbn. split; [split; [lia|]; repeat constructor; lia|]. split; [left; auto|]. split; [left; auto|]. exact I.
Qed.

Lemma C05_refuted : exists cfg a live bs a' o,
  reachable cfg false (a, live) /\ 0 < bs /\
  alloc_section bs [bs] a = SDone a' o /\ get_total_bytes a' > cfg.
Proof.
  exists 4, frag_alloc, [(1, 1); (3, 1)], 2, (mk_alloc [(0, 1); (2, 1)] 2 6 4 false), [4].
  split; [exact frag_reachable|]. split; [lia|]. split; [reflexivity|]. cbn. lia.
Qed.

Lemma C06_main : forall cfg grow a live bs n fuel, 0 <= cfg -> reachable cfg grow (a, live) ->
  0 < bs -> (1 <= n <= fuel)%nat ->
  (Z.of_nat n * bs <= get_free_bytes a \/ autogrow a = true ->
    exists a' o, new_blocks fuel bs (repeat bs n) a = Done a' o /\ length o = n /\
      pairwise_disjoint (live ++ combine o (repeat bs n)) /\
      (forall r, In r (combine o (repeat bs n)) -> inside r (get_total_bytes a')) /\
      get_used_bytes a' = get_used_bytes a + Z.of_nat n * bs) /\
  (get_free_bytes a < Z.of_nat n * bs -> autogrow a = false ->
    new_blocks fuel bs (repeat bs n) a = Throw a).
Proof.
  intros cfg g a live bs n fuel H R Hb HL. apply reachable_inv in R; auto.
  assert (U : Forall (eq bs) (repeat bs n)) by (apply Forall_forall; intros x I; symmetry; eapply repeat_spec; eauto).
  assert (SU : sum (repeat bs n) = Z.of_nat n * bs) by (rewrite (sum_uniform bs), repeat_length by auto; reflexivity).
  split.
  - intros HF. destruct (new_blocks_ok bs Hb fuel (repeat bs n) a live R U) as (a' & o & gr & E & I & L & G & D & F & _).
    { rewrite repeat_length. exact HL. }
    { rewrite SU. exact HF. }
    exists a', o. rewrite repeat_length in L. split; [exact E|]. split; [exact L|].
    pose proof (inv_partition _ _ I) as (P1 & P2 & _). split; [apply (pd_app _ _ P1)|]. split.
    + intros r J. apply P2. apply in_or_app. right. apply in_or_app. auto.
    + unfold get_used_bytes. lia.
  - intros L AG. apply new_blocks_throw; auto; [lia|]. rewrite SU. exact L.
Qed.

Lemma C06_leak : exists cfg a live,
  reachable cfg false (a, live) /\
  exists t1 t2 t3 a1 a2 a3 a4 o,
    thread_step 1 (start_call [1; 1]) a = (t1, a1) /\
    alloc_section 1 [1] a1 = SDone a2 o /\
    thread_step 1 t1 a2 = (t2, a3) /\
    thread_step 1 t2 a3 = (t3, a4) /\
    failed t3 = true /\ got t3 <> [] /\
    get_used_bytes a4 = bytes_of live + 1 + bytes_of (got t3).
Proof.
  exists 4, frag_alloc, [(1, 1); (3, 1)]. split; [exact frag_reachable|].
  do 8 eexists. split; [vm_compute; reflexivity|]. split; [vm_compute; reflexivity|].
  split; [vm_compute; reflexivity|]. split; [vm_compute; reflexivity|]. split; [reflexivity|].
  split; [discriminate|reflexivity].
Qed.
