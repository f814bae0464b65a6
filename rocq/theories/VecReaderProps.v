(** C94: vector_bufreader, vector_bufreader_reverse, buf_istream_reverse. *)
From Coq Require Import List Bool Arith Permutation Lia.
From Verif Require Import SumLib AsyncIoModel AsyncIoProofs AsyncIoRules ScheduleModel BufIoModel BufIoSpec BufIoRules PrefetchProofs IStreamProofs BufIoProps VecReaderModel VecReaderSpec VecReader.
Import ListNotations.

(** A reader of the range [a, e) of a vector in either direction ([rv]): whatever its user does (reading, looking, advancing, rewinding at any time,
    asking for the size, loops over all), it sees the elements of the range in order, for every order of completion; at the end nothing is pending
    and the blocks are as before. *)
Theorem C94_reader : forall A S ndisks mdev dev ch base (rv : bool) vb nbuf a e os (d : nat -> nat -> A) out, 1 <= S -> 1 <= ndisks -> a <= e -> e <= length vb * S -> (forall b, In b vb -> dev b <= mdev) ->
  (let l := range (elements S d vb) a e in let l := if rv then rev l else l in rspec rv l l os = Some out) ->
  forall c al o, match arun (r_run A S ndisks mdev dev ch base rv vb nbuf a e os) (ainit_own A vb c d al) o with
                 | Done r (x, _) => r = out /\ apend x = [] /\ (forall b i, In b vb -> adisk x b i = d b i) | Error => False | Stuck => True end.
Proof.
  intros A S ndisks mdev dev ch base rv vb nbuf a e os d out H1 H2 H3 H4 H5 E c al o. cbv zeta in E.
  pose proof (own_async A _ (r_run A S ndisks mdev dev ch base rv vb nbuf a e os) vb d _ (fun al => r_run_ok A S H1 ndisks mdev dev ch base vb nbuf a e d al rv H2 H3 H4 H5 os out E) c al o) as R.
  destruct (arun _ _ o) as [r (x & o')| |]; auto. destruct R as (s & (R1 & R2 & R3 & R4) & M). split; [exact R1|]. split; [apply (nothing_left A s x M R2)|].
  intros b i Hb. apply (disk_left A s x b i _ M R2); [rewrite R3; exact Hb|apply R4, Hb].
Qed.
(** and it does not wait forever *)
Theorem C94_reader_progress : forall A S ndisks mdev dev ch base (rv : bool) vb nbuf a e os (d : nat -> nat -> A) out, 1 <= S -> 1 <= ndisks -> a <= e -> e <= length vb * S -> (forall b, In b vb -> dev b <= mdev) ->
  (let l := range (elements S d vb) a e in let l := if rv then rev l else l in rspec rv l l os = Some out) ->
  forall c, exists al o r x, arun (r_run A S ndisks mdev dev ch base rv vb nbuf a e os) (ainit_own A vb c d al) o = Done r (x, []).
Proof.
  intros A S ndisks mdev dev ch base rv vb nbuf a e os d out H1 H2 H3 H4 H5 E. cbv zeta in E.
  exact (own_progress A _ _ vb d _ (fun al => r_run_ok A S H1 ndisks mdev dev ch base vb nbuf a e d al rv H2 H3 H4 H5 os out E)).
Qed.
(** buf_istream_reverse over any blocks gives their elements backwards *)
Theorem C94_reverse_stream : forall A S ndisks mdev dev ch base bids nbuf os (d : nat -> nat -> A) out, 1 <= S -> 1 <= length bids -> 1 <= ndisks \/ nbuf <> 1 -> (forall b, In b bids -> dev b <= mdev) ->
  ispec_ops (rev (elements S d bids)) os = Some out ->
  forall c al o, match arun (ir_run A S ndisks mdev dev ch base bids nbuf os) (ainit_own A bids c d al) o with Done r (x, _) => r = out /\ apend x = [] | Error => False | Stuck => True end.
Proof.
  intros A S ndisks mdev dev ch base bids nbuf os d out H1 H2 H3 H4 E c al o.
  pose proof (own_async A _ (ir_run A S ndisks mdev dev ch base bids nbuf os) bids d _ (fun al => ir_run_ok A S d ndisks mdev dev ch base bids nbuf os out al H1 H2 (is_nbuf_pos _ _ _ H2 H3) H4 E) c al o) as R.
  destruct (arun _ _ o) as [r (x & o')| |]; auto. destruct R as (s & (R1 & R2) & M). split; [exact R1|apply (nothing_left A s x M R2)].
Qed.
Theorem C94_reverse_stream_progress : forall A S ndisks mdev dev ch base bids nbuf os (d : nat -> nat -> A) out, 1 <= S -> 1 <= length bids -> 1 <= ndisks \/ nbuf <> 1 -> (forall b, In b bids -> dev b <= mdev) ->
  ispec_ops (rev (elements S d bids)) os = Some out ->
  forall c, exists al o r x, arun (ir_run A S ndisks mdev dev ch base bids nbuf os) (ainit_own A bids c d al) o = Done r (x, []).
Proof. intros A S ndisks mdev dev ch base bids nbuf os d out H1 H2 H3 H4 E. exact (own_progress A _ _ bids d _ (fun al => ir_run_ok A S d ndisks mdev dev ch base bids nbuf os out al H1 H2 (is_nbuf_pos _ _ _ H2 H3) H4 E)). Qed.

(** * Examples *)
(** elements 2 to 9 of a vector with blocks of three: rewound in the middle and after a loop *)
Definition r_hist : list rop := [RSize; RCurrent; RGet; RIncr; RGet; RSize; RRewind; RFor; REmpty; RRewind; RGet; REmpty].
Example r_runs : let out := [ONum nat 8; OVal nat 702; OVal nat 702; OVal nat 301; ONum nat 5; OList nat [702; 300; 301; 302; 900; 901; 902; 400]; OBool nat true; OVal nat 702; OBool nat false] in
  let l := range (elements 3 grid [7; 3; 9; 4]) 2 10 in rspec false l l r_hist = Some out /\
  match run_eager (r_run nat 3 1 1 (fun b => b mod 2) (fun _ => 0) 10 false [7; 3; 9; 4] 0 2 10 r_hist) [7; 3; 9; 4] [] with Done r _ => r = out | _ => False end.
Proof. split; vm_compute; reflexivity. Qed.
(** the same range backwards *)
Definition rr_hist : list rop := [RGet; RGet; RSize; RIncr; RRewind; RGet; RGet; RGet; RGet; RGet; RGet; RGet; RGet; REmpty; RRewind; RCurrent].
Example rr_runs : let out := [OVal nat 400; OVal nat 902; ONum nat 6; OVal nat 400; OVal nat 902; OVal nat 901; OVal nat 900; OVal nat 302; OVal nat 301; OVal nat 300; OVal nat 702; OBool nat true; OVal nat 400] in
  let l := rev (range (elements 3 grid [7; 3; 9; 4]) 2 10) in rspec true l l rr_hist = Some out /\
  match run_eager (r_run nat 3 1 1 (fun b => b mod 2) (fun _ => 0) 10 true [7; 3; 9; 4] 5 2 10 rr_hist) [7; 3; 9; 4] [] with Done r _ => r = out | _ => False end.
Proof. split; vm_compute; reflexivity. Qed.
(** an empty range at the very end has no block *)
Example r_empty_runs : match run_eager (r_run nat 3 1 1 (fun b => b mod 2) (fun _ => 0) 10 true [7; 3] 0 6 6 [REmpty; RRewind; RSize]) [7; 3] [] with Done r _ => r = [OBool nat true; ONum nat 0] | _ => False end.
Proof. vm_compute. reflexivity. Qed.
Example ir_runs : ispec_ops (rev (elements 2 grid [7; 3; 9; 4])) is_hist = Some [401; 400; 901; 900; 900; 301; 300; 701] /\
  match run_eager (ir_run nat 2 1 1 (fun b => b mod 2) (fun _ => 0) 10 [7; 3; 9; 4] 3 is_hist) [7; 3; 9; 4] [] with Done r _ => r = [401; 400; 901; 900; 900; 301; 300; 701] | _ => False end.
Proof. split; vm_compute; reflexivity. Qed.
(** a loop over a reader that has been advanced is stopped by the assertion of the iterator *)
Example r_for_late : match run_eager (r_run nat 3 1 1 (fun b => b mod 2) (fun _ => 0) 10 false [7; 3] 0 1 5 [RIncr; RFor]) [7; 3] [] with Error => True | _ => False end.
Proof. vm_compute. exact I. Qed.

Print Assumptions C94_reader.
Print Assumptions C94_reader_progress.
Print Assumptions C94_reverse_stream.
Print Assumptions C94_reverse_stream_progress.
