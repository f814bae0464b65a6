(** C51: two-level index arithmetic; C21: size of a file-backed vector. *)
From Coq Require Import ZArith Lia.
From Verif Require Import DblIndexModel DblIndexSpec DblIndexProofs.
Local Open Scope Z_scope.

(** every position has exactly one well-formed triple, and both constructors compute it *)
Theorem C51_index_bijection : forall m1 m2, 0 < m1 -> 0 < m2 -> m1 * m2 < 2 ^ 64 ->
  (forall p, 0 <= p < 2 ^ 64 ->
     let d := dbi_set m1 m2 p in denotes m1 m2 (block2 d) (block1 d) (offset d) p /\ pos d = p) /\
  (forall b2 b1 off p, denotes m1 m2 b2 b1 off p -> p < 2 ^ 64 ->
     dbi_of_parts m1 m2 b2 b1 off = dbi_set m1 m2 p) /\
  (forall b2 b1 off c2 c1 r p, denotes m1 m2 b2 b1 off p -> denotes m1 m2 c2 c1 r p ->
     b2 = c2 /\ b1 = c1 /\ off = r).
Proof. exact C51_bij. Qed.

(** from an index obtained for position p, every operator gives exactly the
    index of the arithmetically computed position, as long as that position is
    representable *)
Theorem C51_index_arithmetic : forall m1 m2, 0 < m1 -> 0 < m2 -> m1 * m2 < 2 ^ 64 ->
  forall p, 0 <= p < 2 ^ 64 ->
  (p + 1 < 2 ^ 64 -> dbi_incr m1 m2 (dbi_set m1 m2 p) = dbi_set m1 m2 (p + 1)) /\
  (0 < p -> dbi_decr m1 m2 (dbi_set m1 m2 p) = dbi_set m1 m2 (p - 1)) /\
  (forall n, 0 <= p + n < 2 ^ 64 -> dbi_add m1 m2 (dbi_set m1 m2 p) n = dbi_set m1 m2 (p + n)) /\
  (forall n, 0 <= n <= p -> dbi_add m1 m2 (dbi_set m1 m2 p) (w64 (- n)) = dbi_set m1 m2 (p - n)) /\
  (forall n, 0 <= p - n < 2 ^ 64 -> dbi_sub m1 m2 (dbi_set m1 m2 p) n = dbi_set m1 m2 (p - n)) /\
  (forall n, 0 <= n -> dbi_shr m1 m2 (dbi_set m1 m2 p) n = dbi_set m1 m2 (p / 2 ^ n)).
Proof. exact C51_arith. Qed.

Theorem C51_index_comparisons : forall m1 m2, 0 < m1 -> 0 < m2 -> m1 * m2 < 2 ^ 64 ->
  forall p q, 0 <= p < 2 ^ 64 -> 0 <= q < 2 ^ 64 ->
  let d := dbi_set m1 m2 p in let e := dbi_set m1 m2 q in
  dbi_eqb d e = (p =? q) /\ dbi_neb d e = negb (p =? q) /\
  dbi_ltb d e = (p <? q) /\ dbi_leb d e = (p <=? q) /\
  dbi_gtb d e = (p >? q) /\ dbi_geb d e = (p >=? q) /\
  (q <= p -> dbi_diff d e = p - q) /\
  (d = e <-> p = q).
Proof. exact C51_cmp. Qed.

(** Size round trip: raw block size at least elements * element size (padding allowed). *)
Theorem C21_file_size_round_trip : forall raw bs vs n, 0 < bs -> 0 < vs -> bs * vs <= raw ->
  0 <= n < 2 ^ 64 -> n / bs * raw + (n mod bs) * vs < 2 ^ 64 ->
  size_from_file_length raw bs vs (file_length raw bs vs n) = n.
Proof. exact (fun r b v n H1 H2 H3 H4 H5 => file_round_trip r b v H1 H2 H3 n (proj1 H4) H5 (proj2 H4)). Qed.

(** The truncated file still contains every element (at its place in its block). *)
Theorem C21_file_length_covers_elements : forall raw bs vs n i, 0 < bs -> 0 < vs -> bs * vs <= raw ->
  0 <= i < n -> n < 2 ^ 64 -> n / bs * raw + (n mod bs) * vs < 2 ^ 64 ->
  i / bs * raw + (i mod bs) * vs + vs <= file_length raw bs vs n.
Proof. exact (fun r b v n i H1 H2 H3 H4 H5 H6 => file_length_covers r b v H1 H2 H3 n i H4 H6 H5). Qed.

(** A file of arbitrary length (not ending inside a block's padding) is opened
    with a size whose elements all lie inside the file. *)
Theorem C21_opened_size_fits : forall raw bs vs len i, 0 < bs -> 0 < vs -> bs * vs <= raw ->
  0 <= len < 2 ^ 64 -> len mod raw < bs * vs + vs ->
  0 <= i < size_from_file_length raw bs vs len ->
  i / bs * raw + (i mod bs) * vs + vs <= len.
Proof. exact (fun r b v l i H1 H2 H3 H4 H5 H6 => size_fits r b v H1 H2 H3 l i H4 H6 H5). Qed.

Example C51_ex : dbi_incr 4 3 (dbi_set 4 3 23) = mk_dbi 24 2 0 0 /\ dbi_decr 4 3 (dbi_set 4 3 24) = mk_dbi 23 1 2 3.
Proof. vm_compute. auto. Qed.
(** blocks of 32 bytes holding 3 elements of 10 bytes (2 bytes padding), 7 elements *)
Example C21_ex : file_length 32 3 10 7 = 74 /\ size_from_file_length 32 3 10 74 = 7.
Proof. vm_compute. auto. Qed.

Print Assumptions C51_index_bijection.
Print Assumptions C51_index_arithmetic.
Print Assumptions C51_index_comparisons.
Print Assumptions C21_file_size_round_trip.
Print Assumptions C21_file_length_covers_elements.
Print Assumptions C21_opened_size_fits.
