(** C41 (varints round-trip), C42 (reader stays in bounds), C43 (the buffer is
    an append log). *)
From Coq Require Import ZArith List Bool.
From Verif Require Import BinBufModel BinBufSpec BinBufProofs.
Import ListNotations.
Open Scope Z_scope.

(** ** C41 *)

(** Reading back a 32-bit varint, whatever precedes and follows it. *)
Theorem C41_varint32_round_trip : forall pre v suf,
  0 <= v < 2 ^ 32 -> bytes suf -> Z.of_nat (length (pre ++ varint32_bytes v ++ suf)) < 2 ^ 63 ->
  get_varint (Rd (pre ++ varint32_bytes v ++ suf) (Z.of_nat (length pre))) =
  Ok (v, Rd (pre ++ varint32_bytes v ++ suf) (Z.of_nat (length pre + length (varint32_bytes v)))).
Proof. exact round_trip32'. Qed.

Theorem C41_varint64_round_trip : forall pre v suf,
  0 <= v < 2 ^ 64 -> bytes suf -> Z.of_nat (length (pre ++ varint64_bytes v ++ suf)) < 2 ^ 63 ->
  get_varint64 (Rd (pre ++ varint64_bytes v ++ suf) (Z.of_nat (length pre))) =
  Ok (v, Rd (pre ++ varint64_bytes v ++ suf) (Z.of_nat (length pre + length (varint64_bytes v)))).
Proof. exact round_trip64'. Qed.

(** At most 5 (10) bytes, and never more than needed. *)
Theorem C41_varint_length :
  (forall v, 0 <= v < 2 ^ 32 ->
    (1 <= length (varint32_bytes v) <= 5)%nat /\ v < 128 ^ Z.of_nat (length (varint32_bytes v)) /\
    (length (varint32_bytes v) = 1%nat \/ 128 ^ (Z.of_nat (length (varint32_bytes v)) - 1) <= v)) /\
  (forall v, 0 <= v < 2 ^ 64 ->
    (1 <= length (varint64_bytes v) <= 10)%nat /\ v < 128 ^ Z.of_nat (length (varint64_bytes v)) /\
    (length (varint64_bytes v) = 1%nat \/ 128 ^ (Z.of_nat (length (varint64_bytes v)) - 1) <= v)).
Proof. exact (conj varint32_length varint64_length). Qed.

(** The two encoders agree on 32-bit values. *)
Theorem C41_varint_widths_agree : forall v, 0 <= v < 2 ^ 32 -> varint64_bytes v = varint32_bytes v.
Proof. exact varint_compat. Qed.

(** The decoders on arbitrary (also corrupt) input: a result is the base-128
    value of a terminated prefix and fits; a failure means that the input ended
    inside a varint, or that the last admissible byte is too large. *)
Theorem C41_varint_decoders : forall pre rest,
  bytes rest -> Z.of_nat (length (pre ++ rest)) < 2 ^ 63 ->
  decodes 4 32 16 pre rest (get_varint (Rd (pre ++ rest) (Z.of_nat (length pre)))) /\
  decodes 9 64 2 pre rest (get_varint64 (Rd (pre ++ rest) (Z.of_nat (length pre)))).
Proof. exact (fun pre rest H1 H2 => conj (get_varint_decodes pre rest H1 H2) (get_varint64_decodes pre rest H1 H2)). Qed.

Example C41_ex : varint32_bytes 300 = [172; 2] /\ bytes [172; 2] /\
  get_varint (Rd ([7] ++ varint32_bytes 300 ++ [9]) 1) = Ok (300, Rd [7; 172; 2; 9] 3).
Proof. repeat split; try reflexivity. repeat constructor; discriminate. Qed.
Example C41_ex_max : varint64_bytes (2 ^ 64 - 1) = [255;255;255;255;255;255;255;255;255;1] /\
  get_varint64 (reader_of (varint64_bytes (2 ^ 64 - 1))) =
    Ok (2 ^ 64 - 1, Rd (varint64_bytes (2 ^ 64 - 1)) 10).
Proof. split; reflexivity. Qed.
Example C41_ex_corrupt :
  get_varint (reader_of [255;255;255;255;16]) = Overflow /\
  get_varint (reader_of [255;255]) = Underflow.
Proof. split; reflexivity. Qed.

(** ** C42 *)

(** The full statement (every length argument) is false: the bounds check adds
    cursor and length in 64 bits. *)
Theorem C42_read_bounds_refuted :
  exists r n, in_bounds r /\ 0 <= n < 2 ^ 64 /\ n > rsize r - curr r /\ read n r = OutOfBounds.
Proof. exact read_bounds_refuted. Qed.

Theorem C42_skip_moves_backwards_refuted :
  exists r n r', in_bounds r /\ 0 <= n < 2 ^ 64 /\ n > rsize r - curr r /\
    skip n r = Ok r' /\ curr r' < curr r.
Proof. exact skip_backwards_refuted. Qed.

(** True part: if the sum does not wrap, reading returns exactly the bytes at
    the cursor and advances, or raises underflow_error. *)
Theorem C42_read_bounds_partial : forall n r,
  in_bounds r -> 0 <= n -> curr r + n < 2 ^ 64 ->
  (n <= rsize r - curr r /\
     exists d, read n r = Ok (d, Rd (rdata r) (curr r + n)) /\
       rdata r = firstn (Z.to_nat (curr r)) (rdata r) ++ d ++ skipn (Z.to_nat (curr r + n)) (rdata r) /\
       Z.of_nat (length d) = n) \/
  (rsize r - curr r < n /\ read n r = Underflow).
Proof. exact read_safe. Qed.

Theorem C42_skip_bounds_partial : forall n r,
  in_bounds r -> 0 <= n -> curr r + n < 2 ^ 64 ->
  (n <= rsize r - curr r /\ skip n r = Ok (Rd (rdata r) (curr r + n))) \/
  (rsize r - curr r < n /\ skip n r = Underflow).
Proof. exact skip_safe. Qed.

(** The self-describing reads are safe on every input of a real object's size. *)
Theorem C42_typed_reads_in_bounds : forall r,
  in_bounds r -> rsize r < 2 ^ 63 -> bytes (rdata r) ->
  match get_varint r with
  | Ok (v, r') => 0 <= v < 2 ^ 32 /\ rdata r' = rdata r /\ curr r < curr r' <= rsize r
  | OutOfBounds => False | _ => True end /\
  match get_varint64 r with
  | Ok (v, r') => 0 <= v < 2 ^ 64 /\ rdata r' = rdata r /\ curr r < curr r' <= rsize r
  | OutOfBounds => False | _ => True end /\
  match get_string r with
  | Ok (s, r') => rdata r' = rdata r /\ in_bounds r' /\ curr r + Z.of_nat (length s) < curr r'
  | OutOfBounds => False | _ => True end /\
  match get_binary_buffer_ref r with
  | Ok ((off, len), r') => rdata r' = rdata r /\ in_bounds r' /\
      curr r < off /\ 0 <= len /\ off + len = curr r'
  | OutOfBounds => False | _ => True end.
Proof.
  exact (fun r H1 H2 H3 => conj (get_varint_safe r H1 H2 H3) (conj (get_varint64_safe r H1 H2 H3)
    (conj (get_string_safe r H1 H2 H3) (get_ref_safe r H1 H2 H3)))).
Qed.

Example C42_ex : in_bounds (Rd [3;1;2;3;9] 0) /\
  get_string (Rd [3;1;2;3;9] 0) = Ok ([1;2;3], Rd [3;1;2;3;9] 4) /\
  get_string (Rd [5;1;2] 0) = Underflow.
Proof. repeat split; try reflexivity; discriminate. Qed.

(** ** C43 *)

(** Appending keeps everything before and adds exactly the new bytes; [align]
    pads with zeros up to the next multiple. *)
Theorem C43_append_concatenates : forall x b d,
  bsize b = Z.of_nat (length d) /\ bsize b <= capacity b /\ contents b = map Some d ->
  exists b', append x b = Some b' /\
    bsize b' = Z.of_nat (length (d ++ x)) /\ bsize b' <= capacity b' /\
    contents b' = map Some (d ++ x).
Proof. exact append_log. Qed.

Theorem C43_align_pads : forall n b d, 0 < n ->
  bsize b = Z.of_nat (length d) /\ bsize b <= capacity b /\ contents b = map Some d ->
  exists b', align n b = Some b' /\
    (bsize b' = Z.of_nat (length (d ++ pad n (Z.of_nat (length d)))) /\ bsize b' <= capacity b' /\
     contents b' = map Some (d ++ pad n (Z.of_nat (length d)))) /\
    bsize b' mod n = 0.
Proof. exact align_ok. Qed.

(** Any sequence of items put into an empty buffer is decoded by a reader over
    the buffer's bytes, which then is at the end. *)
Theorem C43_log_round_trip : forall l, Forall item_ok l ->
  exists b d, put_items l empty_buffer = Some b /\ bsize b = Z.of_nat (length d) /\
    bsize b <= capacity b /\ contents b = map Some d /\ bytes d /\
    (Z.of_nat (length d) < 2 ^ 63 ->
     exists r, get_items l (reader_of d) = Ok (l, r) /\ rempty r = true).
Proof. exact log_round_trip. Qed.

Theorem C43_ref_equality : forall a b, ref_eqb a b = true <-> a = b.
Proof. exact ref_eqb_iff. Qed.

Example C43_ex :
  let l := [IInt 4 1000; IVar32 70000; IStr [104;105]; IAlign 8; IVar64 (2 ^ 40); IRaw [1;2]] in
  Forall item_ok l /\
  match put_items l empty_buffer with
  | Some b => bsize b = 24 /\ capacity b = 512
  | None => False
  end.
Proof.
  cbv zeta. split; [|vm_compute; auto].
  repeat (apply Forall_cons || apply Forall_nil);
    cbn [item_ok]; unfold bytes, is_byte; repeat split; auto; try reflexivity; try discriminate;
    repeat constructor; discriminate.
Qed.

Print Assumptions C41_varint32_round_trip.
Print Assumptions C41_varint64_round_trip.
Print Assumptions C41_varint_length.
Print Assumptions C41_varint_widths_agree.
Print Assumptions C41_varint_decoders.
Print Assumptions C42_read_bounds_refuted.
Print Assumptions C42_skip_moves_backwards_refuted.
Print Assumptions C42_read_bounds_partial.
Print Assumptions C42_skip_bounds_partial.
Print Assumptions C42_typed_reads_in_bounds.
Print Assumptions C43_append_concatenates.
Print Assumptions C43_align_pads.
Print Assumptions C43_log_round_trip.
Print Assumptions C43_ref_equality.
