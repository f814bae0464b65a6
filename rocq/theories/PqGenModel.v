(** Model of PRIORITY_QUEUE_GENERATOR: include/stxxl/bits/containers/priority_queue.h 860-1038, the
    search for the parameters of a priority queue at compile time.  Unsigned arithmetic is modulo
    2^64.  None is a program that does not compile. *)
From Coq Require Import List Bool NArith.
From Verif Require Import PqModel.
Import ListNotations.
Open Scope N_scope.

Definition w64 : N := 2 ^ 64.
Definition mul64 (x y : N) : N := (x * y) mod w64.

(** priority_queue.h 877-907: the constants of find_B_m; c is signed, so more blocks than fit never
    exceed 10 *)
Definition gk (im B : N) : N := im / B.
Definition gfits (es im mi B m : N) : bool :=
  let k := gk im B in
  (10 <? k - m) &&
  (mi <=? mul64 (mul64 (k - m) m) (mul64 m B / (es * 4 * 1024))) &&
  ((mi <? mul64 (mul64 (k - m) m / (2 * es)) 1024) || (128 <=? m)).
(** priority_queue.h 909-919, 932-941: candidate1, one more block for the mergers as long as m < k *)
Fixpoint find_m (fuel : nat) (es im mi B m : N) : option N :=
  if gfits es im mi B m then Some m else
  match fuel with
  | O => None
  | S fuel => if gk im B <=? m + 1 then None else find_m fuel es im mi B (m + 1)
  end.
(** priority_queue.h 912-930, 943-952: candidate2, blocks of half the size, from 8 MiB down to 4096
    bytes.  With parameters found for 4096 bytes candidate2 is find_B_m<.., 2048, 1, true>, which
    matches both specializations. *)
Fixpoint find_B (bs : list N) (es im mi : N) : option (N * N) :=
  match bs with
  | [] => None
  | B :: bs =>
      match find_m (N.to_nat (gk im B)) es im mi B 1 with
      | Some m => if B =? 4096 then None else Some (B, m)
      | None => find_B bs es im mi
      end
  end.
Definition sizes : list N :=
  [8388608; 4194304; 2097152; 1048576; 524288; 262144; 131072; 65536; 32768; 16384; 8192; 4096].

(** priority_queue.h 959-975: compute_N for AI = 2^a *)
Fixpoint compute_N (a : nat) (X crit : N) : option (N * N) :=
  match a with
  | O => None
  | S a' =>
      let AI := 2 ^ N.of_nat a in
      let n := X / (AI * AI) in
      if crit <=? n then Some (n, AI) else compute_N a' X crit
  end.

(** priority_queue.h 1006-1037 with priority_queue_config (40-68); the size of a block in elements
    is block_type::size *)
Record gen_result := gr { g_dbs : N; g_N : N; g_AI : N; g_levels : N; g_B : N; g_AE : N }.
Definition generator (es im mi : N) (tune : nat) : option gen_result :=
  match find_B sizes es im mi with
  | None => None
  | Some (B, m) =>
      let X := B * (gk im B - m) / es in
      match compute_N tune X (4 * 32) with
      | None => None
      | Some (n, AI) => Some (gr 32 n AI 2 B (if m / 2 <? 2 then 2 else m / 2))
      end
  end.
(** the configuration for elements of [es] bytes with a write pool of [w] blocks *)
Definition conf (es w : N) (g : gen_result) : config :=
  cfg (N.to_nat (g_dbs g)) (N.to_nat (g_N g)) (N.to_nat (g_AI g)) (N.to_nat (g_levels g))
      (N.to_nat (g_B g / es)) (N.to_nat (g_AE g)) (N.to_nat (g_levels g)) (N.to_nat w).
