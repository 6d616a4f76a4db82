(** Property theorems C07, C08 (class BitQueue). *)
From Verif Require Import BitsModel BitsSpec QueueModel QueueSpec QueueProofs.

(** C07, the part that holds: for word sizes dividing 32 every history without
    underflow behaves as a FIFO (same outputs, same errors, right [empty]). *)
Theorem C07_fifo_partial : forall w, 0 < w -> (w | 32) -> is_fifo w.
Proof. exact fifo_divisors. Qed.
Print Assumptions C07_fifo_partial.

(** C07, exact extent: among the word sizes 1..32 it holds only for those. *)
Theorem C07_fifo_exactly_divisors : forall w, 1 <= w <= 32 -> (is_fifo w <-> (w | 32)).
Proof. exact fifo_iff. Qed.
Print Assumptions C07_fifo_exactly_divisors.

(** C07 as stated (all word sizes) is false of the code. *)
Theorem C07_fifo_refuted : exists w, 1 <= w <= 32 /\ ~ is_fifo w.
Proof. exact fifo_fails_for_3. Qed.
Print Assumptions C07_fifo_refuted.

(** Non-vacuity: 8-bit chunks, interleaved operations, crossing a word boundary. *)
Example C07_example :
  let ops := [QEmpty; QEnq 0xAABBCCDD 0; QEnq 0xAABBCCDD 8; QDeq 0xFFFFFFFF 16; QEnq 1 0; QEnq 2 0;
              QEnq 3 0; QDeq 0 0; QDeq 0 0; QDeq 0 0; QEmpty; QDeq 0 4; QEmpty] in
  no_underflow 0 ops = true /\ (8 | 32) /\
  exists q, bq_run (bq_new 8) ops =
    Ok ([OBool true; OUnit; OUnit; OVal 0xFFDDFFFF; OUnit; OUnit; OUnit; OVal 0xCC; OVal 1; OVal 2;
         OBool false; OVal 48; OBool true], q).
Proof. split; [reflexivity|]. split; [exists 4; reflexivity|]. eexists; vm_compute; reflexivity. Qed.

(** C08: dense packing, least significant bit first, zero padding. *)
Theorem C08_get_bytes : forall w es, 0 < w -> (w | 32) ->
  forallb (fun e => in_word w (snd e)) es = true ->
  exists xs q, bq_run (bq_new w) (map (fun e => QEnq (fst e) (snd e)) es) = Ok (xs, q) /\
    Z.of_nat (length (bq_get_bytes q)) = w * Z.of_nat (length es) / 32 + 1 /\
    Forall (fun x => 0 <= x < 2 ^ 32) (bq_get_bytes q) /\
    (forall k j v f, nth_error es k = Some (v, f) -> 0 <= j < w ->
       let i := w * Z.of_nat k + j in
       Z.testbit (nth (Z.to_nat (i / 32)) (bq_get_bytes q) 0) (i mod 32) = Z.testbit v (f + j)) /\
    (forall i, w * Z.of_nat (length es) <= i ->
       Z.testbit (nth (Z.to_nat (i / 32)) (bq_get_bytes q) 0) (i mod 32) = false).
Proof. exact get_bytes_spec. Qed.
Print Assumptions C08_get_bytes.
Example C08_example :
  exists xs q, bq_run (bq_new 8) (map (fun e => QEnq (fst e) (snd e)) [(0xAB, 0); (0xCD00, 8); (3, 0); (4, 0); (5, 0)])
    = Ok (xs, q) /\ bq_get_bytes q = [0x0403CDAB; 5].
Proof. eexists; eexists; split; vm_compute; reflexivity. Qed.
