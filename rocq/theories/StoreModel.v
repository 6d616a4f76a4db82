(** Model of the script store_packets.py (lines 41-72) after the program has been
    read (ReaderModel covers the reading), and of the packet loss set up by
    recover_program.py:245-254. *)
From Verif Require Export PacketModel.
From Verif Require CompressModel.

(** predict_corruption (corruption.py:220-267) called with a packet count that is
    a number of quarters: with 2 bits per chunk every start is a number of half
    bits.  [b] counts half bits; [b / 2] is the whole bit the code computes with
    floor and int(fmod); [words] is data_size. *)
Definition halves_round (jump total : Z) (st : list Z * list error) : list Z * list error :=
  fold_left (fun acc b => (fst acc ++ [b + jump], predict_bit 2 total (b / 2) (snd acc))) (fst st) ([], snd st).
Fixpoint halves_loop (fuel : nat) (jump total : Z) (st : list Z * list error) : result (list error) :=
  let* b0 := nth_r (fst st) 0 in
  if b0 <? 2 * total then
    match fuel with
    | O => Err OutOfFuel
    | S fuel' => halves_loop fuel' jump total (halves_round jump total st)
    end
  else Ok (snd st).
(** [packet_count = p4 / 4], so the jump is [p4 / 2] bits, [p4] half bits. *)
Definition predict_quarters (p4 words : Z) (order lost : list Z) : result (list error) :=
  let total := words * 32 in
  let* b := mapM (fun p => let* i := zindex order p in Ok (2 * (2 * i))) lost in
  halves_loop (Z.to_nat (2 * total) + 1) p4 total (b, []).

(** An error tuple as shiftcompressor.py looks at it. *)
Definition to_entry (e : error) : CompressModel.entry :=
  CompressModel.Entry (e_word e) (e_bit e) (match e_len e with Some _ => true | None => false end).

(** store_packets.py:41-72: [packet_count = n * 4 / 16], the order, the losses
    [range(floor(packet_count / 5))] and their prediction for [n * 4] "words"; the
    first file is SwapCompressor's buffer, the second the packed program.  Files
    are byte lists; the float divisions are exact below 2^50. *)
Definition store_packets (program : list Z) : result (list Z * list Z) :=
  let n := Z.of_nat (length program) in
  let* m := store_packets_order n in
  let packet_lost := zrange 0 (n / 20) in
  let* errors := predict_quarters n (n * 4) m packet_lost in
  let* compressed := CompressModel.swap_compress 2 (map to_entry errors) program in
  let* buf := CompressModel.pack_words program in
  Ok (compressed, CompressModel.tobytes (CompressModel.frombytes buf)).

(** recover_program.py:245-254 with corruptors.py:45-54: [packet_count = ll / 32]
    rounded up by PacketCorruptor, packet 3 lost, 2 bits per chunk, no order. *)
Definition default_loss (prog : program) : result program :=
  let ll := Z.of_nat (length prog) in
  packet_corrupt (- (- ll / 32)) 2 ll [] [3] prog.
