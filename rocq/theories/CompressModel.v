(** Model of semantic_codec/compressor/shiftcompressor.py and of the register
    changer in semantic_codec/compressor/huffman.py:11-79. *)
From Verif Require Export Py IoModel HuffmanModel.

(** An entry of [remove_bits]: word, bit, and whether the tuple is longer than 2. *)
Record entry := Entry { e_word : Z; e_bit : Z; e_long : bool }.

(** [struct.pack('%sI' % len(data), *data)], native byte order little endian. *)
Definition pack_words (data : list Z) : result (list Z) := rmap (@concat Z) (mapM (pack 4) data).
(** bitarray(endian='big').frombytes: most significant bit of each byte first. *)
Definition byte_bits (b : Z) : list bool := map (fun i => Z.testbit b (7 - i)) (zrange 0 8).
Definition frombytes (bytes : list Z) : list bool := flat_map byte_bits bytes.
(** tobytes: the last byte is filled with zeros. *)
Definition byte_of (bits : list bool) : Z := fold_right Z.add 0 (map (fun i => if nth (Z.to_nat i) bits false then 2 ^ (7 - i) else 0) (zrange 0 8)).
Fixpoint tobytes_loop (fuel : nat) (bits : list bool) : list Z :=
  match fuel, bits with
  | S fuel', _ :: _ => byte_of (firstn 8 bits) :: tobytes_loop fuel' (skipn 8 bits)
  | _, _ => []
  end.
Definition tobytes (bits : list bool) : list Z := tobytes_loop (length bits) bits.

(** shiftcompressor.py:8-14 [BitCompressor.__init__]: the sorted copy of the list. *)
Definition sorted_entries (remove : list entry) : list entry := sort_by (fun e => e_word e * 10000 + e_bit e) remove.
(** The entries visited by [for i in range(len - 1, 0, -1)], last one first. *)
Definition visited_entries (remove : list entry) : list entry := rev (tl (sorted_entries remove)).
Definition start (e : entry) : Z := e_word e * 32 + e_bit e.

(** [del a[lo:hi]]: negative positions count from the end, then both are cut to
    the list. *)
Definition slice_index (n i : Z) : Z := if i <? 0 then Z.max 0 (i + n) else Z.min i n.
Definition del_slice (bits : list bool) (lo hi : Z) : list bool :=
  let n := Z.of_nat (length bits) in
  let l := slice_index n lo in
  let h := Z.max l (slice_index n hi) in
  firstn (Z.to_nat l) bits ++ skipn (Z.to_nat h) bits.

(** shiftcompressor.py:29-38 [ShiftCompressor.compress]. *)
Definition shift_compress (shift : Z) (remove : list entry) (data : list Z) : result (list Z) :=
  let* buf := pack_words data in
  Ok (tobytes (fold_left (fun a e => del_slice a (start e) (start e + shift)) (visited_entries remove) (frombytes buf))).

(** [a[k] = 0], negative positions from the end. *)
Definition clear_bit (bits : list bool) (k : Z) : result (list bool) :=
  let n := Z.of_nat (length bits) in
  let i := if k <? 0 then k + n else k in
  if (0 <=? i) && (i <? n) then Ok (list_set bits (Z.to_nat i) false) else Err IndexError.
(** shiftcompressor.py:52-69 [SwapCompressor.compress]; the inner loop assigns the
    same position [shift] times. *)
Definition swap_compress (shift : Z) (remove : list entry) (data : list Z) : result (list Z) :=
  let* buf := pack_words data in
  let* a := foldM (fun a e =>
              if e_long e then Ok a
              else if start e >=? Z.of_nat (length a) then Ok a
              else foldM (fun a _ => clear_bit a (start e)) (zrange (Z.of_nat (length a) - shift) (Z.of_nat (length a))) a)
            (visited_entries remove) (frombytes buf) in
  Ok (tobytes a).

(** qos_functions.py:1-14 [MockQoSFunction.run]: the state is [_counter]. *)
Definition mock_run (q : Z) : bool * Z := if q =? 2 then (true, 0) else (false, q + 1).

(** huffman.py:62-75, the inner [while has_next] loop: state of the quality
    function, frequencies, and [any_correct].  [changer] is the method given. *)
Fixpoint next_loop (fuel : nat) (changer : Z -> Z -> Z -> result (Z * bool)) (instruction part new_part : Z)
    (st : Z * dict Z * bool) : result (Z * dict Z * bool) :=
  match fuel with
  | O => Err OutOfFuel
  | S fuel' =>
    let '(q, freq, any) := st in
    let* (_, has_next) := changer instruction part new_part in
    let '(correct, q') := mock_run q in
    let freq' := if correct then match dget freq part with Some n => dset freq part (n - 1) | None => freq end else freq in
    let st' := (q', freq', any || correct) in
    if has_next then next_loop fuel' changer instruction part new_part st' else Ok st'
  end.
(** huffman.py:55-79, the [while not any_correct and index > part] loop. *)
Fixpoint index_loop (fuel : nat) changer (freq_sorted : list Z) (instruction part index : Z) (st : Z * dict Z * bool) : result (Z * dict Z * bool) :=
  if negb (snd st) && (index >? part) then
    match fuel with
    | O => Err OutOfFuel
    | S fuel' =>
      let* new_part := (if index <? 0 then Err IndexError else nth_r freq_sorted (Z.to_nat index)) in
      let* st' := next_loop fuel changer instruction part new_part st in
      index_loop fuel' changer freq_sorted instruction part (if snd st' then index else index - 1) st'
    end
  else Ok st.
(** huffman.py:28-79 [_change_parts]. *)
Definition change_parts (fuel : nat) changer (with_part : dict (list Z)) (freq : dict Z) (q : Z) : result (Z * dict Z) :=
  let freq_sorted := sort_by (fun k => match dget freq k with Some n => n | None => 0 end) (dkeys freq) in
  foldM (fun st part =>
    let* ps := dget_r with_part part in
    foldM (fun (st : Z * dict Z) instruction =>
      let* (st', _) := index_loop fuel changer freq_sorted instruction part (Z.of_nat (length freq_sorted) - 1) (fst st, snd st, false) in
      Ok st') ps st) freq_sorted (q, freq).
(** instruction_modifier.py:80-84 [modify_register]: [self.swap23] does not exist,
    so the method raises before it does anything. *)
Definition modify_register (instruction part new_part : Z) : result (Z * bool) := Err AttributeError.
(** huffman.py:21-26 [change_registers] with the counts of a program. *)
Definition change_registers (fuel : nat) (program : list Z) (registers_used : Z -> result (list Z)) : result (Z * dict Z) :=
  let* (freq, with_part) := freq_info program registers_used in
  change_parts fuel modify_register with_part freq 0.
