(** Model of interleave / deinterleave / the Blaum matrix
    (semantic_codec/interleaver/interleaver2d.py:125-220). *)
From Verif Require Export QueueModel.

(** interleaver2d.py:173, [{int(index): BitQueue(word_size) for index in interleave_order}].
    The order is a list of integers (the code holds them as floats with integer
    values, equal as dictionary keys). *)
Definition new_packets (order : list Z) (w : Z) : dict bitqueue :=
  fold_left (fun d p => dset d p (bq_new w)) order [].

(** interleaver2d.py:179-182, one iteration: put [value], from bit [bit], in the
    packet [interleave_order[k]], and advance [k] cyclically. *)
Definition put_chunk (order : list Z) (st : dict bitqueue * nat) (c : Z * Z) : result (dict bitqueue * nat) :=
  let '(packets, k) := st in
  let* p := nth_r order k in
  let* q := dget_r packets p in
  let* q' := bq_enqueue q (fst c) (snd c) in
  Ok (dset packets p q', if Nat.eqb k (length order - 1) then O else S k).

(** interleaver2d.py:178-185, the iterations that work on one word of the data;
    result: packets, next [k], next [bit_index].  [fuel] bounds the number of
    chunks per word (33 is enough for every word size >= 1). *)
Fixpoint interleave_word (fuel : nat) (order : list Z) (w value : Z)
    (st : dict bitqueue * nat) (bit : Z) : result (dict bitqueue * nat * Z) :=
  match fuel with
  | O => Err OutOfFuel
  | S fuel' =>
      let* st' := put_chunk order st (value, bit) in
      let bit' := bit + w in
      if bit' >? 31 then Ok (st', bit' - 32)
      else interleave_word fuel' order w value st' bit'
  end.

(** interleaver2d.py:165-187 [interleave]. *)
Definition interleave (data order : list Z) (w : Z) : result (dict bitqueue) :=
  let* (packets, _, _) :=
    foldM (fun s v => let '(packets, k, bit) := s in interleave_word 33 order w v (packets, k) bit)
          data (new_packets order w, O, 0) in
  Ok packets.

(** interleaver2d.py:198-200: index of the last packet that is not None, -1 if none. *)
Fixpoint last_alive (packets : dict (option bitqueue)) (order : list Z) (n : nat) : result Z :=
  match n with
  | O => Ok (-1)
  | S n' =>
      let* p := nth_r order n' in
      let* x := dget_r packets p in
      match x with
      | None => last_alive packets order n'
      | Some _ => Ok (Z.of_nat n')
      end
  end.

(** interleaver2d.py:212-218, one packet of one pass. *)
Definition take_chunk (st : dict (option bitqueue) * bitqueue * list (Z * Z)) (p : Z)
  : result (dict (option bitqueue) * bitqueue * list (Z * Z)) :=
  let '(packets, data, errors) := st in
  match dget packets p with
  | Some (Some q) =>
      let* (a, q') := bq_dequeue q 0 0 in
      let* data' := bq_enqueue data a 0 in
      Ok (dset packets p (Some q'), data', errors)
  | _ =>
      let* data' := bq_enqueue data 0 0 in
      Ok (packets, data', errors ++ [(q_eq_word data, q_eq_bit data)])
  end.

(** interleaver2d.py:211-218, the passes; [last_queue] is the queue object stored
    in [packets] under [lastp], so it is looked up there. *)
Fixpoint deinterleave_loop (fuel : nat) (order : list Z) (lastp : Z)
    (st : dict (option bitqueue) * bitqueue * list (Z * Z))
  : result (dict (option bitqueue) * bitqueue * list (Z * Z)) :=
  match dget (fst (fst st)) lastp with
  | Some (Some q) =>
      if bq_empty q then Ok st
      else match fuel with
           | O => Err OutOfFuel
           | S fuel' =>
               let* st' := foldM take_chunk order st in
               deinterleave_loop fuel' order lastp st'
           end
  | _ => Err AttributeError                       (* None.empty() *)
  end.

(** interleaver2d.py:190-220 [deinterleave].  A lost packet is [Some None]
    (value None) or [None] (key deleted).  The fuel is the number of bits in the
    last queue plus one. *)
Definition deinterleave (packets : dict (option bitqueue)) (order : list Z) (w : Z)
  : result (list Z * list (Z * Z)) :=
  let* k := last_alive packets order (length order) in
  if k =? 0 then Err RuntimeError
  else
    let* lastp := py_get order k in
    let* x := dget_r packets lastp in
    let fuel := match x with Some q => 32 * length (q_bytes q) + 1 | None => O end%nat in
    let* (_, data, errors) := deinterleave_loop fuel order lastp (packets, bq_new w, []) in
    Ok (bq_get_bytes data, errors).
