(** Model of the bit-flip enumerations of semantic_codec/corruption/corruption.py
    (lines 42-142).  Encodings are unbounded integers, as in Python. *)
From Verif Require Export BitsModel.

(** [x in l] for integers. *)
Definition zmem (x : Z) (l : list Z) : bool := existsb (Z.eqb x) l.

(** [Bits.on(i)] where the result is xor-ed: 2 ** i is a float for negative [i]
    and [int ^ float] raises TypeError. *)
Definition on_mask (i : Z) : result Z := if i <? 0 then Err TypeError else Ok (bits_on i).

(** corruption.py:54-57, the inner loop over the first [k] results ([k] was the
    length when the loop started, and the list only grows at its end, so the
    values read are those of the initial list [snapshot]). *)
Definition flip_new (mask : Z) (snapshot result : list Z) : list Z :=
  fold_left (fun res x => let masked := Z.lxor x mask in if zmem masked res then res else res ++ [masked])
            snapshot result.

(** corruption.py:42-59 [corrupt_all_bits]. *)
Definition corrupt_all_bits (lo hi inst : Z) : result (list Z) :=
  foldM (fun res i => let* mask := on_mask i in Ok (flip_new mask res res)) (zrange lo hi) [inst].

(** corruption.py:79-83, bit [i]: result[kk + k] = result[k] ^ on(i) for k < kk; kk *= 2. *)
Definition flip_block (i : Z) (st : list Z * nat) : result (list Z * nat) :=
  let '(res, kk) := st in
  let* res' := foldM (fun r k =>
      let* x := nth_r r k in
      if Nat.ltb (kk + k) (length r) then Ok (list_set r (kk + k) (Z.lxor x (bits_on i))) else Err IndexError)
    (seq 0 kk) res in
  Ok (res', (2 * kk)%nat).

(** corruption.py:62-84 [corrupt_all_bits_tuples]. *)
Definition corrupt_all_bits_tuples (tuples : list (Z * Z)) (inst : Z) : result (list Z) :=
  let* size := foldM (fun size t => let* _ := check_range (fst t) (snd t) in Ok (size + (snd t - fst t))) tuples 0 in
  let* (res, _) :=
    foldM (fun st t => foldM (fun st i => flip_block i st) (zrange (fst t) (snd t)) st) tuples
          (repeat inst (Z.to_nat (2 ^ size)), 1%nat) in
  Ok res.

(** [random.randint(lo, hi)]: the next element of an arbitrary stream, reduced
    into the range, so that the streams range over all possible draws.
    OutOfFuel means that the (finite) stream is exhausted; ValueError is what
    randint raises on an empty range. *)
Definition randint (lo hi : Z) (ds : list Z) : result (Z * list Z) :=
  if hi <? lo then Err ValueError
  else match ds with
       | [] => Err OutOfFuel
       | d :: ds' => Ok (lo + d mod (hi - lo + 1), ds')
       end.

(** corruption.py:97-100, draw [amount] distinct bits.  Recursion on the draws. *)
Fixpoint draw_bits (ds : list Z) (lo hi amount : Z) (bits : list Z) : result (list Z * list Z) :=
  if Z.of_nat (length bits) <? amount then
    if hi <? lo then Err ValueError
    else match ds with
         | [] => Err OutOfFuel
         | d :: ds' =>
             let x := lo + d mod (hi - lo + 1) in
             draw_bits ds' lo hi amount (if zmem x bits then bits else bits ++ [x])
         end
  else Ok (bits, ds).

(** corruption.py:104-106: noise += on(bits[j - 1]) if j & i; j <<= 1, while j <= m. *)
Fixpoint noise_loop (fuel : nat) (bits : list Z) (i j m noise : Z) : result Z :=
  if j <=? m then
    match fuel with
    | O => Err OutOfFuel
    | S fuel' =>
        let* b := nth_r bits (Z.to_nat (j - 1)) in
        noise_loop fuel' bits i (2 * j) m (if Z.land j i =? 0 then noise else noise + bits_on b)
    end
  else Ok noise.

(** corruption.py:103-107 for one [i]; m = math.log(i, 2) + 1 is compared with
    the integers j = 1, 2, 4, ... only, where it behaves as floor(log2 i) + 1
    (checked for the floating-point logarithm at the boundaries j <= 32). *)
Definition noise_of (bits : list Z) (i : Z) : result Z :=
  let m := Z.log2 i + 1 in noise_loop (Z.to_nat m + 1) bits i 1 m 0.

(** corruption.py:87-111 [corrupt_bits]; also returns the unused draws.  For a
    negative amount 2 ** amount is a float and range raises TypeError. *)
Definition corrupt_bits (hi lo amount inst : Z) (ds : list Z) : result (list Z * list Z) :=
  let* (bits, ds') := draw_bits ds lo hi amount [] in
  if amount <? 0 then Err TypeError
  else
    let* res := foldM (fun res i =>
        let* noise := noise_of bits i in
        let noised := Z.lxor inst noise in
        Ok (if zmem noised res then res else res ++ [noised]))
      (zrange 1 (2 ^ amount)) [inst] in
    Ok (res, ds').

(** corruption.py:114-123. *)
Definition corrupt_conditional (amount inst : Z) := corrupt_bits 31 28 amount inst.
Definition corrupt_registers (amount inst : Z) := corrupt_bits 10 0 amount inst.
Definition corrupt_opcode (amount inst : Z) := corrupt_bits 27 20 amount inst.

(** corruption.py:131-135, one fresh index. *)
Fixpoint draw_index (ds : list Z) (bins : Z) (index : list Z) : result (Z * list Z) :=
  let* (k, ds') := randint 0 (bins - 1) ds in
  if zmem k index then match ds with [] => Err OutOfFuel | _ :: t => draw_index t bins index end
  else Ok (k, ds').

(** corruption.py:137-141, distribute over the indices in order. *)
Fixpoint distribute (index : list Z) (amount : Z) (res : list Z) (ds : list Z) : result (list Z * list Z) :=
  match index with
  | [] => Ok (res, ds)
  | k :: index' =>
      let* (v, ds') := randint 0 amount ds in
      let res' := list_set res (Z.to_nat k) v in
      if amount - v <=? 0 then Ok (res', ds') else distribute index' (amount - v) res' ds'
  end.

(** corruption.py:126-142 [distribute_random_amount]; [[0] * n] is empty for n <= 0. *)
Definition distribute_random_amount (amount bins : Z) (ds : list Z) : result (list Z * list Z) :=
  if bins =? 1 then Ok ([amount], ds)
  else
    let* (index, ds1) :=
      foldM (fun st _ => let '(index, ds) := st in
                         let* (k, ds') := draw_index ds bins index in Ok (index ++ [k], ds'))
            (zrange 0 bins) ([], ds) in
    distribute index amount (repeat 0 (Z.to_nat bins)) ds1.
