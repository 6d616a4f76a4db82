(** Model of predict_corruption (semantic_codec/corruption/corruption.py:220-267)
    and of PacketCorruptor (semantic_codec/corruption/corruptors.py:37-123). *)
From Verif Require Export SPModel FlipModel.

(** An entry of the error list: (word, bit) or (word, bit, length). *)
Definition error := (Z * Z * option Z)%type.
Definition e_word (e : error) : Z := fst (fst e).
Definition e_bit (e : error) : Z := snd (fst e).
Definition e_len (e : error) : option Z := snd e.

Definition error_eqb (a b : error) : bool :=
  (e_word a =? e_word b) && (e_bit a =? e_bit b) &&
  match e_len a, e_len b with
  | None, None => true
  | Some x, Some y => x =? y
  | _, _ => false
  end.

(** corruption.py:258-261, [if not t in errors: errors.append(t)]. *)
Definition add_error (errors : list error) (t : error) : list error :=
  if existsb (error_eqb t) errors then errors else errors ++ [t].

(** corruption.py:247-262, one starting bit.  The divisions are floating-point in
    the code; they are exact below 2^53. *)
Definition predict_bit (w total b : Z) (errors : list error) : list error :=
  if b <? total then
    let bte := b / 32 in
    let bit := b mod 32 in
    if bit + w >=? 32 then
      add_error (add_error errors (bte, bit, Some (32 - 1 - bit))) (bte + 1, 0, Some (w - 32 + 1 + bit))
    else add_error errors (bte, bit, None)
  else errors.

(** corruption.py:246-264, one round over the lost packets. *)
Definition predict_round (w jump total : Z) (st : list Z * list error) : list Z * list error :=
  fold_left (fun acc b => (fst acc ++ [b + jump], predict_bit w total b (snd acc))) (fst st) ([], snd st).

(** corruption.py:245-264, [while b[0] < total_bits]. *)
Fixpoint predict_loop (fuel : nat) (w jump total : Z) (st : list Z * list error) : result (list error) :=
  let* b0 := nth_r (fst st) 0 in
  if b0 <? total then
    match fuel with
    | O => Err OutOfFuel
    | S fuel' => predict_loop fuel' w jump total (predict_round w jump total st)
    end
  else Ok (snd st).

(** corruption.py:220-267 [predict_corruption]; [words] is data_size.  A jump of
    at least one bit needs at most one round per bit. *)
Definition predict_corruption (packets w words : Z) (order lost : list Z) : result (list error) :=
  let total := words * 32 in
  let* b := mapM (fun p => let* i := zindex order p in Ok (w * i)) lost in
  predict_loop (Z.to_nat total + 1) w (w * packets) total (b, []).

(** An instruction object as far as the corruptors use it. *)
Record inst := mkInst { i_enc : Z; i_addr : Z }.

(** A program: address -> list of candidates.  Distinct addresses hold distinct
    list objects. *)
Definition program := dict (list inst).

(** capstone_instruction.py:12-21: [encoding.to_bytes(4)] raises OverflowError for
    encodings that are not 32-bit words; the disassembled object is not used here. *)
Definition caps (enc addr : Z) : result inst :=
  if (0 <=? enc) && (enc <? 2 ^ 32) then Ok (mkInst enc addr) else Err OverflowError.

(** corruptors.py:56-63 [_corrupt_address].  [arm_inst in corrupted] compares
    objects by identity (no __eq__ is defined), so it is always false. *)
Definition corrupt_address (tuples : list (Z * Z)) (address : Z) (prog : program) : result program :=
  let* insts := dget_r prog address in
  let* corrupted :=
    foldM (fun acc i =>
        let* cs := corrupt_all_bits_tuples tuples (i_enc i) in
        foldM (fun acc c =>
            let* first := nth_r insts 0 in
            let* n := caps c (i_addr first) in
            Ok (acc ++ [n])) cs acc)
      insts [] in
  Ok (dset prog address corrupted).

(** corruptors.py:105-108. *)
Definition error_range (w : Z) (e : error) : Z * Z :=
  match e_len e with
  | None => (e_bit e, e_bit e + w)
  | Some n => (e_bit e, e_bit e + n)
  end.

(** corruptors.py:96-115; [n] is the number of iterations left, [k] and [e] the
    loop variables. The progress bar is not modelled here. *)
Fixpoint corrupt_loop (n k : nat) (w : Z) (errors : list error) (addresses : list Z)
    (e : error) (current : Z) (tuples : list (Z * Z)) (prog : program) : result program :=
  match n with
  | O => Ok prog
  | S n' =>
      let flush := negb (current =? e_word e) || Nat.eqb k (length errors) in
      let* (tuples1, prog1) :=
        if flush && negb (Nat.eqb (length tuples) 0) && (current <? Z.of_nat (length addresses)) then
          let* address := nth_r addresses (Z.to_nat current) in
          let* p := corrupt_address tuples address prog in
          Ok ([], p)
        else Ok (tuples, prog) in
      let current1 := if flush then e_word e else current in
      let tuples2 := tuples1 ++ [error_range w e] in
      let e' := nth (S k) errors e in
      corrupt_loop n' (S k) w errors addresses e' current1 tuples2 prog1
  end.

(** corruptors.py:65-123 [PacketCorruptor.corrupt]; None/empty arguments are empty
    lists; saving to a file is modelled in JsonModel. *)
Definition packet_corrupt (packets w words : Z) (interleave lost : list Z) (prog : program) : result program :=
  match lost with
  | [] => Err RuntimeError
  | _ =>
      let* order := match interleave with [] => build_2d_interleave_sp packets | _ => Ok interleave end in
      let addresses := sort_by (fun a => a) (dkeys prog) in
      let* errors := predict_corruption packets w words order lost in
      let vv := Z.of_nat (length errors) * 100 in
      let sorted := sort_by (fun e => e_word e * vv + e_bit e) errors in
      let* e := nth_r sorted 0 in
      let* prog' := corrupt_loop (S (length sorted)) 0 w sorted addresses e (e_word e) [] prog in
      Ok (map (fun kv => (fst kv, sort_by i_enc (snd kv))) prog')
  end.
