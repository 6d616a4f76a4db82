(** Model of corrupt_instruction and corrupt_program
    (semantic_codec/corruption/corruption.py:145-218). *)
From Verif Require Export PacketModel.
From Coq Require Export SpecFloat.

(** corruption.py:201-202, [r.extend([cc for cc in corrupt_x(amount, c) if cc not in r])]
    for each [c]; the comprehension is evaluated against [r] before it is extended. *)
Definition extend_flips (flip : Z -> list Z -> result (list Z * list Z)) (corrupted : list Z) (ds : list Z)
  : result (list Z * list Z) :=
  foldM (fun st c => let '(r, ds) := st in
                     let* (cs, ds') := flip c ds in
                     Ok (r ++ filter (fun cc => negb (zmem cc r)) cs, ds')) corrupted ([], ds).

(** corruption.py:187-218 [corrupt_instruction].  [undefined enc addr] stands for
    the disassembler's verdict (CAPSInstruction.is_undefined); a fresh
    instruction has [_ignore = False]. *)
Definition corrupt_instruction (undefined : Z -> Z -> bool) (prog : program) (orig : inst) (address : Z)
    (conditional registers opcode : bool) (amount : Z) (ds : list Z) : result (program * list Z) :=
  let c1 := if conditional then 1 else 0 in
  let c2 := if registers then c1 + 1 else c1 in
  let bin_c := if opcode then c2 + 1 else c2 in
  let* (amounts, ds1) := distribute_random_amount amount bin_c ds in
  let* (corrupted1, bin1, ds2) :=
    if conditional then
      let* a := nth_r amounts (Z.to_nat (bin_c - 1)) in
      let* (cs, ds') := corrupt_conditional a (i_enc orig) ds1 in Ok (cs, bin_c - 1, ds')
    else Ok ([i_enc orig], bin_c, ds1) in
  let* (corrupted2, bin2, ds3) :=
    if registers then
      let* a := nth_r amounts (Z.to_nat (bin1 - 1)) in
      let* (cs, ds') := extend_flips (corrupt_registers a) corrupted1 ds2 in Ok (cs, bin1 - 1, ds')
    else Ok (corrupted1, bin1, ds2) in
  let* (corrupted3, _, ds4) :=
    if opcode then
      let* a := nth_r amounts (Z.to_nat (bin2 - 1)) in
      let* (cs, ds') := extend_flips (corrupt_opcode a) corrupted2 ds3 in Ok (cs, bin2 - 1, ds')
    else Ok (corrupted2, bin2, ds3) in
  let* prog' :=
    foldM (fun p c =>
        let* n := caps c (i_addr orig) in
        if undefined c (i_addr orig) then Ok p
        else let* l := dget_r p address in Ok (dset p address (l ++ [n])))
      (tl corrupted3) prog in
  let* _ := dget_r prog' address in
  Ok (prog', ds4).

(** *** corrupt_program *)

(** Python floats: IEEE binary64. *)
Definition float_of_int (z : Z) : spec_float := binary_normalize 53 1024 z 0 false.
Definition fdiv := SFdiv 53 1024.
Definition fmul := SFmul 53 1024.

(** [math.ceil(x)] *)
Definition float_ceil (x : spec_float) : result Z :=
  match x with
  | S754_zero _ => Ok 0
  | S754_infinity _ => Err OverflowError
  | S754_nan => Err ValueError
  | S754_finite s m e =>
      let z := cond_Zopp s (Zpos m) in
      Ok (if 0 <=? e then z * 2 ^ e else - ((- z) / 2 ^ (- e)))
  end.

(** corruption.py:158-162: [math.ceil(max(1, len_program * (err_percent / 100)))].
    [max] keeps its first argument unless the second is larger. *)
Definition corrupted_amount (n : Z) (percent : spec_float) : result Z :=
  let x := fmul (float_of_int n) (fdiv percent (float_of_int 100)) in
  if SFltb (float_of_int 1) x then float_ceil x else Ok 1.

(** corruption.py:165-169; sys.maxsize is 2^63-1.  (The maximum is not used.) *)
Definition min_address (prog : program) : Z :=
  fold_left (fun m k => if m >? k then k else m) (dkeys prog) (2 ^ 63 - 1).

(** corruption.py:175-177 and 181-185. *)
Definition add_encodings (cs : list Z) (insts : list inst) : result (list inst) :=
  foldM (fun l r =>
      if existsb (fun i => i_enc i =? r) l then Ok l
      else let* first := nth_r l 0 in let* n := caps r (i_addr first) in Ok (l ++ [n])) cs insts.

(** corruption.py:171-178.  Every iteration uses up a draw, so [fuel] (the number
    of draws plus one) is never what stops the loop. *)
Fixpoint corrupt_program_loop (fuel : nat) (count maxa base : Z) (prog : program) (ds : list Z) : result (program * list Z) :=
  if count >? 0 then
    match fuel with
    | O => Err OutOfFuel
    | S fuel' =>
        let* (k, ds1) := randint 0 (Z.of_nat (length prog)) ds in
        let p := k * 4 + base in
        match dget prog p with
        | Some [i] =>
            let* (a, ds2) := randint 1 maxa ds1 in
            let* (cs, ds3) := corrupt_bits 31 0 a (i_enc i) ds2 in
            let* l := add_encodings cs [i] in
            corrupt_program_loop fuel' (count - 1) maxa base (dset prog p l) ds3
        | _ => corrupt_program_loop fuel' count maxa base prog ds1
        end
    end
  else Ok (prog, ds).

(** corruption.py:145-178 [corrupt_program].  The guard [0 > err_percent > 100]
    is a chained comparison that no number satisfies. *)
Definition corrupt_program (prog : program) (percent : spec_float) (maxa : Z) (ds : list Z) : result (program * list Z) :=
  let* count := corrupted_amount (Z.of_nat (length prog)) percent in
  corrupt_program_loop (S (length ds)) count (Z.max 1 maxa) (min_address prog) prog ds.
