(** Model of build_2d_interleave_matrix_blaum
    (semantic_codec/interleaver/interleaver2d.py:125-162). *)
From Verif Require Export Py.

(** [round(a / b)] for integers: nearest integer, ties to even.  The code
    rounds the floating-point quotient; the two agree whenever the quotient is
    below 2^52 / b, so that floating point cannot move a quotient onto a tie. *)
Definition round_div (a b : Z) : result Z :=
  if b =? 0 then Err ZeroDivisionError
  else
    let '(a, b) := if b <? 0 then (- a, - b) else (a, b) in
    let q := a / b in
    let r := a mod b in
    Ok (if 2 * r <? b then q
        else if 2 * r >? b then q + 1
        else if Z.even q then q else q + 1).

(** [round(sqrt(x))], which raises ValueError for negative [x]; the square root
    of an integer is never half way between two integers.  Same floating-point
    remark as [round_div] (x below 2^52). *)
Definition round_sqrt (x : Z) : result Z :=
  if x <? 0 then Err ValueError
  else Ok (if x - Z.sqrt x * Z.sqrt x >? Z.sqrt x then Z.sqrt x + 1 else Z.sqrt x).

(** interleaver2d.py:125-162.  [fmod] is the remainder with the sign of the
    dividend ([Z.rem]); fmod(_, 0) raises ValueError (reached by no input, the
    square root of -1 fails first). *)
Definition blaum (message_size packet_size data_width data_height : Z) : result (list (list Z)) :=
  let* (dw, dh) :=
    (if negb (data_width =? -1) && (data_height =? -1) then
       let* h := round_div message_size data_width in Ok (data_width, h)
     else if negb (data_height =? -1) && (data_width =? -1) then
       let* w := round_div message_size data_height in Ok (w, data_height)
     else if (data_height =? -1) && (data_width =? -1) then Err RuntimeError
     else Ok (data_width, data_height)) in
  let* m := round_div message_size packet_size in
  let* b := round_sqrt (2 * m - 1) in
  mapM (fun y => mapM (fun x => if m =? 0 then Err ValueError else Ok (Z.abs (Z.rem (x - y * b) m)))
                      (zrange 0 dw)) (zrange 0 dh).
