(** Model of class BitQueue (semantic_codec/architecture/bits.py:1-74). *)
From Verif Require Export BitsModel.

(** [l[i]] with Python's negative indices. *)
Definition py_get {A} (l : list A) (i : Z) : result A :=
  let j := if i <? 0 then i + Z.of_nat (length l) else i in
  if j <? 0 then Err IndexError else nth_r l (Z.to_nat j).

(** [l[i] = v]; raises like [py_get]. *)
Definition py_set {A} (l : list A) (i : Z) (v : A) : result (list A) :=
  let j := if i <? 0 then i + Z.of_nat (length l) else i in
  if j <? 0 then Err IndexError
  else if j <? Z.of_nat (length l) then Ok (list_set l (Z.to_nat j) v) else Err IndexError.

(** [l.pop(0)] *)
Definition py_pop0 {A} (l : list A) : result (list A) :=
  match l with [] => Err IndexError | _ :: l' => Ok l' end.

(** bits.py:5-10, the fields of a queue. *)
Record bitqueue := BQ {
  q_bytes : list Z; q_eq_word : Z; q_eq_bit : Z; q_dq_bit : Z; q_ws : Z }.

(** bits.py:5-10 [__init__]. *)
Definition bq_new (word_size : Z) : bitqueue := BQ [0] 0 0 0 word_size.

(** bits.py:12-40 [enqueue].  State changes made before an exception are not
    modelled (nothing reads the queue after one). *)
Definition bq_enqueue (q : bitqueue) (value from_bit : Z) : result bitqueue :=
  let* _ := check_range 0 from_bit in
  let ws := q_ws q in
  let* q1 :=
    (if q_eq_bit q + ws - 1 >? 31 then                                   (* 20 *)
       let w := Z.max 0 (32 - q_eq_bit q - 1) in                         (* 21 *)
       let* b := py_get (q_bytes q) (q_eq_word q) in
       let* b' := copy_bits value b from_bit (from_bit + w) (q_eq_bit q) in
       let* bytes := py_set (q_bytes q) (q_eq_word q) b' in              (* 22-23 *)
       let eq_word := q_eq_word q + 1 in                                 (* 24 *)
       let bytes := bytes ++ [0] in                                      (* 25 *)
       let w := Z.max 0 (q_eq_bit q + ws - 32 - 1) in                    (* 27 *)
       let eq_bit := 0 in                                                (* 28 *)
       let* b := py_get bytes eq_word in
       let* b' := copy_bits value b from_bit (from_bit + w) eq_bit in
       let* bytes := py_set bytes eq_word b' in                          (* 29-30 *)
       Ok (BQ bytes eq_word eq_bit (q_dq_bit q) ws)
     else
       let w := Z.max 0 (from_bit + ws - 1) in                           (* 32 *)
       let* b := py_get (q_bytes q) (q_eq_word q) in
       let* b' := copy_bits value b from_bit w (q_eq_bit q) in
       let* bytes := py_set (q_bytes q) (q_eq_word q) b' in              (* 33-34 *)
       Ok (BQ bytes (q_eq_word q) (q_eq_bit q) (q_dq_bit q) ws)) in
  let eq_bit := q_eq_bit q1 + ws in                                      (* 36 *)
  if eq_bit >? 31 then
    Ok (BQ (q_bytes q1 ++ [0]) (q_eq_word q1 + 1) (eq_bit - 32) (q_dq_bit q1) ws)
  else Ok (BQ (q_bytes q1) (q_eq_word q1) eq_bit (q_dq_bit q1) ws).

(** bits.py:42-47 [empty]. *)
Definition bq_empty (q : bitqueue) : bool :=
  if q_eq_word q <? 0 then true
  else if (q_eq_word q =? 0) && (q_eq_bit q <=? q_dq_bit q) then true
  else false.

(** bits.py:49-71 [dequeue]: returned value and new queue. *)
Definition bq_dequeue (q : bitqueue) (value to_bit : Z) : result (Z * bitqueue) :=
  let* _ := check_range 0 to_bit in
  let ws := q_ws q in
  let* (value, w, q1) :=
    (if q_dq_bit q + ws - 1 >? 31 then                                   (* 52 *)
       let w := 32 - q_dq_bit q in                                       (* 53 *)
       let* b := py_get (q_bytes q) 0 in
       let* value := copy_bits b value (q_dq_bit q) (q_dq_bit q + w - 1) to_bit in
       let* bytes := py_pop0 (q_bytes q) in                              (* 55 *)
       let eq_word := q_eq_word q - 1 in                                 (* 56 *)
       let w := q_dq_bit q + ws - 32 in                                  (* 58 *)
       let* b := py_get bytes 0 in
       let* value := copy_bits b value 0 (0 + w - 1) to_bit in           (* 59-60 *)
       Ok (value, w, BQ bytes eq_word (q_eq_bit q) 0 ws)
     else
       let w := ws in                                                    (* 62 *)
       let* b := py_get (q_bytes q) 0 in
       let* value := copy_bits b value (q_dq_bit q) (q_dq_bit q + w - 1) to_bit in
       Ok (value, w, q)) in
  let dq_bit := q_dq_bit q1 + w in                                       (* 65 *)
  if dq_bit >? 31 then
    let* bytes := py_pop0 (q_bytes q1) in                                (* 68 *)
    Ok (value, BQ bytes (q_eq_word q1 - 1) (q_eq_bit q1) (dq_bit - 32) ws)
  else Ok (value, BQ (q_bytes q1) (q_eq_word q1) (q_eq_bit q1) dq_bit ws).

(** bits.py:73-74 [get_bytes]. *)
Definition bq_get_bytes (q : bitqueue) : list Z := q_bytes q.

(** Histories of calls on one queue. *)
Inductive qop := QEnq (value from_bit : Z) | QDeq (value to_bit : Z) | QEmpty.
Inductive qout := OUnit | OVal (v : Z) | OBool (b : bool).

Definition bq_step (q : bitqueue) (o : qop) : result (qout * bitqueue) :=
  match o with
  | QEnq v f => let* q' := bq_enqueue q v f in Ok (OUnit, q')
  | QDeq v t => let* (r, q') := bq_dequeue q v t in Ok (OVal r, q')
  | QEmpty => Ok (OBool (bq_empty q), q)
  end.

Fixpoint bq_run (q : bitqueue) (ops : list qop) : result (list qout * bitqueue) :=
  match ops with
  | [] => Ok ([], q)
  | o :: ops' =>
      let* (x, q') := bq_step q o in
      let* (xs, q'') := bq_run q' ops' in
      Ok (x :: xs, q'')
  end.
