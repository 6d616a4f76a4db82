(** Model of what semantic_codec/report/print_progress.py writes, character by
    character (code points).  Numbers are exact rationals instead of floats;
    [decimals] is not negative.  [bar_length] may be any whole number. *)
From Verif Require Export Py.
From Coq Require Export QArith Qround.
Open Scope Z_scope.

Definition text := list Z.
(** print_progress.py:6-15: what stays the same during the calls *)
Record options := Options { o_total : Z; o_dist : Q; o_prefix : text; o_suffix : text; o_decimals : nat; o_length : Z }.
(** print_progress.py:8, 15, with everything written to the standard output *)
Record drawn := Drawn { at_iteration : Z; previous : option Q; written : text }.
Definition drawn_new (start : Z) : drawn := Drawn start None [].

(** Python's [round]: the nearest whole number, the even one of two. *)
Definition round_even (q : Q) : Z :=
  let f := Qfloor q in
  match Qcompare (q - inject_Z f) (1 # 2) with
  | Lt => f
  | Gt => f + 1
  | Eq => if Z.even f then f else f + 1
  end.
(** The digits of a whole number that is not negative, and the last [d] of them. *)
Fixpoint digits_of (fuel : nat) (n : Z) : text :=
  match fuel with
  | O => []
  | S fuel' => if n <? 10 then [48 + n] else digits_of fuel' (n / 10) ++ [48 + n mod 10]
  end.
Fixpoint last_digits (d : nat) (n : Z) : text :=
  match d with O => [] | S d' => last_digits d' (n / 10) ++ [48 + n mod 10] end.
(** ["{0:.df}".format(q)] *)
Definition format_fixed (d : nat) (q : Q) : text :=
  let negative := match Qcompare q 0 with Lt => true | _ => false end in
  let n := round_even ((if negative then - q else q) * inject_Z (10 ^ Z.of_nat d)) in
  let whole := n / 10 ^ Z.of_nat d in
  (if negative then [45] else []) ++ digits_of (S (Z.to_nat whole)) whole ++ match d with O => [] | S _ => 46 :: last_digits d n end.
(** ['\r%s |%s| %s%s %s'], lines 24 and 53 *)
Definition line_of (o : options) (bar percents : text) : text :=
  [13] ++ o_prefix o ++ [32; 124] ++ bar ++ [124; 32] ++ percents ++ [37; 32] ++ o_suffix o.
(** A character times a number; none if the number is negative. *)
Definition times (c n : Z) : text := repeat c (Z.to_nat n).

(** print_progress.py:17-25 [_go_to_end], [_print_last_iteration] *)
Definition draw_end (o : options) (s : drawn) : drawn :=
  Drawn (o_total o) (Some 100%Q) (written s ++ line_of o (times 9608 (o_length o)) [49; 48; 48] ++ [10]).
Definition close_to_end (o : options) (s : drawn) : bool := Qle_bool (inject_Z (o_total o)) (inject_Z (at_iteration s) + o_dist o).
(** print_progress.py:27-59 [progress] *)
Definition draw (o : options) (s : drawn) : result drawn :=
  if match previous s with Some _ => at_iteration s =? o_total o | None => false end then Ok s
  else if close_to_end o s then Ok (draw_end o s)
  else if o_total o =? 0 then Err ZeroDivisionError
  else
    let p := (100 * (inject_Z (at_iteration s) / inject_Z (o_total o)))%Q in
    let s := Drawn (at_iteration s + 1) (previous s) (written s) in
    if match previous s with Some q => negb (Qle_bool (o_dist o) (p - q)) | None => false end then Ok s
    else
      let percents := format_fixed (o_decimals o) p in
      let filled := round_even (inject_Z (o_length o) * inject_Z (at_iteration s) / inject_Z (o_total o)) in
      let bar := times 9608 filled ++ times 45 (o_length o - filled) in
      let s := Drawn (at_iteration s) (previous s) (written s ++ line_of o bar percents) in
      let s := if close_to_end o s then draw_end o s else s in
      Ok (Drawn (at_iteration s) (Some p) (written s)).
(** Calling [progress] n times. *)
Fixpoint draws (o : options) (n : nat) (s : drawn) : result drawn :=
  match n with O => Ok s | S n' => let* s' := draw o s in draws o n' s' end.
