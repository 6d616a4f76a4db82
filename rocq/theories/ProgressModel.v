(** Model of semantic_codec/report/print_progress.py.  Percentages are exact
    rationals instead of floats; of a partial line only the percentage is kept (its
    prefix, bar drawing and suffix are not modelled), of the last line only the fact
    that it was written.  The print distance may be any rational. *)
From Verif Require Export Py.
From Coq Require Export QArith.
Open Scope Z_scope.

Inductive printed := Partial (percent : Q) | Last.
(** print_progress.py:6-15; the output so far is part of the state. *)
Record bar := Bar { iteration : Z; prev_percent : option Q; output : list printed }.
Definition bar_new (start : Z) : bar := Bar start None [].

(** print_progress.py:17-25 [_go_to_end] *)
Definition go_to_end (total : Z) (b : bar) : bar := Bar total (Some 100%Q) (output b ++ [Last]).
Definition near_end (total : Z) (dist : Q) (b : bar) : bool := Qle_bool (inject_Z total) (inject_Z (iteration b) + dist).
Definition Qlt_bool (a b : Q) : bool := negb (Qle_bool b a).
(** print_progress.py:27-59 [progress] *)
Definition progress (total : Z) (dist : Q) (b : bar) : result bar :=
  if match prev_percent b with Some _ => iteration b =? total | None => false end then Ok b
  else if near_end total dist b then Ok (go_to_end total b)
  else if total =? 0 then Err ZeroDivisionError
  else
    let p := (100 * (inject_Z (iteration b) / inject_Z total))%Q in
    let b := Bar (iteration b + 1) (prev_percent b) (output b) in
    if match prev_percent b with Some q => Qlt_bool (p - q) dist | None => false end then Ok b
    else
      let b := Bar (iteration b) (prev_percent b) (output b ++ [Partial p]) in
      let b := if near_end total dist b then go_to_end total b else b in
      Ok (Bar (iteration b) (Some p) (output b)).
(** Calling [progress] n times. *)
Fixpoint calls (total : Z) (dist : Q) (n : nat) (b : bar) : result bar :=
  match n with O => Ok b | S n' => let* b' := progress total dist b in calls total dist n' b' end.
