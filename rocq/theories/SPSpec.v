(** Specification vocabulary for packet orders. *)
From Verif Require Import Py.

(** Cell [(j, i)] of a matrix given by its rows ([-1] outside). *)
Definition entry (M : list (list Z)) (j i : Z) : Z :=
  nth (Z.to_nat i) (nth (Z.to_nat j) M []) (-1).
