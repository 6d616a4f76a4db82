(** Models of small modules: distributed/qos_functions.py and address_sorting.py. *)
From Verif Require Export Py CompressModel.
Open Scope Z_scope.

(** qos_functions.py:1-14: MockQoSFunction.  [mock_run] (CompressModel) is one call;
    [mock_calls n q] the answers of [n] calls from counter [q] (the constructor
    sets it to 0). *)
Fixpoint mock_calls (n : nat) (q : Z) : list bool :=
  match n with O => [] | S n' => let '(a, q') := mock_run q in a :: mock_calls n' q' end.

(** address_sorting.py:4-9. *)
Definition hi_in_hi (x y z : Z) : Z := x * 32 * 4 + y * 4 + z.
Definition low_in_hi (x y z : Z) : Z := x * 32 * 64 + y * 64 + z.
(** address_sorting.py:12-31: what the three loops print, in order. *)
Definition lo_first_loose_high_bit : list Z :=
  flat_map (fun z => flat_map (fun y => map (fun x => low_in_hi x y z) (zrange 0 64)) (zrange 0 32)) (zrange 0 4).
Definition hi_first_start_loosing_low_bit : list Z :=
  flat_map (fun x => flat_map (fun y => map (fun z => hi_in_hi x y z) (zrange 0 4)) (zrange 0 32)) (zrange 0 64).
Definition hi_first_start_loosing_hi_bit : list Z :=
  flat_map (fun z => flat_map (fun y => map (fun x => hi_in_hi x y z) (zrange 0 64)) (zrange 0 32)) (zrange 0 4).
