(** Model of the successive-packing part of
    semantic_codec/interleaver/interleaver2d.py (lines 7-122). *)
From Verif Require Export Py.

(** A numpy matrix being filled: [M j i] is [matrix[j, i]].  The dimension is
    only needed when the rows are read.  Floats are exact integers here (the
    values stay below 4^m). *)
Definition matrix := Z -> Z -> Z.

(** A loop nest [for i in range(i0,i1): for j in range(j0,j1): matrix[j,i] = f(matrix)]
    as one region update.  Every nest of the code reads only cells that the same
    nest does not write, except the last one, where each cell only reads itself;
    so the order of the cells inside a nest does not matter. *)
Definition region_update (M : matrix) (j0 j1 i0 i1 : Z) (f : matrix -> Z -> Z -> Z) : matrix :=
  fun j i => if (j0 <=? j) && (j <? j1) && (i0 <=? i) && (i <? i1) then f M j i else M j i.

(** interleaver2d.py:24-46, one iteration of the outer loop. *)
Definition sp_step (M : matrix) (n : Z) : matrix :=
  let w := 2 ^ n in
  let M := region_update M 0 w w (w + w) (fun M j i => M j (i - w) * 4 + 2) in             (* 29-31 *)
  let M := region_update M w (w + w) 0 w (fun M j i => M (j - w) i * 4 + 3) in             (* 34-36 *)
  let M := region_update M w (w + w) w (w + w) (fun M j i => M (j - w) (i - w) * 4 + 1) in (* 39-41 *)
  region_update M 0 w 0 w (fun M j i => 4 * M j i).                                        (* 44-46 *)

(** interleaver2d.py:17-22, the zero matrix with the first 2x2 block. *)
Definition sp_base : matrix :=
  fun j i => if (j =? 0) && (i =? 0) then 0
             else if (j =? 0) && (i =? 1) then 2
             else if (j =? 1) && (i =? 0) then 3
             else if (j =? 1) && (i =? 1) then 1
             else 0.

(** Rows of a [h] x [w] matrix. *)
Definition rows_of (M : matrix) (h w : Z) : list (list Z) :=
  map (fun j => map (fun i => M j i) (zrange 0 w)) (zrange 0 h).

(** interleaver2d.py:7-48 [sucesive_packing]. *)
Definition sucesive_packing (m : Z) : list (list Z) :=
  if m <=? 0 then [[0]]
  else rows_of (fold_left sp_step (zrange 1 m) sp_base) (2 ^ m) (2 ^ m).

(** floor(log(p4/4, 4)) for [p4 >= 1] (p4 counts quarter packets).
    Simplification: the float logarithm is exact; checked with CPython for all
    [p4 < 4000000]. *)
Definition floor_log4_quarters (p4 : Z) : Z := Z.log2 p4 / 2 - 1.

(** Matrix plus a constant: interleaver2d.py:86-88 and 100-102. *)
Definition add_const (rows : list (list Z)) (c : Z) : list (list Z) :=
  map (map (fun x => x + c)) rows.

(** interleaver2d.py:69-106, the [while] loop.  [p4] is [4 * packets], so that
    the quarter packet counts of store_packets.py:45 are integers; [cpi] is
    current_package_index.  For [n = -1] (less than one packet left)
    [matrix_size] is [int(0.5) = 0], [sucesive_packing(-1)] is [[0]] and no
    offset is added; a second matrix of that size calls
    [numpy.zeros(shape=(0.5, 0.5))], which raises TypeError. *)
Fixpoint sp_matrices (fuel : nat) (p4 cpi : Z) : result (list (list (list Z))) :=
  if p4 >? 0 then
    match fuel with
    | O => Err OutOfFuel
    | S fuel' =>
        let n := floor_log4_quarters p4 in
        let matrix_count := p4 / 4 ^ (n + 1) in                               (* 81 *)
        if n <? 0 then
          if matrix_count - 1 >? 0 then Err TypeError                          (* 98-99 *)
          else
            let* rest := sp_matrices fuel' (p4 mod (4 ^ (n + 1) * matrix_count)) cpi in
            Ok (sucesive_packing n :: rest)
        else
          let pim := 4 ^ n in                                                  (* 78 *)
          let ms :=
            if matrix_count >? 0 then                                          (* 83 *)
              let m1 := add_const (sucesive_packing n) cpi in                  (* 85-88 *)
              m1 :: map (fun k => add_const m1 (pim * (k + 1))) (zrange 0 (matrix_count - 1))
            else [] in
          let cpi' := if matrix_count >? 0 then cpi + pim * matrix_count else cpi in
          if matrix_count =? 0 then Err ValueError                             (* fmod(x, 0) *)
          else
            let* rest := sp_matrices fuel' (p4 mod (4 ^ (n + 1) * matrix_count)) cpi' in
            Ok (ms ++ rest)
    end
  else Ok [].

(** interleaver2d.py:109-113, rows of all matrices taken in turn. *)
Definition interleave_rows (ms : list (list (list Z))) (width : Z) : list (list Z) :=
  flat_map (fun n => flat_map (fun M => match nth_error M n with Some r => [r] | None => [] end) ms)
           (seq 0 (Z.to_nat width)).

(** interleaver2d.py:51-122 [build_2d_interleave_sp] on [p4 / 4] packets,
    [flat=False]; [matrices[0][0]] raises IndexError when there is no matrix. *)
Definition build_sp_rows (p4 : Z) : result (list (list Z)) :=
  let* ms := sp_matrices (Z.to_nat (Z.log2 p4) + 2) p4 0 in
  match ms with
  | (r0 :: _) :: _ => Ok (interleave_rows ms (Z.of_nat (length r0)))
  | _ => Err IndexError
  end.

(** [flat=True] (lines 116-120). *)
Definition build_sp_flat (p4 : Z) : result (list Z) :=
  let* rows := build_sp_rows p4 in Ok (concat rows).

(** The call with a whole number of packets. *)
Definition build_2d_interleave_sp_rows (packets : Z) := build_sp_rows (4 * packets).
Definition build_2d_interleave_sp (packets : Z) := build_sp_flat (4 * packets).

(** store_packets.py:44-48: the order for a program of [n] instructions,
    [packet_count = n * 4 / 16]. *)
Definition store_packets_order (n : Z) := build_sp_flat n.
