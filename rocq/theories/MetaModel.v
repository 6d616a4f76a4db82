(** Model of semantic_codec/metadata/metadata_collector.py. *)
From Verif Require Export InstModel.

(** An instruction as the metadata, recovery and control-flow code sees it.
    storages_* and registers_* are the answers of the queries of InstModel
    (whose caching is invisible, C31); [d_ignore] is the ignore property. *)
Record dinst := mkD {
  d_enc : Z; d_addr : Z; d_ignore : bool;
  d_cond : Z; d_op : Z;                               (* conditional_field, opcode_field *)
  d_used : list Z; d_written : list Z; d_read : list Z; (* storages_* *)
  d_rwritten : list Z; d_rread : list Z;              (* registers_written, registers_read *)
  d_branch : bool; d_kind : kind; d_jump : option Z   (* is_branch, push/pop, jumping_address *)
}.

(** The instruction object made from what capstone says. *)
Definition view (enc addr : Z) (ignored : bool) (c : cap) : result dinst :=
  let* used := fst (storages_used (caps_queries c) no_caches) in
  let* written := fst (storages_written (caps_queries c) no_caches) in
  let* read := fst (storages_read (caps_queries c) no_caches) in
  let* rw := registers_written c in
  let* rr := registers_read c in
  let* b := is_branch c in
  let* j := jumping_address c in
  Ok (mkD enc addr ignored (c_cc c - 1) (c_id c) used written read rw rr b (c_kind c) j).

(** metadata_collector.py:4-10. *)
Definition inc_key (d : dict Z) (k : Z) : dict Z :=
  match dget d k with Some n => dset d k (n + 1) | None => dset d k 1 end.
Definition inc_keys (d : dict Z) (ks : list Z) : dict Z := fold_left inc_key ks d.

(** metadata_collector.py:18-25.  A mean is kept as (sum, number of terms). *)
Record collector := mkCollector {
  storage_count : dict Z; condition_count : dict Z; instruction_count : dict Z;
  min_dist : dict Z; max_dist : dict Z; mean_dist : dict (Z * Z);
  empty_spaces : list dinst }.
Definition new_collector := mkCollector [] [] [] [] [] [] [].

(** Distance bookkeeping: minimum, maximum, (sum, times), dist, defined. *)
Record tracking := mkTracking {
  t_min : dict Z; t_max : dict Z; t_mean : dict (Z * Z); t_dist : list Z; t_defined : list bool }.

(** metadata_collector.py:78-97, storage [s]. *)
Definition visit_storage (read : list Z) (t : tracking) (s : Z) : tracking :=
  let i := Z.to_nat s in
  if nth i (t_defined t) false then
    let ds := nth i (t_dist t) 0 in
    if zmem s read then
      let '(mn, mx, me) :=
        match dget (t_mean t) s with
        | None => (dset (t_min t) s ds, dset (t_max t) s ds, dset (t_mean t) s (ds, 1))
        | Some (d, n) =>
            ((match dget (t_min t) s with Some m => if m >? ds then dset (t_min t) s ds else t_min t | None => t_min t end),
             (match dget (t_max t) s with Some m => if m <? ds then dset (t_max t) s ds else t_max t | None => t_max t end),
             dset (t_mean t) s (d + ds, n + 1))
        end in
      mkTracking mn mx me (list_set (t_dist t) i 0) (list_set (t_defined t) i false)
    else mkTracking (t_min t) (t_max t) (t_mean t) (list_set (t_dist t) i (ds + 1)) (t_defined t)
  else t.
(** metadata_collector.py:100-105; an index beyond the array is reported and
    skipped (list_set leaves the list alone).  Storages are never negative. *)
Definition write_storage (t : tracking) (s : Z) : tracking :=
  mkTracking (t_min t) (t_max t) (t_mean t) (list_set (t_dist t) (Z.to_nat s) 0) (list_set (t_defined t) (Z.to_nat s) true).
Definition track (t : tracking) (i : dinst) : tracking :=
  fold_left write_storage (d_written i) (fold_left (visit_storage (d_read i)) (zrange 0 STORAGE_COUNT) t).

(** metadata_collector.py:67-105, one instruction. *)
Definition collect_step (st : collector * list Z * tracking) (i : dinst) : collector * list Z * tracking :=
  let '(c, encs, t) := st in
  if d_ignore i then st
  else
    let '(encs', spaces) :=
      if zmem (d_enc i) encs then (encs, empty_spaces c) else (encs ++ [d_enc i], empty_spaces c ++ [i]) in
    (mkCollector (inc_keys (storage_count c) (d_used i)) (inc_key (condition_count c) (d_cond i))
                 (inc_key (instruction_count c) (d_op i)) (min_dist c) (max_dist c) (mean_dist c) spaces,
     encs', track t i).

(** metadata_collector.py:51-113 [collect].  The minimum and maximum
    dictionaries live across calls, the sums do not. *)
Definition collect (c : collector) (insts : list dinst) : collector :=
  let n := Z.to_nat (STORAGE_COUNT + 1) in
  let start := mkTracking (min_dist c) (max_dist c) [] (repeat 0 n) (repeat false n) in
  let c0 := mkCollector (storage_count c) (condition_count c) (instruction_count c) (min_dist c) (max_dist c) (mean_dist c) [] in
  let '(c1, _, t) := fold_left collect_step insts (c0, [], start) in
  mkCollector (storage_count c1) (condition_count c1) (instruction_count c1) (t_min t) (t_max t)
              (fold_left (fun m kv => dset m (fst kv) (snd kv)) (t_mean t) (mean_dist c))
              (sort_by (fun i => - d_enc i) (empty_spaces c1)).

(** metadata_collector.py:116-147 [CorruptedProgramMetadataCollector]. *)
Record addresses_with := mkWith { with_cond : dict Z; with_op : dict Z; with_reg : dict Z }.
Definition dprogram := dict (list dinst).
(** [d[k] = 1] *)
Definition mark (d : dict Z) (k : Z) : dict Z := dset d k 1.
Definition collect_address (w : addresses_with) (insts : list dinst) : addresses_with :=
  let '(cond, op, reg) :=
    fold_left (fun st i => let '(cond, op, reg) := st in
                           if d_ignore i then st
                           else (mark cond (d_cond i), mark op (d_op i), fold_left mark (d_used i) reg))
              insts ([], [], []) in
  mkWith (inc_keys (with_cond w) (dkeys cond)) (inc_keys (with_op w) (dkeys op)) (inc_keys (with_reg w) (dkeys reg)).
(** metadata_collector.py:125-147; whatever the object held before is dropped. *)
Definition collect_program (w : addresses_with) (prog : dprogram) : addresses_with :=
  fold_left collect_address (dvalues prog) (mkWith [] [] []).
