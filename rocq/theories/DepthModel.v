(** Model of what SolutionQuality.evaluate prints (solution_quality.py:84-124):
    [QualityModel.evaluate] with the depths by number of candidates and the addresses.
    Depths are exact rationals. *)
From Verif Require Export QualityModel.

(** _highest_depth, max_addr, _highest_depth_bin, max_addr_bin. *)
Record depths := mkDepths { de_depth : Q; de_addr : Z; de_bin : dict Q; de_addr_bin : dict Z }.
(** solution_quality.py:88-91. *)
Definition no_depths := mkDepths 0 0 [] [].
(** solution_quality.py:108-121: an original of depth [r] among [ln] candidates. *)
Definition add_depth (addr ln : Z) (r : Q) (s : depths) : depths :=
  let bin := match dget (de_bin s) ln with Some _ => de_bin s | None => dset (de_bin s) ln 0%Q end in
  let '(bin, addr_bin) :=
    if negb (Qle_bool r (match dget bin ln with Some b => b | None => 0%Q end)) then (dset bin ln r, dset (de_addr_bin s) ln addr) else (bin, de_addr_bin s) in
  let '(depth, a) := if negb (Qle_bool r (de_depth s)) then (r, addr) else (de_depth s, de_addr s) in
  mkDepths depth a bin addr_bin.
(** solution_quality.py:92-121, one original. *)
Definition depth_one (st : qprogram * depths) (o : qorig) : result (qprogram * depths) :=
  let '(p, s) := st in
  if o_ignore o then Ok st
  else
    let* v := dget_r p (o_addr o) in
    let v := sorted_candidates v in
    if (length v =? 0)%nat then Err ZeroDivisionError
    else
      let r := (inject_Z (Z.of_nat (depth_in v (o_text o)) + 1) / inject_Z (Z.of_nat (length v)))%Q in
      Ok (dset p (o_addr o) v, add_depth (o_addr o) (Z.of_nat (length v)) r s).
(** solution_quality.py:84-124: the depths printed by lines 122-124. *)
Definition evaluate_depths (originals : list qorig) (p : qprogram) : result (qprogram * depths) := foldM depth_one originals (p, no_depths).
