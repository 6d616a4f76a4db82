(** Model of semantic_codec/metadata/probabilistic_rules (rules.py,
    counting_rules.py, distance_rule.py) and of the rule-driven Recuperator of
    recuperator.py:11-70.

    Floats are exact rationals.  The key [short_name() + str(current_pass)] of
    scores_by_rule is the number [5 * pass + rule]; the names hold no digit, so
    different rules and passes have different keys in both.  Candidates are
    objects of one address only. *)
From Verif Require Export RecModel.

(** A candidate: the instruction, registers_used(), modifies_flags()
    (capstone_instruction.py:53-78, 188-189) and scores_by_rule
    (instruction.py:30). *)
Record rcand := mkR { r_inst : dinst; r_regs : list Z; r_flags : bool; r_scores : scores }.
Definition rprogram := dict (list rcand).
Definition r_ignore (c : rcand) : bool := d_ignore (r_inst c).
Definition with_scores (c : rcand) (s : scores) : rcand := mkR (r_inst c) (r_regs c) (r_flags c) s.

(** The rules in the order of recuperator.py:37-41. *)
Definition RCfg := 0.
Definition RCond := 1.
Definition RInst := 2.
Definition RReg := 3.
Definition RDist := 4.
Definition key_of (rule pass : Z) : Z := 5 * pass + rule.
(** 0.00000000000001 *)
Definition EPSILON : Q := 1 # 100000000000000.

(** rules.py:53-63 [candidate_count]. *)
Definition candidate_count (l : list rcand) : Z := fold_left (fun n c => if r_ignore c then n else n + 1) l 0.

(** rules.py:81-86 [_update_candidate_score]. *)
Definition update_score (k : Z) (c : rcand) (q : Q) : rcand * bool :=
  match dget (r_scores c) k with
  | Some old => if Qeq_bool q old then (c, false) else (with_scores c (dset (r_scores c) k q), true)
  | None => (with_scores c (dset (r_scores c) k q), true)
  end.
(** rules.py:88-100 [_update_scores]; the two lists have the same length. *)
Fixpoint update_scores (k : Z) (qs : list Q) (l : list rcand) : list rcand * bool :=
  match l, qs with
  | c :: l', q :: qs' =>
      let '(c', b) := update_score k c q in
      let '(r, b') := update_scores k qs' l' in (c' :: r, b || b')
  | _, _ => (l, false)
  end.

(** *** counting_rules.py. [field] is _counting_field, [extra] is extra_score. *)
(** counting_rules.py:28-39, one address. *)
Definition count_step (field : rcand -> list Z) (st : dict Z * dict Z) (insts : list rcand) : result (dict Z * dict Z) :=
  let '(remaining, candidates) := st in
  if candidate_count insts =? 1 then
    let* first := nth_r insts 0 in
    if r_ignore first then Ok st
    else
      let* remaining' := foldM (fun d v => let* n := dget_r d v in Ok (dset d v (n - 1))) (field first) remaining in
      Ok (remaining', candidates)
  else Ok (remaining, fold_left (fun d c => if r_ignore c then d else inc_keys d (field c)) insts candidates).
(** counting_rules.py:21-46 [_compute_remaining_candidate_probability]; [counts]
    is the dictionary of the collector.  The result is self._scores. *)
Definition remaining_scores (field : rcand -> list Z) (counts : dict Z) (p : rprogram) : result (dict Q) :=
  let* (remaining, candidates) := foldM (count_step field) (dvalues p) (counts, []) in
  Ok (map (fun vn => (fst vn, match dget candidates (fst vn) with
                              | Some n => (inject_Z (snd vn) / inject_Z n)%Q
                              | None => 0%Q
                              end)) remaining).
(** counting_rules.py:57-61. *)
Definition count_score (sc : dict Q) (field : rcand -> list Z) (extra : rcand -> Q) (c : rcand) : Q :=
  fold_left (fun s v => (s + match dget sc v with Some q => q / inject_Z (Z.of_nat (length (field c))) | None => 0 end)%Q)
            (field c) (extra c).
Fixpoint count_candidates (k : Z) (sc : dict Q) (field : rcand -> list Z) (extra : rcand -> Q) (l : list rcand) : list rcand * bool :=
  match l with
  | [] => ([], false)
  | c :: l' =>
      let '(c', b) := if r_ignore c then (c, false) else update_score k c (count_score sc field extra c) in
      let '(r, b') := count_candidates k sc field extra l' in (c' :: r, b || b')
  end.
(** counting_rules.py:48-63 [recover]: program, self._scores and answer. *)
Definition recover_count (k : Z) (field : rcand -> list Z) (extra : rcand -> Q) (counts : dict Z)
    (cache : dict Q) (p : rprogram) (address : Z) : result (rprogram * dict Q * bool) :=
  let* sc := match cache with [] => remaining_scores field counts p | _ => Ok cache end in
  let* l := dget_r p address in
  let '(l', b) := count_candidates k sc field extra l in
  Ok (dset p address l', sc, b).
(** counting_rules.py:83-147: the three rules. *)
Definition cond_field (c : rcand) : list Z := [d_cond (r_inst c)].
Definition op_field (c : rcand) : list Z := [d_op (r_inst c)].
Definition no_extra (c : rcand) : Q := 0%Q.
Definition branch_extra (c : rcand) : Q := if d_branch (r_inst c) then 1 # 1000000 else 0%Q.
Definition conditional_count (pass : Z) (col : collector) := recover_count (key_of RCond pass) cond_field no_extra (condition_count col).
Definition instruction_counting (pass : Z) (col : collector) := recover_count (key_of RInst pass) op_field no_extra (instruction_count col).
Definition register_count (pass : Z) (col : collector) := recover_count (key_of RReg pass) r_regs branch_extra (storage_count col).

(** *** rules.py:105-173 [ControlFlowBehavior]. *)
(** An index of a list of 16: negative ones count from the end. *)
Definition index16 (i : Z) : result nat :=
  if (-16 <=? i) && (i <? 16) then Ok (Z.to_nat (if i <? 0 then i + 16 else i)) else Err IndexError.
(** rules.py:135-146: counts per condition, flag modifiers, candidates. *)
Definition tally_step (st : list Q * Z * Z) (c : rcand) : result (list Q * Z * Z) :=
  let '(counts, flags, t) := st in
  if r_ignore c then Ok st
  else let* i := index16 (d_cond (r_inst c)) in
       Ok (list_set counts i (nth i counts 0 + 1)%Q, if r_flags c then flags + 1 else flags, t + 1).
Definition tally (insts : option (list rcand)) : result (list Q * Z * Z) :=
  match insts with
  | Some l => foldM tally_step l (repeat EPSILON 16, 0, 0)
  | None => Ok (repeat EPSILON 16, 0, 0)
  end.
(** rules.py:151-152, 155-156. *)
Definition add_counts (m : pmodel) (t : Z) (scores counts : list Q) : list Q :=
  map (fun sc => (fst sc + cond_both m * snd sc / inject_Z t)%Q) (combine scores counts).
(** rules.py:148-156. *)
Definition conditional_scores (m : pmodel) (p : rprogram) (position : Z) : result (list Q) :=
  let* (pre, flags, t_prev) := tally (dget p (position - 4)) in
  let* (post, _, t_post) := tally (dget p (position + 4)) in
  let base := repeat EPSILON 16 in
  let s1 := if 0 <? t_prev
            then add_counts m t_prev (list_set base 14 (nth 14 base 0 - cpsr_branch m * inject_Z flags / inject_Z t_prev)%Q) pre
            else base in
  Ok (if 0 <? t_post then add_counts m t_post s1 post else s1).
(** rules.py:160-172. *)
Definition cfg_score (m : pmodel) (p : rprogram) (cs : list Q) (c : rcand) : result Q :=
  if r_ignore c then Ok 0%Q
  else
    let* i := index16 (d_cond (r_inst c)) in
    let s := nth i cs 0%Q in
    Ok (if d_branch (r_inst c)
        then match d_jump (r_inst c) with
             | Some j => if dmem p j then (s + any_jump m)%Q else s
             | None => s
             end
        else s).
Definition control_flow (pass : Z) (m : pmodel) (p : rprogram) (position : Z) : result (rprogram * bool) :=
  let* cs := conditional_scores m p position in
  let* l := dget_r p position in
  let* qs := mapM (cfg_score m p cs) l in
  let '(l', b) := update_scores (key_of RCfg pass) qs l in
  Ok (dset p position l', b).

(** *** distance_rule.py:56-143 [RegisterReadDistance]. *)
Definition MAXSIZE := 2 ^ 63 - 1.
(** distance_rule.py:88-90.  [s] is the list of storages read. *)
Definition lowest_distance (col : collector) (s : list Z) : Z :=
  fold_left (fun m v => match dget (min_dist col) v with Some d => if d <? m then d else m | None => m end) s MAXSIZE.
Definition highest_distance (col : collector) (s : list Z) : Z :=
  fold_left (fun m v => match dget (max_dist col) v with Some d => if d >? m then d else m | None => m end) s (- MAXSIZE).
(** distance_rule.py:111-122, one previous candidate.  [w] is the local variable
    of that name, which outlives its loop; storages are not negative. *)
Definition credit (reads : list Z) (here : Z) (written : list Z) : result (list Q) :=
  foldM (fun cr w =>
           if zmem w reads then
             if w <? STORAGE_COUNT then
               let i := Z.to_nat w in
               Ok (list_set cr i (nth i cr 0 + 1 / inject_Z (Z.of_nat (length written) * here))%Q)
             else Err IndexError
           else Ok cr) written (repeat EPSILON (Z.to_nat STORAGE_COUNT)).
Definition dist_step (reads : list Z) (here : Z) (st : list Q * option Z) (c : rcand) : result (list Q * option Z) :=
  let '(rs, w) := st in
  if r_ignore c then Ok st
  else
    let written := d_written (r_inst c) in
    let* cr := credit reads here written in
    let w' := match written with [] => w | _ => Some (List.last written 0) end in
    let rs' := match w' with
               | Some x => if x <? STORAGE_COUNT
                           then let i := Z.to_nat x in list_set rs i (qmax (nth i rs 0%Q) (nth i cr 0%Q))
                           else rs
               | None => rs
               end in
    Ok (rs', w').
(** distance_rule.py:125-132. *)
Definition reads_score (rs : list Q) (reads : list Z) : result Q :=
  match reads with
  | [] => Err ZeroDivisionError
  | _ => Ok (fold_left (fun s r => if r <? STORAGE_COUNT then (s + nth (Z.to_nat r) rs 0)%Q else s) reads 0
             / inject_Z (Z.of_nat (length reads)))%Q
  end.
(** distance_rule.py:100-141: the positions are visited downwards. *)
Fixpoint look_back (k : Z) (p : rprogram) (reads : list Z) (positions : list Z)
    (rs : list Q) (best : Q) (w : option Z) (c : rcand) (updated : bool) : result (rcand * option Z * bool) :=
  match positions with
  | [] => Ok (c, w, updated)
  | pos :: rest =>
      match dget p pos with
      | None => look_back k p reads rest rs best w c updated
      | Some prev =>
          let* (rs', w') := foldM (dist_step reads (candidate_count prev)) prev (rs, w) in
          let* q := reads_score rs' reads in
          let best' := qmax q best in
          if Qle_bool 1 best' then let '(c', b) := update_score k c 1 in Ok (c', w', updated || b)
          else let '(c', b) := update_score k c best' in look_back k p reads rest rs' best' w' c' (updated || b)
      end
  end.
(** distance_rule.py:76-141, one candidate. *)
Definition dist_candidate (k : Z) (col : collector) (p : rprogram) (position : Z) (w : option Z) (c : rcand)
    : result (rcand * option Z * bool) :=
  let i := r_inst c in
  if d_ignore i then Ok (fst (update_score k c 0), w, false)
  else match d_used i with
       | [] => let '(c', b) := update_score k c EPSILON in Ok (c', w, b)
       | _ =>
           let reads := d_read i in
           let positions := map (fun d => position - 4 * d) (zrange (lowest_distance col reads) (highest_distance col reads + 1)) in
           look_back k p reads positions (repeat EPSILON (Z.to_nat STORAGE_COUNT)) 0 w c false
       end.
Fixpoint dist_candidates (k : Z) (col : collector) (p : rprogram) (position : Z) (w : option Z) (l : list rcand)
    : result (list rcand * bool) :=
  match l with
  | [] => Ok ([], false)
  | c :: l' =>
      let* (c', w', b) := dist_candidate k col p position w c in
      let* (r, b') := dist_candidates k col p position w' l' in
      Ok (c' :: r, b || b')
  end.
Definition read_distance (pass : Z) (col : collector) (p : rprogram) (position : Z) : result (rprogram * bool) :=
  let* l := dget_r p position in
  let* (l', b) := dist_candidates (key_of RDist pass) col p position None l in
  Ok (dset p position l', b).

(** *** recuperator.py:35-58 [Recuperator._recover].  The counting rules of a
    pass keep their counts; the control-flow rule gets no model, so it makes a
    DefaultProbabilisticModel.  Progress bar left out. *)
Record caches := mkCaches { k_cond : dict Q; k_inst : dict Q; k_reg : dict Q }.
(** recuperator.py:45-47. *)
Definition apply_rules (pass : Z) (col : collector) (p : rprogram) (ca : caches) (pos : Z) : result (rprogram * caches) :=
  let* (p, _) := control_flow pass default_model p pos in
  let* (p, c1, _) := conditional_count pass col (k_cond ca) p pos in
  let* (p, c2, _) := instruction_counting pass col (k_inst ca) p pos in
  let* (p, c3, _) := register_count pass col (k_reg ca) p pos in
  let* (p, _) := read_distance pass col p pos in
  Ok (p, mkCaches c1 c2 c3).
(** recuperator.py:52-55. *)
Definition set_ignore (i : dinst) : dinst :=
  mkD (d_enc i) (d_addr i) true (d_cond i) (d_op i) (d_used i) (d_written i) (d_read i) (d_rwritten i) (d_rread i)
      (d_branch i) (d_kind i) (d_jump i).
Definition discard (c : rcand) : rcand :=
  if existsb (fun kv => Qle_bool (snd kv) 0) (r_scores c) then mkR (set_ignore (r_inst c)) (r_regs c) (r_flags c) (r_scores c) else c.
(** recuperator.py:43-55, one address. *)
Definition visit (passes pass : Z) (col : collector) (st : rprogram * caches) (pos : Z) : result (rprogram * caches) :=
  let '(p, ca) := st in
  let* l := dget_r p pos in
  if 1 <? Z.of_nat (length l) then
    let* (p', ca') := apply_rules pass col p ca pos in
    if 1 <? passes then let* l' := dget_r p' pos in Ok (dset p' pos (map discard l'), ca') else Ok (p', ca')
  else Ok st.
Definition one_pass (passes : Z) (col : collector) (p : rprogram) (pass : Z) : result rprogram :=
  let* (p', _) := foldM (visit passes pass col) (dkeys p) (p, mkCaches [] [] []) in Ok p'.
Definition rule_recover (passes : Z) (col : collector) (p : rprogram) : result rprogram :=
  foldM (one_pass passes col) (zrange 0 passes) p.
