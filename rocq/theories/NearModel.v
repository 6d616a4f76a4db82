(** Model of the two estimates of semantic_codec/metadata/recuperator.py that look at the
    candidates near an address (no other code of the repository calls them). *)
From Verif Require Export RecModel.
Open Scope Z_scope.

(** recuperator.py:226-234 [_prob_of_a]; [is_a] is the instruction's [is_a(val)]
    (capstone_instruction.py:156-157), which has no effect. *)
Definition prob_step (is_a : dinst -> bool) (ct : Z * Z) (x : cand) : Z * Z :=
  let '(c, t) := ct in if d_ignore (c_inst x) then ct else (if is_a (c_inst x) then c + 1 else c, t + 1).
Definition prob_of_a (is_a : dinst -> bool) (prog : cprogram) (addr : Z) : result Q :=
  let* l := dget_r prog addr in
  let '(c, t) := fold_left (prob_step is_a) l (0, 0) in
  if 0 <? t then quot c t else Ok 0%Q.

(** recuperator.py:159-180 [_instruction_range_probs]; [f] is a predicate without effect.
    The range is made before the loop assigns to [a]. *)
Definition towards (a b : Z) : list Z := if b <? a then map (fun k => a - k) (zrange 0 (a - b)) else zrange a b.
Definition near_step (f : cand -> bool) (st : Z * Q) (x : cand) : result (Z * Q) :=
  if d_ignore (c_inst x) then Ok st
  else let* s := score x in if qlt 0 s && f x then Ok (fst st + 1, (snd st + s)%Q) else Ok st.
Definition near_address (f : cand -> bool) (prog : cprogram) (addr : Z) (ph : list Q) (k : Z) : result (list Q) :=
  match dget prog (addr - 4 * k) with
  | None => Ok ph
  | Some l =>
      let* (t, u) := foldM (near_step f) l (0, 0%Q) in
      if qlt 0 u then if t =? 0 then Err ZeroDivisionError else Ok (ph ++ [(u / inject_Z t)%Q]) else Ok ph
  end.
Definition range_probs (f : cand -> bool) (prog : cprogram) (addr a b : Z) : result (list Q) := foldM (near_address f prog addr) (towards a b) [].
