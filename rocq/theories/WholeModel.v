(** Model of a recovery run with the constraint phase of the code:
    [RunModel.run_files] with ForwardConstraintSolutionEnumerator
    (recover_program.py:214-215). *)
From Verif Require Export Py RunModel BuilderModel.

(** A candidate as the builder sees it ([BuilderModel.xinst]).  [look], [text] and
    [regs] give what the instruction object answers for an encoding at an address:
    its fields, str() and registers_used().  The number of an object is its place in
    the list. *)
Definition as_built (text : Z -> Z -> Z) (look : Z -> Z -> dinst) (regs : Z -> Z -> list Z) (a : Z) (nc : Z * pcand) : xinst :=
  mkX (look (p_enc (snd nc)) a) (text (p_enc (snd nc)) a) (regs (p_enc (snd nc)) a) (fst nc).
Definition built_program (text : Z -> Z -> Z) (look : Z -> Z -> dinst) (regs : Z -> Z -> list Z) (p : dict (list pcand)) : xprogram :=
  map (fun kv => (fst kv, map (as_built text look regs (fst kv)) (combine (zrange 0 (Z.of_nat (length (snd kv)))) (snd kv)))) p.
Definition built_original (text : Z -> Z -> Z) (look : Z -> Z -> dinst) (regs : Z -> Z -> list Z) (i : IoModel.inst) : xinst :=
  mkX (look (IoModel.encoding i) (IoModel.address i)) (text (IoModel.encoding i) (IoModel.address i)) (regs (IoModel.encoding i) (IoModel.address i)) (-1).

(** The builder changes the lists of the program in place: the objects left. *)
Definition objects (v : list pcand) (xs : list xinst) : list pcand :=
  flat_map (fun x => match nth_error v (Z.to_nat (x_id x)) with Some c => [c] | None => [] end) xs.
Definition constrain (text : Z -> Z -> Z) (look : Z -> Z -> dinst) (regs : Z -> Z -> list Z) (originals : list IoModel.inst) (p : dict (list pcand)) : result (dict (list pcand)) :=
  let* (q, _, _) := enumerate (built_program text look regs p) (map (built_original text look regs) originals) in
  Ok (map (fun kv => (fst kv, objects (match dget p (fst kv) with Some v => v | None => [] end) (snd kv))) q).
