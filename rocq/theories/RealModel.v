(** Model of a recovery run with the recuperator of the code: [RunModel.run_files]
    with ProbabilisticRecuperator (recover_program.py:182-203, recuperator.py). *)
From Verif Require Export Py RecModel RunModel.

(** The same candidate for the recuperator ([RecModel.cand]) and for the reports
    ([ReportModel.pcand]).  [look] gives what the instruction object answers for an
    encoding at an address (MetaModel).  The score function of an object is not kept
    here: recover sets it for every candidate that is not ignored and never reads it
    (recuperator.py:538-601), and ignored candidates keep the one of line 32 of
    instruction.py. *)
Definition taken (look : Z -> Z -> dinst) (p : dict (list pcand)) : cprogram :=
  map (fun kv => (fst kv, map (fun c => mkCand (look (p_enc c) (fst kv)) (p_rules c) AddScore) (snd kv))) p.
Definition given (text : Z -> Z -> Z) (c : cand) : result pcand :=
  let* q := score c in Ok (mkP (d_enc (c_inst c)) (text (d_enc (c_inst c)) (d_addr (c_inst c))) (d_ignore (c_inst c)) q (c_scores c)).
Definition given_all (text : Z -> Z -> Z) (p : cprogram) : result (dict (list pcand)) :=
  mapM (fun kv => let* v := mapM (given text) (snd kv) in Ok (fst kv, v)) p.

(** recover_program.py:184-186.  Simplification: an exception of score(), which the
    report of line 189 would raise, is raised here. *)
Definition recuperate (text : Z -> Z -> Z) (look : Z -> Z -> dinst) (m : pmodel) (col : collector) (fns : functions) (n : Z) (p : dict (list pcand)) : result (dict (list pcand)) :=
  let* p1 := recover m col fns (taken look p) in given_all text p1.

(** recover_program.py:163-164: the metrics are those of the clone. *)
Definition true_program (look : Z -> Z -> dinst) (originals : list IoModel.inst) : list dinst :=
  map (fun i => look (IoModel.encoding i) (IoModel.address i)) originals.
Definition real_run (text : Z -> Z -> Z) (look : Z -> Z -> dinst) (m : pmodel) (fns : list IoModel.fn) (corrupted : result (dict (list pcand)))
    (continuous : pcand -> pcand) (constrain : dict (list pcand) -> result (dict (list pcand))) (fuel : nat) : list event * result (list Z * list Z) :=
  let '(originals, table) := IoModel.functions_to_list fns in
  run_files text originals corrupted (recuperate text look m (collect new_collector (true_program look originals)) table) continuous constrain fuel.
