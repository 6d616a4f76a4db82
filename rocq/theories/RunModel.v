(** Model of a whole recovery run with the solution files it writes
    (recover_program.py:156-227).  [ReportModel.run_recovery] leaves the writer
    abstract; here it is SolutionWriter.write_binary. *)
From Verif Require Export Py ReportModel.
From Verif Require SPModel PacketModel IoModel InitialModel.

(** recover_program.py:175-176 and 225-226: the bytes of a solution file, or the
    exception that ends the run (the file is then incomplete, see C46). *)
Definition save (originals : list IoModel.inst) (p : dict (list pcand)) : result (list Z) :=
  match IoModel.write_binary_list originals (InitialModel.to_write p) with
  | (file, Ok _) => Ok file
  | (_, Err e) => Err e
  end.

(** recover_program.py:170-226: the events, then initial_solution.sol and
    final_solution.sol.  Parameters as in [ReportModel.run_recovery]. *)
Definition run_files (text : Z -> Z -> Z) (originals : list IoModel.inst) (corrupted : result (dict (list pcand)))
    (rec : Z -> dict (list pcand) -> result (dict (list pcand))) (continuous : pcand -> pcand) (constrain : dict (list pcand) -> result (dict (list pcand)))
    (fuel : nat) : list event * result (list Z * list Z) :=
  let os := map (InitialModel.original text) originals in
  match corrupted with
  | Err e => ([], Err e)
  | Ok p0 =>
      match report_on Corrupted_report os ([], p0) with
      | (es, Err e) => (es, Err e)
      | (es, Ok p1) =>
          match save originals p1 with
          | Err e => (es, Err e)
          | Ok initial =>
              match recovery_loop rec os fuel 1 (es ++ [Initial_solution], p1) with
              | (es, Err e) => (es, Err e)
              | (es, Ok (p2, n)) =>
                  match report_on (Pass_report (n + 1)) os (es, map (fun kv => (fst kv, map continuous (snd kv))) p2) with
                  | (es, Err e) => (es, Err e)
                  | (es, Ok p3) =>
                      match constrain p3 with
                      | Err e => (es, Err e)
                      | Ok p4 =>
                          match report_on (Pass_report (n + 2)) os (es, p4) with
                          | (es, Err e) => (es, Err e)
                          | (es, Ok p5) => match save originals p5 with Err e => (es, Err e) | Ok final => (es ++ [Final_solution], Ok (initial, final)) end
                          end
                      end
                  end
              end
          end
      end
  end.

(** recover_program.py:156-227 with a PacketCorruptor. *)
Definition packet_run (text : Z -> Z -> Z) (packets w words : Z) (interleave lost : list Z) (fns : list IoModel.fn)
    (rec : Z -> dict (list pcand) -> result (dict (list pcand))) (continuous : pcand -> pcand) (constrain : dict (list pcand) -> result (dict (list pcand)))
    (fuel : nat) : list event * result (list Z * list Z) :=
  let originals := fst (IoModel.functions_to_list fns) in
  run_files text originals
    (let* cloned := InitialModel.clone originals in
     rmap (map (fun kv => (fst kv, map (InitialModel.fresh text) (snd kv)))) (PacketModel.packet_corrupt packets w words interleave lost (InitialModel.to_corrupt cloned)))
    rec continuous constrain fuel.
