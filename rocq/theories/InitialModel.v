(** Model of the first part of a recovery run with packet loss: corrupting the
    program, reporting on it and writing initial_solution.sol
    (recover_program.py:156-176). *)
From Verif Require Export Py.
From Verif Require SPModel PacketModel IoModel ReportModel.

(** recover_program.py:160: the clone.  Building an instruction raises OverflowError
    for an encoding that is not a 32-bit word. *)
Definition clone (l : list IoModel.inst) : result (list IoModel.inst) :=
  mapM (fun i => let* c := PacketModel.caps (IoModel.encoding i) (IoModel.address i) in Ok (PacketModel.i_enc c, PacketModel.i_addr c)) l.
(** The dictionary handed to the corruptor (recover_program.py:170, rules.py:17-24),
    with instructions as the corruptor's model has them. *)
Definition to_corrupt (l : list IoModel.inst) : PacketModel.program :=
  map (fun kv => (fst kv, map (fun i => PacketModel.mkInst (IoModel.encoding i) (IoModel.address i)) (snd kv))) (IoModel.list_to_dict l).
(** A candidate just built (instruction.py:25-34): its score() is the sum over no
    rules.  [text] is what str() prints (texts numbered).  Simplification: the ignore
    property is left at false, even for an encoding that is no instruction; here it
    only decides whether a report prints an X (recover_program.py:84). *)
Definition fresh (text : Z -> Z -> Z) (c : PacketModel.inst) : ReportModel.pcand :=
  ReportModel.mkP (PacketModel.i_enc c) (text (PacketModel.i_enc c) (PacketModel.i_addr c)) false (QArith_base.Qmake 0 1) [].
Definition original (text : Z -> Z -> Z) (i : IoModel.inst) : ReportModel.porig :=
  ReportModel.mkPO (IoModel.encoding i) (text (IoModel.encoding i) (IoModel.address i)).
(** What write_binary sees of the program: it writes the addresses of the dictionary
    and the encodings of the candidates. *)
Definition to_write (p : dict (list ReportModel.pcand)) : dict (list IoModel.inst) :=
  map (fun kv => (fst kv, map (fun c => (ReportModel.p_enc c, fst kv)) (snd kv))) p.

(** recover_program.py:156-176 up to the initial solution: what is in
    initial_solution.sol and how writing it ended, or the exception raised before the
    file is opened.  The metrics collected at lines 163-164 are left out (they do not
    change the program); SolutionQuality.report only prints. *)
Definition initial_solution (text : Z -> Z -> Z) (packets w words : Z) (interleave lost : list Z) (fns : list IoModel.fn) : result IoModel.output :=
  let originals := fst (IoModel.functions_to_list fns) in
  let* cloned := clone originals in
  let* corrupted := PacketModel.packet_corrupt packets w words interleave lost (to_corrupt cloned) in
  let p0 := map (fun kv => (fst kv, map (fresh text) (snd kv))) corrupted in
  let* p1 := snd (ReportModel.report_on ReportModel.Corrupted_report (map (original text) originals) ([], p0)) in
  Ok (IoModel.write_binary_list originals (to_write p1)).
