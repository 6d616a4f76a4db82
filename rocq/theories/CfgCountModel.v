(** Model of [ARMControlFlowGraph.build] with its [count] parameter. *)
From Verif Require Export CfgModel.

(** cfg.py:244-288 [build(count)].  [self._instructions[i]] raises [IndexError] past the
    end; the range is empty for a negative [count] other than -1. *)
Definition build_count (program : list cinst) (count : Z) : result cfg :=
  let count := if count =? -1 then Z.of_nat (length program) else count in
  match program with
  | [] => Ok (Cfg g_empty [] 0 [])
  | _ =>
    let* (st, root) := new_node (Cfg g_empty [] 0 []) KRoot [] in
    let* (st, end_) := new_node st KEnd [] in
    let* (st, (cb, _, _)) := foldM (fun s i => let* c := nth_r program (Z.to_nat i) in build_step program end_ s (Z.to_nat i, c)) (zrange 0 count) (st, (root, None, None)) in
    edge_add_once st cb end_
  end.
