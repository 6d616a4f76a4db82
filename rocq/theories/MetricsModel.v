(** Model of /collect_metrics.py: what is printed and drawn for a list of instructions. *)
From Verif Require Export MetaModel.

(** collect_metrics.py:19-25.  The lines printed: the encoding, the number behind it and the
    instruction (its text is left out). *)
Fixpoint spaces (prev : option dinst) (l : list dinst) : list (Z * Z) :=
  match l with
  | [] => []
  | i :: rest => (d_enc i, match prev with None => 0 | Some j => Z.abs (d_enc j - d_enc i) end) :: spaces (Some i) rest
  end.
(** [[0 if i not in d else d[i] for i in range(0, n)]], lines 27, 34, 41. *)
Definition bars (d : dict Z) (n : Z) : list Z := map (fun i => match dget d i with Some v => v | None => 0 end) (zrange 0 n).
(** collect_metrics.py:12-47.  The file names, the drawing itself and the printed
    dictionaries are left out. *)
Record metrics := mkMetrics { m_lines : list (Z * Z); m_registers : list Z; m_conditions : list Z; m_opcodes : list Z }.
Definition collect_and_print (insts : list dinst) : metrics :=
  let c := collect new_collector insts in
  mkMetrics (spaces None (empty_spaces c)) (bars (storage_count c) 18) (bars (condition_count c) 15) (bars (instruction_count c) 200).
