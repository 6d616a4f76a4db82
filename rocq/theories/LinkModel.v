(** What the control flow graph reads of decoded instructions: instruction.py:206-218,
    capstone_instruction.py and darm_instruction.py give the answers [cfg.py] asks for. *)
From Verif Require Import BitsModel InstModel DarmModel.
From Verif Require Export CfgModel.

(** instruction.py:206-207 [is_branch_with_link] *)
Definition with_link (branch : bool) (encoding : Z) : bool := branch && negb (Z.land encoding (bits_on 24) =? 0).

(** A [CAPSInstruction]: its encoding, its address and what capstone says of it (None:
    undefined, capstone_instruction.py:160-164). *)
Record word := Word { w_encoding : Z; w_address : Z; w_cap : option cap }.
(** capstone_instruction.py:32-37,145-151,166-188.  Of an undefined instruction only the
    address is read.  Simplification: [is_branch] of an instruction is asked when
    [build] comes to it; here all are asked first, which gives the same error (KeyError,
    the only one) or none. *)
Definition cfg_word (w : word) : result cinst :=
  match w_cap w with
  | None => Ok (Ci true false false 0 (w_address w) None)
  | Some c =>
      let* b := InstModel.is_branch c in
      let* j := InstModel.jumping_address c in
      Ok (Ci false b (with_link b (w_encoding w)) (c_cc c - 1) (w_address w) j)
  end.
(** [ARMControlFlowGraph(instructions).build()] *)
Definition cfg_of (ws : list word) : result cfg := let* program := mapM cfg_word ws in build program.

(** A [DARMInstruction]. *)
Record darm_word := DarmWord { v_encoding : Z; v_address : Z; v_darm : option darm }.
(** darm_instruction.py:22-27,113-120,129-147 *)
Definition cfg_darm_word (w : darm_word) : result cinst :=
  match v_darm w with
  | None => Ok (Ci true false false 0 (v_address w) None)
  | Some d =>
      let* j := BitsModel.darm_jumping_address (v_encoding w) (v_address w) None in
      Ok (Ci false (darm_branch d) (with_link (darm_branch d) (v_encoding w)) (k_cond d) (v_address w) (fst j))
  end.
Definition cfg_of_darm (ws : list darm_word) : result cfg := let* program := mapM cfg_darm_word ws in build program.
