(** The SSA form of decoded instructions. *)
From Verif Require Import InstModel.
From Verif Require Export LinkModel FlowModel.

(** instruction.py:155-183: what [storages_read()] and [storages_written()] give for a
    [CAPSInstruction].  Simplification: ssa.py asks for them while it goes through the
    blocks, several times; here they are asked once and before.  By C31 an answer does not
    depend on what was asked before, and the only error is the KeyError which [cfg_word]
    gives already (both ask [registers_used]).  An undefined instruction is
    in no block (cfg.py:262-263). *)
Definition word_storages (w : word) : result (list Z * list Z) :=
  match w_cap w with
  | None => Ok ([], [])
  | Some c =>
      let* r := fst (storages_read (caps_queries c) no_caches) in
      let* wr := fst (storages_written (caps_queries c) no_caches) in
      Ok (r, wr)
  end.
(** tests/test_valueDependencySSABuilder.py:90-98 on a list of [CAPSInstruction]s. *)
Definition ssa_words (ws : list word) : result (ssa * vgraph) :=
  let* program := mapM cfg_word ws in
  let* s := mapM word_storages ws in
  ssa_of program (fun i => fst (nth i s ([], []))) (fun i => snd (nth i s ([], []))).
