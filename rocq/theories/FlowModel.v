(** The analyses as they are chained: the control flow graph, without its conditional
    nodes, brought into SSA form. *)
From Verif Require Export CfgModel SsaModel.

(** cfg.py:297-300 [kind], as compared at cfg.py:214 with [COND] and at ssa.py:62 with
    [END]. *)
Definition is_conditional (st : cfg) (n : Z) : bool := match dget (c_blocks st) n with Some (KCond, _) => true | _ => false end.
Definition is_end (st : cfg) (n : Z) : bool := match dget (c_blocks st) n with Some (KEnd, _) => true | _ => false end.
(** cfg.py:224-288 [build] and then cfg.py:208-222 [remove_conditionals], as at
    tests/test_valueDependencySSABuilder.py:92-96.  The blocks keep their instructions. *)
Definition plain_graph (program : list cinst) : result (cfg * digraph) :=
  let* st := build program in
  let* g := remove_conditionals (is_conditional st) (c_graph st) in
  Ok (st, g).
(** What ssa.py asks of the blocks and instructions: [reads i] and [writes i] are what
    [storages_read()] and [storages_written()] give for the [i]-th instruction. *)
Definition ssa_program (st : cfg) (reads writes : nat -> list Z) : sprog := Sprog (instructions st) reads writes (is_end st).
(** tests/test_valueDependencySSABuilder.py:90-98: [SSAFormBuilder(instructions, cfg,
    cfg.root_node).build()] (ssa.py:99-122) on that graph; [root_node] is block 1
    (cfg.py:246-249). *)
Definition ssa_of (program : list cinst) (reads writes : nat -> list Z) : result (ssa * vgraph) :=
  let* (st, g) := plain_graph program in build_ssa (ssa_program st reads writes) g 1.
