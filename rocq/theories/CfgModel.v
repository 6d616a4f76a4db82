(** Model of semantic_codec/static_analysis/cfg.py.  A block is named by its idx (the
    number given by [_add_node]); an instruction object by its position in the list
    the graph is built from, so that different objects are different even when their
    encodings agree (instructions have no [__eq__]). *)
From Verif Require Export Py GraphModel.

Inductive kind := KBlock | KRoot | KCond | KUnknown | KEnd.
(** What the construction asks of an instruction. *)
Record cinst := Ci { ci_undefined : bool; ci_branch : bool; ci_link : bool; ci_cond : Z; ci_address : Z; ci_jump : option Z }.
Definition cond_always := 14.

(** instruction.py:209-218 [branch_to] *)
Fixpoint branch_to_from (k : nat) (program : list cinst) (jump : Z) : option nat :=
  match program with [] => None | i :: program' => if jump =? ci_address i then Some k else branch_to_from (S k) program' jump end.
Definition branch_to (program : list cinst) (i : cinst) : option nat :=
  match ci_jump i with Some j => branch_to_from 0 program j | None => None end.

Record cfg := Cfg { c_graph : digraph; c_blocks : dict (kind * list nat); c_last : Z; c_pending : dict (list Z) }.
Definition instructions (st : cfg) (b : Z) : list nat := match dget (c_blocks st) b with Some (_, l) => l | None => [] end.
Definition set_instructions (st : cfg) (b : Z) (l : list nat) : cfg :=
  match dget (c_blocks st) b with
  | Some (k, _) => Cfg (c_graph st) (dset (c_blocks st) b (k, l)) (c_last st) (c_pending st)
  | None => st
  end.
Definition with_graph (st : cfg) (g : digraph) : cfg := Cfg g (c_blocks st) (c_last st) (c_pending st).
Definition nmem (i : nat) (l : list nat) : bool := existsb (Nat.eqb i) l.

(** cfg.py:47-56 [_add_node] of a new block (cfg.py:302-348) *)
Definition new_node (st : cfg) (k : kind) (l : list nat) : result (cfg * Z) :=
  match k, l with
  | KBlock, [] => Err RuntimeError
  | _, _ =>
    let n := c_last st + 1 in
    let* g := add_node (c_graph st) n in
    Ok (Cfg g (dset (c_blocks st) n (k, l)) n (c_pending st), n)
  end.
Definition edge_add (st : cfg) (u v : Z) : result cfg := let* g := add_edge (c_graph st) u v in Ok (with_graph st g).
Definition edge_add_once (st : cfg) (u v : Z) : result cfg := if has_edge (c_graph st) u v then Ok st else edge_add st u v.
(** cfg.py:58-66 [_get_node_with_inst] *)
Definition node_with_inst (st : cfg) (i : nat) : option Z := find (fun b => nmem i (instructions st b)) (g_nodes (c_graph st)).
(** [l.index(x)] *)
Fixpoint nindex (x : nat) (l : list nat) : result nat :=
  match l with [] => Err ValueError | y :: l' => if Nat.eqb y x then Ok 0%nat else rmap S (nindex x l') end.
(** cfg.py:79-94 [_split_node] *)
Definition split_node (st : cfg) (split branch : Z) (i : nat) : result cfg :=
  let l := instructions st split in
  let* index := nindex i l in
  let* st :=
    match index with
    | O => Ok st
    | _ =>
      let* (st, up) := new_node st KBlock (firstn index l) in
      let st := set_instructions st split (skipn index l) in
      let* ins := incidents (c_graph st) split in
      let* st := foldM (fun st n => let* g := del_edge (c_graph st) n split in edge_add (with_graph st g) n up) ins st in
      edge_add st up split
    end in
  edge_add st branch split.
(** cfg.py:200-206 [_add_multiple_edges] *)
Definition add_multiple_edges (st : cfg) (dest : Z) (sources : list Z) : result cfg := foldM (fun st s => edge_add_once st s dest) sources st.
(** cfg.py:400-402 [last_is_branch] *)
Definition last_is_branch (program : list cinst) (st : cfg) (b : Z) : bool :=
  match rev (instructions st b) with
  | [] => false
  | i :: _ => match nth_error program i with Some c => ci_branch c | None => false end
  end.
(** cfg.py:96-135 [_branch_conditional] *)
Definition branch_conditional (program : list cinst) (st : cfg) (i : nat) (c : cinst) (cb : Z) (last_cond : option Z) : result (cfg * (Z * option Z)) :=
  let* (st, b) := new_node st KBlock [i] in
  if ci_cond c =? cond_always then
    let* st := if last_is_branch program st cb then Ok st else edge_add st cb b in
    let* st := match last_cond with Some lc => edge_add_once st lc b | None => Ok st end in
    Ok (st, (b, None))
  else
    let* (st, new_cond) := new_node st KCond [] in
    let* st := edge_add st new_cond b in
    let* st := if last_is_branch program st cb then Ok st else edge_add st cb new_cond in
    let* st := match last_cond with Some lc => edge_add_once st lc new_cond | None => Ok st end in
    let* st := match dget (c_pending st) (Z.of_nat i) with Some ss => add_multiple_edges st new_cond ss | None => Ok st end in
    Ok (st, (b, Some new_cond)).
(** cfg.py:140-147 [_add_pending_jump] *)
Definition add_pending (st : cfg) (i : nat) (b : Z) : cfg :=
  Cfg (c_graph st) (c_blocks st) (c_last st)
    (dset (c_pending st) (Z.of_nat i) (match dget (c_pending st) (Z.of_nat i) with Some l => l ++ [b] | None => [b] end)).
(** cfg.py:152-198 [_branch_instruction]; returns the new current block.  The case of a
    target in a conditional node (191-193) does not arise: those have no
    instructions. *)
Definition branch_instruction (program : list cinst) (st : cfg) (cb branch : option Z) (i : nat) (c : cinst) (end_ : Z) : result (cfg * option Z) :=
  let* (st, branch) := match branch with Some b => Ok (st, b) | None => new_node st KBlock [i] end in
  let* st := match cb with Some cb => edge_add st cb branch | None => Ok st end in
  match branch_to program c with
  | None =>
      let* (st, unknown) := new_node st KUnknown [] in
      let* st := edge_add st branch unknown in
      let* st := edge_add st unknown end_ in
      Ok (st, if ci_link c then Some unknown else cb)
  | Some t =>
      let cb := if ci_link c then Some branch else cb in
      let* st := match node_with_inst st t with
                 | None => Ok (add_pending st i branch)
                 | Some to_node => split_node st to_node branch t
                 end in
      Ok (st, cb)
  end.
(** cfg.py:260-284, one instruction; the loop state is the current block, the last
    condition and the last conditional node. *)
Definition loop_state := (cfg * (Z * option Z * option Z))%type.
Definition build_step (program : list cinst) (end_ : Z) (s : loop_state) (ic : nat * cinst) : result loop_state :=
  let '(st, (cb, last_field, last_cond)) := s in
  let '(i, c) := ic in
  if ci_undefined c then Ok s
  else if match last_field with Some f => ci_cond c =? f | None => false end then
    if ci_branch c then
      let* (st, cb') := branch_instruction program st (Some cb) None i c end_ in
      match cb' with Some cb' => Ok (st, (cb', None, last_cond)) | None => Err AttributeError end
    else match dget (c_pending st) (Z.of_nat i) with
         | Some ss =>
             let* (st, b) := new_node st KBlock [i] in
             let* st := add_multiple_edges st b ss in
             let* st := edge_add st cb b in
             Ok (st, (b, last_field, last_cond))
         | None => Ok (set_instructions st cb (instructions st cb ++ [i]), (cb, last_field, last_cond))
         end
  else
    let* (st, (cb, last_cond)) := branch_conditional program st i c cb last_cond in
    let* st := if ci_branch c then let* (st, _) := branch_instruction program st None (Some cb) i c end_ in Ok st else Ok st in
    Ok (st, (cb, Some (ci_cond c), last_cond)).
(** cfg.py:224-288 [build] (whole program); ROOT is block 1 and END block 2. *)
Definition build (program : list cinst) : result cfg :=
  match program with
  | [] => Ok (Cfg g_empty [] 0 [])
  | _ =>
    let* (st, root) := new_node (Cfg g_empty [] 0 []) KRoot [] in
    let* (st, end_) := new_node st KEnd [] in
    let* (st, (cb, _, _)) := foldM (build_step program end_) (combine (seq 0 (length program)) program) (st, (root, None, None)) in
    edge_add_once st cb end_
  end.

(** cfg.py:208-222 [remove_conditionals]; [is_cond n] tells whether a node is
    conditional. *)
Definition bypass (g : digraph) (n : Z) : result digraph :=
  let* ps := incidents g n in
  foldM (fun g p =>
    let* ss := neighbors g n in
    foldM (fun g s => if has_edge g p s then Ok g else add_edge g p s) ss g) ps g.
Definition remove_conditionals (is_cond : Z -> bool) (g : digraph) : result digraph :=
  let* (g, rem) := foldM (fun (s : digraph * list Z) n =>
    let '(g, rem) := s in if is_cond n then let* g := bypass g n in Ok (g, rem ++ [n]) else Ok s) (g_nodes g) (g, []) in
  foldM del_node rem g.
