(** Model of semantic_codec/static_analysis/dominators.py.  The fields that the algorithm
    keeps in the blocks (cfg.py:328-348) are functions from block to value, with the
    initial values of a block that no analysis has touched yet.  The depth limit of
    Python's recursion is not modelled. *)
From Verif Require Export Py GraphModel.

Record heap := Heap {
  h_idx : Z -> Z;              (* dom_idx *)
  h_par : Z -> option Z;       (* dom_parent *)
  h_semi : Z -> Z;             (* dom_semi *)
  h_idom : Z -> option Z;      (* idom *)
  h_anc : Z -> option Z;       (* dom_ancestor *)
  h_bucket : Z -> list Z;      (* dom_bucket *)
  h_pred : Z -> list Z;        (* predecessors *)
  h_succ : Z -> list Z;        (* successors *)
  h_children : Z -> list Z }.  (* dom_successors *)
(** cfg.py:328-348 *)
Definition fresh_heap : heap :=
  Heap (fun _ => -1) (fun _ => None) (fun x => x) (fun _ => None) (fun _ => None) (fun _ => []) (fun _ => []) (fun _ => []) (fun _ => []).
Definition upd {A} (f : Z -> A) (k : Z) (v : A) : Z -> A := fun x => if x =? k then v else f x.
Definition set_par h n v := Heap (h_idx h) (upd (h_par h) n v) (h_semi h) (h_idom h) (h_anc h) (h_bucket h) (h_pred h) (h_succ h) (h_children h).
Definition set_semi h n v := Heap (h_idx h) (h_par h) (upd (h_semi h) n v) (h_idom h) (h_anc h) (h_bucket h) (h_pred h) (h_succ h) (h_children h).
Definition set_idom h n v := Heap (h_idx h) (h_par h) (h_semi h) (upd (h_idom h) n v) (h_anc h) (h_bucket h) (h_pred h) (h_succ h) (h_children h).
Definition set_anc h n v := Heap (h_idx h) (h_par h) (h_semi h) (h_idom h) (upd (h_anc h) n v) (h_bucket h) (h_pred h) (h_succ h) (h_children h).
Definition set_bucket h n v := Heap (h_idx h) (h_par h) (h_semi h) (h_idom h) (h_anc h) (upd (h_bucket h) n v) (h_pred h) (h_succ h) (h_children h).
Definition set_children h n v := Heap (h_idx h) (h_par h) (h_semi h) (h_idom h) (h_anc h) (h_bucket h) (h_pred h) (h_succ h) (upd (h_children h) n v).
Definition set_visit h n idx pred succ := Heap (upd (h_idx h) n idx) (h_par h) (h_semi h) (h_idom h) (h_anc h) (h_bucket h) (upd (h_pred h) n pred) (upd (h_succ h) n succ) (h_children h).

(** dominators.py:4-18 [dominator_tree_dfs]; returns the blocks, the list of visited
    nodes and the result.  [fuel] bounds the depth of the recursion. *)
Fixpoint dfs (fuel : nat) (g : digraph) (h : heap) (vis : list Z) (node index : Z) : result (heap * list Z * list Z) :=
  match fuel with
  | O => Err OutOfFuel
  | S fuel =>
    let* ins := incidents g node in
    let* outs := neighbors g node in
    let h := set_visit h node index ins outs in
    foldM (fun (s : heap * list Z * list Z) n =>
        let '(h, vis, res) := s in
        if zmem n vis then Ok s
        else let* r := dfs fuel g (set_par h n (Some node)) vis n (index + 1) in
             let '(h, vis, sub) := r in Ok (h, vis, res ++ sub))
      outs (h, vis ++ [node], [node])
  end.

(** cfg.py:350-355 [dom_semi_idx] *)
Definition semi_idx (h : heap) (v : Z) : result Z := let k := h_idx h (h_semi h v) in if k <? 0 then Err RuntimeError else Ok k.
(** dominators.py:67-78 [dominator_eval] *)
Fixpoint eval_loop (fuel : nat) (h : heap) (v a : Z) : result Z :=
  match h_anc h a with
  | None => Ok v
  | Some a' =>
    match fuel with
    | O => Err OutOfFuel
    | S fuel =>
      let* sv := semi_idx h v in
      let* sa := semi_idx h a in
      eval_loop fuel h (if sa <? sv then a else v) a'
    end
  end.
Definition eval (fuel : nat) (h : heap) (v : Z) : result Z :=
  match h_anc h v with None => Ok v | Some a => eval_loop fuel h v a end.

(** dominators.py:31-34, one predecessor *)
Definition see_pred (fuel : nat) (w : Z) (h : heap) (v : Z) : result heap :=
  let* u := eval fuel h v in
  let* su := semi_idx h u in
  let* sw := semi_idx h w in
  Ok (if su <? sw then set_semi h w (h_semi h u) else h).
(** dominators.py:42-44, one entry of the bucket *)
Definition settle (fuel : nat) (p : Z) (h : heap) (v : Z) : result heap :=
  let* u := eval fuel h v in
  let* su := semi_idx h u in
  let* sv := semi_idx h v in
  Ok (set_idom h v (Some (if su <? sv then u else p))).
(** dominators.py:28-44, one vertex.  The while loop pops the bucket from its end; nothing
    is added to it meanwhile. *)
Definition process (fuel : nat) (h : heap) (w : Z) : result heap :=
  let* h := foldM (see_pred fuel w) (h_pred h w) h in
  let h := set_bucket h (h_semi h w) (h_bucket h (h_semi h w) ++ [w]) in
  let h := set_anc h w (h_par h w) in
  match h_par h w with
  | None => Err AttributeError
  | Some p =>
    let* h := foldM (settle fuel p) (rev (h_bucket h p)) h in
    Ok (set_bucket h p [])
  end.
(** dominators.py:46-49, one vertex *)
Definition finish (h : heap) (w : Z) : result heap :=
  match h_idom h w with
  | Some d => Ok (if d =? h_semi h w then h else set_idom h w (h_idom h d))
  | None => Err AttributeError
  end.
(** dominators.py:58-63, one node *)
Definition add_to_tree (s : heap * digraph) (n : Z) : result (heap * digraph) :=
  let '(h, tree) := s in
  match h_idom h n with
  | None => Ok s
  | Some d =>
    let h := if zmem n (h_children h d) then h else set_children h d (h_children h d ++ [n]) in
    let* tree := if has_edge tree d n then Ok tree else add_edge tree d n in
    Ok (h, tree)
  end.
(** dominators.py:21-64 [build_dominator_tree] on blocks that no analysis has touched *)
Definition build_dominator_tree (g : digraph) (root : Z) : result (heap * digraph) :=
  let fuel := length (g_nodes g) in
  let* r := dfs fuel g fresh_heap [] root 0 in
  let '(h, _, vertex) := r in
  let* h := foldM (process fuel) (rev (tl vertex)) h in
  let* h := foldM finish (tl vertex) h in
  let h := match vertex with v0 :: _ => set_idom h v0 None | [] => h end in
  let* tree := foldM add_node (g_nodes g) g_empty in
  foldM add_to_tree (g_nodes g) (h, tree).
