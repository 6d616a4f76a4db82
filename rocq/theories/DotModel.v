(** Model of writing a graph in the Dot language (libs/dot/dotio.py:105-173 [write], for
    directed graphs, [weighted=False]) and of the names of the nodes written: str() of a block
    of a control flow graph (semantic_codec/static_analysis/cfg.py:357-372) and of a value of
    the value dependency graph.  Not modelled: what pydot makes of the names and edges it is
    given; attributes (none are set); a [node_printer] (none by default). *)
From Verif Require Export Py JsonModel GraphModel CfgModel SsaModel.
Open Scope Z_scope.

(** dotio.py:135-171: the nodes given to pydot, then the edges; an edge is skipped if one with
    the same text "from-to" was given before. *)
Definition edge_text (a b : text) : text := a ++ chars "-" ++ b.
Definition text_mem (t : text) (l : list text) : bool := existsb (text_eqb t) l.
Definition write_edge {N} (name : N -> result text) (s : list text * list (text * text)) (e : N * N) : result (list text * list (text * text)) :=
  let* a := name (fst e) in
  let* b := name (snd e) in
  if text_mem (edge_text a b) (fst s) then Ok s else Ok (edge_text a b :: fst s, snd s ++ [(a, b)]).
Definition dot_write {N} (name : N -> result text) (nodes : list N) (edges : list (N * N)) : result (list text * list (text * text)) :=
  let* ns := mapM name nodes in
  let* (_, es) := foldM (write_edge name) edges ([], []) in
  Ok (ns, es).

(** digraph.edges(): by node, in the order of its neighbours. *)
Definition g_edges (g : digraph) : list (Z * Z) := flat_map (fun e : Z * list Z => map (fun v => (fst e, v)) (snd e)) (node_neighbors g).

(** cfg.py:357-372 [CFGBlock.__str__] and 386-396 [first], [last]; [show] is str() of the
    instructions.  Instructions have no [__eq__], so [first == last] means the same one. *)
Definition block_name (show : nat -> text) (st : cfg) (b : Z) : result text :=
  match dget (c_blocks st) b with
  | None => Err KeyError
  | Some (KRoot, _) => Ok (str_of_int b ++ chars "-ROOT")
  | Some (KCond, _) => Ok (chars " <" ++ str_of_int b ++ chars "> ")
  | Some (KUnknown, _) => Ok (str_of_int b ++ chars "-UNKWN")
  | Some (KEnd, _) => Ok (str_of_int b ++ chars "-END")
  | Some (KBlock, []) => Err RuntimeError
  | Some (KBlock, i :: l) =>
      let j := List.last l i in
      if Nat.eqb i j then Ok (str_of_int b ++ chars "-" ++ show i)
      else Ok (str_of_int b ++ chars "- " ++ show i ++ chars " ... " ++ show j)
  end.
(** str() of a tuple of two integers, the nodes of the value dependency graph. *)
Definition value_name (x : name) : result text := Ok (chars "(" ++ str_of_int (fst x) ++ chars ", " ++ str_of_int (snd x) ++ chars ")").
