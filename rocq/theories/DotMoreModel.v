(** Model of libs/dot/dotio.py beyond DotModel: writing graphs that are undirected or have
    labels and weights, reading graphs, and both for hypergraphs.  pydot and pygraph are not in
    the repository and modelled from their documentation.  Not modelled: further attributes,
    names of graphs, colours of hyperedges. *)
From Verif Require Export Py JsonModel DotModel.
Open Scope Z_scope.

(** What pydot keeps of a graph: its type, the nodes with the attribute [hyper_node_type], and
    the edges with the attributes [label] and [weight], in the order they were added. *)
Inductive dtype := TGraph | TDigraph | THyper.
Record dnode := DNode { dn_name : text; dn_kind : option text }.
Record dedge := DEdge { de_from : text; de_to : text; de_label : option text; de_weight : option text }.
Record dot := Dot { dot_type : dtype; dot_nodes : list dnode; dot_edges : list dedge }.
(** [graph_from_dot_data(dotG.to_string())]: names and values may come back in another
    spelling [q] (pydot keeps the quotes it puts around some of them). *)
Definition dot_through (q : text -> text) (d : dot) : dot :=
  Dot (dot_type d) (map (fun n => DNode (q (dn_name n)) (option_map q (dn_kind n))) (dot_nodes d))
    (map (fun e => DEdge (q (de_from e)) (q (de_to e)) (option_map q (de_label e)) (option_map q (de_weight e))) (dot_edges d)).

(** A pygraph graph or digraph: nodes, edges() (an undirected graph lists both directions), and
    what str() gives for the nodes, labels and weights. *)
Record wgraph (N : Type) := WGraph { w_directed : bool; w_nodes : list N; w_edges : list (N * N); w_name : N -> text; w_label : N * N -> text; w_weight : N * N -> text }.
Arguments WGraph {N}. Arguments w_directed {N}. Arguments w_nodes {N}. Arguments w_edges {N}. Arguments w_name {N}. Arguments w_label {N}. Arguments w_weight {N}.

(** dotio.py:147-171: one edge; the state is [seen_edges] and the edges given to pydot. *)
Definition write_one {N} (weighted : bool) (g : wgraph N) (s : list text * list dedge) (e : N * N) : list text * list dedge :=
  let a := w_name g (fst e) in
  let b := w_name g (snd e) in
  if text_mem (edge_text a b) (fst s) then s
  else if negb (w_directed g) && text_mem (edge_text b a) (fst s) then s
  else
    let label := match w_label g e with [] => if weighted then Some (w_weight g e) else None | t => Some t end in
    let weight := if weighted then Some (w_weight g e) else None in
    (edge_text a b :: fst s, snd s ++ [DEdge a b label weight]).
(** dotio.py:105-173 [write]. *)
Definition write_graph {N} (weighted : bool) (g : wgraph N) : dot :=
  Dot (if w_directed g then TDigraph else TGraph) (map (fun x => DNode (w_name g x) None) (w_nodes g)) (snd (fold_left (write_one weighted g) (w_edges g) ([], []))).

(** A hypergraph: nodes(), hyperedges(), links(hyperedge), and str() of both. *)
Record hgraph (N M : Type) := HGraph { h_nodes : list N; h_hyper : list M; h_links : M -> list N; h_name : N -> text; h_hname : M -> text }.
Arguments HGraph {N M}. Arguments h_nodes {N M}. Arguments h_hyper {N M}. Arguments h_links {N M}. Arguments h_name {N M}. Arguments h_hname {N M}.
(** dotio.py:213-259 [write_hypergraph]; the type is never set, pydot's default is
    "digraph". *)
Definition write_hypergraph {N M} (h : hgraph N M) : dot :=
  Dot TDigraph
    (map (fun x => DNode (h_name h x) (Some (chars "hypernode"))) (h_nodes h) ++ map (fun m => DNode (h_hname h m) (Some (chars "hyperedge"))) (h_hyper h))
    (flat_map (fun m => map (fun x => DEdge (h_hname h m) (h_name h x) None None) (h_links h m)) (h_hyper h)).

(** What reading builds: a graph (edges with weight, None for the number 1, and label), or a
    hypergraph with its two tables of links. *)
Record rgraph := RGraph { r_directed : bool; r_nodes : list text; r_edges : list (text * text * option text * text) }.
Record rhyper := RHyper { rh_nodes : list (text * list text); rh_edges : list (text * list text) }.
(** pygraph: add_node, add_edge. *)
Definition r_add_node (g : rgraph) (n : text) : result rgraph :=
  if text_mem n (r_nodes g) then Err AdditionError else Ok (RGraph (r_directed g) (r_nodes g ++ [n]) (r_edges g)).
Definition joins (a b : text) (e : text * text * option text * text) : bool := let '(x, y, _, _) := e in text_eqb a x && text_eqb b y.
Definition r_add_edge (g : rgraph) (a b : text) (wt : option text) (label : text) : result rgraph :=
  if existsb (joins a b) (r_edges g) || (negb (r_directed g) && existsb (joins b a) (r_edges g)) then Err AdditionError
  else Ok (RGraph (r_directed g) (r_nodes g) (r_edges g ++ [(a, b, wt, label)])).
(** dotio.py:76-100: one edge. *)
Definition read_edge (g : rgraph) (e : dedge) : result rgraph :=
  let* g := if text_mem (de_from e) (r_nodes g) then Ok g else r_add_node g (de_from e) in
  let* g := if text_mem (de_to e) (r_nodes g) then Ok g else r_add_node g (de_to e) in
  r_add_edge g (de_from e) (de_to e) (de_weight e) (match de_label e with Some t => t | None => [] end).
Definition read_graph (directed : bool) (d : dot) : result rgraph :=
  let* g := foldM (fun g n => r_add_node g (dn_name n)) (dot_nodes d) (RGraph directed [] []) in
  foldM read_edge (dot_edges d) g.

(** pygraph's hypergraph: add_node, add_hyperedge, link. *)
Fixpoint tget {A} (d : list (text * A)) (k : text) : option A := match d with [] => None | (k', a) :: d => if text_eqb k k' then Some a else tget d k end.
Fixpoint tupd {A} (d : list (text * A)) (k : text) (f : A -> A) : list (text * A) := match d with [] => [] | (k', a) :: d => if text_eqb k k' then (k', f a) :: d else (k', a) :: tupd d k f end.
Definition tmem {A} (d : list (text * A)) (k : text) : bool := match tget d k with Some _ => true | None => false end.
Definition h_add_node (h : rhyper) (n : text) : result rhyper := if tmem (rh_nodes h) n then Err AdditionError else Ok (RHyper (rh_nodes h ++ [(n, [])]) (rh_edges h)).
Definition h_add_hyperedge (h : rhyper) (m : text) : result rhyper := if tmem (rh_edges h) m then Ok h else Ok (RHyper (rh_nodes h) (rh_edges h ++ [(m, [])])).
Definition h_link (h : rhyper) (n m : text) : result rhyper :=
  match tget (rh_nodes h) n with
  | None => Err KeyError
  | Some l =>
      if text_mem m l then Err AdditionError
      else if tmem (rh_edges h) m then Ok (RHyper (tupd (rh_nodes h) n (fun l => l ++ [m])) (tupd (rh_edges h) m (fun l => l ++ [n]))) else Err KeyError
  end.
(** dotio.py:194-198: one node; 201-208: one link.  The ends are kept from the link before if
    neither end is a node of the hypergraph; without one Python raises UnboundLocalError, here
    RuntimeError. *)
Definition read_hnode (h : rhyper) (n : dnode) : result rhyper :=
  match dn_kind n with
  | Some k => if text_eqb (chars "hypernode") k then h_add_node h (dn_name n) else if text_eqb (chars "hyperedge") k then h_add_hyperedge h (dn_name n) else Ok h
  | None => Ok h
  end.
Definition read_link (s : rhyper * option (text * text)) (e : dedge) : result (rhyper * option (text * text)) :=
  let '(h, old) := s in
  let ends := if tmem (rh_nodes h) (de_from e) then Some (de_from e, de_to e) else if tmem (rh_nodes h) (de_to e) then Some (de_to e, de_from e) else old in
  match ends with
  | None => Err RuntimeError
  | Some (n, m) => let* h := h_link h n m in Ok (h, ends)
  end.
(** dotio.py:176-210 [read_hypergraph]. *)
Definition read_hypergraph (d : dot) : result rhyper :=
  let* h := foldM read_hnode (dot_nodes d) (RHyper [] []) in
  let* (h, _) := foldM read_link (dot_edges d) (h, None) in
  Ok h.
(** dotio.py:45-102 [read]. *)
Definition read_dot (d : dot) : result (rgraph + rhyper) :=
  match dot_type d with
  | TGraph => let* g := read_graph false d in Ok (inl g)
  | TDigraph => let* g := read_graph true d in Ok (inl g)
  | THyper => let* h := read_hypergraph d in Ok (inr h)
  end.
