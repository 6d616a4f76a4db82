(** Model of the directed graphs of python-graph (pygraph.classes.digraph), the
    library that semantic_codec/static_analysis uses.  The library is not part of the
    repository; this is its documented behaviour, on graphs whose nodes are numbers:
    two insertion-ordered tables of neighbour lists, [AdditionError] for an edge that
    exists or has an unknown end. *)
From Verif Require Export Py.

Record digraph := Digraph { node_neighbors : dict (list Z); node_incidence : dict (list Z) }.
Definition g_empty : digraph := Digraph [] [].
(** [for n in graph], [n in graph] *)
Definition g_nodes (g : digraph) : list Z := dkeys (node_neighbors g).
(** [graph.neighbors(n)], [graph.incidents(n)] *)
Definition neighbors (g : digraph) (n : Z) : result (list Z) := dget_r (node_neighbors g) n.
Definition incidents (g : digraph) (n : Z) : result (list Z) := dget_r (node_incidence g) n.
Definition zmem (x : Z) (l : list Z) : bool := existsb (Z.eqb x) l.
(** [graph.add_node(n)] *)
Definition add_node (g : digraph) (n : Z) : result digraph :=
  if dmem (node_neighbors g) n then Err AdditionError
  else Ok (Digraph (dset (node_neighbors g) n []) (dset (node_incidence g) n [])).
(** [graph.has_edge((u, v))] *)
Definition has_edge (g : digraph) (u v : Z) : bool := match dget (node_neighbors g) u with Some l => zmem v l | None => false end.
(** [graph.add_edge((u, v))] *)
Definition add_edge (g : digraph) (u v : Z) : result digraph :=
  match dget (node_neighbors g) u, dget (node_incidence g) v with
  | Some nu, Some iv =>
      if dmem (node_neighbors g) v then
        if zmem v nu && zmem u iv then Err AdditionError
        else Ok (Digraph (dset (node_neighbors g) u (nu ++ [v])) (dset (node_incidence g) v (iv ++ [u])))
      else Err AdditionError
  | _, _ => Err AdditionError
  end.
(** [l.remove(x)] *)
Fixpoint remove1 (x : Z) (l : list Z) : result (list Z) :=
  match l with [] => Err ValueError | y :: l' => if y =? x then Ok l' else rmap (cons y) (remove1 x l') end.
(** [graph.del_edge((u, v))] *)
Definition del_edge (g : digraph) (u v : Z) : result digraph :=
  let* nu := dget_r (node_neighbors g) u in
  let* nu := remove1 v nu in
  let* iv := dget_r (node_incidence g) v in
  let* iv := remove1 u iv in
  Ok (Digraph (dset (node_neighbors g) u nu) (dset (node_incidence g) v iv)).
(** [del d[k]] *)
Definition ddel {A} (d : dict A) (k : Z) : dict A := filter (fun e => negb (fst e =? k)) d.
(** [graph.del_node(n)] *)
Definition del_node (g : digraph) (n : Z) : result digraph :=
  let* ins := incidents g n in
  let* g := foldM (fun g u => del_edge g u n) ins g in
  let* outs := neighbors g n in
  let* g := foldM (fun g v => del_edge g n v) outs g in
  Ok (Digraph (ddel (node_neighbors g) n) (ddel (node_incidence g) n)).
