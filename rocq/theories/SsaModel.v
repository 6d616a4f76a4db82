(** Model of semantic_codec/static_analysis/ssa.py, on the blocks that
    [build_dominator_tree] has filled in.  The fields that the functions keep in the blocks
    are functions from block to value. *)
From Verif Require Export Py GraphModel DomModel.

(** ** ssa.py:8-26 [build_dominance_frontier].  The check for computed dominators
    (14-15) is not modelled; [fuel] bounds the walk up the dominators. *)
Definition oeqb (a b : option Z) : bool := match a, b with Some x, Some y => x =? y | None, None => true | _, _ => false end.
(** ssa.py:20-24 *)
Fixpoint run_up (fuel : nat) (h : heap) (n : Z) (runner : option Z) (df : Z -> list Z) : result (Z -> list Z) :=
  if oeqb runner (h_idom h n) then Ok df
  else match runner with
  | None => Err AttributeError
  | Some r =>
    match fuel with
    | O => Err OutOfFuel
    | S fuel => run_up fuel h n (h_idom h r) (if zmem n (df r) then df else upd df r (df r ++ [n]))
    end
  end.
Definition build_dominance_frontier (g : digraph) (h : heap) : result (Z -> list Z) :=
  foldM (fun df n => foldM (fun df p => run_up (length (g_nodes g)) h n (Some p) df) (h_pred h n) df) (g_nodes g) (fun _ => []).

(** ** Phi functions and renaming.  An instruction object is named by a number, as in
    CfgModel; what it reads and writes ([storages_read], [storages_written]) does not change
    during the analysis. *)
Record sprog := Sprog {
  p_inst : Z -> list nat;       (* instructions of a block *)
  p_reads : nat -> list Z;      (* storages_read() *)
  p_writes : nat -> list Z;     (* storages_written() *)
  p_end : Z -> bool }.          (* kind == END *)
Notation name := (Z * Z)%type.
Definition name_eqb (a b : name) : bool := (fst a =? fst b) && (snd a =? snd b).
Definition nmember (a : name) (l : list name) : bool := existsb (name_eqb a) l.
Notation phis := (list (name * list name)).      (* phi_functions: an insertion-ordered dictionary *)
Fixpoint pset (d : phis) (k : name) (v : list name) : phis :=
  match d with [] => [(k, v)] | (k', v') :: d' => if name_eqb k k' then (k', v) :: d' else (k', v') :: pset d' k v end.

(** ssa.py:38-54, one instruction; the state is globals_vars, blocks and var_kill *)
Definition scan := (list Z * dict (list Z) * list Z)%type.
Definition scan_inst (p : sprog) (node : Z) (s : scan) (i : nat) : scan :=
  let '(gl, bl, kill) := s in
  let gl := fold_left (fun gl r => if zmem r gl || zmem r kill then gl else gl ++ [r]) (p_reads p i) gl in
  let '(bl, kill) := fold_left (fun (s : dict (list Z) * list Z) w =>
      let '(bl, kill) := s in
      let kill := if zmem w kill then kill else kill ++ [w] in
      (match dget bl w with Some l => if zmem node l then bl else dset bl w (l ++ [node]) | None => dset bl w [node] end, kill))
    (p_writes p i) (bl, kill) in
  (gl, bl, kill).
(** ssa.py:34-54 *)
Definition scan_graph (p : sprog) (g : digraph) : list Z * dict (list Z) :=
  fold_left (fun (s : list Z * dict (list Z)) node =>
    let '(gl, bl) := s in let '(gl, bl, _) := fold_left (scan_inst p node) (p_inst p node) (gl, bl, []) in (gl, bl)) (g_nodes g) ([], []).
(** ssa.py:62-68, one block of the frontier *)
Definition place_one (p : sprog) (x : Z) (s : list Z * (Z -> phis)) (d : Z) : list Z * (Z -> phis) :=
  let '(wl, phi) := s in
  if p_end p d then s
  else (if zmem d wl then wl else wl ++ [d],
        if nmember (x, 0) (map fst (phi d)) then phi else upd phi d (pset (phi d) (x, 0) [])).
(** ssa.py:58-69, the work list of one variable *)
Fixpoint place_var (fuel : nat) (p : sprog) (df : Z -> list Z) (x : Z) (i : nat) (wl : list Z) (phi : Z -> phis) : result (Z -> phis) :=
  match nth_error wl i with
  | None => Ok phi
  | Some n =>
    match fuel with
    | O => Err OutOfFuel
    | S fuel => let '(wl, phi) := fold_left (place_one p x) (df n) (wl, phi) in place_var fuel p df x (S i) wl phi
    end
  end.
(** ssa.py:29-71 [place_phi_nodes] on blocks without phi functions; the value returned
    (globals_vars) and the blocks *)
Definition place_phi_nodes (p : sprog) (g : digraph) (df : Z -> list Z) : result (list Z * (Z -> phis)) :=
  let '(gl, bl) := scan_graph p g in
  let* phi := foldM (fun phi x => match dget bl x with Some wl => place_var (length (g_nodes g)) p df x 0 wl phi | None => Ok phi end) gl (fun _ => []) in
  Ok (gl, phi).

(** The state of the renaming. *)
Record ssa := Ssa {
  s_counter : dict Z; s_stack : dict (list Z);
  s_phi : Z -> phis; s_read : nat -> list name; s_written : nat -> list name }.
Definition nupd {A} (f : nat -> A) (k : nat) (v : A) : nat -> A := fun x => if Nat.eqb x k then v else f x.
(** ssa.py:148-157 [_new_name] *)
Definition new_name (st : ssa) (var : Z) : result (ssa * name) :=
  let* i := dget_r (s_counter st) var in
  let* l := dget_r (s_stack st) var in
  Ok (Ssa (dset (s_counter st) var (i + 1)) (dset (s_stack st) var ((i + 1) :: l)) (s_phi st) (s_read st) (s_written st), (var, i + 1)).
(** [stack[var][0]] *)
Definition top (st : ssa) (var : Z) : result Z := let* l := dget_r (s_stack st) var in match l with [] => Err IndexError | t :: _ => Ok t end.
(** [stack[var].pop()] *)
Definition pop (st : ssa) (var : Z) : result ssa :=
  let* l := dget_r (s_stack st) var in
  match l with [] => Err IndexError | _ => Ok (Ssa (s_counter st) (dset (s_stack st) var (removelast l)) (s_phi st) (s_read st) (s_written st)) end.
Definition with_phi (st : ssa) (n : Z) (d : phis) : ssa := Ssa (s_counter st) (s_stack st) (upd (s_phi st) n d) (s_read st) (s_written st).
(** ssa.py:174-179 *)
Definition rename_phis (st : ssa) (n : Z) : result ssa :=
  let* (st, d) := foldM (fun (s : ssa * phis) e => let '(st, d) := s in let* (st, k) := new_name st (fst (fst e)) in Ok (st, pset d k (snd e))) (s_phi st n) (st, []) in
  Ok (with_phi st n d).
(** ssa.py:183-189, one instruction *)
Definition rename_read (i : nat) (st : ssa) (r : Z) : result ssa :=
  let* t := top st r in
  Ok (if nmember (r, t) (s_read st i) then st else Ssa (s_counter st) (s_stack st) (s_phi st) (nupd (s_read st) i (s_read st i ++ [(r, t)])) (s_written st)).
Definition rename_write (i : nat) (st : ssa) (w : Z) : result ssa :=
  let* (st, k) := new_name st w in
  Ok (Ssa (s_counter st) (s_stack st) (s_phi st) (s_read st) (nupd (s_written st) i (s_written st i ++ [k]))).
Definition rename_inst (p : sprog) (st : ssa) (i : nat) : result ssa :=
  let* st := foldM (rename_read i) (p_reads p i) st in foldM (rename_write i) (p_writes p i) st.
(** ssa.py:192-195, one successor *)
Definition fill_phis (st : ssa) (b : Z) : result ssa :=
  let* d := mapM (fun e => let* t := top st (fst (fst e)) in Ok (fst e, snd e ++ [(fst (fst e), t)])) (s_phi st b) in
  Ok (with_phi st b d).
(** ssa.py:202-207.  The loop variable of line 198 is [n] itself: the block rolled back is
    the last of the dominated ones, if there is one. *)
Definition roll_back (p : sprog) (st : ssa) (n : Z) : result ssa :=
  foldM (fun st e =>
      let var := fst (fst e) in
      let* st := foldM (fun st i => if zmem var (p_writes p i) then pop st var else Ok st) (p_inst p n) st in
      pop st var) (s_phi st n) st.
(** ssa.py:170-207 [_rename_node]; [fuel] bounds the depth of the recursion *)
Fixpoint rename_node (fuel : nat) (p : sprog) (h : heap) (st : ssa) (n : Z) : result ssa :=
  match fuel with
  | O => Err OutOfFuel
  | S fuel =>
    let* st := rename_phis st n in
    let* st := foldM (rename_inst p) (p_inst p n) st in
    let* st := foldM fill_phis (h_succ h n) st in
    let* st := foldM (rename_node fuel p h) (h_children h n) st in
    roll_back p st (last (h_children h n) n)
  end.
(** arm_constants.py:32-34 *)
Definition storage_count := 20.
(** ssa.py:159-168 [_rename_vars] *)
Definition rename_vars (fuel : nat) (p : sprog) (h : heap) (phi : Z -> phis) (root : Z) : result ssa :=
  rename_node fuel p h (Ssa (map (fun v => (v, 0)) (zrange 0 storage_count)) (map (fun v => (v, [0])) (zrange 0 storage_count)) phi (fun _ => []) (fun _ => [])) root.

(** ssa.py:214-232, one phi function: is it kept? *)
Fixpoint keeps (st : ssa) (k : name) (insts : list nat) : bool :=
  match insts with
  | [] => true
  | i :: insts =>
    if existsb (fun r => (fst k =? fst r) && (snd k =? snd r)) (s_read st i) then true
    else if existsb (fun w => (fst k =? fst w) && (snd k <? snd w)) (s_written st i) then false
    else keeps st k insts
  end.
(** ssa.py:209-235 [_remove_dead_phi] *)
Definition remove_dead_phi (p : sprog) (g : digraph) (st : ssa) : ssa :=
  fold_left (fun st n => with_phi st n (filter (fun e => keeps st (fst e) (p_inst p n)) (s_phi st n))) (g_nodes g) st.

(** ssa.py:124-144 [_build_value_dependency_graph].  The digraph of names: nodes and
    edges are added only when absent, so no insertion raises. *)
Record vgraph := Vgraph { v_nodes : list name; v_edges : list (name * name) }.
Definition v_add_node (d : vgraph) (x : name) : vgraph := if nmember x (v_nodes d) then d else Vgraph (v_nodes d ++ [x]) (v_edges d).
Definition v_add_edge (d : vgraph) (x y : name) : vgraph :=
  if existsb (fun e => name_eqb x (fst e) && name_eqb y (snd e)) (v_edges d) then d else Vgraph (v_nodes d) (v_edges d ++ [(x, y)]).
Definition v_link (w : name) (d : vgraph) (r : name) : vgraph := v_add_edge (v_add_node d r) r w.
Definition v_phi (d : vgraph) (e : name * list name) : vgraph := fold_left (v_link (fst e)) (snd e) (v_add_node d (fst e)).
Definition v_inst (st : ssa) (d : vgraph) (i : nat) : vgraph :=
  fold_left (fun d w => fold_left (v_link w) (s_read st i) (v_add_node d w)) (s_written st i) d.
Definition value_dependency (p : sprog) (g : digraph) (st : ssa) : vgraph :=
  fold_left (fun d n => fold_left (v_inst st) (p_inst p n) (fold_left v_phi (s_phi st n) d)) (g_nodes g) (Vgraph [] []).

(** ssa.py:108-122 [build] *)
Definition build_ssa (p : sprog) (g : digraph) (root : Z) : result (ssa * vgraph) :=
  let* (h, _) := build_dominator_tree g root in
  let* df := build_dominance_frontier g h in
  let* (_, phi) := place_phi_nodes p g df in
  let* st := rename_vars (length (g_nodes g)) p h phi root in
  let st := remove_dead_phi p g st in
  Ok (st, value_dependency p g st).
