(** Dominators and dominance frontiers: C65 and C66. *)
From Verif Require Import CfgProps.
From Verif Require Export FrontierProofs.
From Coq Require Import ZifyBool ZifyNat.

(** [edges] and [edge] are the same relation. *)
Lemma way_ext (R S : rel) : (forall u v, R u v -> S u v) -> forall u l v, way R u l v -> way S u l v.
Proof. intros E u l v P. induction P; econstructor; eauto. Qed.
Lemma edges_way g u l v : way (edges g) u l v <-> way (edge g) u l v.
Proof. split; apply way_ext; intros ? ?; apply has_edge_iff. Qed.
Lemma edges_reachable g r v : reachable (edges g) r v <-> reachable (edge g) r v.
Proof. rewrite !reachable_way. split; intros (l & P); exists l; now apply edges_way. Qed.
Lemma edges_dominates g r d v : dominates (edges g) r d v <-> dominates (edge g) r d v.
Proof. split; intros D l P; apply D; now apply edges_way. Qed.
Lemma edges_strictly g r d v : strictly_dominates (edges g) r d v <-> strictly_dominates (edge g) r d v.
Proof. unfold strictly_dominates. now rewrite edges_dominates. Qed.
Lemma edges_immediate g r d v : immediate (edges g) r d v <-> immediate (edge g) r d v.
Proof. unfold immediate. rewrite edges_strictly. split; intros [A B]; (split; [auto|]); intros x X; apply edges_dominates, B; now apply edges_strictly. Qed.
Lemma reachable_dec g root : constructed g -> In root (g_nodes g) -> forall v, reachable (edge g) root v \/ ~ reachable (edge g) root v.
Proof.
  intros Cg Nr x. destruct (dfs_explored g root (constructed_wf g Cg) Nr) as (h0 & V & _ & (_ & D & _) & _).
  destruct (in_dec Z.eq_dec x V) as [Y|Y]; [left|right]; rewrite <- (reach_in _ _ _ _ x D); auto.
Qed.
Lemma ok_no_stray g root r : constructed g -> In root (g_nodes g) -> build_dominator_tree g root = Ok r -> no_stray (edge g) root.
Proof.
  intros Cg Nr E v w Ev Rw Nw. destruct (reachable_dec g root Cg Nr v) as [|Nv]; [auto|]. exfalso.
  rewrite build_bad in E; [discriminate|now apply constructed_wf|auto|]. exists v, w. auto.
Qed.

(** C65.  Whenever the algorithm returns, the dominators are right: the idom of a node is
    set exactly to its immediate dominator, for all reachable nodes but the root. *)
Theorem C65_immediate_dominators : forall g root h tree, constructed g -> In root (g_nodes g) -> build_dominator_tree g root = Ok (h, tree) ->
  (forall v d, h_idom h v = Some d <-> reachable (edges g) root v /\ immediate (edges g) root d v) /\
  (forall v, reachable (edges g) root v -> v <> root -> exists d, h_idom h v = Some d).
Proof.
  intros g root h t Cg Nr E. destruct (build_ok g root (constructed_wf g Cg) Nr (ok_no_stray g root _ Cg Nr E)) as (h' & t' & E' & A & B & _). rewrite E' in E. injection E as <- <-.
  split; [intros v d; rewrite A, edges_reachable, edges_immediate; reflexivity|]. intros v Rv. apply B. now apply edges_reachable.
Qed.
Print Assumptions C65_immediate_dominators.
(** The tree that is returned has the same nodes and an edge from every immediate
    dominator; dom_successors agrees with it. *)
Theorem C65_tree : forall g root h tree, constructed g -> In root (g_nodes g) -> build_dominator_tree g root = Ok (h, tree) ->
  g_nodes tree = g_nodes g /\
  (forall d v, edges tree d v <-> reachable (edges g) root v /\ immediate (edges g) root d v) /\
  (forall d v, In v (h_children h d) <-> reachable (edges g) root v /\ immediate (edges g) root d v) /\ (forall d, NoDup (h_children h d)).
Proof.
  intros g root h t Cg Nr E. destruct (build_ok g root (constructed_wf g Cg) Nr (ok_no_stray g root _ Cg Nr E)) as (h' & t' & E' & A & B & C & D & F & G & K & _). rewrite E' in E. injection E as <- <-.
  split; [auto|]. split; [|split; [|auto]]; intros d v; [unfold edges at 1; rewrite has_edge_iff, F|rewrite G]; rewrite A, edges_reachable, edges_immediate; reflexivity.
Qed.
Print Assumptions C65_tree.
(** It returns unless an unreachable node has an edge to a reachable one other than the
    root; then it raises the RuntimeError. *)
Theorem C65_returns : forall g root, constructed g -> In root (g_nodes g) ->
  (forall v w, edges g v w -> reachable (edges g) root w -> w <> root -> reachable (edges g) root v) <-> exists r, build_dominator_tree g root = Ok r.
Proof.
  intros g root Cg Nr. split.
  - intros H. destruct (build_ok g root (constructed_wf g Cg) Nr) as (h & t & E & _); [|eauto]. intros v w Ev Rw Nw. apply edges_reachable. apply (H v w); [now apply has_edge_iff|now apply edges_reachable|auto].
  - intros (r & E) v w Ev Rw Nw. apply edges_reachable. apply (ok_no_stray g root r Cg Nr E v w); [now apply has_edge_iff|now apply edges_reachable|auto].
Qed.
Print Assumptions C65_returns.
Theorem C65_unreachable_predecessor : forall g root v w, constructed g -> In root (g_nodes g) ->
  edges g v w -> reachable (edges g) root w -> w <> root -> ~ reachable (edges g) root v -> build_dominator_tree g root = Err RuntimeError.
Proof.
  intros g root v w Cg Nr Ev Rw Nw Nv. apply build_bad; [now apply constructed_wf|auto|]. exists v, w. split; [now apply has_edge_iff|]. split; [now apply edges_reachable|]. split; [auto|]. now rewrite <- edges_reachable.
Qed.
Print Assumptions C65_unreachable_predecessor.
(** A graph with a loop with two entries. *)
Definition loop_graph := of_edges [1; 2; 3; 4; 5; 6] [(1, 2); (1, 3); (2, 3); (3, 2); (3, 4); (4, 5); (5, 4); (2, 5); (5, 1)].
Example C65_example : exists g h tree, loop_graph = Ok g /\ constructed g /\ In 1 (g_nodes g) /\ build_dominator_tree g 1 = Ok (h, tree) /\
  map (h_idom h) [1; 2; 3; 4; 5; 6] = [None; Some 1; Some 1; Some 1; Some 1; None] /\ h_children h 1 = [2; 3; 4; 5].
Proof.
  do 3 eexists. split; [reflexivity|]. split; [eapply (of_edges_constructed [1; 2; 3; 4; 5; 6] [(1, 2); (1, 3); (2, 3); (3, 2); (3, 4); (4, 5); (5, 4); (2, 5); (5, 1)]); vm_compute; reflexivity|].
  split; [vm_compute; auto|]. split; [vm_compute; reflexivity|]. split; reflexivity.
Qed.
Example C65_example_chain : exists g h tree, of_edges [0; 1; 2; 3; 4] [(0, 1); (1, 2); (1, 3); (2, 4); (3, 4); (4, 1)] = Ok g /\ build_dominator_tree g 0 = Ok (h, tree) /\
  map (h_idom h) [0; 1; 2; 3; 4] = [None; Some 0; Some 1; Some 1; Some 1].
Proof. do 3 eexists. split; [reflexivity|]. split; vm_compute; reflexivity. Qed.
Example C65_example_error : exists g, of_edges [1; 2; 3] [(1, 2); (3, 2)] = Ok g /\ build_dominator_tree g 1 = Err RuntimeError.
Proof. eexists. split; [reflexivity|vm_compute; reflexivity]. Qed.

(** C66.  After [build_dominator_tree] the frontier of a reachable node is what the
    definition says, without repetition. *)
Theorem C66_frontier : forall g root h tree, constructed g -> In root (g_nodes g) -> build_dominator_tree g root = Ok (h, tree) -> exists df,
  build_dominance_frontier g h = Ok df /\ (forall n, NoDup (df n)) /\
  forall n m, reachable (edges g) root n -> (In m (df n) <-> reachable (edges g) root m /\ exists p, edges g p m /\ reachable (edges g) root p /\ dominates (edges g) root n p /\ ~ strictly_dominates (edges g) root n m).
Proof.
  intros g root h t Cg Nr E. pose proof (constructed_wf g Cg) as W. pose proof (ok_no_stray g root _ Cg Nr E) as St. destruct (build_ok g root W Nr St) as (h' & t' & E' & A & B & _ & _ & _ & _ & _ & P1 & P2). rewrite E' in E. injection E as <- <-.
  destruct (frontier_ok g root h' W Nr St) as (df & Ed & Nd & _ & D).
  - split; auto.
  - intros v Rv. now apply P1.
  - intros v Rv. now apply P2.
  - exists df. split; [auto|]. split; [auto|]. intros n m Rn. rewrite edges_reachable in Rn. rewrite D by auto. rewrite edges_reachable. split; intros [Q1 (p & Q2 & Q3 & Q4 & Q5)]; (split; [auto|]); exists p.
    + split; [now apply has_edge_iff|]. rewrite edges_reachable, edges_dominates, edges_strictly. auto.
    + rewrite edges_reachable in Q3. rewrite edges_dominates in Q4. rewrite edges_strictly in Q5. split; [now apply has_edge_iff|auto].
Qed.
Print Assumptions C66_frontier.
Example C66_example : exists g h tree df, loop_graph = Ok g /\ build_dominator_tree g 1 = Ok (h, tree) /\ build_dominance_frontier g h = Ok df /\
  map df [1; 2; 3; 4; 5; 6] = [[1]; [3; 5]; [2; 4]; [5]; [1; 4]; []].
Proof. do 4 eexists. split; [reflexivity|]. split; [vm_compute; reflexivity|]. split; vm_compute; reflexivity. Qed.
