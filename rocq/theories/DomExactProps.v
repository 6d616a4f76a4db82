(** C130, exactly: when the dominators of the graph of a program can be computed. *)
From Verif Require Import ListLemmas SsaProps FlowProps.
From Coq Require Import ZifyBool ZifyNat.

Lemma root_facts program st g root : program <> [] -> plain_graph program = Ok (st, g) -> root_node st root = true ->
  constructed (c_graph st) /\ constructed g /\ In root (g_nodes (c_graph st)) /\ In root (g_nodes g) /\
  remove_conditionals (is_conditional st) (c_graph st) = Ok g.
Proof.
  intros Np E Kr. unfold plain_graph in E. destruct (CfgProofs3.build_ok program Np) as (st' & Eb & Co & _). rewrite Eb in E. cbn [bind] in E.
  destruct (remove_conditionals (is_conditional st') (c_graph st')) as [g'|] eqn:Eg; [|discriminate]. cbn [bind] in E. injection E as -> ->.
  pose proof (build_made program st Eb) as Cg. pose proof (remove_made _ _ _ Cg Eg) as Cg'. destruct (C64_paths (is_conditional st) (c_graph st) Cg) as (g2 & E2 & Ng & _).
  assert (g2 = g) by congruence. subst g2.
  assert (Nr : In root (g_nodes (c_graph st))). { unfold root_node in Kr. destruct (dget (c_blocks st) root) as [[[] l]|] eqn:D; try discriminate. destruct (in_dec Z.eq_dec root (nodes st)) as [I|I]; [exact I|]. apply (outside st root (co_good _ _ _ _ Co)) in I as [_ I]. unfold kind_of in I. rewrite D in I. discriminate. }
  assert (Nr' : In root (g_nodes g)). { apply Ng. split; [auto|]. unfold root_node in Kr. unfold is_conditional. destruct (dget (c_blocks st) root) as [[[] l]|]; auto; discriminate. }
  auto.
Qed.

(** For every program: the dominators of the whole graph exist exactly when every
    node that leads to a node in reach of the root is itself in reach (edges into
    the root do not matter); otherwise RuntimeError.  For the graph without the
    conditional nodes the same with ways over conditional nodes, in terms of the
    whole graph. *)
Theorem C130_exactly : forall program st g root, program <> [] -> plain_graph program = Ok (st, g) -> root_node st root = true ->
  let R := edges (c_graph st) in
  ((exists r, build_dominator_tree (c_graph st) root = Ok r) <->
   (forall v w, R v w -> reachable R root w -> w <> root -> reachable R root v)) /\
  ((exists r, build_dominator_tree g root = Ok r) <->
   (forall v l w, conditional_node st v = false -> conditional_node st w = false -> In v (g_nodes (c_graph st)) ->
      walk R v l w -> Forall (fun x => conditional_node st x = true) l -> reachable R root w -> w <> root -> reachable R root v)) /\
  ((forall r, build_dominator_tree (c_graph st) root <> Ok r) -> build_dominator_tree (c_graph st) root = Err RuntimeError) /\
  ((forall r, build_dominator_tree g root <> Ok r) -> build_dominator_tree g root = Err RuntimeError).
Proof.
  intros program st g root Np E Kr R. destruct (root_facts program st g root Np E Kr) as (Cg & Cg' & Nr & Nr' & Eg).
  destruct (C64_paths (is_conditional st) (c_graph st) Cg) as (g2 & E2 & Ng & Pg). assert (g2 = g) by congruence. subst g2.
  pose proof (C64_edges (is_conditional st) (c_graph st) g Cg Eg) as Ge.
  assert (Kc : forall x, conditional_node st x = is_conditional st x) by reflexivity.
  assert (Rg : forall b, In b (g_nodes g) -> (reachable (edges g) root b <-> reachable R root b)).
  { intros b Ib. unfold reachable. rewrite (Pg root b Nr' Ib). reflexivity. }
  assert (Err0 : forall gg, constructed gg -> In root (g_nodes gg) -> (forall r, build_dominator_tree gg root <> Ok r) -> build_dominator_tree gg root = Err RuntimeError).
  { intros gg C0 N0 H. apply build_bad; [now apply constructed_wf|auto|].
    destruct (dfs_explored gg root (constructed_wf gg C0) N0) as (h0 & V & _ & X & _). pose proof X as (_ & D & _).
    pose proof (fun x => reach_in _ _ _ _ x D) as Rx.
    set (bad := fun p => has_edge gg (fst p) (snd p) && zmem (snd p) V && negb (snd p =? root) && negb (zmem (fst p) V)).
    destruct (existsb bad (list_prod (g_nodes gg) (g_nodes gg))) eqn:Eb.
    - apply existsb_exists in Eb. destruct Eb as ([v w] & _ & B). unfold bad in B. cbn [fst snd] in B.
      apply andb_prop in B as [B B4]. apply andb_prop in B as [B B3]. apply andb_prop in B as [B1 B2]. exists v, w.
      split; [now apply has_edge_iff|]. split; [apply Rx; now apply zmem_in|]. split; [lia|]. rewrite <- Rx, <- zmem_in. destruct (zmem v V); [discriminate|discriminate].
    - exfalso. destruct (proj1 (C65_returns gg root C0 N0)) as (r & Er); [|exact (H r Er)].
      intros v w Ev Rw Nw. apply edges_reachable in Rw. apply edges_reachable. apply Rx. apply Rx in Rw. apply zmem_in.
      destruct (zmem v V) eqn:Zv; [reflexivity|exfalso]. assert (bad (v, w) = true).
      { unfold bad. cbn [fst snd]. unfold edges in Ev. rewrite Ev, Zv. apply zmem_in in Rw. rewrite Rw. cbn. lia. }
      assert (In (v, w) (list_prod (g_nodes gg) (g_nodes gg))).
      { apply has_edge_iff in Ev. destruct (edge_nodes _ _ _ (constructed_wf gg C0) Ev). apply in_prod; auto. }
      assert (existsb bad (list_prod (g_nodes gg) (g_nodes gg)) = true) by (apply existsb_exists; eauto). congruence. }
  split; [rewrite <- (C65_returns (c_graph st) root Cg Nr); reflexivity|]. split; [|split; apply Err0; auto].
  rewrite <- (C65_returns g root Cg' Nr'). split.
  - intros H v l w Kv Kw Iv W F Rw Nw. rewrite Kc in Kv, Kw.
    assert (Iw : In w (g_nodes (c_graph st))).
    { destruct Rw as [->|[l' Pw]]; [exact Nr|]. clear - Pw Cg. induction Pw as [u w' Q|]; auto. apply has_edge_iff in Q. exact (proj2 (edge_nodes _ _ _ (constructed_wf _ Cg) Q)). }
    assert (Iv' : In v (g_nodes g)) by (apply Ng; auto). assert (Iw' : In w (g_nodes g)) by (apply Ng; auto).
    apply Rg; [exact Iv'|]. apply H with w; [apply Ge; auto; exists l; split; auto|apply Rg; auto|exact Nw].
  - intros H v w Ev Rw Nw. assert (X : In v (g_nodes g) /\ In w (g_nodes g)) by (apply has_edge_iff in Ev; exact (edge_nodes _ _ _ (constructed_wf _ Cg') Ev)).
    destruct X as [Iv Iw]. apply Rg; [exact Iv|]. apply Ge in Ev; auto. destruct Ev as (l & W & F). apply Ng in Iv as Iv0. apply Ng in Iw as Iw0.
    apply (H v l w); [apply Iv0|apply Iw0|apply Iv0|exact W|exact F|apply Rg; auto|exact Nw].
Qed.
Print Assumptions C130_exactly.
(** A program with an unreachable block (behind a call into the program) whose
    dominators exist all the same: from there only END is reached, which nothing
    else reaches. *)
Example C130_exactly_example : exists st g h tree h' tree',
  plain_graph [plain 0; Ci false true true 14 4 (Some 0); jump 14 8 12] = Ok (st, g) /\ root_node st 1 = true /\
  build_dominator_tree (c_graph st) 1 = Ok (h, tree) /\ build_dominator_tree g 1 = Ok (h', tree') /\
  g_nodes g = [1; 2; 3; 4; 5; 6] /\ map (h_idom h') (g_nodes g) = [None; None; Some 1; Some 3; None; None].
Proof. do 6 eexists. do 5 (split; [vm_compute; reflexivity|]). vm_compute. reflexivity. Qed.
