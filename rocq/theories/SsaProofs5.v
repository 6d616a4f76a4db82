(** The stages of the construction put together. *)
From Verif Require Import ListLemmas CfgProps.
From Verif Require Export DomProps SsaProofs4.
From Coq Require Import ZifyBool ZifyNat.

(** ** Removal of dead phi functions *)
Lemma keeps_ext st st' k l : s_read st = s_read st' -> s_written st = s_written st' -> keeps st k l = keeps st' k l.
Proof. intros R W. induction l as [|i l IH]; cbn [keeps]; [auto|]. now rewrite R, W, IH. Qed.
Lemma dead_ok p g st : let st' := remove_dead_phi p g st in s_read st' = s_read st /\ s_written st' = s_written st /\
  forall b, s_phi st' b = if zmem b (g_nodes g) then filter (fun e => keeps st (fst e) (p_inst p b)) (s_phi st b) else s_phi st b.
Proof.
  cbv zeta. unfold remove_dead_phi. set (f := fun st n => _).
  assert (G : forall l s, s_read s = s_read st -> s_written s = s_written st -> let s' := fold_left f l s in s_read s' = s_read st /\ s_written s' = s_written st /\
    forall b, s_phi s' b = if zmem b l then filter (fun e => keeps st (fst e) (p_inst p b)) (s_phi s b) else s_phi s b).
  { induction l as [|n l IH]; intros s R W; cbn [fold_left]; [cbn; auto|]. destruct (IH (f s n)) as (A & B & C); [exact R|exact W|]. cbv zeta. split; [exact A|]. split; [exact B|]. intros b. rewrite C. cbn [zmem existsb].
    assert (Ef : forall l, filter (fun e => keeps s (fst e) (p_inst p n)) l = filter (fun e : name * list name => keeps st (fst e) (p_inst p n)) l) by (intros l0; apply filter_ext; intros e; now apply keeps_ext).
    assert (Ef2 : forall (h : name * list name -> bool) l, filter h (filter h l) = filter h l).
    { intros h. induction l0 as [|a l0 IHl]; cbn [filter]; [auto|]. destruct (h a) eqn:E; cbn [filter]; [rewrite E, IHl; auto|auto]. }
    unfold f at 1 2. cbn [with_phi s_phi]. unfold upd. rewrite (Z.eqb_sym b n). destruct (Z.eqb_spec n b) as [->|N]; cbn [orb].
    - rewrite Ef. unfold zmem. destruct (existsb (Z.eqb b) l); [apply Ef2|auto].
    - reflexivity. }
  destruct (G (g_nodes g) st) as (A & B & C); auto.
Qed.

(** ** Names have positive numbers *)
Definition counted (st : ssa) : Prop := (forall x, 0 <= cnt st x) /\ forall i v k, In (v, k) (s_written st i) -> 1 <= k.
Lemma counted_block p h st n : counted st -> counted (pblock p h st n).
Proof.
  intros C. unfold pblock. apply fold_inv; [|apply fold_inv].
  - intros s b (A & B). destruct (fill_step s b) as (A1 & _ & A3 & _). split; [intros x; rewrite A1; auto|]. rewrite A3. auto.
  - intros s i (A & B). destruct (inst_step p s i) as (A1 & _ & A3 & _ & _ & A6). split; [intros x; rewrite A1; pose proof (occ_pos x (p_writes p i)); specialize (A x); lia|].
    intros j v k I. destruct (Nat.eq_dec j i) as [->|N]; [|destruct (A3 j N) as [_ Ew]; rewrite Ew in I; eauto]. rewrite A6 in I. apply in_app_iff in I as [I|I]; [eauto|]. apply numbered_in in I. specialize (A v). lia.
  - destruct C as (A & B). destruct (phis_step st n) as (A1 & _ & A3 & _). split; [intros x; rewrite A1; pose proof (occ_pos x (pv st n)); specialize (A x); lia|]. rewrite A3. auto.
Qed.
Lemma blocks_phis p h st l1 b l2 : NoDup (l1 ++ b :: l2) -> map fst (s_phi (fold_left (pblock p h) (l1 ++ b :: l2) st) b) = numbered (fun x => cnt st x + occ x (flat_map (definitions p (pv st)) l1)) (pv st b).
Proof.
  intros N1. rewrite fold_left_app. cbn [fold_left]. destruct (blocks_step p h l1 st) as (A1 & A2 & A3 & A4). set (s1 := fold_left (pblock p h) l1 st) in *.
  destruct (block_step p h s1 b) as (B1 & B2 & B3 & B4 & B5). destruct (blocks_step p h l2 (pblock p h s1 b)) as (C1 & C2 & C3 & C4).
  assert (Nb : ~ In b l2) by (apply NoDup_remove_2 in N1; rewrite in_app_iff in N1; auto). rewrite C3, B4, A2 by auto. apply numbered_ext. auto.
Qed.

(** ** The whole construction *)
Definition start_state (phi : Z -> phis) : ssa := Ssa (map (fun v => (v, 0)) (zrange 0 storage_count)) (map (fun v => (v, [0])) (zrange 0 storage_count)) phi (fun _ => []) (fun _ => []).
Lemma start_good phi : good (start_state phi) /\ dkeys (s_counter (start_state phi)) = dkeys (s_stack (start_state phi)) /\ forall x, cnt (strip (start_state phi)) x = 0.
Proof.
  assert (G : forall l v k, dget (map (fun v : Z => (v, 0)) l) v = Some k -> k = 0).
  { induction l as [|a l IH]; cbn [map dget]; intros v k E; [discriminate|]. destruct (v =? a); [congruence|eauto]. }
  assert (G2 : forall l v k, dget (map (fun v : Z => (v, [0])) l) v = Some k -> k = [0]).
  { induction l as [|a l IH]; cbn [map dget]; intros v k E; [discriminate|]. destruct (v =? a); [congruence|eauto]. }
  unfold start_state. cbn [s_counter s_stack]. split; [|split; [reflexivity|]].
  - intros v k l A B. cbn [s_counter s_stack] in A, B. apply G in A. apply G2 in B. subst. auto.
  - intros x. unfold cnt. cbn [strip s_counter]. destruct (dget _ x) eqn:E; [eauto|auto].
Qed.
(** What the stages computed. *)
Definition stages (p : sprog) (g : digraph) (root : Z) (st : ssa) (h : heap) (df : Z -> list Z) (gl : list Z) (phi : Z -> phis) (st0 : ssa) : Prop :=
  (exists tree, build_dominator_tree g root = Ok (h, tree)) /\ build_dominance_frontier g h = Ok df /\ place_phi_nodes p g df = Ok (gl, phi) /\
  rename_vars (length (g_nodes g)) p h phi root = Ok st0 /\ st = remove_dead_phi p g st0.
Lemma stages_ok p g root st vg : build_ssa p g root = Ok (st, vg) -> vg = value_dependency p g st /\ exists h df gl phi st0, stages p g root st h df gl phi st0.
Proof.
  unfold build_ssa. intros E. destruct (build_dominator_tree g root) as [[h t]|] eqn:E1; [|discriminate]. cbn [bind] in E. destruct (build_dominance_frontier g h) as [df|] eqn:E2; [|discriminate]. cbn [bind] in E.
  destruct (place_phi_nodes p g df) as [[gl phi]|] eqn:E3; [|discriminate]. cbn [bind] in E. destruct (rename_vars (length (g_nodes g)) p h phi root) as [st0|] eqn:E4; [|discriminate]. cbn [bind] in E. injection E as <- <-.
  split; [auto|]. exists h, df, gl, phi, st0. unfold stages. eauto 10.
Qed.
Lemma node_in g root v : constructed g -> In root (g_nodes g) -> reachable (edge g) root v -> In v (g_nodes g).
Proof.
  intros Cg Nr Rv. destruct (dfs_explored g root (constructed_wf g Cg) Nr) as (h0 & V & _ & (_ & D & _) & _ & _ & _ & _ & _ & _ & _ & Il). apply Il. now apply (reach_in _ _ _ _ v D).
Qed.
Lemma tree_facts g root h tree : constructed g -> In root (g_nodes g) -> build_dominator_tree g root = Ok (h, tree) ->
  idoms (edge g) root (h_idom h) /\ tree_of (h_idom h) (h_children h) /\ (forall v, reachable (edge g) root v -> h_pred h v = inc g v /\ h_succ h v = nb g v) /\
  exists df, build_dominance_frontier g h = Ok df /\ forall x y, In y (df x) -> reachable (edge g) root y.
Proof.
  intros Cg Nr E. pose proof (constructed_wf g Cg) as W. pose proof (ok_no_stray g root _ Cg Nr E) as St. destruct (build_ok g root W Nr St) as (h' & t' & E' & A & B & _ & _ & _ & Ch & Nd & P1 & P2). rewrite E' in E. injection E as <- <-.
  split; [split; auto|]. split; [split; auto|]. split; [auto|]. destruct (frontier_ok g root h' W Nr St) as (df & Ed & _ & Rd & _); [split; auto|intros v Rv; now apply P1|intros v Rv; now apply P2|]. eauto.
Qed.
Lemma order_facts p g root st h df gl phi st0 : constructed g -> In root (g_nodes g) -> stages p g root st h df gl phi st0 -> exists order,
  preorder (h_children h) root order /\ NoDup order /\ (forall v, In v order <-> reachable (edge g) root v) /\ strip st0 = fold_left (pblock p h) order (strip (start_state phi)) /\
  forall b, phi b <> [] -> In b order.
Proof.
  intros Cg Nr ((tree & E1) & E2 & E3 & E4 & E5). destruct (tree_facts g root h tree Cg Nr E1) as (Id & T & _ & (df' & E2' & Rd)). rewrite E2 in E2'. injection E2' as <-.
  unfold rename_vars in E4. fold (start_state phi) in E4. destruct (start_good phi) as (G & K & C0). apply node_sim in E4 as (_ & _ & order & Po & Es); auto.
  exists order. split; [auto|]. assert (Oa : forall v, In v order <-> reachable (edge g) root v) by (eapply order_all; eauto). split; [apply (proj1 (order_nodup _ _ _ _ Id T) root order Po); left; reflexivity|].
  split; [auto|]. split; [auto|]. intros b Nb. apply Oa. destruct (place_ok p g df gl phi E3) as (_ & _ & F & Q). destruct (phi b) as [|[k a] l] eqn:Eb; [congruence|].
  destruct (proj1 (Q b k)) as (_ & _ & Sp); [rewrite Eb; left; reflexivity|]. inversion Sp; subst; eauto.
Qed.
(** More fuel than there are blocks is not needed. *)
Lemma ssa_fuel p g root : constructed g -> In root (g_nodes g) -> build_ssa p g root <> Err OutOfFuel.
Proof.
  intros Cg Nr. unfold build_ssa. destruct (build_dominator_tree g root) as [[h tree]|e] eqn:E1; cbn [bind].
  - destruct (tree_facts g root h tree Cg Nr E1) as (Id & T & _ & (df & E2 & Rd)). rewrite E2. cbn [bind]. destruct (place_total p g df) as ([gl phi] & E3); [intros n d I; eapply node_in; eauto|]. rewrite E3. cbn [bind].
    pose proof (fueled_node (edge g) root p h (g_nodes g) Id T) as F. apply (fueled_bind (rename_vars (length (g_nodes g)) p h phi root)); [|discriminate].
    unfold rename_vars. apply (F ltac:(intros x Rx; eapply node_in; eauto) (length (g_nodes g)) root []); [left; reflexivity|constructor|intros x []|intros x []|cbn [length]; lia].
  - intros Q. injection Q as ->. destruct (C65_returns g root Cg Nr) as [A B].
    assert (Sd : no_stray (edge g) root \/ exists v w, edge g v w /\ reachable (edge g) root w /\ w <> root /\ ~ reachable (edge g) root v).
    { clear - Cg Nr. pose proof (reachable_dec g root Cg Nr) as Dc. pose proof (constructed_wf g Cg) as W.
      assert (G : forall l : list Z, (forall v w, In v l -> edge g v w -> reachable (edge g) root w -> w <> root -> reachable (edge g) root v) \/ exists v w, edge g v w /\ reachable (edge g) root w /\ w <> root /\ ~ reachable (edge g) root v).
      { induction l as [|v l IH]; [left; intros v w []|]. destruct IH as [IH|IH]; [|auto]. destruct (Dc v) as [Rv|Nv]; [left; intros v' w [<-|I]; eauto|].
        assert (K : forall m : list Z, (forall w, In w m -> edge g v w -> reachable (edge g) root w -> w <> root -> False) \/ exists w, edge g v w /\ reachable (edge g) root w /\ w <> root).
        { induction m as [|w m IHm]; [left; intros w []|]. destruct IHm as [IHm|IHm]; [|auto]. destruct (Dc w) as [Rw|Nw]; [|left; intros w' [<-|I]; eauto].
          destruct (Z.eq_dec w root) as [->|Nr']; [left; intros w' [<-|I]; eauto|]. destruct (has_edge g v w) eqn:He; [right; exists w; split; [now apply has_edge_iff|auto]|]. left. intros w' [<-|I]; [|eauto]. intros Ev. apply has_edge_iff in Ev. congruence. }
        destruct (K (g_nodes g)) as [K1|(w & K1 & K2 & K3)]; [|right; eauto 10]. left. intros v' w [<-|I] Ev Rw Nw; [|eauto]. exfalso. apply (K1 w); auto. eapply node_in; eauto. }
      destruct (G (g_nodes g)) as [G1|G1]; [left|auto]. intros v w Ev Rw Nw. apply (G1 v w); auto. exact (proj1 (edge_nodes g v w W Ev)). }
    destruct Sd as [Sd|Sd]; [destruct (build_ok g root (constructed_wf g Cg) Nr Sd) as (? & ? & E & _); congruence|]. rewrite build_bad in E1; [discriminate|now apply constructed_wf|auto|auto].
Qed.
