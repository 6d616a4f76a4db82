(** SSA form: C67, C68 and C81 to C84. *)
From Verif Require Import ListLemmas CfgProps.
From Verif Require Export SsaProofs8.
From Coq Require Import ZifyBool ZifyNat.

Lemma stages_of p g root st vg h tree df gl phi : build_ssa p g root = Ok (st, vg) -> build_dominator_tree g root = Ok (h, tree) -> build_dominance_frontier g h = Ok df -> place_phi_nodes p g df = Ok (gl, phi) ->
  exists st0, stages p g root st h df gl phi st0.
Proof.
  unfold build_ssa. intros E E1 E2 E3. rewrite E1 in E. cbn [bind] in E. rewrite E2 in E. cbn [bind] in E. rewrite E3 in E. cbn [bind] in E. destruct (rename_vars (length (g_nodes g)) p h phi root) as [st0|] eqn:E4; [|discriminate]. cbn [bind] in E. injection E as <- _.
  exists st0. unfold stages. eauto 10.
Qed.

(** ** Programs for the examples *)
(** instructions, given as (reads, writes); blocks as (block, instructions) *)
Definition program (ins : list (list Z * list Z)) (blocks : list (Z * list nat)) (ends : list Z) : sprog :=
  Sprog (fun b => match dget blocks b with Some l => l | None => [] end) (fun i => fst (nth i ins ([], []))) (fun i => snd (nth i ins ([], []))) (fun b => zmem b ends).
Definition x0 := 0. Definition x1 := 1.
(** A loop: block 1 sets a counter, block 2 is the loop, block 3 uses the result. *)
Definition loop_prog := program [([], [x0]); ([], [x1]); ([x0; x1], [x1]); ([x0], [x0]); ([x1], [])] [(1, [0%nat; 1%nat]); (2, [2%nat; 3%nat]); (3, [4%nat])] [4].
Definition loop_cfg := of_edges [1; 2; 3; 4] [(1, 2); (2, 2); (2, 3); (3, 4)].
Lemma loop_builds : exists g st vg, loop_cfg = Ok g /\ constructed g /\ In 1 (g_nodes g) /\ NoDup (flat_map (p_inst loop_prog) (g_nodes g)) /\ build_ssa loop_prog g 1 = Ok (st, vg) /\
  s_phi st 2 = [((x0, 2), [(x0, 1); (x0, 3)]); ((x1, 2), [(x1, 1); (x1, 3)])] /\ map (s_read st) [2; 3; 4]%nat = [[(x0, 2); (x1, 2)]; [(x0, 2)]; [(x1, 3)]] /\
  map (s_written st) [0; 1; 2; 3]%nat = [[(x0, 1)]; [(x1, 1)]; [(x1, 3)]; [(x0, 3)]] /\ In ((x1, 2), (x1, 3)) (v_edges vg) /\ ~ In ((x0, 1), (x0, 3)) (v_edges vg).
Proof.
  destruct loop_cfg as [g|] eqn:Eg; [|discriminate]. exists g. assert (Cg : constructed g) by (eapply of_edges_constructed; exact Eg). injection Eg as <-. do 2 eexists. split; [reflexivity|]. split; [exact Cg|]. split; [vm_compute; auto|].
  split; [vm_compute; repeat (constructor; [cbn; intuition discriminate|]); constructor|]. split; [vm_compute; reflexivity|]. split; [reflexivity|]. split; [reflexivity|]. split; [reflexivity|]. split; [vm_compute; tauto|vm_compute; intuition discriminate].
Qed.

(** C67.  No name is defined twice: not within a block's phi functions or an instruction,
    and not at two such places. *)
Theorem C67_single_assignment : forall p g root st vg, constructed g -> In root (g_nodes g) -> build_ssa p g root = Ok (st, vg) ->
  (forall b, NoDup (map fst (s_phi st b))) /\ (forall i, NoDup (s_written st i)) /\
  (forall b c k, In k (map fst (s_phi st b)) -> In k (map fst (s_phi st c)) -> b = c) /\
  (forall i j k, In k (s_written st i) -> In k (s_written st j) -> i = j) /\
  (forall b i k, In k (map fst (s_phi st b)) -> In k (s_written st i) -> False).
Proof.
  intros p g root st vg Cg Nr E. apply stages_ok in E as (_ & h & df & gl & phi & st0 & Sg). destruct (names_once _ _ _ _ _ _ _ _ _ Cg Nr Sg) as [A B].
  split; [intros b; apply (A (inl b))|]. split; [intros i; apply (A (inr i))|]. split; [|split].
  - intros b c k I J. assert (Q : @inl Z nat b = inl c) by (eapply B; [exact I|exact J]). congruence.
  - intros i j k I J. assert (Q : @inr Z nat i = inr j) by (eapply B; [exact I|exact J]). congruence.
  - intros b i k I J. assert (Q : @inl Z nat b = inr i) by (eapply B; [exact I|exact J]). discriminate.
Qed.
Print Assumptions C67_single_assignment.
Example C67_example : exists p g root st vg, constructed g /\ In root (g_nodes g) /\ build_ssa p g root = Ok (st, vg) /\ s_written st 2 = [(x1, 3)] /\ map fst (s_phi st 2) = [(x0, 2); (x1, 2)].
Proof. destruct loop_builds as (g & st & vg & _ & Cg & Nr & _ & E & P & _ & W & _). exists loop_prog, g, 1, st, vg. split; [auto|]. split; [auto|]. split; [auto|]. split; [now injection W|now rewrite P]. Qed.

(** C68 is false.  Block 3 joins 1 and 2 and dominates neither 5 nor 6; what it defines is
    still on the stack when 5 is renamed.  In the first program the read in block 5 is
    given the name defined in block 3; in the second the stack is empty. *)
Definition join_cfg := of_edges [0; 1; 2; 3; 5; 6] [(0, 1); (0, 5); (1, 2); (1, 3); (2, 3); (3, 6); (5, 6)].
Definition stale_prog := program [([], [x0]); ([x0], []); ([x0], [])] [(2, [0%nat]); (3, [1%nat]); (5, [2%nat])] [6].
Definition drained_prog := program [([], [x0]); ([x0], [x0]); ([x0], [])] [(2, [0%nat]); (3, [1%nat]); (5, [2%nat])] [6].
Theorem C68_refuted : exists p g root st vg b c i k, constructed g /\ In root (g_nodes g) /\ NoDup (flat_map (p_inst p) (g_nodes g)) /\ build_ssa p g root = Ok (st, vg) /\
  In i (p_inst p b) /\ In k (s_read st i) /\ In k (map fst (s_phi st c)) /\ ~ dominates (edges g) root c b.
Proof.
  destruct join_cfg as [g|] eqn:Eg; [|discriminate]. exists stale_prog, g, 0. assert (Cg : constructed g) by (eapply of_edges_constructed; exact Eg). injection Eg as <-.
  do 2 eexists. exists 5, 3, 2%nat, (x0, 2). split; [exact Cg|]. split; [vm_compute; auto|]. split; [vm_compute; repeat (constructor; [cbn; intuition discriminate|]); constructor|].
  split; [vm_compute; reflexivity|]. split; [vm_compute; auto|]. split; [vm_compute; auto|]. split; [vm_compute; auto|]. intros D. specialize (D [0; 5]). destruct D as [|[|[]]]; try discriminate. apply way_step with (w := 5); [reflexivity|constructor].
Qed.
Print Assumptions C68_refuted.
Theorem C68_raises_refuted : exists p g root, constructed g /\ In root (g_nodes g) /\ NoDup (flat_map (p_inst p) (g_nodes g)) /\ (forall i x, In x (p_reads p i ++ p_writes p i) -> 0 <= x < 20) /\
  build_ssa p g root = Err IndexError.
Proof.
  destruct join_cfg as [g|] eqn:Eg; [|discriminate]. exists drained_prog, g, 0. assert (Cg : constructed g) by (eapply of_edges_constructed; exact Eg). injection Eg as <-.
  split; [exact Cg|]. split; [vm_compute; auto|]. split; [vm_compute; repeat (constructor; [cbn; intuition discriminate|]); constructor|]. split; [|vm_compute; reflexivity].
  intros [|[|[|i]]] x I; cbn in I; unfold x0, storage_count in *; try (intuition lia). destruct i; destruct I.
Qed.
Print Assumptions C68_raises_refuted.
(** What the reads are given, exactly: the blocks are renamed in an order in which every
    block comes directly before the blocks it immediately dominates, and a read is numbered
    by the definitions of the variable that come earlier in that order. *)
Theorem C68_numbers : forall p g root st vg h tree df gl phi, constructed g -> In root (g_nodes g) -> NoDup (flat_map (p_inst p) (g_nodes g)) -> build_ssa p g root = Ok (st, vg) ->
  build_dominator_tree g root = Ok (h, tree) -> build_dominance_frontier g h = Ok df -> place_phi_nodes p g df = Ok (gl, phi) -> exists order,
  preorder (h_children h) root order /\ NoDup order /\ (forall v, In v order <-> reachable (edges g) root v) /\
  (forall i, ~ In i (flat_map (p_inst p) order) -> s_read st i = [] /\ s_written st i = []) /\
  forall b i1 i i2, In b order -> p_inst p b = i1 ++ i :: i2 ->
    let earlier := flat_map (definitions p (placed phi)) (before b order) ++ placed phi b ++ flat_map (p_writes p) i1 in
    (forall r k, In (r, k) (s_read st i) <-> In r (p_reads p i) /\ k = occ r earlier) /\ NoDup (s_read st i) /\ s_written st i = numbered (fun x => occ x earlier) (p_writes p i).
Proof.
  intros p g root st vg h tree df gl phi Cg Nr Ni E E1 E2 E3. destruct (stages_of _ _ _ _ _ _ _ _ _ _ E E1 E2 E3) as (st0 & Sg). destruct (reads_exact _ _ _ _ _ _ _ _ _ Cg Nr Ni Sg) as (order & Po & No & Oa & _ & Rd & _ & Out).
  exists order. split; [auto|]. split; [auto|]. split; [intros v; now rewrite Oa, edges_reachable|]. split; auto.
Qed.
Print Assumptions C68_numbers.
(** What is true of the claim.  A read after a definition in its own block is given that
    definition: the last instruction before it that writes the variable, or else the phi
    function of the block. *)
Theorem C68_same_block_partial : forall p g root st vg h tree df gl phi, constructed g -> In root (g_nodes g) -> NoDup (flat_map (p_inst p) (g_nodes g)) -> build_ssa p g root = Ok (st, vg) ->
  build_dominator_tree g root = Ok (h, tree) -> build_dominance_frontier g h = Ok df -> place_phi_nodes p g df = Ok (gl, phi) ->
  forall b i1 i i2 r k, reachable (edges g) root b -> p_inst p b = i1 ++ i :: i2 -> In (r, k) (s_read st i) ->
  (forall j1 j j2, i1 = j1 ++ j :: j2 -> In r (p_writes p j) -> (forall j', In j' j2 -> ~ In r (p_writes p j')) -> In (r, k) (s_written st j) /\ forall k', In (r, k') (s_written st j) -> k' <= k) /\
  ((forall j, In j i1 -> ~ In r (p_writes p j)) -> In r (placed phi b) -> In (r, k) (map fst (s_phi st b))).
Proof.
  intros p g root st vg h tree df gl phi Cg Nr Ni E E1 E2 E3 b i1 i i2 r k Rb Ei I. destruct (stages_of _ _ _ _ _ _ _ _ _ _ E E1 E2 E3) as (st0 & Sg). apply edges_reachable in Rb.
  destruct (reaching _ _ _ _ _ _ _ _ _ Cg Nr Ni Sg b i1 i i2 r k Rb Ei I) as (A & B & _). auto.
Qed.
Print Assumptions C68_same_block_partial.
(** Otherwise it is given the last definition of the nearest dominator that defines the
    variable, provided that no block defines the variable that neither dominates this block
    nor is dominated by it.  Missing: the other variables. *)
Theorem C68_above_partial : forall p g root st vg h tree df gl phi, constructed g -> In root (g_nodes g) -> NoDup (flat_map (p_inst p) (g_nodes g)) -> build_ssa p g root = Ok (st, vg) ->
  build_dominator_tree g root = Ok (h, tree) -> build_dominance_frontier g h = Ok df -> place_phi_nodes p g df = Ok (gl, phi) ->
  forall b i1 i i2 r k, reachable (edges g) root b -> p_inst p b = i1 ++ i :: i2 -> In (r, k) (s_read st i) ->
  (forall j, In j i1 -> ~ In r (p_writes p j)) -> ~ In r (placed phi b) ->
  (forall c, reachable (edges g) root c -> In r (definitions p (placed phi) c) -> dominates (edges g) root c b \/ dominates (edges g) root b c) ->
  (k = 0 /\ forall c, strictly_dominates (edges g) root c b -> ~ In r (definitions p (placed phi) c)) \/
  exists c, strictly_dominates (edges g) root c b /\ In r (definitions p (placed phi) c) /\ (forall d, strictly_dominates (edges g) root d b -> In r (definitions p (placed phi) d) -> dominates (edges g) root d c) /\
    In (r, k) (block_names p st c) /\ forall k', In (r, k') (block_names p st c) -> k' <= k.
Proof.
  intros p g root st vg h tree df gl phi Cg Nr Ni E E1 E2 E3 b i1 i i2 r k Rb Ei I Nw Np Hd. destruct (stages_of _ _ _ _ _ _ _ _ _ _ E E1 E2 E3) as (st0 & Sg). apply edges_reachable in Rb.
  destruct (reaching _ _ _ _ _ _ _ _ _ Cg Nr Ni Sg b i1 i i2 r k Rb Ei I) as (_ & _ & C). destruct (C Nw Np) as [[A B]|(c & A1 & A2 & A3 & A4)].
  - intros c Rc Ic. rewrite <- !edges_dominates. apply Hd; [now apply edges_reachable|auto].
  - left. split; [auto|]. intros c Sc. apply B. now apply edges_strictly.
  - right. exists c. split; [now apply edges_strictly|]. split; [auto|]. split; [|auto]. intros d Sd Id. apply edges_dominates, A3; [now apply edges_strictly|auto].
Qed.
Print Assumptions C68_above_partial.
Example C68_example : exists p g root st vg h tree df gl phi, constructed g /\ In root (g_nodes g) /\ NoDup (flat_map (p_inst p) (g_nodes g)) /\ build_ssa p g root = Ok (st, vg) /\
  build_dominator_tree g root = Ok (h, tree) /\ build_dominance_frontier g h = Ok df /\ place_phi_nodes p g df = Ok (gl, phi) /\
  p_inst p 3 = [4%nat] /\ In (x1, 3) (s_read st 4%nat) /\ ~ In x1 (placed phi 3) /\ block_names p st 2 = [(x0, 2); (x1, 2); (x1, 3); (x0, 3)] /\
  forall c, In c (g_nodes g) -> In x1 (definitions p (placed phi) c) -> c = 1 \/ c = 2.
Proof.
  destruct loop_cfg as [g|] eqn:Eg; [|discriminate]. exists loop_prog, g, 1. assert (Cg : constructed g) by (eapply of_edges_constructed; exact Eg). injection Eg as <-.
  do 7 eexists. split; [exact Cg|]. split; [vm_compute; auto|]. split; [vm_compute; repeat (constructor; [cbn; intuition discriminate|]); constructor|].
  split; [vm_compute; reflexivity|]. split; [vm_compute; reflexivity|]. split; [vm_compute; reflexivity|]. split; [vm_compute; reflexivity|].
  split; [reflexivity|]. split; [vm_compute; auto|]. split; [vm_compute; tauto|]. split; [vm_compute; reflexivity|].
  intros c Ic I. vm_compute in Ic. repeat destruct Ic as [<-|Ic]; auto; vm_compute in I; tauto.
Qed.
(** The construction ends: it never needs more recursion than there are blocks. *)
Theorem C68_returns : forall p g root, constructed g -> In root (g_nodes g) -> build_ssa p g root <> Err OutOfFuel.
Proof. exact ssa_fuel. Qed.
Print Assumptions C68_returns.

(** C81.  A phi function for [x] is placed exactly in the blocks of the iterated frontier
    of the blocks that write [x], END blocks left out, if some block reads [x] before
    writing it; at most one per block and variable. *)
Theorem C81_placement : forall p g df gl phi, place_phi_nodes p g df = Ok (gl, phi) ->
  NoDup gl /\ (forall x, In x gl <-> exists n, In n (g_nodes g) /\ exposed p (p_inst p n) x) /\ (forall b, NoDup (placed phi b)) /\
  forall b x, In x (placed phi b) <-> In x gl /\ spread df (p_end p) (fun n => In n (g_nodes g) /\ exists i, In i (p_inst p n) /\ In x (p_writes p i)) b.
Proof.
  intros p g df gl phi E. destruct (place_ok _ _ _ _ _ E) as (A & B & F & D). split; [auto|]. split; [exact B|]. split; [intros b; now apply fresh_placed|]. intros b x. unfold placed. rewrite <- (fresh_key phi b x F). rewrite D, B. cbn [fst snd]. unfold phi_start, written_in. tauto.
Qed.
Print Assumptions C81_placement.
Theorem C81_total : forall p g root h tree df, constructed g -> In root (g_nodes g) -> build_dominator_tree g root = Ok (h, tree) -> build_dominance_frontier g h = Ok df -> exists gl phi, place_phi_nodes p g df = Ok (gl, phi).
Proof.
  intros p g root h tree df Cg Nr E1 E2. destruct (tree_facts g root h tree Cg Nr E1) as (_ & _ & _ & (df' & E2' & Rd)). rewrite E2 in E2'. injection E2' as <-. destruct (place_total p g df) as ([gl phi] & E3); [intros n d I; eapply node_in; eauto|eauto].
Qed.
Print Assumptions C81_total.
(** Of these, the finished form keeps those whose variable the block does not write before
    reading it. *)
Theorem C81_kept : forall p g root st vg h tree df gl phi, constructed g -> In root (g_nodes g) -> NoDup (flat_map (p_inst p) (g_nodes g)) -> build_ssa p g root = Ok (st, vg) ->
  build_dominator_tree g root = Ok (h, tree) -> build_dominance_frontier g h = Ok df -> place_phi_nodes p g df = Ok (gl, phi) ->
  forall b x, (exists k, In (x, k) (map fst (s_phi st b))) <-> In x (placed phi b) /\ ~ killed p (p_inst p b) x.
Proof.
  intros p g root st vg h tree df gl phi Cg Nr Ni E E1 E2 E3. destruct (stages_of _ _ _ _ _ _ _ _ _ _ E E1 E2 E3) as (st0 & Sg). exact (phis_exact _ _ _ _ _ _ _ _ _ Cg Nr Ni Sg).
Qed.
Print Assumptions C81_kept.
Example C81_example : exists g h tree df gl phi, of_edges [1; 2; 3; 4; 5; 6] [(1, 2); (1, 3); (2, 4); (3, 4); (4, 5); (1, 5); (5, 6)] = Ok g /\ constructed g /\ build_dominator_tree g 1 = Ok (h, tree) /\ build_dominance_frontier g h = Ok df /\
  place_phi_nodes (program [([], [x0]); ([x0], [])] [(2, [0%nat]); (5, [1%nat])] [6]) g df = Ok (gl, phi) /\ map (placed phi) [1; 2; 3; 4; 5; 6] = [[]; []; []; [x0]; [x0]; []].
Proof.
  destruct (of_edges [1; 2; 3; 4; 5; 6] [(1, 2); (1, 3); (2, 4); (3, 4); (4, 5); (1, 5); (5, 6)]) as [g|] eqn:Eg; [|discriminate]. exists g. assert (Cg : constructed g) by (eapply of_edges_constructed; exact Eg). injection Eg as <-.
  do 5 eexists. split; [reflexivity|]. split; [exact Cg|]. split; [vm_compute; reflexivity|]. split; [vm_compute; reflexivity|]. split; vm_compute; reflexivity.
Qed.

(** C82.  Every name that an instruction reads or a phi function takes is defined by some
    instruction or phi function of the finished form, or has the number 0 of the initial
    value. *)
Theorem C82_used_names_defined : forall p g root st vg, constructed g -> In root (g_nodes g) -> NoDup (flat_map (p_inst p) (g_nodes g)) -> build_ssa p g root = Ok (st, vg) ->
  forall v k, ((exists i, In (v, k) (s_read st i)) \/ exists b e, In e (s_phi st b) /\ In (v, k) (snd e)) -> k = 0 \/ (exists i, In (v, k) (s_written st i)) \/ exists b, In (v, k) (map fst (s_phi st b)).
Proof.
  intros p g root st vg Cg Nr Ni E v k U. apply stages_ok in E as (_ & h & df & gl & phi & st0 & Sg). destruct (used_defined _ _ _ _ _ _ _ _ _ Cg Nr Ni Sg) as [A B].
  assert (Q : k = 0 \/ exists s, In (v, k) (names st s)) by (destruct U as [(i & I)|(b & e & Ie & I)]; eauto). destruct Q as [|([b|i] & I)]; [auto|right; right; eauto|right; left; eauto].
Qed.
Print Assumptions C82_used_names_defined.
Example C82_example : exists p g root st vg, constructed g /\ In root (g_nodes g) /\ NoDup (flat_map (p_inst p) (g_nodes g)) /\ build_ssa p g root = Ok (st, vg) /\ In (x1, 3) (s_read st 4) /\ exists e, In e (s_phi st 2) /\ In (x0, 3) (snd e).
Proof.
  destruct loop_builds as (g & st & vg & _ & Cg & Nr & Ni & E & P & R & _). exists loop_prog, g, 1, st, vg. split; [auto|]. split; [auto|]. split; [auto|]. split; [auto|]. injection R as _ _ ->. split; [left; auto|]. rewrite P. eexists. split; [left; reflexivity|]. cbn. auto.
Qed.

(** C83.  A phi function has one argument for each reachable predecessor, in the order of
    the renaming: the number of its variable at the end of that predecessor. *)
Theorem C83_arguments : forall p g root st vg h tree df gl phi, constructed g -> In root (g_nodes g) -> NoDup (flat_map (p_inst p) (g_nodes g)) -> build_ssa p g root = Ok (st, vg) ->
  build_dominator_tree g root = Ok (h, tree) -> build_dominance_frontier g h = Ok df -> place_phi_nodes p g df = Ok (gl, phi) -> exists order,
  preorder (h_children h) root order /\ NoDup order /\ (forall v, In v order <-> reachable (edges g) root v) /\
  forall b v k args, In ((v, k), args) (s_phi st b) ->
    k = occ v (flat_map (definitions p (placed phi)) (before b order)) + 1 /\
    args = map (fun n => (v, occ v (flat_map (definitions p (placed phi)) (before n order ++ [n])))) (filter (fun n => has_edge g n b) order).
Proof.
  intros p g root st vg h tree df gl phi Cg Nr Ni E E1 E2 E3. destruct (stages_of _ _ _ _ _ _ _ _ _ _ E E1 E2 E3) as (st0 & Sg). destruct (order_facts _ _ _ _ _ _ _ _ _ Cg Nr Sg) as (order' & _ & _ & Oa' & Es & Op). destruct (reads_exact _ _ _ _ _ _ _ _ _ Cg Nr Ni Sg) as (order & Po & No & Oa & Ph & Rd & Ar & Out).
  exists order. split; [auto|]. split; [auto|]. split; [intros v; now rewrite Oa, edges_reachable|]. intros b v k args I.
  destruct Sg as (_ & _ & _ & _ & E5). assert (I0 : In ((v, k), args) (s_phi st0 b)). { destruct (dead_ok p g st0) as (_ & _ & D3). rewrite E5, D3 in I. destruct (zmem b (g_nodes g)); [apply filter_In in I; tauto|auto]. }
  split; [|exact (Ar b _ I0)].
  assert (Ib : In b order).
  { destruct (in_dec Z.eq_dec b order) as [|Nb]; [auto|]. exfalso. rewrite <- (strip_phi st0), Es in I0. destruct (blocks_step p h order' (strip (start_state phi))) as (_ & _ & A3 & _).
    assert (Nb' : ~ In b order') by (rewrite Oa'; rewrite Oa in Nb; auto). specialize (A3 b Nb'). apply Nb', Op. cbn [strip start_state s_phi] in A3. apply (in_map fst) in I0. rewrite A3 in I0. destruct (phi b); [destruct I0|discriminate]. }
  apply (in_map fst) in I0. rewrite (Ph b Ib) in I0. destruct (place_ok _ _ _ _ _ E3) as (_ & _ & F & _). apply in_numbered_once in I0; [apply I0|now apply fresh_placed].
Qed.
Print Assumptions C83_arguments.
Example C83_example : exists p g root st vg h tree df gl phi, constructed g /\ In root (g_nodes g) /\ NoDup (flat_map (p_inst p) (g_nodes g)) /\ build_ssa p g root = Ok (st, vg) /\
  build_dominator_tree g root = Ok (h, tree) /\ build_dominance_frontier g h = Ok df /\ place_phi_nodes p g df = Ok (gl, phi) /\ In ((x1, 2), [(x1, 1); (x1, 3)]) (s_phi st 2).
Proof.
  destruct C68_example as (p & g & root & st & vg & h & tree & df & gl & phi & A1 & A2 & A3 & A4 & A5 & A6 & A7 & _).
  destruct loop_cfg as [g0|] eqn:Eg; [|discriminate]. exists loop_prog, g0, 1. assert (Cg : constructed g0) by (eapply of_edges_constructed; exact Eg). injection Eg as <-.
  do 7 eexists. split; [exact Cg|]. split; [vm_compute; auto|]. split; [vm_compute; repeat (constructor; [cbn; intuition discriminate|]); constructor|].
  split; [vm_compute; reflexivity|]. split; [vm_compute; reflexivity|]. split; [vm_compute; reflexivity|]. split; [vm_compute; reflexivity|]. vm_compute. auto.
Qed.

(** C84.  The value dependency graph has an edge from every name read to every name written
    by the same instruction and from every argument of a phi function to its name, and no
    others; no node or edge twice. *)
Theorem C84_value_dependency : forall p g root st vg, build_ssa p g root = Ok (st, vg) ->
  NoDup (v_nodes vg) /\ NoDup (v_edges vg) /\
  (forall a b, In (a, b) (v_edges vg) <-> exists n, In n (g_nodes g) /\ ((exists args, In (b, args) (s_phi st n) /\ In a args) \/ exists i, In i (p_inst p n) /\ In a (s_read st i) /\ In b (s_written st i))) /\
  (forall a, In a (v_nodes vg) <-> (exists b, In (a, b) (v_edges vg) \/ In (b, a) (v_edges vg)) \/ exists n, In n (g_nodes g) /\ (In a (map fst (s_phi st n)) \/ exists i, In i (p_inst p n) /\ In a (s_written st i))).
Proof.
  intros p g root st vg E. apply stages_ok in E as (-> & _). destruct (value_ok p g st) as (A & B & C & D). set (vg := value_dependency p g st) in *. split; [auto|]. split; [auto|].
  assert (Ed : forall a b, In (a, b) (v_edges vg) <-> exists n, In n (g_nodes g) /\ ((exists args, In (b, args) (s_phi st n) /\ In a args) \/ exists i, In i (p_inst p n) /\ In a (s_read st i) /\ In b (s_written st i))).
  { intros a b. rewrite D. split.
    - intros (n & N & [([k args] & I & -> & J)|(i & I & J & K)]); exists n; split; auto; [left; eauto|right; eauto].
    - intros (n & N & [(args & I & J)|(i & I & J & K)]); exists n; split; auto; [left; exists (b, args); auto|right; eauto]. }
  split; [exact Ed|]. intros a. rewrite C. split.
  - intros (n & N & [([k args] & I & [->|J])|(i & I & [J|[J K]])]).
    + right. exists n. split; [auto|]. left. now apply (in_map fst) in I.
    + left. exists k. left. apply Ed. exists n. split; [auto|]. left. eauto.
    + right. exists n. split; [auto|]. right. eauto.
    + destruct (s_written st i) as [|w l] eqn:Ew; [congruence|]. left. exists w. left. apply Ed. exists n. split; [auto|]. right. exists i. rewrite Ew. split; [auto|]. split; [auto|left; auto].
  - intros [(b & [I|I])|(n & N & [I|(i & I & J)])].
    + apply Ed in I as (n & N & [(args & I & J)|(i & I & J & K)]); exists n; split; auto; [left; exists (b, args); auto|right; exists i; split; auto; right; split; [intros Q; rewrite Q in K; destruct K|auto]].
    + apply Ed in I as (n & N & [(args & I & J)|(i & I & J & K)]); exists n; split; auto; [left; exists (a, args); auto|right; eauto].
    + exists n. split; [auto|]. left. apply in_map_iff in I as (e & <- & I). eauto.
    + exists n. split; [auto|]. right. eauto.
Qed.
Print Assumptions C84_value_dependency.
Example C84_example : exists p g root st vg, build_ssa p g root = Ok (st, vg) /\ In ((x1, 2), (x1, 3)) (v_edges vg) /\ ~ In ((x0, 1), (x0, 3)) (v_edges vg).
Proof. destruct loop_builds as (g & st & vg & _ & _ & _ & _ & E & _ & _ & _ & A & B). exists loop_prog, g, 1, st, vg. auto. Qed.
