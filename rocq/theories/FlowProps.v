(** C127-C130: the control flow graph as the later analyses get it, and the SSA form of
    programs without branches. *)
From Verif Require Import ListLemmas SsaProps.
From Verif Require Export CfgProps CfgReachProps SkipProps SkipProofs4 LadderProofs2.
From Coq Require Import ZifyBool ZifyNat Permutation.

(** ** Specification *)
Definition positions (program : list cinst) : list nat := filter (fun i => match nth_error program i with Some c => negb (ci_undefined c) | None => false end) (seq 0 (length program)).
(** The blocks [B] hold the defined instructions in order, each block a longest piece with
    one condition; [skip] tells which conditions are not 14 (always). *)
Record runs (program : list cinst) (st : cfg) (B : list Z) (skip : Z -> bool) : Prop := Runs {
  runs_all : flat_map (instructions st) B = positions program;
  runs_some : forall b, In b B -> instructions st b <> [];
  runs_one : forall b i c, In b B -> In i (instructions st b) -> nth_error program i = Some c -> skip b = negb (ci_cond c =? 14);
  runs_same : forall b i j c d, In b B -> In i (instructions st b) -> In j (instructions st b) -> nth_error program i = Some c -> nth_error program j = Some d -> ci_cond c = ci_cond d;
  runs_next : forall a u v d i j x y, B = a ++ u :: v :: d -> In i (instructions st u) -> In j (instructions st v) -> nth_error program i = Some x -> nth_error program j = Some y -> ci_cond x <> ci_cond y }.

Lemma pieces_runs p st B : pieces p (length p) st B -> runs p st B (skips p st).
Proof.
  intros [P1 P2 P3]. assert (H : forall b i c, In b B -> In i (instructions st b) -> nth_error p i = Some c -> ci_cond c = first_cond p st b) by (intros b i c Ib Ii Ec; destruct (P2 b Ib) as [_ Q]; rewrite <- (Q i Ii); unfold cond_at; now rewrite Ec).
  split.
  - exact P1.
  - intros b Ib. now apply P2.
  - intros b i c Ib Ii Ec. unfold skips. now rewrite <- (H b i c).
  - intros b i j c d Ib Ii Ij Ec Ed. rewrite (H b i c), (H b j d); auto.
  - intros a u v d i j x y E Ii Ij Ex Ey. rewrite (H u i x), (H v j y); auto; [eapply P3; eauto|..]; rewrite E; apply in_app_iff; right; [right; left|left]; auto.
Qed.
Lemma no_instructions p k kj st n K : core p k kj st -> kind_of st n = Some K -> K <> KBlock -> instructions st n = [].
Proof. intros H Hk N. destruct (instructions st n) eqn:E; [auto|]. exfalso. assert (Q : kind_of st n = Some KBlock) by (apply (co_kind _ _ _ _ H); congruence). congruence. Qed.
Lemma nodes_split g B : wf g -> In 2 (g_nodes g) -> filter (fun n => negb (n =? 2)) (g_nodes g) = 1 :: B -> NoDup ((1 :: B) ++ [2]) /\ forall n, In n (g_nodes g) <-> n = 2 \/ In n (1 :: B).
Proof.
  intros W I2 E. assert (H : forall n, In n (1 :: B) <-> In n (g_nodes g) /\ n <> 2) by (intros n; rewrite <- E, filter_In; destruct (Z.eqb_spec n 2); cbn [negb]; split; intros [? ?]; split; congruence). split.
  - apply nodup_snoc; [rewrite <- E; apply NoDup_filter, W|]. rewrite H. tauto.
  - intros n. rewrite H. destruct (Z.eq_dec n 2) as [->|]; tauto.
Qed.

(** ** C127 *)
(** The graph of a program without branches, completely: ROOT (1), the pieces with one
    condition in order, END (2).  Control goes from a block to every later one as long as only
    conditional blocks lie between, and from the last block to END.  So the ways to a block
    are exactly those that leave out conditional blocks. *)
Theorem C127_straight_graph : forall program, program <> [] -> (forall i c, nth_error program i = Some c -> ci_undefined c = false -> ci_branch c = false) ->
  exists st g B skip, plain_graph program = Ok (st, g) /\ NoDup (1 :: B) /\ ~ In 2 (1 :: B) /\ (forall n, In n (g_nodes g) <-> n = 2 \/ In n (1 :: B)) /\ instructions st 1 = [] /\ instructions st 2 = [] /\
  runs program st B skip /\ sequence (edges g) (1 :: B) 2 skip /\
  forall B1 b B2, B = B1 ++ b :: B2 -> forall l, way (edges g) 1 l b <-> exists L, kept skip B1 L /\ l = 1 :: L ++ [b].
Proof.
  intros program Np Hn. destruct (straight_graph program Np Hn) as (st & g & B & E & Cg & Co & K1 & K2 & I2 & Ef & En & Pc & Sq). destruct (nodes_split g B (constructed_wf g Cg) I2 Ef) as [Nd Hin].
  exists st, g, B, (skips program st). split; [auto|]. split; [rewrite <- (app_nil_r (1 :: B)); eapply NoDup_remove_1; exact Nd|]. split; [apply NoDup_remove_2 in Nd; now rewrite app_nil_r in Nd|]. split; [auto|].
  split; [eapply no_instructions; eauto; discriminate|]. split; [eapply no_instructions; eauto; discriminate|]. split; [now apply pieces_runs|]. split; [auto|].
  intros B1 b B2 -> l. apply (ways (edges g) 1 (B1 ++ b :: B2) 2 (skips program st) Nd Sq (length B1) [] 1 B1 b B2); auto.
Qed.
Print Assumptions C127_straight_graph.
(** MOV; MOVEQ; MOVEQ; (data); MOVNE; MOV *)
Definition pred (c a : Z) : cinst := Ci false false false c a None.
Definition straight_example := [plain 0; pred 0 4; pred 0 8; Ci true false false 14 12 None; pred 1 16; plain 20].
Example C127_example : exists st g, straight_example <> [] /\ (forall i c, nth_error straight_example i = Some c -> ci_undefined c = false -> ci_branch c = false) /\ plain_graph straight_example = Ok (st, g) /\
  g_nodes g = [1; 2; 3; 4; 6; 8] /\ map (instructions st) [3; 4; 6; 8] = [[0]; [1; 2]; [4]; [5]]%nat /\ map (fun e => has_edge g (fst e) (snd e)) [(1, 3); (3, 4); (3, 6); (3, 8); (4, 8); (6, 8); (8, 2); (1, 4); (6, 2)] = [true; true; true; true; true; true; true; false; false].
Proof.
  do 2 eexists. split; [discriminate|]. split; [intros i c; do 6 (destruct i as [|i]; [intros [= <-]; cbn; congruence|]); destruct i; discriminate|]. split; [vm_compute; reflexivity|]. split; [reflexivity|]. split; vm_compute; reflexivity.
Qed.

(** ** C128 *)
(** The SSA form of a program without branches is built, and whichever of the conditional
    blocks before it were executed, an instruction reads the last value written before it:
    the name it reads is that of the last instruction or phi function passed. *)
Theorem C128_straight_ssa : forall program reads writes, program <> [] -> (forall i c, nth_error program i = Some c -> ci_undefined c = false -> ci_branch c = false) ->
  (forall i x, In x (reads i ++ writes i) -> 0 <= x < 20) ->
  exists st g s vg, plain_graph program = Ok (st, g) /\ ssa_of program reads writes = Ok (s, vg) /\ reads_reach (ssa_program st reads writes) g 1 s /\ phis_reach (ssa_program st reads writes) g 1 s.
Proof.
  intros program reads writes Np Hn Rg. destruct (straight_graph program Np Hn) as (st & g & B & E & Cg & Co & K1 & K2 & I2 & Ef & En & Pc & Sq). destruct (nodes_split g B (constructed_wf g Cg) I2 Ef) as [Nd Hin].
  destruct (C126_sequence_ssa (ssa_program st reads writes) g 1 B 2 (skips program st) Cg I2 Ef Sq) as (s & vg & Es & H1 & H2).
  - intros b Ib. cbn [ssa_program p_end]. unfold is_end. split.
    + intros Q. apply Hin in Ib as [->|[<-|Ib]]; [auto| |].
      * unfold kind_of in K1. destruct (dget (c_blocks st) 1) as [[[] ?]|]; discriminate.
      * exfalso. apply (pc_one _ _ _ _ Pc) in Ib as [Ib _]. apply (co_kind _ _ _ _ Co) in Ib. unfold kind_of in Ib. destruct (dget (c_blocks st) b) as [[[] ?]|]; discriminate.
    + intros ->. unfold kind_of in K2. destruct (dget (c_blocks st) 2) as [[[] ?]|]; congruence.
  - cbn [ssa_program p_inst]. eapply no_instructions; eauto; discriminate.
  - cbn [ssa_program p_inst]. assert (Pm : Permutation (flat_map (instructions st) (g_nodes g)) (flat_map (instructions st) (2 :: 1 :: B))). { apply Permutation_flat_map. apply NoDup_Permutation; [exact (proj1 (constructed_wf g Cg))| |]. 2: { intros n. rewrite Hin. cbn [In]. intuition. } apply NoDup_cons; [apply NoDup_remove_2 in Nd; now rewrite app_nil_r in Nd|rewrite <- (app_nil_r (1 :: B)); eapply NoDup_remove_1; exact Nd]. }
    apply (Permutation_NoDup (Permutation_sym Pm)). cbn [flat_map]. rewrite (no_instructions _ _ _ _ 2 _ Co K2), (no_instructions _ _ _ _ 1 _ Co K1) by discriminate. cbn [app]. rewrite (pc_all _ _ _ _ Pc). apply NoDup_filter, seq_NoDup.
  - intros i x Ix. apply (Rg i x Ix).
  - exists st, g, s, vg. split; [auto|]. unfold ssa_of. rewrite E. cbn [bind]. auto.
Qed.
Print Assumptions C128_straight_ssa.
(** r0 is set, then set again from itself if EQ, then read. *)
Definition straight_reads (i : nat) : list Z := nth i [[]; [0]; []; []; [0]; [0; 1]] [].
Definition straight_writes (i : nat) : list Z := nth i [[0]; [0]; [1]; []; [1]; []] [].
Example C128_example : exists st g s vg, (forall i x, In x (straight_reads i ++ straight_writes i) -> 0 <= x < 20) /\ plain_graph straight_example = Ok (st, g) /\ ssa_of straight_example straight_reads straight_writes = Ok (s, vg) /\
  s_read s 4%nat = [(0, 3)] /\ In ((0, 3), [(0, 1); (0, 2)]) (s_phi s 6) /\ map (fun e => (fst (fst e), length (snd e))) (s_phi s 8) = [(0, 3%nat); (1, 3%nat)].
Proof.
  do 4 eexists. split; [|split; [vm_compute; reflexivity|split; [vm_compute; reflexivity|split; [vm_compute; reflexivity|split; [vm_compute; auto|vm_compute; reflexivity]]]]].
  intros i x Ix. do 6 (destruct i as [|i]; [cbn in Ix; intuition lia|]). destruct i; destruct Ix.
Qed.

(** ** C129 *)
(** [x] is the last defined instruction. *)
Definition last_defined (program : list cinst) (x : nat) : Prop := defined_at program x /\ forall y, (x < y)%nat -> ~ defined_at program y.
(** The claim is false: when the last instruction is conditional every way from ROOT to END
    executes it. *)
Theorem C129_end_refuted : exists program st g x c, plain_graph program = Ok (st, g) /\ last_defined program x /\ nth_error program x = Some c /\ ci_branch c = false /\ ci_cond c <> 14 /\
  reachable (edges g) 1 2 /\ forall l, way (edges g) 1 l 2 -> exists b, In b l /\ In x (instructions st b).
Proof.
  set (p := [plain 0; pred 0 4]). exists p. do 2 eexists. exists 1%nat, (pred 0 4). split; [vm_compute; reflexivity|].
  split; [split; [exists (pred 0 4); auto|]; intros y L (c & Ec & _); destruct y as [|[|y]]; [lia|lia|destruct y; discriminate]|]. split; [reflexivity|]. split; [reflexivity|]. split; [discriminate|]. split; [right; exists [3; 4]; repeat (constructor 2; [reflexivity|]); constructor; reflexivity|].
  intros l W. exists 4. split; [|vm_compute; auto]. inversion W as [|? w1 l1 ? Q1 W1]; subst. right. assert (X : w1 = 3) by (apply has_edge_iff in Q1; vm_compute in Q1; intuition). subst w1. inversion W1 as [|? w2 l2 ? Q2 W2]; subst. right. assert (X : w2 = 4) by (apply has_edge_iff in Q2; vm_compute in Q2; intuition). subst w2. inversion W2; left; auto.
Qed.
Print Assumptions C129_end_refuted.
(** It is so for every program without branches. *)
Theorem C129_last_executed : forall program, program <> [] -> (forall i c, nth_error program i = Some c -> ci_undefined c = false -> ci_branch c = false) -> forall x, last_defined program x ->
  exists st g, plain_graph program = Ok (st, g) /\ reachable (edges g) 1 2 /\ forall l, way (edges g) 1 l 2 -> exists b, In b l /\ In x (instructions st b).
Proof.
  intros program Np Hn x (Dx & Lx). destruct (C127_straight_graph program Np Hn) as (st & g & B & skip & E & Nd & N2 & Hin & I1 & I2 & Rn & Sq & Wy). exists st, g. split; [auto|].
  assert (Ix : In x (positions program)). { destruct Dx as (c & Ec & U). apply filter_In. split; [apply in_seq; assert (x < length program)%nat by (apply nth_error_Some; congruence); lia|]. rewrite Ec, U. auto. }
  assert (Mx : forall y, In y (positions program) -> (y <= x)%nat). { intros y Iy. apply filter_In in Iy as [_ Iy]. destruct (nth_error program y) as [c|] eqn:Ec; [|discriminate]. destruct (ci_undefined c) eqn:U; [discriminate|]. destruct (Nat.le_gt_cases y x) as [|G]; [auto|]. exfalso. apply (Lx y G). exists c. auto. }
  destruct B as [|z B] using rev_ind; [rewrite <- (runs_all _ _ _ _ Rn) in Ix; destruct Ix|]. clear IHB.
  assert (Iz : In x (instructions st z)).
  { rewrite <- (runs_all _ _ _ _ Rn), flat_map_app in Ix. cbn [flat_map] in Ix. rewrite app_nil_r in Ix. apply in_app_iff in Ix as [Ix|Ix]; [|auto]. exfalso. apply in_flat_map in Ix as (b & Ib & Ix).
    pose proof (runs_some _ _ _ _ Rn z) as Nz. destruct (instructions st z) as [|y l] eqn:Ez; [apply Nz; [apply in_app_iff; right; left; auto|auto]|].
    assert (Sx : exists a1 a2, flat_map (instructions st) B = a1 ++ x :: a2) by (apply in_split, in_flat_map; eauto). destruct Sx as (a1 & a2 & Ea).
    pose proof (runs_all _ _ _ _ Rn) as Ra. rewrite flat_map_app in Ra. cbn [flat_map] in Ra. rewrite app_nil_r, Ea, Ez in Ra.
    assert (Srt : forall n l1 l2 u v, filter (fun i => match nth_error program i with Some c => negb (ci_undefined c) | None => false end) (seq 0 n) = l1 ++ u :: l2 -> In v l2 -> (u < v)%nat).
    { clear. intros n. generalize 0%nat. induction n as [|n IH]; intros s l1 l2 u v Q V; cbn [seq filter] in Q; [destruct l1; discriminate|]. destruct (match nth_error program s with Some c => negb (ci_undefined c) | None => false end); [|eapply IH; eauto].
      destruct l1 as [|w l1]; cbn [app] in Q; injection Q as -> Q; [|eapply IH; eauto]. rewrite <- Q in V. apply filter_In in V as [V _]. apply in_seq in V. lia. }
    unfold positions in Ra. rewrite <- app_assoc in Ra. cbn [app] in Ra. assert (L : (x < y)%nat) by (eapply (Srt (length program) a1 (a2 ++ y :: l) x y); [symmetry; exact Ra|apply in_app_iff; right; left; auto]).
    assert (Iy : In y (positions program)) by (unfold positions; rewrite <- Ra; apply in_app_iff; right; right; apply in_app_iff; right; left; auto). apply Mx in Iy. lia. }
  assert (Ez2 : edges g z 2) by (apply Sq; right; split; [auto|]; exists (1 :: B); reflexivity). split.
  - assert (K : kept skip B B) by (clear; induction B; [constructor|now apply kept_take]). assert (W : way (edges g) 1 (1 :: B ++ [z]) z) by (apply (Wy B z [] eq_refl); eauto). apply reachable_way. assert (S : forall u l v w, way (edges g) u l v -> edges g v w -> way (edges g) u (l ++ [w]) w) by (clear; intros u l v w W; induction W; intros Q; cbn [app]; [eapply way_step; [eauto|constructor]|eapply way_step; eauto]). eauto.
  - intros l W. exists z. split; [|auto]. assert (H : forall u l, way (edges g) u l 2 -> u <> 2 -> In z l).
    { clear -Sq N2. intros u l W. remember 2 as e eqn:Ee. induction W as [u|u w l v Q W IH]; intros N; [congruence|]. subst v. destruct (Z.eq_dec w 2) as [->|Nw]; [|right; auto]. left. apply Sq in Q as [(a & b & d & Q & _)|(_ & a & Q)].
      - exfalso. apply N2. rewrite Q. apply in_app_iff. right. right. apply in_app_iff. right. left. auto.
      - change (1 :: B ++ [z]) with ((1 :: B) ++ [z]) in Q. apply app_inj_tail in Q as [_ ->]. auto. }
    apply (H 1 l W). discriminate.
Qed.
Print Assumptions C129_last_executed.
Example C129_example : last_defined [plain 0; pred 0 4] 1 /\ [plain 0; pred 0 4] <> [] /\ forall i c, nth_error [plain 0; pred 0 4] i = Some c -> ci_undefined c = false -> ci_branch c = false.
Proof. split; [split; [exists (pred 0 4); auto|]; intros y L (c & Ec & _); destruct y as [|[|y]]; [lia|lia|destruct y; discriminate]|]. split; [discriminate|]. intros i c; do 2 (destruct i as [|i]; [intros [= <-]; cbn; congruence|]); destruct i; discriminate. Qed.

(** ** C130 *)
(** The claim is false: there is no dominator tree when a branch that cannot be reached leads
    back to an instruction that can. *)
Theorem C130_dominators_refuted : exists program st g, plain_graph program = Ok (st, g) /\ root_node st 1 = true /\ build_dominator_tree (c_graph st) 1 = Err RuntimeError /\ build_dominator_tree g 1 = Err RuntimeError /\
  forall reads writes, ssa_of program reads writes = Err RuntimeError.
Proof.
  exists [plain 0; Ci false true true 14 4 (Some 0); jump 14 8 0]. do 2 eexists. split; [vm_compute; reflexivity|]. split; [reflexivity|]. split; [vm_compute; reflexivity|]. split; [vm_compute; reflexivity|]. intros reads writes. vm_compute. reflexivity.
Qed.
Print Assumptions C130_dominators_refuted.
(** What holds: if every unconditional branch that something follows goes on, there is one,
    before and after the conditional nodes are removed.  Missing: other programs where no
    unreachable block leads back. *)
Theorem C130_dominators_partial : forall program, program <> [] ->
  (forall x y, next_defined program x y -> branches program x -> condition program x 14 -> goes_on program x) ->
  exists st g root h tree h' tree', plain_graph program = Ok (st, g) /\ root_node st root = true /\ build_dominator_tree (c_graph st) root = Ok (h, tree) /\ build_dominator_tree g root = Ok (h', tree') /\
  (forall v, In v (g_nodes (c_graph st)) -> v <> root -> exists d, h_idom h v = Some d) /\ forall v, In v (g_nodes g) -> v <> root -> exists d, h_idom h' v = Some d.
Proof.
  intros program Np H. destruct (CfgProofs3.build_ok program Np) as (st & E & Co & _). pose proof (build_made program st E) as Cg. destruct (C118_reachable_partial program st E Np H) as (root & Kr & Rc).
  destruct (C64_paths (is_conditional st) (c_graph st) Cg) as (g & Eg & Ng & Pg). pose proof (remove_made _ _ _ Cg Eg) as Cg'.
  assert (Nr : In root (g_nodes (c_graph st))). { unfold root_node in Kr. destruct (dget (c_blocks st) root) as [[[] l]|] eqn:D; try discriminate. destruct (in_dec Z.eq_dec root (nodes st)) as [I|I]; [exact I|]. apply (outside st root (co_good _ _ _ _ Co)) in I as [_ I]. unfold kind_of in I. rewrite D in I. discriminate. }
  assert (Nr' : In root (g_nodes g)). { apply Ng. split; [auto|]. unfold root_node in Kr. unfold is_conditional. destruct (dget (c_blocks st) root) as [[[] l]|]; auto; discriminate. }
  assert (Rc' : forall b, In b (g_nodes g) -> reachable (edges g) root b). { intros b Ib. pose proof (proj1 (Ng b) Ib) as [Ib0 _]. destruct (Rc b Ib0) as [->|P]; [now left|]. right. now apply Pg. }
  assert (En : forall g v w, constructed g -> edges g v w -> In v (g_nodes g)) by (intros g0 v w C0 Q; apply has_edge_iff in Q; exact (proj1 (edge_nodes _ _ _ (constructed_wf g0 C0) Q))).
  destruct (proj1 (C65_returns (c_graph st) root Cg Nr)) as ([h tree] & E1); [intros v w Q _ _; apply Rc; eapply En; eauto|]. destruct (proj1 (C65_returns g root Cg' Nr')) as ([h' tree'] & E2); [intros v w Q _ _; apply Rc'; eapply (En g); eauto|].
  exists st, g, root, h, tree, h', tree'. split; [unfold plain_graph; rewrite E; cbn [bind]; now rewrite Eg|]. split; [auto|]. split; [auto|]. split; [auto|].
  split; intros v Iv Nv.
  - destruct (C65_immediate_dominators (c_graph st) root h tree Cg Nr E1) as [_ X]. apply X; auto.
  - destruct (C65_immediate_dominators g root h' tree' Cg' Nr' E2) as [_ X]. apply X; auto.
Qed.
Print Assumptions C130_dominators_partial.
Example C130_example : exists st g h tree, reach_example <> [] /\ plain_graph reach_example = Ok (st, g) /\ (forall x y, next_defined reach_example x y -> branches reach_example x -> condition reach_example x 14 -> goes_on reach_example x) /\
  build_dominator_tree g 1 = Ok (h, tree) /\ map (h_idom h) (g_nodes g) = [None; Some 8; Some 5; Some 3; Some 1; Some 3; Some 3; Some 8].
Proof.
  do 4 eexists. split; [discriminate|]. split; [vm_compute; reflexivity|]. split; [destruct C118_example as (? & _ & Q & _); exact Q|]. split; [vm_compute; reflexivity|]. vm_compute. reflexivity.
Qed.
