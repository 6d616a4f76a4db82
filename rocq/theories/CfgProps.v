(** C62-C64 and C80: control flow graphs. *)
From Verif Require Import ListLemmas.
From Verif Require Export CfgProofs3 RemoveCondProofs.
From Coq Require Import ZifyBool ZifyNat Permutation.

(** ** Specification *)
(** The instruction at position [i] is defined. *)
Definition defined_at (program : list cinst) (i : nat) : Prop := exists c, nth_error program i = Some c /\ ci_undefined c = false.
(** [l] is a run of consecutive instructions of the program, leaving out the undefined
    ones. *)
Definition run (program : list cinst) (l : list nat) : Prop := exists from len, l = filter (is_defined program) (seq from len).
(** The block [b] of the graph holds the instruction. *)
Definition holds (st : cfg) (b : Z) (i : nat) : Prop := In b (g_nodes (c_graph st)) /\ In i (instructions st b).
Definition starts_with (st : cfg) (b : Z) (i : nat) : Prop := In b (g_nodes (c_graph st)) /\ exists l, instructions st b = i :: l.
Definition edges (g : digraph) : rel := fun u v => has_edge g u v = true.
(** The defined branch at [i] jumps to the instruction at [t]: the first one at its
    jump address. *)
Definition jumps_to (program : list cinst) (i t : nat) : Prop :=
  exists c d, nth_error program i = Some c /\ ci_undefined c = false /\ ci_branch c = true /\
    nth_error program t = Some d /\ ci_jump c = Some (ci_address d) /\
    forall t' d', (t' < t)%nat -> nth_error program t' = Some d' -> ci_address d' <> ci_address d.

Lemma is_defined_iff p i : is_defined p i = true <-> defined_at p i.
Proof. unfold is_defined, defined_at. destruct (nth_error p i) as [c|]; [|split; [discriminate|intros (c & X & _); discriminate]]. split; [intros H; exists c; destruct (ci_undefined c); [discriminate|auto]|intros (d & [= <-] & ->); auto]. Qed.
Lemma filter_split {A} (f : A -> bool) l : forall a b, filter f l = a ++ b -> exists l1 l2, l = l1 ++ l2 /\ filter f l1 = a /\ filter f l2 = b.
Proof.
  induction l as [|x l IH]; intros a b H.
  - cbn in H. symmetry in H. apply app_eq_nil in H as [-> ->]. exists [], []. auto.
  - cbn [filter] in H. destruct (f x) eqn:F.
    + destruct a as [|y a].
      * exists [], (x :: l). split; [auto|]. split; [auto|]. cbn. now rewrite F.
      * injection H as <- H. destruct (IH a b H) as (l1 & l2 & -> & A1 & A2). exists (x :: l1), l2. split; [auto|]. split; [cbn; now rewrite F, A1|auto].
    + destruct (IH a b H) as (l1 & l2 & -> & A1 & A2). exists (x :: l1), l2. split; [auto|]. split; [cbn; now rewrite F, A1|auto].
Qed.
Lemma seq_split l1 l2 : forall from n, seq from n = l1 ++ l2 -> l1 = seq from (length l1) /\ l2 = seq (from + length l1) (length l2).
Proof.
  induction l1 as [|x l1 IH]; intros from n H.
  - cbn in *. rewrite Nat.add_0_r. split; [auto|]. rewrite <- H at 1. rewrite <- (seq_length n from), H. auto.
  - destruct n as [|n]; [discriminate|]. cbn in H. injection H as <- H. apply IH in H as [A B]. cbn [length seq]. rewrite <- A. split; [auto|]. rewrite B at 1. f_equal. lia.
Qed.
Lemma segment_run p l n : segment l (defined p n) -> run p l.
Proof.
  intros (a & b & H). unfold defined in H. apply filter_split in H as (l1 & l2 & H & _ & H2). apply filter_split in H2 as (l3 & l4 & -> & H3 & _).
  apply seq_split in H as [_ H]. symmetry in H. apply seq_split in H as [H _]. exists (0 + length l1)%nat, (length l3). now rewrite <- H.
Qed.
Lemma branch_to_from_spec p : forall k j t, branch_to_from k p j = Some t -> exists t0 d, t = (k + t0)%nat /\ nth_error p t0 = Some d /\ j = ci_address d /\ forall t' d', (t' < t0)%nat -> nth_error p t' = Some d' -> ci_address d' <> j.
Proof.
  induction p as [|c p IH]; intros k j t H; [discriminate|]. cbn in H. destruct (Z.eqb_spec j (ci_address c)) as [->|n].
  - injection H as <-. exists 0%nat, c. cbn. repeat split; auto; lia.
  - apply IH in H as (t0 & d & -> & A & B & C). exists (S t0), d. split; [lia|]. split; [auto|]. split; [auto|]. intros [|t'] d' L E; cbn in E; [injection E as <-; congruence|]. eapply C; eauto. lia.
Qed.
Lemma branch_to_from_hit p : forall k j t d, nth_error p t = Some d -> j = ci_address d -> (forall t' d', (t' < t)%nat -> nth_error p t' = Some d' -> ci_address d' <> j) -> branch_to_from k p j = Some (k + t)%nat.
Proof.
  induction p as [|c p IH]; intros k j t d H E F; [destruct t; discriminate|]. cbn. destruct t as [|t]; cbn in H.
  - injection H as ->. subst. rewrite Z.eqb_refl. f_equal; lia.
  - destruct (Z.eqb_spec j (ci_address c)) as [->|n]; [exfalso; eapply (F 0%nat c); [lia|reflexivity|reflexivity]|].
    rewrite (IH (S k) j t d H E); [f_equal; lia|]. intros t' d' L E'. apply (F (S t') d'); [lia|exact E'].
Qed.
Lemma jumps_branch_to p i t : jumps_to p i t -> exists c, nth_error p i = Some c /\ ci_undefined c = false /\ ci_branch c = true /\ branch_to p c = Some t.
Proof.
  intros (c & d & A1 & A2 & A3 & A4 & A5 & A6). exists c. repeat split; auto. unfold branch_to. rewrite A5. now apply (branch_to_from_hit p 0 _ t d A4).
Qed.
Lemma holds_node st b i : good st -> In i (instructions st b) -> holds st b i.
Proof. intros G I. split; [|auto]. destruct (in_dec Z.eq_dec b (nodes st)) as [|N]; [auto|]. apply (outside _ _ G) in N as [N _]. rewrite N in I. destruct I. Qed.
Lemma flat_nodup_unique {A} (f : Z -> list A) l : NoDup (flat_map f l) -> NoDup l -> forall x y a, In x l -> In y l -> In a (f x) -> In a (f y) -> x = y.
Proof.
  induction l as [|z l IH]; intros N M x y a X Y Ax Ay; [destruct X|]. cbn in N. apply NoDup_cons_iff in M as [M1 M].
  assert (D : forall b, In b (f z) -> ~ In b (flat_map f l)).
  { clear -N. induction (f z) as [|c q IHq]; intros b B; [destruct B|]. cbn in N. apply NoDup_cons_iff in N as [N1 N]. destruct B as [->|B]; [|now apply IHq]. intros X. apply N1. apply in_app_iff; auto. }
  assert (Nt : NoDup (flat_map f l)). { clear -N. induction (f z); [auto|]. cbn in N. apply NoDup_cons_iff in N as [_ N]. auto. }
  destruct X as [->|X], Y as [->|Y]; auto.
  - exfalso. apply (D a Ax). apply in_flat_map. eauto.
  - exfalso. apply (D a Ay). apply in_flat_map. eauto.
  - eapply IH; eauto.
Qed.
Lemma flat_nodup_each {A} (f : Z -> list A) l x : NoDup (flat_map f l) -> In x l -> NoDup (f x).
Proof.
  induction l as [|z l IH]; intros N X; [destruct X|]. cbn in N. destruct X as [->|X].
  - clear -N. induction (f x) as [|c q IHq]; [constructor|]. cbn in N. apply NoDup_cons_iff in N as [N1 N]. constructor; [intros Y; apply N1, in_app_iff; auto|auto].
  - apply IH; [|auto]. clear -N. induction (f z); [auto|]. cbn in N. apply NoDup_cons_iff in N as [_ N]. auto.
Qed.
Lemma defined_nodup p n : NoDup (defined p n).
Proof. apply NoDup_filter, seq_NoDup. Qed.

(** ** C62 *)
Theorem C62_partition : forall program, exists st,
  build program = Ok st /\
  (forall i, defined_at program i -> exists! b, holds st b i) /\
  (forall b i, holds st b i -> defined_at program i) /\
  (forall b, NoDup (instructions st b) /\ run program (instructions st b)).
Proof.
  intros program. destruct program as [|c0 p0] eqn:Ep.
  { exists (Cfg g_empty [] 0 []). split; [reflexivity|]. split; [intros i (c & X & _); destruct i; discriminate|]. split; [intros b i [[] _]|].
    intros b. split; [constructor|]. exists 0%nat, 0%nat. reflexivity. }
  rewrite <- Ep. destruct (build_ok program) as (st & E & C & _); [congruence|]. exists st. split; [auto|]. pose proof (co_good _ _ _ _ C) as G. pose proof (co_perm _ _ _ _ C) as P.
  assert (Nd : NoDup (insts st)) by (eapply Permutation_NoDup; [symmetry; exact P|apply defined_nodup]).
  assert (Gn : NoDup (g_nodes (c_graph st))) by apply (good_nodup _ G).
  split; [|split].
  - intros i (c & Ec & U). assert (I : In i (insts st)). { rewrite P. apply defined_in. split; [apply nth_error_Some; congruence|]. unfold is_defined. now rewrite Ec, U. }
    apply in_flat_map in I as (b & B & I). exists b. split; [split; auto|]. intros b' [B' I']. eapply (flat_nodup_unique (instructions st)); eauto.
  - intros b i [B I]. apply is_defined_iff. assert (X : In i (insts st)) by (apply in_flat_map; eauto). rewrite P in X. apply defined_in in X. apply X.
  - intros b. split; [|eapply segment_run, co_seg; eauto]. destruct (in_dec Z.eq_dec b (nodes st)) as [B|B]; [eapply (flat_nodup_each (instructions st)); eauto|].
    apply (outside _ _ G) in B as [-> _]. constructor.
Qed.
Print Assumptions C62_partition.
(** A program with a backward jump into the middle of a block, a conditional
    instruction and an undefined one: the first block is split. *)
Definition plain (a : Z) : cinst := Ci false false false 14 a None.
Definition jump (cond a t : Z) : cinst := Ci false true false cond a (Some t).
Definition cfg_example := [plain 0; plain 4; Ci true false false 14 8 None; Ci false false false 0 12 None; jump 14 16 4].
Example C62_example : exists st, build cfg_example = Ok st /\
  map (fun b => (b, instructions st b)) (g_nodes (c_graph st)) = [(1, []); (2, []); (3, [1%nat]); (4, [3%nat]); (5, []); (6, [4%nat]); (7, [0%nat])].
Proof. eexists. split; vm_compute; reflexivity. Qed.

(** ** C63 *)
(** A jump ahead adds no edge: the target is not even the start of a block. *)
Theorem C63_refuted : exists program st i t, build program = Ok st /\ jumps_to program i t /\ defined_at program t /\
  ~ exists b s, holds st b i /\ starts_with st s t /\ edges (c_graph st) b s.
Proof.
  exists [jump 14 0 8; plain 4; plain 8], (match build [jump 14 0 8; plain 4; plain 8] with Ok s => s | Err _ => Cfg g_empty [] 0 [] end), 0%nat, 2%nat.
  split; [vm_compute; reflexivity|]. split.
  { eexists _, _. split; [reflexivity|]. do 2 (split; [reflexivity|]). split; [reflexivity|]. split; [reflexivity|].
    intros [|[|t']] d' L E; cbn in E; try lia; injection E as <-; cbn; lia. }
  split; [eexists; split; reflexivity|]. intros (b & s & _ & (Bs & l & Hs) & _). vm_compute in Bs. destruct Bs as [<-|[<-|[<-|[]]]]; vm_compute in Hs; discriminate.
Qed.
Print Assumptions C63_refuted.
(** Even for a jump back the edge can start elsewhere than in the block of the branch,
    when that block is split later. *)
Theorem C63_back_edge_refuted : exists program st i t, build program = Ok st /\ jumps_to program i t /\ defined_at program t /\ (t < i)%nat /\
  ~ exists b s, holds st b i /\ starts_with st s t /\ edges (c_graph st) b s.
Proof.
  set (p := [plain 0; jump 0 4 0; Ci false false false 0 8 None; jump 14 12 8]).
  exists p, (match build p with Ok s => s | Err _ => Cfg g_empty [] 0 [] end), 1%nat, 0%nat.
  split; [vm_compute; reflexivity|]. split.
  { eexists _, _. split; [reflexivity|]. do 2 (split; [reflexivity|]). split; [reflexivity|]. split; [reflexivity|]. intros t' d' L; lia. }
  split; [eexists; split; reflexivity|]. split; [lia|]. intros (b & s & (Bb & Ib) & (Bs & l & Hs) & Ed). vm_compute in Bb, Bs.
  repeat destruct Bb as [<-|Bb]; try contradiction Bb; vm_compute in Ib; repeat destruct Ib as [Ib|Ib]; try discriminate Ib; try contradiction Ib;
  repeat destruct Bs as [<-|Bs]; try contradiction Bs; vm_compute in Hs; try discriminate Hs; vm_compute in Ed; discriminate Ed.
Qed.
Print Assumptions C63_back_edge_refuted.
(** What holds: a jump to an earlier instruction, or to itself, leaves a path from the
    block of the branch to a block that starts with the target.  Missing: jumps ahead, and
    that the path is one edge. *)
Theorem C63_back_path_partial : forall program st i t,
  build program = Ok st -> jumps_to program i t -> defined_at program t -> (t <= i)%nat ->
  exists b s, holds st b i /\ starts_with st s t /\ path (edges (c_graph st)) b s.
Proof.
  intros program st i t E J D L. destruct (jumps_branch_to _ _ _ J) as (c & A1 & A2 & A3 & A4).
  destruct (build_ok program) as (st' & E' & C & _). { intros ->. destruct i; discriminate. }
  assert (st' = st) as -> by congruence. pose proof (co_good _ _ _ _ C) as G. apply is_defined_iff in D.
  assert (Li : (i < length program)%nat) by (apply nth_error_Some; congruence).
  destruct (co_jump _ _ _ _ C i c t Li A1 A2 A3 A4 L D) as (b & s & B1 & B2 & B3). exists b, s. split; [now apply holds_node|]. split.
  - destruct (instructions st s) as [|t' l] eqn:Is; [discriminate|]. injection B2 as ->. split; [|exists l; auto]. apply (holds_node st s t G). rewrite Is. left; auto.
  - eapply path_mono; [|exact B3]. intros x y. apply has_edge_iff.
Qed.
Print Assumptions C63_back_path_partial.
Example C63_example : exists st, build cfg_example = Ok st /\ jumps_to cfg_example 4 1 /\ defined_at cfg_example 1 /\ has_edge (c_graph st) 6 3 = true.
Proof.
  eexists. split; [vm_compute; reflexivity|]. split; [|split; [eexists; split; reflexivity|reflexivity]].
  eexists _, _. do 3 (split; [reflexivity|]). split; [reflexivity|]. split; [reflexivity|]. intros [|t'] d' L E; [|lia]. cbn in E. injection E as <-. cbn. lia.
Qed.

(** ** C64 *)
Theorem C64_paths : forall is_cond g, constructed g -> exists g',
  remove_conditionals is_cond g = Ok g' /\
  (forall x, In x (g_nodes g') <-> In x (g_nodes g) /\ is_cond x = false) /\
  (forall u v, In u (g_nodes g') -> In v (g_nodes g') -> (path (edges g') u v <-> path (edges g) u v)).
Proof.
  intros c g Cg. pose proof (constructed_wf g Cg) as W. destruct (remove_spec c g W) as (g' & E & W' & N & _). exists g'. split; [auto|]. split; [exact N|].
  intros u v U V. apply N in U, V. assert (X : forall h x y, path (edges h) x y <-> path (edge h) x y) by (intros h x y; split; apply path_mono; intros ? ?; apply has_edge_iff).
  rewrite !X. apply (remove_paths c g g' W E); tauto.
Qed.
Print Assumptions C64_paths.
(** The edges left are exactly the ways over removed nodes only. *)
Theorem C64_edges : forall is_cond g g', constructed g -> remove_conditionals is_cond g = Ok g' -> forall u v, In u (g_nodes g') -> In v (g_nodes g') ->
  (edges g' u v <-> exists l, walk (edges g) u l v /\ Forall (fun x => is_cond x = true) l).
Proof.
  intros c g g' Cg E u v U V. pose proof (constructed_wf g Cg) as W. destruct (remove_spec c g W) as (g1 & E1 & W' & N & H). assert (g1 = g') as -> by congruence. apply N in U, V.
  unfold edges at 1. rewrite has_edge_iff, H. split.
  - intros (_ & _ & l & A & B). exists l. split; [|auto]. eapply walk_mono; [|exact A]. intros x y. apply has_edge_iff.
  - intros (l & A & B). split; [tauto|]. split; [tauto|]. exists l. split; [|auto]. eapply walk_mono; [|exact A]. intros x y. apply has_edge_iff.
Qed.
Print Assumptions C64_edges.
(** Every built graph can be treated this way. *)
Theorem C64_built : forall program st is_cond, build program = Ok st -> exists g',
  remove_conditionals is_cond (c_graph st) = Ok g' /\
  (forall x, In x (g_nodes g') <-> In x (g_nodes (c_graph st)) /\ is_cond x = false) /\
  (forall u v, In u (g_nodes g') -> In v (g_nodes g') -> (path (edges g') u v <-> path (edges (c_graph st)) u v)).
Proof.
  intros program st c E. assert (W : wf (c_graph st)).
  { destruct program as [|c0 p0]; [injection E as <-; apply wf_empty|]. destruct (build_ok (c0 :: p0)) as (st' & E' & C & _); [discriminate|]. assert (st' = st) as -> by congruence. apply (co_good _ _ _ _ C). }
  destruct (remove_spec c _ W) as (g' & E' & W' & N & _). exists g'. split; [auto|]. split; [exact N|].
  intros u v U V. apply N in U, V. assert (X : forall h x y, path (edges h) x y <-> path (edge h) x y) by (intros h x y; split; apply path_mono; intros ? ?; apply has_edge_iff).
  rewrite !X. apply (remove_paths c _ g' W E'); tauto.
Qed.
Print Assumptions C64_built.
Definition of_edges (ns : list Z) (es : list (Z * Z)) : result digraph :=
  let* g := foldM add_node ns g_empty in foldM (fun g e => add_edge g (fst e) (snd e)) es g.
Lemma of_edges_constructed ns es g : of_edges ns es = Ok g -> constructed g.
Proof.
  unfold of_edges. intros H. destruct (foldM add_node ns g_empty) as [g0|] eqn:E0; [|discriminate]. cbn [bind] in H.
  assert (C0 : constructed g0).
  { assert (G : forall l h h', constructed h -> foldM add_node l h = Ok h' -> constructed h').
    { induction l as [|x l IH]; intros h h' Ch Hl; [injection Hl as <-; auto|]. cbn in Hl. destruct (add_node h x) eqn:E; [|discriminate]. cbn in Hl. eapply IH; [eapply con_node; eauto|eauto]. }
    eapply G; [apply con_empty|eauto]. }
  clear E0. revert g0 C0 H. induction es as [|e es IH]; intros g0 C0 H; [injection H as <-; auto|]. cbn in H. destruct (add_edge g0 (fst e) (snd e)) eqn:E; [|discriminate]. cbn in H. eapply IH; [eapply con_edge; eauto|eauto].
Qed.
(** Two conditional nodes in a row, one of them in a loop. *)
Example C64_example : exists g g', of_edges [1; 2; 3; 4; 5] [(1, 2); (2, 3); (3, 2); (3, 4); (2, 5); (5, 1)] = Ok g /\ constructed g /\
  remove_conditionals (fun n => (n =? 2) || (n =? 3)) g = Ok g' /\ node_neighbors g' = [(1, [5; 4]); (4, []); (5, [1])].
Proof.
  eexists _, _. split; [vm_compute; reflexivity|]. split; [|split; vm_compute; reflexivity].
  eapply (of_edges_constructed [1; 2; 3; 4; 5] [(1, 2); (2, 3); (3, 2); (3, 4); (2, 5); (5, 1)]). vm_compute. reflexivity.
Qed.

(** ** C80 *)
Theorem C80_refuted : exists program st b i l, build program = Ok st /\ In b (g_nodes (c_graph st)) /\ instructions st b = i :: l /\ l <> [] /\
  exists c, nth_error program i = Some c /\ ci_branch c = true.
Proof.
  exists [jump 14 0 0; plain 4], (match build [jump 14 0 0; plain 4] with Ok s => s | Err _ => Cfg g_empty [] 0 [] end), 3, 0%nat, [1%nat].
  split; [vm_compute; reflexivity|]. split; [vm_compute; auto|]. split; [vm_compute; reflexivity|]. split; [discriminate|]. eexists. split; reflexivity.
Qed.
Print Assumptions C80_refuted.
(** What holds: control never passes from one instruction of a block into a branch
    further down: every branch is the first of its block.  Missing: that it is also the
    last. *)
Theorem C80_branch_first_partial : forall program st b i l j c, build program = Ok st -> instructions st b = i :: l -> In j l -> nth_error program j = Some c -> ci_branch c = false.
Proof.
  intros program st b i l j c E I J Ec. destruct (build_ok program) as (st' & E' & C & _). { intros ->. destruct j; discriminate. }
  assert (st' = st) as -> by congruence. pose proof (co_branch _ _ _ _ C b j) as X. rewrite I in X. specialize (X J). unfold is_branch in X. now rewrite Ec in X.
Qed.
Print Assumptions C80_branch_first_partial.
Example C80_example : exists st, build [plain 0; plain 4; jump 14 8 0] = Ok st /\ instructions st 3 = [0%nat; 1%nat] /\ instructions st 4 = [2%nat].
Proof. eexists. split; [vm_compute; reflexivity|split; vm_compute; reflexivity]. Qed.
