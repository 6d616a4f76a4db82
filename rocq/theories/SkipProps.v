(** C126: the SSA form of a sequence of blocks some of which may be skipped. *)
From Verif Require Import ListLemmas CfgProps DomProps SsaProps.
From Verif Require Export SkipProofs3.
From Coq Require Import ZifyBool ZifyNat.

(** What the theorems say about a finished form. *)
Definition in_range (p : sprog) : Prop := forall i x, In x (p_reads p i ++ p_writes p i) -> 0 <= x < 20.
(** Whichever way control takes to a read, the name read is the last definition passed: the
    index found is that of the phi functions and instructions on the way, or 0 if none of
    them defines the storage. *)
Definition reads_reach (p : sprog) (g : digraph) (root : Z) (st : ssa) : Prop :=
  forall l b i1 i i2 r, way (edges g) root (l ++ [b]) b -> p_inst p b = i1 ++ i :: i2 -> In r (p_reads p i) ->
  forall k, In (r, k) (s_read st i) <-> k = reach r 0 (flat_map (block_names p st) l ++ map fst (s_phi st b) ++ flat_map (s_written st) i1).
(** A phi function has an argument for every predecessor of its block: the last definition
    passed when control comes from there. *)
Definition phis_reach (p : sprog) (g : digraph) (root : Z) (st : ssa) : Prop :=
  forall b r k args, In ((r, k), args) (s_phi st b) -> exists preds f, NoDup preds /\ (forall u, In u preds <-> edges g u b) /\ args = map (fun u => (r, f u)) preds /\
  forall l u, way (edges g) root (l ++ [u]) u -> edges g u b -> f u = reach r 0 (flat_map (block_names p st) (l ++ [u])).

Lemma storages_in p : in_range p -> forall i, Forall storage (p_reads p i) /\ Forall storage (p_writes p i).
Proof. intros H i. split; apply Forall_forall; intros x I; apply (H i); apply in_app_iff; auto. Qed.
Lemma edges_edge g : forall u v, edges g u v <-> edge g u v. Proof. intros. apply has_edge_iff. Qed.

Lemma sequence_ssa p g root c e skip : constructed g -> In e (g_nodes g) -> filter (fun n => negb (n =? e)) (g_nodes g) = root :: c -> sequence (edges g) (root :: c) e skip ->
  (forall b, In b (g_nodes g) -> p_end p b = true <-> b = e) -> p_inst p e = [] -> NoDup (flat_map (p_inst p) (g_nodes g)) -> in_range p ->
  exists st vg, build_ssa p g root = Ok (st, vg) /\ reads_reach p g root st /\ phis_reach p g root st.
Proof.
  intros Cg Ie Eg Sq Pe Ei Nd Rg. pose proof (constructed_wf g Cg) as Wf. assert (Ng : NoDup (g_nodes g)) by apply Wf.
  assert (Sp : exists l1 l2, g_nodes g = l1 ++ e :: l2 /\ root :: c = l1 ++ l2).
  { apply in_split in Ie as (l1 & l2 & El). exists l1, l2. split; [auto|]. rewrite <- Eg, El, filter_app. cbn [filter]. rewrite Z.eqb_refl. cbn [negb]. rewrite El in Ng. apply NoDup_remove_2 in Ng. rewrite in_app_iff in Ng.
    assert (H : forall l, ~ In e l -> filter (fun n => negb (n =? e)) l = l) by (clear; induction l as [|x l IH]; intros N; [auto|]; cbn [filter]; destruct (Z.eqb_spec x e) as [->|]; [destruct N; left; auto|]; cbn [negb]; rewrite IH; [auto|intros Q; apply N; right; auto]).
    rewrite !H by auto. auto. }
  destruct Sp as (l1 & l2 & El & Ec). set (F := (root :: c) ++ [e]).
  assert (NF : NoDup F). { unfold F. rewrite Ec. rewrite El in Ng. pose proof (NoDup_remove _ _ _ Ng) as [N1 N2]. apply nodup_snoc; auto. }
  assert (Fg : forall x, In x F <-> In x (g_nodes g)) by (intros x; unfold F; rewrite Ec, El, !in_app_iff; cbn [In]; tauto).
  assert (Sf : seqf (edges g) F root e skip) by (apply sequence_seqf; auto). assert (Nr : In root (g_nodes g)) by (apply Fg; left; auto).
  pose proof (fun v => seq_reach _ _ _ _ _ v Sf) as Rx.
  destruct (proj1 (C65_returns g root Cg Nr)) as ([h tree] & E1). { intros v w E _ _. apply Rx. exact (proj1 (sf_edge _ _ _ _ _ Sf v w E)). }
  destruct (C66_frontier g root h tree Cg Nr E1) as (df & E2 & _ & Hdf). destruct (C81_total p g root h tree df Cg Nr E1 E2) as (gl & phi & E3). destruct (C81_placement p g df gl phi E3) as (_ & Hgl & Npl & Hpl).
  destruct (C65_immediate_dominators g root h tree Cg Nr E1) as [Hid _]. destruct (C65_tree g root h tree Cg Nr E1) as (_ & _ & Hch & _).
  assert (Id : forall v d, h_idom h v = Some d <-> In v F /\ immediate (edges g) root d v) by (intros v d; rewrite Hid, Rx; tauto).
  assert (Ch : forall d v, In v (h_children h d) <-> h_idom h v = Some d) by (intros d v; rewrite Hch, Hid; tauto).
  assert (As : forall d, asc F (h_children h d)). { intros d. rewrite (children_order g root h tree Wf E1), El, (children_seq (edges g) F root e skip (h_idom h) l1 l2 Sf); auto; [apply asc_filter, asc_self; auto|unfold F; now rewrite Ec]. }
  destruct (ssa_total p g root h tree df gl phi Cg Nr E1 E2 E3 (storages_in p Rg)) as (st & vg & E).
  { intros n x Ne Ex Lf. pose proof (last_leaf _ _ _ _ _ (h_idom h) (h_children h) Sf Id Ch As n x Ne Ex Lf) as ->. destruct (placed phi e) as [|y l] eqn:Ep; [auto|]. assert (I : In y (placed phi e)) by (rewrite Ep; left; auto). apply Hpl in I as [_ S]. assert (Q : p_end p e = false) by (inversion S; auto). rewrite (proj2 (Pe e Ie) eq_refl) in Q. discriminate. }
  exists st, vg. split; [exact E|].
  destruct (C68_numbers p g root st vg h tree df gl phi Cg Nr Nd E E1 E2 E3) as (o1 & P1 & _ & O1 & _ & Nm). assert (o1 = F) by (eapply order_is; eauto). subst o1.
  destruct (C83_arguments p g root st vg h tree df gl phi Cg Nr Nd E E1 E2 E3) as (o2 & P2 & _ & O2 & Ar). assert (o2 = F) by (eapply order_is; eauto). subst o2.
  pose proof (C81_kept p g root st vg h tree df gl phi Cg Nr Nd E E1 E2 E3) as Kp.
  assert (Rn : renamed p st phi F).
  { split; [exact Npl| | |exact Kp].
    - intros b i1 i i2 B Eb. apply (Nm b i1 i i2 B Eb).
    - intros b v k B I. apply in_map_iff in I as ([[v' k'] args] & Q & I). cbn [fst] in Q. injection Q as -> ->. apply (Ar b v k args I). }
  assert (Jn : forall r, In r gl -> joined (edges g) p phi F root e r).
  { intros r G d b D B Nb Eb Nsd I. apply Hpl. split; [auto|]. assert (Q : In b (df d)). { apply (Hdf d b); [now apply Rx|]. split; [now apply Rx|]. exists d. split; [auto|]. split; [now apply Rx|]. split; [apply self_dominates|auto]. }
    assert (Pb : p_end p b = false) by (destruct (p_end p b) eqn:X; [|auto]; apply (Pe b) in X; [contradiction|now apply Fg]).
    unfold definitions in I. apply in_app_iff in I as [I|I].
    - apply Hpl in I as [_ S]. eapply spread_step; eauto.
    - apply in_flat_map in I as (i & I1 & I2). eapply (spread_one _ _ _ d b); eauto. split; [now apply Fg|eauto]. }
  assert (Ne : forall l b, way (edges g) root (l ++ [b]) b -> p_inst p b <> [] -> b <> e) by (intros l b _ X ->; auto).
  split.
  - intros l b i1 i i2 r W Eb Rr k. assert (B : In b F) by exact (proj1 (way_pos _ _ _ _ _ _ _ _ Sf (proj1 (sf_root _ _ _ _ _ Sf)) W)). assert (Nb : b <> e) by (intros ->; rewrite Ei in Eb; destruct i1; discriminate).
    destruct (Nm b i1 i i2 B Eb) as (Rd & _ & _). rewrite Rd, occ_app. fold (upto p phi F r b). rewrite reach_app. set (k0 := reach r 0 (flat_map (block_names p st) l)).
    destruct (reach_block p st phi F r b i1 (i :: i2) k0 Rn B Eb) as [H1 H2]. assert (Ex : In r (flat_map (p_writes p) i1) \/ ~ In r (flat_map (p_writes p) i1)) by (destruct (in_dec Z.eq_dec r (flat_map (p_writes p) i1)); auto).
    assert (H : reach r k0 (map fst (s_phi st b) ++ flat_map (s_written st) i1) = upto p phi F r b + occ r (placed phi b ++ flat_map (p_writes p) i1)); [|rewrite H; tauto].
    destruct Ex as [Ex|Ex]; [apply H2; right; apply occ_in in Ex; lia|].
    assert (Xp : exposed p (p_inst p b) r). { exists i1, i, i2. split; [auto|]. split; [auto|]. intros j J Wj. apply Ex, in_flat_map. eauto. }
    destruct (in_dec Z.eq_dec r (placed phi b)) as [Pl|Pl].
    + apply H2. left. apply Kp. split; [auto|]. intros (j1 & j & j2 & Ej & Wj & Rj & Hj). rewrite Eb in Ej.
      assert (C : In j i1 \/ j = i \/ In i j1). { revert Ej. clear. revert j1. induction i1 as [|x i1 IH]; intros [|y j1] Ej; cbn [app] in Ej; injection Ej as -> Ej; cbn [In]; auto. destruct (IH j1 Ej) as [?|[?|?]]; auto. }
      destruct C as [C|[->|C]]; [apply Ex, in_flat_map; eauto|auto|destruct (Hj i C); auto].
    + rewrite H1 by (rewrite occ_app, (occ_0 _ _ Pl), (occ_0 _ _ Ex); lia). rewrite occ_app, (occ_0 _ _ Pl), (occ_0 _ _ Ex), !Z.add_0_r. apply (reach_entry _ _ _ _ _ _ _ _ r Sf Rn) with (n := length l); auto.
      apply Jn, Hgl. exists b. split; [now apply Fg|auto].
  - intros b r k args I. destruct (Ar b r k args I) as (_ & ->). exists (filter (fun n => has_edge g n b) F), (fun n => occ r (flat_map (definitions p (placed phi)) (before n F ++ [n]))). split; [now apply NoDup_filter|].
    split; [intros u; rewrite filter_In; split; [intros [_ Q]; exact Q|intros Q; split; [exact (proj1 (sf_edge _ _ _ _ _ Sf u b Q))|exact Q]]|]. split; [auto|].
    intros l u W Eu. assert (Nu : u <> e). { intros ->. destruct (sf_edge _ _ _ _ _ Sf e b Eu) as (_ & B & L & _). destruct (sf_end _ _ _ _ _ Sf) as [_ Q]. pose proof (proj1 (pos_lt F b) B). lia. }
    assert (Gr : In r gl). { assert (Pl : In r (placed phi b)). { apply (Kp b r). exists k. apply in_map_iff. exists ((r, k), map (fun n : Z => (r, occ r (flat_map (definitions p (placed phi)) (before n F ++ [n])))) (filter (fun n : Z => has_edge g n b) F)). auto. } apply Hpl in Pl. tauto. }
    rewrite (reach_exit _ _ _ _ _ _ _ _ r l u Sf Rn (Jn r Gr) W Nu). rewrite flat_map_app, occ_app. cbn [flat_map]. rewrite app_nil_r. reflexivity.
Qed.

(** C126.  [C68_refuted] shows that the names found are wrong for some graphs.  For blocks that
    follow one another, some of which may be passed over, the form is built and every read
    and every argument of a phi function is the last definition passed, whichever way control
    took. *)
Theorem C126_sequence_ssa : forall p g root c e skip, constructed g -> In e (g_nodes g) -> filter (fun n => negb (n =? e)) (g_nodes g) = root :: c -> sequence (edges g) (root :: c) e skip ->
  (forall b, In b (g_nodes g) -> p_end p b = true <-> b = e) -> p_inst p e = [] -> NoDup (flat_map (p_inst p) (g_nodes g)) -> in_range p ->
  exists st vg, build_ssa p g root = Ok (st, vg) /\ reads_reach p g root st /\ phis_reach p g root st.
Proof. exact sequence_ssa. Qed.
Print Assumptions C126_sequence_ssa.
(** Block 3 defines [x0], block 4 may be skipped and defines it again from the first value,
    block 5 reads it. *)
Definition skip_prog := program [([], [x0]); ([x0], [x0]); ([x0], [])] [(3, [0%nat]); (4, [1%nat]); (5, [2%nat])] [2].
Definition skip_cfg := of_edges [1; 2; 3; 4; 5] [(1, 3); (3, 4); (3, 5); (4, 5); (5, 2)].
Ltac split_lists := repeat match goal with
  | H : [] = ?a ++ _ :: _ |- _ => destruct a; discriminate H
  | H : _ :: _ = ?a ++ _ |- _ => is_var a; destruct a; cbn [app] in H
  | H : _ :: _ = _ :: _ |- _ => injection H; clear H; intros; subst
  | H : [] = _ :: _ |- _ => discriminate H
  | H : [] = ?a ++ _ |- _ => is_var a; destruct a; cbn [app] in H
  | H : Forall _ (_ :: _) |- _ => inversion H; clear H; subst
  end.
Example C126_example : exists g st vg, skip_cfg = Ok g /\ constructed g /\ filter (fun n => negb (n =? 2)) (g_nodes g) = [1; 3; 4; 5] /\ sequence (edges g) [1; 3; 4; 5] 2 (fun b => b =? 4) /\
  (forall b, In b (g_nodes g) -> p_end skip_prog b = true <-> b = 2) /\ NoDup (flat_map (p_inst skip_prog) (g_nodes g)) /\ in_range skip_prog /\
  build_ssa skip_prog g 1 = Ok (st, vg) /\ s_phi st 5 = [((x0, 3), [(x0, 1); (x0, 2)])] /\ s_read st 1 = [(x0, 1)] /\ s_read st 2 = [(x0, 3)].
Proof.
  destruct skip_cfg as [g|] eqn:Eg; [|discriminate]. exists g. assert (Cg : constructed g) by (eapply of_edges_constructed; exact Eg). injection Eg as <-. do 2 eexists. split; [reflexivity|]. split; [exact Cg|]. split; [reflexivity|].
  split; [|split; [|split; [|split; [|split; [vm_compute; reflexivity|split; [vm_compute; reflexivity|split; vm_compute; reflexivity]]]]]].
  - intros u v. unfold edges. split.
    + intros H. apply has_edge_iff in H. unfold edge, nb in H. cbn in H.
      repeat match type of H with context [if (?x =? ?y)%Z then _ else _] => destruct (Z.eqb_spec x y); [subst|] end; cbn in H; repeat destruct H as [<-|H]; try contradiction;
      first [right; split; [reflexivity|exists [1; 3; 4]; reflexivity] | left; first [exists [], [], [4; 5]; split; [reflexivity|constructor] | exists [1], [], [5]; split; [reflexivity|constructor] | exists [1; 3], [], []; split; [reflexivity|constructor] | exists [1], [4], []; split; [reflexivity|repeat constructor]]].
    + intros [(a & b & d & E & F)|(-> & a & E)]; split_lists; try reflexivity; try discriminate.
  - intros b Ib. cbn in Ib. repeat destruct Ib as [<-|Ib]; try contradiction; vm_compute; split; congruence.
  - vm_compute. repeat (constructor; [cbn; intuition discriminate|]). constructor.
  - intros i x Ix. do 3 (destruct i as [|i]; [cbn in Ix; unfold x0, storage_count in *; intuition lia|]). destruct i; destruct Ix.
Qed.
