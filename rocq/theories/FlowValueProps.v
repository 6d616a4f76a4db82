(** C135: the value dependency graph of a program without branches. *)
From Verif Require Import ListLemmas InstModel InstSpec InstProps SsaProps.
From Verif Require Export FlowWordProps ValueProofs.
From Coq Require Import ZifyBool ZifyNat Sorted.

(** ** Specification *)
(** The defined instructions from [a] to [b] have the same condition: they are executed
    together or not at all. *)
Definition same_run (program : list cinst) (a b : nat) : Prop :=
  forall y c d, (a <= y <= b)%nat -> nth_error program y = Some c -> ci_undefined c = false -> nth_error program a = Some d -> ci_cond c = ci_cond d.
(** An execution can pass over [x] and still reach [i]. *)
Definition avoidable (program : list cinst) (x i : nat) : Prop := ~ condition program x 14 /\ ~ same_run program x i.
(** [i] may read the value of the storage [r] that [j] writes: whatever else writes it between
    the two can be passed over, and need not be executed because [j] is. *)
Definition may_see (program : list cinst) (writes : nat -> list Z) (r : Z) (j i : nat) : Prop :=
  (j < i)%nat /\ defined_at program j /\ In r (writes j) /\
  forall x, (j < x < i)%nat -> defined_at program x -> In r (writes x) -> avoidable program x i /\ ~ same_run program j x.
(** [i] may read the value that [r] had at the start. *)
Definition may_keep (program : list cinst) (writes : nat -> list Z) (r : Z) (i : nat) : Prop :=
  forall x, (x < i)%nat -> defined_at program x -> In r (writes x) -> avoidable program x i.
(** What the SSA form and the value dependency graph say about the values read and written:
    going back from the name that an instruction reads through phi functions one comes to
    the names written by exactly the instructions whose value it may read, and to the name
    with number 0 exactly if it may read what was there at the start.  A name that an
    instruction writes depends on the names the instruction reads. *)
Definition shows_flow (program : list cinst) (reads writes : nat -> list Z) (s : ssa) (vg : vgraph) : Prop :=
  (forall i r, defined_at program i -> In r (reads i) -> exists k, (forall k', In (r, k') (s_read s i) <-> k' = k) /\
     (forall j, may_see program writes r j i <-> exists kj, In (r, kj) (s_written s j) /\ carried s vg (r, kj) (r, k)) /\
     (may_keep program writes r i <-> carried s vg (r, 0) (r, k))) /\
  forall i a b, In b (s_written s i) -> (In (a, b) (v_edges vg) <-> In a (s_read s i)).

(** ** Blocks and runs *)
Lemma sorted_split {A} (R : A -> A -> Prop) l1 x l2 : StronglySorted R (l1 ++ x :: l2) -> (forall y, In y l1 -> R y x) /\ (forall y, In y l2 -> R x y).
Proof.
  induction l1 as [|z l1 IH]; cbn [app]; intros H; apply StronglySorted_inv in H as [H F]; rewrite Forall_forall in F.
  - split; [intros y []|auto].
  - destruct (IH H) as [A1 A2]. split; [|auto]. intros y [<-|Y]; [apply F, in_app_iff; right; left; auto|auto].
Qed.
Lemma seq_sorted n : forall s, StronglySorted lt (seq s n).
Proof. induction n as [|n IH]; intros s; cbn [seq]; constructor; [auto|]. apply Forall_forall. intros y Y. apply in_seq in Y. lia. Qed.
Lemma filter_sorted {A} (R : A -> A -> Prop) f l : StronglySorted R l -> StronglySorted R (filter f l).
Proof. induction 1 as [|x l H IH F]; cbn [filter]; [constructor|]. destruct (f x); [|auto]. constructor; [auto|]. rewrite Forall_forall in *. intros y Y. apply filter_In in Y as [Y _]. auto. Qed.
Lemma positions_sorted program : StronglySorted lt (positions program). Proof. apply filter_sorted, seq_sorted. Qed.
Lemma positions_in program x : In x (positions program) <-> defined_at program x.
Proof.
  unfold positions, defined_at. rewrite filter_In, in_seq. destruct (nth_error program x) as [c|] eqn:E.
  - assert (x < length program)%nat by (apply nth_error_Some; congruence). split; [intros [_ U]; exists c; split; [auto|destruct (ci_undefined c); [discriminate|auto]]|intros (d & [= <-] & ->); split; [lia|auto]].
  - split; [intros [_ U]; discriminate|intros (d & U & _); discriminate].
Qed.
Lemma sorted_app {A} (R : A -> A -> Prop) l1 l2 x y : StronglySorted R (l1 ++ l2) -> In x l1 -> In y l2 -> R x y.
Proof. intros H I J. apply in_split in I as (a & b & ->). rewrite <- app_assoc in H. cbn [app] in H. apply (proj2 (sorted_split R a x (b ++ l2) H)), in_app_iff. auto. Qed.
Lemma sorted_mid {A} (R : A -> A -> Prop) l1 l2 l3 : StronglySorted R (l1 ++ l2 ++ l3) -> StronglySorted R (l1 ++ l3).
Proof.
  induction l1 as [|x l1 IH]; cbn [app]; intros H.
  - induction l2 as [|y l2 IH2]; cbn [app] in H; [auto|]. apply StronglySorted_inv in H as [H _]. auto.
  - apply StronglySorted_inv in H as [H F]. constructor; [auto|]. rewrite Forall_forall in *. intros y Y. apply F. rewrite in_app_iff in *. rewrite in_app_iff. tauto.
Qed.

Lemma runs_before program st B skip u v B1 B2 x y : runs program st B skip -> B = B1 ++ u :: B2 -> In v B2 -> In x (instructions st u) -> In y (instructions st v) -> (x < y)%nat.
Proof.
  intros Rn -> V X Y. pose proof (positions_sorted program) as S. rewrite <- (runs_all _ _ _ _ Rn), flat_map_app in S. cbn [flat_map] in S.
  apply (sorted_app lt (flat_map (instructions st) B1 ++ instructions st u) (flat_map (instructions st) B2)); [now rewrite <- app_assoc|apply in_app_iff; auto|apply in_flat_map; eauto].
Qed.
Lemma runs_owner program st B skip x : runs program st B skip -> defined_at program x <-> exists b, In b B /\ In x (instructions st b).
Proof. intros Rn. rewrite <- positions_in, <- (runs_all _ _ _ _ Rn). apply in_flat_map. Qed.
Lemma runs_unique program st B skip u v x : NoDup B -> runs program st B skip -> In u B -> In v B -> In x (instructions st u) -> In x (instructions st v) -> u = v.
Proof.
  intros Nd Rn U V X Y. apply in_split in U as (B1 & B2 & E). rewrite E in V. apply in_app_iff in V as [V|[V|V]]; [|auto|pose proof (runs_before _ _ _ _ u v B1 B2 x x Rn E V X Y); lia].
  apply in_split in V as (a & d & ->). rewrite <- app_assoc in E. cbn [app] in E. pose proof (runs_before _ _ _ _ v u a (d ++ u :: B2) x x Rn E ltac:(apply in_app_iff; right; left; auto) Y X). lia.
Qed.
Lemma runs_run program st B skip u v a x : NoDup B -> runs program st B skip -> In u B -> In v B -> In a (instructions st u) -> In x (instructions st v) -> (a <= x)%nat -> same_run program a x <-> u = v.
Proof.
  intros Nd Rn U V A X L. assert (Da : defined_at program a) by (apply (runs_owner _ _ _ _ _ Rn); eauto). assert (Dx : defined_at program x) by (apply (runs_owner _ _ _ _ _ Rn); eauto). split.
  - intros S. apply in_split in U as (B1 & B2 & E). pose proof V as V'. rewrite E in V. apply in_app_iff in V as [V|[V|V]]; [|auto|].
    + exfalso. apply in_split in V as (l & d & ->). rewrite <- app_assoc in E. cbn [app] in E. pose proof (runs_before _ _ _ _ v u l (d ++ u :: B2) x a Rn E ltac:(apply in_app_iff; right; left; auto) X A). lia.
    + exfalso. destruct B2 as [|w B2]; [destruct V|]. assert (W : exists y, In y (instructions st w) /\ (a <= y <= x)%nat).
      { destruct V as [->|V]; [exists x; auto|]. assert (Iw : In w B) by (rewrite E; apply in_app_iff; right; right; left; auto). destruct (instructions st w) as [|y l] eqn:Ey; [destruct (runs_some _ _ _ _ Rn w Iw Ey)|]. exists y. split; [left; auto|].
        assert (Yw : In y (instructions st w)) by (rewrite Ey; left; auto). split.
        - apply Nat.lt_le_incl, (runs_before _ _ _ _ u w B1 (w :: B2) a y Rn E ltac:(left; auto) A Yw).
        - apply Nat.lt_le_incl, (runs_before _ _ _ _ w v (B1 ++ [u]) B2 y x Rn ltac:(rewrite E, <- app_assoc; reflexivity) V Yw X). }
      destruct W as (y & Yw & Ly). destruct Da as (d & Ed & _). assert (Dy : defined_at program y) by (apply (runs_owner _ _ _ _ _ Rn); exists w; split; [rewrite E; apply in_app_iff; right; right; left; auto|auto]). destruct Dy as (c & Ec & Uc).
      apply (runs_next _ _ _ _ Rn B1 u w B2 a y d c E A Yw Ed Ec). symmetry. eapply S; eauto.
  - intros <- y c d Ly Ec Uc Ed. assert (Dy : defined_at program y) by (exists c; auto). apply (runs_owner _ _ _ _ _ Rn) in Dy as (w & W & Y). assert (w = u) as ->.
    { apply in_split in U as (B1 & B2 & E). rewrite E in W. apply in_app_iff in W as [W|[W|W]]; [exfalso|auto|exfalso].
      - apply in_split in W as (l & m & ->). rewrite <- app_assoc in E. cbn [app] in E. pose proof (runs_before _ _ _ _ w u l (m ++ u :: B2) y a Rn E ltac:(apply in_app_iff; right; left; auto) Y A). lia.
      - pose proof (runs_before _ _ _ _ u w B1 B2 x y Rn E W X Y). lia. }
    now apply (runs_same _ _ _ _ Rn u y a c d).
Qed.

(** ** Executions *)
Lemma kept_from skip l m : SkipProofs4.kept skip l m -> (forall x, In x m -> In x l) /\ forall x, In x l -> skip x = false -> In x m.
Proof. induction 1 as [|b l m H [I1 I2]|b l m S H [I1 I2]]; [split; [auto|intros x []]|..]; (split; [intros x X|intros x X Q]); cbn [In] in *; [destruct X; auto|destruct X; auto|auto|destruct X as [<-|X]; [congruence|auto]]. Qed.
Lemma kept_filter skip f l : (forall x, In x l -> f x = false -> skip x = true) -> SkipProofs4.kept skip l (filter f l).
Proof. induction l as [|b l IH]; intros H; cbn [filter]; [constructor|]. destruct (f b) eqn:E; [apply kept_take|apply kept_leave; [apply H; [left|]; auto|]]; apply IH; intros x X; apply H; right; auto. Qed.
Lemma kept_sorted skip (f : Z -> list nat) t l m : SkipProofs4.kept skip l m -> StronglySorted lt (flat_map f l ++ t) -> StronglySorted lt (flat_map f m ++ t).
Proof.
  intros K. enough (G : forall h, StronglySorted lt (h ++ flat_map f l ++ t) -> StronglySorted lt (h ++ flat_map f m ++ t)) by apply (G []).
  induction K as [|b l m K IH|b l m S K IH]; intros h H; cbn [flat_map] in *; [auto| |].
  - rewrite <- app_assoc, app_assoc in *. now apply IH.
  - rewrite <- app_assoc in H. apply IH. eapply sorted_mid. exact H.
Qed.

Lemma executions program st B skip B1 b B2 i1 i i2 p r : NoDup B -> runs program st B skip -> B = B1 ++ b :: B2 -> instructions st b = i1 ++ i :: i2 ->
  (forall j, may_see program (p_writes p) r j i <-> exists L, SkipProofs4.kept skip B1 L /\ last_writer p r None (flat_map (instructions st) L ++ i1) = Some j) /\
  (may_keep program (p_writes p) r i <-> exists L, SkipProofs4.kept skip B1 L /\ last_writer p r None (flat_map (instructions st) L ++ i1) = None).
Proof.
  intros Nd Rn EB Ei. assert (Ib : In b B) by (rewrite EB; apply in_app_iff; right; left; auto). assert (Ii : In i (instructions st b)) by (rewrite Ei; apply in_app_iff; right; left; auto).
  assert (I1 : forall c, In c B1 -> In c B) by (intros c C; rewrite EB; apply in_app_iff; auto). assert (Nb : ~ In b B1) by (rewrite EB in Nd; apply NoDup_remove_2 in Nd; rewrite in_app_iff in Nd; auto).
  assert (I2 : forall x, In x i1 -> In x (instructions st b)) by (intros x X; rewrite Ei; apply in_app_iff; auto).
  assert (Sp : StronglySorted lt (flat_map (instructions st) B1 ++ i1 ++ i :: i2 ++ flat_map (instructions st) B2)).
  { pose proof (positions_sorted program) as S. rewrite <- (runs_all _ _ _ _ Rn), EB, flat_map_app in S. cbn [flat_map] in S. rewrite Ei, <- app_assoc in S. exact S. }
  assert (All : forall x, defined_at program x -> (x < i)%nat -> (exists c, In c B1 /\ In x (instructions st c)) \/ In x i1).
  { intros x D L. apply positions_in in D. rewrite <- (runs_all _ _ _ _ Rn), EB, flat_map_app in D. cbn [flat_map] in D. rewrite Ei, <- app_assoc in D. rewrite !in_app_iff in D. rewrite app_assoc in Sp. pose proof (proj2 (sorted_split lt _ _ _ Sp)) as G.
    destruct D as [D|[D|D]]; [left; now apply in_flat_map|auto|]. exfalso. assert (Q : i = x \/ In x (i2 ++ flat_map (instructions st) B2)) by (rewrite in_app_iff; cbn [In app] in D; tauto). destruct Q as [Q|Q]; [lia|]. apply G in Q. lia. }
  assert (Srt : forall L, SkipProofs4.kept skip B1 L -> StronglySorted lt ((flat_map (instructions st) L ++ i1) ++ i :: i2 ++ flat_map (instructions st) B2)) by (intros L K; rewrite <- app_assoc; eapply kept_sorted; eauto).
  assert (Own : forall L x, SkipProofs4.kept skip B1 L -> In x (flat_map (instructions st) L ++ i1) -> (x < i)%nat /\ exists c, In c B /\ In x (instructions st c) /\ (In c L \/ c = b /\ In x i1)).
  { intros L x K X. split; [apply (proj1 (sorted_split lt _ _ _ (Srt L K))); auto|]. apply in_app_iff in X as [X|X]; [apply in_flat_map in X as (c & C & X); exists c; split; [apply I1; apply (kept_from _ _ _ K); auto|auto]|exists b; auto]. }
  assert (Skp : forall c x, In c B -> In x (instructions st c) -> skip c = true <-> ~ condition program x 14).
  { intros c x C X. assert (D : defined_at program x) by (apply (runs_owner _ _ _ _ _ Rn); eauto). destruct D as (d & Ed & Ud). rewrite (runs_one _ _ _ _ Rn c x d C X Ed). unfold condition. destruct (Z.eqb_spec (ci_cond d) 14) as [Q|Q]; cbn [negb]; split.
    - discriminate.
    - intros N. exfalso. apply N. eauto.
    - intros _ (d' & Ed' & Q'). congruence.
    - auto. }
  (* what is not executed *)
  assert (Out : forall L x, SkipProofs4.kept skip B1 L -> defined_at program x -> (x < i)%nat -> ~ In x (flat_map (instructions st) L ++ i1) -> exists c, In c B1 /\ In x (instructions st c) /\ ~ In c L /\ avoidable program x i).
  { intros L x K D Lx N. destruct (All x D Lx) as [(c & C & X)|X]; [|destruct N; apply in_app_iff; auto]. exists c. split; [auto|]. split; [auto|]. assert (Nc : ~ In c L) by (intros Q; apply N, in_app_iff; left; apply in_flat_map; eauto). split; [auto|]. split.
    - apply (Skp c x (I1 c C) X). destruct (skip c) eqn:S; [auto|]. destruct Nc. apply (kept_from _ _ _ K); auto.
    - intros S. apply (runs_run program st B skip c b x i Nd Rn (I1 c C) Ib X Ii) in S; [|lia]. subst c. auto. }
  (* an execution without the blocks that can be left out, except [o] *)
  assert (Ex : forall o, SkipProofs4.kept skip B1 (filter (fun c => negb (skip c) || (c =? o)) B1)) by (intros o; apply kept_filter; intros x _; destruct (skip x); [auto|discriminate]).
  split.
  - intros j. split.
    + intros (Lj & Dj & Wj & H). pose proof Dj as Oj. apply (runs_owner _ _ _ _ _ Rn) in Oj as (o & Io & Jo). exists (filter (fun c => negb (skip c) || (c =? o)) B1). split; [apply Ex|]. set (L := filter _ B1).
      assert (Jx : In j (flat_map (instructions st) L ++ i1)). { apply in_app_iff. destruct (All j Dj Lj) as [(c & C & X)|X]; [left|auto]. apply in_flat_map. exists c. split; [|auto]. apply filter_In. split; [auto|]. assert (c = o) as -> by (eapply runs_unique; eauto). rewrite Z.eqb_refl. apply orb_true_r. }
      pose proof (Srt L (Ex o)) as S. apply in_split in Jx as (X1 & X2 & EX). rewrite EX in S. rewrite EX. apply last_writer_at; [auto|]. intros x X Wx.
      assert (Xx : In x (flat_map (instructions st) L ++ i1)) by (rewrite EX; apply in_app_iff; right; right; auto). destruct (Own L x (Ex o) Xx) as (Lx & c & C & Xc & Q).
      assert (Lo : (j < x)%nat). { rewrite <- app_assoc in S. cbn [app] in S. apply (proj2 (sorted_split lt _ _ _ S)), in_app_iff. auto. }
      assert (Dx : defined_at program x) by (apply (runs_owner _ _ _ _ _ Rn); eauto). destruct (H x (conj Lo Lx) Dx Wx) as [[A1 A2] A3]. destruct Q as [Q|[-> _]].
      * apply filter_In in Q as [_ Q]. apply orb_true_iff in Q as [Q|Q].
        -- apply (Skp c x C Xc) in A1. rewrite A1 in Q. discriminate.
        -- apply Z.eqb_eq in Q. subst c. apply A3, (runs_run program st B skip o o j x Nd Rn); auto. lia.
      * apply A2, (runs_run program st B skip b b x i Nd Rn); auto. lia.
    + intros (L & K & E). apply last_writer_some in E as (X1 & X2 & EX & Wj & N). assert (Jx : In j (flat_map (instructions st) L ++ i1)) by (rewrite EX; apply in_app_iff; right; left; auto). destruct (Own L j K Jx) as (Lj & o & Io & Jo & Q).
      split; [auto|]. split; [apply (runs_owner _ _ _ _ _ Rn); eauto|]. split; [auto|]. intros x [L1 L2] Dx Wx. pose proof (Srt L K) as S. rewrite EX, <- app_assoc in S. cbn [app] in S.
      assert (Nx : ~ In x (flat_map (instructions st) L ++ i1)). { rewrite EX. intros I. apply in_app_iff in I as [I|[I|I]]; [apply (proj1 (sorted_split lt _ _ _ S)) in I; lia|lia|]. apply (N x I Wx). }
      destruct (Out L x K Dx L2 Nx) as (c & C & Xc & Nc & Av). split; [auto|]. intros Sr. apply (runs_run program st B skip o c j x Nd Rn Io (I1 c C) Jo Xc) in Sr; [|lia]. subst o. destruct Q as [Q|[-> _]]; auto.
  - split.
    + intros H. exists (filter (fun c => negb (skip c) || (c =? b)) B1). split; [apply Ex|]. apply last_writer_none. intros x X Wx. destruct (Own _ x (Ex b) X) as (Lx & c & C & Xc & Q). assert (Dx : defined_at program x) by (apply (runs_owner _ _ _ _ _ Rn); eauto). destruct (H x Lx Dx Wx) as [A1 A2]. destruct Q as [Q|[-> _]].
      * apply filter_In in Q as [Q0 Q]. apply orb_true_iff in Q as [Q|Q]; [apply (Skp c x C Xc) in A1; rewrite A1 in Q; discriminate|]. apply Z.eqb_eq in Q. subst c. auto.
      * apply A2, (runs_run program st B skip b b x i Nd Rn); auto. lia.
    + intros (L & K & E) x Lx Dx Wx. assert (Nx : ~ In x (flat_map (instructions st) L ++ i1)) by (intros I; exact (last_writer_no p r _ E x I Wx)). destruct (Out L x K Dx Lx Nx) as (c & _ & _ & _ & Av). exact Av.
Qed.

(** ** The form of a program without branches *)
Lemma straight_formed program reads writes : program <> [] -> (forall i c, nth_error program i = Some c -> ci_undefined c = false -> ci_branch c = false) -> (forall i x, In x (reads i ++ writes i) -> 0 <= x < 20) ->
  exists st g s vg, plain_graph program = Ok (st, g) /\ ssa_of program reads writes = Ok (s, vg) /\ reads_reach (ssa_program st reads writes) g 1 s /\ formed (ssa_program st reads writes) g 1 s vg.
Proof.
  intros Np Hn Rg. destruct (C128_straight_ssa program reads writes Np Hn Rg) as (st & g & s & vg & E & Es & H1 & H2). exists st, g, s, vg. split; [auto|]. split; [auto|]. split; [auto|].
  destruct (straight_graph program Np Hn) as (st' & g' & B & E' & Cg & Co & K1 & K2 & In2 & Ef & En & Pc & Sq). rewrite E in E'. injection E' as <- <-. destruct (nodes_split g B (constructed_wf g Cg) In2 Ef) as [Nd Hin].
  unfold ssa_of in Es. rewrite E in Es. cbn [bind] in Es. set (p := ssa_program st reads writes) in *. assert (N1 : In 1 (g_nodes g)) by (apply Hin; right; left; auto).
  pose proof (sequence_seqf _ _ _ _ _ Nd Sq) as Sf. assert (Rx : forall v, In v (g_nodes g) <-> reachable (edges g) 1 v). { intros v. rewrite (seq_reach _ _ _ _ _ v Sf), Hin, in_app_iff. cbn [In]. intuition. }
  assert (Ni : NoDup (flat_map (p_inst p) (g_nodes g))).
  { cbn [p ssa_program p_inst]. assert (Pm : Permutation.Permutation (flat_map (instructions st) (g_nodes g)) (flat_map (instructions st) (2 :: 1 :: B))). { apply Permutation.Permutation_flat_map. apply Permutation.NoDup_Permutation; [exact (proj1 (constructed_wf g Cg))| |]. 2: { intros n. rewrite Hin. cbn [In]. intuition. } apply NoDup_cons; [apply NoDup_remove_2 in Nd; now rewrite app_nil_r in Nd|rewrite <- (app_nil_r (1 :: B)); eapply NoDup_remove_1; exact Nd]. }
    apply (Permutation.Permutation_NoDup (Permutation.Permutation_sym Pm)). cbn [flat_map]. rewrite (no_instructions _ _ _ _ 2 _ Co K2), (no_instructions _ _ _ _ 1 _ Co K1) by discriminate. cbn [app]. rewrite (pc_all _ _ _ _ Pc). apply NoDup_filter, seq_NoDup. }
  destruct (C67_single_assignment p g 1 s vg Cg N1 Es) as (U1 & _ & U3 & U4 & U5). destruct (C84_value_dependency p g 1 s vg Es) as (_ & _ & V3 & _).
  pose proof Es as Es'. unfold build_ssa in Es'. destruct (build_dominator_tree g 1) as [[h tree]|] eqn:E1; [cbn [bind] in Es'|discriminate]. destruct (build_dominance_frontier g h) as [df|] eqn:E2; [cbn [bind] in Es'|discriminate]. destruct (place_phi_nodes p g df) as [[gl phi]|] eqn:E3; [clear Es'|discriminate].
  destruct (C68_numbers p g 1 s vg h tree df gl phi Cg N1 Ni Es E1 E2 E3) as (o1 & _ & _ & O1 & Un & Nm). destruct (C83_arguments p g 1 s vg h tree df gl phi Cg N1 Ni Es E1 E2 E3) as (o2 & _ & _ & O2 & Ar).
  assert (Wr : forall l b i, way (edges g) 1 l b -> In i (p_inst p b) -> exists f, s_written s i = numbered (fun x => occ x f) (p_writes p i)).
  { intros l b i W I. apply in_split in I as (i1 & i2 & Eb). destruct (Nm b i1 i i2) as (_ & _ & X); [apply O1, reachable_way; eauto|auto|]. eauto. }
  assert (Own : forall i, s_written s i <> [] -> exists l b, way (edges g) 1 l b /\ In i (p_inst p b)).
  { intros i N. destruct (in_dec Nat.eq_dec i (flat_map (p_inst p) o1)) as [I|I]; [|destruct (Un i I); contradiction]. apply in_flat_map in I as (b & Ib & I). apply O1, reachable_way in Ib as (l & W). eauto. }
  split; auto.
  - intros l b i W I. destruct (Wr l b i W I) as (f & ->). apply numbered_fst.
  - intros r k [(i & I)|(b & I)].
    + destruct (Own i) as (l & b & W & Ib); [intros Q; rewrite Q in I; destruct I|]. destruct (Wr l b i W Ib) as (f & Q). rewrite Q in I. apply numbered_in in I. pose proof (occ_pos r f). lia.
    + apply in_map_iff in I as ([[r' k'] args] & Q & I). cbn [fst] in Q. injection Q as -> ->. destruct (Ar b r k args I) as (-> & _). match goal with |- 0 < occ r ?f + 1 => pose proof (occ_pos r f) end. lia.
  - destruct (s_phi s 1) as [|[[r k] args] l] eqn:Ep; [auto|exfalso]. assert (Pl : In r (placed phi 1)) by (apply (C81_kept p g 1 s vg h tree df gl phi Cg N1 Ni Es E1 E2 E3 1 r); exists k; rewrite Ep; left; auto).
    destruct (C81_placement p g df gl phi E3) as (_ & _ & _ & Hpl). apply Hpl in Pl as [_ Sp]. destruct (C66_frontier g 1 h tree Cg N1 E1) as (df' & E2' & _ & Hdf). rewrite E2 in E2'. injection E2' as <-.
    assert (G : forall d, spread df (p_end p) (fun n => In n (g_nodes g) /\ exists i, In i (p_inst p n) /\ In r (p_writes p i)) d -> exists u, edges g u d /\ reachable (edges g) 1 d).
    { intros d S. induction S as [n d [Ns _] D _|m d S IH D _]; [|destruct IH as (u0 & _ & Rm)]; apply Hdf in D as (Rd & u & Eu & _); eauto. now apply Rx. }
    destruct (G 1 Sp) as (u & Eu & _). destruct (sf_edge _ _ _ _ _ Sf u 1 Eu) as (_ & _ & L & _). destruct (sf_root _ _ _ _ _ Sf) as [_ Q]. lia.
  - intros u v Ev. destruct (sf_edge _ _ _ _ _ Sf u v Ev) as (Iu & _). apply (seq_reach _ _ _ _ _ u Sf), reachable_way in Iu as (l & W). eauto.
  - intros l b W. apply Rx, reachable_way. eauto.
Qed.

(** ** C135 *)
(** The value dependency graph of a program without branches shows which values may be read. *)
Theorem C135_value_flow : forall program reads writes, program <> [] -> (forall i c, nth_error program i = Some c -> ci_undefined c = false -> ci_branch c = false) -> (forall i x, In x (reads i ++ writes i) -> 0 <= x < 20) ->
  exists s vg, ssa_of program reads writes = Ok (s, vg) /\ shows_flow program reads writes s vg.
Proof.
  intros program reads writes Np Hn Rg. destruct (straight_formed program reads writes Np Hn Rg) as (st & g & s & vg & E & Es & H1 & F). exists s, vg. split; [auto|].
  destruct (C127_straight_graph program Np Hn) as (st' & g' & B & skip & E' & Nd & _ & Hin & J1 & _ & Rn & _ & Wy). rewrite E in E'. injection E' as <- <-. set (p := ssa_program st reads writes) in *. assert (NB : NoDup B) by now apply NoDup_cons_iff in Nd.
  split.
  - intros i r Di Ri. apply (runs_owner _ _ _ _ _ Rn) in Di as (b & Ib & Ii). pose proof (in_split _ _ Ib) as (B1 & B2 & EB). apply in_split in Ii as (i1 & i2 & Ei).
    assert (Eb : p_inst p b = i1 ++ i :: i2) by exact Ei. destruct (executions program st B skip B1 b B2 i1 i i2 p r NB Rn EB Ei) as [X1 X2]. change (p_writes p) with writes in X1, X2.
    (* ways and executions *)
    assert (Wx : forall l, way (edges g) 1 (l ++ [b]) b <-> exists L, SkipProofs4.kept skip B1 L /\ l = 1 :: L).
    { intros l. rewrite (Wy B1 b B2 EB). split; intros (L & K & Q); exists L; (split; [auto|]); [change (1 :: L ++ [b]) with ((1 :: L) ++ [b]) in Q; now apply app_inj_tail in Q|now subst l]. }
    assert (Px : forall L, passed p (1 :: L) i1 = flat_map (instructions st) L ++ i1) by (intros L; unfold passed; cbn [flat_map p ssa_program p_inst]; now rewrite J1).
    assert (Rk : forall l, way (edges g) 1 (l ++ [b]) b -> forall k, In (r, k) (s_read s i) <-> k = found p s r l b i1) by (intros l W k; apply (H1 l b i1 i i2 r W Eb Ri)).
    assert (K0 : SkipProofs4.kept skip B1 B1) by (clear; induction B1; [constructor|now apply kept_take]). assert (W0 : way (edges g) 1 ((1 :: B1) ++ [b]) b) by (apply Wx; eauto).
    exists (found p s r (1 :: B1) b i1). split; [now apply Rk|]. assert (Same : forall l, way (edges g) 1 (l ++ [b]) b -> found p s r l b i1 = found p s r (1 :: B1) b i1) by (intros l W; apply (Rk (1 :: B1) W0), (Rk l W); auto).
    split; [intros j; rewrite X1|rewrite X2]; split.
    + intros (L & K & El). assert (W : way (edges g) 1 ((1 :: L) ++ [b]) b) by (apply Wx; eauto). pose proof (carried_to p g 1 s vg r F (length (1 :: L)) (1 :: L) b i1 (i :: i2) (le_n _) W Eb) as C. rewrite Px, El, (Same _ W) in C. exact C.
    + intros (kj & J & C). destruct (carried_back p g 1 s vg r _ _ F C kj eq_refl (1 :: B1) b i1 (i :: i2) W0 Eb eq_refl) as [C1 _]. destruct (C1 j J) as (l & W & El). apply Wx in W as (L & K & ->). rewrite Px in El. eauto.
    + intros (L & K & El). assert (W : way (edges g) 1 ((1 :: L) ++ [b]) b) by (apply Wx; eauto). pose proof (carried_to p g 1 s vg r F (length (1 :: L)) (1 :: L) b i1 (i :: i2) (le_n _) W Eb) as C. rewrite Px, El, (Same _ W) in C. exact C.
    + intros C. destruct (carried_back p g 1 s vg r _ _ F C 0 eq_refl (1 :: B1) b i1 (i :: i2) W0 Eb eq_refl) as [_ C2]. destruct (C2 eq_refl) as (l & W & El). apply Wx in W as (L & K & ->). rewrite Px in El. eauto.
  - intros i a b J. rewrite (fm_edges _ _ _ _ _ F). split.
    + intros (n & _ & [(args & Ia & _)|(i' & _ & A & J')]); [exfalso; eapply (fm_apart _ _ _ _ _ F n i b); [apply in_map_iff; exists (b, args); auto|auto]|]. now rewrite (fm_inst _ _ _ _ _ F i i' b J J').
    + intros A. destruct (fm_owner _ _ _ _ _ F i) as (l & n & W & Ii); [intros Q; rewrite Q in J; destruct J|]. exists n. split; [eapply fm_nodes; eauto|]. right. eauto.
Qed.
Print Assumptions C135_value_flow.
(** The same of decoded instructions: what they read and write is as in C31. *)
Theorem C135_decoded : forall ws, ws <> [] -> (forall w c, In w ws -> w_cap w = Some c -> sixteen c /\ InstModel.is_branch c = Ok false) ->
  exists program reads writes s vg, mapM cfg_word ws = Ok program /\ ssa_words ws = Ok (s, vg) /\ shows_flow program reads writes s vg /\
    forall i w c, nth_error ws i = Some w -> w_cap w = Some c -> exists l wr rd, registers_used c = Ok l /\ registers_written c = Ok wr /\ registers_read c = Ok rd /\ expected c l wr rd false CRead (reads i) /\ expected c l wr rd false CWritten (writes i).
Proof.
  intros ws N H. destruct (decoded_straight ws N H) as (p & s & Ep & Np & Hp & Es & Rg & Hx). destruct (C135_value_flow p (fun i => fst (nth i s ([], []))) (fun i => snd (nth i s ([], []))) Np Hp Rg) as (sf & vg & E & Sh).
  exists p, (fun i => fst (nth i s ([], []))), (fun i => snd (nth i s ([], []))), sf, vg. split; [exact Ep|]. split; [unfold ssa_words; rewrite Ep; cbn [bind]; rewrite Es; exact E|]. auto.
Qed.
Print Assumptions C135_decoded.
(** Storage 0 is written by instruction 0 and, if EQ, by instruction 1; instruction 4 may read
    both values, instruction 1 only the first, and none the value from the start. *)
Example C135_example : exists s vg, ssa_of straight_example straight_reads straight_writes = Ok (s, vg) /\ s_read s 4%nat = [(0, 3)] /\ s_written s 0%nat = [(0, 1)] /\ s_written s 1%nat = [(0, 2)] /\
  may_see straight_example straight_writes 0 0 4 /\ may_see straight_example straight_writes 0 1 4 /\ may_see straight_example straight_writes 0 0 1 /\ ~ may_keep straight_example straight_writes 0 4 /\
  carried s vg (0, 1) (0, 3) /\ carried s vg (0, 2) (0, 3).
Proof.
  do 2 eexists. split; [vm_compute; reflexivity|]. do 3 (split; [reflexivity|]).
  assert (D : forall i, In i [0; 1; 4]%nat -> defined_at straight_example i) by (intros i I; cbn [In] in I; destruct I as [<-|[<-|[<-|[]]]]; eexists; split; reflexivity).
  split; [|split; [|split; [|split; [|split]]]].
  - split; [lia|]. split; [apply D; cbn; auto|]. split; [left; auto|]. intros x Lx _ Wx. assert (x = 1 \/ x = 2 \/ x = 3)%nat as [->|[->| ->]] by lia.
    + split; [split|]; [intros (c & [= <-] & Q); discriminate Q| |]; intros S.
      * discriminate (S 4%nat (pred 1 16) (pred 0 4) ltac:(lia) eq_refl eq_refl eq_refl).
      * discriminate (S 1%nat (pred 0 4) (plain 0) ltac:(lia) eq_refl eq_refl eq_refl).
    + cbn in Wx. lia.
    + destruct Wx.
  - split; [lia|]. split; [apply D; cbn; auto|]. split; [left; auto|]. intros x Lx _ Wx. assert (x = 2 \/ x = 3)%nat as [->| ->] by lia; cbn in Wx; lia.
  - split; [lia|]. split; [apply D; cbn; auto|]. split; [left; auto|]. intros x Lx. lia.
  - intros K. destruct (K 0%nat) as [A _]; [lia|apply D; cbn; auto|left; auto|]. apply A. exists (plain 0). auto.
  - eapply carried_on; [constructor|]. split; [vm_compute; auto|]. intros i. do 6 (destruct i as [|i]; [cbn; intuition congruence|]). destruct i; cbn; auto.
  - eapply carried_on; [constructor|]. split; [vm_compute; auto|]. intros i. do 6 (destruct i as [|i]; [cbn; intuition congruence|]). destruct i; cbn; auto.
Qed.
