(** The steps of the construction keep the invariant. *)
From Verif Require Import ListLemmas.
From Verif Require Export CfgProofs2.
From Coq Require Import ZifyBool ZifyNat Permutation.

(** Old nodes stay, with their kind. *)
Definition grows (st st' : cfg) : Prop := (forall x, In x (nodes st) -> In x (nodes st')) /\ (forall x, In x (nodes st) -> kind_of st' x = kind_of st x).
Lemma grows_refl st : grows st st. Proof. split; auto. Qed.
Lemma grows_trans a b c : grows a b -> grows b c -> grows a c.
Proof. intros [A B] [A' B']. split; [auto|]. intros x I. rewrite B', B; auto. Qed.
Lemma grows_same a b : same a b -> grows a b.
Proof. intros S. split; intros x I; [destruct S as (_ & _ & _ & ->); auto|now apply same_kind]. Qed.

Lemma core_edge p k kj st u v : core p k kj st -> In u (nodes st) -> In v (nodes st) -> ~ edg st u v -> exists st', edge_add st u v = Ok st' /\ core p k kj st' /\ same st st' /\
  forall x y, edg st' x y <-> edg st x y \/ (x = u /\ y = v).
Proof.
  intros C U V E. destruct (edge_add_ok st u v (co_good _ _ _ _ C) U V E) as (st' & E' & G & S & H). exists st'. split; [auto|]. split; [|auto].
  eapply core_node_edge; eauto. intros x y X. apply H. auto.
Qed.
Lemma core_edge_once p k kj st u v : core p k kj st -> In u (nodes st) -> In v (nodes st) -> exists st', edge_add_once st u v = Ok st' /\ core p k kj st' /\ same st st' /\
  forall x y, edg st' x y <-> edg st x y \/ (x = u /\ y = v).
Proof.
  intros C U V. destruct (edge_add_once_ok st u v (co_good _ _ _ _ C) U V) as (st' & E' & G & S & H). exists st'. split; [auto|]. split; [|auto].
  eapply core_node_edge; eauto. intros x y X. apply H. auto.
Qed.

Lemma nth_skipn_hd {A} j : forall (l : list A) x, nth_error l j = Some x -> hd_error (skipn j l) = Some x.
Proof. induction j as [|j IH]; intros [|y l] x H; try discriminate; cbn in *; auto. Qed.
Lemma split_ok p k kj st split branch i m : core p k kj st -> In split (nodes st) -> In branch (nodes st) -> In i (instructions st split) ->
  instructions st branch = [m] -> (forall y, ~ edg st branch y) ->
  exists st', split_node st split branch i = Ok st' /\ core p k kj st' /\ edg st' branch split /\ hd_error (instructions st' split) = Some i /\
    instructions st' branch = [m] /\ grows st st'.
Proof.
  intros C Sn B I M O. pose proof (co_good _ _ _ _ C) as G. pose proof (co_last _ _ _ _ C) as L. unfold split_node.
  destruct (nindex_ok i (instructions st split) I) as (j & E & J & N). rewrite E. cbn [bind].
  destruct j as [|j].
  - cbn [bind]. destruct (core_edge p k kj st branch split C B Sn (O split)) as (st' & E' & C' & S' & H). exists st'. split; [auto|]. split; [auto|].
    split; [apply H; auto|]. rewrite !(same_inst _ _ _ S'). split; [|split; [auto|now apply grows_same]]. destruct (instructions st split); [discriminate|exact N].
  - destruct (cut_ok st split (S j) G Sn) as (st1 & E1 & G1 & L1 & P1 & N1 & I1 & K1 & H1); [lia|lia|].
    pose proof (core_cut p k kj st st1 split (S j) C Sn (conj (Nat.lt_0_succ j) J) G1 L1 P1 N1 I1 K1 H1) as C1.
    cbv zeta in E1. cbv iota. match goal with |- context [bind (bind ?a ?b)] => assert (bind a b = Ok st1) as -> by exact E1 end. cbn [bind]. pose proof (fresh st G ltac:(lia)) as F.
    assert (Q1 : branch <> split) by (intros ->; rewrite M in J; cbn in J; lia).
    assert (Q2 : branch <> c_last st + 1) by (intros ->; auto).
    assert (Q3 : split <> c_last st + 1) by (intros ->; auto).
    destruct (core_edge p k kj st1 branch split C1) as (st' & E' & C' & S' & H).
    { rewrite N1. apply in_app_iff; auto. } { rewrite N1. apply in_app_iff; auto. } { rewrite H1. intros [[X _]|[[X _]|[X _]]]; [eapply O; eauto|eapply O; eauto|auto]. }
    exists st'. split; [auto|]. split; [auto|]. split; [apply H; auto|]. rewrite !(same_inst _ _ _ S'), !I1, Z.eqb_refl.
    destruct (Z.eqb_spec split (c_last st + 1)); [contradiction|]. destruct (Z.eqb_spec branch (c_last st + 1)); [contradiction|]. destruct (Z.eqb_spec branch split); [contradiction|].
    split; [now apply nth_skipn_hd|]. split; [auto|]. eapply grows_trans; [|apply grows_same, S']. split; intros x X; [rewrite N1; apply in_app_iff; auto|].
    rewrite K1. destruct (Z.eqb_spec x (c_last st + 1)) as [->|]; [contradiction|auto].
Qed.

Lemma nmem_in i l : nmem i l = true <-> In i l.
Proof. unfold nmem. rewrite existsb_exists. split; [intros (y & I & E); apply Nat.eqb_eq in E as ->; auto|intros I; exists i; split; [auto|apply Nat.eqb_refl]]. Qed.
Lemma node_with_inst_some st i b : node_with_inst st i = Some b -> In b (nodes st) /\ In i (instructions st b).
Proof. unfold node_with_inst. intros H. apply find_some in H as [A B]. split; [auto|now apply nmem_in]. Qed.
Lemma node_with_inst_none st i : node_with_inst st i = None -> ~ In i (insts st).
Proof. unfold node_with_inst, insts. intros H I. apply in_flat_map in I as (b & A & B). apply (find_none _ _ H) in A. apply nmem_in in B. congruence. Qed.

(** [_branch_instruction] once the block of the branch exists. *)
Definition branch_tail (program : list cinst) (st : cfg) (cb : option Z) (branch : Z) (i : nat) (c : cinst) (end_ : Z) : result (cfg * option Z) :=
  match branch_to program c with
  | None =>
      let* (st, unknown) := new_node st KUnknown [] in
      let* st := edge_add st branch unknown in
      let* st := edge_add st unknown end_ in
      Ok (st, if ci_link c then Some unknown else cb)
  | Some t =>
      let cb := if ci_link c then Some branch else cb in
      let* st := match node_with_inst st t with
                 | None => Ok (add_pending st i branch)
                 | Some to_node => split_node st to_node branch t
                 end in
      Ok (st, cb)
  end.
Lemma core_pending p k kj st b : core p (S k) kj st -> core p (S k) kj (add_pending st k b).
Proof.
  intros C. apply Core; try apply C. intros j J. unfold add_pending. cbn [c_pending]. rewrite dget_dset. destruct (Z.eqb_spec (Z.of_nat j) (Z.of_nat k)); [lia|]. apply C. auto.
Qed.
Lemma core_last_jump p k kj st : (kj <= k)%nat -> core p (S k) kj st -> (forall c t, nth_error p k = Some c -> ci_undefined c = false -> ci_branch c = true -> branch_to p c = Some t -> (t <= k)%nat -> is_defined p t = true -> jumped st k t) ->
  (forall j, (kj <= j < k)%nat -> is_defined p j = false) -> core p (S k) (S k) st.
Proof.
  intros K C H J. apply Core; try apply C. intros j c t A1 A2 A3 A4 A5 A6 A7. destruct (Nat.eq_dec j k) as [->|]; [eauto|].
  destruct (Nat.lt_ge_cases j kj); [eapply co_jump; eauto|]. exfalso. specialize (J j ltac:(lia)). unfold is_defined in J. rewrite A2, A3 in J. discriminate.
Qed.
Lemma branch_tail_ok p k st cb b c : core p (S k) k st -> nth_error p k = Some c -> In b (nodes st) -> instructions st b = [k] -> (forall y, ~ edg st b y) ->
  (forall x, cb = Some x -> In x (nodes st)) ->
  exists st' cb', branch_tail p st cb b k c 2 = Ok (st', cb') /\ core p (S k) (S k) st' /\ instructions st' b = [k] /\ grows st st' /\
    (forall x, cb' = Some x -> In x (nodes st')) /\ (cb <> None -> cb' <> None).
Proof.
  intros C Ec B I O Hcb. pose proof (co_good _ _ _ _ C) as G. pose proof (co_last _ _ _ _ C) as L. unfold branch_tail. destruct (branch_to p c) as [t|] eqn:Bt.
  - destruct (node_with_inst st t) as [s|] eqn:Nw.
    + apply node_with_inst_some in Nw as [Ns It]. destruct (split_ok p (S k) k st s b t k C Ns B It I O) as (st' & E & C' & Ed & Hd & I' & Gr). rewrite E. cbn [bind].
      eexists _, _. split; [reflexivity|]. split.
      { eapply (core_last_jump p k k); [lia|exact C'| |lia]. intros c' t' A1 _ _ A4 _ _. assert (t' = t) as -> by congruence. exists b, s. split; [rewrite I'; left; auto|]. split; [auto|]. now apply path_edge. }
      split; [auto|]. split; [auto|]. split; [|destruct (ci_link c); congruence]. intros x. destruct (ci_link c); [intros [= <-]; apply Gr; auto|]. intros X. apply Gr. auto.
    + cbn [bind]. eexists _, _. split; [reflexivity|]. split.
      { apply (core_last_jump p k k); [lia|now apply core_pending| |lia]. intros c' t' A1 _ _ A4 A5 A6. exfalso. assert (t' = t) as -> by congruence.
        apply (node_with_inst_none _ _ Nw). rewrite (co_perm _ _ _ _ C). apply defined_in. split; [lia|auto]. }
      split; [exact I|]. split; [split; auto|]. split; [|destruct (ci_link c); congruence]. intros x. destruct (ci_link c); [intros [= <-]; auto|]. intros X. auto.
  - destruct (core_new_other p (S k) k st KUnknown C) as (st1 & E1 & C1 & L1 & N1 & Ed1 & I1 & K1); [discriminate|]. rewrite E1. cbn [bind].
    pose proof (fresh st G ltac:(lia)) as F. set (u := c_last st + 1) in *.
    destruct (core_edge p (S k) k st1 b u C1) as (st2 & E2 & C2 & S2 & H2). { rewrite N1; apply in_app_iff; auto. } { rewrite N1; apply in_app_iff; right; left; auto. } { rewrite Ed1. apply O. }
    rewrite E2. cbn [bind]. pose proof S2 as (_ & _ & _ & N2).
    destruct (core_edge p (S k) k st2 u 2 C2) as (st3 & E3 & C3 & S3 & H3).
    { rewrite N2, N1; apply in_app_iff; right; left; auto. } { apply good_nodes; [eapply co_good; eauto|]. pose proof (co_last _ _ _ _ C2). lia. }
    { rewrite H2, Ed1. intros [X|[X _]]; [apply (edg_nodes _ _ _ G) in X as [X _]; auto|rewrite X in F; auto]. }
    rewrite E3. cbn [bind]. eexists _, _. split; [reflexivity|]. pose proof (same_trans _ _ _ S2 S3) as S4.
    assert (Gr : grows st st3). { eapply grows_trans; [|apply grows_same, S4]. split; intros x X; [rewrite N1; apply in_app_iff; auto|apply K1; intros ->; auto]. }
    split; [eapply (core_last_jump p k k); [lia|exact C3| |lia]; intros; congruence|].
    split; [rewrite (same_inst _ _ _ S4), I1; auto|]. split; [auto|]. split; [|destruct (ci_link c); congruence].
    intros x. destruct (ci_link c); [intros [= <-]|intros X; apply Gr; auto]. destruct S4 as (_ & _ & _ & ->). rewrite N1. apply in_app_iff; right; left; auto.
Qed.

Definition Inv (p : list cinst) (k : nat) (s : loop_state) : Prop :=
  let '(st, (cb, lf, lc)) := s in
  core p k k st /\ In cb (nodes st) /\ (forall x, lc = Some x -> In x (nodes st)) /\
  (lf <> None -> kind_of st cb = Some KBlock /\ exists a, defined p k = a ++ instructions st cb).

Lemma inst_block p k kj st b l : core p k kj st -> instructions st b = l -> l <> [] -> kind_of st b = Some KBlock.
Proof. intros C E N. apply C. congruence. Qed.
Lemma new_pending st K l st' n : new_node st K l = Ok (st', n) -> c_pending st' = c_pending st.
Proof. unfold new_node. destruct (add_node (c_graph st) (c_last st + 1)); destruct K, l; cbn [bind]; intros X; try discriminate; inversion X; reflexivity. Qed.
Lemma branch_conditional_ok p k st c cb lc : core p k k st -> nth_error p k = Some c -> ci_undefined c = false -> In cb (nodes st) -> (forall x, lc = Some x -> In x (nodes st)) ->
  exists st' b lc', branch_conditional p st k c cb lc = Ok (st', (b, lc')) /\ core p (S k) k st' /\ In b (nodes st') /\ instructions st' b = [k] /\ (forall y, ~ edg st' b y) /\
    (forall x, lc' = Some x -> In x (nodes st')) /\ grows st st'.
Proof.
  intros C Ec U B Hlc. pose proof (co_good _ _ _ _ C) as G. pose proof (co_last _ _ _ _ C) as L.
  assert (D : is_defined p k = true) by (unfold is_defined; now rewrite Ec, U).
  unfold branch_conditional. destruct (core_new_block p k k st C D) as (st1 & E1 & C1 & L1 & N1 & Ed1 & I1 & K1). rewrite E1. cbn [bind].
  pose proof (fresh st G ltac:(lia)) as F. set (b := c_last st + 1) in *.
  assert (B1 : In b (nodes st1)) by (rewrite N1; apply in_app_iff; right; left; auto).
  assert (Ob : forall y, ~ edg st1 b y) by (intros y; rewrite Ed1; intros X; apply (edg_nodes _ _ _ G) in X as [X _]; auto).
  assert (Bi : forall y, ~ edg st1 y b) by (intros y; rewrite Ed1; intros X; apply (edg_nodes _ _ _ G) in X as [_ X]; auto).
  assert (Ib : instructions st1 b = [k]) by (rewrite I1, Z.eqb_refl; auto).
  assert (Cb : cb <> b) by (intros ->; auto).
  assert (Lb : forall x, lc = Some x -> x <> b) by (intros x X ->; apply Hlc in X; auto).
  (* an edge from the current block, unless it ends with a branch *)
  assert (Step : forall st2 d, core p (S k) k st2 -> In cb (nodes st2) -> In d (nodes st2) -> ~ edg st2 cb d -> exists st3, (if last_is_branch p st2 cb then Ok st2 else edge_add st2 cb d) = Ok st3 /\
    core p (S k) k st3 /\ same st2 st3 /\ (forall x y, edg st3 x y -> edg st2 x y \/ (x = cb /\ y = d))).
  { intros st2 d C2 X1 X2 X3. destruct (last_is_branch p st2 cb); [exists st2; split; [auto|]; split; [auto|]; split; [apply same_refl|auto]|].
    destruct (core_edge p (S k) k st2 cb d C2 X1 X2 X3) as (st3 & E3 & C3 & S3 & H3). exists st3. split; [auto|]. split; [auto|]. split; [auto|]. intros x y. apply H3. }
  assert (Step2 : forall st2 d, core p (S k) k st2 -> (forall x, lc = Some x -> In x (nodes st2)) -> In d (nodes st2) -> exists st3, match lc with Some lc => edge_add_once st2 lc d | None => Ok st2 end = Ok st3 /\
    core p (S k) k st3 /\ same st2 st3 /\ (forall x y, edg st3 x y -> edg st2 x y \/ (lc = Some x /\ y = d))).
  { intros st2 d C2 X1 X2. destruct lc as [lc|]; [|exists st2; split; [auto|]; split; [auto|]; split; [apply same_refl|auto]].
    destruct (core_edge_once p (S k) k st2 lc d C2 (X1 lc eq_refl) X2) as (st3 & E3 & C3 & S3 & H3). exists st3. split; [auto|]. split; [auto|]. split; [auto|]. intros x y X. apply H3 in X as [X|[-> ->]]; auto. }
  assert (In1 : forall x, In x (nodes st) -> In x (nodes st1)) by (intros x X; rewrite N1; apply in_app_iff; auto).
  assert (Gr1 : grows st st1) by (split; [auto|]; intros x X; apply K1; intros ->; auto).
  destruct (ci_cond c =? cond_always).
  - destruct (Step st1 b C1) as (st2 & E2 & C2 & S2 & H2); auto. rewrite E2. cbn [bind].
    pose proof S2 as (_ & _ & _ & N2). destruct (Step2 st2 b C2) as (st3 & E3 & C3 & S3 & H3). { intros x X. rewrite N2. auto. } { now rewrite N2. }
    rewrite E3. cbn [bind]. pose proof (same_trans _ _ _ S2 S3) as S4. exists st3, b, None. split; [reflexivity|]. split; [auto|]. split; [destruct S4 as (_ & _ & _ & ->); auto|].
    split; [rewrite (same_inst _ _ _ S4); auto|]. split; [|split; [discriminate|eapply grows_trans; [exact Gr1|apply grows_same, S4]]]. intros y X. apply H3 in X as [X|[X _]]; [apply H2 in X as [X|[X _]]; [eapply Ob; eauto|congruence]|eapply Lb; eauto].
  - destruct (core_new_other p (S k) k st1 KCond C1) as (st2 & E2 & C2 & L2 & N2 & Ed2 & I2 & K2); [discriminate|]. rewrite E2. cbn [bind].
    pose proof (co_good _ _ _ _ C1) as G1. pose proof (co_last _ _ _ _ C1) as L1'. pose proof (fresh st1 G1 ltac:(lia)) as F2. set (d := c_last st1 + 1) in *.
    assert (In2 : forall x, In x (nodes st1) -> In x (nodes st2)) by (intros x X; rewrite N2; apply in_app_iff; auto).
    assert (D2 : In d (nodes st2)) by (rewrite N2; apply in_app_iff; right; left; auto).
    assert (Bd : b <> d) by (intros X; rewrite X in B1; auto).
    destruct (core_edge p (S k) k st2 d b C2 D2 (In2 _ B1)) as (st3 & E3 & C3 & S3 & H3). { rewrite Ed2. apply Bi. }
    rewrite E3. cbn [bind]. pose proof S3 as (_ & _ & _ & N3).
    assert (Cd : cb <> d) by (intros X; apply F2; rewrite <- X; auto).
    destruct (Step st3 d C3) as (st4 & E4 & C4 & S4 & H4). { rewrite N3; auto. } { rewrite N3; auto. }
    { rewrite H3, Ed2. intros [X|[X Y]]; [apply (edg_nodes _ _ _ G1) in X as [_ X]; auto|congruence]. }
    rewrite E4. cbn [bind]. pose proof S4 as (_ & _ & P4 & N4).
    destruct (Step2 st4 d C4) as (st5 & E5 & C5 & S5 & H5). { intros x X. rewrite N4, N3. auto. } { now rewrite N4, N3. }
    rewrite E5. cbn [bind].
    assert (Pn : dget (c_pending st5) (Z.of_nat k) = None).
    { destruct S5 as (_ & _ & -> & _). rewrite P4. destruct S3 as (_ & _ & -> & _).
      assert (X : c_pending st2 = c_pending st). { rewrite (new_pending _ _ _ _ _ E2). exact (new_pending _ _ _ _ _ E1). }
      rewrite X. apply C. lia. }
    rewrite Pn. cbn [bind]. exists st5, b, (Some d). split; [reflexivity|]. split; [auto|]. pose proof (same_trans _ _ _ S3 (same_trans _ _ _ S4 S5)) as S6.
    assert (N6 : nodes st5 = nodes st2) by (destruct S6 as (_ & _ & _ & ->); auto).
    split; [rewrite N6; auto|]. split; [rewrite (same_inst _ _ _ S6), I2; auto|]. split; [|split; [intros x [= <-]; rewrite N6; auto|]].
    2: { eapply grows_trans; [exact Gr1|]. eapply grows_trans; [|apply grows_same, S6]. split; [auto|]. intros x X. apply K2. intros ->; auto. }
    intros y X. apply H5 in X as [X|[X _]]; [|eapply Lb; eauto]. apply H4 in X as [X|[X _]]; [|congruence]. apply H3 in X as [X|[X _]]; [|congruence]. apply Ed2 in X. eapply Ob; eauto.
Qed.
Lemma branch_instruction_tail p st cb branch i c e : branch_instruction p st cb branch i c e =
  (let* (st, branch) := match branch with Some b => Ok (st, b) | None => new_node st KBlock [i] end in
   let* st := match cb with Some cb => edge_add st cb branch | None => Ok st end in branch_tail p st cb branch i c e).
Proof. reflexivity. Qed.

Lemma build_step_ok p k s c : Inv p k s -> nth_error p k = Some c -> exists s', build_step p 2 s (k, c) = Ok s' /\ Inv p (S k) s' /\ grows (fst s) (fst s').
Proof.
  destruct s as [st [[cb lf] lc]]. intros (C & B & Hl & Hf) Ec. pose proof (co_good _ _ _ _ C) as G. pose proof (co_last _ _ _ _ C) as L. unfold build_step.
  destruct (ci_undefined c) eqn:U.
  { assert (D : is_defined p k = false) by (unfold is_defined; now rewrite Ec, U). eexists. split; [reflexivity|]. split; [|apply grows_refl].
    assert (Dk : defined p (S k) = defined p k) by (rewrite defined_S, D, app_nil_r; auto).
    split; [|split; [auto|split; [auto|now rewrite Dk]]]. apply Core; rewrite ?Dk; try apply C; [intros j J; apply C; lia|].
    intros j c' t A1 A2 A3. destruct (Nat.eq_dec j k) as [->|]; [congruence|]. apply C; auto. lia. }
  assert (D : is_defined p k = true) by (unfold is_defined; now rewrite Ec, U).
  destruct (match lf with Some f => ci_cond c =? f | None => false end) eqn:Cond.
  - assert (lf <> None) as Lf by (destruct lf; congruence). destruct (Hf Lf) as [Kb Sf]. destruct (ci_branch c) eqn:Br.
    + rewrite branch_instruction_tail. destruct (core_new_block p k k st C D) as (st1 & E1 & C1 & L1 & N1 & Ed1 & I1 & K1). rewrite E1. cbn [bind].
      pose proof (fresh st G ltac:(lia)) as F. set (b := c_last st + 1) in *. assert (Cb : cb <> b) by (intros ->; auto).
      assert (In1 : forall x, In x (nodes st) -> In x (nodes st1)) by (intros x X; rewrite N1; apply in_app_iff; auto).
      assert (B1 : In b (nodes st1)) by (rewrite N1; apply in_app_iff; right; left; auto).
      destruct (core_edge p (S k) k st1 cb b C1) as (st2 & E2 & C2 & S2 & H2); auto. { rewrite Ed1. intros X. apply (edg_nodes _ _ _ G) in X as [_ X]. auto. }
      rewrite E2. cbn [bind]. pose proof S2 as (_ & _ & _ & N2).
      destruct (branch_tail_ok p k st2 (Some cb) b c C2 Ec) as (st3 & cb' & E3 & C3 & I3 & Gr & Hc & Hn).
      { now rewrite N2. } { rewrite (same_inst _ _ _ S2), I1, Z.eqb_refl. auto. } { intros y X. apply H2 in X as [X|[X _]]; [apply Ed1 in X; apply (edg_nodes _ _ _ G) in X as [X _]; auto|congruence]. }
      { intros x [= <-]. rewrite N2. auto. }
      rewrite E3. cbn [bind]. destruct cb' as [cb'|]; [|exfalso; apply Hn; [discriminate|auto]]. eexists. split; [reflexivity|]. split.
      * split; [auto|]. split; [auto|]. split; [|congruence]. intros x X. apply Gr. rewrite N2. auto.
      * cbn [fst]. eapply grows_trans; [|exact Gr]. eapply grows_trans; [|apply grows_same, S2]. split; [auto|]. intros x X. apply K1. intros ->; auto.
    + rewrite (co_pend _ _ _ _ C k) by lia. eexists. split; [reflexivity|]. assert (Bk : is_branch p k = false) by (unfold is_branch; now rewrite Ec).
      destruct (set_inst_ok st cb (instructions st cb ++ [k]) G B) as (G' & Gr & L' & P' & I & Kd).
      pose proof (core_append p k k st cb C D Bk Kb Sf) as C'.
      split; [|cbn [fst]; split; intros x X; [unfold nodes; rewrite Gr; auto|apply Kd]].
      split. { apply (core_last_jump p k k); [lia|exact C'| |lia]. intros; congruence. }
      unfold nodes. rewrite Gr. split; [auto|]. split; [auto|]. intros _. rewrite Kd. split; [auto|]. destruct Sf as [a Sf]. exists a. rewrite I, Z.eqb_refl, defined_S, D, Sf. now rewrite app_assoc.
  - destruct (branch_conditional_ok p k st c cb lc C Ec U B Hl) as (st1 & b & lc' & E1 & C1 & B1 & I1 & O1 & Hl1 & Gr1). rewrite E1. cbn [bind].
    assert (Fin : forall st2, core p (S k) (S k) st2 -> instructions st2 b = [k] -> grows st1 st2 -> Inv p (S k) (st2, (b, Some (ci_cond c), lc')) /\ grows st st2).
    { intros st2 C2 I2 Gr2. split; [|eapply grows_trans; eauto]. destruct Gr2 as [Gr _]. split; [auto|]. split; [auto|]. split; [auto|]. intros _. split; [eapply inst_block; eauto; discriminate|]. exists (defined p k). rewrite I2, defined_S, D. auto. }
    destruct (ci_branch c) eqn:Br.
    + rewrite branch_instruction_tail. cbn [bind]. destruct (branch_tail_ok p k st1 None b c C1 Ec B1 I1 O1) as (st3 & cb' & E3 & C3 & I3 & Gr & _); [discriminate|].
      rewrite E3. cbn [bind]. eexists. split; [reflexivity|]. apply Fin; auto.
    + cbn [bind]. eexists. split; [reflexivity|]. apply Fin; [|auto|apply grows_refl]. apply (core_last_jump p k k); [lia|exact C1| |lia]. intros; congruence.
Qed.
Lemma build_loop p : forall rest k s, p = firstn k p ++ rest -> (k + length rest = length p)%nat -> Inv p k s -> exists s', foldM (build_step p 2) (combine (seq k (length rest)) rest) s = Ok s' /\ Inv p (length p) s' /\ grows (fst s) (fst s').
Proof.
  induction rest as [|c rest IH]; intros k s E L H.
  - cbn in *. exists s. split; [reflexivity|]. assert (k = length p) by lia. subst. split; [auto|apply grows_refl].
  - cbn [length] in *. cbn [seq combine foldM].
    assert (Lk : length (firstn k p) = k) by (rewrite firstn_length; lia).
    assert (Ec : nth_error p k = Some c) by (rewrite E, nth_error_app2, Lk, Nat.sub_diag by lia; auto).
    destruct (build_step_ok p k s c H Ec) as (s1 & E1 & H1 & Gr1). rewrite E1. cbn [bind]. destruct (IH (S k) s1) as (s' & E' & H' & Gr'); [|lia|auto|exists s'; split; [auto|]; split; [auto|eapply grows_trans; eauto]].
    rewrite E at 1. assert (X : firstn (S k) p = firstn k p ++ [c]).
    { rewrite E at 1. rewrite firstn_app, Lk. rewrite firstn_all2 by lia. replace (S k - k)%nat with 1%nat by lia. reflexivity. }
    rewrite X, <- app_assoc. reflexivity.
Qed.
Lemma good_start : good (Cfg g_empty [] 0 []).
Proof. split; [apply wf_empty|]. split; [intros n; cbn; lia|reflexivity]. Qed.
Lemma build_ok p : p <> [] -> exists st, build p = Ok st /\ core p (length p) (length p) st /\ kind_of st 1 = Some KRoot /\ kind_of st 2 = Some KEnd.
Proof.
  intros Np. destruct p as [|c0 p0]; [contradiction|]. set (p := c0 :: p0) in *. unfold build. fold p.
  destruct (new_node_ok _ KRoot [] good_start) as (st1 & E1 & G1 & L1 & P1 & N1 & Ed1 & I1 & K1); [discriminate|cbn; lia|]. cbn [c_last] in *.
  rewrite E1. cbn [bind]. destruct (new_node_ok st1 KEnd [] G1) as (st2 & E2 & G2 & L2 & P2 & N2 & Ed2 & I2 & K2); [discriminate|lia|]. rewrite E2. cbn [bind].
  rewrite L1 in *. change (0 + 1) with 1 in *. change (1 + 1) with 2 in *.
  assert (I0 : forall x, instructions st2 x = []) by (intros x; rewrite I2, I1; destruct (x =? 2), (x =? 1); reflexivity).
  assert (K0 : kind_of st2 1 = Some KRoot /\ kind_of st2 2 = Some KEnd) by (rewrite !K2, !K1; auto).
  assert (H0 : Inv p 0 (st2, (1, None, None))).
  { split; [|split; [rewrite N2, N1; cbn; auto|split; [discriminate|congruence]]]. apply Core; [auto|lia|..].
    - unfold insts. fold (nodes st2). assert (flat_map (instructions st2) (nodes st2) = []) as ->; [|constructor]. clear -I0. induction (nodes st2) as [|x l IH]; [auto|]. cbn [flat_map]. rewrite I0. exact IH.
    - intros x. rewrite I0. apply segment_nil.
    - intros j _. rewrite P2, P1. reflexivity.
    - intros x. rewrite I0, K2, K1. split; [|congruence]. destruct (x =? 2); [discriminate|]. destruct (x =? 1); [discriminate|]. cbn. discriminate.
    - intros x j. rewrite I0. intros [].
    - intros j; lia. }
  destruct (build_loop p p 0 _ eq_refl eq_refl H0) as ([st3 [[cb lf] lc]] & E3 & (C3 & B3 & _) & Gr). rewrite E3. cbn [bind]. cbn [fst] in Gr.
  destruct (core_edge_once p (length p) (length p) st3 cb 2 C3 B3) as (st4 & E4 & C4 & S4 & H4). { apply good_nodes; [apply C3|]. pose proof (co_last _ _ _ _ C3). lia. }
  exists st4. split; [auto|]. split; [auto|]. rewrite !(same_kind _ _ _ S4). destruct Gr as [_ Gr]. rewrite !Gr by (rewrite N2, N1; cbn; auto). apply K0.
Qed.
