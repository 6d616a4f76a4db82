(** C117: every edge of a control flow graph has a reason. *)
From Verif Require Import ListLemmas.
From Verif Require Export CfgFlowProps CfgProofs7.
From Coq Require Import ZifyBool ZifyNat Permutation.

(** ** Specification *)
Definition same_condition (program : list cinst) (i j : nat) : Prop := exists c, condition program i c /\ condition program j c.
Definition links (program : list cinst) (i : nat) : Prop := exists x, nth_error program i = Some x /\ ci_link x = true.
Definition goes_outside (program : list cinst) (i : nat) : Prop :=
  exists c, nth_error program i = Some c /\ forall t d, nth_error program t = Some d -> ci_jump c <> Some (ci_address d).
(** [i] is a branch without link right after [x], under the condition of [x]. *)
Definition stepped_over (program : list cinst) (x i : nat) : Prop :=
  next_defined program x i /\ branches program i /\ ~ links program i /\ same_condition program i x.
(** From the end of the block of [x] to [y], where [y] is no branch target. *)
Definition flows (program : list cinst) (x y : nat) : Prop :=
  next_defined program x y /\ (~ branches program x \/ same_condition program y x) \/
  exists i, stepped_over program x i /\ next_defined program i y /\ ~ branches program x.
(** The branch [i] starts the block that [x] ends. *)
Definition carried (program : list cinst) (i x : nat) : Prop :=
  defined_at program i /\ branches program i /\ (i <= x)%nat /\ forall j, (i < j <= x)%nat -> defined_at program j -> ~ branches program j /\ same_condition program j i.
(** [i] is a call under the condition of the instruction before it. *)
Definition resumed (program : list cinst) (i : nat) : Prop := links program i /\ exists w, next_defined program w i /\ same_condition program i w.
(** Nothing unconditional from [i] up to [y]. *)
Definition passed (program : list cinst) (i y : nat) : Prop := (i < y)%nat /\ forall j, (i <= j < y)%nat -> defined_at program j -> ~ condition program j 14.
Definition first_defined (program : list cinst) (y : nat) : Prop := forall j, (j < y)%nat -> ~ defined_at program j.
Definition last_defined (program : list cinst) (x : nat) : Prop := defined_at program x /\ forall j, (x < j)%nat -> ~ defined_at program j.
Definition root_node (st : cfg) (n : Z) : bool := match dget (c_blocks st) n with Some (KRoot, _) => true | _ => false end.
Definition end_node (st : cfg) (n : Z) : bool := match dget (c_blocks st) n with Some (KEnd, _) => true | _ => false end.
(** [origin] gives the instruction of a conditional node and the branch of an unknown
    node. *)
Inductive edge_reason (program : list cinst) (st : cfg) (origin : Z -> nat) (b b' : Z) : Prop :=
  | r_next x y : ends_with st b x -> starts_with st b' y -> flows program x y -> edge_reason program st origin b b'
  | r_jump x y i : ends_with st b x -> starts_with st b' y -> carried program i x -> jumps_to program i y -> (y <= i)%nat -> edge_reason program st origin b b'
  | r_test x : ends_with st b x -> conditional_node st b' = true -> flows program x (origin b') -> edge_reason program st origin b b'
  | r_out x : ends_with st b x -> unknown_node st b' = true -> carried program (origin b') x -> goes_outside program (origin b') -> edge_reason program st origin b b'
  | r_stop x : ends_with st b x -> end_node st b' = true -> (last_defined program x \/ exists i, stepped_over program x i /\ last_defined program i) -> edge_reason program st origin b b'
  | r_taken y : conditional_node st b = true -> starts_with st b' y -> (y = origin b \/ passed program (origin b) y) -> edge_reason program st origin b b'
  | r_tests : conditional_node st b = true -> conditional_node st b' = true -> passed program (origin b) (origin b') -> edge_reason program st origin b b'
  | r_first y : root_node st b = true -> starts_with st b' y -> first_defined program y -> edge_reason program st origin b b'
  | r_first_test : root_node st b = true -> conditional_node st b' = true -> first_defined program (origin b') -> edge_reason program st origin b b'
  | r_nothing : root_node st b = true -> end_node st b' = true -> first_defined program (length program) -> edge_reason program st origin b b'
  | r_return y : unknown_node st b = true -> starts_with st b' y -> resumed program (origin b) -> next_defined program (origin b) y -> edge_reason program st origin b b'
  | r_return_test : unknown_node st b = true -> conditional_node st b' = true -> resumed program (origin b) -> next_defined program (origin b) (origin b') -> edge_reason program st origin b b'
  | r_unknown : unknown_node st b = true -> end_node st b' = true -> edge_reason program st origin b b'.

(** ** Proofs *)
Lemma def_not p j : is_defined p j = false -> ~ defined_at p j. Proof. intros E X. apply is_defined_iff in X. congruence. Qed.
Lemma nextd_spec p x y : nextd p x y -> next_defined p x y.
Proof. intros (A & B & C & D). split; [now apply is_defined_iff|]. split; [now apply is_defined_iff|]. split; [exact C|]. intros j J. apply def_not, D, J. Qed.
Lemma defined_cond p j : defined_at p j -> condition p j (cond_at p j).
Proof. intros (c & E & _). exists c. split; [exact E|]. unfold cond_at. rewrite E. reflexivity. Qed.
Lemma same_cond p i j : defined_at p i -> defined_at p j -> cond_at p i = cond_at p j -> same_condition p i j.
Proof. intros I J E. exists (cond_at p i). split; [now apply defined_cond|]. rewrite E. now apply defined_cond. Qed.
Lemma branch_spec p i : is_branch p i = true -> branches p i.
Proof. unfold is_branch. destruct (nth_error p i) as [c|] eqn:E; [|discriminate]. intros B. exists c. auto. Qed.
Lemma not_branch p i : is_branch p i = false -> ~ branches p i.
Proof. intros B (c & E & X). unfold is_branch in B. rewrite E in B. congruence. Qed.
Lemma link_spec p i : is_link p i = true -> links p i.
Proof. unfold is_link. destruct (nth_error p i) as [c|] eqn:E; [|discriminate]. intros B. exists c. auto. Qed.
Lemma not_link p i : is_link p i = false -> ~ links p i.
Proof. intros B (c & E & X). unfold is_link in B. rewrite E in B. congruence. Qed.
Lemma resume_spec p i : resumes p i -> resumed p i.
Proof. intros (L & w & N & C). split; [now apply link_spec|]. exists w. split; [now apply nextd_spec|]. apply same_cond; [apply is_defined_iff, N|apply is_defined_iff, N|exact C]. Qed.
Lemma target_some p i t : is_defined p i = true -> is_branch p i = true -> target p i = Some t -> jumps_to p i t.
Proof. unfold target, is_defined, is_branch. destruct (nth_error p i) as [c|] eqn:E; [|discriminate]. intros U B. unfold branch_to. destruct (ci_jump c) as [j|] eqn:Ej; [|discriminate]. intros X. apply branch_to_from_spec in X as (t0 & d & Et & Ed & -> & Hn). cbn in Et. subst t0.
  exists c, d. split; [exact E|]. split; [destruct (ci_undefined c); [discriminate|reflexivity]|]. auto. Qed.
Lemma target_none p i : is_defined p i = true -> target p i = None -> goes_outside p i.
Proof. unfold target. intros D. destruct (nth_error p i) as [c|] eqn:E; [|unfold is_defined in D; rewrite E in D; discriminate]. intros X. exists c. split; [exact E|]. intros t d Et Ej. unfold branch_to in X. rewrite Ej in X. clear -X Et. revert X Et. generalize 0%nat. revert t. induction p as [|q p IH]; intros t k X Et; [destruct t; discriminate|]. cbn [branch_to_from] in X. destruct (Z.eqb_spec (ci_address d) (ci_address q)); [discriminate|]. destruct t as [|t]; [injection Et as ->; congruence|]. eapply IH; eassumption. Qed.
Lemma skipped_spec p x i : skipped p x i -> stepped_over p x i.
Proof. intros (N & B & C & L). pose proof (nextd_spec _ _ _ N) as N'. split; [exact N'|]. split; [now apply branch_spec|]. split; [now apply not_link|]. destruct N' as (A1 & A2 & _). now apply same_cond. Qed.
Lemma follow_spec p x y : follow p x y -> flows p x y.
Proof. intros [[N [B|C]]|(i & S & B & N)].
  - left. split; [now apply nextd_spec|]. left. now apply not_branch.
  - left. pose proof (nextd_spec _ _ _ N) as N'. split; [exact N'|]. right. destruct N' as (A1 & A2 & _). now apply same_cond.
  - right. exists i. split; [now apply skipped_spec|]. split; [now apply nextd_spec|]. now apply not_branch. Qed.
Lemma held_spec p i x : held p i x -> carried p i x.
Proof. intros (D & B & L & H). split; [now apply is_defined_iff|]. split; [now apply branch_spec|]. split; [exact L|]. intros j J Dj. destruct (H j J) as [C N]; [now apply is_defined_iff|]. split; [now apply not_branch|]. apply same_cond; [exact Dj|now apply is_defined_iff|exact C]. Qed.
Lemma skips_spec p i y : skips p i y -> passed p i y.
Proof. intros (L & H). split; [exact L|]. intros j J Dj X. apply (H j J); [now apply is_defined_iff|]. exact (cond_at_is _ _ _ X). Qed.
Lemma firstd_spec p y : firstd p y -> first_defined p y. Proof. intros H j J. apply def_not, H, J. Qed.
Lemma lastd_spec p x : lastd p (length p) x -> last_defined p x.
Proof. intros (D & L & H). split; [now apply is_defined_iff|]. intros j J. destruct (Nat.lt_ge_cases j (length p)) as [Lt|Ge]; [apply def_not, H; lia|]. intros (c & E & _). apply nth_error_None in Ge. congruence. Qed.
Lemma kind_node st n K : kind_of st n = Some K -> match K with KRoot => root_node st n | KCond => conditional_node st n | KUnknown => unknown_node st n | KEnd => end_node st n | KBlock => true end = true.
Proof. unfold kind_of, root_node, conditional_node, unknown_node, end_node. destruct (dget (c_blocks st) n) as [[q l]|]; [|discriminate]. intros X. injection X as ->. destruct K; reflexivity. Qed.
(** Every node is the source and the target of something. *)
Lemma place_src st n : sane st -> In n (nodes st) -> exists s, is_src st s n.
Proof. intros (G & _ & Kb) N. destruct (instructions st n) as [|i l] eqn:E.
  - destruct (inside _ _ G N) as (k & _ & K). exists (inr n). split; [reflexivity|]. exists k. split; [exact K|]. intros ->. apply Kb in K. contradiction.
  - destruct (exists_last (l := i :: l)) as (q & z & Q); [discriminate|]. exists (inl z), q. congruence. Qed.
Lemma place_tgt st n : sane st -> In n (nodes st) -> exists s, is_tgt st s n.
Proof. intros (G & _ & Kb) N. destruct (instructions st n) as [|i l] eqn:E.
  - destruct (inside _ _ G N) as (k & _ & K). exists (inr n). split; [reflexivity|]. exists k. split; [exact K|]. intros ->. apply Kb in K. contradiction.
  - exists (inl i), l. exact E. Qed.

(** ** C117 *)
(** After an unconditional branch the block before the branch has an edge to the
    instruction behind it. *)
Theorem C117_edges_refuted : exists program st w x y b b', build program = Ok st /\ next_defined program w x /\ next_defined program x y /\
  ~ branches program w /\ branches program x /\ ~ links program x /\ condition program x 14 /\ ~ jumps_to program x y /\
  ends_with st b w /\ starts_with st b' y /\ edges (c_graph st) b b'.
Proof.
  set (p := [plain 0; plain 4; jump 14 8 0; plain 12]).
  exists p, (match build p with Ok s => s | Err _ => Cfg g_empty [] 0 [] end), 1%nat, 2%nat, 3%nat, 3, 5.
  split; [vm_compute; reflexivity|]. split; [split; [eexists; split; reflexivity|]; split; [eexists; split; reflexivity|]; split; [lia|]; intros j J; lia|].
  split; [split; [eexists; split; reflexivity|]; split; [eexists; split; reflexivity|]; split; [lia|]; intros j J; lia|].
  split; [intros (c & X & Y); injection X as <-; discriminate|]. split; [eexists; split; reflexivity|]. split; [intros (c & X & Y); injection X as <-; discriminate|]. split; [eexists; split; reflexivity|].
  split; [intros (c & d & X & _ & _ & Y & Z0 & _); injection X as <-; injection Y as <-; discriminate|].
  vm_compute. split; [split; [auto 10|exists [0%nat]; reflexivity]|]. split; [split; [auto 10|exists []; reflexivity]|]. reflexivity.
Qed.
Print Assumptions C117_edges_refuted.
(** What holds: every edge has one of these reasons.  Missing: the edge over a branch
    of the same condition ([stepped_over]) must not exist when the branch is
    unconditional. *)
Theorem C117_edges_partial : forall program st, build program = Ok st ->
  exists origin : Z -> nat,
    (forall n, conditional_node st n = true -> defined_at program (origin n) /\ exists b, starts_with st b (origin n) /\ edges (c_graph st) n b) /\
    (forall b b', edges (c_graph st) b b' -> edge_reason program st origin b b').
Proof.
  intros program st E. destruct program as [|c0 p0]; [injection E as <-; exists (fun _ => 0%nat); split; [intros n X|intros n m X]; discriminate X|]. set (program := c0 :: p0) in *.
  destruct (build6 program st ltac:(discriminate) E) as (own & G & Sn & (J & _) & K1 & K2 & Ow). exists own. split.
  - intros n X. apply kind_cond in X. destruct (Ow n X) as (_ & D & (b & b' & (-> & _) & (l & T) & Eb)). split; [apply is_defined_iff; exact D|]. exists b'. destruct (edg_nodes _ _ _ G Eb) as [_ B']. split; [split; eauto|]. apply has_edge_iff, Eb.
  - intros b b' X. apply has_edge_iff in X. destruct (edg_nodes _ _ _ G X) as [B B']. destruct (place_src st b Sn B) as (s & S). destruct (place_tgt st b' Sn B') as (t & T).
    pose proof (J s t (ex_intro _ b (ex_intro _ b' (conj S (conj T X))))) as H.
    destruct s as [x|n]; cbn [is_src] in S; [|destruct S as [<- _]]; (destruct t as [y|m]; cbn [is_tgt] in T; [|destruct T as [<- _]]); cbn [just] in H.
    + destruct H as [H|(i & H1 & H2 & H3)]; [eapply r_next; [split; eassumption|split; eassumption|exact (follow_spec _ _ _ H)]|]. eapply r_jump; [split; eassumption|split; eassumption|exact (held_spec _ _ _ H1)|apply target_some; [apply H1|apply H1|exact H2]|exact H3].
    + destruct (kind_of st b') as [[]|] eqn:K; try contradiction; apply kind_node in K.
      * eapply r_test; [split; eassumption|exact K|exact (follow_spec _ _ _ H)].
      * destruct H as [H1 H2]. eapply r_out; [split; eassumption|exact K|exact (held_spec _ _ _ H1)|]. apply target_none; [apply H1|exact H2].
      * destruct H as [_ H]. eapply r_stop; [split; eassumption|exact K|]. destruct H as [H|(i & H1 & H2)]; [left; now apply lastd_spec|right; exists i; split; [now apply skipped_spec|now apply lastd_spec]].
    + destruct (kind_of st b) as [[]|] eqn:K; try contradiction; apply kind_node in K.
      * eapply r_first; [exact K|split; eassumption|now apply firstd_spec].
      * eapply r_taken; [exact K|split; eassumption|]. destruct H as [H|H]; [auto|right; now apply skips_spec].
      * destruct H as [H1 H2]. eapply r_return; [exact K|split; eassumption|now apply resume_spec|now apply nextd_spec].
    + destruct (kind_of st b) as [[]|] eqn:K; try contradiction; apply kind_node in K; destruct (kind_of st b') as [[]|] eqn:K'; try contradiction; apply kind_node in K'.
      * apply r_first_test; [exact K|exact K'|now apply firstd_spec].
      * apply r_nothing; [exact K|exact K'|apply firstd_spec, H].
      * apply r_tests; [exact K|exact K'|now apply skips_spec].
      * destruct H as [H1 H2]. apply r_return_test; [exact K|exact K'|now apply resume_spec|now apply nextd_spec].
      * now apply r_unknown.
Qed.
Print Assumptions C117_edges_partial.
Lemma ends_unique st b x x' : ends_with st b x -> ends_with st b x' -> x = x'.
Proof. intros (_ & l & E) (_ & l' & E'). rewrite E in E'. exact (last_unique _ _ _ _ E'). Qed.
Lemma starts_unique st b x x' : starts_with st b x -> starts_with st b x' -> x = x'.
Proof. intros (_ & l & E) (_ & l' & E'). congruence. Qed.
Lemma block_kind program st b i : build program = Ok st -> In i (instructions st b) -> conditional_node st b = false /\ unknown_node st b = false /\ root_node st b = false /\ end_node st b = false.
Proof. intros E I. destruct program as [|c0 p0]; [injection E as <-; destruct I|]. destruct (build6 (c0 :: p0) st ltac:(discriminate) E) as (own & G & Sn & _). assert (K : kind_of st b = Some KBlock) by (apply Sn; intros X; rewrite X in I; destruct I).
  unfold kind_of in K. unfold conditional_node, unknown_node, root_node, end_node. destruct (dget (c_blocks st) b) as [[q l]|]; [|discriminate]. injection K as ->. auto. Qed.
(** An edge back, from a block to a block, is that of a branch to its target. *)
Theorem C117_back_edges : forall program st b b' x y, build program = Ok st -> edges (c_graph st) b b' -> ends_with st b x -> starts_with st b' y -> (y <= x)%nat ->
  exists i, carried program i x /\ jumps_to program i y.
Proof.
  intros program st b b' x y E X S T L. destruct (C117_edges_partial program st E) as (origin & _ & H). pose proof (H b b' X) as R.
  assert (I : In x (instructions st b)) by (destruct S as (_ & l & ->); apply in_app_iff; right; left; reflexivity). assert (I' : In y (instructions st b')) by (destruct T as (_ & l & ->); left; reflexivity).
  destruct (block_kind program st b x E I) as (A1 & A2 & A3 & A4). destruct (block_kind program st b' y E I') as (B1 & B2 & B3 & B4).
  destruct R as [x' y' S' T' F|x' y' i S' T' C Gt _|x' S' K|x' S' K|x' S' K|y' K|K|y' K|K|K|y' K|K|K]; try congruence.
  - exfalso. pose proof (ends_unique _ _ _ _ S S') as <-. pose proof (starts_unique _ _ _ _ T T') as <-. destruct F as [[(_ & _ & L' & _) _]|(i & ((_ & _ & L1 & _) & _) & (_ & _ & L2 & _) & _)]; lia.
  - pose proof (ends_unique _ _ _ _ S S') as <-. pose proof (starts_unique _ _ _ _ T T') as <-. eauto.
Qed.
Print Assumptions C117_back_edges.
(** An edge ahead, from a block to a block, is never that of a branch. *)
Theorem C117_forward_edges : forall program st b b' x y, build program = Ok st -> edges (c_graph st) b b' -> ends_with st b x -> starts_with st b' y -> (x < y)%nat -> flows program x y.
Proof.
  intros program st b b' x y E X S T L. destruct (C117_edges_partial program st E) as (origin & _ & H). pose proof (H b b' X) as R.
  assert (I : In x (instructions st b)) by (destruct S as (_ & l & ->); apply in_app_iff; right; left; reflexivity). assert (I' : In y (instructions st b')) by (destruct T as (_ & l & ->); left; reflexivity).
  destruct (block_kind program st b x E I) as (A1 & A2 & A3 & A4). destruct (block_kind program st b' y E I') as (B1 & B2 & B3 & B4).
  destruct R as [x' y' S' T' F|x' y' i S' T' C Gt Le|x' S' K|x' S' K|x' S' K|y' K|K|y' K|K|K|y' K|K|K]; try congruence.
  - pose proof (ends_unique _ _ _ _ S S') as <-. pose proof (starts_unique _ _ _ _ T T') as <-. exact F.
  - exfalso. pose proof (ends_unique _ _ _ _ S S') as <-. pose proof (starts_unique _ _ _ _ T T') as <-. destruct C as (_ & _ & Lix & _). lia.
Qed.
Print Assumptions C117_forward_edges.
(** C63: a jump ahead adds no edge.  When the block of the branch has an edge to a block
    that starts with the target, then only because control flows there from the end of the
    block anyway. *)
Theorem C63_ahead : forall program st i t b s, build program = Ok st -> jumps_to program i t -> (i < t)%nat -> holds st b i -> starts_with st s t -> edges (c_graph st) b s ->
  exists x, ends_with st b x /\ flows program x t.
Proof.
  intros program st i t b s E J L (B & I) T X. destruct (C62_partition program) as (st' & E' & _ & _ & Rn). assert (st' = st) as -> by congruence. destruct (Rn b) as (_ & from & len & Rb).
  destruct (exists_last (l := instructions st b)) as (l & x & Lx); [intros Q; rewrite Q in I; destruct I|]. assert (S : ends_with st b x) by (split; eauto).
  exists x. split; [exact S|]. destruct (Nat.lt_ge_cases x t) as [Lt|Ge]; [exact (C117_forward_edges program st b s x t E X S T Lt)|exfalso].
  destruct (C117_back_edges program st b s x t E X S T Ge) as (k & Ck & Jk). pose proof Ck as (Dk & Bk & Lk & _).
  assert (Ltk : (i < k)%nat).
  { destruct (C117_edges_partial program st E) as (origin & _ & H). pose proof (H b s X) as R. destruct (Nat.lt_ge_cases i k) as [|Gk]; [assumption|exfalso].
    destruct Ck as (_ & _ & _ & Ck). destruct (Nat.eq_dec i k) as [->|Ne].
    - assert (I' : In t (instructions st s)) by (destruct T as (_ & lt & ->); left; reflexivity). destruct (block_kind program st b k E I) as (A1 & A2 & A3 & A4). destruct (block_kind program st s t E I') as (B1 & B2 & B3 & B4).
      destruct R as [x' y' S' T' F|x' y' i' S' T' Ci Gt Le|x' S' K|x' S' K|x' S' K|y' K|K|y' K|K|K|y' K|K|K]; try congruence; pose proof (ends_unique _ _ _ _ S S') as <-; pose proof (starts_unique _ _ _ _ T T') as <-.
      + destruct F as [[(_ & _ & L' & _) _]|(i' & ((_ & _ & L1 & _) & _) & (_ & _ & L2 & _) & _)]; lia.
      + destruct Ci as (Di & Bi & Li & _). destruct (Ck i') as [Nb _]; [lia|exact Di|]. contradiction.
    - destruct (Ck i) as [Nb _].
      + split; [lia|]. assert (Ix : In i (l ++ [x])) by congruence. rewrite <- Lx, Rb in Ix. assert (Xx : In x (filter (is_defined program) (seq from len))) by (rewrite <- Rb, Lx; apply in_app_iff; right; left; reflexivity).
        clear -Rb Lx Ix. destruct (Nat.le_gt_cases i x) as [|G]; [assumption|exfalso]. rewrite Lx in Rb. assert (Sr : forall n m, Sorted.StronglySorted lt (filter (is_defined program) (seq n m))).
        { intros n m. revert n. induction m as [|m IH]; intros n; cbn [seq filter]; [constructor|]. destruct (is_defined program n); [|apply IH]. constructor; [apply IH|]. apply Forall_forall. intros z Z0. apply filter_In in Z0 as [Z0 _]. apply in_seq in Z0. lia. }
        specialize (Sr from len). rewrite <- Rb in Sr, Ix. apply in_app_iff in Ix as [Ix|[->|[]]]; [|lia]. clear Rb Lx. induction l as [|a l IH]; [destruct Ix|]. inversion Sr as [|? ? S1 F1]; subst. destruct Ix as [->|Ix]; [|auto]. rewrite Forall_forall in F1. specialize (F1 x ltac:(apply in_app_iff; right; left; reflexivity)). lia.
      + destruct J as (c & d & J1 & J2 & _). exists c. auto.
      + apply Nb. destruct J as (c & d & J1 & _ & J3 & _). exists c. auto. }
  assert (Ik : In k (instructions st b)).
  { rewrite Rb in I |- *. assert (Xx : In x (filter (is_defined program) (seq from len))) by (rewrite <- Rb, Lx; apply in_app_iff; right; left; reflexivity). apply filter_In in I as [I _]. apply filter_In in Xx as [Xx _]. apply in_seq in I. apply in_seq in Xx. apply filter_In. split; [apply in_seq; lia|]. apply is_defined_iff, Dk. }
  destruct (instructions st b) as [|h q] eqn:Ib; [destruct I|]. destruct Bk as (ck & Eck & Bck). destruct J as (c & d & J1 & J2 & J3 & _).
  assert (Hq : forall j cj, In j q -> nth_error program j = Some cj -> ci_branch cj = false) by (intros j cj Jq Ej; exact (C80_branch_first_partial program st b h q j cj E Ib Jq Ej)).
  destruct I as [->|I]; [|rewrite (Hq i c I J1) in J3; discriminate]. destruct Ik as [->|Ik]; [lia|]. rewrite (Hq k ck Ik Eck) in Bck. discriminate.
Qed.
Print Assumptions C63_ahead.
Example C63_ahead_example : exists st, build [jump 14 0 4; jump 14 4 0] = Ok st /\ jumps_to [jump 14 0 4; jump 14 4 0] 0 1 /\ holds st 3 0 /\ starts_with st 4 1 /\ edges (c_graph st) 3 4.
Proof. eexists. split; [vm_compute; reflexivity|]. split; [eexists _, _; do 4 (split; [reflexivity|]); split; [reflexivity|]; intros [|t] d L E; [injection E as <-; discriminate|lia]|]. vm_compute. split; [split; auto 10|]. split; [split; [auto 10|exists []; reflexivity]|]. reflexivity. Qed.
(** From a conditional node nothing leads past an unconditional instruction. *)
Theorem C117_conditional_node : forall program st, build program = Ok st -> exists origin : Z -> nat, forall n, conditional_node st n = true ->
  (exists b, starts_with st b (origin n) /\ edges (c_graph st) n b) /\
  forall b, edges (c_graph st) n b -> exists y, (starts_with st b y \/ conditional_node st b = true /\ y = origin b) /\
    forall j, (origin n <= j < y)%nat -> defined_at program j -> ~ condition program j 14.
Proof.
  intros program st E. destruct (C117_edges_partial program st E) as (origin & Ho & H). exists origin. intros n K. split; [destruct (Ho n K) as [_ X]; exact X|].
  intros b X. pose proof (H n b X) as R.
  assert (Nb : forall x, ~ ends_with st n x). { intros x (_ & l & Q). assert (I : In x (instructions st n)) by (rewrite Q; apply in_app_iff; right; left; reflexivity). destruct (block_kind program st n x E I) as (A1 & _). congruence. }
  assert (Nu : unknown_node st n = false /\ root_node st n = false). { unfold conditional_node, unknown_node, root_node in *. destruct (dget (c_blocks st) n) as [[[] l]|]; try discriminate; auto. }
  destruct R as [x' y' S'|x' y' i S'|x' S'|x' S'|x' S'|y' _ T F|_ K' F|y' K'|K'|K'|y' K'|K'|K']; try (exfalso; eapply Nb; eassumption); try (destruct Nu; congruence).
  - exists y'. split; [left; exact T|]. destruct F as [->|[_ F]]; [intros j J; lia|exact F].
  - exists (origin b). split; [right; auto|]. apply F.
Qed.
Print Assumptions C117_conditional_node.
(** A graph with a split block, conditions, a call out and branches. *)
Definition edge_example := [plain 0; plain 4; jump 14 8 4; Ci false false false 0 12 None; Ci false true true 0 16 (Some 100); Ci false false false 1 20 None; plain 24].
Example C117_example : exists st, build edge_example = Ok st /\ ends_with st 4 2 /\ starts_with st 3 1 /\ edges (c_graph st) 4 3 /\ conditional_node st 7 = true /\ edges (c_graph st) 7 6 /\ starts_with st 6 3.
Proof. eexists. split; [vm_compute; reflexivity|]. vm_compute. split; [split; [auto 14|exists []; reflexivity]|]. split; [split; [auto 14|exists []; reflexivity]|]. split; [reflexivity|]. split; [reflexivity|]. split; [reflexivity|]. split; [auto 14|exists []; reflexivity]. Qed.
