(** Proofs about the construction of the control flow graph. *)
From Verif Require Import ListLemmas.
From Verif Require Export CfgModel GraphProofs.
From Coq Require Import ZifyBool ZifyNat Permutation.

Definition kind_of (st : cfg) (x : Z) : option kind := match dget (c_blocks st) x with Some (k, _) => Some k | None => None end.
Definition insts (st : cfg) : list nat := flat_map (instructions st) (g_nodes (c_graph st)).
Definition edg (st : cfg) : rel := edge (c_graph st).
Definition nodes (st : cfg) : list Z := g_nodes (c_graph st).
Definition good (st : cfg) : Prop :=
  wf (c_graph st) /\ (forall n, In n (nodes st) <-> 1 <= n <= c_last st) /\ dkeys (c_blocks st) = nodes st.

Lemma good_wf st : good st -> wf (c_graph st). Proof. intros H; apply H. Qed.
Lemma good_nodes st n : good st -> In n (nodes st) <-> 1 <= n <= c_last st. Proof. intros H; apply H. Qed.
Lemma good_nodup st : good st -> NoDup (nodes st). Proof. intros (W & _). apply W. Qed.
Lemma outside st x : good st -> ~ In x (nodes st) -> instructions st x = [] /\ kind_of st x = None.
Proof. intros (_ & _ & K) N. rewrite <- K in N. apply dget_none in N. unfold instructions, kind_of. now rewrite N. Qed.
Lemma inside st x : good st -> In x (nodes st) -> exists k, dget (c_blocks st) x = Some (k, instructions st x) /\ kind_of st x = Some k.
Proof. intros (_ & _ & K) N. rewrite <- K in N. apply dget_some_in in N as [[k l] E]. exists k. unfold instructions, kind_of. now rewrite E. Qed.
Lemma edg_nodes st x y : good st -> edg st x y -> In x (nodes st) /\ In y (nodes st).
Proof. intros G E. exact (edge_nodes _ _ _ (good_wf _ G) E). Qed.

Lemma new_node_ok st k l : good st -> (k = KBlock -> l <> []) -> 0 <= c_last st -> exists st', new_node st k l = Ok (st', c_last st + 1) /\ good st' /\
  c_last st' = c_last st + 1 /\ c_pending st' = c_pending st /\ nodes st' = nodes st ++ [c_last st + 1] /\
  (forall x y, edg st' x y <-> edg st x y) /\
  (forall x, instructions st' x = if x =? c_last st + 1 then l else instructions st x) /\
  (forall x, kind_of st' x = if x =? c_last st + 1 then Some k else kind_of st x).
Proof.
  intros G K L. pose proof G as (W & N & D).
  assert (Nn : ~ In (c_last st + 1) (nodes st)) by (rewrite N; lia).
  destruct (add_node_ok (c_graph st) (c_last st + 1) W Nn) as (g & E & W' & Ng & A & B).
  assert (F : new_node st k l = Ok (Cfg g (dset (c_blocks st) (c_last st + 1) (k, l)) (c_last st + 1) (c_pending st), c_last st + 1)).
  { unfold new_node. rewrite E. cbn [bind]. destruct k, l; try reflexivity. exfalso; now apply K. }
  eexists. split; [exact F|]. clear F.
  assert (I : forall x, instructions (Cfg g (dset (c_blocks st) (c_last st + 1) (k, l)) (c_last st + 1) (c_pending st)) x = if x =? c_last st + 1 then l else instructions st x).
  { intros x. unfold instructions. cbn [c_blocks]. rewrite dget_dset. now destruct (x =? c_last st + 1). }
  assert (J : forall x, kind_of (Cfg g (dset (c_blocks st) (c_last st + 1) (k, l)) (c_last st + 1) (c_pending st)) x = if x =? c_last st + 1 then Some k else kind_of st x).
  { intros x. unfold kind_of. cbn [c_blocks]. rewrite dget_dset. now destruct (x =? c_last st + 1). }
  split.
  - split; [auto|]. unfold nodes in *. cbn [c_graph c_last c_blocks]. split.
    + intros n. rewrite Ng, in_app_iff, N. cbn [In]. lia.
    + rewrite dkeys_dset_out by (rewrite D; auto). now rewrite D, Ng.
  - cbn [c_last c_pending]. split; [auto|]. split; [auto|]. split; [exact Ng|]. split; [|auto]. intros x y. unfold edg, edge. cbn [c_graph]. now rewrite A.
Qed.

(** What does not change when an edge is added. *)
Definition same (st st' : cfg) : Prop :=
  c_blocks st' = c_blocks st /\ c_last st' = c_last st /\ c_pending st' = c_pending st /\ nodes st' = nodes st.
Lemma same_inst st st' x : same st st' -> instructions st' x = instructions st x.
Proof. intros (E & _). unfold instructions. now rewrite E. Qed.
Lemma same_kind st st' x : same st st' -> kind_of st' x = kind_of st x.
Proof. intros (E & _). unfold kind_of. now rewrite E. Qed.
Lemma same_insts st st' : same st st' -> insts st' = insts st.
Proof. intros S. unfold insts. pose proof S as (E & _ & _ & N). unfold nodes in N. rewrite N. clear N. induction (g_nodes (c_graph st)) as [|x l IH]; [reflexivity|]. cbn. now rewrite (same_inst _ _ _ S), IH. Qed.
Lemma same_trans a b c : same a b -> same b c -> same a c.
Proof. intros (A & B & C & D) (A' & B' & C' & D'). repeat split; congruence. Qed.
Lemma same_refl a : same a a. Proof. repeat split. Qed.
Lemma with_graph_same st g : g_nodes g = nodes st -> same st (with_graph st g).
Proof. intros H. repeat split. exact H. Qed.
Lemma with_graph_good st g : good st -> wf g -> g_nodes g = nodes st -> good (with_graph st g).
Proof. intros (W & N & D) W' E. unfold good, nodes in *. cbn [with_graph c_graph c_last c_blocks]. rewrite E. auto. Qed.

Lemma edge_add_ok st u v : good st -> In u (nodes st) -> In v (nodes st) -> ~ edg st u v -> exists st', edge_add st u v = Ok st' /\ good st' /\ same st st' /\
  forall x y, edg st' x y <-> edg st x y \/ (x = u /\ y = v).
Proof.
  intros G U V E. destruct (add_edge_ok (c_graph st) u v (good_wf _ G) U V E) as (g & Eg & W & N & A & _). unfold edge_add. rewrite Eg. cbn [bind].
  eexists. split; [reflexivity|]. split; [now apply with_graph_good|]. split; [now apply with_graph_same|]. now apply add_edge_edge.
Qed.
Lemma edge_add_once_ok st u v : good st -> In u (nodes st) -> In v (nodes st) -> exists st', edge_add_once st u v = Ok st' /\ good st' /\ same st st' /\
  forall x y, edg st' x y <-> edg st x y \/ (x = u /\ y = v).
Proof.
  intros G U V. unfold edge_add_once. destruct (has_edge (c_graph st) u v) eqn:H.
  - apply has_edge_iff in H. exists st. split; [auto|]. split; [auto|]. split; [apply same_refl|]. intros x y. split; [auto|]. intros [?|[-> ->]]; auto.
  - apply has_edge_false in H. now apply edge_add_ok.
Qed.

Lemma nindex_ok i l : In i l -> exists j, nindex i l = Ok j /\ (j < length l)%nat /\ nth_error l j = Some i.
Proof.
  induction l as [|y l IH]; intros H; [destruct H|]. cbn [nindex]. destruct (Nat.eqb_spec y i) as [->|n].
  - exists 0%nat. cbn. repeat split; lia.
  - destruct H as [->|H]; [congruence|]. destruct (IH H) as (j & E & L & N). rewrite E. exists (S j). cbn. repeat split; auto; lia.
Qed.

(** Moving the incoming edges of [split] to [up]. *)
Lemma redirect split up : forall ins st, good st -> NoDup ins -> In up (nodes st) -> In split (nodes st) -> up <> split ->
  (forall n, In n ins -> edg st n split) -> (forall n, In n ins -> ~ edg st n up) ->
  exists st', foldM (fun st n => let* g := del_edge (c_graph st) n split in edge_add (with_graph st g) n up) ins st = Ok st' /\ good st' /\ same st st' /\
  forall x y, edg st' x y <-> (edg st x y /\ ~ (In x ins /\ y = split)) \/ (In x ins /\ y = up).
Proof.
  induction ins as [|n ins IH]; intros st G Nd U S Ne H1 H2.
  - exists st. split; [reflexivity|]. split; [auto|]. split; [apply same_refl|]. intros x y. cbn [In]. tauto.
  - apply NoDup_cons_iff in Nd as [Nn Nd]. assert (En : edg st n split) by (apply H1; left; auto).
    destruct (del_edge_ok (c_graph st) n split (good_wf _ G) En) as (g & Eg & W & N & Hg). cbn [foldM]. rewrite Eg. cbn [bind].
    pose proof (with_graph_good st g G W N) as G1. pose proof (with_graph_same st g N) as S1.
    assert (E1 : forall x y, edg (with_graph st g) x y <-> edg st x y /\ ~ (x = n /\ y = split)) by (intros; apply Hg).
    destruct (edge_add_ok (with_graph st g) n up G1) as (st2 & E2 & G2 & S2 & H3).
    { unfold nodes. cbn [with_graph c_graph]. rewrite N. exact (proj1 (edg_nodes _ _ _ G En)). }
    { unfold nodes. cbn [with_graph c_graph]. rewrite N. exact U. }
    { rewrite E1. intros [X _]. apply (H2 n); [left; auto|auto]. }
    rewrite E2. cbn [bind]. pose proof (same_trans _ _ _ S1 S2) as S3. destruct (IH st2 G2 Nd) as (st' & E & G' & S' & H); auto.
    + destruct S3 as (_ & _ & _ & X). now rewrite X.
    + destruct S3 as (_ & _ & _ & X). now rewrite X.
    + intros m I. rewrite H3, E1. left. split; [apply H1; right; auto|]. intros [-> _]. auto.
    + intros m I. rewrite H3, E1. intros [[A _]|[-> _]]; [|auto]. apply (H2 m); [right; auto|auto].
    + exists st'. split; [auto|]. split; [auto|]. split; [eapply same_trans; eauto|]. intros x y. rewrite H, H3, E1. cbn [In]. split.
      * intros [[[[A B]|[-> ->]] C]|[A ->]]; [left; split; [auto|]|right; auto|right; auto]. intros [[D|D] F]; [apply B; auto|apply C; auto].
      * intros [[A B]|[[->|A] ->]].
        -- left. split; [left; split; [auto|]|]; intros [D F]; apply B; auto.
        -- left. split; [right; auto|]. intros [D F]; congruence.
        -- right; auto.
Qed.

Lemma set_inst_ok st b l : good st -> In b (nodes st) -> good (set_instructions st b l) /\ c_graph (set_instructions st b l) = c_graph st /\ c_last (set_instructions st b l) = c_last st /\
  c_pending (set_instructions st b l) = c_pending st /\ (forall x, instructions (set_instructions st b l) x = if x =? b then l else instructions st x) /\ (forall x, kind_of (set_instructions st b l) x = kind_of st x).
Proof.
  intros G B. destruct (inside st b G B) as (k & E & K). unfold set_instructions. rewrite E. cbn [c_graph c_last c_pending].
  split.
  - destruct G as (W & N & D). split; [auto|]. split; [auto|]. cbn [c_blocks]. rewrite dkeys_dset_in; [auto|]. rewrite D. exact B.
  - split; [auto|]. split; [auto|]. split; [auto|]. split; intros x; [unfold instructions at 1|unfold kind_of at 1]; cbn [c_blocks]; rewrite dget_dset; destruct (Z.eqb_spec x b) as [->|]; auto.
Qed.

Lemma insts_same_on st st' l : (forall x, In x l -> instructions st' x = instructions st x) -> flat_map (instructions st') l = flat_map (instructions st) l.
Proof. induction l as [|x l IH]; intros H; [reflexivity|]. cbn. rewrite H by (left; auto). rewrite IH; [auto|]. intros; apply H; right; auto. Qed.
Lemma insts_change st st' b m l : NoDup l -> In b l -> (forall x, In x l -> x <> b -> instructions st' x = instructions st x) -> Permutation (instructions st' b) m ->
  exists r, Permutation (flat_map (instructions st) l) (instructions st b ++ r) /\ Permutation (flat_map (instructions st') l) (m ++ r).
Proof.
  intros Nd I H P. apply in_split in I as (l1 & l2 & ->). apply NoDup_remove_2 in Nd. rewrite !flat_map_app. cbn [flat_map].
  rewrite !in_app_iff in Nd. rewrite (insts_same_on st st' l1), (insts_same_on st st' l2) by (intros x I; apply H; [apply in_app_iff; cbn [In]; auto|intros ->; auto]).
  exists (flat_map (instructions st) l1 ++ flat_map (instructions st) l2). split; [apply Permutation_app_swap_app|]. rewrite Permutation_app_swap_app. now apply Permutation_app_tail.
Qed.

(** Cutting a block in two before the instruction at position [j]. *)
Lemma cut_ok st split j : good st -> In split (nodes st) -> (0 < j < length (instructions st split))%nat -> 0 <= c_last st ->
  exists st', (let l := instructions st split in
    let* (st, up) := new_node st KBlock (firstn j l) in
    let st := set_instructions st split (skipn j l) in
    let* ins := incidents (c_graph st) split in
    let* st := foldM (fun st n => let* g := del_edge (c_graph st) n split in edge_add (with_graph st g) n up) ins st in
    edge_add st up split) = Ok st' /\ good st' /\ c_last st' = c_last st + 1 /\ c_pending st' = c_pending st /\ nodes st' = nodes st ++ [c_last st + 1] /\
  (forall x, instructions st' x = if x =? c_last st + 1 then firstn j (instructions st split) else if x =? split then skipn j (instructions st split) else instructions st x) /\
  (forall x, kind_of st' x = if x =? c_last st + 1 then Some KBlock else kind_of st x) /\
  (forall x y, edg st' x y <-> (edg st x y /\ y <> split) \/ (edg st x split /\ y = c_last st + 1) \/ (x = c_last st + 1 /\ y = split)).
Proof.
  intros G S J L. cbv zeta. set (l := instructions st split) in *. set (up := c_last st + 1).
  assert (Ul : ~ In up (nodes st)) by (rewrite (good_nodes st up G); unfold up; lia).
  destruct (new_node_ok st KBlock (firstn j l) G) as (st1 & E1 & G1 & L1 & P1 & N1 & Ed1 & I1 & K1).
  { intros _ X. destruct l; [cbn in J; lia|]. destruct j; [lia|discriminate]. } { auto. }
  rewrite E1. cbn [bind]. fold up in E1, L1, N1, I1, K1 |- *.
  assert (S1 : In split (nodes st1)) by (rewrite N1, in_app_iff; auto).
  assert (U1 : In up (nodes st1)) by (rewrite N1, in_app_iff; right; left; auto).
  destruct (set_inst_ok st1 split (skipn j l) G1 S1) as (G2 & Gr2 & L2 & P2 & I2 & K2).
  set (st2 := set_instructions st1 split (skipn j l)) in *.
  assert (N2 : nodes st2 = nodes st1) by (unfold nodes; now rewrite Gr2).
  assert (Ed2 : forall x y, edg st2 x y <-> edg st x y) by (intros x y; unfold edg in *; rewrite Gr2; apply Ed1).
  pose proof (good_wf _ G2) as W2. rewrite incidents_ok by (auto; unfold node; fold (nodes st2); rewrite N2; auto). cbn [bind].
  assert (Hin : forall n, In n (inc (c_graph st2) split) <-> edg st split split /\ n = split \/ edg st n split).
  { intros n. destruct W2 as (_ & _ & W3 & _). rewrite <- W3. change (In split (nb (c_graph st2) n)) with (edg st2 n split). rewrite Ed2. split; [auto|]. intros [[? ->]|?]; auto. }
  assert (Hin' : forall n, In n (inc (c_graph st2) split) <-> edg st n split) by (intros n; rewrite Hin; split; [intros [[? ->]|?]; auto|auto]). clear Hin.
  assert (Uns : up <> split) by (intros X; apply Ul; now rewrite X).
  destruct (redirect split up (inc (c_graph st2) split) st2 G2) as (st3 & E3 & G3 & S3 & H3); auto.
  { apply W2. } { now rewrite N2. } { now rewrite N2. }
  { intros n I. apply Ed2, Hin', I. } { intros n I. rewrite Ed2. intros X. apply (edg_nodes st _ _ G) in X as [_ X]. auto. }
  rewrite E3. cbn [bind].
  destruct (edge_add_ok st3 up split G3) as (st4 & E4 & G4 & S4 & H4).
  { destruct S3 as (_ & _ & _ & ->). now rewrite N2. } { destruct S3 as (_ & _ & _ & ->). now rewrite N2. }
  { rewrite H3, Hin', Ed2. intros [[X _]|[X Y]]; [apply (edg_nodes st _ _ G) in X as [X _]; auto|congruence]. }
  rewrite E4. cbn [bind]. exists st4. split; [reflexivity|]. pose proof (same_trans _ _ _ S3 S4) as S5.
  split; [auto|]. destruct S5 as (Sb & Sl & Sp & Sn). split; [rewrite Sl, L2, L1; auto|]. split; [rewrite Sp, P2, P1; auto|]. split; [rewrite Sn, N2, N1; auto|].
  split; [|split].
  - intros x. rewrite (same_inst st2 st4) by (repeat split; auto). rewrite I2, I1. destruct (Z.eqb_spec x split) as [X|X], (Z.eqb_spec x up) as [Y|Y]; auto; congruence.
  - intros x. rewrite (same_kind st2 st4) by (repeat split; auto). now rewrite K2, K1.
  - intros x y. rewrite H4, H3, Hin', Ed2. split.
    + intros [[[A B]|[A B]]|A]; [|auto..]. left. split; [auto|]. intros ->. apply B; auto.
    + intros [[A B]|[A|A]]; [|auto..]. left. left. split; [auto|]. intros [_ C]; auto.
Qed.
