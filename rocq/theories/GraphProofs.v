(** Facts about the digraph model. *)
From Verif Require Import ListLemmas.
From Verif Require Export GraphModel GraphSpec.
From Coq Require Import ZifyBool ZifyNat.

Definition nb (g : digraph) (u : Z) : list Z := match dget (node_neighbors g) u with Some l => l | None => [] end.
Definition inc (g : digraph) (v : Z) : list Z := match dget (node_incidence g) v with Some l => l | None => [] end.
Definition edge (g : digraph) : rel := fun u v => In v (nb g u).
Definition node (g : digraph) (n : Z) : Prop := In n (g_nodes g).
Definition wf (g : digraph) : Prop :=
  NoDup (g_nodes g) /\ dkeys (node_incidence g) = g_nodes g /\
  (forall u v, In v (nb g u) <-> In u (inc g v)) /\ (forall u, NoDup (nb g u)) /\ (forall v, NoDup (inc g v)) /\
  (forall u v, In v (nb g u) -> node g v).

Lemma zmem_in x l : zmem x l = true <-> In x l.
Proof. unfold zmem. rewrite existsb_exists. split; [intros (y & I & E); assert (x = y) as -> by lia; auto|intros I; exists x; split; [auto|lia]]. Qed.
Lemma zmem_notin x l : zmem x l = false <-> ~ In x l.
Proof. rewrite <- zmem_in. now destruct (zmem x l). Qed.
Lemma nb_node g u v : In v (nb g u) -> node g u.
Proof. unfold nb, node, g_nodes. intros H. apply dget_some_in. destruct (dget (node_neighbors g) u); [eauto|destruct H]. Qed.
Lemma node_nb g u : node g u -> dget (node_neighbors g) u = Some (nb g u).
Proof. unfold node, g_nodes, nb. intros H. apply dget_some_in in H as [l ->]. reflexivity. Qed.
Lemma node_inc g v : wf g -> node g v -> dget (node_incidence g) v = Some (inc g v).
Proof. intros (_ & E & _) H. unfold node in H. rewrite <- E in H. unfold inc. apply dget_some_in in H as [l ->]. reflexivity. Qed.
Lemma neighbors_ok g u : node g u -> neighbors g u = Ok (nb g u).
Proof. intros H. unfold neighbors, dget_r. now rewrite node_nb. Qed.
Lemma incidents_ok g v : wf g -> node g v -> incidents g v = Ok (inc g v).
Proof. intros W H. unfold incidents, dget_r. now rewrite node_inc. Qed.
Lemma has_edge_iff g u v : has_edge g u v = true <-> edge g u v.
Proof. unfold has_edge, edge, nb. destruct (dget (node_neighbors g) u); [apply zmem_in|split; [discriminate|intros []]]. Qed.
Lemma has_edge_false g u v : has_edge g u v = false <-> ~ edge g u v.
Proof. rewrite <- has_edge_iff. now destruct (has_edge g u v). Qed.
Lemma edge_nodes g u v : wf g -> edge g u v -> node g u /\ node g v.
Proof. intros (_ & _ & _ & _ & _ & H) E. split; [eapply nb_node; eauto|eauto]. Qed.
Lemma wf_empty : wf g_empty.
Proof. unfold wf, g_empty, g_nodes, nb, inc, node; cbn. repeat split; try constructor; intros; contradiction. Qed.

Lemma dkeys_dset_in {A} (d : dict A) k v : In k (dkeys d) -> dkeys (dset d k v) = dkeys d.
Proof. intros I. rewrite dkeys_dset. unfold dmem. apply dget_some_in in I as [a ->]. reflexivity. Qed.
Lemma dkeys_dset_out {A} (d : dict A) k v : ~ In k (dkeys d) -> dkeys (dset d k v) = dkeys d ++ [k].
Proof. intros I. rewrite dkeys_dset. unfold dmem. apply dget_none in I. now rewrite I. Qed.

Lemma nodup_snoc {A} (l : list A) x : NoDup l -> ~ In x l -> NoDup (l ++ [x]).
Proof.
  intros N I. induction N as [|y l Y N IH]; [repeat constructor; auto|]. cbn. constructor; [|apply IH; intros X; apply I; right; auto].
  rewrite in_app_iff. cbn. intros [X|[X|[]]]; [auto|subst; apply I; left; auto].
Qed.
Lemma add_node_ok g n : wf g -> ~ node g n -> exists g', add_node g n = Ok g' /\ wf g' /\ g_nodes g' = g_nodes g ++ [n] /\
  (forall u, nb g' u = nb g u) /\ (forall u, inc g' u = inc g u).
Proof.
  intros W N. pose proof W as (W1 & W2 & W3 & W4 & W5 & W6). unfold add_node. unfold node in N.
  assert (dmem (node_neighbors g) n = false) as ->. { unfold dmem. apply dget_none in N. now rewrite N. }
  eexists. split; [reflexivity|].
  assert (A : forall u, nb (Digraph (dset (node_neighbors g) n []) (dset (node_incidence g) n [])) u = nb g u).
  { intros u. unfold nb. cbn [node_neighbors]. rewrite dget_dset. destruct (Z.eqb_spec u n) as [E|]; [|reflexivity]. subst. apply dget_none in N. fold (g_nodes g) in N. now rewrite N. }
  assert (B : forall u, inc (Digraph (dset (node_neighbors g) n []) (dset (node_incidence g) n [])) u = inc g u).
  { intros u. unfold inc. cbn [node_incidence]. rewrite dget_dset. destruct (Z.eqb_spec u n) as [E|]; [|reflexivity]. subst. rewrite <- W2 in N. apply dget_none in N. now rewrite N. }
  assert (C : g_nodes (Digraph (dset (node_neighbors g) n []) (dset (node_incidence g) n [])) = g_nodes g ++ [n]) by (unfold g_nodes; cbn [node_neighbors]; now apply dkeys_dset_out).
  split; [|auto]. unfold wf. rewrite C. split; [apply nodup_snoc; auto|].
  split; [cbn [node_incidence]; rewrite dkeys_dset_out by (rewrite W2; auto); now rewrite W2|].
  split; [intros u v; rewrite A, B; auto|]. split; [intros u; rewrite A; auto|]. split; [intros v; rewrite B; auto|].
  intros u v. rewrite A. intros H. unfold node. rewrite C. apply in_app_iff. left. eapply W6; eauto.
Qed.
Lemma add_edge_ok g u v : wf g -> node g u -> node g v -> ~ edge g u v -> exists g', add_edge g u v = Ok g' /\ wf g' /\ g_nodes g' = g_nodes g /\
  (forall x, nb g' x = if x =? u then nb g x ++ [v] else nb g x) /\ (forall x, inc g' x = if x =? v then inc g x ++ [u] else inc g x).
Proof.
  intros W Nu Nv E. pose proof W as (W1 & W2 & W3 & W4 & W5 & W6). unfold add_edge. rewrite (node_nb g u) by auto. rewrite node_inc by auto.
  assert (dmem (node_neighbors g) v = true) as -> by (unfold dmem; rewrite node_nb; auto).
  unfold edge in E. rewrite (proj2 (zmem_notin v (nb g u))) by auto. cbn [andb]. eexists. split; [reflexivity|].
  set (g' := Digraph _ _).
  assert (A : forall x, nb g' x = if x =? u then nb g x ++ [v] else nb g x).
  { intros x. unfold nb at 1. cbn [g' node_neighbors]. rewrite dget_dset. destruct (Z.eqb_spec x u) as [X|]; [now subst|reflexivity]. }
  assert (B : forall x, inc g' x = if x =? v then inc g x ++ [u] else inc g x).
  { intros x. unfold inc at 1. cbn [g' node_incidence]. rewrite dget_dset. destruct (Z.eqb_spec x v) as [X|]; [now subst|reflexivity]. }
  assert (C : g_nodes g' = g_nodes g) by (unfold g_nodes; cbn [g' node_neighbors]; now apply dkeys_dset_in).
  split; [|auto]. unfold wf. rewrite C. split; [auto|]. split; [cbn [g' node_incidence]; rewrite dkeys_dset_in; rewrite W2; auto|].
  split.
  { intros x y. rewrite A, B. destruct (Z.eqb_spec x u) as [X|X], (Z.eqb_spec y v) as [Y|Y]; rewrite ?in_app_iff; cbn [In]; rewrite ?W3; subst; intuition congruence. }
  assert (Ei : ~ In u (inc g v)) by (rewrite <- W3; auto).
  split; [intros x; rewrite A; destruct (Z.eqb_spec x u) as [X|X]; [subst; apply nodup_snoc; auto|auto]|].
  split; [intros x; rewrite B; destruct (Z.eqb_spec x v) as [X|X]; [subst; apply nodup_snoc; auto|auto]|].
  intros x y. rewrite A. unfold node. rewrite C. destruct (x =? u); [rewrite in_app_iff; intros [H|[<-|[]]]; [eapply W6; eauto|auto]|intros H; eapply W6; eauto].
Qed.
Lemma add_edge_edge g g' u v : (forall x, nb g' x = if x =? u then nb g x ++ [v] else nb g x) -> forall x y, edge g' x y <-> edge g x y \/ (x = u /\ y = v).
Proof. intros H x y. unfold edge. rewrite H. destruct (Z.eqb_spec x u) as [X|X]; [rewrite in_app_iff; cbn [In]; intuition congruence|intuition congruence]. Qed.
Lemma remove1_ok x l : In x l -> NoDup l -> exists l', remove1 x l = Ok l' /\ NoDup l' /\ forall y, In y l' <-> In y l /\ y <> x.
Proof.
  induction l as [|z l IH]; intros I N; [destruct I|]. apply NoDup_cons_iff in N as [N1 N2]. cbn [remove1]. destruct (Z.eqb_spec z x) as [E|n].
  - subst. exists l. split; [reflexivity|]. split; [auto|]. intros y. cbn [In]. split; [intros H; split; [auto|intros ->; auto]|intros [[->|H] Q]; [congruence|auto]].
  - destruct I as [->|I]; [congruence|]. destruct (IH I N2) as (l' & E & M & H). rewrite E. cbn [rmap]. exists (z :: l'). split; [reflexivity|].
    split; [constructor; [rewrite H; tauto|auto]|]. intros y. cbn [In]. rewrite H. intuition congruence.
Qed.
Lemma del_edge_ok g u v : wf g -> edge g u v -> exists g', del_edge g u v = Ok g' /\ wf g' /\ g_nodes g' = g_nodes g /\
  (forall x y, edge g' x y <-> edge g x y /\ ~ (x = u /\ y = v)).
Proof.
  intros W E. pose proof W as (W1 & W2 & W3 & W4 & W5 & W6). destruct (edge_nodes _ _ _ W E) as [Nu Nv]. unfold del_edge, dget_r.
  rewrite node_nb by auto. cbn [bind]. destruct (remove1_ok v (nb g u) E (W4 u)) as (l & -> & Nl & Hl). cbn [bind].
  rewrite node_inc by auto. cbn [bind]. destruct (remove1_ok u (inc g v) (proj1 (W3 u v) E) (W5 v)) as (m & -> & Nm & Hm). cbn [bind].
  eexists. split; [reflexivity|]. set (g' := Digraph _ _).
  assert (A : forall x, nb g' x = if x =? u then l else nb g x).
  { intros x. unfold nb at 1. cbn [g' node_neighbors]. rewrite dget_dset. now destruct (x =? u). }
  assert (B : forall x, inc g' x = if x =? v then m else inc g x).
  { intros x. unfold inc at 1. cbn [g' node_incidence]. rewrite dget_dset. now destruct (x =? v). }
  assert (C : g_nodes g' = g_nodes g) by (unfold g_nodes; cbn [g' node_neighbors]; now apply dkeys_dset_in).
  assert (D : forall x y, In y (nb g' x) <-> In y (nb g x) /\ ~ (x = u /\ y = v)).
  { intros x y. rewrite A. destruct (Z.eqb_spec x u) as [X|X]; [rewrite Hl; subst; intuition congruence|intuition congruence]. }
  split; [|auto]. unfold wf. rewrite C. split; [auto|]. split; [cbn [g' node_incidence]; rewrite dkeys_dset_in; rewrite W2; auto|].
  split. { intros x y. rewrite D, B, W3. destruct (Z.eqb_spec y v) as [X|X]; [rewrite Hm; subst; intuition congruence|intuition congruence]. }
  split; [intros x; rewrite A; destruct (x =? u); auto|]. split; [intros x; rewrite B; destruct (x =? v); auto|].
  intros x y. rewrite D. intros [H _]. unfold node. rewrite C. eapply W6; eauto.
Qed.

(** ** Walks *)
Lemma walk_app R u l1 w l2 v : walk R u l1 w -> walk R w l2 v -> walk R u (l1 ++ w :: l2) v.
Proof. induction 1; intros H2; cbn; [now constructor|]. constructor; auto. Qed.
Lemma walk_split R u l1 w l2 v : walk R u (l1 ++ w :: l2) v -> walk R u l1 w /\ walk R w l2 v.
Proof.
  revert u. induction l1 as [|x l1 IH]; intros u H; cbn in H; inversion H; subst.
  - split; [now constructor|auto].
  - destruct (IH _ H5) as [A B]. split; [now constructor|auto].
Qed.
Lemma path_trans R u v w : path R u v -> path R v w -> path R u w.
Proof. intros [l A] [m B]. eexists. eapply walk_app; eauto. Qed.
Lemma path_edge (R : rel) u v : R u v -> path R u v.
Proof. intros H. exists []. now constructor. Qed.
Lemma path_cons (R : rel) u w v : R u w -> path R w v -> path R u v.
Proof. intros A B. eapply path_trans; [apply path_edge, A|exact B]. Qed.
Lemma walk_mono (R S : rel) : (forall u v, R u v -> S u v) -> forall u l v, walk R u l v -> walk S u l v.
Proof. intros H u l v. induction 1; constructor; auto. Qed.
Lemma path_mono (R S : rel) : (forall u v, R u v -> S u v) -> forall u v, path R u v -> path S u v.
Proof. intros H u v [l W]. exists l. eapply walk_mono; eauto. Qed.
Lemma path_sub (R S : rel) : (forall u v, R u v -> path S u v) -> forall u v, path R u v -> path S u v.
Proof. intros H u v [l W]. induction W; [auto|]. eapply path_trans; eauto. Qed.
Lemma walk_last R u l v : walk R u l v -> exists p, R p v /\ (p = u \/ path R u p).
Proof.
  induction 1 as [u v E|u w l v E W (p & A & B)]; [exists u; auto|]. exists p. split; [auto|]. right. destruct B as [->|B]; [now apply path_edge|eapply path_cons; eauto].
Qed.
