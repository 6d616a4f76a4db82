(** Phi functions that stay, names that are used, and the value dependency graph. *)
From Verif Require Import ListLemmas CfgProps.
From Verif Require Export SsaProofs6.
From Coq Require Import ZifyBool ZifyNat.

Lemma in_numbered_once c l v k : NoDup l -> In (v, k) (numbered c l) -> In v l /\ k = c v + 1.
Proof.
  intros N I. apply numbered_in in I. assert (Iv : In v l) by (apply occ_in; lia). rewrite (nodup_occ v l N Iv) in I. split; [auto|lia].
Qed.
Lemma dead_exact p g root st h df gl phi st0 : constructed g -> In root (g_nodes g) -> NoDup (flat_map (p_inst p) (g_nodes g)) -> stages p g root st h df gl phi st0 ->
  forall b e, In e (s_phi st0 b) -> (In e (s_phi st b) <-> ~ killed p (p_inst p b) (fst (fst e))).
Proof.
  intros Cg Nr Ni Sg b e Ie. destruct (order_facts _ _ _ _ _ _ _ _ _ Cg Nr Sg) as (order' & _ & _ & Oa' & Es & Op). destruct (reads_exact _ _ _ _ _ _ _ _ _ Cg Nr Ni Sg) as (order & Po & No & Oa & Ph & Rd & _).
  destruct Sg as (_ & _ & E3 & _ & E5). destruct (place_ok _ _ _ _ _ E3) as (_ & _ & F & _). destruct (dead_ok p g st0) as (D1 & D2 & D3).
  assert (Ib : In b order).
  { destruct (in_dec Z.eq_dec b order) as [|Nb]; [auto|]. exfalso. rewrite <- (strip_phi st0), Es in Ie. destruct (blocks_step p h order' (strip (start_state phi))) as (_ & _ & A3 & _).
    assert (Nb' : ~ In b order') by (rewrite Oa'; rewrite Oa in Nb; auto). specialize (A3 b Nb'). apply Nb', Op. cbn [strip start_state s_phi] in A3. apply (in_map fst) in Ie. rewrite A3 in Ie. destruct (phi b); [destruct Ie|discriminate]. }
  assert (Bn : zmem b (g_nodes g) = true) by (apply zmem_in; eapply node_in; eauto; now apply Oa).
  rewrite E5, D3, Bn, filter_In. destruct e as [[x k] args]. cbn [fst]. pose proof (Ph b Ib) as Pb. apply (in_map fst) in Ie as Ik. cbn [fst] in Ik. rewrite Pb in Ik. apply in_numbered_once in Ik as [Px Ek]; [|now apply fresh_placed].
  pose proof (keeps_dead p st0 x k (p_inst p b)) as Kd. destruct (keeps st0 (x, k) (p_inst p b)) eqn:Kp.
  - split; [|auto]. intros _ Kl. apply Kd in Kl; [discriminate|]. intros i1 i i2 El Hj. destruct (Rd b i1 i i2 Ib El) as (R1 & _ & R3). rewrite E5, D1 in R1. rewrite E5, D2 in R3.
    assert (Ec : occ x (flat_map (definitions p (placed phi)) (before b order) ++ placed phi b ++ flat_map (p_writes p) i1) = k).
    { rewrite !occ_app, (nodup_occ x (placed phi b)), (occ_0 x (flat_map (p_writes p) i1)); [lia| |now apply fresh_placed|auto]. intros I. apply in_flat_map in I as (j & J & I). now apply (Hj j J). }
    split; [rewrite R1, Ec; tauto|]. rewrite R3. split.
    + intros (k' & I & L). apply numbered_in in I. apply occ_in. lia.
    + intros I. exists (k + 1). split; [|lia]. apply numbered_in. rewrite Ec. apply occ_in in I. lia.
  - split; [intros [_ Q]; discriminate|]. intros Nk. exfalso. apply Nk, Kd; [|auto]. intros i1 i i2 El Hj. destruct (Rd b i1 i i2 Ib El) as (R1 & _ & R3). rewrite E5, D1 in R1. rewrite E5, D2 in R3.
    assert (Ec : occ x (flat_map (definitions p (placed phi)) (before b order) ++ placed phi b ++ flat_map (p_writes p) i1) = k).
    { rewrite !occ_app, (nodup_occ x (placed phi b)), (occ_0 x (flat_map (p_writes p) i1)); [lia| |now apply fresh_placed|auto]. intros I. apply in_flat_map in I as (j & J & I). now apply (Hj j J). }
    split; [rewrite R1, Ec; tauto|]. rewrite R3. split.
    + intros (k' & I & L). apply numbered_in in I. apply occ_in. lia.
    + intros I. exists (k + 1). split; [|lia]. apply numbered_in. rewrite Ec. apply occ_in in I. lia.
Qed.
(** The phi functions of the result. *)
Lemma phis_exact p g root st h df gl phi st0 : constructed g -> In root (g_nodes g) -> NoDup (flat_map (p_inst p) (g_nodes g)) -> stages p g root st h df gl phi st0 ->
  forall b x, (exists k, In (x, k) (map fst (s_phi st b))) <-> In x (placed phi b) /\ ~ killed p (p_inst p b) x.
Proof.
  intros Cg Nr Ni Sg b x. pose proof (dead_exact _ _ _ _ _ _ _ _ _ Cg Nr Ni Sg b) as De. destruct (order_facts _ _ _ _ _ _ _ _ _ Cg Nr Sg) as (order & Po & No & Oa & Es & Op).
  assert (Pv : map (fun e => fst (fst e)) (s_phi st0 b) = placed phi b).
  { destruct (blocks_step p h order (strip (start_state phi))) as (_ & A2 & _). specialize (A2 b). rewrite <- Es in A2. exact A2. }
  split.
  - intros (k & I). apply in_map_iff in I as (e & Ee & I). assert (I0 : In e (s_phi st0 b)).
    { destruct Sg as (_ & _ & _ & _ & E5). destruct (dead_ok p g st0) as (_ & _ & D3). rewrite E5, D3 in I. destruct (zmem b (g_nodes g)); [apply filter_In in I; tauto|auto]. }
    split; [rewrite <- Pv; apply in_map_iff; exists e; rewrite Ee; auto|]. apply De in I; [|auto]. now rewrite Ee in I.
  - intros [I N]. rewrite <- Pv in I. apply in_map_iff in I as (e & Ee & I). exists (snd (fst e)). apply in_map_iff. exists e. split; [destruct e as [[? ?] ?]; cbn in *; congruence|]. apply De; [auto|]. now rewrite Ee.
Qed.

(** ** Names that are used are defined *)
Lemma crossing {A} (f : A -> list Z) v k : forall l c, c < k <= c + occ v (flat_map f l) -> exists l1 a l2, l = l1 ++ a :: l2 /\ c + occ v (flat_map f l1) < k <= c + occ v (flat_map f l1) + occ v (f a).
Proof.
  induction l as [|a l IH]; intros c B; cbn [flat_map] in B; [rewrite occ_nil in B; lia|]. rewrite occ_app in B. destruct (Z.le_gt_cases k (c + occ v (f a))) as [L|L].
  - exists [], a, l. split; [auto|]. cbn [flat_map]. rewrite occ_nil. lia.
  - destruct (IH (c + occ v (f a))) as (l1 & b & l2 & -> & Q); [lia|]. exists (a :: l1), b, l2. split; [auto|]. cbn [flat_map]. rewrite occ_app. lia.
Qed.
(** Every number up to the last one given has been given at some site. *)
Lemma site_of p g root st h df gl phi st0 : constructed g -> In root (g_nodes g) -> NoDup (flat_map (p_inst p) (g_nodes g)) -> stages p g root st h df gl phi st0 -> forall order,
  NoDup order -> (forall b, In b order -> map fst (s_phi st0 b) = numbered (fun x => occ x (flat_map (definitions p (placed phi)) (before b order))) (placed phi b)) ->
  (forall b i1 i i2, In b order -> p_inst p b = i1 ++ i :: i2 -> s_written st i = numbered (fun x => occ x (flat_map (definitions p (placed phi)) (before b order) ++ placed phi b ++ flat_map (p_writes p) i1)) (p_writes p i)) ->
  forall v k, 1 <= k <= occ v (flat_map (definitions p (placed phi)) order) -> (exists i, In (v, k) (s_written st i)) \/
    exists l1 b l2, order = l1 ++ b :: l2 /\ In (v, k) (map fst (s_phi st0 b)) /\ In v (placed phi b) /\ k = occ v (flat_map (definitions p (placed phi)) l1) + 1.
Proof.
  intros Cg Nr Ni Sg order No Ph Wt v k B. destruct (crossing (definitions p (placed phi)) v k order 0) as (l1 & b & l2 & Eo & Q); [lia|]. cbn [Z.add] in Q. assert (Ib : In b order) by (rewrite Eo; apply in_app_iff; right; left; auto).
  assert (Eb : before b order = l1) by (rewrite Eo in No |- *; apply before_split; apply NoDup_remove_2 in No; rewrite in_app_iff in No; auto).
  set (c := occ v (flat_map (definitions p (placed phi)) l1)) in *. unfold definitions in Q at 1. rewrite occ_app in Q. destruct (Z.le_gt_cases k (c + occ v (placed phi b))) as [L|L].
  - right. exists l1, b, l2. assert (I : In (v, k) (numbered (fun x => occ x (flat_map (definitions p (placed phi)) l1)) (placed phi b))) by (apply numbered_in; fold c; lia). split; [auto|]. split; [rewrite (Ph b Ib), Eb; exact I|].
    destruct Sg as (_ & _ & E3 & _ & _). destruct (place_ok _ _ _ _ _ E3) as (_ & _ & F & _). apply in_numbered_once in I; [exact I|now apply fresh_placed].
  - left. destruct (crossing (p_writes p) v k (p_inst p b) (c + occ v (placed phi b))) as (i1 & i & i2 & Ei & R); [lia|]. exists i. rewrite (Wt b i1 i i2 Ib Ei), Eb. apply numbered_in. rewrite !occ_app. fold c. lia.
Qed.
Lemma occ_le v (l m : list Z) : occ v l <= occ v (l ++ m).
Proof. rewrite occ_app. pose proof (occ_pos v m). lia. Qed.
Lemma killed_twice p phi b v : In v (placed phi b) -> killed p (p_inst p b) v -> 2 <= occ v (definitions p (placed phi) b).
Proof.
  intros I (i1 & i & i2 & E & Wi & _). unfold definitions. rewrite occ_app, E, flat_map_app. cbn [flat_map]. rewrite !occ_app. apply occ_in in I, Wi. pose proof (occ_pos v (flat_map (p_writes p) i1)). pose proof (occ_pos v (flat_map (p_writes p) i2)). lia.
Qed.
Lemma used_defined p g root st h df gl phi st0 : constructed g -> In root (g_nodes g) -> NoDup (flat_map (p_inst p) (g_nodes g)) -> stages p g root st h df gl phi st0 ->
  (forall i v k, In (v, k) (s_read st i) -> k = 0 \/ exists s, In (v, k) (names st s)) /\
  (forall b e v k, In e (s_phi st b) -> In (v, k) (snd e) -> k = 0 \/ exists s, In (v, k) (names st s)).
Proof.
  intros Cg Nr Ni Sg. pose proof (dead_exact _ _ _ _ _ _ _ _ _ Cg Nr Ni Sg) as De. destruct (reads_exact _ _ _ _ _ _ _ _ _ Cg Nr Ni Sg) as (order & Po & No & Oa & Ph & Rd & Ar & Out).
  assert (Wt : forall b i1 i i2, In b order -> p_inst p b = i1 ++ i :: i2 -> s_written st i = numbered (fun x => occ x (flat_map (definitions p (placed phi)) (before b order) ++ placed phi b ++ flat_map (p_writes p) i1)) (p_writes p i)) by (intros b i1 i i2 Ib Ei; now apply (Rd b i1 i i2 Ib Ei)).
  pose proof (site_of _ _ _ _ _ _ _ _ _ Cg Nr Ni Sg order No Ph Wt) as So.
  destruct Sg as (_ & _ & E3 & _ & E5). destruct (place_ok _ _ _ _ _ E3) as (_ & _ & F & _). set (D := definitions p (placed phi)) in *.
  assert (Key : forall v m1 b m2 d, order = m1 ++ b :: m2 -> (exists r, D b = d ++ r) -> (In v (placed phi b) -> killed p (p_inst p b) v -> occ v d <> 1) -> occ v (flat_map D m1) + occ v d = 0 \/ exists s, In (v, occ v (flat_map D m1) + occ v d) (names st s)).
  { intros v m1 b m2 d Eo (r & Er) Hk. set (k := occ v (flat_map D m1) + occ v d). destruct (Z.eq_dec k 0) as [|Nk]; [auto|right].
    assert (Od : occ v d <= occ v (D b)) by (rewrite Er; apply occ_le). assert (Ot : occ v (flat_map D order) = occ v (flat_map D m1) + occ v (D b) + occ v (flat_map D m2)) by (rewrite Eo, flat_map_app; cbn [flat_map]; rewrite !occ_app; lia).
    pose proof (occ_pos v d). pose proof (occ_pos v (flat_map D m1)). pose proof (occ_pos v (flat_map D m2)). destruct (So v k) as [(i & I)|(l1 & b0 & l2 & Eo' & I & Pv & Ek)]; [lia|exists (inr i); exact I|].
    exists (inl b0). cbn [names]. apply in_map_iff in I as (e & Ee & Ie). apply in_map_iff. exists e. split; [auto|]. apply De; [auto|]. rewrite Ee. cbn [fst]. intros Kl. pose proof (killed_twice p phi b0 v Pv Kl) as K2. fold D in K2.
    rewrite Eo in Eo'. apply app_eq_app in Eo' as (q & [[E1 E2]|[E1 E2]]).
    - destruct q as [|q0 q]; cbn [app] in E2.
      + injection E2 as -> ->. rewrite app_nil_r in E1. subst m1. apply (Hk Pv Kl). lia.
      + injection E2 as -> ->. unfold k in Ek. rewrite E1, flat_map_app in Ek. cbn [flat_map] in Ek. rewrite !occ_app in Ek. pose proof (occ_pos v (flat_map D q)). lia.
    - destruct q as [|q0 q]; cbn [app] in E2.
      + injection E2 as -> ->. rewrite app_nil_r in E1. subst l1. apply (Hk Pv Kl). lia.
      + injection E2 as -> ->. rewrite E1, flat_map_app in Ek. unfold k in Ek. cbn [flat_map] in Ek. rewrite !occ_app in Ek. pose proof (occ_pos v (flat_map D q)). lia. }
  assert (Eb : forall m1 b m2, order = m1 ++ b :: m2 -> before b order = m1).
  { intros m1 b m2 Eo. rewrite Eo in No |- *. apply before_split. apply NoDup_remove_2 in No. rewrite in_app_iff in No. auto. }
  split.
  - intros i v k I. destruct (in_dec Nat.eq_dec i (flat_map (p_inst p) order)) as [Io|Io]; [|destruct (Out i Io) as [Q _]; rewrite Q in I; destruct I].
    apply in_flat_map in Io as (b & Ib & Ii). apply in_split in Ii as (i1 & i2 & Ei). destruct (Rd b i1 i i2 Ib Ei) as (R1 & _). destruct (proj1 (R1 v k) I) as [Ir Ek]. clear I. rewrite Ek. clear Ek R1. apply in_split in Ib as (m1 & m2 & Eo). rewrite (Eb _ _ _ Eo).
    rewrite occ_app. apply (Key v m1 b m2 _ Eo).
    + exists (flat_map (p_writes p) (i :: i2)). unfold D, definitions. rewrite Ei, flat_map_app, app_assoc. reflexivity.
    + intros Pv (j1 & j & j2 & Ej & Wj & Rj & Bj) O1. rewrite occ_app, (nodup_occ v _ (fresh_placed phi b F) Pv) in O1. assert (O0 : occ v (flat_map (p_writes p) i1) = 0) by lia.
      assert (Nw : forall j', In j' i1 -> ~ In v (p_writes p j')). { intros j' J Wj'. assert (In v (flat_map (p_writes p) i1)) as Q by (apply in_flat_map; eauto). apply occ_in in Q. lia. }
      rewrite Ei in Ej. apply app_eq_app in Ej as (q & [[Q1 Q2]|[Q1 Q2]]).
      * destruct q as [|q0 q]; cbn [app] in Q2; injection Q2 as -> ->; [contradiction|]. apply (Nw q0); [rewrite Q1; apply in_app_iff; right; left; auto|auto].
      * destruct q as [|q0 q]; cbn [app] in Q2; injection Q2 as -> ->; [contradiction|]. apply (Bj q0); [rewrite Q1; apply in_app_iff; right; left; auto|auto].
  - intros b e v k Ie Ik. assert (I0 : In e (s_phi st0 b)).
    { destruct (dead_ok p g st0) as (_ & _ & D3). rewrite E5, D3 in Ie. destruct (zmem b (g_nodes g)); [apply filter_In in Ie; tauto|auto]. }
    rewrite (Ar b e I0) in Ik. apply in_map_iff in Ik as (n & En & In_). injection En as <- <-. apply filter_In in In_ as [Io _]. apply in_split in Io as (m1 & m2 & Eo). rewrite (Eb _ _ _ Eo). fold D. rewrite flat_map_app, occ_app. cbn [flat_map]. rewrite app_nil_r.
    apply (Key _ m1 n m2 _ Eo); [exists []; now rewrite app_nil_r|]. intros Pv Kl. pose proof (killed_twice p phi n _ Pv Kl) as K2. fold D in K2. lia.
Qed.

(** ** Value dependency graph *)
Lemma v_node_ok d x : (forall a, In a (v_nodes (v_add_node d x)) <-> In a (v_nodes d) \/ a = x) /\ v_edges (v_add_node d x) = v_edges d /\ (NoDup (v_nodes d) -> NoDup (v_nodes (v_add_node d x))).
Proof.
  unfold v_add_node. destruct (nmember x (v_nodes d)) eqn:M; cbn [v_nodes v_edges].
  - apply nmember_in in M. split; [intros a; split; [auto|intros [| ->]; auto]|auto].
  - split; [intros a; rewrite in_app_iff; cbn [In]; intuition|]. split; [auto|]. intros N. apply nodup_snoc; [auto|]. intros I. apply nmember_in in I. congruence.
Qed.
Lemma v_edge_ok d x y : v_nodes (v_add_edge d x y) = v_nodes d /\ (forall e, In e (v_edges (v_add_edge d x y)) <-> In e (v_edges d) \/ e = (x, y)) /\ (NoDup (v_edges d) -> NoDup (v_edges (v_add_edge d x y))).
Proof.
  unfold v_add_edge. destruct (existsb _ (v_edges d)) eqn:M; cbn [v_nodes v_edges].
  - apply existsb_exists in M as ([a b] & I & Q). cbn [fst snd] in Q. apply andb_true_iff in Q as [Q1 Q2]. apply name_eqb_iff in Q1, Q2. subst. split; [auto|]. split; [intros e; split; [auto|intros [| ->]; auto]|auto].
  - split; [auto|]. split; [intros e; rewrite in_app_iff; cbn [In]; intuition|]. intros N. apply nodup_snoc; [auto|]. intros I.
    assert (T : existsb (fun e => name_eqb x (fst e) && name_eqb y (snd e)) (v_edges d) = true); [|congruence]. apply existsb_exists. exists (x, y). split; [auto|]. cbn [fst snd]. apply andb_true_iff. now rewrite !name_eqb_iff.
Qed.
Definition grows (d d' : vgraph) (N : name -> Prop) (E : name * name -> Prop) : Prop :=
  (forall a, In a (v_nodes d') <-> In a (v_nodes d) \/ N a) /\ (forall e, In e (v_edges d') <-> In e (v_edges d) \/ E e) /\ (NoDup (v_nodes d) -> NoDup (v_nodes d')) /\ (NoDup (v_edges d) -> NoDup (v_edges d')).
Lemma grows_fold {A} (f : vgraph -> A -> vgraph) (N : A -> name -> Prop) (E : A -> name * name -> Prop) : (forall d a, grows d (f d a) (N a) (E a)) ->
  forall l d, grows d (fold_left f l d) (fun x => exists a, In a l /\ N a x) (fun e => exists a, In a l /\ E a e).
Proof.
  intros H. induction l as [|a l IH]; intros d; cbn [fold_left]; [split; [|split; [|auto]]; intros x; (split; [auto|intros [|(? & [] & _)]; auto])|].
  destruct (H d a) as (A1 & A2 & A3 & A4). destruct (IH (f d a)) as (B1 & B2 & B3 & B4). split; [|split; [|auto]].
  - intros x. rewrite B1, A1. cbn [In]. split; [intros [[|]|(c & C & Q)]; [auto|right; eauto|right; eauto]|]. intros [|(c & [<-|C] & Q)]; [auto|auto|right; eauto].
  - intros x. rewrite B2, A2. cbn [In]. split; [intros [[|]|(c & C & Q)]; [auto|right; eauto|right; eauto]|]. intros [|(c & [<-|C] & Q)]; [auto|auto|right; eauto].
Qed.
Lemma grows_trans d d' d'' N E N' E' : grows d d' N E -> grows d' d'' N' E' -> grows d d'' (fun x => N x \/ N' x) (fun x => E x \/ E' x).
Proof.
  intros (A1 & A2 & A3 & A4) (B1 & B2 & B3 & B4). split; [|split; [|auto]]; intros x; [rewrite B1, A1|rewrite B2, A2]; tauto.
Qed.
Lemma grows_ext d d' (N N' : name -> Prop) (E E' : name * name -> Prop) : grows d d' N E -> (forall x, N x <-> N' x) -> (forall x, E x <-> E' x) -> grows d d' N' E'.
Proof. intros (A1 & A2 & A3) Hn He. split; [|split; [|auto]]; intros x; [rewrite A1, Hn|rewrite A2, He]; reflexivity. Qed.
Lemma grows_node d x : grows d (v_add_node d x) (fun a => a = x) (fun _ => False).
Proof. destruct (v_node_ok d x) as (A & B & C). unfold grows. rewrite B. split; [auto|]. split; [tauto|auto]. Qed.
Lemma grows_link w d r : grows d (v_link w d r) (fun a => a = r) (fun e => e = (r, w)).
Proof.
  unfold v_link. destruct (v_node_ok d r) as (A & B & C). destruct (v_edge_ok (v_add_node d r) r w) as (D & F & G). unfold grows. rewrite D, B in *. auto.
Qed.
Lemma grows_links w d l : grows d (fold_left (v_link w) l d) (fun a => In a l) (fun e => snd e = w /\ In (fst e) l).
Proof.
  eapply grows_ext; [apply (grows_fold (v_link w) (fun r a => a = r) (fun r e => e = (r, w))); intros; apply grows_link| |].
  - intros x. split; [intros (a & I & ->); auto|eauto].
  - intros [a b]. cbn [fst snd]. split; [intros (c & I & Q); injection Q as -> ->; auto|intros [-> I]; eauto].
Qed.
Lemma grows_phi d e : grows d (v_phi d e) (fun a => a = fst e \/ In a (snd e)) (fun x => snd x = fst e /\ In (fst x) (snd e)).
Proof. unfold v_phi. eapply grows_ext; [eapply grows_trans; [apply grows_node|apply grows_links]| |]; intros x; cbn beta; tauto. Qed.
Lemma grows_inst st d i : grows d (v_inst st d i) (fun a => In a (s_written st i) \/ s_written st i <> [] /\ In a (s_read st i)) (fun e => In (snd e) (s_written st i) /\ In (fst e) (s_read st i)).
Proof.
  unfold v_inst. eapply grows_ext; [apply (grows_fold _ (fun w a => a = w \/ In a (s_read st i)) (fun w x => snd x = w /\ In (fst x) (s_read st i)))| |].
  - intros d' w. eapply grows_ext; [eapply grows_trans; [apply grows_node|apply grows_links]| |]; intros x; cbn beta; tauto.
  - intros x. cbn beta. split.
    + intros (w & I & [->|R]); [auto|right; split; [intros Q; rewrite Q in I; destruct I|auto]].
    + intros [I|[N R]]; [eauto|]. destruct (s_written st i) as [|w l]; [congruence|]. exists w. split; [left; auto|auto].
  - intros x. cbn beta. split; [intros (w & I & -> & R); auto|intros [I R]; eauto].
Qed.
Lemma value_ok p g st : let d := value_dependency p g st in NoDup (v_nodes d) /\ NoDup (v_edges d) /\
  (forall a, In a (v_nodes d) <-> exists n, In n (g_nodes g) /\ ((exists e, In e (s_phi st n) /\ (a = fst e \/ In a (snd e))) \/ exists i, In i (p_inst p n) /\ (In a (s_written st i) \/ s_written st i <> [] /\ In a (s_read st i)))) /\
  (forall a b, In (a, b) (v_edges d) <-> exists n, In n (g_nodes g) /\ ((exists e, In e (s_phi st n) /\ b = fst e /\ In a (snd e)) \/ exists i, In i (p_inst p n) /\ In b (s_written st i) /\ In a (s_read st i))).
Proof.
  cbv zeta. unfold value_dependency.
  destruct (grows_fold (fun d n => fold_left (v_inst st) (p_inst p n) (fold_left v_phi (s_phi st n) d))
    (fun n a => (exists e, In e (s_phi st n) /\ (a = fst e \/ In a (snd e))) \/ exists i, In i (p_inst p n) /\ (In a (s_written st i) \/ s_written st i <> [] /\ In a (s_read st i)))
    (fun n x => (exists e, In e (s_phi st n) /\ (snd x = fst e /\ In (fst x) (snd e))) \/ exists i, In i (p_inst p n) /\ (In (snd x) (s_written st i) /\ In (fst x) (s_read st i)))) with (l := g_nodes g) (d := Vgraph [] []) as (A & B & C & D).
  - intros d n. eapply grows_trans; apply grows_fold; intros; [apply grows_phi|apply grows_inst].
  - split; [apply C; constructor|]. split; [apply D; constructor|]. split; [intros a; rewrite A; cbn [v_nodes In]; tauto|]. intros a b. rewrite B. cbn [v_edges In fst snd]. tauto.
Qed.
