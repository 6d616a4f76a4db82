(** What the construction returns. *)
From Verif Require Import ListLemmas CfgProps.
From Verif Require Export SsaProofs5.
From Coq Require Import ZifyBool ZifyNat.

(** The variables of the phi functions put into a block. *)
Definition placed (phi : Z -> phis) (b : Z) : list Z := map (fun e => fst (fst e)) (phi b).
Lemma pv_start phi b : pv (strip (start_state phi)) b = placed phi b.
Proof. reflexivity. Qed.
Lemma strip_phi st : s_phi (strip st) = s_phi st. Proof. reflexivity. Qed.
Lemma strip_read st : s_read (strip st) = s_read st. Proof. reflexivity. Qed.
Lemma strip_written st : s_written (strip st) = s_written st. Proof. reflexivity. Qed.
Lemma definitions_placed p phi b : definitions p (pv (strip (start_state phi))) b = definitions p (placed phi) b.
Proof. reflexivity. Qed.

(** ** Names are defined once *)
Lemma filter_nodup_map {A B} (f : A -> B) (h : A -> bool) l : NoDup (map f l) -> NoDup (map f (filter h l)).
Proof.
  induction l as [|a l IH]; cbn [filter map]; intros N; [auto|]. inversion N as [|? ? X Y]; subst. destruct (h a); cbn [map]; [|auto]. constructor; [|auto]. intros I. apply X. apply in_map_iff in I as (b & E & I). apply filter_In in I as [I _]. rewrite <- E. now apply in_map.
Qed.
Lemma names_once p g root st h df gl phi st0 : constructed g -> In root (g_nodes g) -> stages p g root st h df gl phi st0 ->
  (forall s, NoDup (names st s)) /\ forall s1 s2 k, In k (names st s1) -> In k (names st s2) -> s1 = s2.
Proof.
  intros Cg Nr Sg. destruct (order_facts _ _ _ _ _ _ _ _ _ Cg Nr Sg) as (order & Po & No & Oa & Es & Op). destruct Sg as (_ & _ & E3 & _ & E5). destruct (place_ok _ _ _ _ _ E3) as (_ & _ & F & Q).
  destruct (start_good phi) as (_ & _ & C0).
  assert (U0 : uniq (strip (start_state phi))).
  { split; [|split; [|split]].
    - intros [b|i]; cbn [names]; [apply F|constructor].
    - intros [b|i] v k I; cbn [names] in I; [|destruct I]. rewrite C0. apply Q in I as [I _]. cbn [snd] in I. lia.
    - intros v. rewrite C0. lia.
    - intros [b|i] s2 v k I1 I2 K; cbn [names] in I1; [|destruct I1]. apply Q in I1 as [I1 _]. cbn [snd] in I1. lia. }
  assert (U : uniq (strip st0)) by (rewrite Es; apply fold_inv; [intros; now apply uniq_block|auto]).
  assert (Ct : counted (strip st0)) by (rewrite Es; apply fold_inv; [intros; now apply counted_block|]; split; [intros x; rewrite C0; lia|intros i v k []]).
  assert (Pos : forall s v k, In (v, k) (names (strip st0) s) -> 1 <= k).
  { intros [b|i] v k I; cbn [names] in I; [|eapply Ct; eauto]. destruct (in_dec Z.eq_dec b order) as [Ib|Nb].
    - apply in_split in Ib as (l1 & l2 & Eo). rewrite Es, Eo in I. rewrite blocks_phis in I by (rewrite <- Eo; auto). apply numbered_in in I. rewrite C0 in I. pose proof (occ_pos v (flat_map (definitions p (pv (strip (start_state phi)))) l1)). lia.
    - rewrite Es in I. destruct (blocks_step p h order (strip (start_state phi))) as (_ & _ & A3 & _). rewrite A3 in I by auto. exfalso. apply Nb, Op. cbn [strip start_state s_phi] in I. destruct (phi b); [destruct I|discriminate]. }
  assert (Sub : forall s k, In k (names st s) -> In k (names (strip st0) s)).
  { destruct (dead_ok p g st0) as (D1 & D2 & D3). intros [b|i] k; cbn [names]; rewrite E5; [|rewrite D2; auto]. rewrite D3. destruct (zmem b (g_nodes g)); [|auto]. rewrite !in_map_iff. intros (e & Ee & I). apply filter_In in I as [I _]. eauto. }
  destruct U as (U1 & U2 & U3 & U4). split.
  - intros s. specialize (U1 s). rewrite E5. destruct (dead_ok p g st0) as (D1 & D2 & D3). destruct s as [b|i]; cbn [names] in U1 |- *; [|rewrite D2; auto]. rewrite D3. destruct (zmem b (g_nodes g)); [|auto]. now apply filter_nodup_map.
  - intros s1 s2 [v k] I1 I2. apply Sub in I1, I2. eapply U4; eauto.
Qed.

(** ** The names *)
Fixpoint before (b : Z) (l : list Z) : list Z := match l with [] => [] | n :: l => if n =? b then [] else n :: before b l end.
Lemma before_split b l1 l2 : ~ In b l1 -> before b (l1 ++ b :: l2) = l1.
Proof.
  induction l1 as [|n l1 IH]; intros N; cbn [app before]; [now rewrite Z.eqb_refl|]. cbn [In] in N. destruct (Z.eqb_spec n b); [tauto|]. rewrite IH; auto.
Qed.
Lemma nodup_app_r {A} (l m : list A) : NoDup (l ++ m) -> NoDup m.
Proof. induction l as [|x l IH]; cbn [app]; intros N; [auto|]. inversion N; auto. Qed.
Lemma nodup_flat {A} (f : Z -> list A) : forall order nodes, NoDup order -> incl order nodes -> NoDup nodes -> NoDup (flat_map f nodes) -> NoDup (flat_map f order).
Proof.
  assert (Dj : forall nodes a b x, NoDup nodes -> NoDup (flat_map f nodes) -> In a nodes -> In b nodes -> a <> b -> In x (f a) -> In x (f b) -> False).
  { induction nodes as [|n nodes IH]; intros a b x Nn Nf Ia Ib N Xa Xb; [destruct Ia|]. cbn [flat_map] in Nf. inversion Nn; subst.
    assert (K : forall c, In c nodes -> In x (f n) -> In x (f c) -> False) by (intros c C X1 X2; apply (nodup_app_disj _ _ Nf x X1); apply in_flat_map; eauto).
    destruct Ia as [<-|Ia], Ib as [<-|Ib]; [congruence|eauto|eauto|]. apply nodup_app_r in Nf. apply (IH a b x); auto. }
  induction order as [|a order IH]; intros nodes No Il Nn Nf; cbn [flat_map]; [constructor|]. inversion No; subst.
  assert (Na : NoDup (f a)).
  { assert (Ia : In a nodes) by (apply Il; left; auto). apply in_split in Ia as (l1 & l2 & ->). rewrite flat_map_app in Nf. cbn [flat_map] in Nf. apply nodup_app_r in Nf. now apply nodup_app_l in Nf. }
  assert (Nr : NoDup (flat_map f order)) by (apply (IH nodes); auto; intros x X; apply Il; right; auto).
  assert (D : forall x, In x (f a) -> In x (flat_map f order) -> False).
  { intros x X1 X2. apply in_flat_map in X2 as (b & Ib & Xb). apply (Dj nodes a b x); auto; [apply Il; left; auto|apply Il; right; auto|intros ->; contradiction]. }
  clear - Na Nr D. induction (f a) as [|x l IHl]; cbn [app]; [auto|]. inversion Na; subst. constructor; [rewrite in_app_iff; intros [|Q]; [auto|apply (D x); [left; auto|auto]]|]. apply IHl; auto. intros y Y1 Y2. apply (D y); [right; auto|auto].
Qed.
Lemma reads_exact p g root st h df gl phi st0 : constructed g -> In root (g_nodes g) -> NoDup (flat_map (p_inst p) (g_nodes g)) -> stages p g root st h df gl phi st0 -> exists order,
  preorder (h_children h) root order /\ NoDup order /\ (forall v, In v order <-> reachable (edge g) root v) /\
  (forall b, In b order -> map fst (s_phi st0 b) = numbered (fun x => occ x (flat_map (definitions p (placed phi)) (before b order))) (placed phi b)) /\
  (forall b i1 i i2, In b order -> p_inst p b = i1 ++ i :: i2 -> let earlier := flat_map (definitions p (placed phi)) (before b order) ++ placed phi b ++ flat_map (p_writes p) i1 in
    (forall r k, In (r, k) (s_read st i) <-> In r (p_reads p i) /\ k = occ r earlier) /\ NoDup (s_read st i) /\ s_written st i = numbered (fun x => occ x earlier) (p_writes p i)) /\
  (forall b e, In e (s_phi st0 b) -> snd e = map (fun n => (fst (fst e), occ (fst (fst e)) (flat_map (definitions p (placed phi)) (before n order ++ [n])))) (filter (fun n => has_edge g n b) order)) /\
  (forall i, ~ In i (flat_map (p_inst p) order) -> s_read st i = [] /\ s_written st i = []).
Proof.
  intros Cg Nr Ni Sg. destruct (order_facts _ _ _ _ _ _ _ _ _ Cg Nr Sg) as (order & Po & No & Oa & Es & Op). destruct Sg as ((tree & E1) & _ & E3 & _ & E5). destruct (place_ok _ _ _ _ _ E3) as (_ & _ & F & Q).
  destruct (start_good phi) as (_ & _ & C0). pose proof (constructed_wf g Cg) as W. destruct (tree_facts g root h tree Cg Nr E1) as (_ & _ & Sc & _).
  assert (Nio : NoDup (flat_map (p_inst p) order)) by (eapply (nodup_flat (p_inst p) order (g_nodes g)); auto; [intros x X; eapply node_in; eauto; now apply Oa|apply W]).
  destruct (dead_ok p g st0) as (D1 & D2 & D3). exists order. split; [auto|]. split; [auto|]. split; [auto|]. split; [|split; [|split]].
  - intros b Ib. apply in_split in Ib as (l1 & l2 & Eo). rewrite <- (strip_phi st0), Es. rewrite Eo in No |- *. rewrite blocks_phis by auto. rewrite before_split by (apply NoDup_remove_2 in No; rewrite in_app_iff in No; auto).
    apply numbered_ext. intros x. rewrite C0. reflexivity.
  - intros b i1 i i2 Ib Ei. apply in_split in Ib as (l1 & l2 & Eo). cbv zeta. rewrite E5, D1, D2, <- (strip_read st0), <- (strip_written st0), Es. rewrite Eo in No, Nio |- *. destruct (numbers p h (strip (start_state phi)) l1 b l2 No Nio) as (_ & B).
    destruct (B i1 i i2 Ei eq_refl eq_refl) as (B1 & B2 & B3). rewrite before_split by (apply NoDup_remove_2 in No; rewrite in_app_iff in No; auto). split; [|split; [auto|]].
    + intros r k. rewrite B1, C0. reflexivity.
    + rewrite B3. apply numbered_ext. intros x. rewrite C0. reflexivity.
  - intros b e I. rewrite <- (strip_phi st0), Es in I. apply blocks_args in I as (e0 & I0 & F0 & S0). rewrite S0, F0. cbn [strip start_state s_phi] in I0. destruct (F b) as [_ Fb]. rewrite Forall_forall in Fb. destruct (Fb e0 I0) as [_ ->]. cbn [app].
    set (v := fst (fst e0)).
    assert (G : forall l2 l1 c, order = l1 ++ l2 -> (forall x, c x = occ x (flat_map (definitions p (placed phi)) l1)) ->
      exits p (pv (strip (start_state phi))) (h_succ h) c l2 b v = map (fun n => (v, occ v (flat_map (definitions p (placed phi)) (before n order ++ [n])))) (filter (fun n => has_edge g n b) l2)).
    { induction l2 as [|n l2 IH]; intros l1 c Eo Ec; cbn [exits filter]; [auto|].
      assert (Hn : In n order) by (rewrite Eo; apply in_app_iff; right; left; auto). apply Oa in Hn. destruct (Sc n Hn) as [_ ->].
      assert (Nn : ~ In n l1) by (rewrite Eo in No; apply NoDup_remove_2 in No; rewrite in_app_iff in No; auto).
      assert (Ed : (fun x : Z => c x + occ x (definitions p (pv (strip (start_state phi))) n)) v = occ v (flat_map (definitions p (placed phi)) (before n order ++ [n]))).
      { cbv beta. rewrite Ec, Eo, before_split by auto. rewrite flat_map_app, occ_app. cbn [flat_map]. rewrite app_nil_r. reflexivity. }
      rewrite (IH (l1 ++ [n])).
      - destruct (has_edge g n b) eqn:He.
        + apply has_edge_iff in He. replace (count_occ Z.eq_dec (nb g n) b) with 1%nat by (symmetry; apply NoDup_count_occ'; [apply W|exact He]). cbn [repeat app map]. f_equal. now rewrite <- Ed.
        + apply has_edge_false in He. replace (count_occ Z.eq_dec (nb g n) b) with 0%nat by (symmetry; apply count_occ_not_In; exact He). reflexivity.
      - rewrite <- app_assoc. exact Eo.
      - intros x. rewrite Ec, flat_map_app, occ_app. cbn [flat_map]. rewrite app_nil_r. reflexivity. }
    apply (G order []); [auto|]. intros x. now rewrite C0.
  - intros i N. rewrite E5, D1, D2, <- (strip_read st0), <- (strip_written st0), Es. destruct (blocks_step p h order (strip (start_state phi))) as (_ & _ & _ & A4). now apply A4.
Qed.

(** ** Dead phi functions *)
(** The first instruction that touches [x] writes it without reading it. *)
Definition killed (p : sprog) (l : list nat) (x : Z) : Prop := exists i1 i i2, l = i1 ++ i :: i2 /\ In x (p_writes p i) /\ ~ In x (p_reads p i) /\ forall j, In j i1 -> ~ In x (p_writes p j) /\ ~ In x (p_reads p j).
Lemma killed_nil p x : ~ killed p [] x.
Proof. intros ([|? ?] & i & i2 & E & _); discriminate. Qed.
Lemma killed_cons p i l x : killed p (i :: l) x <-> ~ In x (p_reads p i) /\ (In x (p_writes p i) \/ killed p l x).
Proof.
  split.
  - intros ([|j i1] & k & i2 & E & Wk & Rk & B); injection E as -> ->; [auto|]. destruct (B j (or_introl eq_refl)) as [B1 B2]. split; [auto|]. right. exists i1, k, i2. split; [auto|]. split; [auto|]. split; [auto|]. intros j' J. apply B. right; auto.
  - intros [R [Wi|(i1 & k & i2 & -> & Wk & Rk & B)]].
    + exists [], i, l. split; [auto|]. split; [auto|]. split; [auto|]. intros j [].
    + destruct (in_dec Z.eq_dec x (p_writes p i)) as [Wi|Wi].
      * exists [], i, (i1 ++ k :: i2). split; [auto|]. split; [auto|]. split; [auto|]. intros j [].
      * exists (i :: i1), k, i2. split; [auto|]. split; [auto|]. split; [auto|]. intros j [<-|J]; auto.
Qed.
Lemma occ_0 v l : ~ In v l -> occ v l = 0.
Proof. intros N. destruct (Z.eq_dec (occ v l) 0) as [|Q]; [auto|]. exfalso. apply N, occ_in. pose proof (occ_pos v l). lia. Qed.
Lemma nodup_occ v l : NoDup l -> In v l -> occ v l = 1.
Proof. intros N I. unfold occ. rewrite (proj1 (NoDup_count_occ' Z.eq_dec l) N v I). reflexivity. Qed.
Lemma fresh_placed phi b : fresh_phi phi -> NoDup (placed phi b).
Proof.
  intros F. destruct (F b) as [N A]. unfold placed. clear F. induction (phi b) as [|e l IH]; cbn [map]; [constructor|]. inversion N; subst. inversion A as [|? ? [A1 _] A2]; subst. constructor; [|auto].
  intros I. apply in_map_iff in I as (e' & E & I). rewrite Forall_forall in A2. destruct (A2 e' I) as [B1 _]. apply H1. apply in_map_iff. exists e'. split; [|auto]. destruct e as [[? ?] ?], e' as [[? ?] ?]. cbn in *. subst. auto.
Qed.
Lemma keeps_dead p (st : ssa) x k : forall l,
  (forall i1 i i2, l = i1 ++ i :: i2 -> (forall j, In j i1 -> ~ In x (p_writes p j)) -> (In (x, k) (s_read st i) <-> In x (p_reads p i)) /\ ((exists k', In (x, k') (s_written st i) /\ k < k') <-> In x (p_writes p i))) ->
  (keeps st (x, k) l = false <-> killed p l x).
Proof.
  induction l as [|i l IH]; intros Hl; cbn [keeps].
  { split; [discriminate|]. intros Kl. now apply killed_nil in Kl. }
  rewrite killed_cons. cbn [fst snd]. destruct (Hl [] i l eq_refl ltac:(intros j [])) as [Rd Wt].
  destruct (existsb (fun r => (x =? fst r) && (k =? snd r)) (s_read st i)) eqn:Er.
  { apply existsb_exists in Er as ([a b] & I & Q). cbn [fst snd] in Q. assert (a = x /\ b = k) as [-> ->] by lia. apply Rd in I. split; [discriminate|intros [N _]; contradiction]. }
  assert (Nr : ~ In x (p_reads p i)).
  { intros I. apply Rd in I. assert (T : existsb (fun r => (x =? fst r) && (k =? snd r)) (s_read st i) = true) by (apply existsb_exists; exists (x, k); split; [auto|cbn [fst snd]; lia]). congruence. }
  destruct (existsb (fun w => (x =? fst w) && (k <? snd w)) (s_written st i)) eqn:Ew.
  { apply existsb_exists in Ew as ([a b] & I & Q). cbn [fst snd] in Q. assert (a = x) as -> by lia. assert (Wi : In x (p_writes p i)) by (apply Wt; exists b; split; [auto|lia]). tauto. }
  assert (Nw : ~ In x (p_writes p i)).
  { intros I. apply Wt in I as (k' & I & L). assert (T : existsb (fun w => (x =? fst w) && (k <? snd w)) (s_written st i) = true) by (apply existsb_exists; exists (x, k'); split; [auto|cbn [fst snd]; lia]). congruence. }
  rewrite IH; [tauto|]. intros i1 j i2 El Hj. apply (Hl (i :: i1) j i2); [now rewrite El|]. intros j' [<-|J]; auto.
Qed.
