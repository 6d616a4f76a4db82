(** The order in which the blocks of a sequence are renamed. *)
From Verif Require Import ListLemmas CfgProps DomProps SsaProps.
From Verif Require Export SkipProofs.
From Coq Require Import ZifyBool ZifyNat Sorted.

Lemma foldM_keep {S A B} (f : S -> A -> result S) (P : S -> B) : (forall s a s', f s a = Ok s' -> P s' = P s) -> forall l s s', foldM f l s = Ok s' -> P s' = P s.
Proof. intros H. induction l as [|a l IH]; intros s s' E; cbn [foldM] in E; [congruence|]. destruct (f s a) as [s1|] eqn:E1; [|discriminate]. cbn [bind] in E. rewrite (IH _ _ E). eapply H; eauto. Qed.
Lemma dfs_children g : forall fuel h vis n i h' vis' r, dfs fuel g h vis n i = Ok (h', vis', r) -> h_children h' = h_children h.
Proof. induction fuel as [|fuel IH]; intros h vis n i h' vis' r E; [discriminate|]. cbn [dfs] in E. destruct (incidents g n) as [ins|]; [|discriminate]. destruct (neighbors g n) as [outs|]; [|discriminate]. cbn [bind] in E.
  change (h_children h) with ((fun s : heap * list Z * list Z => h_children (fst (fst s))) (set_visit h n i ins outs, vis ++ [n], [n])). change (h_children h') with ((fun s : heap * list Z * list Z => h_children (fst (fst s))) (h', vis', r)).
  revert E. apply (foldM_keep _ (fun s : heap * list Z * list Z => h_children (fst (fst s)))). intros [[h1 v1] r1] a [[h2 v2] r2] E. destruct (zmem a v1); [injection E as <- <- <-; reflexivity|].
  destruct (dfs fuel g (set_par h1 a (Some n)) v1 a (i + 1)) as [[[h3 v3] r3]|] eqn:Ed; [|discriminate]. cbn [bind] in E. injection E as <- <- <-. cbn [fst]. apply IH in Ed. exact Ed. Qed.
Lemma pred_children fuel w h v h' : see_pred fuel w h v = Ok h' -> h_children h' = h_children h.
Proof. unfold see_pred. destruct (eval fuel h v) as [u|]; [|discriminate]. cbn [bind]. destruct (semi_idx h u) as [a|]; [|discriminate]. destruct (semi_idx h w) as [b|]; [|discriminate]. cbn [bind]. intros E. injection E as <-. destruct (a <? b); reflexivity. Qed.
Lemma settle_children fuel w h v h' : settle fuel w h v = Ok h' -> h_children h' = h_children h.
Proof. unfold settle. destruct (eval fuel h v) as [u|]; [|discriminate]. cbn [bind]. destruct (semi_idx h u) as [a|]; [|discriminate]. destruct (semi_idx h v) as [b|]; [|discriminate]. cbn [bind]. intros E. injection E as <-. reflexivity. Qed.
Lemma process_children fuel h w h' : process fuel h w = Ok h' -> h_children h' = h_children h.
Proof. unfold process. destruct (foldM (see_pred fuel w) (h_pred h w) h) as [h1|] eqn:E1; [|discriminate]. cbn [bind]. apply (foldM_keep _ h_children (pred_children fuel w)) in E1.
  set (h2 := set_anc _ _ _). assert (E2 : h_children h2 = h_children h) by exact E1. clearbody h2. destruct (h_par h2 w) as [p|]; [|discriminate]. destruct (foldM (settle fuel p) (rev (h_bucket h2 p)) h2) as [h3|] eqn:E3; [|discriminate]. cbn [bind]. apply (foldM_keep _ h_children (settle_children fuel p)) in E3.
  intros E. injection E as <-. change (h_children h3 = h_children h). congruence. Qed.
Lemma finish_children h w h' : finish h w = Ok h' -> h_children h' = h_children h.
Proof. unfold finish. destruct (h_idom h w) as [d|]; [|discriminate]. intros E. injection E as <-. destruct (d =? h_semi h w); reflexivity. Qed.
Lemma tree_children : forall ns h t h' t', NoDup ns -> (forall d n, In n ns -> ~ In n (h_children h d)) -> foldM add_to_tree ns (h, t) = Ok (h', t') ->
  h_idom h' = h_idom h /\ forall d, h_children h' d = h_children h d ++ filter (fun n => oeqb (h_idom h n) (Some d)) ns.
Proof. induction ns as [|n ns IH]; intros h t h' t' Nd Di E; cbn [foldM filter] in E |- *; [injection E as <- <-; split; [auto|]; intros d; now rewrite app_nil_r|]. inversion Nd as [|? ? Nn Nd']; subst.
  unfold add_to_tree at 1 in E. destruct (h_idom h n) as [d0|] eqn:Ed.
  - rewrite (proj2 (zmem_notin n (h_children h d0))) in E by (apply Di; left; auto). destruct (if has_edge t d0 n then Ok t else add_edge t d0 n) as [t1|]; [|discriminate]. cbn [bind] in E.
    apply IH in E as [A B]; [|exact Nd'|].
    2: { intros d m M. cbn [set_children h_children]. unfold upd. destruct (d =? d0); [|apply Di; right; auto]. rewrite in_app_iff. intros [Q|[->|[]]]; [|auto]. revert Q. apply Di. right. auto. }
    split; [exact A|]. intros d. rewrite B. cbn [set_children h_children h_idom oeqb]. unfold upd. rewrite (Z.eqb_sym d0 d). destruct (d =? d0) eqn:Q; [apply Z.eqb_eq in Q; subst; rewrite <- app_assoc; reflexivity|reflexivity].
  - cbn [bind] in E. apply IH in E; [|auto|intros d m M; apply Di; right; auto]. cbn [oeqb]. exact E. Qed.
Lemma children_order g root h t : wf g -> build_dominator_tree g root = Ok (h, t) -> forall d, h_children h d = filter (fun n => oeqb (h_idom h n) (Some d)) (g_nodes g).
Proof. intros W. unfold build_dominator_tree. destruct (dfs (length (g_nodes g)) g fresh_heap [] root 0) as [[[h0 v0] V]|] eqn:E0; [|discriminate]. cbn [bind].
  destruct (foldM (process (length (g_nodes g))) (rev (tl V)) h0) as [h1|] eqn:E1; [|discriminate]. cbn [bind]. destruct (foldM finish (tl V) h1) as [h2|] eqn:E2; [|discriminate]. cbn [bind].
  destruct (foldM add_node (g_nodes g) g_empty) as [t0|]; [|discriminate]. cbn [bind]. intros E3. apply dfs_children in E0. apply (foldM_keep _ h_children (process_children _)) in E1. apply (foldM_keep _ h_children finish_children) in E2.
  set (h3 := match V with v0 :: _ => set_idom h2 v0 None | [] => h2 end) in E3. assert (H3 : forall d, h_children h3 d = []). { intros d. assert (h_children h3 = h_children h2) as -> by (unfold h3; destruct V; reflexivity). rewrite E2, E1, E0. reflexivity. }
  clearbody h3. apply tree_children in E3 as [A B]; [|apply W|intros d n _; rewrite H3; auto]. intros d. rewrite B, H3, A. reflexivity. Qed.

(** Lists in the order of a sequence. *)
Definition asc (F l : list Z) : Prop := StronglySorted (fun x y => (pos F x < pos F y)%nat) l.
Lemma asc_app F l m : asc F l -> asc F m -> (forall x y, In x l -> In y m -> (pos F x < pos F y)%nat) -> asc F (l ++ m).
Proof. intros L M H. induction L as [|x l L IH Fx]; [exact M|]. cbn [app]. constructor; [apply IH; intros; apply H; [right|]; auto|]. apply Forall_app. split; [auto|]. apply Forall_forall. intros y Y. apply H; [left|]; auto. Qed.
Lemma asc_self F : NoDup F -> asc F F.
Proof. intros N. assert (H : forall l2 l1, F = l1 ++ l2 -> asc F l2); [|apply (H F []); auto]. induction l2 as [|x l2 IH]; intros l1 E; [constructor|]. constructor; [apply (IH (l1 ++ [x])); rewrite <- app_assoc; exact E|].
  apply Forall_forall. intros y Y. apply in_split in Y as (a & b & ->). rewrite E in N |- *. rewrite pos_mid by auto. rewrite pos_mid2 by auto. lia. Qed.
Lemma asc_filter F f l : asc F l -> asc F (filter f l).
Proof. intros A. induction A as [|x l A IH H]; cbn [filter]; [constructor|]. destruct (f x); [|auto]. constructor; [auto|]. apply Forall_forall. intros y Y. apply filter_In in Y as [Y _]. rewrite Forall_forall in H. auto. Qed.
Lemma asc_unique F : forall l m, asc F l -> asc F m -> (forall x, In x l <-> In x m) -> l = m.
Proof. induction l as [|x l IH]; intros [|y m] A B H; [auto|destruct (proj2 (H y)); left; auto|destruct (proj1 (H x)); left; auto|].
  inversion A as [|? ? A1 A2]; subst. inversion B as [|? ? B1 B2]; subst. rewrite Forall_forall in A2, B2.
  assert (x = y). { destruct (proj1 (H x) (or_introl eq_refl)) as [|X]; [auto|]. destruct (proj2 (H y) (or_introl eq_refl)) as [|Y]; [auto|]. specialize (A2 y Y). specialize (B2 x X). lia. } subst y. f_equal. apply IH; auto.
  intros z. split; intros Z.
  - destruct (proj1 (H z) (or_intror Z)) as [<-|]; [|auto]. specialize (A2 x Z). lia.
  - destruct (proj2 (H z) (or_intror Z)) as [<-|]; [|auto]. specialize (B2 x Z). lia. Qed.
Lemma asc_last F l n : asc F l -> l <> [] -> In (last l n) l /\ forall x, In x l -> (pos F x <= pos F (last l n))%nat.
Proof. intros A N. destruct (exists_last N) as (m & z & ->). rewrite last_last. split; [apply in_app_iff; right; left; auto|]. intros x X. apply in_app_iff in X as [X|[->|[]]]; [|auto]. clear N. induction m as [|y m IH]; [destruct X|]. cbn [app] in A. inversion A as [|? ? A1 A2]; subst. destruct X as [->|X]; [|auto].
  rewrite Forall_forall in A2. apply Nat.lt_le_incl, A2, in_app_iff. right; left; auto. Qed.

Lemma preorder_asc R F root e skip ch : seqf R F root e skip -> (forall d v, In v (ch d) -> In v F /\ immediate R root d v) -> (forall d, asc F (ch d)) ->
  (forall n l, preorder ch n l -> In n F -> asc F l /\ forall x, In x l -> In x F /\ dominates R root n x) /\
  (forall ns l, preorders ch ns l -> forall m, (forall a, In a ns -> In a F /\ immediate R root m a) -> asc F ns -> asc F l /\ forall x, In x l -> In x F /\ exists a, In a ns /\ dominates R root a x).
Proof. intros Sf Ch As. apply preorder_ind2.
  - intros n l P IH Nf. destruct (IH n) as [A B]; [apply Ch|apply As|].
    assert (H : forall x, In x l -> In x F /\ dominates R root n x /\ (pos F n < pos F x)%nat).
    { intros x X. destruct (B x X) as (Xf & a & Ia & D). destruct (Ch n a Ia) as (Af & [[Na Da] _]). split; [auto|]. split; [eapply dominates_trans; eauto|]. destruct (dom_cases _ _ _ _ _ n a Sf Af Da Na) as (_ & L & _). destruct (dom_pos _ _ _ _ _ a x Sf Xf D). lia. }
    split; [constructor; [auto|]; apply Forall_forall; intros x X; apply H; auto|]. intros x [<-|X]; [split; [auto|apply self_dominates]|]. destruct (H x X) as (? & ? & ?). auto.
  - intros m _ _. split; [constructor|intros x []].
  - intros n ns l l' P IH P' IH' m Hm An. inversion An as [|? ? An1 An2]; subst. destruct (Hm n (or_introl eq_refl)) as [Nf Im]. destruct (IH Nf) as [A B]. destruct (IH' m) as [A' B']; [intros a Ia; apply Hm; right; auto|auto|]. split.
    + apply asc_app; auto. intros x y X Y. destruct (B x X) as [Xf Dx]. destruct (B' y Y) as (Yf & a & Ia & Dy). destruct (Hm a (or_intror Ia)) as [Af Ima]. rewrite Forall_forall in An2. specialize (An2 a Ia).
      pose proof (siblings _ _ _ _ _ m n a x Sf Nf Af Im Ima An2 Xf Dx) as ->. destruct (dom_pos _ _ _ _ _ a y Sf Yf Dy). lia.
    + intros x X. apply in_app_iff in X as [X|X]; [destruct (B x X) as [Xf Dx]; split; [auto|]; exists n; split; [left|]; auto|]. destruct (B' x X) as (Xf & a & Ia & D). split; [auto|]. exists a. split; [right|]; auto. Qed.
(** The children of a block, in the order of the sequence. *)
Lemma children_seq R F root e skip (idom : Z -> option Z) l1 l2 : seqf R F root e skip -> F = (l1 ++ l2) ++ [e] -> (forall v d, idom v = Some d <-> In v F /\ immediate R root d v) ->
  forall d, filter (fun n => oeqb (idom n) (Some d)) (l1 ++ e :: l2) = filter (fun n => oeqb (idom n) (Some d)) F.
Proof. intros Sf EF Id d. rewrite EF, !filter_app. cbn [filter]. destruct (oeqb (idom e) (Some d)) eqn:O; [|now rewrite app_nil_r].
  assert (Ed : idom e = Some d). { destruct (idom e) as [x|]; [|discriminate]. cbn [oeqb] in O. apply Z.eqb_eq in O. congruence. } apply Id in Ed as [Ef [[Nd Dd] _]].
  assert (Md : forall d', idom e = Some d' -> (S (pos F d') = pos F e)%nat).
  { intros d' Q. apply Id in Q as [_ [[N1 D1] M1]]. destruct (dom_cases _ _ _ _ _ d' e Sf Ef D1 N1) as (D2 & L & _). destruct (Nat.eq_dec (S (pos F d')) (pos F e)) as [Q|Q]; [auto|]. exfalso.
    destruct (pos_ex F (pos F e - 1)) as (z & Zf & Pz); [apply pos_lt in Ef; lia|apply Sf|]. assert (Dz : dominates R root z e) by (apply (before_end _ _ _ _ _ z Sf); auto; lia).
    assert (D3 : dominates R root z d') by (apply M1; split; [intros ->; lia|auto]). destruct (dom_pos _ _ _ _ _ z d' Sf D2 D3). lia. }
  assert (H : forall l, incl l F -> ~ In e l -> filter (fun n => oeqb (idom n) (Some d)) l = []).
  { intros l Il Ne. destruct (filter _ l) as [|x m] eqn:Q; [auto|]. exfalso. assert (X : In x (filter (fun n => oeqb (idom n) (Some d)) l)) by (rewrite Q; left; auto). apply filter_In in X as [X Y]. destruct (idom x) as [y|] eqn:Ey; [|discriminate]. cbn [oeqb] in Y. apply Z.eqb_eq in Y. subst y.
    pose proof (proj1 (Id x d) Ey) as [Xf [[N1 D1] _]]. destruct (dom_cases _ _ _ _ _ d x Sf Xf D1 N1) as (_ & L & _). assert (Q2 : idom e = Some d) by (destruct (idom e) as [z|]; [|discriminate]; cbn [oeqb] in O; apply Z.eqb_eq in O; congruence). specialize (Md d Q2). destruct (sf_end _ _ _ _ _ Sf) as [_ Pe]. pose proof (proj1 (pos_lt F x) Xf). assert (x = e) by (eapply pos_inj; eauto; lia). subst x. auto. }
  pose proof (sf_nodup _ _ _ _ _ Sf) as N. rewrite EF in N. apply NoDup_remove_2 in N. rewrite app_nil_r, in_app_iff in N. rewrite (H l1), (H l2); [reflexivity|..]; auto; intros x X; rewrite EF, !in_app_iff; auto. Qed.
(** A last child that dominates nothing is the end. *)
Lemma last_leaf R F root e skip (idom : Z -> option Z) ch : seqf R F root e skip -> (forall v d, idom v = Some d <-> In v F /\ immediate R root d v) -> (forall d v, In v (ch d) <-> idom v = Some d) -> (forall d, asc F (ch d)) ->
  forall n c, ch n <> [] -> c = last (ch n) n -> ch c = [] -> c = e.
Proof. intros Sf Id Ch As n c Ne Ec Lf. destruct (asc_last F (ch n) n (As n) Ne) as [Ic Mx]. rewrite <- Ec in Ic, Mx. apply Ch, Id in Ic as [Cf Im]. destruct (Z.eq_dec c e) as [|Nce]; [auto|]. exfalso. destruct (sf_end _ _ _ _ _ Sf) as [Ef Pe].
  assert (Lc : (pos F c < pos F e)%nat). { pose proof (proj1 (pos_lt F c) Cf). destruct (Nat.eq_dec (pos F c) (pos F e)) as [Q|Q]; [destruct Nce; eapply pos_inj; eauto|lia]. }
  destruct (pos_ex F (S (pos F c))) as (x & Xf & Px); [lia|apply Sf|]. assert (Lfx : forall d, In x (ch d) -> d <> c) by (intros d I ->; rewrite Lf in I; destruct I).
  assert (U : forall d, strictly_dominates R root d x -> d <> c -> dominates R root d c).
  { intros d [N1 D1] N2. destruct (dom_cases _ _ _ _ _ d x Sf Xf D1 N1) as (Df & L & [Ud|[-> P]]).
    - apply (unskipped _ _ _ _ _ d c Sf); auto. lia.
    - destruct N2. eapply pos_inj; eauto. lia. }
  assert (K : dominates R root c x -> False). { intros D. assert (Q : In x (ch c)); [|rewrite Lf in Q; destruct Q]. apply Ch, Id. split; [auto|]. split; [split; [intros ->; lia|auto]|]. intros d Sd. destruct (Z.eq_dec d c) as [->|Nd]; [apply self_dominates|auto]. }
  destruct (skip c) eqn:Sk; [|apply K, (unskipped _ _ _ _ _ c x Sf); auto; lia].
  destruct (Z.eq_dec x e) as [->|Nx]; [apply K, (before_end _ _ _ _ _ c Sf); auto|].
  destruct Im as [[N1 D1] M1]. destruct (dom_cases _ _ _ _ _ n c Sf Cf D1 N1) as (Nf & Ln & [Un|[Q _]]); [|contradiction].
  assert (Q : In x (ch n)); [|specialize (Mx x Q); lia]. apply Ch, Id. split; [auto|]. split; [split; [intros ->; lia|apply (unskipped _ _ _ _ _ n x Sf); auto; lia]|].
  intros d Sd. destruct (Z.eq_dec d c) as [->|Nd]; [destruct K; apply Sd|]. apply M1. split; [auto|apply U; auto]. Qed.
