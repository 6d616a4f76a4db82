(** The definitions that reach the blocks of a sequence. *)
From Verif Require Import ListLemmas CfgProps DomProps SsaProps.
From Verif Require Export SkipProofs2.
From Coq Require Import ZifyBool ZifyNat.

(** The index that [r] has after the definitions [names], if it was [k] before. *)
Definition reach (r k : Z) (names : list name) : Z := fold_left (fun k n => if fst n =? r then snd n else k) names k.
Lemma reach_app r k l m : reach r k (l ++ m) = reach r (reach r k l) m.
Proof. apply fold_left_app. Qed.
Lemma reach_numbered r : forall l c k, reach r k (numbered c l) = if occ r l =? 0 then k else c r + occ r l.
Proof. induction l as [|v l IH]; intros c k; [reflexivity|]. cbn [numbered].
  unfold reach at 1. cbn [fold_left fst snd]. fold (reach r (if v =? r then c v + 1 else k) (numbered (fun x => if x =? v then c x + 1 else c x) l)). rewrite IH, occ_cons. pose proof (occ_pos r l). cbv beta. rewrite (Z.eqb_sym v r). destruct (Z.eqb_spec (occ r l) 0) as [Q|Q]; destruct (Z.eqb_spec r v) as [Ev|Nv]; [subst v| |subst v|].
  - rewrite Q. cbn [Z.add Z.eqb]. lia.
  - rewrite Q. reflexivity.
  - replace (1 + occ r l =? 0) with false by lia. lia.
  - replace (0 + occ r l =? 0) with false by lia. lia. Qed.
Lemma reach_same r m : forall l k, (forall k', In (r, k') l -> k' = m) -> (exists k', In (r, k') l) /\ reach r k l = m \/ (forall k', ~ In (r, k') l) /\ reach r k l = k.
Proof. induction l as [|[v j] l IH]; intros k H; [right; split; [intros k' []|reflexivity]|]. unfold reach. cbn [fold_left fst snd]. fold (reach r (if v =? r then j else k) l).
  destruct (IH (if v =? r then j else k)) as [[(k' & I) E]|[N E]]; [intros k' I; apply H; right; auto|left; split; [exists k'; right; auto|auto]|].
  destruct (Z.eqb_spec v r) as [->|Nv]; [left|right].
  - split; [exists j; left; auto|]. rewrite E. apply H. left. auto.
  - split; [|auto]. intros k' [Q|I]; [congruence|eapply N; eauto]. Qed.
Lemma way_last R x l v : way R x l v -> exists m, l = m ++ [v] /\ (m = [] /\ v = x \/ exists u, way R x m u /\ R u v).
Proof. intros W. induction W as [u|u w l v E W (m & -> & H)]; [exists []; auto|]. exists (u :: m). split; [auto|]. right. destruct H as [[-> ->]|(z & Wz & Ez)]; [exists u; split; [constructor|auto]|]. exists z. split; [econstructor; eauto|auto]. Qed.

Lemma order_is R F root e skip idom ch order : seqf R F root e skip -> (forall v d, idom v = Some d <-> In v F /\ immediate R root d v) -> (forall d v, In v (ch d) <-> idom v = Some d) -> (forall d, asc F (ch d)) ->
  preorder ch root order -> (forall v, In v order <-> reachable R root v) -> order = F.
Proof. intros Sf Id Ch As P O. destruct (preorder_asc _ _ _ _ _ ch Sf) as [H _]; [intros d v I; now apply Id, Ch|auto|]. destruct (H root order P) as [A _]; [apply Sf|]. apply (asc_unique F); [auto|apply asc_self, Sf|]. intros x. rewrite O. eapply seq_reach; eauto. Qed.

(** The result of the renaming, for blocks renamed in the order [F]. *)
Record renamed (p : sprog) (st : ssa) (phi : Z -> phis) (F : list Z) : Prop := Renamed {
  rn_nodup : forall b, NoDup (placed phi b);
  rn_written : forall b i1 i i2, In b F -> p_inst p b = i1 ++ i :: i2 -> s_written st i = numbered (fun x => occ x (flat_map (definitions p (placed phi)) (before b F) ++ placed phi b ++ flat_map (p_writes p) i1)) (p_writes p i);
  rn_phi : forall b v k, In b F -> In (v, k) (map fst (s_phi st b)) -> k = occ v (flat_map (definitions p (placed phi)) (before b F)) + 1;
  rn_kept : forall b x, (exists k, In (x, k) (map fst (s_phi st b))) <-> In x (placed phi b) /\ ~ killed p (p_inst p b) x }.
Definition upto (p : sprog) (phi : Z -> phis) (F : list Z) (r b : Z) : Z := occ r (flat_map (definitions p (placed phi)) (before b F)).
Lemma reach_writes p st phi F r b : renamed p st phi F -> In b F -> forall i1 i2 k, p_inst p b = i1 ++ i2 ->
  reach r k (flat_map (s_written st) i1) = if occ r (flat_map (p_writes p) i1) =? 0 then k else upto p phi F r b + occ r (placed phi b) + occ r (flat_map (p_writes p) i1).
Proof. intros Rn B. induction i1 as [|i i1 IH] using rev_ind; intros i2 k E; [reflexivity|]. rewrite <- app_assoc in E. cbn [app] in E. rewrite !flat_map_app, reach_app, (IH _ _ E). cbn [flat_map]. rewrite !app_nil_r, (rn_written _ _ _ _ Rn b i1 i i2 B E), reach_numbered, !occ_app. fold (upto p phi F r b).
  pose proof (occ_pos r (p_writes p i)). pose proof (occ_pos r (flat_map (p_writes p) i1)). destruct (Z.eqb_spec (occ r (p_writes p i)) 0) as [Q|Q].
  - rewrite Q, Z.add_0_r. reflexivity.
  - replace (occ r (flat_map (p_writes p) i1) + occ r (p_writes p i) =? 0) with false by lia. lia. Qed.
Definition kept (st : ssa) (r b : Z) : Prop := exists k, In (r, k) (map fst (s_phi st b)).
Lemma reach_block p st phi F r b i1 i2 k : renamed p st phi F -> In b F -> p_inst p b = i1 ++ i2 -> let n := occ r (placed phi b ++ flat_map (p_writes p) i1) in
  (n = 0 -> reach r k (map fst (s_phi st b) ++ flat_map (s_written st) i1) = k) /\
  (kept st r b \/ occ r (flat_map (p_writes p) i1) <> 0 -> reach r k (map fst (s_phi st b) ++ flat_map (s_written st) i1) = upto p phi F r b + n).
Proof. intros Rn B E n. unfold n. rewrite occ_app, reach_app, (reach_writes p st phi F r b Rn B i1 i2 _ E). pose proof (occ_pos r (placed phi b)). pose proof (occ_pos r (flat_map (p_writes p) i1)).
  destruct (reach_same r (upto p phi F r b + 1) (map fst (s_phi st b)) k) as [[Kp Rk]|[Kp Rk]]; [intros k' I; now apply (rn_phi _ _ _ _ Rn b r k')|..]; rewrite Rk.
  - apply (rn_kept _ _ _ _ Rn) in Kp as [Pl _]. pose proof (nodup_occ r _ (rn_nodup _ _ _ _ Rn b) Pl) as O. split; [lia|]. intros _. destruct (Z.eqb_spec (occ r (flat_map (p_writes p) i1)) 0) as [Q|Q]; lia.
  - split; [intros Z; replace (occ r (flat_map (p_writes p) i1)) with 0 by lia; reflexivity|]. intros [(k' & I)|Q]; [destruct (Kp k' I)|]. replace (occ r (flat_map (p_writes p) i1) =? 0) with false by lia. lia. Qed.
Lemma killed_writes p l x : killed p l x -> In x (flat_map (p_writes p) l).
Proof. intros (i1 & i & i2 & -> & W & _). apply in_flat_map. exists i. rewrite in_app_iff. cbn [In]. auto. Qed.
Lemma killed_in p x : forall l, {killed p l x} + {~ killed p l x}.
Proof. induction l as [|i l IH]; [right; apply killed_nil|]. destruct (in_dec Z.eq_dec x (p_reads p i)) as [R|R]; [right; rewrite killed_cons; tauto|]. destruct (in_dec Z.eq_dec x (p_writes p i)) as [W|W]; [left; rewrite killed_cons; auto|]. destruct IH as [K|K]; [left|right]; rewrite killed_cons; tauto. Qed.
Lemma reach_whole p st phi F r b k : renamed p st phi F -> In b F -> reach r k (block_names p st b) = if occ r (definitions p (placed phi) b) =? 0 then k else upto p phi F r b + occ r (definitions p (placed phi) b).
Proof. intros Rn B. unfold block_names, definitions. destruct (reach_block p st phi F r b (p_inst p b) [] k Rn B) as [H1 H2]; [now rewrite app_nil_r|]. destruct (Z.eqb_spec (occ r (placed phi b ++ flat_map (p_writes p) (p_inst p b))) 0) as [Q|Q]; [auto|]. apply H2.
  rewrite occ_app in Q. destruct (Z.eqb_spec (occ r (flat_map (p_writes p) (p_inst p b))) 0) as [Q2|Q2]; [left|right; auto]. apply (rn_kept _ _ _ _ Rn). split; [apply occ_in; pose proof (occ_pos r (placed phi b)); lia|]. intros K. apply killed_writes, occ_in in K. lia. Qed.

(** [r] is given a phi function wherever two definitions of it meet. *)
Definition joined (R : rel) (p : sprog) (phi : Z -> phis) (F : list Z) (root e r : Z) : Prop :=
  forall d b, In d F -> In b F -> b <> e -> R d b -> ~ strictly_dominates R root d b -> In r (definitions p (placed phi) d) -> In r (placed phi b).
Lemma before_pos F a u b v d : F = a ++ u :: b ++ v :: d -> NoDup F -> before u F = a /\ before v F = a ++ u :: b.
Proof. intros -> N. split; [apply before_split; apply NoDup_remove_2 in N; rewrite in_app_iff in N; auto|]. replace (a ++ u :: b ++ v :: d) with ((a ++ u :: b) ++ v :: d) in * by (rewrite <- app_assoc; reflexivity). apply before_split. apply NoDup_remove_2 in N. rewrite in_app_iff in N. auto. Qed.
Lemma upto_edge R p phi F root e skip r u b : seqf R F root e skip -> joined R p phi F root e r -> R u b -> b <> e -> ~ In r (placed phi b) -> upto p phi F r b = upto p phi F r u + occ r (definitions p (placed phi) u).
Proof. intros Sf J E Nb Np. destruct (sf_edge _ _ _ _ _ Sf u b E) as (U & B & L & Sk). destruct (split_pos F u b (sf_nodup _ _ _ _ _ Sf) U B L) as (a & m & d & EF). destruct (before_pos F a u m b d EF (sf_nodup _ _ _ _ _ Sf)) as [B1 B2].
  unfold upto. rewrite B1, B2, flat_map_app. cbn [flat_map]. rewrite !occ_app. assert (Z0 : occ r (flat_map (definitions p (placed phi)) m) = 0); [|lia]. apply occ_flat_0. intros x X D. apply Np.
  assert (Xp : In x F /\ (pos F u < pos F x < pos F b)%nat). { pose proof (sf_nodup _ _ _ _ _ Sf) as N. rewrite EF in N. pose proof (proj1 (between_pos a u m b d x N) X) as Q. rewrite <- EF in Q. exact Q. } destruct Xp as [Xf Lx].
  destruct (Sk x Xf Lx) as [Skx _]. destruct (sf_end _ _ _ _ _ Sf) as [Ef Pe]. destruct (sf_root _ _ _ _ _ Sf) as [Rf Pr].
  assert (Lb : (pos F b < pos F e)%nat). { pose proof (proj1 (pos_lt F b) B). destruct (Nat.eq_dec (pos F b) (pos F e)) as [Q|Q]; [destruct Nb; eapply pos_inj; eauto|lia]. }
  apply (J x b Xf B Nb); [|intros [_ Dm]; revert Dm; apply (skipped _ _ _ _ _ x b Sf); auto; [lia|intros ->; lia|lia]|exact D].
  apply (sf_jump _ _ _ _ _ Sf); auto; [lia|]. intros y Y Ly. apply (Sk y Y). lia. Qed.
Lemma reach_entry R p st phi F root e skip r : seqf R F root e skip -> renamed p st phi F -> joined R p phi F root e r ->
  forall n l b, length l = n -> way R root (l ++ [b]) b -> b <> e -> ~ In r (placed phi b) -> reach r 0 (flat_map (block_names p st) l) = upto p phi F r b.
Proof. intros Sf Rn J. induction n as [n IH] using lt_wf_ind. intros l b Ln W Nb Np. destruct (way_last _ _ _ _ W) as (m & Em & H). apply app_inj_tail in Em as [<- _]. destruct H as [[-> ->]|(u & Wu & E)].
  - destruct (sf_root _ _ _ _ _ Sf) as [Rf Pr]. unfold upto. assert (before root F = []) as -> by (destruct F as [|y F]; [auto|]; cbn [pos before] in *; destruct (y =? root); [auto|discriminate]). reflexivity.
  - destruct (way_last _ _ _ _ Wu) as (l' & -> & _). rewrite flat_map_app, reach_app. cbn [flat_map]. rewrite app_nil_r. destruct (sf_edge _ _ _ _ _ Sf u b E) as (U & B & L & _). rewrite (reach_whole p st phi F r u _ Rn U), (upto_edge R p phi F root e skip r u b); auto.
    destruct (Z.eqb_spec (occ r (definitions p (placed phi) u)) 0) as [Q|Q]; [|auto]. rewrite Q, Z.add_0_r. apply (IH (length l')); auto; [rewrite app_length in Ln; cbn [length] in Ln; lia| |].
    + intros ->. destruct (sf_end _ _ _ _ _ Sf) as [_ Pe]. pose proof (proj1 (pos_lt F b) B). lia.
    + intros I. assert (In r (definitions p (placed phi) u)) by (unfold definitions; apply in_app_iff; auto). apply occ_in in H. lia. Qed.
Lemma reach_exit R p st phi F root e skip r l u : seqf R F root e skip -> renamed p st phi F -> joined R p phi F root e r -> way R root (l ++ [u]) u -> u <> e ->
  reach r 0 (flat_map (block_names p st) (l ++ [u])) = upto p phi F r u + occ r (definitions p (placed phi) u).
Proof. intros Sf Rn J W Nu. assert (U : In u F) by exact (proj1 (way_pos _ _ _ _ _ _ _ _ Sf (proj1 (sf_root _ _ _ _ _ Sf)) W)). rewrite flat_map_app, reach_app. cbn [flat_map]. rewrite app_nil_r, (reach_whole p st phi F r u _ Rn U).
  destruct (Z.eqb_spec (occ r (definitions p (placed phi) u)) 0) as [Q|Q]; [|auto]. rewrite Q, Z.add_0_r. apply (reach_entry _ _ _ _ _ _ _ _ _ Sf Rn J (length l)); auto.
  intros I. assert (H : In r (definitions p (placed phi) u)) by (unfold definitions; apply in_app_iff; auto). apply occ_in in H. lia. Qed.
