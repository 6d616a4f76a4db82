(** Lemmas about the rule-driven recovery as a whole. *)
From Verif Require Import ListLemmas FlipModel FlipProofs InstModel MetaModel MetaSpec MetaProofs MetaProps RecModel RecSpec RecProofs RulesModel RulesSpec RulesProofs RulesProofs2 RulesProofs3 RulesProofs4.
From Coq Require Import ZifyBool ZifyNat Permutation Lqa.

Lemma erase_only c c' : erase c' = erase c -> only_scores c c'.
Proof. unfold erase, with_scores. intros E. injection E as A B C. repeat split; assumption. Qed.
Lemma only_refl c : only_scores c c. Proof. repeat split. Qed.
Lemma only_object c c' : only_scores c c' -> same_object c c'.
Proof. intros (A & B & C). unfold same_object, r_ignore. rewrite A, B, C. repeat split. auto. Qed.
Lemma object_refl c : same_object c c. Proof. apply only_object, only_refl. Qed.
Lemma same_object_trans a b c : same_object a b -> same_object b c -> same_object a c.
Proof. intros (I1 & R1 & F1 & G1) (I2 & R2 & F2 & G2). split; [|split; [congruence|split; [congruence|auto]]]. unfold same_inst in *. intuition congruence. Qed.
Lemma only_trans a b c : only_scores a b -> only_scores b c -> only_scores a c.
Proof. unfold only_scores. intuition congruence. Qed.
Lemma map_erase_only l l' : map erase l' = map erase l -> Forall2 only_scores l l'.
Proof. revert l'. induction l as [|c l IH]; intros [|c' l'] E; try discriminate; constructor; cbn [map] in E; injection E as A B C D.
  - repeat split; assumption.
  - apply IH, D. Qed.
Lemma discard_object c : same_object c (discard c).
Proof. unfold discard. destruct (existsb _ _); [|apply object_refl]. unfold same_object, same_inst, r_ignore. cbn [r_inst r_regs r_flags set_ignore d_enc d_addr d_ignore d_cond d_op d_used d_written d_read d_rwritten d_rread d_branch d_kind d_jump]. repeat split. Qed.

Lemma forall2_trans {A} (R : A -> A -> Prop) : (forall a b c, R a b -> R b c -> R a c) -> forall l1 l2 l3, Forall2 R l1 l2 -> Forall2 R l2 l3 -> Forall2 R l1 l3.
Proof. intros T l1 l2 l3 F. revert l3. induction F; intros l3 G; inversion G; subst; constructor; eauto. Qed.
Lemma forall2_len {A B} (R : A -> B -> Prop) l l' : Forall2 R l l' -> length l = length l'.
Proof. induction 1; cbn [length]; congruence. Qed.

Lemma evolves_refl (R : rcand -> rcand -> Prop) p : (forall c, R c c) -> evolves R p p.
Proof. intros H. induction p as [|[k l] p IH]; constructor; [|exact IH]. split; [reflexivity|]. split; [|auto]. induction (snd (k, l)); constructor; auto. Qed.
Lemma evolves_trans (R : rcand -> rcand -> Prop) p1 p2 p3 : (forall a b c, R a b -> R b c -> R a c) -> evolves R p1 p2 -> evolves R p2 p3 -> evolves R p1 p3.
Proof. intros T F. revert p3. induction F as [|a b p1 p2 (A & B & C) F IH]; intros p3 G; inversion G as [|? c ? ? (A' & B' & C') G']; subst; constructor; [|apply IH, G'].
  split; [congruence|]. split; [exact (forall2_trans R T _ _ _ B B')|]. intros L. rewrite C', C; auto. rewrite (C L). exact L. Qed.
Lemma evolves_dset (R : rcand -> rcand -> Prop) p a l l' : (forall c, R c c) -> dget p a = Some l -> Forall2 R l l' -> (1 < length l)%nat -> evolves R p (dset p a l').
Proof. intros Rf G F L. induction p as [|[k x] p IH]; [discriminate|]. cbn [dget dset] in *. destruct (a =? k); constructor; cbn [fst snd].
  - injection G as ->. split; [reflexivity|]. split; [exact F|]. intros; lia.
  - apply evolves_refl, Rf.
  - split; [reflexivity|]. split; [|auto]. clear - Rf. induction x; constructor; auto.
  - exact (IH G). Qed.
Lemma evolves_weaken (R S : rcand -> rcand -> Prop) p p' : (forall a b, R a b -> S a b) -> evolves R p p' -> evolves S p p'.
Proof. intros H F. induction F as [|a b p p' (A & B & C) F IH]; constructor; [|exact IH]. split; [exact A|]. split; [|exact C]. clear - H B. induction B; constructor; auto. Qed.
Lemma evolves_get (R : rcand -> rcand -> Prop) p p' a l : evolves R p p' -> dget p a = Some l -> exists l', dget p' a = Some l' /\ Forall2 R l l'.
Proof. intros F. induction F as [|[k x] [k' x'] p p' (A & B & C) F IH]; [discriminate|]. cbn [fst snd dget] in *. subst k'. destruct (a =? k); [|exact IH]. intros E. injection E as <-. eauto. Qed.

(** A rule changes scores at one address only. *)
Lemma flow_changes pass m p a p1 b : control_flow pass m p a = Ok (p1, b) -> exists l l', dget p a = Some l /\ p1 = dset p a l' /\ map erase l' = map erase l.
Proof. unfold control_flow. destruct (conditional_scores m p a) as [cs|e] eqn:C; cbn [bind]; [|discriminate]. unfold dget_r. destruct (dget p a) as [l|] eqn:G; cbn [bind]; [|discriminate].
  destruct (mapM (cfg_score m p cs) l) as [qs|e] eqn:M; cbn [bind]; [|discriminate]. destruct (update_scores (key_of RCfg pass) qs l) as [l' b'] eqn:U. intros X. injection X as <- <-. exists l, l'. split; [reflexivity|]. split; [reflexivity|]. exact (updates_erase _ _ _ _ _ U). Qed.
Lemma count_changes r pass col cache p a p1 c1 b : run_rule r pass col cache p a = Ok (p1, c1, b) -> exists l l', dget p a = Some l /\ p1 = dset p a l' /\ map erase l' = map erase l.
Proof. rewrite run_rule_unfold. unfold recover_count.
  destruct (match cache with [] => remaining_scores (values_of r) (counts_of r col) p | _ => Ok cache end) as [sc|e]; cbn [bind]; [|discriminate].
  unfold dget_r. destruct (dget p a) as [l|] eqn:G; cbn [bind]; [|discriminate]. destruct (count_candidates (key r pass) sc (values_of r) (added r) l) as [l' b'] eqn:C. intros X. injection X as <- <- <-.
  exists l, l'. split; [reflexivity|]. split; [reflexivity|]. exact (counts_erase _ _ _ _ _ _ _ C). Qed.
Lemma dist_changes pass col p a p1 b : read_distance pass col p a = Ok (p1, b) -> exists l l', dget p a = Some l /\ p1 = dset p a l' /\ map erase l' = map erase l.
Proof. unfold read_distance, dget_r. destruct (dget p a) as [l|] eqn:G; cbn [bind]; [|discriminate].
  destruct (dist_candidates (key_of RDist pass) col p a None l) as [[l' b']|e] eqn:D; cbn [bind]; [|discriminate]. intros X. injection X as <- <-.
  exists l, l'. split; [reflexivity|]. split; [reflexivity|]. exact (dists_erase _ _ _ _ _ _ _ _ D). Qed.

Definition rescored (p : rprogram) (a : Z) (p' : rprogram) : Prop := exists l l', dget p a = Some l /\ p' = dset p a l' /\ map erase l' = map erase l.
Lemma rescored_trans p a p1 p2 : rescored p a p1 -> rescored p1 a p2 -> rescored p a p2.
Proof. intros (l & l1 & G & -> & E) (l' & l2 & G' & -> & E'). rewrite dget_dset, Z.eqb_refl in G'. injection G' as <-. exists l, l2. split; [exact G|]. split; [apply dset_dset|congruence]. Qed.

Lemma apply_changes pass col p ca a p' ca' : apply_rules pass col p ca a = Ok (p', ca') -> rescored p a p'.
Proof. unfold apply_rules. destruct (control_flow pass default_model p a) as [[p1 b1]|e] eqn:E1; cbn [bind]; [|discriminate].
  change (conditional_count pass col (k_cond ca) p1 a) with (run_rule ByCond pass col (k_cond ca) p1 a). destruct (run_rule ByCond pass col (k_cond ca) p1 a) as [[[p2 c1] b2]|e] eqn:E2; cbn [bind]; [|discriminate].
  change (instruction_counting pass col (k_inst ca) p2 a) with (run_rule ByInst pass col (k_inst ca) p2 a). destruct (run_rule ByInst pass col (k_inst ca) p2 a) as [[[p3 c2] b3]|e] eqn:E3; cbn [bind]; [|discriminate].
  change (register_count pass col (k_reg ca) p3 a) with (run_rule ByReg pass col (k_reg ca) p3 a). destruct (run_rule ByReg pass col (k_reg ca) p3 a) as [[[p4 c3] b4]|e] eqn:E4; cbn [bind]; [|discriminate].
  destruct (read_distance pass col p4 a) as [[p5 b5]|e] eqn:E5; cbn [bind]; [|discriminate]. intros X. injection X as <- <-.
  eapply rescored_trans; [exact (flow_changes _ _ _ _ _ _ E1)|]. eapply rescored_trans; [exact (count_changes _ _ _ _ _ _ _ _ _ E2)|].
  eapply rescored_trans; [exact (count_changes _ _ _ _ _ _ _ _ _ E3)|]. eapply rescored_trans; [exact (count_changes _ _ _ _ _ _ _ _ _ E4)|]. exact (dist_changes _ _ _ _ _ _ E5). Qed.

Lemma visit_evolves passes pass col p ca a p' ca' : visit passes pass col (p, ca) a = Ok (p', ca') -> evolves same_object p p' /\ (passes <= 1 -> evolves only_scores p p').
Proof. unfold visit. unfold dget_r at 1. destruct (dget p a) as [l|] eqn:G; cbn [bind]; [|discriminate].
  destruct (Z.ltb_spec 1 (Z.of_nat (length l))) as [L|L]; [|intros X; injection X as <- <-; split; [|intros _]; apply evolves_refl; [apply object_refl|apply only_refl]].
  destruct (apply_rules pass col p ca a) as [[p1 ca1]|e] eqn:A; cbn [bind]; [|discriminate]. destruct (apply_changes _ _ _ _ _ _ _ A) as (l0 & l1 & G0 & -> & E). rewrite G in G0. injection G0 as <-.
  pose proof (map_erase_only _ _ E) as O.
  destruct (Z.ltb_spec 1 passes) as [P|P].
  - unfold dget_r. rewrite dget_dset, Z.eqb_refl. cbn [bind]. intros X. injection X as <- <-. rewrite dset_dset. split; [|intros; lia].
    apply evolves_dset with l; [apply object_refl|exact G| |lia]. clear - O. induction O as [|c c' l l1 H O IH]; constructor; [|exact IH]. exact (same_object_trans _ _ _ (only_object _ _ H) (discard_object c')).
  - intros X. injection X as <- <-. assert (V : evolves only_scores p (dset p a l1)) by (apply evolves_dset with l; [apply only_refl|exact G|exact O|lia]).
    split; [exact (evolves_weaken _ _ _ _ only_object V)|auto]. Qed.

Lemma visits_evolve passes pass col addrs : forall p ca p' ca', foldM (visit passes pass col) addrs (p, ca) = Ok (p', ca') -> evolves same_object p p' /\ (passes <= 1 -> evolves only_scores p p').
Proof. induction addrs as [|a addrs IH]; intros p ca p' ca'; cbn [foldM].
  - intros X. injection X as <- <-. split; [|intros _]; apply evolves_refl; [apply object_refl|apply only_refl].
  - destruct (visit passes pass col (p, ca) a) as [[p1 ca1]|e] eqn:V; cbn [bind]; [|discriminate]. intros F. destruct (visit_evolves _ _ _ _ _ _ _ _ V) as [A1 A2]. destruct (IH _ _ _ _ F) as [B1 B2].
    split; [exact (evolves_trans _ _ _ _ same_object_trans A1 B1)|]. intros P. exact (evolves_trans _ _ _ _ only_trans (A2 P) (B2 P)). Qed.

Lemma recover_evolves passes col p p' : rule_recover passes col p = Ok p' -> evolves same_object p p' /\ (passes <= 1 -> evolves only_scores p p').
Proof. unfold rule_recover. revert p. induction (zrange 0 passes) as [|n l IH]; intros p; cbn [foldM].
  - intros X. injection X as <-. split; [|intros _]; apply evolves_refl; [apply object_refl|apply only_refl].
  - unfold one_pass at 1. destruct (foldM (visit passes n col) (dkeys p) (p, mkCaches [] [] [])) as [[p1 ca]|e] eqn:V; cbn [bind]; [|discriminate]. intros F. destruct (visits_evolve _ _ _ _ _ _ _ _ V) as [A1 A2]. destruct (IH _ F) as [B1 B2].
    split; [exact (evolves_trans _ _ _ _ same_object_trans A1 B1)|]. intros P. exact (evolves_trans _ _ _ _ only_trans (A2 P) (B2 P)). Qed.

(** *** One pass succeeds *)
Definition sound (orig : list rcand) (p : rprogram) : Prop := original_among orig p /\ first_defined p /\ conditions_ok p /\ storages_ok p.

Lemma evolves_keys (R : rcand -> rcand -> Prop) p p' : evolves R p p' -> dkeys p' = dkeys p.
Proof. induction 1 as [|a b p p' (A & _) F IH]; [reflexivity|]. cbn [dkeys map]. unfold dkeys in IH. rewrite A, IH. reflexivity. Qed.
Lemma evolves_in (R : rcand -> rcand -> Prop) p p' a l' : evolves R p p' -> In (a, l') p' -> exists l, In (a, l) p /\ Forall2 R l l'.
Proof. intros F. induction F as [|[k x] [k' x'] p p' (A & B & C) F IH]; [intros []|]. cbn [fst snd] in *. subst k'. intros [E|E]; [injection E as <- <-; exists x; split; [left; reflexivity|exact B]|]. destruct (IH E) as (l & I & H). exists l. split; [right; exact I|exact H]. Qed.
Lemma only_in l l' c' : Forall2 only_scores l l' -> In c' l' -> exists c, In c l /\ only_scores c c'.
Proof. induction 1 as [|a b l l' H F IH]; [intros []|]. intros [->|I]; [exists a; split; [left; reflexivity|exact H]|]. destruct (IH I) as (c & J & K). exists c. split; [right; exact J|exact K]. Qed.
Lemma only_in_l l l' c : Forall2 only_scores l l' -> In c l -> exists c', In c' l' /\ only_scores c c'.
Proof. induction 1 as [|a b l l' H F IH]; [intros []|]. intros [->|I]; [exists b; split; [left; reflexivity|exact H]|]. destruct (IH I) as (c' & J & K). exists c'. split; [right; exact J|exact K]. Qed.
Lemma only_live l l' : Forall2 only_scores l l' -> length (live l') = length (live l).
Proof. induction 1 as [|a b l l' (H & _) F IH]; [reflexivity|]. assert (E : r_ignore b = r_ignore a) by (unfold r_ignore; rewrite H; reflexivity). unfold live in *. cbn [filter]. rewrite E. destruct (r_ignore a); cbn [negb length]; congruence. Qed.

Lemma sound_evolves orig p p' : evolves only_scores p p' -> sound orig p -> sound orig p'.
Proof. intros V ((N1 & N2 & H1 & H2 & H3) & FD & CO & SO). pose proof (evolves_keys _ _ _ V) as K. split; [|split; [|split]].
  - split; [exact N1|]. split; [rewrite K; exact N2|]. split; [|split].
    + intros o I. destruct (H1 o I) as (A & l & c & G & J & B & C). split; [exact A|]. destruct (evolves_get _ _ _ _ _ V G) as (l' & G' & F). destruct (only_in_l _ _ _ F J) as (c' & J' & (X & Y & _)). exists l', c'. split; [exact G'|]. split; [exact J'|]. split; congruence.
    + rewrite K. exact H2.
    + intros a l' c' I J. destruct (evolves_in _ _ _ _ _ V I) as (l & I0 & F). destruct (only_in _ _ _ F J) as (c & J0 & (X & Y & _)). pose proof (H3 a l c I0 J0) as R. unfold regs_and_storages in *. rewrite X, Y. exact R.
  - intros a l' I R. destruct (evolves_in _ _ _ _ _ V I) as (l & I0 & F). unfold resolved in R. rewrite (only_live _ _ F) in R. destruct (FD a l I0 R) as (c & t & -> & G). inversion F as [|? c' ? t' (X & _) F']; subst. exists c', t'. split; [reflexivity|]. unfold r_ignore in *. congruence.
  - intros a l' c' I J G. destruct (evolves_in _ _ _ _ _ V I) as (l & I0 & F). destruct (only_in _ _ _ F J) as (c & J0 & (X & _)). unfold r_ignore in *. rewrite X in *. exact (CO a l c I0 J0 G).
  - intros a l' c' r I J G W. destruct (evolves_in _ _ _ _ _ V I) as (l & I0 & F). destruct (only_in _ _ _ F J) as (c & J0 & (X & _)). unfold r_ignore in *. rewrite X in *. exact (SO a l c r I0 J0 G W). Qed.

Lemma rescored_evolves p a p' l : dget p a = Some l -> (1 < length l)%nat -> rescored p a p' -> evolves only_scores p p' /\ exists l', dget p' a = Some l' /\ length l' = length l.
Proof. intros G L (l0 & l1 & G0 & -> & E). rewrite G in G0. injection G0 as <-. split; [apply evolves_dset with l; [apply only_refl|exact G|apply map_erase_only, E|exact L]|].
  exists l1. split; [rewrite dget_dset, Z.eqb_refl; reflexivity|]. rewrite <- (map_length erase l1), E, map_length. reflexivity. Qed.

Lemma run_rule_ok r pass orig cache p a l : sound orig p -> dget p a = Some l -> exists p' c' b, run_rule r pass (collect new_collector (map r_inst orig)) cache p a = Ok (p', c', b).
Proof. intros (O & FD & _) G. destruct cache as [|x cache].
  - destruct (rule_runs r pass (collect new_collector (map r_inst orig)) p a l G (known_of_original r orig p O) FD) as (l' & c' & b & E & _). rewrite E. eauto.
  - rewrite run_rule_unfold. unfold recover_count. cbn [bind]. unfold dget_r. rewrite G. cbn [bind]. destruct (count_candidates _ _ _ _ l) as [l' b]. eauto. Qed.

Lemma read_distance_ok pass col p a l : storages_ok p -> dget p a = Some l -> exists l' b os, read_distance pass col p a = Ok (dset p a l', b) /\ final_scores col p a None l = Ok os /\ length os = length l /\ Forall2 (fun co c' => got_if (key_of RDist pass) (snd co) (fst co) c') (combine l os) l'.
Proof. intros SO G. unfold read_distance, dget_r. rewrite G. cbn [bind]. destruct (finals_ok col p a l (fun c I J r W => SO a l c r (dget_in _ _ _ G) I J W) None) as (os & E).
  pose proof (dist_candidates_spec (key_of RDist pass) col p a l None) as H. rewrite E in H. destruct H as (l' & b & D & L & F). rewrite D. cbn [bind]. exists l', b, os. repeat split; assumption. Qed.

Lemma apply_ok pass orig p ca a l : sound orig p -> dget p a = Some l -> (1 < length l)%nat -> exists p' ca', apply_rules pass (collect new_collector (map r_inst orig)) p ca a = Ok (p', ca').
Proof. intros S G L. unfold apply_rules. set (col := collect new_collector (map r_inst orig)).
  destruct (control_flow_spec pass default_model p a l (proj1 (proj2 (proj2 S))) G) as (l1 & b1 & E1 & _). rewrite E1. cbn [bind].
  destruct (rescored_evolves p a _ l G L (flow_changes _ _ _ _ _ _ E1)) as (V1 & l1' & G1 & L1). pose proof (sound_evolves _ _ _ V1 S) as S1. set (p1 := dset p a l1) in *.
  destruct (run_rule_ok ByCond pass orig (k_cond ca) p1 a l1' S1 G1) as (p2 & c1 & b2 & E2). change (conditional_count pass col (k_cond ca) p1 a) with (run_rule ByCond pass col (k_cond ca) p1 a). fold col in E2. rewrite E2. cbn [bind].
  destruct (rescored_evolves p1 a p2 l1' G1 ltac:(lia) (count_changes _ _ _ _ _ _ _ _ _ E2)) as (V2 & l2 & G2 & L2). pose proof (sound_evolves _ _ _ V2 S1) as S2.
  destruct (run_rule_ok ByInst pass orig (k_inst ca) p2 a l2 S2 G2) as (p3 & c2 & b3 & E3). change (instruction_counting pass col (k_inst ca) p2 a) with (run_rule ByInst pass col (k_inst ca) p2 a). fold col in E3. rewrite E3. cbn [bind].
  destruct (rescored_evolves p2 a p3 l2 G2 ltac:(lia) (count_changes _ _ _ _ _ _ _ _ _ E3)) as (V3 & l3 & G3 & L3). pose proof (sound_evolves _ _ _ V3 S2) as S3.
  destruct (run_rule_ok ByReg pass orig (k_reg ca) p3 a l3 S3 G3) as (p4 & c3 & b4 & E4). change (register_count pass col (k_reg ca) p3 a) with (run_rule ByReg pass col (k_reg ca) p3 a). fold col in E4. rewrite E4. cbn [bind].
  destruct (rescored_evolves p3 a p4 l3 G3 ltac:(lia) (count_changes _ _ _ _ _ _ _ _ _ E4)) as (V4 & l4 & G4 & L4). pose proof (sound_evolves _ _ _ V4 S3) as S4.
  destruct (read_distance_ok pass col p4 a l4 (proj2 (proj2 (proj2 S4))) G4) as (l5 & b5 & os & E5 & _). rewrite E5. cbn [bind]. eauto. Qed.

Lemma single_pass_ok orig p passes : sound orig p -> passes <= 1 -> exists p', rule_recover passes (collect new_collector (map r_inst orig)) p = Ok p'.
Proof. intros S P. unfold rule_recover. revert p S. induction (zrange 0 passes) as [|n l IH]; intros p S; cbn [foldM]; [eauto|].
  assert (W : forall addrs q ca, sound orig q -> (forall a, In a addrs -> dget q a <> None) -> exists q' ca', foldM (visit passes n (collect new_collector (map r_inst orig))) addrs (q, ca) = Ok (q', ca')).
  { clear IH S p. induction addrs as [|a addrs IHa]; intros q ca S K; cbn [foldM]; [eauto|]. unfold visit at 1. unfold dget_r at 1. destruct (dget q a) as [x|] eqn:G; [|destruct (K a (or_introl eq_refl) G)]. cbn [bind].
    destruct (Z.ltb_spec 1 (Z.of_nat (length x))) as [L|L].
    - destruct (apply_ok n orig q ca a x S G ltac:(lia)) as (q' & ca' & E). rewrite E. cbn [bind]. replace (1 <? passes) with false by lia. cbn [bind].
      destruct (rescored_evolves q a q' x G ltac:(lia) (apply_changes _ _ _ _ _ _ _ E)) as (V & _). apply IHa; [exact (sound_evolves _ _ _ V S)|].
      intros b I N. destruct (dget q b) as [y|] eqn:Gb; [|exact (K b (or_intror I) Gb)]. destruct (evolves_get _ _ _ _ _ V Gb) as (y' & Gy & _). congruence.
    - cbn [bind]. apply IHa; [exact S|]. intros b I. apply K. right; exact I. }
  unfold one_pass at 1. destruct (W (dkeys p) p (mkCaches [] [] []) S) as (q & ca & E).
  { intros a I N. apply dget_none in N. exact (N I). }
  rewrite E. cbn [bind]. apply IH. destruct (visits_evolve _ _ _ _ _ _ _ _ E) as [_ V]. exact (sound_evolves _ _ _ (V P) S). Qed.
