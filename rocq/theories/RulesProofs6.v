(** Lemmas about several passes of the rule-driven recovery, and about what one
    pass leaves behind. *)
From Verif Require Import ListLemmas FlipModel FlipProofs InstModel MetaModel MetaSpec MetaProofs MetaProps RecModel RecSpec RecProofs RulesModel RulesSpec RulesProofs RulesProofs2 RulesProofs3 RulesProofs4 RulesProofs5.
From Coq Require Import ZifyBool ZifyNat Permutation Lqa.

(** *** Pass [n] changes scores of pass [n] only *)
Definition touched (n : Z) (c c' : rcand) : Prop :=
  only_scores c c' /\ forall k q, k / 5 <> n -> (In (k, q) (r_scores c') <-> In (k, q) (r_scores c)).
Lemma touched_refl n c : touched n c c. Proof. split; [apply only_refl|tauto]. Qed.
Lemma touched_trans n a b c : touched n a b -> touched n b c -> touched n a c.
Proof. intros [A B] [C D]. split; [exact (only_trans _ _ _ A C)|]. intros k q N. rewrite D, B by exact N. tauto. Qed.
Lemma in_dset_other {A} (d : dict A) k x k' x' : k' <> k -> In (k', x') (dset d k x) <-> In (k', x') d.
Proof. intros N. induction d as [|[j y] d IH]; cbn [dset In].
  - split; [intros [E|[]]; injection E as -> _; congruence|intros []].
  - destruct (Z.eqb_spec k j) as [->|]; cbn [In]; [|rewrite IH; tauto]. split; intros [E|E]; auto; injection E as -> _; congruence. Qed.
Lemma key_div rule n : 0 <= rule < 5 -> key_of rule n / 5 = n.
Proof. intros H. unfold key_of. symmetry. apply (Z.div_unique _ 5 _ rule); lia. Qed.
Lemma update_touched rule n c q c' b : 0 <= rule < 5 -> update_score (key_of rule n) c q = (c', b) -> touched n c c'.
Proof. intros R. unfold update_score.
  assert (T : touched n c (with_scores c (dset (r_scores c) (key_of rule n) q))).
  { split; [repeat split|]. intros k x N. cbn [with_scores r_scores]. apply in_dset_other. intros ->. apply N, key_div, R. }
  destruct (dget (r_scores c) (key_of rule n)) as [old|]; [destruct (Qeq_bool q old)|]; intros E; injection E as <- <-; [apply touched_refl|exact T|exact T]. Qed.
Lemma updates_touched rule n l : 0 <= rule < 5 -> forall qs l' b, update_scores (key_of rule n) qs l = (l', b) -> Forall2 (touched n) l l'.
Proof. intros R. induction l as [|c l IH]; intros [|q qs] l' b; cbn [update_scores]; try (intros E; injection E as <- <-).
  - constructor. - constructor.
  - constructor; [apply touched_refl|]. clear. induction l; constructor; [apply touched_refl|assumption].
  - destruct (update_score (key_of rule n) c q) as [c1 b1] eqn:U. destruct (update_scores (key_of rule n) qs l) as [r b2] eqn:E. intros X. injection X as <- <-.
    constructor; [exact (update_touched _ _ _ _ _ _ R U)|exact (IH _ _ _ E)]. Qed.
Lemma counts_touched rule n sc f extra l : 0 <= rule < 5 -> forall l' b, count_candidates (key_of rule n) sc f extra l = (l', b) -> Forall2 (touched n) l l'.
Proof. intros R. induction l as [|c l IH]; intros l' b; cbn [count_candidates]; [intros E; injection E as <- <-; constructor|].
  destruct (count_candidates (key_of rule n) sc f extra l) as [x b2] eqn:E. destruct (r_ignore c).
  - intros X. injection X as <- <-. constructor; [apply touched_refl|exact (IH _ _ eq_refl)].
  - destruct (update_score (key_of rule n) c (count_score sc f extra c)) as [c1 b1] eqn:U. intros X. injection X as <- <-. constructor; [exact (update_touched _ _ _ _ _ _ R U)|exact (IH _ _ eq_refl)]. Qed.
Lemma back_touched rule n p reads positions : 0 <= rule < 5 -> forall rs best w c u c' w' b, look_back (key_of rule n) p reads positions rs best w c u = Ok (c', w', b) -> touched n c c'.
Proof. intros R. induction positions as [|pos rest IH]; intros rs best w c u c' w' b; cbn [look_back]; [intros E; injection E as <- <- <-; apply touched_refl|].
  destruct (dget p pos) as [prev|]; [|apply IH]. destruct (foldM (dist_step reads (candidate_count prev)) prev (rs, w)) as [[rs' w1]|e]; cbn [bind]; [|discriminate].
  destruct (reads_score rs' reads) as [q|e]; cbn [bind]; [|discriminate]. destruct (Qle_bool 1 (qmax q best)).
  - destruct (update_score (key_of rule n) c 1) as [c1 b1] eqn:U. intros E. injection E as <- <- <-. exact (update_touched _ _ _ _ _ _ R U).
  - destruct (update_score (key_of rule n) c (qmax q best)) as [c1 b1] eqn:U. intros E. exact (touched_trans _ _ _ _ (update_touched _ _ _ _ _ _ R U) (IH _ _ _ _ _ _ _ _ E)). Qed.
Lemma dists_touched n col p a l : forall w l' b, dist_candidates (key_of RDist n) col p a w l = Ok (l', b) -> Forall2 (touched n) l l'.
Proof. assert (R : 0 <= RDist < 5) by (unfold RDist; lia). induction l as [|c l IH]; intros w l' b; cbn [dist_candidates]; [intros E; injection E as <- <-; constructor|].
  destruct (dist_candidate (key_of RDist n) col p a w c) as [[[c1 w1] b1]|e] eqn:D; cbn [bind]; [|discriminate].
  destruct (dist_candidates (key_of RDist n) col p a w1 l) as [[r b2]|e] eqn:E; cbn [bind]; [|discriminate]. intros X. injection X as <- <-. constructor; [|exact (IH _ _ _ E)].
  revert D. unfold dist_candidate. destruct (d_ignore (r_inst c)); [|destruct (d_used (r_inst c))].
  - destruct (update_score (key_of RDist n) c 0) as [c2 b3] eqn:U. cbn [fst]. intros X. injection X as <- <- <-. exact (update_touched _ _ _ _ _ _ R U).
  - destruct (update_score (key_of RDist n) c EPSILON) as [c2 b3] eqn:U. intros X. injection X as <- <- <-. exact (update_touched _ _ _ _ _ _ R U).
  - apply back_touched, R. Qed.

Definition retouched (n : Z) (p : rprogram) (a : Z) (p' : rprogram) : Prop := exists l l', dget p a = Some l /\ p' = dset p a l' /\ Forall2 (touched n) l l'.
Lemma retouched_trans n p a p1 p2 : retouched n p a p1 -> retouched n p1 a p2 -> retouched n p a p2.
Proof. intros (l & l1 & G & -> & E) (l' & l2 & G' & -> & E'). rewrite dget_dset, Z.eqb_refl in G'. injection G' as <-. exists l, l2. split; [exact G|]. split; [apply dset_dset|exact (forall2_trans _ (touched_trans n) _ _ _ E E')]. Qed.
Lemma flow_touched n m p a p1 b : control_flow n m p a = Ok (p1, b) -> retouched n p a p1.
Proof. unfold control_flow. destruct (conditional_scores m p a) as [cs|e]; cbn [bind]; [|discriminate]. unfold dget_r. destruct (dget p a) as [l|] eqn:G; cbn [bind]; [|discriminate].
  destruct (mapM (cfg_score m p cs) l) as [qs|e]; cbn [bind]; [|discriminate]. destruct (update_scores (key_of RCfg n) qs l) as [l' b'] eqn:U. intros X. injection X as <- <-.
  exists l, l'. split; [exact G|]. split; [reflexivity|]. apply (updates_touched RCfg n l) in U; [exact U|unfold RCfg; lia]. Qed.
Lemma count_touched r n col cache p a p1 c1 b : run_rule r n col cache p a = Ok (p1, c1, b) -> retouched n p a p1.
Proof. rewrite run_rule_unfold. unfold recover_count.
  destruct (match cache with [] => remaining_scores (values_of r) (counts_of r col) p | _ => Ok cache end) as [sc|e]; cbn [bind]; [|discriminate].
  unfold dget_r. destruct (dget p a) as [l|] eqn:G; cbn [bind]; [|discriminate]. destruct (count_candidates (key r n) sc (values_of r) (added r) l) as [l' b'] eqn:C. intros X. injection X as <- <- <-.
  exists l, l'. split; [exact G|]. split; [reflexivity|]. destruct r; cbn [key] in C; [apply (counts_touched RCond) in C|apply (counts_touched RInst) in C|apply (counts_touched RReg) in C]; try exact C; unfold RCond, RInst, RReg; lia. Qed.
Lemma dist_touched n col p a p1 b : read_distance n col p a = Ok (p1, b) -> retouched n p a p1.
Proof. unfold read_distance, dget_r. destruct (dget p a) as [l|] eqn:G; cbn [bind]; [|discriminate].
  destruct (dist_candidates (key_of RDist n) col p a None l) as [[l' b']|e] eqn:D; cbn [bind]; [|discriminate]. intros X. injection X as <- <-.
  exists l, l'. split; [exact G|]. split; [reflexivity|exact (dists_touched _ _ _ _ _ _ _ _ D)]. Qed.
Lemma apply_touched n col p ca a p' ca' : apply_rules n col p ca a = Ok (p', ca') -> retouched n p a p'.
Proof. unfold apply_rules. destruct (control_flow n default_model p a) as [[p1 b1]|e] eqn:E1; cbn [bind]; [|discriminate].
  change (conditional_count n col (k_cond ca) p1 a) with (run_rule ByCond n col (k_cond ca) p1 a). destruct (run_rule ByCond n col (k_cond ca) p1 a) as [[[p2 c1] b2]|e] eqn:E2; cbn [bind]; [|discriminate].
  change (instruction_counting n col (k_inst ca) p2 a) with (run_rule ByInst n col (k_inst ca) p2 a). destruct (run_rule ByInst n col (k_inst ca) p2 a) as [[[p3 c2] b3]|e] eqn:E3; cbn [bind]; [|discriminate].
  change (register_count n col (k_reg ca) p3 a) with (run_rule ByReg n col (k_reg ca) p3 a). destruct (run_rule ByReg n col (k_reg ca) p3 a) as [[[p4 c3] b4]|e] eqn:E4; cbn [bind]; [|discriminate].
  destruct (read_distance n col p4 a) as [[p5 b5]|e] eqn:E5; cbn [bind]; [|discriminate]. intros X. injection X as <- <-.
  eapply retouched_trans; [exact (flow_touched _ _ _ _ _ _ E1)|]. eapply retouched_trans; [exact (count_touched _ _ _ _ _ _ _ _ _ E2)|].
  eapply retouched_trans; [exact (count_touched _ _ _ _ _ _ _ _ _ E3)|]. eapply retouched_trans; [exact (count_touched _ _ _ _ _ _ _ _ _ E4)|]. exact (dist_touched _ _ _ _ _ _ E5). Qed.

(** *** What several passes discard *)
Definition bad (c : rcand) : Prop := exists k q, In (k, q) (r_scores c) /\ (q <= 0)%Q.
Lemma discard_spec c : r_scores (discard c) = r_scores c /\ (r_ignore (discard c) = true <-> r_ignore c = true \/ bad c).
Proof. unfold discard. destruct (existsb (fun kv => Qle_bool (snd kv) 0) (r_scores c)) eqn:E.
  - split; [reflexivity|]. unfold r_ignore. cbn [r_inst set_ignore d_ignore]. split; [|auto]. intros _. right. apply existsb_exists in E. destruct E as ([k q] & I & L). exists k, q. split; [exact I|]. apply Qle_bool_iff, L.
  - split; [reflexivity|]. split; [auto|]. intros [H|(k & q & I & L)]; [exact H|]. exfalso. assert (T : existsb (fun kv => Qle_bool (snd kv) 0) (r_scores c) = true) by (apply existsb_exists; exists (k, q); split; [exact I|apply Qle_bool_iff, L]). congruence. Qed.
(** [c] before, [c'] after the passes below [n]. *)
Definition judged (n : Z) (c c' : rcand) : Prop :=
  (r_ignore c' = true <-> r_ignore c = true \/ bad c') /\ forall k q, In (k, q) (r_scores c') -> (q <= 0)%Q -> k / 5 < n.
Lemma judged_step n c c1 c2 : judged n c c1 -> touched n c1 c2 -> judged (n + 1) c (discard c2).
Proof. intros [J B] [(O & _) T]. destruct (discard_spec c2) as [S D]. split.
  - rewrite D. assert (Ig : r_ignore c2 = r_ignore c1) by (unfold r_ignore; rewrite O; reflexivity). rewrite Ig, J. unfold bad. rewrite S. split; [|tauto].
    intros [[H|(k & q & I & L)]|H]; [auto| |auto]. right. exists k, q. split; [|exact L]. apply T; [pose proof (B k q I L); lia|exact I].
  - rewrite S. intros k q I L. destruct (Z.eq_dec (k / 5) n) as [E|N]; [lia|]. apply T in I; [|exact N]. pose proof (B k q I L). lia. Qed.

Lemma visit_touched passes n col q ca a q' ca' : 1 < passes -> visit passes n col (q, ca) a = Ok (q', ca') ->
  exists l, dget q a = Some l /\ ((length l <= 1)%nat /\ q' = q \/ exists l', Forall2 (touched n) l l' /\ q' = dset q a (map discard l')).
Proof. intros P. unfold visit, dget_r. destruct (dget q a) as [l|] eqn:G; cbn [bind]; [|discriminate]. destruct (Z.ltb_spec 1 (Z.of_nat (length l))) as [L|L].
  - destruct (apply_rules n col q ca a) as [[p1 ca1]|e] eqn:A; cbn [bind]; [|discriminate]. destruct (apply_touched _ _ _ _ _ _ _ A) as (l0 & l1 & G0 & -> & E). rewrite G in G0. injection G0 as <-.
    replace (1 <? passes) with true by lia. rewrite dget_dset, Z.eqb_refl. cbn [bind]. intros X. injection X as <- <-. rewrite dset_dset. exists l. split; [reflexivity|]. right. exists l1. split; [exact E|reflexivity].
  - intros X. injection X as <- <-. exists l. split; [reflexivity|]. left. split; [lia|reflexivity]. Qed.

Lemma visits_judged passes n col p : 1 < passes -> forall addrs q ca q' ca', NoDup addrs ->
  (forall a l, dget p a = Some l -> (1 < length l)%nat -> exists l', dget q a = Some l' /\ (In a addrs -> Forall2 (judged n) l l') /\ (~ In a addrs -> Forall2 (judged (n + 1)) l l')) ->
  foldM (visit passes n col) addrs (q, ca) = Ok (q', ca') ->
  forall a l, dget p a = Some l -> (1 < length l)%nat -> exists l', dget q' a = Some l' /\ Forall2 (judged (n + 1)) l l'.
Proof. intros P. induction addrs as [|b addrs IH]; intros q ca q' ca' N H; cbn [foldM].
  - intros X. injection X as <- <-. intros a l G L. destruct (H a l G L) as (l' & G' & _ & J). exists l'. split; [exact G'|]. apply J. intros [].
  - destruct (visit passes n col (q, ca) b) as [[q1 ca1]|e] eqn:V; cbn [bind]; [|discriminate]. inversion N as [|? ? Nb N']; subst. apply IH; [exact N'|]. clear IH.
    destruct (visit_touched _ _ _ _ _ _ _ _ P V) as (lb & Gb & D). intros a l G L. destruct (H a l G L) as (l' & G' & J1 & J2). destruct (Z.eq_dec a b) as [->|Nab].
    + rewrite G' in Gb. injection Gb as <-. pose proof (J1 (or_introl eq_refl)) as J. destruct D as [[S _]|(l2 & T & ->)]; [pose proof (forall2_len _ _ _ J); lia|].
      exists (map discard l2). split; [rewrite dget_dset, Z.eqb_refl; reflexivity|]. split; [contradiction|]. intros _. clear - J T. revert l2 T. induction J as [|c c1 l l1 J F IH]; intros l2 T; inversion T as [|? c2 ? ? T0 T']; subst; cbn [map]; constructor; [exact (judged_step _ _ _ _ J T0)|exact (IH _ T')].
    + exists l'. split; [destruct D as [[_ ->]|(l2 & _ & ->)]; [exact G'|rewrite dget_dset_other by exact Nab; exact G']|]. split; [intros I; apply J1; right; exact I|]. intros I. apply J2. intros [E|E]; [congruence|contradiction]. Qed.

Lemma passes_judged passes col (p : rprogram) : 1 < passes -> NoDup (dkeys p) -> forall m n (q q' : rprogram), Z.of_nat m = passes - n -> dkeys q = dkeys p ->
  (forall a l, dget p a = Some l -> (1 < length l)%nat -> exists l', dget q a = Some l' /\ Forall2 (judged n) l l') ->
  foldM (one_pass passes col) (zrange n passes) q = Ok q' ->
  forall a l, dget p a = Some l -> (1 < length l)%nat -> exists l', dget q' a = Some l' /\ Forall2 (judged passes) l l'.
Proof. intros P N. induction m as [|m IH]; intros n q q' M K H.
  - replace (zrange n passes) with (@nil Z) by (unfold zrange; replace (Z.to_nat (passes - n)) with O by lia; reflexivity). cbn [foldM]. intros X. injection X as <-. replace passes with n by lia. exact H.
  - rewrite zrange_cons by lia. cbn [foldM]. unfold one_pass at 1. destruct (foldM (visit passes n col) (dkeys q) (q, mkCaches [] [] [])) as [[q1 ca]|e] eqn:V; cbn [bind]; [|intros X; discriminate X].
    intros F. apply (IH (n + 1) q1 q'); [lia| | |exact F].
    + destruct (visits_evolve _ _ _ _ _ _ _ _ V) as [E _]. rewrite <- K. exact (evolves_keys _ _ _ E).
    + apply (visits_judged passes n col p P (dkeys q) q (mkCaches [] [] []) q1 ca); [rewrite K; exact N| |exact V].
      intros a l G L. destruct (H a l G L) as (l' & G' & J). exists l'. split; [exact G'|]. split; [auto|]. intros I. exfalso. apply I. rewrite K. apply dget_in in G. apply (in_map fst) in G. exact G. Qed.

Lemma recover_judged passes col p p' a l : 2 <= passes -> NoDup (dkeys p) -> rule_recover passes col p = Ok p' -> 
  (forall b lb c k q, In (b, lb) p -> In c lb -> In (k, q) (r_scores c) -> (0 < q)%Q) -> dget p a = Some l -> (1 < length l)%nat ->
  exists l', dget p' a = Some l' /\ Forall2 (judged passes) l l'.
Proof. intros P N E H. unfold rule_recover in E. revert a l. apply (passes_judged passes col p ltac:(lia) N (Z.to_nat passes) 0 p p'); [lia|reflexivity| |exact E].
  intros a l G L. exists l. split; [exact G|]. apply dget_in in G. assert (B : forall c, In c l -> judged 0 c c).
  { intros c I. assert (X : forall k q, In (k, q) (r_scores c) -> (q <= 0)%Q -> False) by (intros k q J Q; pose proof (H _ _ _ _ _ G I J); lra).
    split; [|intros k q J Q; destruct (X k q J Q)]. split; [auto|]. intros [A|(k & q & J & Q)]; [exact A|destruct (X k q J Q)]. }
  clear - B. induction l as [|c l IH]; constructor; [apply B; left; reflexivity|]. apply IH. intros c' I. apply B. right; exact I. Qed.
