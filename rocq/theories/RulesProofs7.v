(** What one pass leaves behind: every rule's score is the one the rule alone gives. *)
From Verif Require Import ListLemmas FlipModel FlipProofs InstModel MetaModel MetaSpec MetaProofs MetaProps RecModel RecSpec RecProofs RulesModel RulesSpec RulesProofs RulesProofs2 RulesProofs3 RulesProofs4 RulesProofs5.
From Coq Require Import ZifyBool ZifyNat Permutation Lqa.

Definition effect (k : Z) (os : list (option Q)) (l l' : list rcand) : Prop :=
  length os = length l /\ Forall2 (fun co c' => got_if k (snd co) (fst co) c') (combine l os) l'.
Lemma number_refl x : same_number x x. Proof. destruct x; cbn; [reflexivity|exact I]. Qed.
Lemma number_trans x y z : same_number x y -> same_number y z -> same_number x z.
Proof. destruct x, y, z; cbn [same_number]; try tauto. intros A B. rewrite A. exact B. Qed.
Lemma agree_trans k a b c : agree k a b -> agree k b c -> agree k a c. Proof. apply number_trans. Qed.
Lemma agree_refl k l : Forall2 (agree k) l l. Proof. induction l; constructor; [apply number_refl|assumption]. Qed.

Lemma effect_key k os : forall l1 l2 l1' l2', Forall2 (agree k) l1 l2 -> effect k os l1 l1' -> effect k os l2 l2' -> Forall2 (agree k) l1' l2'.
Proof. induction os as [|o os IH]; intros l1 l2 l1' l2' A [L1 F1] [L2 F2]; destruct A as [|c1 c2 l1 l2 A0 A]; try discriminate; cbn [combine] in F1, F2; inversion F1 as [|? d1 ? m1 G1 F1']; inversion F2 as [|? d2 ? m2 G2 F2']; subst; constructor.
  - cbn [fst snd] in G1, G2. destruct o as [q|]; cbn [got_if] in G1, G2; [|subst; exact A0].
    destruct G1 as (_ & _ & _ & (x & X & Ex) & _), G2 as (_ & _ & _ & (y & Y & Ey) & _). unfold agree. rewrite X, Y. cbn [same_number]. rewrite Ex, Ey. reflexivity.
  - apply (IH l1 l2); [exact A| |]; split; try assumption; cbn [length] in *; lia. Qed.
Lemma effect_other k k' os : k' <> k -> forall l l', effect k os l l' -> Forall2 (agree k') l l'.
Proof. intros N. induction os as [|o os IH]; intros [|c l] l' [L F]; try discriminate; cbn [combine] in F; inversion F as [|? d ? m G F']; subst; constructor.
  - cbn [fst snd] in G. destruct o as [q|]; cbn [got_if] in G; [|subst; apply number_refl]. destruct G as (_ & _ & _ & _ & O). unfold agree. rewrite (O k' N). apply number_refl.
  - apply IH. split; [cbn [length] in L; lia|exact F']. Qed.

Lemma mapM_len {A B} (f : A -> result B) l : forall m, mapM f l = Ok m -> length m = length l.
Proof. induction l as [|a l IH]; intros m; cbn [mapM]; [intros E; injection E as <-; reflexivity|]. destruct (f a); cbn [bind]; [|discriminate]. destruct (mapM f l); cbn [bind]; [|discriminate]. intros E. injection E as <-. cbn [length]. rewrite (IH _ eq_refl). reflexivity. Qed.
Lemma got_some k l : forall qs l', Forall2 (fun cq c' => got k (snd cq) (fst cq) c') (combine l qs) l' -> Forall2 (fun co c' => got_if k (snd co) (fst co) c') (combine l (map Some qs)) l'.
Proof. induction l as [|c l IH]; intros [|q qs] l' F; cbn [combine map] in *; inversion F; subst; constructor; auto. Qed.
Lemma flow_effect k l qs l' b : length qs = length l -> update_scores k qs l = (l', b) -> effect k (map Some qs) l l'.
Proof. intros L U. destruct (update_scores_spec k l qs L) as (l2 & b2 & U2 & F & _). rewrite U in U2. injection U2 as <- <-. split; [rewrite map_length; exact L|apply got_some, F]. Qed.

Lemma same_shape p q a lp lq : shape q = shape p -> dget p a = Some lp -> dget q a = Some lq -> map erase lq = map erase lp.
Proof. intros S G G'. pose proof (shape_get p a) as A. pose proof (shape_get q a) as B. rewrite S in B. rewrite G in A. rewrite G' in B. cbn [option_map] in *. congruence. Qed.
Lemma erase_len l l' : map erase l' = map erase l -> length l' = length l.
Proof. intros E. rewrite <- (map_length erase l'), E, map_length. reflexivity. Qed.

Lemma flow_alone pass m p q a lp lq q' b : shape q = shape p -> dget p a = Some lp -> dget q a = Some lq -> control_flow pass m q a = Ok (q', b) ->
  exists os lq' lp' b', q' = dset q a lq' /\ shape q' = shape p /\ effect (key_of RCfg pass) os lq lq' /\ control_flow pass m p a = Ok (dset p a lp', b') /\ effect (key_of RCfg pass) os lp lp'.
Proof. intros S Gp Gq. pose proof (same_shape _ _ _ _ _ S Gp Gq) as Er. unfold control_flow, dget_r. rewrite Gp, Gq.
  rewrite <- (conditional_shape m q), S, conditional_shape. destruct (conditional_scores m p a) as [cs|e]; cbn [bind]; [|discriminate].
  rewrite <- (cfg_shape m q cs lq), S, Er, cfg_shape. destruct (mapM (cfg_score m p cs) lp) as [qs|e] eqn:M; cbn [bind]; [|discriminate].
  apply mapM_len in M. destruct (update_scores (key_of RCfg pass) qs lq) as [lq' b1] eqn:U. intros X. injection X as <- <-. destruct (update_scores (key_of RCfg pass) qs lp) as [lp' b2] eqn:U'.
  exists (map Some qs), lq', lp', b2. split; [reflexivity|]. split; [rewrite (shape_dset q a lq lq' Gq (updates_erase _ _ _ _ _ U)); exact S|]. split; [apply (flow_effect _ _ _ _ b1); [rewrite M; symmetry; exact (erase_len _ _ Er)|exact U]|]. split; [reflexivity|apply (flow_effect _ _ _ _ b2); assumption]. Qed.

Definition cache_ok (r : crule) (col : collector) (p : rprogram) (cache : dict Q) : Prop := cache = [] \/ remaining_scores (values_of r) (counts_of r col) p = Ok cache.
Definition count_os (sc : dict Q) (r : crule) (c : rcand) : option Q := if r_ignore c then None else Some (count_score sc (values_of r) (added r) c).
Lemma count_os_erase sc r c : count_os sc r (erase c) = count_os sc r c.
Proof. unfold count_os, count_score. rewrite values_erase. destruct r; reflexivity. Qed.
Lemma count_effect k sc r l : forall l' b, count_candidates k sc (values_of r) (added r) l = (l', b) -> effect k (map (count_os sc r) l) l l'.
Proof. induction l as [|c l IH]; intros l' b; cbn [count_candidates]; [intros E; injection E as <- <-; split; [reflexivity|constructor]|].
  destruct (count_candidates k sc (values_of r) (added r) l) as [x b2] eqn:E. destruct (IH _ _ eq_refl) as [L F]. cbn [map]. unfold count_os at 1. destruct (r_ignore c) eqn:I.
  - intros X. injection X as <- <-. split; [cbn [length]; congruence|]. cbn [combine]. constructor; [|exact F]. cbn [fst snd]. reflexivity.
  - destruct (update_score_spec k c (count_score sc (values_of r) (added r) c)) as (c1 & b1 & U & G & _). rewrite U. intros X. injection X as <- <-. split; [cbn [length]; congruence|]. cbn [combine]. constructor; [|exact F]. cbn [fst snd]. exact G. Qed.
Lemma count_alone r pass col cache p q a lp lq q' cache' b : shape q = shape p -> dget p a = Some lp -> dget q a = Some lq -> cache_ok r col p cache -> run_rule r pass col cache q a = Ok (q', cache', b) ->
  cache_ok r col p cache' /\ exists os lq' lp' b', q' = dset q a lq' /\ shape q' = shape p /\ effect (key r pass) os lq lq' /\ run_rule r pass col [] p a = Ok (dset p a lp', cache', b') /\ effect (key r pass) os lp lp'.
Proof. intros S Gp Gq K. pose proof (same_shape _ _ _ _ _ S Gp Gq) as Er. rewrite !run_rule_unfold. unfold recover_count, dget_r. rewrite Gp, Gq.
  assert (R : match cache with [] => remaining_scores (values_of r) (counts_of r col) q | _ => Ok cache end = remaining_scores (values_of r) (counts_of r col) p).
  { rewrite <- (remaining_shape r _ q), S, remaining_shape. destruct K as [->|K]; [reflexivity|]. rewrite K. destruct cache; reflexivity. }
  rewrite R. destruct (remaining_scores (values_of r) (counts_of r col) p) as [sc|e] eqn:C; cbn [bind]; [|discriminate].
  destruct (count_candidates (key r pass) sc (values_of r) (added r) lq) as [lq' b1] eqn:U. intros X. injection X as <- <- <-. destruct (count_candidates (key r pass) sc (values_of r) (added r) lp) as [lp' b2] eqn:U'.
  split; [right; exact C|]. exists (map (count_os sc r) lp), lq', lp', b2. split; [reflexivity|]. split; [rewrite (shape_dset q a lq lq' Gq (counts_erase _ _ _ _ _ _ _ U)); exact S|]. split; [|split; [reflexivity|exact (count_effect _ _ _ _ _ _ U')]].
  replace (map (count_os sc r) lp) with (map (count_os sc r) lq); [exact (count_effect _ _ _ _ _ _ U)|].
  assert (Q : forall l, map (count_os sc r) l = map (count_os sc r) (map erase l)) by (intros l; rewrite map_map; apply map_ext; intros c; symmetry; apply count_os_erase).
  rewrite (Q lq), (Q lp), Er. reflexivity. Qed.

Lemma dist_alone pass col p q a lp lq q' b : shape q = shape p -> dget p a = Some lp -> dget q a = Some lq -> read_distance pass col q a = Ok (q', b) ->
  exists os lq' lp' b', q' = dset q a lq' /\ shape q' = shape p /\ effect (key_of RDist pass) os lq lq' /\ read_distance pass col p a = Ok (dset p a lp', b') /\ effect (key_of RDist pass) os lp lp'.
Proof. intros S Gp Gq. pose proof (same_shape _ _ _ _ _ S Gp Gq) as Er. unfold read_distance, dget_r. rewrite Gp, Gq. cbn [bind].
  pose proof (dist_candidates_spec (key_of RDist pass) col q a lq None) as Hq. pose proof (dist_candidates_spec (key_of RDist pass) col p a lp None) as Hp.
  rewrite <- (final_shape col q a lq), S, Er, final_shape in Hq. destruct (final_scores col p a None lp) as [os|e]; [|rewrite Hq; discriminate].
  destruct Hq as (lq' & b1 & Dq & Lq & Fq), Hp as (lp' & b2 & Dp & Lp & Fp). rewrite Dp, Dq. cbn [bind]. intros X. injection X as <- <-.
  exists os, lq', lp', b2. split; [reflexivity|]. split; [rewrite (shape_dset q a lq lq' Gq (dists_erase _ _ _ _ _ _ _ _ Dq)); exact S|]. split; [split; assumption|]. split; [reflexivity|split; assumption]. Qed.

(** *** One visit *)
Definition alone (col : collector) (p : rprogram) (a : Z) (l' : list rcand) : Prop :=
  (exists la b, control_flow 0 default_model p a = Ok (dset p a la, b) /\ Forall2 (agree (key_of RCfg 0)) la l') /\
  (forall r, exists la cache b, run_rule r 0 col [] p a = Ok (dset p a la, cache, b) /\ Forall2 (agree (key r 0)) la l') /\
  (exists la b, read_distance 0 col p a = Ok (dset p a la, b) /\ Forall2 (agree (key_of RDist 0)) la l').
Definition caches_ok (col : collector) (p : rprogram) (ca : caches) : Prop := cache_ok ByCond col p (k_cond ca) /\ cache_ok ByInst col p (k_inst ca) /\ cache_ok ByReg col p (k_reg ca).

Lemma apply_alone col p q ca a l q' ca' : shape q = shape p -> dget p a = Some l -> dget q a = Some l -> caches_ok col p ca -> apply_rules 0 col q ca a = Ok (q', ca') ->
  caches_ok col p ca' /\ shape q' = shape p /\ exists l', q' = dset q a l' /\ alone col p a l'.
Proof. intros S Gp Gq (K1 & K2 & K3). unfold apply_rules. destruct (control_flow 0 default_model q a) as [[q1 b1]|e] eqn:E1; cbn [bind]; [|discriminate].
  change (conditional_count 0 col (k_cond ca) q1 a) with (run_rule ByCond 0 col (k_cond ca) q1 a). destruct (run_rule ByCond 0 col (k_cond ca) q1 a) as [[[q2 c1] b2]|e] eqn:E2; cbn [bind]; [|discriminate].
  change (instruction_counting 0 col (k_inst ca) q2 a) with (run_rule ByInst 0 col (k_inst ca) q2 a). destruct (run_rule ByInst 0 col (k_inst ca) q2 a) as [[[q3 c2] b3]|e] eqn:E3; cbn [bind]; [|discriminate].
  change (register_count 0 col (k_reg ca) q3 a) with (run_rule ByReg 0 col (k_reg ca) q3 a). destruct (run_rule ByReg 0 col (k_reg ca) q3 a) as [[[q4 c3] b4]|e] eqn:E4; cbn [bind]; [|discriminate].
  destruct (read_distance 0 col q4 a) as [[q5 b5]|e] eqn:E5; cbn [bind]; [|discriminate]. intros X. injection X as <- <-.
  destruct (flow_alone _ _ p q a l l q1 b1 S Gp Gq E1) as (o1 & l1 & m1 & d1 & -> & S1 & F1 & A1 & H1).
  assert (G1 : dget (dset q a l1) a = Some l1) by (rewrite dget_dset, Z.eqb_refl; reflexivity).
  destruct (count_alone ByCond 0 col _ p _ a l l1 q2 c1 b2 S1 Gp G1 K1 E2) as (K1' & o2 & l2 & m2 & d2 & -> & S2 & F2 & A2 & H2). rewrite dset_dset in *.
  assert (G2 : dget (dset q a l2) a = Some l2) by (rewrite dget_dset, Z.eqb_refl; reflexivity).
  destruct (count_alone ByInst 0 col _ p _ a l l2 q3 c2 b3 S2 Gp G2 K2 E3) as (K2' & o3 & l3 & m3 & d3 & -> & S3 & F3 & A3 & H3). rewrite dset_dset in *.
  assert (G3 : dget (dset q a l3) a = Some l3) by (rewrite dget_dset, Z.eqb_refl; reflexivity).
  destruct (count_alone ByReg 0 col _ p _ a l l3 q4 c3 b4 S3 Gp G3 K3 E4) as (K3' & o4 & l4 & m4 & d4 & -> & S4 & F4 & A4 & H4). rewrite dset_dset in *.
  assert (G4 : dget (dset q a l4) a = Some l4) by (rewrite dget_dset, Z.eqb_refl; reflexivity).
  destruct (dist_alone 0 col p _ a l l4 q5 b5 S4 Gp G4 E5) as (o5 & l5 & m5 & d5 & -> & S5 & F5 & A5 & H5). rewrite dset_dset in *.
  split; [split; [exact K1'|split; [exact K2'|exact K3']]|]. split; [exact S5|]. exists l5. split; [reflexivity|].
  cbn [key] in *.
  assert (T : forall k la lb lc, Forall2 (agree k) la lb -> Forall2 (agree k) lb lc -> Forall2 (agree k) la lc) by (intros k la lb lc; apply forall2_trans, agree_trans).
  split; [|split].
  - exists m1, d1. split; [exact A1|]. eapply T; [exact (effect_key _ _ _ _ _ _ (agree_refl _ l) H1 F1)|].
    eapply T; [eapply effect_other; [|exact F2]; discriminate|]. eapply T; [eapply effect_other; [|exact F3]; discriminate|]. eapply T; [eapply effect_other; [|exact F4]; discriminate|]. eapply effect_other; [|exact F5]; discriminate.
  - intros [| |].
    + exists m2, c1, d2. split; [exact A2|]. cbn [key].
      eapply T; [refine (effect_key _ _ _ _ _ _ _ H2 F2); eapply effect_other; [|exact F1]; discriminate|].
      eapply T; [eapply effect_other; [|exact F3]; discriminate|]. eapply T; [eapply effect_other; [|exact F4]; discriminate|]. eapply effect_other; [|exact F5]; discriminate.
    + exists m3, c2, d3. split; [exact A3|]. cbn [key].
      eapply T; [refine (effect_key _ _ _ _ _ _ _ H3 F3); eapply T; [eapply effect_other; [|exact F1]; discriminate|eapply effect_other; [|exact F2]; discriminate]|].
      eapply T; [eapply effect_other; [|exact F4]; discriminate|]. eapply effect_other; [|exact F5]; discriminate.
    + exists m4, c3, d4. split; [exact A4|]. cbn [key].
      eapply T; [refine (effect_key _ _ _ _ _ _ _ H4 F4); eapply T; [eapply effect_other; [|exact F1]; discriminate|eapply T; [eapply effect_other; [|exact F2]; discriminate|eapply effect_other; [|exact F3]; discriminate]]|].
      eapply effect_other; [|exact F5]; discriminate.
  - exists m5, d5. split; [exact A5|]. refine (effect_key _ _ _ _ _ _ _ H5 F5).
    eapply T; [eapply effect_other; [|exact F1]; discriminate|]. eapply T; [eapply effect_other; [|exact F2]; discriminate|]. eapply T; [eapply effect_other; [|exact F3]; discriminate|]. eapply effect_other; [|exact F4]; discriminate. Qed.

Lemma visits_alone col p : forall addrs (q : rprogram) ca q' ca', NoDup addrs -> shape q = shape p -> caches_ok col p ca ->
  (forall a l, dget p a = Some l -> (1 < length l)%nat -> exists l', dget q a = Some l' /\ (In a addrs -> l' = l) /\ (~ In a addrs -> alone col p a l')) ->
  foldM (visit 1 0 col) addrs (q, ca) = Ok (q', ca') ->
  forall a l, dget p a = Some l -> (1 < length l)%nat -> exists l', dget q' a = Some l' /\ alone col p a l'.
Proof. induction addrs as [|b addrs IH]; intros q ca q' ca' N S K H; cbn [foldM].
  - intros X. injection X as <- <-. intros a l G L. destruct (H a l G L) as (l' & G' & _ & J). exists l'. split; [exact G'|]. apply J. intros [].
  - destruct (visit 1 0 col (q, ca) b) as [[q1 ca1]|e] eqn:V; cbn [bind]; [|intros X; discriminate X]. inversion N as [|? ? Nb N']; subst. revert V. unfold visit, dget_r. destruct (dget q b) as [lb|] eqn:Gb; cbn [bind]; [|discriminate].
    assert (Ex : exists lp, dget p b = Some lp /\ length lb = length lp).
    { pose proof (shape_get q b) as A. pose proof (shape_get p b) as B. rewrite S, B, Gb in A. destruct (dget p b) as [lp|]; [|discriminate]. cbn [option_map] in A. injection A as A. exists lp. split; [reflexivity|]. symmetry. exact (erase_len _ _ A). }
    destruct Ex as (lp & Gp & Le). destruct (Z.ltb_spec 1 (Z.of_nat (length lb))) as [L|L].
    + destruct (H b lp Gp ltac:(lia)) as (l' & G' & E & _). rewrite Gb in G'. injection G' as <-. specialize (E (or_introl eq_refl)). subst lb.
      destruct (apply_rules 0 col q ca b) as [[q2 ca2]|e] eqn:A; cbn [bind]; [|discriminate]. change (1 <? 1) with false. cbn iota. intros X. injection X as <- <-.
      destruct (apply_alone col p q ca b lp q2 ca2 S Gp Gb K A) as (K' & S' & l2 & -> & AL). apply IH; [exact N'|exact S'|exact K'|].
      intros a l G La. destruct (H a l G La) as (l' & G' & J1 & J2). destruct (Z.eq_dec a b) as [->|Nab].
      * exists l2. split; [rewrite dget_dset, Z.eqb_refl; reflexivity|]. split; [contradiction|auto].
      * exists l'. split; [rewrite dget_dset_other by exact Nab; exact G'|]. split; [intros I; apply J1; right; exact I|]. intros I. apply J2. intros [E|E]; [congruence|contradiction].
    + intros X. injection X as <- <-. apply IH; [exact N'|exact S|exact K|]. intros a l G La. destruct (H a l G La) as (l' & G' & J1 & J2). exists l'. split; [exact G'|]. split; [intros I; apply J1; right; exact I|].
      intros I. apply J2. intros [E|E]; [|contradiction]. subst b. rewrite Gp in G. injection G as ->. lia. Qed.

Lemma one_pass_alone col (p p' : rprogram) a l : NoDup (dkeys p) -> rule_recover 1 col p = Ok p' -> dget p a = Some l -> (1 < length l)%nat -> exists l', dget p' a = Some l' /\ alone col p a l'.
Proof. intros N. unfold rule_recover. change (zrange 0 1) with [0]. cbn [foldM]. unfold one_pass. destruct (foldM (visit 1 0 col) (dkeys p) (p, mkCaches [] [] [])) as [[q ca]|e] eqn:V; cbn [bind]; [|discriminate]. intros X. injection X as <-.
  apply (visits_alone col p (dkeys p) p (mkCaches [] [] []) q ca N eq_refl); [split; [|split]; left; reflexivity| |exact V].
  intros b lb G L. exists lb. split; [exact G|]. split; [reflexivity|]. intros I. exfalso. apply I. apply dget_in in G. apply (in_map fst) in G. exact G. Qed.
