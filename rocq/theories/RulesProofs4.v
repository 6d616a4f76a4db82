(** Lemmas about the scoring rules: credit for writes, repeated calls, whole recovery. *)
From Verif Require Import ListLemmas FlipModel FlipProofs InstModel MetaModel MetaSpec MetaProofs MetaProps BlaumProofs RecModel RecSpec RecProofs RecProofs3 GraphProofs RulesModel RulesSpec RulesProofs RulesProofs2 RulesProofs3.
From Coq Require Import ZifyBool ZifyNat Permutation Lqa.

(** *** Credit *)
Lemma credit_ok reads here written : (forall r, In r reads -> 0 <= r < 20) -> exists cr, credit reads here written = Ok cr /\ length cr = 20%nat.
Proof. intros H. unfold credit. set (n := Z.of_nat (length written)). assert (G : forall cr : list Q, length cr = 20%nat -> exists cr', foldM (fun cr w => if zmem w reads then if w <? STORAGE_COUNT then let i := Z.to_nat w in Ok (list_set cr i (nth i cr 0 + 1 / inject_Z (n * here))%Q) else Err IndexError else Ok cr) written cr = Ok cr' /\ length cr' = 20%nat).
  { clearbody n. induction written as [|w ws IH]; intros cr L; cbn [foldM]; [eauto|]. destruct (zmem w reads) eqn:M; [|cbn [bind]; apply IH, L].
    apply zmem_in in M. replace (w <? STORAGE_COUNT) with true by (specialize (H w M); unfold STORAGE_COUNT; lia). cbv zeta. cbn [bind]. apply IH. rewrite list_set_len. exact L. }
  apply G. reflexivity. Qed.

Lemma dist_step_ok reads here rs w c : (forall r, In r reads -> 0 <= r < 20) -> length rs = 20%nat -> exists rs' w', dist_step reads here (rs, w) c = Ok (rs', w') /\ length rs' = 20%nat.
Proof. intros H L. unfold dist_step. destruct (r_ignore c); [eauto|]. destruct (credit_ok reads here (d_written (r_inst c)) H) as (cr & E & _). rewrite E. cbn [bind].
  eexists _, _. split; [reflexivity|]. destruct (match d_written (r_inst c) with [] => w | _ => _ end) as [x|]; [|exact L]. destruct (x <? STORAGE_COUNT); [|exact L]. cbv zeta. rewrite list_set_len. exact L. Qed.
Lemma dist_fold_ok reads here l : (forall r, In r reads -> 0 <= r < 20) -> forall rs w, length rs = 20%nat -> exists rs' w', foldM (dist_step reads here) l (rs, w) = Ok (rs', w') /\ length rs' = 20%nat.
Proof. intros H. induction l as [|c l IH]; intros rs w L; cbn [foldM]; [eauto|]. destruct (dist_step_ok reads here rs w c H L) as (rs1 & w1 & E & L1). rewrite E. cbn [bind]. apply IH, L1. Qed.

Lemma back_ok p reads positions : (forall r, In r reads -> 0 <= r < 20) -> reads <> [] -> forall rs best w, length rs = 20%nat -> exists o w', back_score p reads positions rs best w = Ok (o, w').
Proof. intros H N. induction positions as [|pos rest IH]; intros rs best w L; cbn [back_score]; [eauto|]. destruct (dget p pos) as [prev|]; [|apply IH, L].
  destruct (dist_fold_ok reads (candidate_count prev) prev H rs w L) as (rs' & w' & E & L'). rewrite E. cbn [bind]. unfold reads_score. destruct reads as [|r rr]; [congruence|]. cbn [bind].
  match goal with |- context [qmax ?q best] => set (b := qmax q best) end. destruct (Qle_bool 1 b); [eauto|]. destruct (IH rs' b w' L') as (o & w2 & E2). rewrite E2. cbn [bind]. eauto. Qed.

Lemma no_reads col position : positions_of col position [] = [].
Proof. reflexivity. Qed.

Lemma final_ok col p position w c : (r_ignore c = false -> forall r, In r (d_read (r_inst c)) -> 0 <= r < 20) -> exists o w', final_score col p position w c = Ok (o, w').
Proof. intros H. unfold final_score, r_ignore in *. destruct (d_ignore (r_inst c)); [eauto|]. destruct (d_used (r_inst c)); [eauto|]. destruct (d_read (r_inst c)) as [|r rr] eqn:E; [rewrite no_reads; cbn [back_score]; eauto|].
  apply back_ok; [exact (H eq_refl)|discriminate|reflexivity]. Qed.
Lemma finals_ok col p position l : (forall c, In c l -> r_ignore c = false -> forall r, In r (d_read (r_inst c)) -> 0 <= r < 20) -> forall w, exists os, final_scores col p position w l = Ok os.
Proof. intros H. induction l as [|c l IH]; intros w; cbn [final_scores]; [eauto|]. destruct (final_ok col p position w c (H c (or_introl eq_refl))) as (o & w' & E). rewrite E. cbn [bind].
  destruct (IH ltac:(intros x I; apply H; right; exact I) w') as (os & E'). rewrite E'. cbn [bind]. eauto. Qed.

Lemma final_bounds col p position w c o w' : final_score col p position w c = Ok (Some o, w') -> prob o.
Proof. unfold final_score. destruct (d_ignore (r_inst c)); [intros E; injection E as <- _; apply prob0|]. destruct (d_used (r_inst c)); [intros E; injection E as <- _; split; vm_compute; discriminate|].
  apply back_bounds. lra. Qed.
Lemma finals_bounds col p position l : forall w os, final_scores col p position w l = Ok os -> Forall (fun o => match o with Some q => prob q | None => True end) os.
Proof. induction l as [|c l IH]; intros w os; cbn [final_scores]; [intros E; injection E as <-; constructor|].
  destruct (final_score col p position w c) as [[o w']|e] eqn:E; cbn [bind]; [|discriminate]. destruct (final_scores col p position w' l) as [os'|e] eqn:E'; cbn [bind]; [|discriminate].
  intros X. injection X as <-. constructor; [|exact (IH _ _ E')]. destruct o; [exact (final_bounds _ _ _ _ _ _ _ E)|exact I]. Qed.

Lemma dist_live reads here l : forall st, foldM (dist_step reads here) l st = foldM (dist_step reads here) (live l) st.
Proof. induction l as [|c l IH]; intros st; [reflexivity|]. cbn [foldM live filter]. destruct (r_ignore c) eqn:I; cbn [negb].
  - destruct st as [rs w]. unfold dist_step at 1. rewrite I. cbn [bind]. apply IH.
  - cbn [foldM]. destruct (dist_step reads here st c); cbn [bind]; [apply IH|reflexivity]. Qed.

Lemma back_credit p r positions pos prev x : 0 <= r < 20 -> In pos positions -> dget p pos = Some prev -> live prev = [x] -> d_written (r_inst x) = [r] ->
  forall rs best w, length rs = 20%nat -> exists w', back_score p [r] positions rs best w = Ok (Some 1%Q, w').
Proof. intros Hr I G L W. induction positions as [|q rest IH]; intros rs best w Ln; [destruct I|]. cbn [back_score].
  assert (HR : forall y, In y [r] -> 0 <= y < 20) by (intros y [<-|[]]; exact Hr).
  destruct (Z.eq_dec q pos) as [->|N].
  - rewrite G. rewrite candidate_count_live, dist_live, L. cbn [foldM length]. unfold dist_step, credit. assert (Ig : r_ignore x = false) by (assert (X : In x (live prev)) by (rewrite L; left; reflexivity); apply filter_In in X; destruct (r_ignore x); [destruct X; discriminate|reflexivity]).
    rewrite Ig, W. cbn [foldM length]. replace (zmem r [r]) with true by (symmetry; apply zmem_in; left; reflexivity). replace (r <? STORAGE_COUNT) with true by (unfold STORAGE_COUNT; lia). cbv zeta. cbn [bind List.last].
    replace (r <? STORAGE_COUNT) with true by (unfold STORAGE_COUNT; lia). cbn [reads_score bind fold_left]. replace (r <? STORAGE_COUNT) with true by (unfold STORAGE_COUNT; lia).
    rewrite !nth_list_set, Ln. rewrite Nat.eqb_refl, repeat_length. replace (Nat.ltb (Z.to_nat r) 20) with true by lia. replace (Nat.ltb (Z.to_nat r) (Z.to_nat STORAGE_COUNT)) with true by (unfold STORAGE_COUNT; lia). cbv iota.
    rewrite (nth_indep (repeat EPSILON (Z.to_nat STORAGE_COUNT)) 0%Q EPSILON) by (rewrite repeat_length; unfold STORAGE_COUNT; lia). rewrite nth_repeat.
    match goal with |- context [if Qle_bool 1 ?b then _ else _] => assert (B : (1 <= b)%Q) end.
    { assert (X : forall a b, (b <= qmax a b)%Q) by (intros a b; unfold qmax; destruct (qlt_spec a b); lra).
      assert (Y : forall a b, (a <= qmax a b)%Q) by (intros a b; unfold qmax; destruct (qlt_spec a b); lra).
      eapply Qle_trans; [|apply Y]. pose proof (X (nth (Z.to_nat r) rs 0%Q) (EPSILON + 1 / inject_Z (Z.of_nat 1 * Z.of_nat 1))%Q) as Z1. assert (E1 : (1 <= EPSILON + 1 / inject_Z (Z.of_nat 1 * Z.of_nat 1))%Q) by (vm_compute; discriminate).
      change (inject_Z (Z.of_nat (length [r]))) with 1%Q. unfold Qdiv at 1. change (/ 1)%Q with 1%Q. set (t := qmax _ _) in *. lra. }
    apply Qle_bool_iff in B. rewrite B. eauto.
  - destruct I as [I|I]; [congruence|]. destruct (dget p q) as [prv|]; [|exact (IH I rs best w Ln)].
    destruct (dist_fold_ok [r] (candidate_count prv) prv HR rs w Ln) as (rs' & w' & E & L'). rewrite E. cbn [bind reads_score].
    match goal with |- context [qmax ?q best] => set (b := qmax q best) end. destruct (Qle_bool 1 b); [eauto|]. destruct (IH I rs' b w' L') as (w2 & E2). rewrite E2. cbn [bind]. eauto. Qed.

(** *** Calling a rule again *)
Lemma dset_same {A} (d : dict A) k v : dget d k = Some v -> dset d k v = d.
Proof. induction d as [|[k' x] d IH]; [discriminate|]. cbn [dget dset]. destruct (Z.eqb_spec k k') as [->|N]; [intros E; injection E as ->; reflexivity|]. intros E. rewrite IH by exact E. reflexivity. Qed.
Lemma dset_dset {A} (d : dict A) k v v' : dset (dset d k v) k v' = dset d k v'.
Proof. induction d as [|[k' x] d IH]; cbn [dset]; [rewrite Z.eqb_refl; reflexivity|]. destruct (Z.eqb_spec k k') as [->|N]; cbn [dset]; [rewrite Z.eqb_refl; reflexivity|]. replace (k =? k') with false by lia. rewrite IH. reflexivity. Qed.

Lemma update_again k c q c' b : update_score k c q = (c', b) -> update_score k c' q = (c', false).
Proof. intros U. destruct (update_score_spec k c q) as (c2 & b2 & U2 & (_ & _ & _ & (q' & G & Q) & _) & _). rewrite U in U2. injection U2 as <- <-. unfold update_score. rewrite G. destruct (qeq_spec q q'); [reflexivity|]. exfalso. apply n. symmetry. exact Q. Qed.
Lemma updates_again k l : forall qs l' b, update_scores k qs l = (l', b) -> update_scores k qs l' = (l', false).
Proof. induction l as [|c l IH]; intros [|q qs] l' b; cbn [update_scores]; try (intros E; injection E as <- <-; reflexivity).
  destruct (update_score k c q) as [c1 b1] eqn:U. destruct (update_scores k qs l) as [r b2] eqn:E. intros X. injection X as <- <-. cbn [update_scores]. rewrite (update_again _ _ _ _ _ U), (IH _ _ _ E). reflexivity. Qed.
Lemma counts_again k sc r l : forall l' b, count_candidates k sc (values_of r) (added r) l = (l', b) -> count_candidates k sc (values_of r) (added r) l' = (l', false).
Proof. induction l as [|c l IH]; intros l' b; cbn [count_candidates]; [intros E; injection E as <- <-; reflexivity|].
  destruct (count_candidates k sc (values_of r) (added r) l) as [x b2] eqn:E. destruct (r_ignore c) eqn:I.
  - intros X. injection X as <- <-. cbn [count_candidates]. rewrite I, (IH _ _ eq_refl). reflexivity.
  - destruct (update_score k c (count_score sc (values_of r) (added r) c)) as [c1 b1] eqn:U. intros X. injection X as <- <-. cbn [count_candidates].
    destruct (update_score_spec k c (count_score sc (values_of r) (added r) c)) as (c2 & b3 & U2 & (A & B & C & _) & _). rewrite U in U2. injection U2 as <- <-.
    assert (I' : r_ignore c1 = false) by (unfold r_ignore in *; rewrite A; exact I). rewrite I'.
    assert (S : count_score sc (values_of r) (added r) c1 = count_score sc (values_of r) (added r) c).
    { unfold count_score. assert (V : values_of r c1 = values_of r c) by (destruct r; cbn [values_of]; congruence). rewrite V. f_equal. destruct r; cbn [added]; rewrite ?A; reflexivity. }
    rewrite S, (update_again _ _ _ _ _ U), (IH _ _ eq_refl). reflexivity. Qed.

Lemma update_erase k c q c' b : update_score k c q = (c', b) -> erase c' = erase c.
Proof. intros U. destruct (update_score_spec k c q) as (c2 & b2 & U2 & G & _). rewrite U in U2. injection U2 as <- <-. exact (got_erase _ _ _ _ G). Qed.
Lemma updates_erase k l : forall qs l' b, update_scores k qs l = (l', b) -> map erase l' = map erase l.
Proof. induction l as [|c l IH]; intros [|q qs] l' b; cbn [update_scores]; try (intros E; injection E as <- <-; reflexivity).
  destruct (update_score k c q) as [c1 b1] eqn:U. destruct (update_scores k qs l) as [r b2] eqn:E. intros X. injection X as <- <-. cbn [map]. rewrite (update_erase _ _ _ _ _ U), (IH _ _ _ E). reflexivity. Qed.
Lemma counts_erase k sc f extra l : forall l' b, count_candidates k sc f extra l = (l', b) -> map erase l' = map erase l.
Proof. induction l as [|c l IH]; intros l' b; cbn [count_candidates]; [intros E; injection E as <- <-; reflexivity|].
  destruct (count_candidates k sc f extra l) as [x b2] eqn:E. destruct (r_ignore c) eqn:I.
  - intros X. injection X as <- <-. cbn [map]. rewrite (IH _ _ eq_refl). reflexivity.
  - destruct (update_score k c (count_score sc f extra c)) as [c1 b1] eqn:U. intros X. injection X as <- <-. cbn [map]. rewrite (update_erase _ _ _ _ _ U), (IH _ _ eq_refl). reflexivity. Qed.
Lemma dists_erase k col p a l : forall w l' b, dist_candidates k col p a w l = Ok (l', b) -> map erase l' = map erase l.
Proof. intros w l' b E. pose proof (dist_candidates_spec k col p a l w) as H. destruct (final_scores col p a w l) as [os|e]; [|congruence]. destruct H as (l2 & b2 & E2 & L & F). rewrite E in E2. injection E2 as <- <-.
  clear - F L. revert os l' L F. induction l as [|c l IH]; intros [|o os] l' L F; try discriminate; cbn [combine] in F; inversion F as [|? ? ? ? G F']; subst; [reflexivity|]. cbn [map]. rewrite (IH os _ ltac:(cbn [length] in L; lia) F'). f_equal.
  cbn [fst snd] in G. destruct o; [exact (got_erase _ _ _ _ G)|]. cbn [got_if] in G. subst. reflexivity. Qed.

Lemma control_flow_twice pass m p a p1 b : control_flow pass m p a = Ok (p1, b) -> control_flow pass m p1 a = Ok (p1, false).
Proof. unfold control_flow. destruct (conditional_scores m p a) as [cs|e] eqn:C; cbn [bind]; [|discriminate]. unfold dget_r at 1. destruct (dget p a) as [l|] eqn:G; cbn [bind]; [|discriminate].
  destruct (mapM (cfg_score m p cs) l) as [qs|e] eqn:M; cbn [bind]; [|discriminate]. destruct (update_scores (key_of RCfg pass) qs l) as [l' b'] eqn:U. intros X. injection X as <- <-.
  pose proof (updates_erase _ _ _ _ _ U) as Er. pose proof (shape_dset p a l l' G Er) as Sh.
  rewrite <- (conditional_shape m (dset p a l')), Sh, conditional_shape, C. cbn [bind]. unfold dget_r. rewrite dget_dset, Z.eqb_refl. cbn [bind].
  rewrite <- (cfg_shape m (dset p a l') cs l'), Sh, Er, cfg_shape, M. cbn [bind]. rewrite (updates_again _ _ _ _ _ U). rewrite dset_dset. reflexivity. Qed.

Lemma run_rule_twice r pass col cache p a p1 cache1 b : run_rule r pass col cache p a = Ok (p1, cache1, b) -> run_rule r pass col cache1 p1 a = Ok (p1, cache1, false).
Proof. rewrite !run_rule_unfold. unfold recover_count.
  destruct (match cache with [] => remaining_scores (values_of r) (counts_of r col) p | _ => Ok cache end) as [sc|e] eqn:S; cbn [bind]; [|discriminate].
  unfold dget_r at 1. destruct (dget p a) as [l|] eqn:G; cbn [bind]; [|discriminate]. destruct (count_candidates (key r pass) sc (values_of r) (added r) l) as [l' b'] eqn:C. intros X. injection X as <- <- <-.
  pose proof (counts_erase _ _ _ _ _ _ _ C) as Er. pose proof (shape_dset p a l l' G Er) as Sh.
  assert (S' : match sc with [] => remaining_scores (values_of r) (counts_of r col) (dset p a l') | _ => Ok sc end = Ok sc).
  { destruct sc as [|x sc]; [|reflexivity]. rewrite <- remaining_shape, Sh, remaining_shape. destruct cache; [exact S|discriminate S]. }
  rewrite S'. cbn [bind]. unfold dget_r. rewrite dget_dset, Z.eqb_refl. cbn [bind]. rewrite (counts_again _ _ _ _ _ _ C), dset_dset. reflexivity. Qed.

Lemma got_same k q c c1 c2 : got k q c c1 -> got k q c1 c2 -> same_cand c1 c2.
Proof. intros (_ & _ & _ & (x & G & Q) & _) (A & B & C & (y & G' & Q') & F). split; [exact A|]. split; [exact B|]. split; [exact C|]. intros k'. destruct (Z.eq_dec k' k) as [->|N].
  - rewrite G, G'. cbn [same_number]. rewrite Q, Q'. reflexivity.
  - rewrite (F k' N). destruct (dget (r_scores c1) k'); cbn [same_number]; [reflexivity|exact I]. Qed.

Lemma same_lists_refl l : Forall2 same_cand l l.
Proof. induction l; constructor; [apply same_refl|assumption]. Qed.
Lemma same_program_refl p : same_program p p.
Proof. induction p as [|[k l] p IH]; constructor; [split; [reflexivity|apply same_lists_refl]|exact IH]. Qed.
Lemma same_program_dset p a l l' : dget p a = Some l -> Forall2 same_cand l l' -> same_program p (dset p a l').
Proof. intros G F. induction p as [|[k x] p IH]; [discriminate|]. cbn [dget dset] in *. destruct (a =? k); constructor; cbn [fst snd].
  - injection G as ->. split; [reflexivity|exact F].
  - apply same_program_refl.
  - split; [reflexivity|apply same_lists_refl].
  - exact (IH G). Qed.

Lemma read_distance_twice pass col p a p1 b : read_distance pass col p a = Ok (p1, b) -> exists p2 b2, read_distance pass col p1 a = Ok (p2, b2) /\ same_program p1 p2.
Proof. unfold read_distance. unfold dget_r at 1. destruct (dget p a) as [l|] eqn:G; cbn [bind]; [|discriminate].
  destruct (dist_candidates (key_of RDist pass) col p a None l) as [[l' b']|e] eqn:D; cbn [bind]; [|discriminate]. intros X. injection X as <- <-.
  pose proof (dists_erase _ _ _ _ _ _ _ _ D) as Er. pose proof (shape_dset p a l l' G Er) as Sh. unfold dget_r. rewrite dget_dset, Z.eqb_refl. cbn [bind].
  pose proof (dist_candidates_spec (key_of RDist pass) col p a l None) as H1. pose proof (dist_candidates_spec (key_of RDist pass) col (dset p a l') a l' None) as H2.
  rewrite <- (final_shape col (dset p a l') a l'), Sh, Er, final_shape in H2. destruct (final_scores col p a None l) as [os|e]; [|congruence].
  destruct H1 as (x1 & y1 & E1 & L1 & F1). destruct H2 as (l2 & b2 & E2 & L2 & F2). rewrite D in E1. injection E1 as <- <-. rewrite E2. cbn [bind]. eexists _, _. split; [reflexivity|].
  apply same_program_dset with l'; [rewrite dget_dset, Z.eqb_refl; reflexivity|].
  clear - L1 F1 F2. revert os l' l2 L1 F1 F2. induction l as [|c l IH]; intros [|o os] l' l2 L1 F1 F2; try discriminate; cbn [combine] in F1; inversion F1 as [|? c1 ? r1 G1 F1']; subst; cbn [combine] in F2; inversion F2 as [|? c2 ? r2 G2 F2']; subst; constructor.
  - cbn [fst snd] in *. destruct o as [q|]; cbn [got_if] in *; [exact (got_same _ _ _ _ _ G1 G2)|]. subst. apply same_refl.
  - apply (IH os r1 r2); [cbn [length] in L1; lia|exact F1'|exact F2']. Qed.
