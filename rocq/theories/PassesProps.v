(** C158: recovery with any number of passes completes, or fails for one reason. *)
From Verif Require Import ListLemmas FlipModel FlipProofs InstModel MetaModel MetaSpec MetaProofs MetaProps BlaumProofs RecModel RecSpec RecProofs RecProofs3 GraphProofs RulesModel RulesSpec RulesProofs RulesProofs2 RulesProofs3 RulesProofs4 RulesProofs5 RulesProofs6 RulesProofs7 RulesProps CountExactProps.
From Coq Require Import ZifyBool ZifyNat Lqa.

(** *** Specification *)
(** Some defined candidate has a condition, an instruction or a register that the metadata
    does not have. *)
Definition has_unknown (col : collector) (p : rprogram) : Prop :=
  exists r a l c v, In (a, l) p /\ In c l /\ r_ignore c = false /\ In v (values_of r c) /\ dget (counts_of r col) v = None.

(** *** Proof *)
Definition fine (p : rprogram) : Prop := conditions_ok p /\ storages_ok p.
Lemma object_in l l' c' : Forall2 same_object l l' -> In c' l' -> exists c, In c l /\ same_object c c'.
Proof. induction 1 as [|a b l l' H F IH]; [intros []|]. intros [->|I]; [exists a; split; [left; reflexivity|exact H]|]. destruct (IH I) as (c & J & K). exists c. split; [right; exact J|exact K]. Qed.
Lemma object_parts c c' : same_object c c' -> r_ignore c' = false -> r_ignore c = false /\ (forall r, values_of r c' = values_of r c) /\ d_cond (r_inst c') = d_cond (r_inst c) /\ d_read (r_inst c') = d_read (r_inst c).
Proof. intros (I & R & F & G) Ig. split; [destruct (r_ignore c) eqn:E; [rewrite (G eq_refl) in Ig; discriminate|reflexivity]|]. unfold same_inst in I. split; [intros [| |]; cbn [values_of]; intuition congruence|]. intuition congruence. Qed.
Lemma fine_evolves p p' : evolves same_object p p' -> fine p -> fine p'.
Proof. intros V [CO SO]. split.
  - intros a l' c' I J G. destruct (evolves_in _ _ _ _ _ V I) as (l & I0 & F). destruct (object_in _ _ _ F J) as (c & J0 & X). destruct (object_parts _ _ X G) as (Y & _ & Z0 & _). rewrite Z0. exact (CO a l c I0 J0 Y).
  - intros a l' c' r I J G W. destruct (evolves_in _ _ _ _ _ V I) as (l & I0 & F). destruct (object_in _ _ _ F J) as (c & J0 & X). destruct (object_parts _ _ X G) as (Y & _ & _ & Z0). rewrite Z0 in W. exact (SO a l c r I0 J0 Y W). Qed.
Lemma unknown_evolves col p p' : evolves same_object p p' -> has_unknown col p' -> has_unknown col p.
Proof. intros V (r & a & l' & c' & v & I & J & G & W & N). destruct (evolves_in _ _ _ _ _ V I) as (l & I0 & F). destruct (object_in _ _ _ F J) as (c & J0 & X). destruct (object_parts _ _ X G) as (Y & Z0 & _). rewrite Z0 in W. exists r, a, l, c, v. auto. Qed.

Lemma rule_outcome r pass col cache p a l : dget p a = Some l -> (exists p' c' b, run_rule r pass col cache p a = Ok (p', c', b)) \/ (run_rule r pass col cache p a = Err KeyError /\ has_unknown col p).
Proof. intros G. destruct cache as [|x cache].
  - destruct (C85_exactly r pass col p a l G) as [[(b & m & c & v & A & B & C & D) E]|[_ (l' & cache & b & E & _)]]; [right|left; eauto]. split; [exact E|]. apply seen_in in A. assert (X : In c (live m)) by (rewrite B; left; reflexivity). unfold live in X. apply filter_In in X. destruct X as [X1 X2]. exists r, b, m, c, v. split; [exact (proj1 A)|]. split; [exact X1|]. split; [destruct (r_ignore c); [discriminate|reflexivity]|auto].
  - left. rewrite run_rule_unfold. unfold recover_count. cbn [bind]. unfold dget_r. rewrite G. cbn [bind]. destruct (count_candidates _ _ _ _ l) as [l' b]. eauto. Qed.

Lemma apply_outcome pass col p ca a l : fine p -> dget p a = Some l -> (1 < length l)%nat -> (exists p' ca', apply_rules pass col p ca a = Ok (p', ca')) \/ (apply_rules pass col p ca a = Err KeyError /\ has_unknown col p).
Proof. intros S G L. unfold apply_rules.
  assert (St : forall q q' m, dget q a = Some m -> (1 < length m)%nat -> rescored q a q' -> evolves same_object q q' /\ exists m', dget q' a = Some m' /\ (1 < length m')%nat).
  { intros q q' m Gq Lq R. destruct (rescored_evolves q a q' m Gq Lq R) as (V & m' & G' & L'). split; [exact (evolves_weaken _ _ _ _ only_object V)|]. exists m'. split; [exact G'|lia]. }
  destruct (control_flow_spec pass default_model p a l (proj1 S) G) as (l1 & b1 & E1 & _). rewrite E1. cbn [bind]. destruct (St p _ l G L (flow_changes _ _ _ _ _ _ E1)) as (V1 & m1 & G1 & L1). set (p1 := dset p a l1) in *.
  change (conditional_count pass col (k_cond ca) p1 a) with (run_rule ByCond pass col (k_cond ca) p1 a). destruct (rule_outcome ByCond pass col (k_cond ca) p1 a m1 G1) as [(p2 & c1 & b2 & E2)|[E2 U]]; rewrite E2; cbn [bind]; [|right; split; [reflexivity|exact (unknown_evolves _ _ _ V1 U)]].
  destruct (St p1 p2 m1 G1 L1 (count_changes _ _ _ _ _ _ _ _ _ E2)) as (V2 & m2 & G2 & L2). pose proof (evolves_trans _ _ _ _ same_object_trans V1 V2) as W2.
  change (instruction_counting pass col (k_inst ca) p2 a) with (run_rule ByInst pass col (k_inst ca) p2 a). destruct (rule_outcome ByInst pass col (k_inst ca) p2 a m2 G2) as [(p3 & c2 & b3 & E3)|[E3 U]]; rewrite E3; cbn [bind]; [|right; split; [reflexivity|exact (unknown_evolves _ _ _ W2 U)]].
  destruct (St p2 p3 m2 G2 L2 (count_changes _ _ _ _ _ _ _ _ _ E3)) as (V3 & m3 & G3 & L3). pose proof (evolves_trans _ _ _ _ same_object_trans W2 V3) as W3.
  change (register_count pass col (k_reg ca) p3 a) with (run_rule ByReg pass col (k_reg ca) p3 a). destruct (rule_outcome ByReg pass col (k_reg ca) p3 a m3 G3) as [(p4 & c3 & b4 & E4)|[E4 U]]; rewrite E4; cbn [bind]; [|right; split; [reflexivity|exact (unknown_evolves _ _ _ W3 U)]].
  destruct (St p3 p4 m3 G3 L3 (count_changes _ _ _ _ _ _ _ _ _ E4)) as (V4 & m4 & G4 & L4). pose proof (evolves_trans _ _ _ _ same_object_trans W3 V4) as W4.
  destruct (read_distance_ok pass col p4 a m4 (proj2 (fine_evolves _ _ W4 S)) G4) as (l5 & b5 & os & E5 & _). rewrite E5. cbn [bind]. left. eauto. Qed.

Lemma visits_outcome passes pass col addrs : forall p ca, fine p -> (forall a, In a addrs -> dget p a <> None) ->
  (exists p' ca', foldM (visit passes pass col) addrs (p, ca) = Ok (p', ca')) \/ (foldM (visit passes pass col) addrs (p, ca) = Err KeyError /\ has_unknown col p).
Proof. induction addrs as [|a addrs IH]; intros p ca S K; cbn [foldM]; [left; eauto|].
  assert (Vi : (exists p' ca', visit passes pass col (p, ca) a = Ok (p', ca')) \/ (visit passes pass col (p, ca) a = Err KeyError /\ has_unknown col p)).
  { destruct (dget p a) as [l|] eqn:G; [|destruct (K a (or_introl eq_refl) G)]. unfold visit, dget_r. rewrite G. cbn [bind]. destruct (Z.ltb_spec 1 (Z.of_nat (length l))) as [L|L]; [|left; eexists _, _; reflexivity].
    destruct (apply_outcome pass col p ca a l S G ltac:(lia)) as [(p1 & ca1 & E)|[E U]]; rewrite E; cbn [bind]; [left|right; split; [reflexivity|exact U]]. destruct (1 <? passes); [|eexists _, _; reflexivity].
    destruct (apply_changes _ _ _ _ _ _ _ E) as (l0 & l1 & G0 & -> & _). rewrite dget_dset, Z.eqb_refl. cbn [bind]. eexists _, _; reflexivity. }
  destruct Vi as [(p1 & ca1 & E)|[E U]]; rewrite E; cbn [bind]; [|right; auto]. destruct (visit_evolves _ _ _ _ _ _ _ _ E) as [V _].
  assert (K' : forall b, In b addrs -> dget p1 b <> None) by (intros b I N; destruct (dget p b) as [y|] eqn:Gb; [|exact (K b (or_intror I) Gb)]; destruct (evolves_get _ _ _ _ _ V Gb) as (y' & Gy & _); congruence).
  destruct (IH p1 ca1 (fine_evolves _ _ V S) K') as [X|[X U]]; [left; exact X|right; split; [exact X|exact (unknown_evolves _ _ _ V U)]]. Qed.

(** With conditions and storages in range the only exception is KeyError, and only if the
    metadata does not know everything the candidates consist of. *)
Theorem C158_completes_partial : forall passes col p, conditions_ok p -> storages_ok p ->
  (exists p', rule_recover passes col p = Ok p') \/ (rule_recover passes col p = Err KeyError /\ has_unknown col p).
Proof. intros passes col p CO SO. assert (S : fine p) by (split; assumption). clear CO SO. unfold rule_recover. revert p S. induction (zrange 0 passes) as [|n l IH]; intros p S; cbn [foldM]; [left; eauto|].
  assert (K : forall a, In a (dkeys p) -> dget p a <> None) by (intros a I N; apply dget_none in N; exact (N I)).
  assert (O : one_pass passes col p n = bind (foldM (visit passes n col) (dkeys p) (p, mkCaches [] [] [])) (fun pc => Ok (fst pc))) by (unfold one_pass; destruct (foldM _ _ _) as [[x y]|e]; reflexivity). rewrite O.
  destruct (visits_outcome passes n col (dkeys p) p (mkCaches [] [] []) S K) as [(p1 & ca & E)|[E U]].
  - rewrite E. cbn [bind fst]. destruct (visits_evolve _ _ _ _ _ _ _ _ E) as [V _]. destruct (IH p1 (fine_evolves _ _ V S)) as [X|[X U]]; [left; exact X|right; split; [exact X|exact (unknown_evolves _ _ _ V U)]].
  - rewrite E. cbn [bind]. right. auto. Qed.
Print Assumptions C158_completes_partial.

(** The original has no registers and is discarded; the other candidate is then the only
    one, and has a register that the metadata does not know. *)
Definition u_other := ins 0 14 5 [0; 9] [9] [0].
Definition u_orig := [r_svc; r_b].
Definition u_prog : rprogram := [(0, [u_other; r_svc]); (4, [r_b; r_x])].
Lemma u_original : original_among u_orig u_prog.
Proof. split; [repeat constructor; cbn; intuition discriminate|]. split; [repeat constructor; cbn; intuition discriminate|]. split; [|split].
  - intros o [<-|[<-|[]]]; (split; [reflexivity|]); eexists _, _; (split; [reflexivity|]).
    + split; [right; left; reflexivity|]. split; reflexivity.
    + split; [left; reflexivity|]. split; reflexivity.
  - intros a [<-|[<-|[]]]; [exists r_svc|exists r_b]; (split; [cbn; auto|reflexivity]).
  - intros a l c [X|[X|[]]] I; injection X as <- <-; destruct I as [<-|[<-|[]]]; unfold regs_and_storages.
    + split; [exists []; split; [reflexivity|intros v []]|]. split; vm_compute; intuition discriminate.
    + split; [exists [18]; split; [reflexivity|intros v [<-|[]]; auto]|]. split; intros [].
    + split; [exists []; split; [reflexivity|intros v []]|]. split; vm_compute; intuition discriminate.
    + split; [exists []; split; [reflexivity|intros v []]|]. split; vm_compute; intuition discriminate. Qed.
Lemma u_fine : fine u_prog.
Proof. split.
  - intros a l c [X|[X|[]]] I _; injection X as <- <-; destruct I as [<-|[<-|[]]]; vm_compute; intuition discriminate.
  - intros a l c r [X|[X|[]]] I _ J; injection X as <- <-; destruct I as [<-|[<-|[]]]; vm_compute in J; intuition lia. Qed.
Theorem C158_completes_refuted : exists passes orig p, passes = 2 /\ original_among orig p /\ conditions_ok p /\ storages_ok p /\
  rule_recover passes (collect new_collector (map r_inst orig)) p = Err KeyError.
Proof. exists 2, u_orig, u_prog. split; [reflexivity|]. split; [exact u_original|]. destruct u_fine as [A B]. split; [exact A|]. split; [exact B|]. vm_compute. reflexivity. Qed.
Print Assumptions C158_completes_refuted.
(** With several passes and all values known. *)
Example C158_example : conditions_ok r_prog /\ storages_ok r_prog /\ (exists p', rule_recover 3 r_col r_prog = Ok p') /\ has_unknown (collect new_collector (map r_inst u_orig)) u_prog.
Proof. split; [exact r_conditions|]. split; [exact r_storages|]. split; [eexists; vm_compute; reflexivity|]. exists ByReg, 0, [u_other; r_svc], u_other, 9. split; [left; reflexivity|]. split; [left; reflexivity|]. split; [reflexivity|]. split; [right; left; reflexivity|reflexivity]. Qed.
