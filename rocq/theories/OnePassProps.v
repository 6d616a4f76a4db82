(** C92 and C113, continued: the five scores of one pass, wherever ignored candidates stand. *)
From Verif Require Import ListLemmas FlipModel FlipProofs InstModel MetaModel MetaSpec MetaProofs MetaProps BlaumProofs RecModel RecSpec RecProofs RecProofs3 GraphProofs RulesModel RulesSpec RulesProofs RulesProofs2 RulesProofs3 RulesProofs4 RulesProofs5 RulesProofs6 RulesProofs7 RulesProps DistanceProps CountExactProps.
From Coq Require Import ZifyBool ZifyNat Lqa.

(** *** Proof *)
Definition sound0 (orig : list rcand) (p : rprogram) : Prop := original_among orig p /\ conditions_ok p /\ storages_ok p.
Lemma sound_evolves0 orig p p' : evolves only_scores p p' -> sound0 orig p -> sound0 orig p'.
Proof. intros V ((N1 & N2 & H1 & H2 & H3) & CO & SO). pose proof (evolves_keys _ _ _ V) as K. split; [|split].
  - split; [exact N1|]. split; [rewrite K; exact N2|]. split; [|split].
    + intros o I. destruct (H1 o I) as (A & l & c & G & J & B & C). split; [exact A|]. destruct (evolves_get _ _ _ _ _ V G) as (l' & G' & F). destruct (only_in_l _ _ _ F J) as (c' & J' & (X & Y & _)). exists l', c'. split; [exact G'|]. split; [exact J'|]. split; congruence.
    + rewrite K. exact H2.
    + intros a l' c' I J. destruct (evolves_in _ _ _ _ _ V I) as (l & I0 & F). destruct (only_in _ _ _ F J) as (c & J0 & (X & Y & _)). pose proof (H3 a l c I0 J0) as R. unfold regs_and_storages in *. rewrite X, Y. exact R.
  - intros a l' c' I J G. destruct (evolves_in _ _ _ _ _ V I) as (l & I0 & F). destruct (only_in _ _ _ F J) as (c & J0 & (X & _)). unfold r_ignore in *. rewrite X in *. exact (CO a l c I0 J0 G).
  - intros a l' c' r I J G W. destruct (evolves_in _ _ _ _ _ V I) as (l & I0 & F). destruct (only_in _ _ _ F J) as (c & J0 & (X & _)). unfold r_ignore in *. rewrite X in *. exact (SO a l c r I0 J0 G W). Qed.

Lemma run_rule_ok0 r pass orig cache p a l : sound0 orig p -> dget p a = Some l -> exists p' c' b, run_rule r pass (collect new_collector (map r_inst orig)) cache p a = Ok (p', c', b).
Proof. intros (O & _) G. destruct cache as [|x cache].
  - destruct (C85_exactly r pass (collect new_collector (map r_inst orig)) p a l G) as [[(b & m & c & v & A & B & C & D) _]|[_ (l' & cache & b & E & _)]]; [|rewrite E; eauto].
    exfalso. apply seen_in in A. exact (known_of_original r orig p O b m c v (proj1 A) B C D).
  - rewrite run_rule_unfold. unfold recover_count. cbn [bind]. unfold dget_r. rewrite G. cbn [bind]. destruct (count_candidates _ _ _ _ l) as [l' b]. eauto. Qed.

Lemma apply_ok0 pass orig p ca a l : sound0 orig p -> dget p a = Some l -> (1 < length l)%nat -> exists p' ca', apply_rules pass (collect new_collector (map r_inst orig)) p ca a = Ok (p', ca').
Proof. intros S G L. unfold apply_rules. set (col := collect new_collector (map r_inst orig)).
  destruct (control_flow_spec pass default_model p a l (proj1 (proj2 S)) G) as (l1 & b1 & E1 & _). rewrite E1. cbn [bind].
  destruct (rescored_evolves p a _ l G L (flow_changes _ _ _ _ _ _ E1)) as (V1 & l1' & G1 & L1). pose proof (sound_evolves0 _ _ _ V1 S) as S1. set (p1 := dset p a l1) in *.
  destruct (run_rule_ok0 ByCond pass orig (k_cond ca) p1 a l1' S1 G1) as (p2 & c1 & b2 & E2). change (conditional_count pass col (k_cond ca) p1 a) with (run_rule ByCond pass col (k_cond ca) p1 a). fold col in E2. rewrite E2. cbn [bind].
  destruct (rescored_evolves p1 a p2 l1' G1 ltac:(lia) (count_changes _ _ _ _ _ _ _ _ _ E2)) as (V2 & l2 & G2 & L2). pose proof (sound_evolves0 _ _ _ V2 S1) as S2.
  destruct (run_rule_ok0 ByInst pass orig (k_inst ca) p2 a l2 S2 G2) as (p3 & c2 & b3 & E3). change (instruction_counting pass col (k_inst ca) p2 a) with (run_rule ByInst pass col (k_inst ca) p2 a). fold col in E3. rewrite E3. cbn [bind].
  destruct (rescored_evolves p2 a p3 l2 G2 ltac:(lia) (count_changes _ _ _ _ _ _ _ _ _ E3)) as (V3 & l3 & G3 & L3). pose proof (sound_evolves0 _ _ _ V3 S2) as S3.
  destruct (run_rule_ok0 ByReg pass orig (k_reg ca) p3 a l3 S3 G3) as (p4 & c3 & b4 & E4). change (register_count pass col (k_reg ca) p3 a) with (run_rule ByReg pass col (k_reg ca) p3 a). fold col in E4. rewrite E4. cbn [bind].
  destruct (rescored_evolves p3 a p4 l3 G3 ltac:(lia) (count_changes _ _ _ _ _ _ _ _ _ E4)) as (V4 & l4 & G4 & L4). pose proof (sound_evolves0 _ _ _ V4 S3) as S4.
  destruct (read_distance_ok pass col p4 a l4 (proj2 (proj2 S4)) G4) as (l5 & b5 & os & E5 & _). rewrite E5. cbn [bind]. eauto. Qed.

Lemma single_pass_ok0 orig p passes : sound0 orig p -> passes <= 1 -> exists p', rule_recover passes (collect new_collector (map r_inst orig)) p = Ok p'.
Proof. intros S P. unfold rule_recover. revert p S. induction (zrange 0 passes) as [|n l IH]; intros p S; cbn [foldM]; [eauto|].
  assert (W : forall addrs q ca, sound0 orig q -> (forall a, In a addrs -> dget q a <> None) -> exists q' ca', foldM (visit passes n (collect new_collector (map r_inst orig))) addrs (q, ca) = Ok (q', ca')).
  { clear IH S p. induction addrs as [|a addrs IHa]; intros q ca S K; cbn [foldM]; [eauto|]. unfold visit at 1. unfold dget_r at 1. destruct (dget q a) as [x|] eqn:G; [|destruct (K a (or_introl eq_refl) G)]. cbn [bind].
    destruct (Z.ltb_spec 1 (Z.of_nat (length x))) as [L|L].
    - destruct (apply_ok0 n orig q ca a x S G ltac:(lia)) as (q' & ca' & E). rewrite E. cbn [bind]. replace (1 <? passes) with false by lia. cbn [bind].
      destruct (rescored_evolves q a q' x G ltac:(lia) (apply_changes _ _ _ _ _ _ _ E)) as (V & _). apply IHa; [exact (sound_evolves0 _ _ _ V S)|].
      intros b I N. destruct (dget q b) as [y|] eqn:Gb; [|exact (K b (or_intror I) Gb)]. destruct (evolves_get _ _ _ _ _ V Gb) as (y' & Gy & _). congruence.
    - cbn [bind]. apply IHa; [exact S|]. intros b I. apply K. right; exact I. }
  unfold one_pass at 1. destruct (W (dkeys p) p (mkCaches [] [] []) S) as (q & ca & E).
  { intros a I N. apply dget_none in N. exact (N I). }
  rewrite E. cbn [bind]. apply IH. destruct (visits_evolve _ _ _ _ _ _ _ _ E) as [_ V]. exact (sound_evolves0 _ _ _ (V P) S). Qed.

(** Recovering with one pass or none never raises when the original is among the candidates. *)
Theorem C92_one_pass : forall passes orig p, passes <= 1 -> original_among orig p -> conditions_ok p -> storages_ok p ->
  exists p', rule_recover passes (collect new_collector (map r_inst orig)) p = Ok p'.
Proof. intros passes orig p P O CO SO. apply single_pass_ok0; [split; [exact O|split; assumption]|exact P]. Qed.
Print Assumptions C92_one_pass.

(** And each contested candidate then has exactly the scores of the five rules. *)
Theorem C113_all_scores : forall orig p, let col := collect new_collector (map r_inst orig) in original_among orig p -> conditions_ok p -> storages_ok p -> writes_ok p -> distances_ok col ->
  exists p', rule_recover 1 col p = Ok p' /\ forall a l, dget p a = Some l -> (1 < length l)%nat -> exists l', dget p' a = Some l' /\
    Forall2 (fun c c' => same_number (dget (r_scores c') (key_of RCfg 0)) (Some (flow_score default_model p a c)) /\
      (r_ignore c = false -> forall r, same_number (dget (r_scores c') (key r 0)) (Some (added r c + mean_chance (values_of r) (counts_of r col) (seen p) c)%Q)) /\
      same_number (dget (r_scores c') (key_of RDist 0)) (match distance_score col p a c with Some q => Some q | None => dget (r_scores c) (key_of RDist 0) end)) l l'.
Proof. intros orig p col O CO SO Wo D0. destruct (C92_one_pass 1 orig p ltac:(lia) O CO SO) as (p' & E). exists p'. split; [exact E|]. intros a l G L. fold col in E.
  destruct (C113_each_rule_alone col p p' a l (proj1 (proj2 O)) E G L) as (l' & G' & (lf & b1 & E1 & A1) & A2 & (ld & b3 & E3 & A3)). exists l'. split; [exact G'|].
  assert (D : forall x y : list rcand, dset p a x = dset p a y -> x = y). { intros x y D. assert (X : dget (dset p a x) a = dget (dset p a y) a) by (rewrite D; reflexivity). rewrite !dget_dset, Z.eqb_refl in X. congruence. }
  assert (C : forall (P : rcand -> option Q) (I : rcand -> bool) k lm, Forall2 (fun c cm => I c = true \/ same_number (dget (r_scores cm) k) (P c)) l lm -> Forall2 (agree k) lm l' -> Forall2 (fun c c' => I c = false -> same_number (dget (r_scores c') k) (P c)) l l').
  { clear. intros P I k lm F. revert l'. induction F as [|c cm l lm H F IH]; intros l' A; inversion A as [|? c' ? ? A0 A']; subst; constructor; [|exact (IH _ A')]. intros Ic. destruct H as [H|H]; [congruence|].
    unfold agree in A0. destruct (dget (r_scores cm) k), (dget (r_scores c') k), (P c); cbn [same_number] in *; try contradiction; [rewrite <- A0; exact H|exact Logic.I]. }
  assert (Gt : forall k q c c', got k q c c' -> same_number (dget (r_scores c') k) (Some q)) by (intros k q c c' (_ & _ & _ & (q' & Q1 & Q2) & _); rewrite Q1; exact Q2).
  assert (F1 : Forall2 (fun c c' => false = false -> same_number (dget (r_scores c') (key_of RCfg 0)) (Some (flow_score default_model p a c))) l l').
  { destruct (C89_flow_score 0 default_model p a l CO G) as (lm & b & Em & F). rewrite E1 in Em. injection Em as Em _. apply D in Em. subst lm.
    apply (C (fun c => Some (flow_score default_model p a c)) (fun _ => false) _ lf); [|exact A1]. clear - F Gt. induction F as [|c c' x y H F IH]; constructor; [right; exact (Gt _ _ _ _ H)|exact IH]. }
  assert (F2 : forall r, Forall2 (fun c c' => r_ignore c = false -> same_number (dget (r_scores c') (key r 0)) (Some (added r c + mean_chance (values_of r) (counts_of r col) (seen p) c)%Q)) l l').
  { intros r. destruct (A2 r) as (la & cache & b & Er & Ar). destruct (C85_exactly r 0 col p a l G) as [[_ X]|[_ (lm & c2 & b2 & Em & F & _)]]; [congruence|]. rewrite Er in Em. injection Em as Em _ _. apply D in Em. subst lm.
    apply (C (fun c => Some (added r c + mean_chance (values_of r) (counts_of r col) (seen p) c)%Q) r_ignore _ la); [|exact Ar]. clear - F Gt. induction F as [|c c' x y H F IH]; constructor; [|exact IH]. destruct (r_ignore c); [left; reflexivity|right; exact (Gt _ _ _ _ H)]. }
  assert (F3 : Forall2 (fun c c' => false = false -> same_number (dget (r_scores c') (key_of RDist 0)) (match distance_score col p a c with Some q => Some q | None => dget (r_scores c) (key_of RDist 0) end)) l l').
  { destruct (C90_exactly 0 col p a l SO Wo D0 G) as (lm & b & Em & F). rewrite E3 in Em. injection Em as Em _. apply D in Em. subst lm.
    apply (C (fun c => match distance_score col p a c with Some q => Some q | None => dget (r_scores c) (key_of RDist 0) end) (fun _ => false) _ ld); [|exact A3]. clear - F Gt. induction F as [|c c' x y H F IH]; constructor; [right|exact IH].
    destruct (distance_score col p a c); [exact (Gt _ _ _ _ H)|]. subst c'. destruct (dget (r_scores c) (key_of RDist 0)); cbn [same_number]; [reflexivity|exact Logic.I]. }
  clear - F1 F2 F3. revert F1 F2 F3. revert l'. induction l as [|c l IH]; intros l' F1 F2 F3; inversion F1 as [|? c' ? l2 H1 T1]; subst; constructor.
  - split; [exact (H1 eq_refl)|]. split; [intros Ig r; specialize (F2 r); inversion F2; subst; auto|]. inversion F3; subst; auto.
  - apply IH; [exact T1| |inversion F3; subst; assumption]. intros r. specialize (F2 r). inversion F2; subst; assumption. Qed.
Print Assumptions C113_all_scores.
Lemma r2_conditions : conditions_ok r_prog2.
Proof. intros a l c [E|[E|[]]]; injection E as <- <-; intros I _; cbn [In] in I; destruct I as [<-|[<-|[]]]; vm_compute; intuition discriminate. Qed.
Lemma r2_storages : storages_ok r_prog2.
Proof. intros a l c r [E|[E|[]]]; injection E as <- <-; intros I _ J; cbn [In] in I; destruct I as [<-|[<-|[]]]; vm_compute in J; intuition lia. Qed.
Example C113_all_scores_example : original_among r_orig r_prog2 /\ conditions_ok r_prog2 /\ storages_ok r_prog2 /\ writes_ok r_prog2 /\ distances_ok r_col /\ ~ first_defined r_prog2 /\
  exists p', rule_recover 1 r_col r_prog2 = Ok p' /\ map (fun c => map (fun k => match dget (r_scores c) k with Some q => Qred q | None => 7%Q end) [1; 2; 3; 4]) (nth 1 (map snd p') []) = [[2; 1; 1; EPSILON]; [0; 0; 1 # 2; EPSILON]]%Q.
Proof. split; [apply r_original; auto|]. split; [exact r2_conditions|]. split; [exact r2_storages|]. split.
  { intros a l c r [E|[E|[]]]; injection E as <- <-; intros I J; cbn [In] in I; destruct I as [<-|[<-|[]]]; vm_compute in J; intuition lia. }
  split. { intros r d H. vm_compute in H. destruct r as [|r|r]; destruct H as [H|H]; try discriminate H; try (injection H as <-; lia); repeat (destruct r as [r|r|]; try discriminate H; try (injection H as <-; lia)). }
  split. { intros F. destruct (F 0 _ (or_introl eq_refl) eq_refl) as (c & l' & E & Ig). injection E as <- _. discriminate Ig. }
  eexists. split; vm_compute; reflexivity. Qed.
Example C92_one_pass_example : original_among r_orig r_prog2 /\ conditions_ok r_prog2 /\ storages_ok r_prog2.
Proof. split; [apply r_original; auto|]. split; [exact r2_conditions|exact r2_storages]. Qed.
