(** Theorems about the scoring rules and the rule-driven recovery (C85-C93, C113). *)
From Verif Require Import ListLemmas FlipModel FlipProofs InstModel MetaModel MetaSpec MetaProofs MetaProps RecModel RecSpec RecProofs RulesModel RulesSpec RulesProofs RulesProofs2 RulesProofs3 RulesProofs4 RulesProofs5 RulesProofs6 RulesProofs7.
From Coq Require Import ZifyBool ZifyNat Permutation Lqa.

(** A small program: an instruction by address, condition, opcode, storages. *)
Definition ins (addr cond op : Z) (regs written read : list Z) : rcand :=
  mkR (mkD (addr + 100) addr false cond op (match regs with [] => [18] | _ => regs end) written read written read false KOther None) regs false [].
Definition dropped (c : rcand) : rcand := mkR (set_ignore (r_inst c)) (r_regs c) (r_flags c) (r_scores c).
Definition flagged (c : rcand) : rcand := mkR (r_inst c) (r_regs c) true (r_scores c).
Definition r_a := ins 0 14 5 [0] [0] [].            (* writes r0 *)
Definition r_b := ins 4 14 6 [1; 0] [1] [0].        (* reads r0, writes r1 *)
Definition r_x := ins 4 1 7 [2; 0] [2] [0].         (* another candidate for the second *)
Definition r_orig := [r_a; r_b].
Definition r_col := collect new_collector (map r_inst r_orig).
Definition r_prog : rprogram := [(0, [r_a]); (4, [r_b; r_x])].
(** The same with an ignored candidate before the only defined one. *)
Definition r_prog2 : rprogram := [(0, [dropped (ins 0 3 9 [5] [5] []); r_a]); (4, [r_b; r_x])].

Lemma r_original p : p = r_prog \/ p = r_prog2 -> original_among r_orig p.
Proof. intros H. assert (D : NoDup [0; 4]) by (repeat constructor; cbn; intuition discriminate).
  assert (RS : forall c, In c [r_a; r_b; r_x; dropped (ins 0 3 9 [5] [5] [])] -> regs_and_storages c).
  { intros c I. assert (E : d_used (r_inst c) = r_regs c /\ ~ In 16 (r_regs c) /\ ~ In 18 (r_regs c)).
    { cbn [In] in I. destruct I as [<-|[<-|[<-|[<-|[]]]]]; (split; [reflexivity|]); split; vm_compute; intuition discriminate. }
    destruct E as (E & E1 & E2). split; [|split; assumption]. exists []. rewrite app_nil_r. split; [exact E|]. intros v []. }
  split; [exact D|]. split; [destruct H as [->| ->]; exact D|]. split; [|split].
  - assert (W : forall (l : list rcand) o, In o l -> exists c, In c l /\ r_inst c = r_inst o /\ r_regs c = r_regs o) by (intros l o I; exists o; auto).
    assert (K : forall o a l, r_ignore o = false -> dget p a = Some l -> a = d_addr (r_inst o) -> In o l -> r_ignore o = false /\ exists l c, dget p (d_addr (r_inst o)) = Some l /\ In c l /\ r_inst c = r_inst o /\ r_regs c = r_regs o).
    { intros o a l G0 G1 -> G2. split; [exact G0|]. exists l, o. auto. }
    intros o [<-|[<-|[]]]; [apply (K r_a 0 (match dget p 0 with Some l => l | None => [] end))|apply (K r_b 4 [r_b; r_x])]; destruct H as [->| ->]; cbn; auto.
  - intros a I. destruct H as [->| ->]; destruct I as [<-|[<-|[]]]; [exists r_a|exists r_b|exists r_a|exists r_b]; (split; [cbn; auto|reflexivity]).
  - intros a l c I J. apply RS. destruct H as [->| ->]; destruct I as [E|[E|[]]]; injection E as <- <-; cbn [In] in *; intuition. Qed.
Lemma r_first : first_defined r_prog.
Proof. intros a l [E|[E|[]]]; injection E as <- <-; intros R; [|discriminate R]. exists r_a, []. split; reflexivity. Qed.
Lemma r_conditions : conditions_ok r_prog.
Proof. intros a l c [E|[E|[]]]; injection E as <- <-; intros I _; cbn [In] in I; [destruct I as [<-|[]]|destruct I as [<-|[<-|[]]]]; vm_compute; intuition discriminate. Qed.
Lemma r_storages : storages_ok r_prog.
Proof. intros a l c r [E|[E|[]]]; injection E as <- <-; intros I _ J; cbn [In] in I; [destruct I as [<-|[]]|destruct I as [<-|[<-|[]]]]; vm_compute in J; intuition lia. Qed.

Lemma forall2_weaken {A B} (R1 R2 : A -> B -> Prop) : (forall a b, R1 a b -> R2 a b) -> forall l1 l2, Forall2 R1 l1 l2 -> Forall2 R2 l1 l2.
Proof. intros W l1 l2 F. induction F; constructor; auto. Qed.

(** *** C85: what the counting rules compute *)
(** For ConditionalCount, InstructionCount and RegisterCount: after recover(address)
    on a new rule, each defined candidate of the address has the mean, over its
    values, of (metadata count - occurrences in resolved addresses) / (occurrences
    among candidates of the other addresses), plus what the rule adds; ignored
    candidates and other scores keep; the answer says whether something changed.
    Missing: only if the defined candidate of each resolved address comes first. *)
Theorem C85_mean_of_shares_partial : forall r pass col p a l, dget p a = Some l -> known_values r col p -> first_defined p ->
  exists l' cache b, run_rule r pass col [] p a = Ok (dset p a l', cache, b) /\
    Forall2 (fun c c' => if r_ignore c then c' = c else got (key r pass) (added r c + mean_chance (values_of r) (counts_of r col) p c) c c') l l' /\
    (b = true <-> ~ Forall2 same_cand l l').
Proof. exact rule_runs. Qed.
(** With an ignored candidate first the address is not counted as resolved. *)
Theorem C85_mean_of_shares_refuted : exists r pass col p a l c p' cache b c', dget p a = Some l /\ known_values r col p /\ In c l /\ r_ignore c = false /\
  run_rule r pass col [] p a = Ok (p', cache, b) /\ (exists l', dget p' a = Some l' /\ In c' l' /\ r_inst c' = r_inst c) /\
  ~ got (key r pass) (added r c + mean_chance (values_of r) (counts_of r col) p c) c c'.
Proof. exists ByCond, 0, r_col, r_prog2, 4, [r_b; r_x], r_b.
  destruct (run_rule ByCond 0 r_col [] r_prog2 4) as [[[p' cache] b]|] eqn:E; [|vm_compute in E; discriminate].
  vm_compute in E. injection E as <- <- <-. eexists _, _, _, (with_scores r_b [(1, 2 # 1)]). split; [reflexivity|]. split; [exact (known_of_original ByCond r_orig r_prog2 (r_original _ (or_intror eq_refl)))|]. split; [left; reflexivity|]. split; [reflexivity|]. split; [reflexivity|]. split.
  - eexists. split; [reflexivity|]. split; [left; reflexivity|reflexivity].
  - intros (_ & _ & _ & (q & G & Q) & _). vm_compute in G. injection G as <-. vm_compute in Q. discriminate. Qed.
(** A resolved address with a value the metadata does not know: KeyError. *)
Theorem C85_unknown_value : forall r pass col p a b c l v, In (b, c :: l) p -> r_ignore c = false -> resolved (c :: l) = true -> In v (values_of r c) ->
  dget (counts_of r col) v = None -> run_rule r pass col [] p a = Err KeyError.
Proof. intros r pass col p a b c l v I J R V N. rewrite run_rule_unfold. unfold recover_count, remaining_scores.
  match goal with |- context [foldM ?f ?x ?y] => replace (foldM f x y) with (@Err (dict Z * dict Z) KeyError); [reflexivity|symmetry] end.
  apply (count_fold_err (values_of r) (dvalues p) (counts_of r col) [] c l v); [apply dvalues_in; exists b; exact I| | | |]; assumption. Qed.
Example C85_example : known_values ByReg r_col r_prog /\ first_defined r_prog /\
  (mean_chance (values_of ByReg) (counts_of ByReg r_col) r_prog r_b == 3 # 4)%Q /\ (mean_chance (values_of ByCond) (counts_of ByCond r_col) r_prog r_x == 0)%Q.
Proof. split; [exact (known_of_original ByReg r_orig r_prog (r_original _ (or_introl eq_refl)))|]. split; [exact r_first|]. split; vm_compute; reflexivity. Qed.
Print Assumptions C85_mean_of_shares_partial.
Print Assumptions C85_mean_of_shares_refuted.
Print Assumptions C85_unknown_value.

(** *** C86: counting scores are probabilities *)
(** Metadata of an original program that is among the candidates: recover never
    raises, every defined candidate gets a score in [0, 1] (plus what the rule adds
    for branches), and the original of an unresolved address gets a positive one if
    it has any value.  Missing: only if the defined candidate of each resolved
    address comes first. *)
Theorem C86_scores_in_range_partial : forall r pass orig p a l, original_among orig p -> first_defined p -> dget p a = Some l ->
  exists l' cache b, run_rule r pass (collect new_collector (map r_inst orig)) [] p a = Ok (dset p a l', cache, b) /\
    Forall2 (fun c c' => r_ignore c = false -> exists q, dget (r_scores c') (key r pass) = Some q /\ (added r c <= q /\ q <= 1 + added r c)%Q /\
               (resolved l = false -> (exists o, In o orig /\ d_addr (r_inst o) = a /\ values_of r o = values_of r c) -> values_of r c <> [] -> (0 < q)%Q)) l l'.
Proof. intros r pass orig p a l O FD G. destruct (rule_runs r pass (collect new_collector (map r_inst orig)) p a l G (known_of_original r orig p O) FD) as (l' & cache & b & E & F & _).
  exists l', cache, b. split; [exact E|]. pose proof (dget_in _ _ _ G) as I.
  assert (H : Forall2 (fun c c' => In c l /\ if r_ignore c then c' = c else got (key r pass) (added r c + mean_chance (values_of r) (counts_of r (collect new_collector (map r_inst orig))) p c) c c') l l').
  { clear - F. assert (W : forall x, (forall c, In c x -> In c l) -> forall y, Forall2 (fun c c' => if r_ignore c then c' = c else got (key r pass) (added r c + mean_chance (values_of r) (counts_of r (collect new_collector (map r_inst orig))) p c) c c') x y ->
      Forall2 (fun c c' => In c l /\ if r_ignore c then c' = c else got (key r pass) (added r c + mean_chance (values_of r) (counts_of r (collect new_collector (map r_inst orig))) p c) c c') x y); [|apply W; auto].
    intros x S y X. induction X as [|c c' x y H X IH]; constructor; [split; [apply S; left; reflexivity|exact H]|]. apply IH. intros z Iz. apply S. right; exact Iz. }
  clear F. revert H. apply forall2_weaken. intros c c' [J K] Ig. rewrite Ig in K. destruct K as (_ & _ & _ & (q & Gq & Q) & _). exists q. split; [exact Gq|].
  assert (A0 : (0 <= added r c)%Q) by (destruct r; cbn [added]; try lra; destruct (d_branch (r_inst c)); [vm_compute; discriminate|lra]).
  set (ch := chance (values_of r) (counts_of r (collect new_collector (map r_inst orig))) p) in *. unfold mean_chance in Q. fold ch in Q.
  destruct (mean_bounds (map ch (values_of r c))) as (B & P).
  { apply Forall_forall. intros z Z0. apply in_map_iff in Z0. destruct Z0 as (v & <- & V). exact (proj1 (chance_bounds r orig p a l c v O I J V)). }
  rewrite map_length in B, P. destruct B as (B1 & B2). split; [lra|]. intros U X N. assert (M : (0 < qsum (map ch (values_of r c)) / inject_Z (Z.of_nat (length (values_of r c))))%Q); [|lra]. apply P.
  - destruct (values_of r c); [congruence|discriminate].
  - apply Forall_forall. intros z Z0. apply in_map_iff in Z0. destruct Z0 as (v & <- & V). apply (proj2 (chance_bounds r orig p a l c v O I J V) U); [|exact Ig]. destruct X as (o & X1 & X2 & X3). exists o. auto. Qed.
Theorem C86_scores_in_range_refuted : exists r pass orig p a p' cache b l' c' q, original_among orig p /\
  run_rule r pass (collect new_collector (map r_inst orig)) [] p a = Ok (p', cache, b) /\ dget p' a = Some l' /\ In c' l' /\ r_ignore c' = false /\
  d_branch (r_inst c') = false /\ dget (r_scores c') (key r pass) = Some q /\ (1 < q)%Q.
Proof. exists ByCond, 0, r_orig, r_prog2, 4. destruct (run_rule ByCond 0 (collect new_collector (map r_inst r_orig)) [] r_prog2 4) as [[[p' cache] b]|] eqn:E; [|vm_compute in E; discriminate].
  vm_compute in E. injection E as <- <- <-. eexists _, _, _, _, _, _. split; [apply r_original; auto|]. split; [reflexivity|]. split; [reflexivity|]. split; [left; reflexivity|]. repeat split. Qed.
Example C86_example : original_among r_orig r_prog /\ first_defined r_prog /\ dget r_prog 4 = Some [r_b; r_x] /\ resolved [r_b; r_x] = false /\
  match run_rule ByInst 0 r_col [] r_prog 4 with Ok (p', _, _) => rmap (map r_scores) (dget_r p' 4) | Err e => Err e end = Ok [[(2, 1%Q)]; [(2, 0%Q)]].
Proof. split; [apply r_original; auto|]. split; [exact r_first|]. repeat split. Qed.
Print Assumptions C86_scores_in_range_partial.
Print Assumptions C86_scores_in_range_refuted.

(** *** C87: the answer of recover says whether a score changed *)
(** Proved for four rules; missing: RegisterReadDistance, where it fails both ways. *)
Theorem C87_answer_partial : forall p a l,
  (forall pass m, conditions_ok p -> dget p a = Some l -> exists p' b, control_flow pass m p a = Ok (p', b) /\ (b = true <-> ~ same_program p p')) /\
  (forall r pass col, known_values r col p -> first_defined p -> dget p a = Some l -> exists p' cache b, run_rule r pass col [] p a = Ok (p', cache, b) /\ (b = true <-> ~ same_program p p')).
Proof. intros p a l.
  assert (W : forall l', dget p a = Some l -> (Forall2 same_cand l l' <-> same_program p (dset p a l'))).
  { intros l' G. split; [apply same_program_dset, G|]. intros S. clear - G S. induction p as [|[k x] p IH]; [discriminate|]. cbn [dget dset] in *. destruct (a =? k); inversion S as [|? ? ? ? (A & B) S']; subst; [injection G as ->; exact B|exact (IH G S')]. }
  split.
  - intros pass m C G. destruct (control_flow_spec pass m p a l C G) as (l' & b & E & _ & B). exists (dset p a l'), b. split; [exact E|]. rewrite <- (W l' G). exact B.
  - intros r pass col K FD G. destruct (rule_runs r pass col p a l G K FD) as (l' & cache & b & E & _ & B). exists (dset p a l'), cache, b. split; [exact E|]. rewrite <- (W l' G). exact B. Qed.
Definition r_far := ins 8 14 6 [1; 0] [1] [0].
Definition r_dist := mkCollector [] [] [] [(0, 0)] [(0, 1)] [] [].
Definition r_prog3 : rprogram := [(4, [ins 4 14 5 [0] [0] []; ins 4 14 5 [3] [3] []]); (8, [with_scores r_far [(4, ((1 # 2) + EPSILON)%Q)]])].
Theorem C87_answer_refuted :
  (exists pass col p a p', read_distance pass col p a = Ok (p', false) /\ ~ same_program p p') /\
  (exists pass col p a p', read_distance pass col p a = Ok (p', true) /\ same_program p p').
Proof. split.
  - exists 0, r_dist, [(4, [dropped r_b])], 4. eexists. split; [reflexivity|]. intros S. inversion S as [|? ? ? ? (_ & F) _]; subst. cbn [snd] in F. inversion F as [|? ? ? ? (_ & _ & _ & X) _]; subst. exact (X 4).
  - exists 0, r_dist, r_prog3, 8. destruct (read_distance 0 r_dist r_prog3 8) as [[p' b]|] eqn:E; [|vm_compute in E; discriminate]. exists p'. vm_compute in E. injection E as <- <-. split; [reflexivity|].
    repeat constructor; try reflexivity; intros k; cbn [r_scores with_scores ins r_far dget]; try exact I. destruct (k =? 4); [|exact I]. vm_compute. reflexivity. Qed.
Example C87_example : conditions_ok r_prog /\ known_values ByInst r_col r_prog /\ first_defined r_prog /\ dget r_prog 4 = Some [r_b; r_x] /\
  rmap snd (control_flow 0 default_model r_prog 4) = Ok true.
Proof. split; [exact r_conditions|]. split; [exact (known_of_original ByInst r_orig r_prog (r_original _ (or_introl eq_refl)))|]. split; [exact r_first|]. split; reflexivity. Qed.
Print Assumptions C87_answer_partial.
Print Assumptions C87_answer_refuted.

(** *** C88: calling a rule again at the same address changes nothing *)
Theorem C88_again : forall pass p a,
  (forall m p1 b, control_flow pass m p a = Ok (p1, b) -> control_flow pass m p1 a = Ok (p1, false)) /\
  (forall r col cache p1 cache1 b, run_rule r pass col cache p a = Ok (p1, cache1, b) -> run_rule r pass col cache1 p1 a = Ok (p1, cache1, false)) /\
  (forall col p1 b, read_distance pass col p a = Ok (p1, b) -> exists p2 b2, read_distance pass col p1 a = Ok (p2, b2) /\ same_program p1 p2).
Proof. intros pass p a. split; [|split]; intros.
  - eapply control_flow_twice; eassumption.
  - eapply run_rule_twice; eassumption.
  - eapply read_distance_twice; eassumption. Qed.
Example C88_example : (exists p1, control_flow 0 default_model r_prog 4 = Ok (p1, true)) /\ (exists p1 c1, run_rule ByReg 0 r_col [] r_prog 4 = Ok (p1, c1, true)) /\
  (exists p1, read_distance 0 r_col r_prog 4 = Ok (p1, true)).
Proof. split; [eexists; vm_compute; reflexivity|]. split; [eexists _, _; vm_compute; reflexivity|]. eexists; vm_compute; reflexivity. Qed.
Print Assumptions C88_again.

(** *** C89: the control-flow rule *)
(** The exact score: a bonus for conditions that the neighbours have, a malus for
    "always" after a flag setter, a bonus for jumps into the program. *)
Theorem C89_flow_score : forall pass m p a l, conditions_ok p -> dget p a = Some l ->
  exists l' b, control_flow pass m p a = Ok (dset p a l', b) /\ Forall2 (fun c c' => got (key_of RCfg pass) (flow_score m p a c) c c') l l'.
Proof. intros pass m p a l C G. destruct (control_flow_spec pass m p a l C G) as (l' & b & E & F & _). exists l', b. auto. Qed.
(** Never negative; positive for defined candidates.  Missing: candidates without condition (C89_lowest). *)
Theorem C89_not_negative_partial : forall m p a c, (0 <= cond_both m)%Q -> (0 <= any_jump m)%Q -> d_cond (r_inst c) <> 14 ->
  (0 <= flow_score m p a c)%Q /\ (r_ignore c = false -> (0 < flow_score m p a c)%Q).
Proof. intros m p a c B J N. unfold flow_score. destruct (r_ignore c); [split; [lra|discriminate]|].
  assert (E0 : (0 < EPSILON)%Q) by reflexivity.
  assert (P : forall x, (0 <= neighbour m p x (d_cond (r_inst c)))%Q).
  { intros x. unfold neighbour. destruct (Z.eqb_spec (all_at p x) 0) as [Z0|Z0]; [lra|]. assert (A : (0 < inject_Z (all_at p x))%Q) by (change 0%Q with (inject_Z 0); rewrite <- Zlt_Qlt; unfold all_at in *; lia).
    apply Qle_shift_div_l; [exact A|]. rewrite Qmult_0_l. apply Qmult_le_0_compat; [exact B|]. assert (X : (0 <= inject_Z (number_at (has_cond (d_cond (r_inst c))) p x))%Q) by (change 0%Q with (inject_Z 0); rewrite <- Zle_Qle; unfold number_at; lia). lra. }
  pose proof (P (a - 4)) as P1. pose proof (P (a + 4)) as P2. unfold flag_loss. replace (d_cond (r_inst c) =? 14) with false by lia. cbn [andb].
  assert (G : (0 <= jump_gain m p (r_inst c))%Q) by (unfold jump_gain; destruct (d_branch (r_inst c)); [destruct (d_jump (r_inst c)); [destruct (dmem p z)|]|]; lra).
  split; [lra|]. intros _. lra. Qed.
Definition r_flow : rprogram := [(0, [flagged (ins 0 0 5 [0] [0] [])]); (4, [r_b; r_x])].
Theorem C89_not_negative_refuted : exists p a c, conditions_ok p /\ (exists l, dget p a = Some l /\ In c l) /\ r_ignore c = false /\ (flow_score default_model p a c < 0)%Q.
Proof. exists r_flow, 4, r_b. split; [|split; [exists [r_b; r_x]; split; [reflexivity|left; reflexivity]|split; [reflexivity|vm_compute; reflexivity]]].
  intros a l c [E|[E|[]]]; injection E as <- <-; intros I _; cbn [In] in I; [destruct I as [<-|[]]|destruct I as [<-|[<-|[]]]]; vm_compute; intuition discriminate. Qed.
Example C89_example : conditions_ok r_prog /\ dget r_prog 4 = Some [r_b; r_x] /\ (flow_score default_model r_prog 4 r_b == EPSILON + (7 # 10) * (EPSILON + 1))%Q /\ (flow_score default_model r_prog 4 r_x == EPSILON + (7 # 10) * EPSILON)%Q /\ d_cond (r_inst r_x) <> 14.
Proof. split; [exact r_conditions|]. split; [reflexivity|]. split; [vm_compute; reflexivity|]. split; [vm_compute; reflexivity|]. vm_compute. discriminate. Qed.
Print Assumptions C89_flow_score.
Print Assumptions C89_not_negative_partial.
Print Assumptions C89_not_negative_refuted.

(** *** C90: the distance rule *)
(** Every score it leaves is in [0, 1]; ignored candidates get 0; other candidates
    keep their other scores; it raises for no address of the program.  Missing: only
    if no defined candidate of a program reads a storage beyond the twenty known ones. *)
Theorem C90_distance_score_partial : forall pass col p a l, storages_ok p -> dget p a = Some l ->
  exists l' b, read_distance pass col p a = Ok (dset p a l', b) /\
    Forall2 (fun c c' => (c' = c \/ exists q, got (key_of RDist pass) q c c' /\ prob q /\ (r_ignore c = true -> (q == 0)%Q)) /\ (r_ignore c = true -> exists q, got (key_of RDist pass) q c c')) l l'.
Proof. intros pass col p a l SO G. destruct (read_distance_ok pass col p a l SO G) as (l' & b & os & E & Fs & L & F). exists l', b. split; [exact E|]. clear E SO G.
  revert os l' L Fs F. generalize (@None Z) as w. induction l as [|c l IH]; intros w os l' L Fs F.
  - destruct os; [|discriminate]. cbn [combine] in F. inversion F. constructor.
  - destruct os as [|o os]; [discriminate|]. cbn [combine] in F. inversion F as [|? c' ? r' G' F']; subst. cbn [fst snd] in G'. cbn [final_scores] in Fs.
    destruct (final_score col p a w c) as [[o1 w1]|e] eqn:E1; cbn [bind] in Fs; [|discriminate]. destruct (final_scores col p a w1 l) as [os1|e] eqn:E2; cbn [bind] in Fs; [|discriminate]. injection Fs as <- <-.
    constructor; [|exact (IH w1 os1 r' ltac:(cbn [length] in L; lia) E2 F')].
    assert (Z0 : r_ignore c = true -> o1 = Some 0%Q) by (unfold final_score, r_ignore in *; intros X; rewrite X in E1; congruence).
    destruct o1 as [q|]; cbn [got_if] in G'.
    + split; [right; exists q; split; [exact G'|split; [exact (final_bounds _ _ _ _ _ _ _ E1)|]]|intros _; exists q; exact G']. intros X. specialize (Z0 X). injection Z0 as ->. reflexivity.
    + split; [left; exact G'|]. intros X. specialize (Z0 X). discriminate. Qed.
(** A storage numbered 20 or more, written before and read now: IndexError. *)
Definition r_copro : rprogram := [(4, [ins 4 14 5 [25; 0] [25] []]); (8, [ins 8 14 6 [1; 25; 0] [1] [25; 0]; r_far])].
Theorem C90_distance_score_refuted : exists pass col p a, (exists l, dget p a = Some l) /\ read_distance pass col p a = Err IndexError.
Proof. exists 0, r_dist, r_copro, 8. split; [eexists; reflexivity|]. vm_compute. reflexivity. Qed.
Example C90_example : storages_ok r_prog /\ dget r_prog 4 = Some [r_b; r_x] /\ match read_distance 0 r_col r_prog 4 with Ok (p', _) => rmap (map r_scores) (dget_r p' 4) | Err e => Err e end = Ok [[(4, EPSILON)]; [(4, EPSILON)]].
Proof. split; [exact r_storages|]. split; vm_compute; reflexivity. Qed.
Print Assumptions C90_distance_score_partial.
Print Assumptions C90_distance_score_refuted.

(** *** C91: full credit for a certain write *)
(** A candidate reads one register, and the only defined candidate [d] words before
    it writes exactly that register, with [d] between the recorded minimum and
    maximum: score 1.  Missing: [d] counts the instructions between, so the writer is
    [d + 1] words before; see the refutation. *)
Theorem C91_certain_write_partial : forall pass col p a l c r d lo hi prev x, storages_ok p -> dget p a = Some l -> In c l -> r_ignore c = false ->
  d_used (r_inst c) <> [] -> d_read (r_inst c) = [r] -> dget (min_dist col) r = Some lo -> dget (max_dist col) r = Some hi -> lo < 2 ^ 63 - 1 -> - (2 ^ 63 - 1) < hi -> lo <= d <= hi ->
  dget p (a - 4 * d) = Some prev -> live prev = [x] -> d_written (r_inst x) = [r] ->
  exists l' b c', read_distance pass col p a = Ok (dset p a l', b) /\ In c' l' /\ got (key_of RDist pass) 1 c c'.
Proof. intros pass col p a l c r d lo hi prev x SO G I Ig Us Rd Lo Hi Ml Mh D Gp Lv W.
  destruct (read_distance_ok pass col p a l SO G) as (l' & b & os & E & Fs & L & F). exists l', b.
  assert (Hr : 0 <= r < 20) by (apply (SO a l c r (dget_in _ _ _ G) I Ig); rewrite Rd; left; reflexivity).
  assert (One : forall w, exists w', final_score col p a w c = Ok (Some 1%Q, w')).
  { intros w. unfold final_score. unfold r_ignore in Ig. rewrite Ig. destruct (d_used (r_inst c)); [congruence|]. rewrite Rd. apply (back_credit p r _ (a - 4 * d) prev x Hr); try assumption; [|reflexivity].
    unfold positions_of. apply in_map_iff. exists d. split; [reflexivity|]. apply in_zrange. unfold lowest_distance, highest_distance. cbn [fold_left]. rewrite Lo, Hi. unfold MAXSIZE. replace (lo <? 2 ^ 63 - 1) with true by lia. replace (hi >? - (2 ^ 63 - 1)) with true by lia. lia. }
  assert (X : exists c', In c' l' /\ got (key_of RDist pass) 1 c c'); [|destruct X as (c' & X1 & X2); exists c'; auto].
  clear - I One L Fs F. revert os l' L Fs F. generalize (@None Z) as w. induction l as [|y l IH]; intros w os l' L Fs F; [destruct I|].
  destruct os as [|o os]; [discriminate|]. cbn [combine] in F. inversion F as [|? c' ? r' G' F']; subst. cbn [fst snd] in G'. cbn [final_scores] in Fs.
  destruct (final_score col p a w y) as [[o1 w1]|e] eqn:E1; cbn [bind] in Fs; [|discriminate]. destruct (final_scores col p a w1 l) as [os1|e] eqn:E2; cbn [bind] in Fs; [|discriminate]. injection Fs as <- <-.
  destruct I as [->|I].
  - destruct (One w) as (w' & E). rewrite E1 in E. injection E as -> ->. exists c'. split; [left; reflexivity|exact G'].
  - destruct (IH I w1 os1 r' ltac:(cbn [length] in L; lia) E2 F') as (z & Z1 & Z2). exists z. split; [right; exact Z1|exact Z2]. Qed.
(** The metadata of the original program r_a, r_b records distance 0 for r0; r_b
    reads it right after r_a wrote it, and gets next to nothing. *)
Theorem C91_certain_write_refuted : exists pass orig p a l c r d lo hi prev x l' b c' q, original_among orig p /\ storages_ok p /\ dget p a = Some l /\ In c l /\ In c orig /\
  d_read (r_inst c) = [r] /\ dget (min_dist (collect new_collector (map r_inst orig))) r = Some lo /\ dget (max_dist (collect new_collector (map r_inst orig))) r = Some hi /\ lo <= d <= hi /\
  dget p (a - 4 * (d + 1)) = Some prev /\ live prev = [x] /\ d_written (r_inst x) = [r] /\
  read_distance pass (collect new_collector (map r_inst orig)) p a = Ok (dset p a l', b) /\ In c' l' /\ r_inst c' = r_inst c /\ dget (r_scores c') (key_of RDist pass) = Some q /\ (q < 1 # 1000)%Q.
Proof. exists 0, r_orig, r_prog, 4, [r_b; r_x], r_b, 0, 0, 0, 0, [r_a], r_a, [with_scores r_b [(4, EPSILON)]; with_scores r_x [(4, EPSILON)]], true, (with_scores r_b [(4, EPSILON)]), EPSILON.
  split; [apply r_original; auto|]. split; [exact r_storages|]. split; [reflexivity|]. split; [left; reflexivity|]. split; [right; left; reflexivity|]. repeat (split; [try reflexivity; try lia; vm_compute; reflexivity|]). split; [left; reflexivity|]. repeat split. Qed.
Example C91_example : let p := [(4, [ins 4 14 5 [0] [0] []]); (8, [r_far; ins 8 1 7 [2; 0] [2] [0]])] in
  storages_ok p /\ dget (min_dist r_dist) 0 = Some 0 /\ dget (max_dist r_dist) 0 = Some 1 /\ d_read (r_inst r_far) = [0] /\
  match read_distance 0 r_dist p 8 with Ok (p', _) => rmap (map r_scores) (dget_r p' 8) | Err e => Err e end = Ok [[(4, 1%Q)]; [(4, 1%Q)]].
Proof. cbv zeta. split; [|repeat split; vm_compute; reflexivity].
  intros a l c r [E|[E|[]]]; injection E as <- <-; intros I _ J; cbn [In] in I; [destruct I as [<-|[]]|destruct I as [<-|[<-|[]]]]; vm_compute in J; intuition lia. Qed.
Print Assumptions C91_certain_write_partial.
Print Assumptions C91_certain_write_refuted.

(** *** C92: what Recuperator.recover touches *)
(** Addresses, candidates and their order stay; single candidates are left alone;
    instructions keep everything but the ignore mark, which is only ever set; with
    one pass not even that.  With one pass and the original among the candidates
    (conditions and storages in range, no ignored candidate before a sole defined
    one) it does not raise. *)
Theorem C92_recuperator : forall passes col p,
  (forall p', rule_recover passes col p = Ok p' -> evolves same_object p p' /\ (passes <= 1 -> evolves only_scores p p')) /\
  (forall orig, col = collect new_collector (map r_inst orig) -> original_among orig p -> first_defined p -> conditions_ok p -> storages_ok p -> passes <= 1 ->
   exists p', rule_recover passes col p = Ok p').
Proof. intros passes col p. split.
  - intros p'. apply recover_evolves.
  - intros orig -> O FD C SO P. apply single_pass_ok; [|exact P]. exact (conj O (conj FD (conj C SO))). Qed.
Example C92_example : original_among r_orig r_prog /\ first_defined r_prog /\ conditions_ok r_prog /\ storages_ok r_prog /\
  (exists p', rule_recover 1 r_col r_prog = Ok p' /\ map (fun kv => map (fun c => map fst (r_scores c)) (snd kv)) p' = [[[]]; [[0; 1; 2; 3; 4]; [0; 1; 2; 3; 4]]]).
Proof. split; [apply r_original; auto|]. split; [exact r_first|]. split; [exact r_conditions|]. split; [exact r_storages|]. eexists. split; vm_compute; reflexivity. Qed.
Print Assumptions C92_recuperator.

(** *** C93: the original is never discarded *)
(** At most one pass; [C93_kept_exactly] has the exact condition for more. *)
Theorem C93_original_kept_partial : forall passes col p p' a l c, passes <= 1 -> rule_recover passes col p = Ok p' -> dget p a = Some l -> In c l -> r_ignore c = false ->
  exists l' c', dget p' a = Some l' /\ In c' l' /\ r_inst c' = r_inst c /\ r_ignore c' = false.
Proof. intros passes col p p' a l c P E G I Ig. destruct (recover_evolves _ _ _ _ E) as [_ V]. destruct (evolves_get _ _ _ _ _ (V P) G) as (l' & G' & F). destruct (only_in_l _ _ _ F I) as (c' & J & (X & _)).
  exists l', c'. split; [exact G'|]. split; [exact J|]. split; [exact X|]. unfold r_ignore in *. rewrite X. exact Ig. Qed.
(** With two passes or more, where no score was zero or less before: exactly the
    contested candidates that got such a score are discarded. *)
Theorem C93_kept_exactly : forall passes col p p' a l, 2 <= passes -> NoDup (dkeys p) -> rule_recover passes col p = Ok p' ->
  (forall b lb c k q, In (b, lb) p -> In c lb -> In (k, q) (r_scores c) -> (0 < q)%Q) -> dget p a = Some l ->
  ((length l <= 1)%nat -> dget p' a = Some l) /\
  ((1 < length l)%nat -> exists l', dget p' a = Some l' /\
     Forall2 (fun c c' => same_object c c' /\ (r_ignore c' = true <-> r_ignore c = true \/ exists k q, In (k, q) (r_scores c') /\ (q <= 0)%Q)) l l').
Proof. intros passes col p p' a l P N E H G. destruct (recover_evolves _ _ _ _ E) as [V _]. split.
  - intros L. clear - V G L. induction V as [|[k x] [k' x'] p p' (A & B & C) F IH]; [discriminate|]. cbn [fst snd dget] in *. subst k'. destruct (a =? k); [|exact (IH G)]. injection G as ->. rewrite (C L). reflexivity.
  - intros L. destruct (recover_judged passes col p p' a l P N E H G L) as (l' & G' & J). destruct (evolves_get _ _ _ _ _ V G) as (l2 & G2 & F). rewrite G' in G2. injection G2 as <-. exists l'. split; [exact G'|].
    clear - J F. induction J as [|c c' l l' [J _] JF IH]; inversion F; subst; constructor; [split; assumption|]. apply IH. assumption. Qed.
Print Assumptions C93_kept_exactly.
Example C93_example_two_passes : (forall b lb c k q, In (b, lb) r_prog -> In c lb -> In (k, q) (r_scores c) -> (0 < q)%Q) /\
  exists p', rule_recover 2 r_col r_prog = Ok p' /\ map (fun kv => map r_ignore (snd kv)) p' = [[false]; [true; true]].
Proof. split; [|eexists; split; vm_compute; reflexivity]. intros b lb c k q [X|[X|[]]] I J; injection X as <- <-; destruct I as [<-|I]; try destruct I as [<-|I]; try destruct I; destruct J. Qed.
(** An instruction without registers among two candidates is discarded by the second pass. *)
Definition r_svc := ins 0 14 5 [] [] [].
Definition r_other := ins 0 1 7 [2] [2] [].
Theorem C93_original_kept_refuted : exists passes orig p p' l' c', passes = 2 /\ original_among orig p /\ first_defined p /\ conditions_ok p /\ storages_ok p /\
  rule_recover passes (collect new_collector (map r_inst orig)) p = Ok p' /\ orig = [r_svc] /\ dget p' 0 = Some l' /\ In c' l' /\ d_enc (r_inst c') = d_enc (r_inst r_svc) /\ d_op (r_inst c') = 5 /\ r_ignore c' = true.
Proof. destruct (rule_recover 2 (collect new_collector (map r_inst [r_svc])) [(0, [r_svc; r_other])]) as [p'|] eqn:E; [|vm_compute in E; discriminate].
  pose proof E as E'. vm_compute in E. injection E as E. exists 2, [r_svc], [(0, [r_svc; r_other])], p'.
  assert (T : match p' with (0, c' :: _ as l') :: _ => d_enc (r_inst c') = d_enc (r_inst r_svc) /\ d_op (r_inst c') = 5 /\ r_ignore c' = true | _ => False end) by (rewrite <- E; vm_compute; auto).
  destruct p' as [|[[| |] [|c' l']] p']; try destruct T. destruct H0 as [T2 T3]. exists (c' :: l'), c'. split; [reflexivity|]. split; [|split; [|split; [|split; [|split; [exact E'|]]]]].
  - split; [repeat constructor; intros []|]. split; [repeat constructor; intros []|]. split; [|split].
    + intros o [<-|[]]. split; [reflexivity|]. eexists _, _. split; [reflexivity|]. split; [left; reflexivity|]. split; reflexivity.
    + intros a [<-|[]]. exists r_svc. split; [left; reflexivity|reflexivity].
    + intros a l c [X|[]] I. injection X as <- <-. destruct I as [<-|[<-|[]]].
      * split; [exists [18]; split; [reflexivity|intros v [<-|[]]; auto]|]. split; intros [].
      * split; [exists []; split; [reflexivity|intros v []]|]. split; vm_compute; intuition discriminate.
  - intros a l [X|[]] R. injection X as <- <-. discriminate R.
  - intros a l c [X|[]] I _. injection X as <- <-. destruct I as [<-|[<-|[]]]; vm_compute; intuition discriminate.
  - intros a l c r [X|[]] I _ J. injection X as <- <-. destruct I as [<-|[<-|[]]]; vm_compute in J; intuition.
  - split; [reflexivity|]. split; [reflexivity|]. split; [left; reflexivity|]. auto. Qed.
Example C93_example : exists p', rule_recover 1 r_col r_prog = Ok p' /\ dget r_prog 4 = Some [r_b; r_x] /\ r_ignore r_b = false.
Proof. eexists. split; [vm_compute; reflexivity|]. split; reflexivity. Qed.
Print Assumptions C93_original_kept_partial.
Print Assumptions C93_original_kept_refuted.

(** *** C113: one pass gives every contested candidate the score of each rule alone *)
Theorem C113_each_rule_alone : forall col (p p' : rprogram) a l, NoDup (dkeys p) -> rule_recover 1 col p = Ok p' -> dget p a = Some l -> (1 < length l)%nat -> exists l', dget p' a = Some l' /\
  (exists la b, control_flow 0 default_model p a = Ok (dset p a la, b) /\ Forall2 (agree (key_of RCfg 0)) la l') /\
  (forall r, exists la cache b, run_rule r 0 col [] p a = Ok (dset p a la, cache, b) /\ Forall2 (agree (key r 0)) la l') /\
  (exists la b, read_distance 0 col p a = Ok (dset p a la, b) /\ Forall2 (agree (key_of RDist 0)) la l').
Proof. exact one_pass_alone. Qed.
Print Assumptions C113_each_rule_alone.
(** In terms of the specifications of the rules. *)
Theorem C113_scores : forall orig p, let col := collect new_collector (map r_inst orig) in original_among orig p -> first_defined p -> conditions_ok p -> storages_ok p ->
  exists p', rule_recover 1 col p = Ok p' /\ forall a l, dget p a = Some l -> (1 < length l)%nat -> exists l', dget p' a = Some l' /\
    Forall2 (fun c c' => same_number (dget (r_scores c') (key_of RCfg 0)) (Some (flow_score default_model p a c))) l l' /\
    forall r, Forall2 (fun c c' => r_ignore c = false -> same_number (dget (r_scores c') (key r 0)) (Some (added r c + mean_chance (values_of r) (counts_of r col) p c)%Q)) l l'.
Proof. intros orig p col O FD CO SO. destruct (proj2 (C92_recuperator 1 col p) orig eq_refl O FD CO SO ltac:(lia)) as (p' & E). exists p'. split; [exact E|]. intros a l G L.
  destruct (C113_each_rule_alone col p p' a l (proj1 (proj2 O)) E G L) as (l' & G' & (lf & b1 & E1 & A1) & A2 & _). exists l'. split; [exact G'|].
  assert (D : forall x y : list rcand, dset p a x = dset p a y -> x = y). { intros x y D. assert (X : dget (dset p a x) a = dget (dset p a y) a) by (rewrite D; reflexivity). rewrite !dget_dset, Z.eqb_refl in X. congruence. }
  assert (C : forall (P : rcand -> Q) (I : rcand -> bool) k lm, Forall2 (fun c cm => I c = true \/ got k (P c) c cm) l lm -> Forall2 (agree k) lm l' -> Forall2 (fun c c' => I c = false -> same_number (dget (r_scores c') k) (Some (P c))) l l').
  { clear. intros P I k lm F. revert l'. induction F as [|c cm l lm H F IH]; intros l' A; inversion A as [|? c' ? ? A0 A']; subst; constructor; [|exact (IH _ A')]. intros Ic. destruct H as [H|H]; [congruence|].
    destruct H as (_ & _ & _ & (q & Q & Qe) & _). unfold agree in A0. rewrite Q in A0. destruct (dget (r_scores c') k); cbn [same_number] in *; [|contradiction]. rewrite <- A0. exact Qe. }
  split.
  - destruct (C89_flow_score 0 default_model p a l CO G) as (lm & b & Em & F). rewrite E1 in Em. injection Em as Em _. apply D in Em. subst lm.
    assert (X : Forall2 (fun c c' => false = false -> same_number (dget (r_scores c') (key_of RCfg 0)) (Some (flow_score default_model p a c))) l l').
    { apply (C (flow_score default_model p a) (fun _ => false) _ lf); [|exact A1]. clear - F. induction F; constructor; auto. }
    clear - X. induction X; constructor; auto.
  - intros r. destruct (A2 r) as (la & cache & b & Er & Ar). destruct (C85_mean_of_shares_partial r 0 col p a l G (known_of_original r orig p O) FD) as (lm & c2 & b2 & Em & F & _). rewrite Er in Em. injection Em as Em _ _. apply D in Em. subst lm.
    apply (C (fun c => (added r c + mean_chance (values_of r) (counts_of r col) p c)%Q) r_ignore _ la); [|exact Ar]. clear - F. induction F as [|c c' l l' H F IH]; constructor; [|exact IH]. destruct (r_ignore c); auto. Qed.
Print Assumptions C113_scores.
Example C113_example : original_among r_orig r_prog /\ first_defined r_prog /\ conditions_ok r_prog /\ storages_ok r_prog /\ dget r_prog 4 = Some [r_b; r_x] /\
  exists p', rule_recover 1 r_col r_prog = Ok p' /\ map (fun c => map (fun k => match dget (r_scores c) k with Some q => Qred q | None => 7%Q end) [1; 2; 3; 4]) (nth 1 (map snd p') []) = [[1; 1; 3 # 4; EPSILON]; [0; 0; 1 # 4; EPSILON]]%Q.
Proof. split; [apply r_original; auto|]. split; [exact r_first|]. split; [exact r_conditions|]. split; [exact r_storages|]. split; [reflexivity|]. eexists. split; vm_compute; reflexivity. Qed.
