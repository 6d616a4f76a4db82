(** C97, continued: exactly what the counters of a report count. *)
From Verif Require Import ListLemmas ReportModel ReportSpec ReportProofs ReportProps.
From Coq Require Import ZifyBool ZifyNat Permutation Sorted Lqa.

(** The list without the first candidate that passes the test, and the best of the
    candidates other than the leader. *)
Fixpoint without_first (f : pcand -> bool) (v : list pcand) : list pcand :=
  match v with [] => [] | c :: v' => if f c then v' else c :: without_first f v' end.
Definition second (v : list pcand) : option pcand :=
  match leader v with Some c => leader (without_first (fun d => Qeq_bool (p_score d) (p_score c)) v) | None => None end.
(** A verdict from the leader and the second. *)
Definition judged (f : porig -> pcand -> pcand -> bool) (o : porig) (v : list pcand) : bool :=
  match leader v, second v with Some c1, Some c2 => f o c1 c2 | _, _ => false end.
Definition counts_losing (o : porig) (c1 c2 : pcand) : bool := negb (p_text c1 =? po_text o) && negb (p_enc c1 =? p_enc c2).
Definition counts_tie (o : porig) (c1 c2 : pcand) : bool := negb (counts_losing o c1 c2) && Qeq_bool (p_score c1) (p_score c2) && negb (p_text c1 =? p_text c2).
Definition counts_recovered (o : porig) (c1 c2 : pcand) : bool := negb (counts_losing o c1 c2) && negb (Qeq_bool (p_score c1) (p_score c2) && negb (p_text c1 =? p_text c2)).

Lemma sort_front a : forall c b, (forall x, In x a -> (p_score x < p_score c)%Q) -> (forall x, In x b -> (p_score x <= p_score c)%Q) -> sort_best (a ++ c :: b) = c :: sort_best (a ++ b).
Proof. induction a as [|x a IH]; intros c b Ha Hb; cbn [app].
  - cbn [sort_best fold_right]. fold (sort_best b). destruct (sort_best b) as [|d w] eqn:E; [reflexivity|]. cbn [insert_best]. replace (Qle_bool (p_score d) (p_score c)) with true; [reflexivity|]. symmetry. apply Qle_bool_iff, Hb. eapply Permutation_in; [apply Permutation_sym, sort_best_perm|]. rewrite E. left. reflexivity.
  - cbn [sort_best fold_right]. fold (sort_best (a ++ c :: b)). fold (sort_best (a ++ b)). rewrite IH; [|intros y I; apply Ha; right; exact I|exact Hb]. cbn [insert_best]. replace (Qle_bool (p_score c) (p_score x)) with false; [reflexivity|]. symmetry. apply not_true_iff_false. rewrite Qle_bool_iff. pose proof (Ha x (or_introl eq_refl)). lra. Qed.
Lemma leader_split v : forall c, leader v = Some c -> exists a b, v = a ++ c :: b /\ (forall x, In x a -> (p_score x < p_score c)%Q) /\ (forall x, In x b -> (p_score x <= p_score c)%Q) /\ without_first (fun d => Qeq_bool (p_score d) (p_score c)) v = a ++ b.
Proof. induction v as [|x v IH]; intros c E; [discriminate|]. cbn [leader] in E. destruct (leader v) as [d|] eqn:L.
  - destruct (less (p_score x) (p_score d)) eqn:S.
    + assert (d = c) as -> by congruence. destruct (IH c eq_refl) as (a & b & -> & A & B & W). apply less_spec in S. exists (x :: a), b. split; [reflexivity|]. split; [intros y [<-|I]; [exact S|exact (A y I)]|]. split; [exact B|]. cbn [without_first app]. destruct (Qeq_bool (p_score x) (p_score c)) eqn:Q; [apply Qeq_bool_iff in Q; lra|]. rewrite W. reflexivity.
    + assert (c = x) as -> by congruence. destruct (IH d eq_refl) as (a & b & -> & A & B & W). apply less_false in S. exists [], (a ++ d :: b). split; [reflexivity|]. split; [intros y []|]. split.
      * intros y I. apply in_app_or in I. destruct I as [I|[<-|I]]; [specialize (A y I); lra|exact S|specialize (B y I); lra].
      * cbn [without_first app]. rewrite (Qeq_bool_refl (p_score x)). reflexivity.
  - assert (c = x) as -> by congruence. assert (v = []) as ->. { destruct v as [|y v]; [reflexivity|]. cbn [leader] in L. destruct (leader v) as [e|]; [destruct (less (p_score y) (p_score e))|]; discriminate. }
    exists [], []. split; [reflexivity|]. split; [intros y []|]. split; [intros y []|]. cbn [without_first app]. rewrite (Qeq_bool_refl (p_score x)). reflexivity. Qed.
Lemma two_best v : contested v = true -> exists c1 c2 w, sort_best v = c1 :: c2 :: w /\ leader v = Some c1 /\ second v = Some c2.
Proof. intros C. destruct (two_sorted v C) as (c1 & c2 & w & E). exists c1, c2, w. split; [exact E|]. assert (L : leader v = Some c1) by (rewrite leader_hd, E; reflexivity). split; [exact L|]. unfold second. rewrite L. destruct (leader_split v c1 L) as (a & b & Ev & A & B & W). rewrite W, leader_hd. rewrite Ev, sort_front in E by assumption. injection E as E. rewrite E. reflexivity. Qed.

Lemma one_exact t o v : contested v = true -> fst (report_one t o v) =
  mkTally (t_errors t + 1) (t_losing t + b2z (judged counts_losing o v)) (t_ties t + b2z (judged counts_tie o v)) (t_recovered t + b2z (judged counts_recovered o v)) (t_tie_sum t + (if judged counts_tie o v then at_top v else 0))
     (if judged counts_losing o v then match leader v with Some c => bad_rules (find (is o) v) c (t_bad t) | None => t_bad t end else t_bad t) (depth_loop o (sort_best v) true 0 (t_depths t)).
Proof. intros C. destruct (two_best v C) as (c1 & c2 & w & E & L & S). unfold judged. rewrite L, S. unfold report_one, contested in *. rewrite C, E. change (find_original o v) with (find (is o) v).
  assert (At : at_top v = tie_count (p_score c1) (c1 :: c2 :: w)). { unfold at_top. rewrite L, <- E. rewrite tie_sorted; [apply number_perm, sort_best_perm|apply sort_best_sorted|]. intros c Hc. pose proof (sort_best_sorted v) as So. rewrite E in Hc, So. inversion So as [|? ? _ F]; subst. destruct Hc as [<-|Hc]; [apply Qle_refl|]. rewrite Forall_forall in F. exact (F c Hc). }
  rewrite At. unfold counts_tie, counts_recovered, counts_losing. destruct (negb (p_text c1 =? po_text o) && negb (p_enc c1 =? p_enc c2)); cbn [negb andb b2z fst]; [f_equal; lia|].
  destruct (Qeq_bool (p_score c1) (p_score c2)); cbn [andb negb]; [|cbn [fst b2z]; f_equal; lia]. destruct (p_text c1 =? p_text c2); cbn [negb fst b2z]; f_equal; lia. Qed.
Definition in_verdict (f : porig -> pcand -> pcand -> bool) (ov : porig * list pcand) : bool := contested (snd ov) && judged f (fst ov) (snd ov).
Lemma loop_exact os : forall vs t t' ws, report_loop t os vs = (Ok t', ws) ->
  let P := combine os vs in
  t_losing t' = t_losing t + number (in_verdict counts_losing) P /\ t_ties t' = t_ties t + number (in_verdict counts_tie) P /\ t_recovered t' = t_recovered t + number (in_verdict counts_recovered) P /\
  t_tie_sum t' = t_tie_sum t + total (fun ov => if in_verdict counts_tie ov then at_top (snd ov) else 0) P /\
  ((forall v c, In v vs -> In c v -> NoDup (dkeys (p_rules c))) -> forall k, cell (t_bad t') k = cell (t_bad t) k + number (fun ov => in_verdict counts_losing ov && prefers k (fst ov) (snd ov)) P).
Proof. induction os as [|o os IH]; intros vs t t' ws E; cbv zeta.
  - cbn [report_loop] in E. assert (t' = t) as -> by (destruct vs; congruence). cbn [combine total fold_right]. unfold number; cbn [filter length]. repeat split; intros; lia.
  - destruct vs as [|v vs]; [discriminate|]. cbn [report_loop] in E. destruct (report_one t o v) as [t1 v1] eqn:E1. destruct (report_loop t1 os vs) as [r ws'] eqn:E2. assert (r = Ok t') as -> by congruence.
    specialize (IH vs t1 t' ws' E2). cbv zeta in IH. destruct IH as (I1 & I2 & I3 & I4 & I5).
    cbn [combine total fold_right] in *. rewrite !number_cons. unfold in_verdict at 1 3 5 7. cbn [fst snd]. destruct (contested v) eqn:C; cbn [andb].
    + pose proof (one_exact t o v C) as X. rewrite E1 in X. cbn [fst] in X. rewrite X in *. cbn [t_losing t_ties t_recovered t_tie_sum t_bad t_depths] in *. unfold b2z in *.
      split; [lia|]. split; [lia|]. split; [lia|]. split; [unfold total in *; lia|]. intros R k. specialize (I5 ltac:(intros ? ? X0; apply R; right; exact X0) k). rewrite I5, number_cons. unfold in_verdict at 2. cbn [fst snd]. rewrite C. cbn [andb]. destruct (judged counts_losing o v) eqn:Ld; cbn [andb]; [|lia]. unfold prefers at 2. destruct (leader v) as [c|] eqn:L; [|lia]. unfold bad_rules. destruct (find (is o) v) as [e|]; [|lia].
      rewrite bad_fold by (apply (R v); [left; reflexivity|]; rewrite leader_hd in L; eapply Permutation_in; [apply Permutation_sym, sort_best_perm|]; destruct (sort_best v); [discriminate|]; left; cbn in L; congruence). unfold b2z. destruct (dget (p_rules c) k); [|lia]. destruct (dget (p_rules e) k); lia.
    + rewrite report_one_other in E1 by exact C. injection E1 as <- _. split; [lia|]. split; [lia|]. split; [lia|]. split; [unfold total in *; lia|]. intros R k. specialize (I5 ltac:(intros ? ? X0; apply R; right; exact X0) k). rewrite I5, number_cons. unfold in_verdict at 2. cbn [fst snd]. rewrite C. cbn [andb]. lia. Qed.

Lemma completed os vs t : fst (print_report os vs) = Ok t -> exists ws, report_loop no_tally os vs = (Ok t, ws).
Proof. intros H. destruct (print_report_cases os vs) as (C1 & C2 & C3 & _). destruct (Nat.lt_ge_cases (length vs) (length os)) as [L|L]; [rewrite C1 in H by exact L; discriminate|].
  destruct (Z.eq_dec (number (fun ov : porig * list pcand => contested (snd ov)) (combine os vs)) 0) as [Z0|Z0]; [rewrite C2 in H by assumption; discriminate|]. destruct (C3 L Z0) as (t2 & X & Y). assert (t2 = t) as -> by congruence. destruct (report_loop no_tally os vs) as [r ws]. cbn [fst] in Y. subst. eauto. Qed.

(** Every report that completes, whatever the candidates: the verdicts depend on the leader
    and the second, on their texts, encodings and scores and on the text of the original. *)
Theorem C97_exactly : forall os vs t, fst (print_report os vs) = Ok t ->
  t_losing t = number (in_verdict counts_losing) (combine os vs) /\ t_ties t = number (in_verdict counts_tie) (combine os vs) /\ t_recovered t = number (in_verdict counts_recovered) (combine os vs) /\
  t_tie_sum t = total (fun ov => if in_verdict counts_tie ov then at_top (snd ov) else 0) (combine os vs).
Proof. intros os vs t H. destruct (completed os vs t H) as (ws & E). destruct (loop_exact os vs no_tally t ws E) as (A & B & D & F & _). cbn [t_losing t_ties t_recovered t_tie_sum no_tally] in *. repeat split; lia. Qed.
Print Assumptions C97_exactly.
(** The two reports of [C97_verdicts_refuted]. *)
Example C97_exactly_example : judged counts_recovered (mkPO 1 7) [mkP 2 7 false (1#2) []; mkP 1 7 false (1#3) []] = true /\
  judged counts_recovered (mkPO 1 7) [mkP 2 8 false (1#3) []; mkP 2 8 false (1#2) []; mkP 1 7 false (1#4) []] = true /\
  judged counts_losing (mkPO 1 7) [mkP 1 7 false (1#4) []; mkP 2 8 false (1#2) []; mkP 3 9 false (1#3) []] = true /\
  judged counts_tie (mkPO 1 7) [mkP 1 7 false (1#2) []; mkP 2 8 false (1#3) []; mkP 3 9 false (1#2) []] = true /\
  second [mkP 1 7 false (1#2) []; mkP 2 8 false (1#3) []; mkP 3 9 false (1#2) []] = Some (mkP 3 9 false (1#2) []).
Proof. repeat split. Qed.

(** The table of misleading rules, for every report that completes: a rule is counted at the
    positions counted as losing where its score for the leader exceeds its score for the first
    candidate with the original's encoding. *)
Theorem C101_exactly : forall os vs t k, (forall v c, In v vs -> In c v -> NoDup (dkeys (p_rules c))) -> fst (print_report os vs) = Ok t ->
  match dget (t_bad t) k with Some n => n | None => 0 end = number (fun ov => in_verdict counts_losing ov && prefers k (fst ov) (snd ov)) (combine os vs).
Proof. intros os vs t k R H. destruct (completed os vs t H) as (ws & E). destruct (loop_exact os vs no_tally t ws E) as (_ & _ & _ & _ & F). exact (F R k). Qed.
Print Assumptions C101_exactly.
Example C101_exactly_example :
  let v := [mkP 1 7 false (1#4) [(0, 1#3)]; mkP 1 7 false (1#5) [(0, 1#1)]; mkP 2 8 false (1#2) [(0, 1#2)]; mkP 3 9 false (1#3) [(0, 1#1)]] in
  exists t, fst (print_report [mkPO 1 7] [v]) = Ok t /\ t_bad t = [(0, 1)] /\ in_verdict counts_losing (mkPO 1 7, v) = true /\ prefers 0 (mkPO 1 7) v = true.
Proof. eexists. vm_compute. repeat split. Qed.
