From Verif Require Import ListLemmas ReportModel ReportSpec RecProofs.
From Coq Require Import ZifyBool ZifyNat Permutation Sorted Lqa.

Lemma less_spec a b : less a b = true <-> (a < b)%Q.
Proof. unfold less. rewrite negb_true_iff. rewrite <- not_true_iff_false, Qle_bool_iff. split; [apply Qnot_le_lt|apply Qlt_not_le]. Qed.
Lemma less_false a b : less a b = false <-> (b <= a)%Q.
Proof. unfold less. rewrite negb_false_iff. apply Qle_bool_iff. Qed.
Lemma number_app {A} f (l m : list A) : number f (l ++ m) = number f l + number f m.
Proof. unfold number. rewrite filter_app, app_length. lia. Qed.
Lemma number_cons {A} f (a : A) l : number f (a :: l) = (if f a then 1 else 0) + number f l.
Proof. unfold number. cbn [filter]. destruct (f a); cbn [length]; lia. Qed.
Lemma number_perm {A} f (l m : list A) : Permutation l m -> number f l = number f m.
Proof. intros P. unfold number. f_equal. induction P; cbn [filter]; try reflexivity; [destruct (f x); cbn [length]; lia|destruct (f x), (f y); reflexivity|congruence]. Qed.

(** ** The sort *)
Lemma insert_best_perm a l : Permutation (a :: l) (insert_best a l).
Proof. induction l as [|b l IH]; [apply Permutation_refl|]. cbn [insert_best]. destruct (Qle_bool _ _); [apply Permutation_refl|]. eapply perm_trans; [apply perm_swap|]. apply perm_skip, IH. Qed.
Lemma sort_best_perm v : Permutation v (sort_best v).
Proof. induction v as [|a v IH]; [apply Permutation_refl|]. cbn [sort_best fold_right]. eapply perm_trans; [apply perm_skip, IH|apply insert_best_perm]. Qed.
Definition down (c d : pcand) : Prop := (p_score d <= p_score c)%Q.
Lemma insert_best_sorted a l : StronglySorted down l -> StronglySorted down (insert_best a l).
Proof. induction l as [|b l IH]; intros S; [constructor; [exact S|constructor]|]. inversion S as [|? ? S' F]; subst. cbn [insert_best]. destruct (Qle_bool (p_score b) (p_score a)) eqn:E.
  - apply Qle_bool_iff in E. constructor; [exact S|]. constructor; [exact E|]. eapply Forall_impl; [|exact F]. intros c Hc. unfold down in *. eapply Qle_trans; eassumption.
  - constructor; [apply IH; exact S'|]. eapply Permutation_Forall; [apply insert_best_perm|]. constructor; [|exact F]. unfold down. destruct (Qlt_le_dec (p_score a) (p_score b)) as [L|L]; [apply Qlt_le_weak, L|]. apply Qle_bool_iff in L. congruence. Qed.
Lemma sort_best_sorted v : StronglySorted down (sort_best v).
Proof. induction v as [|a v IH]; [constructor|]. apply insert_best_sorted, IH. Qed.
Lemma insert_best_stable q a l : filter (fun c => Qeq_bool (p_score c) q) (insert_best a l) = filter (fun c => Qeq_bool (p_score c) q) (a :: l).
Proof. induction l as [|b l IH]; [reflexivity|]. cbn [insert_best]. destruct (Qle_bool (p_score b) (p_score a)) eqn:E; [reflexivity|]. cbn [filter] in *. rewrite IH.
  destruct (Qeq_bool (p_score a) q) eqn:A; [|reflexivity]. destruct (Qeq_bool (p_score b) q) eqn:B; [|reflexivity]. apply Qeq_bool_iff in A, B. exfalso. apply not_true_iff_false in E. apply E, Qle_bool_iff. rewrite A, B. apply Qle_refl. Qed.
Lemma sort_best_stable q v : filter (fun c => Qeq_bool (p_score c) q) (sort_best v) = filter (fun c => Qeq_bool (p_score c) q) v.
Proof. induction v as [|a v IH]; [reflexivity|]. cbn [sort_best fold_right]. rewrite insert_best_stable. cbn [filter]. fold (sort_best v). rewrite IH. reflexivity. Qed.
Lemma sort_best_spec v : best_first v (sort_best v).
Proof. split; [apply sort_best_perm|]. split; [apply sort_best_sorted|]. intros q. apply sort_best_stable. Qed.
Lemma leader_hd v : leader v = hd_error (sort_best v).
Proof. induction v as [|a v IH]; [reflexivity|]. cbn [leader sort_best fold_right]. fold (sort_best v). rewrite IH. destruct (sort_best v) as [|b w]; [reflexivity|]. cbn [hd_error insert_best]. unfold less. destruct (Qle_bool (p_score b) (p_score a)); reflexivity. Qed.
Lemma insert_best_sorted_id a l : StronglySorted down (a :: l) -> insert_best a l = a :: l.
Proof. intros S. inversion S as [|? ? S' F]; subst. destruct l as [|b l]; [reflexivity|]. cbn [insert_best]. inversion F as [|? ? D _]; subst. unfold down in D. apply Qle_bool_iff in D. rewrite D. reflexivity. Qed.
Lemma sort_best_id l : StronglySorted down l -> sort_best l = l.
Proof. induction l as [|a l IH]; intros S; [reflexivity|]. cbn [sort_best fold_right]. fold (sort_best l). inversion S; subst. rewrite IH by assumption. apply insert_best_sorted_id, S. Qed.

(** ** Where the original ends up *)
Fixpoint place (o : porig) (w : list pcand) : option Z :=
  match w with [] => None | c :: w' => if is o c then Some 0 else option_map (Z.add 1) (place o w') end.
Lemma depth_none o w d : forall D b, find (is o) w = None -> depth_loop o w b d D = D.
Proof. revert d. induction w as [|c w IH]; intros d D b H; [reflexivity|]. cbn [find depth_loop] in *. unfold is in *. destruct (p_enc c =? po_enc o) eqn:E; [discriminate|]. apply IH, H. Qed.
Lemma depth_place o w : NoDup (map p_enc w) -> forall d D, depth_loop o w true d D = match place o w with Some i => bump D (d + i) | None => D end.
Proof. induction w as [|c w IH]; intros N d D; [reflexivity|]. inversion N as [|? ? N1 N2]; subst. cbn [depth_loop place]. unfold is. destruct (p_enc c =? po_enc o) eqn:E.
  - rewrite Z.add_0_r. apply depth_none. destruct (find (is o) w) as [e|] eqn:F; [|reflexivity]. apply find_some in F. destruct F as [F1 F2]. exfalso. apply N1. apply in_map_iff. exists e. split; [unfold is in F2; lia|exact F1].
  - rewrite IH by exact N2. destruct (place o w); cbn [option_map]; [|reflexivity]. f_equal. lia. Qed.

Lemma place_find o w : place o w = None <-> find (is o) w = None.
Proof. induction w as [|c w IH]; [tauto|]. cbn [place find]. destruct (is o c); [split; discriminate|]. rewrite <- IH. destruct (place o w); cbn; split; congruence. Qed.
(** Inserting another candidate. *)
Lemma place_insert o a c w k : is o a = false -> find (is o) w = Some c -> StronglySorted down w -> place o w = Some k ->
  find (is o) (insert_best a w) = Some c /\ place o (insert_best a w) = Some (k + if less (p_score a) (p_score c) then 0 else 1).
Proof. revert k. induction w as [|b w IH]; intros k A F S P; [discriminate|]. inversion S as [|? ? S' Fo]; subst. cbn [insert_best]. destruct (Qle_bool (p_score b) (p_score a)) eqn:E.
  - cbn [find place]. rewrite A. cbn [find place] in F, P. rewrite F, P. split; [reflexivity|]. cbn [option_map]. f_equal. replace (less (p_score a) (p_score c)) with false; [lia|]. symmetry. apply less_false. apply Qle_bool_iff in E.
    destruct (is o b); [injection F as <-; exact E|]. apply find_some in F. destruct F as [F _]. rewrite Forall_forall in Fo. specialize (Fo c F). unfold down in Fo. eapply Qle_trans; eassumption.
  - cbn [find place] in *. destruct (is o b) eqn:B.
    + injection F as <-. injection P as <-. split; [reflexivity|]. f_equal. replace (less (p_score a) (p_score b)) with true; [reflexivity|]. symmetry. unfold less. rewrite E. reflexivity.
    + destruct (place o w) as [j|] eqn:Pw; [|discriminate]. cbn [option_map] in P. assert (k = 1 + j) as -> by congruence. destruct (IH j A F S' eq_refl) as [X Y]. split; [exact X|]. rewrite Y. cbn [option_map]. apply (f_equal Some). destruct (less (p_score a) (p_score c)); lia. Qed.
Lemma place_insert_own o a w : is o a = true -> find (is o) w = None -> StronglySorted down w ->
  find (is o) (insert_best a w) = Some a /\ place o (insert_best a w) = Some (number (fun d => less (p_score a) (p_score d)) w).
Proof. intros A. induction w as [|b w IH]; intros F S; [cbn [insert_best find place]; rewrite A; auto|]. inversion S as [|? ? S' Fo]; subst. cbn [insert_best]. destruct (Qle_bool (p_score b) (p_score a)) eqn:E.
  - cbn [find place]. rewrite A. split; [reflexivity|]. f_equal. apply Qle_bool_iff in E. unfold number. replace (filter _ (b :: w)) with (@nil pcand); [reflexivity|]. symmetry. clear - E Fo. cbn [filter]. replace (less (p_score a) (p_score b)) with false by (symmetry; apply less_false, E).
    induction Fo as [|d w D Fo IH]; [reflexivity|]. cbn [filter]. unfold down in D. replace (less (p_score a) (p_score d)) with false by (symmetry; apply less_false; eapply Qle_trans; eassumption). exact IH.
  - cbn [find place] in *. destruct (is o b) eqn:B; [discriminate|]. destruct (IH F S') as [X Y]. split; [exact X|]. rewrite Y, number_cons. cbn [option_map]. f_equal. replace (less (p_score a) (p_score b)) with true by (unfold less; rewrite E; reflexivity). reflexivity. Qed.

Lemma ahead_before o v : forall before, ahead o before v = match find (is o) v with Some c => option_map (Z.add (number (fun d => negb (less (p_score d) (p_score c))) before)) (ahead o [] v) | None => None end.
Proof. induction v as [|a v IH]; intros before; [reflexivity|]. cbn [ahead find]. destruct (is o a); [cbn [option_map]; f_equal; change (number (fun d : pcand => negb (less (p_score d) (p_score a))) []) with 0; lia|]. rewrite (IH (before ++ [a])), (IH ([] ++ [a])). destruct (find (is o) v) as [c|]; [|reflexivity].
  destruct (ahead o [] v); cbn [option_map]; [|reflexivity]. f_equal. rewrite !number_app. change (number (fun d : pcand => negb (less (p_score d) (p_score c))) []) with 0. lia. Qed.
Lemma place_ahead o v : NoDup (map p_enc v) -> find (is o) (sort_best v) = find (is o) v /\ place o (sort_best v) = ahead o [] v.
Proof. induction v as [|a v IH]; intros N; [split; reflexivity|]. inversion N as [|? ? N1 N2]; subst. destruct (IH N2) as [X Y]. cbn [sort_best fold_right find ahead]. fold (sort_best v). destruct (is o a) eqn:A.
  - assert (F : find (is o) v = None). { destruct (find (is o) v) as [e|] eqn:F; [|reflexivity]. apply find_some in F. destruct F as [F1 F2]. exfalso. apply N1. apply in_map_iff. exists e. split; [unfold is in *; lia|exact F1]. }
    rewrite F in X. destruct (place_insert_own o a _ A X (sort_best_sorted v)) as [P Q]. split; [exact P|]. rewrite Q. f_equal. unfold number at 2. cbn [filter length]. rewrite (number_perm _ _ _ (sort_best_perm v)). lia.
  - cbn [app]. rewrite ahead_before. destruct (find (is o) v) as [c|] eqn:F.
    + destruct (place o (sort_best v)) as [k|] eqn:P; [|apply place_find in P; congruence]. destruct (place_insert o a c _ k A X (sort_best_sorted v) P) as [P1 P2]. split; [exact P1|]. rewrite P2, <- Y. cbn [option_map]. f_equal. unfold number. cbn [filter]. destruct (less (p_score a) (p_score c)); cbn [negb length]; lia.
    + assert (G : find (is o) (insert_best a (sort_best v)) = None). { destruct (find (is o) (insert_best a (sort_best v))) as [e|] eqn:G; [|reflexivity]. apply find_some in G. destruct G as [G1 G2]. eapply Permutation_in in G1; [|apply Permutation_sym, insert_best_perm]. destruct G1 as [<-|G1]; [congruence|]. pose proof (find_none _ _ X e G1). congruence. }
      split; [exact G|]. apply place_find, G. Qed.

(** ** One position *)
Lemma tie_sorted q w : StronglySorted down w -> (forall c, In c w -> (p_score c <= q)%Q) -> tie_count q w = number (fun d => Qeq_bool (p_score d) q) w.
Proof. induction w as [|c w IH]; intros S H; [reflexivity|]. inversion S as [|? ? S' Fo]; subst. cbn [tie_count]. rewrite number_cons. assert (E : Qeq_bool (p_score c) q = Qeq_bool q (p_score c)) by (apply eq_true_iff_eq; rewrite !Qeq_bool_iff; split; intros E; symmetry; exact E).
  rewrite E. destruct (Qeq_bool q (p_score c)) eqn:B; [rewrite IH by (auto; intros; apply H; right; assumption); reflexivity|]. unfold number. replace (filter _ w) with (@nil pcand); [reflexivity|]. symmetry.
  assert (L : (p_score c < q)%Q). { destruct (Qlt_le_dec (p_score c) q) as [L|L]; [exact L|]. pose proof (H c (or_introl eq_refl)). assert (X : (q == p_score c)%Q) by (apply Qle_antisym; assumption). apply Qeq_bool_iff in X. congruence. }
  clear - Fo L. induction Fo as [|d w D Fo IH]; [reflexivity|]. cbn [filter]. unfold down in D. destruct (Qeq_bool (p_score d) q) eqn:E; [|exact IH]. apply Qeq_bool_iff in E. lra. Qed.

Lemma two_sorted v : contested v = true -> exists c1 c2 w, sort_best v = c1 :: c2 :: w.
Proof. unfold contested. intros H. pose proof (Permutation_length (sort_best_perm v)) as L. destruct (sort_best v) as [|c1 [|c2 w]]; cbn [length] in L; [lia|lia|eauto]. Qed.

Record verdict_spec (o : porig) (v : list pcand) (c1 c2 : pcand) : Prop := {
  vs_led : led_by_other o v = negb (p_text c1 =? po_text o) && negb (p_enc c1 =? p_enc c2);
  vs_tied : tied o v = (p_text c1 =? po_text o) && (Qeq_bool (p_score c1) (p_score c2) && negb (p_text c1 =? p_text c2));
  vs_best : strictly_best o v = (p_text c1 =? po_text o) && negb (Qeq_bool (p_score c1) (p_score c2) && negb (p_text c1 =? p_text c2)) }.
Lemma verdicts o v c1 c2 w : distinct o v -> sort_best v = c1 :: c2 :: w -> verdict_spec o v c1 c2.
Proof. intros (N & T & TT) E. pose proof (sort_best_perm v) as P. pose proof (sort_best_sorted v) as S. rewrite E in P, S.
  assert (I : forall d, In d v <-> d = c1 \/ d = c2 \/ In d w). { intros d. split; intros H; [eapply Permutation_in in H; [|exact P]; cbn [In] in H; intuition|]. eapply Permutation_in; [apply Permutation_sym, P|]. cbn [In]. intuition. }
  assert (I1 : In c1 v) by (apply I; auto). assert (I2 : In c2 v) by (apply I; auto).
  assert (Ns : NoDup (map p_enc (c1 :: c2 :: w))) by (eapply Permutation_NoDup; [apply Permutation_map, P|exact N]). cbn [map] in Ns. inversion Ns as [|? ? Na Nb]; subst. inversion Nb as [|? ? Nc _]; subst.
  assert (D12 : p_enc c1 <> p_enc c2) by (intros X; apply Na; left; auto). assert (T12 : p_text c1 <> p_text c2) by (intros X; apply D12, TT; auto).
  assert (Uniq : forall d, In d v -> p_enc d = p_enc c1 -> d = c1). { intros d Hd X. apply I in Hd. destruct Hd as [->|[->|Hd]]; [reflexivity|congruence|]. exfalso. apply Na. right. rewrite <- X. apply in_map, Hd. }
  inversion S as [|? ? S2 F1]; subst. inversion S2 as [|? ? _ F2]; subst. rewrite Forall_forall in F1, F2. unfold down in F1, F2.
  assert (L : leader v = Some c1) by (rewrite leader_hd, E; reflexivity).
  assert (Tx : forall c, In c v -> (p_text c =? po_text o) = is o c) by (intros c Hc; unfold is; pose proof (T c Hc); destruct (Z.eqb_spec (p_text c) (po_text o)), (Z.eqb_spec (p_enc c) (po_enc o)); try reflexivity; tauto).
  replace (p_enc c1 =? p_enc c2) with false in * by lia.
  assert (Le2 : (p_score c2 <= p_score c1)%Q) by (apply F1; left; reflexivity).
  constructor.
  - unfold led_by_other. rewrite L, (Tx c1 I1). replace (p_enc c1 =? p_enc c2) with false by lia. cbn [negb]. rewrite andb_true_r. reflexivity.
  - unfold tied. rewrite L, (Tx c1 I1). replace (p_text c1 =? p_text c2) with false by lia. cbn [negb]. rewrite andb_true_r. destruct (is o c1) eqn:O1; [|reflexivity]. cbn [andb]. apply eq_true_iff_eq. rewrite existsb_exists, Qeq_bool_iff. split.
    + intros (d & Hd & Q). apply andb_true_iff in Q. destruct Q as [Q1 Q2]. apply Qeq_bool_iff in Q2. apply negb_true_iff in Q1. apply I in Hd. destruct Hd as [->|[->|Hd]]; [congruence|symmetry; exact Q2|]. specialize (F2 d Hd). apply Qle_antisym; [rewrite <- Q2; exact F2|exact Le2].
    + intros Q. exists c2. split; [exact I2|]. apply andb_true_iff. split; [apply negb_true_iff; unfold is in *; lia|]. apply Qeq_bool_iff. symmetry. exact Q.
  - unfold strictly_best. replace (p_text c1 =? p_text c2) with false by lia. cbn [negb]. rewrite andb_true_r, (Tx c1 I1). apply eq_true_iff_eq. rewrite existsb_exists, andb_true_iff, negb_true_iff. split.
    + intros (c & Hc & Q). apply andb_true_iff in Q. destruct Q as [Q1 Q2]. rewrite forallb_forall in Q2.
      assert (c = c1) as ->. { apply Uniq; [exact Hc|]. destruct (is o c1) eqn:O1; [unfold is in *; lia|]. specialize (Q2 c1 I1). rewrite O1 in Q2. cbn [orb] in Q2. apply less_spec in Q2. assert (p_score c <= p_score c1)%Q; [|lra]. apply I in Hc. destruct Hc as [->|Hc]; [apply Qle_refl|]. apply F1. cbn [In]. intuition. }
      split; [exact Q1|]. specialize (Q2 c2 I2). apply orb_true_iff in Q2. destruct Q2 as [Q2|Q2]; [unfold is in *; lia|]. apply less_spec in Q2. apply not_true_iff_false. rewrite Qeq_bool_iff. lra.
    + intros [O1 Q]. exists c1. split; [exact I1|]. apply andb_true_iff. split; [exact O1|]. apply forallb_forall. intros d Hd. apply orb_true_iff. apply I in Hd. destruct Hd as [->|Hd]; [left; exact O1|right].
      apply less_spec. apply not_true_iff_false in Q. rewrite Qeq_bool_iff in Q. assert (X : (p_score d <= p_score c2)%Q) by (destruct Hd as [->|Hd]; [apply Qle_refl|apply F2, Hd]).
      destruct (Qlt_le_dec (p_score d) (p_score c1)) as [Y|Y]; [exact Y|]. exfalso. apply Q. apply Qle_antisym; [eapply Qle_trans; eassumption|exact Le2]. Qed.

Definition b2z (b : bool) : Z := if b then 1 else 0.
Lemma report_one_spec t o v : contested v = true -> distinct o v ->
  report_one t o v = (mkTally (t_errors t + 1) (t_losing t + b2z (led_by_other o v)) (t_ties t + b2z (tied o v)) (t_recovered t + b2z (strictly_best o v)) (t_tie_sum t + (if tied o v then at_top v else 0))
     (if led_by_other o v then match leader v with Some c => bad_rules (find (is o) v) c (t_bad t) | None => t_bad t end else t_bad t)
     (match ahead o [] v with Some i => bump (t_depths t) i | None => t_depths t end), sort_best v).
Proof. intros C Ds. destruct (two_sorted v C) as (c1 & c2 & w & E). destruct (verdicts o v c1 c2 w Ds E) as [V1 V2 V3]. unfold report_one, contested in *. rewrite C, E.
  assert (Dp : depth_loop o (c1 :: c2 :: w) true 0 (t_depths t) = match ahead o [] v with Some i => bump (t_depths t) i | None => t_depths t end).
  { rewrite <- E, depth_place by (eapply Permutation_NoDup; [apply Permutation_map, sort_best_perm|apply Ds]). rewrite (proj2 (place_ahead o v (proj1 Ds))). destruct (ahead o [] v); [rewrite Z.add_0_l|]; reflexivity. }
  rewrite Dp. clear Dp. rewrite V1, V2, V3. assert (L : leader v = Some c1) by (rewrite leader_hd, E; reflexivity). rewrite L. change (find_original o v) with (find (is o) v).
  assert (At : at_top v = tie_count (p_score c1) (c1 :: c2 :: w)). { unfold at_top. rewrite L, <- E. rewrite tie_sorted; [apply number_perm, sort_best_perm|apply sort_best_sorted|]. intros c Hc. pose proof (sort_best_sorted v) as S. rewrite E in Hc, S. inversion S as [|? ? _ F]; subst. destruct Hc as [<-|Hc]; [apply Qle_refl|]. rewrite Forall_forall in F. exact (F c Hc). }
  rewrite At. assert (D12 : (p_enc c1 =? p_enc c2) = false). { pose proof (Permutation_NoDup (Permutation_map p_enc (sort_best_perm v)) (proj1 Ds)) as N. rewrite E in N. inversion N as [|? ? Na _]; subst. cbn [map In] in Na. lia. }
  rewrite D12. cbn [negb]. rewrite andb_true_r. destruct (p_text c1 =? po_text o); cbn [negb andb b2z].
  - destruct (Qeq_bool (p_score c1) (p_score c2) && negb (p_text c1 =? p_text c2)); cbn [negb b2z]; f_equal; f_equal; lia.
  - f_equal; f_equal; lia. Qed.
Lemma report_one_other t o v : contested v = false -> report_one t o v = (t, v).
Proof. unfold report_one, contested. intros ->. reflexivity. Qed.
(** Without any assumption. *)
Lemma report_one_sums t o v : exists t', report_one t o v = (t', if contested v then sort_best v else v) /\ t_errors t' = t_errors t + b2z (contested v) /\
  t_losing t' + t_ties t' + t_recovered t' = t_losing t + t_ties t + t_recovered t + b2z (contested v).
Proof. destruct (contested v) eqn:C; [|rewrite report_one_other by exact C; exists t; cbn [b2z]; split; [reflexivity|split; lia]]. destruct (two_sorted v C) as (c1 & c2 & w & E). unfold report_one, contested in *. rewrite C, E.
  destruct (negb (p_text c1 =? po_text o) && negb (p_enc c1 =? p_enc c2)); [|destruct (Qeq_bool (p_score c1) (p_score c2) && negb (p_text c1 =? p_text c2))]; eexists; (split; [reflexivity|]); cbn; split; lia. Qed.

(** ** All positions *)
Definition sorted_if (v : list pcand) : list pcand := if contested v then sort_best v else v.
Lemma report_loop_lists os : forall vs t, (length os <= length vs)%nat -> exists t', report_loop t os vs = (Ok t', map sorted_if (firstn (length os) vs) ++ skipn (length os) vs) /\
  t_errors t' = t_errors t + number (fun ov => contested (snd ov)) (combine os vs) /\
  t_losing t' + t_ties t' + t_recovered t' = t_losing t + t_ties t + t_recovered t + number (fun ov => contested (snd ov)) (combine os vs).
Proof. induction os as [|o os IH]; intros vs t L.
  - exists t. cbn [report_loop firstn skipn map app combine]. split; [destruct vs; reflexivity|]. unfold number; cbn [filter length]; split; lia.
  - destruct vs as [|v vs]; [cbn in L; lia|]. destruct (report_one_sums t o v) as (t1 & E & A & B). destruct (IH vs t1 ltac:(cbn in L; lia)) as (t2 & E2 & A2 & B2). exists t2. cbn [report_loop]. rewrite E, E2. split; [reflexivity|]. cbn [combine]. rewrite number_cons. cbn [snd]. unfold b2z in *. split; lia. Qed.
Lemma report_loop_short os : forall vs t, (length vs < length os)%nat -> fst (report_loop t os vs) = Err IndexError.
Proof. induction os as [|o os IH]; intros vs t L; [cbn in L; lia|]. destruct vs as [|v vs]; [reflexivity|]. cbn [report_loop]. destruct (report_one t o v) as [t1 v1]. specialize (IH vs t1 ltac:(cbn in L; lia)). destruct (report_loop t1 os vs). exact IH. Qed.

Definition cell (d : dict Z) (k : Z) : Z := match dget d k with Some n => n | None => 0 end.
Lemma bump_cell d k j : cell (bump d k) j = cell d j + (if j =? k then 1 else 0).
Proof. unfold cell, bump. destruct (dget d k) eqn:E; rewrite dget_dset; destruct (Z.eqb_spec j k) as [->|N]; rewrite ?E; lia. Qed.
Lemma bad_fold ori rules : NoDup (dkeys rules) -> forall bad k, cell (fold_left (bad_step ori) rules bad) k = cell bad k + match dget rules k, dget (p_rules ori) k with Some a, Some b => b2z (less b a) | _, _ => 0 end.
Proof. induction rules as [|[j a] rules IH]; intros N bad k; [cbn; lia|]. inversion N as [|? ? N1 N2]; subst. cbn [fold_left dget]. rewrite IH by exact N2. unfold bad_step. cbn [fst snd]. destruct (Z.eqb_spec k j) as [->|D].
  - assert (Z0 : dget rules j = None) by (apply dget_none; exact N1). rewrite Z0. destruct (dget (p_rules ori) j) as [b|]; [|lia]. unfold less at 1. unfold b2z. destruct (negb (Qle_bool a b)); [rewrite bump_cell, Z.eqb_refl; lia|lia].
  - replace (cell (match dget (p_rules ori) j with Some ov => if negb (Qle_bool a ov) then bump bad j else bad | None => bad end) k) with (cell bad k); [reflexivity|]. destruct (dget (p_rules ori) j) as [b|]; [|reflexivity]. destruct (negb (Qle_bool a b)); [|reflexivity]. rewrite bump_cell. replace (k =? j) with false by lia. lia. Qed.

Definition total {A} (f : A -> Z) (l : list A) : Z := fold_right (fun x s => f x + s) 0 l.
Lemma report_loop_spec os : forall vs t t' ws, (forall o v, In (o, v) (combine os vs) -> contested v = true -> distinct o v) ->
  (forall v c, In v vs -> In c v -> NoDup (dkeys (p_rules c))) -> report_loop t os vs = (Ok t', ws) ->
  let both f (ov : porig * list pcand) := contested (snd ov) && f (fst ov) (snd ov) in let P := combine os vs in
  t_losing t' = t_losing t + number (both led_by_other) P /\ t_ties t' = t_ties t + number (both tied) P /\ t_recovered t' = t_recovered t + number (both strictly_best) P /\
  t_tie_sum t' = t_tie_sum t + total (fun ov => if both tied ov then at_top (snd ov) else 0) P /\
  (forall k, cell (t_bad t') k = cell (t_bad t) k + number (both (fun o v => led_by_other o v && prefers k o v)) P) /\
  (forall i, cell (t_depths t') i = cell (t_depths t) i + number (both (fun o v => match ahead o [] v with Some j => i =? j | None => false end)) P).
Proof. induction os as [|o os IH]; intros vs t t' ws H R E; cbv zeta.
  - cbn [report_loop] in E. assert (t' = t) as -> by (destruct vs; congruence). cbn [combine total fold_right]. unfold number; cbn [filter length]. repeat split; intros; lia.
  - destruct vs as [|v vs]; [discriminate|]. cbn [report_loop] in E. destruct (report_one t o v) as [t1 v1] eqn:E1. destruct (report_loop t1 os vs) as [r ws'] eqn:E2. assert (r = Ok t') as -> by congruence.
    specialize (IH vs t1 t' ws' ltac:(intros; apply H; [right; assumption|assumption]) ltac:(intros ? ? X; apply R; right; exact X) E2). cbv zeta in IH. destruct IH as (I1 & I2 & I3 & I4 & I5 & I6).
    cbn [combine total fold_right] in *. rewrite !number_cons. cbn [fst snd]. destruct (contested v) eqn:C; cbn [andb].
    + rewrite (report_one_spec t o v C (H o v (or_introl eq_refl) C)) in E1. injection E1 as <- _. cbn [t_losing t_ties t_recovered t_tie_sum t_bad t_depths] in *. unfold b2z in *.
      split; [lia|]. split; [lia|]. split; [lia|]. split; [unfold total in *; lia|]. split.
      * intros k. rewrite I5, number_cons. cbn [fst snd]. rewrite C. cbn [andb]. destruct (led_by_other o v) eqn:Ld; cbn [andb]; [|lia]. unfold prefers. destruct (leader v) as [c|] eqn:L; [|lia]. unfold bad_rules. destruct (find (is o) v) as [e|]; [|lia].
        rewrite bad_fold by (apply (R v); [left; reflexivity|]; rewrite leader_hd in L; eapply Permutation_in; [apply Permutation_sym, sort_best_perm|]; destruct (sort_best v); [discriminate|]; left; cbn in L; congruence). unfold b2z. destruct (dget (p_rules c) k); [|lia]. destruct (dget (p_rules e) k); lia.
      * intros i. rewrite I6, number_cons. cbn [fst snd]. rewrite C. cbn [andb]. destruct (ahead o [] v) as [j|]; [rewrite bump_cell|]; lia.
    + rewrite report_one_other in E1 by exact C. injection E1 as <- _. split; [lia|]. split; [lia|]. split; [lia|]. split; [unfold total in *; lia|]. split; intros k; [rewrite I5|rewrite I6]; rewrite number_cons; cbn [fst snd]; rewrite C; cbn [andb]; lia. Qed.

Lemma print_report_cases os vs :
  ((length vs < length os)%nat -> fst (print_report os vs) = Err IndexError) /\
  ((length os <= length vs)%nat -> number (fun ov => contested (snd ov)) (combine os vs) = 0 -> fst (print_report os vs) = Err ZeroDivisionError) /\
  ((length os <= length vs)%nat -> number (fun ov => contested (snd ov)) (combine os vs) <> 0 -> exists t, fst (print_report os vs) = Ok t /\ fst (report_loop no_tally os vs) = Ok t) /\
  ((length os <= length vs)%nat -> snd (print_report os vs) = map sorted_if (firstn (length os) vs) ++ skipn (length os) vs).
Proof. unfold print_report. split; [|split; [|split]].
  - intros L. pose proof (report_loop_short os vs no_tally L) as X. destruct (report_loop no_tally os vs) as [r w]. cbn [fst] in *. rewrite X. reflexivity.
  - intros L Z0. destruct (report_loop_lists os vs no_tally L) as (t & E & A & B). rewrite E. cbn [fst bind]. cbn [t_errors no_tally] in A. replace (t_errors t =? 0) with true by lia. reflexivity.
  - intros L Z0. destruct (report_loop_lists os vs no_tally L) as (t & E & A & B). rewrite E. cbn [fst bind]. cbn [t_errors no_tally] in A. replace (t_errors t =? 0) with false by lia. eauto.
  - intros L. destruct (report_loop_lists os vs no_tally L) as (t & E & A & B). rewrite E. reflexivity. Qed.
