(** C87, continued: exactly what the distance rule answers. *)
From Verif Require Import ListLemmas FlipModel FlipProofs InstModel MetaModel MetaSpec MetaProofs MetaProps BlaumProofs RecModel RecSpec RecProofs RecProofs3 GraphProofs RulesModel RulesSpec RulesProofs RulesProofs2 RulesProofs3 RulesProofs4 RulesProofs5 RulesProps DistanceProps.
From Coq Require Import ZifyBool ZifyNat Lqa Qminmax.

(** *** Specification *)
(** The candidate already has this score. *)
Definition had (k : Z) (c : rcand) (q : Q) : Prop := exists old, dget (r_scores c) k = Some old /\ (old == q)%Q.
(** The rule reports no change because of this candidate: it is ignored (even if its score
    is set to 0), or has the score it gets, both from the first address of the program that
    is looked at and from all of them. *)
Definition quiet (k : Z) (col : collector) (p : rprogram) (a : Z) (c : rcand) : Prop :=
  let reads := d_read (r_inst c) in
  if r_ignore c then True
  else if Nat.eqb (length (d_used (r_inst c))) 0 then had k c (1 # 100000000000000)
  else match filter (dmem p) (window col a reads) with
       | [] => True
       | b :: _ => had k c (Qmin 1 (average (credit_for p [b]) reads)) /\ had k c (Qmin 1 (average (credit_for p (window col a reads)) reads))
       end.

(** *** Proof *)
Lemma had_eq k c q q' : (q == q')%Q -> (had k c q <-> had k c q').
Proof. intros E. unfold had. split; intros (o & A & B); exists o; (split; [exact A|]); [rewrite B; exact E|rewrite B; symmetry; exact E]. Qed.
Lemma update_had k c q c' b : update_score k c q = (c', b) -> (b = false <-> had k c q) /\ (forall q', had k c' q' <-> (q == q')%Q).
Proof. unfold update_score, had. destruct (dget (r_scores c) k) as [old|] eqn:E; [destruct (qeq_spec q old) as [X|X]|]; intros H; injection H as <- <-.
  - split.
    + split; [intros _; exists old; split; [reflexivity|symmetry; exact X]|reflexivity].
    + intros q'. rewrite E. split; [intros (o & A & B); injection A as <-; rewrite X; exact B|intros Y; exists old; split; [reflexivity|rewrite <- X; exact Y]].
  - split.
    + split; [discriminate|]. intros (o & A & B). injection A as <-. destruct X. symmetry. exact B.
    + intros q'. cbn [with_scores r_scores]. rewrite dget_dset, Z.eqb_refl. split; [intros (o & A & B); injection A as <-; exact B|intros Y; exists q; auto].
  - split.
    + split; [discriminate|]. intros (o & A & _). discriminate A.
    + intros q'. cbn [with_scores r_scores]. rewrite dget_dset, Z.eqb_refl. split; [intros (o & A & B); injection A as <-; exact B|intros Y; exists q; auto]. Qed.

Definition upto (sh : Z -> list Q) (p : rprogram) (w reads : list Z) : Q := Qmin 1 (mean_of (fun r => sh r ++ flat_map (shares_at p r) w) reads).
Lemma upto_ext sh sh' p p' w w' reads : (forall r, sh r ++ flat_map (shares_at p r) w = sh' r ++ flat_map (shares_at p' r) w') -> (upto sh p w reads == upto sh' p' w' reads)%Q.
Proof. intros H. unfold upto. rewrite (mean_same _ (fun r => sh' r ++ flat_map (shares_at p' r) w') reads H). reflexivity. Qed.
Lemma upto_more sh p w w' reads : (upto sh p w reads <= upto sh p (w ++ w') reads)%Q.
Proof. unfold upto. apply Q.min_le_compat_l. rewrite (mean_same (fun r => sh r ++ flat_map (shares_at p r) (w ++ w')) (fun r => (sh r ++ flat_map (shares_at p r) w) ++ flat_map (shares_at p r) w')) by (intros r; rewrite flat_map_app, app_assoc; reflexivity).
  apply (mean_more (fun r => sh r ++ flat_map (shares_at p r) w) (fun r => flat_map (shares_at p r) w')). Qed.
Lemma flat_present p r w : flat_map (shares_at p r) (filter (dmem p) w) = flat_map (shares_at p r) w.
Proof. induction w as [|b w IH]; [reflexivity|]. cbn [filter flat_map]. unfold dmem at 1. destruct (dget p b) eqn:G; [cbn [flat_map]; rewrite IH; reflexivity|]. rewrite IH, shares_none by exact G. reflexivity. Qed.

Lemma look_answer k p reads : (forall x, In x reads -> 0 <= x < 20) -> reads <> [] -> writes_ok p -> forall positions rs best w c u c' w' t sh, knows reads rs sh -> (best <= mean_of sh reads)%Q ->
  look_back k p reads positions rs best w c u = Ok (c', w', t) ->
  t = false <-> u = false /\ match filter (dmem p) positions with [] => True | b :: _ => had k c (upto sh p [b] reads) /\ had k c (upto sh p positions reads) end.
Proof. intros H N Wo. induction positions as [|b rest IH]; intros rs best w c u c' w' t sh K B E; cbn [look_back filter] in *.
  - injection E as <- <- <-. tauto.
  - unfold dmem at 1. destruct (dget p b) as [prev|] eqn:G.
    + destruct (foldM (dist_step reads (candidate_count prev)) prev (rs, w)) as [[rs1 w1]|e] eqn:F; [|discriminate]. cbn [bind] in E. rewrite dist_live in F.
      assert (K1 : knows reads rs1 (fun r => sh r ++ shares_at p r b)).
      { pose proof (fold_exact reads (candidate_count prev) (live prev) H) as X. destruct (X ltac:(rewrite candidate_count_live; lia)
          ltac:(intros d x J1 J2; apply filter_In in J1; exact (Wo b prev d x (dget_in _ _ _ G) (proj1 J1) J2)) ltac:(intros d J; apply filter_In in J; destruct J as [_ J]; destruct (r_ignore d); [discriminate|reflexivity]) rs w rs1 w1 sh K F) as [L Y].
        split; [exact L|]. intros r I. rewrite (Y r I), (adds_shares p b prev r G). reflexivity. }
      destruct (reads_score_average rs1 reads H N) as (q & Eq & Q1). rewrite Eq in E. cbn [bind] in E.
      assert (Q2 : (q == mean_of (fun r => sh r ++ shares_at p r b) reads)%Q) by (rewrite Q1; apply average_eq; intros r I; exact (proj2 K1 r I)).
      assert (Q3 : (qmax q best == mean_of (fun r => sh r ++ shares_at p r b) reads)%Q) by (rewrite qmax_Qmax, Q.max_l; [exact Q2|]; rewrite Q2; eapply Qle_trans; [exact B|]; exact (mean_more sh (fun r => shares_at p r b) reads)).
      assert (One : (upto sh p [b] reads == Qmin 1 (qmax q best))%Q) by (unfold upto; rewrite Q3; rewrite (mean_same _ (fun r => sh r ++ shares_at p r b)) by (intros r; cbn [flat_map]; rewrite app_nil_r; reflexivity); reflexivity).
      assert (Le : (upto sh p [b] reads <= upto sh p (b :: rest) reads)%Q) by (exact (upto_more sh p [b] rest reads)).
      assert (Top : (upto sh p (b :: rest) reads <= 1)%Q) by apply Q.le_min_l.
      destruct (qle_spec 1 (qmax q best)) as [L1|L1].
      * destruct (update_score k c 1) as [c1 b1] eqn:U. injection E as <- <- <-. destruct (update_had k c 1 c1 b1 U) as [A _]. rewrite orb_false_iff, A.
        assert (X : (upto sh p [b] reads == 1)%Q) by (rewrite One; apply Q.min_l; exact L1).
        assert (Y : (upto sh p (b :: rest) reads == 1)%Q) by lra. rewrite (had_eq k c _ _ X), (had_eq k c _ _ Y). tauto.
      * destruct (update_score k c (qmax q best)) as [c1 b1] eqn:U. destruct (update_had k c (qmax q best) c1 b1 U) as [A1 A2].
        apply (IH rs1 (qmax q best) w1 c1 (u || b1) c' w' t _ K1 ltac:(rewrite Q3; apply Qle_refl)) in E. rewrite E. clear E IH. rewrite orb_false_iff, A1.
        assert (X : (upto sh p [b] reads == qmax q best)%Q) by (rewrite One; apply Q.min_r; lra). rewrite (had_eq k c _ _ X).
        assert (M : (upto (fun r => sh r ++ shares_at p r b) p rest reads == upto sh p (b :: rest) reads)%Q) by (apply upto_ext; intros r; cbn [flat_map]; rewrite app_assoc; reflexivity).
        pose proof (flat_present p) as Fl. destruct (filter (dmem p) rest) as [|b2 more] eqn:Fr.
        -- assert (Z0 : (upto sh p (b :: rest) reads == qmax q best)%Q). { rewrite <- X. apply upto_ext. intros r. cbn [flat_map]. rewrite <- (Fl r rest), Fr. reflexivity. } rewrite (had_eq k c _ _ Z0). tauto.
        -- assert (L2 : (upto sh p [b] reads <= upto (fun r => sh r ++ shares_at p r b) p [b2] reads)%Q).
           { assert (V : (upto (fun r => sh r ++ shares_at p r b) p [b2] reads == upto sh p ([b] ++ [b2]) reads)%Q) by (apply upto_ext; intros r; cbn [app flat_map]; rewrite <- app_assoc, app_nil_r; reflexivity). rewrite V. apply upto_more. }
           assert (L3 : (upto (fun r => sh r ++ shares_at p r b) p [b2] reads <= upto (fun r => sh r ++ shares_at p r b) p rest reads)%Q).
           { assert (V : (upto (fun r => sh r ++ shares_at p r b) p rest reads == upto (fun r => sh r ++ shares_at p r b) p ([b2] ++ more) reads)%Q) by (apply upto_ext; intros r; rewrite <- (Fl r rest), Fr; reflexivity). rewrite V. apply upto_more. }
           rewrite !A2, M. split.
           ++ intros [[P1 P2] [P3 P4]]. split; [exact P1|]. split; [exact P2|]. apply (had_eq k c _ _ P4), P2.
           ++ intros [P1 [P2 P3]]. assert (P4 : (qmax q best == upto sh p (b :: rest) reads)%Q) by (destruct P2 as (o & S1 & S2), P3 as (o' & S3 & S4); rewrite S1 in S3; injection S3 as <-; rewrite <- S2; exact S4).
              split; [split; assumption|]. split; [|exact P4]. lra.
    + apply (IH rs best w c u c' w' t sh K B) in E. rewrite E. destruct (filter (dmem p) rest) as [|b2 more]; [tauto|].
      assert (V : (upto sh p rest reads == upto sh p (b :: rest) reads)%Q) by (apply upto_ext; intros r; cbn [flat_map]; rewrite (shares_none p b r G); reflexivity). rewrite (had_eq k c _ _ V). tauto. Qed.

Lemma candidate_answer k col p a w c c' w' t : (r_ignore c = false -> forall r, In r (d_read (r_inst c)) -> 0 <= r < 20) -> writes_ok p -> distances_ok col ->
  dist_candidate k col p a w c = Ok (c', w', t) -> t = false <-> quiet k col p a c.
Proof. intros H Wo D. unfold dist_candidate, quiet, r_ignore in *. destruct (d_ignore (r_inst c)); [intros E; injection E as <- <- <-; tauto|]. specialize (H eq_refl).
  destruct (d_used (r_inst c)) as [|u us].
  - destruct (update_score k c EPSILON) as [c1 b1] eqn:U. intros E. injection E as <- <- <-. cbn [length Nat.eqb]. exact (proj1 (update_had k c EPSILON c1 b1 U)).
  - cbn [length Nat.eqb]. fold (positions_of col a (d_read (r_inst c))). rewrite window_positions by exact D. intros E.
    destruct (d_read (r_inst c)) as [|r0 rr] eqn:R. { cbn [look_back window recorded flat_map] in E. injection E as <- <- <-. cbn [window recorded flat_map filter]. tauto. } rewrite <- R in *. clear u us.
    assert (K : knows (d_read (r_inst c)) eps20 (fun _ => [])). { split; [reflexivity|]. intros r I. unfold eps20. rewrite (nth_indep _ 0%Q EPSILON) by (rewrite repeat_length; specialize (H r I); unfold STORAGE_COUNT; lia). rewrite nth_repeat. reflexivity. }
    assert (B : (0 <= mean_of (fun _ => []) (d_read (r_inst c)))%Q). { unfold mean_of. eapply Qle_trans; [|apply (average_le (fun _ => 0%Q)); intros r _; vm_compute; discriminate]. unfold average. assert (X : forall l : list Z, (fold_right (fun (_ : Z) (s : Q) => 0 + s) 0 l == 0)%Q) by (clear; induction l as [|x l IH]; cbn [fold_right]; [reflexivity|rewrite IH; reflexivity]). rewrite X. unfold Qdiv. rewrite Qmult_0_l. apply Qle_refl. }
    pose proof (look_answer k p (d_read (r_inst c)) H ltac:(rewrite R; discriminate) Wo _ eps20 0%Q w c false c' w' t _ K B E) as X. rewrite X. unfold upto, mean_of. cbn [app].
    destruct (filter (dmem p) (window col a (d_read (r_inst c)))); [tauto|]. split; [intros [_ Y]; exact Y|intros Y; split; [reflexivity|exact Y]]. Qed.

Theorem C87_distance_answer : forall pass col p a l, storages_ok p -> writes_ok p -> distances_ok col -> dget p a = Some l ->
  exists p' t, read_distance pass col p a = Ok (p', t) /\ (t = false <-> forall c, In c l -> quiet (key_of RDist pass) col p a c).
Proof. intros pass col p a l SO Wo D G. destruct (read_distance_ok pass col p a l SO G) as (l' & t & os & E & _). exists (dset p a l'), t. split; [exact E|].
  assert (Hr : forall c, In c l -> r_ignore c = false -> forall r, In r (d_read (r_inst c)) -> 0 <= r < 20) by (intros c I Ig r J; exact (SO a l c r (dget_in _ _ _ G) I Ig J)).
  unfold read_distance, dget_r in E. rewrite G in E. cbn [bind] in E. destruct (dist_candidates (key_of RDist pass) col p a None l) as [[l2 t2]|e] eqn:C; [|discriminate]. cbn [bind] in E.
  assert (t2 = t) as <- by congruence. clear E G SO os l'. revert l2 t2 C. generalize (@None Z) as w. induction l as [|c l IH]; intros w l2 t2 C; cbn [dist_candidates] in C.
  - injection C as <- <-. split; [intros _ c []|reflexivity].
  - destruct (dist_candidate (key_of RDist pass) col p a w c) as [[[c1 w1] b1]|e] eqn:C1; [|discriminate]. cbn [bind] in C. destruct (dist_candidates (key_of RDist pass) col p a w1 l) as [[l3 b3]|e] eqn:C3; [|discriminate]. cbn [bind] in C. injection C as <- <-.
    rewrite orb_false_iff, (candidate_answer _ col p a w c c1 w1 b1 (Hr c (or_introl eq_refl)) Wo D C1), (IH (fun d J => Hr d (or_intror J)) w1 l3 b3 C3). split.
    + intros [A B] d [<-|J]; [exact A|exact (B d J)].
    + intros A. split; [apply A; left; reflexivity|intros d J; apply A; right; exact J]. Qed.
Print Assumptions C87_distance_answer.

(** Run twice on the program of C90: the second time nothing changes, but the score from the
    first address looked at is not the final one, so the rule says that it changed something;
    and a run that only sets an ignored candidate to 0 says that it did not. *)
Example C87_distance_answer_example :
  storages_ok d_prog /\ writes_ok d_prog /\ distances_ok d_col /\
  (let* (p1, t1) := read_distance 0 d_col d_prog 8 in let* (p2, t2) := read_distance 0 d_col p1 8 in Ok (t1, t2)) = Ok (true, true) /\
  rmap snd (read_distance 0 d_col [(8, [dropped r_far])] 8) = Ok false /\
  (let* (p1, t1) := read_distance 0 d_col d_prog 0 in let* (p2, t2) := read_distance 0 d_col p1 0 in Ok (t1, t2)) = Ok (false, false) /\
  (let q := [(0, [ins 0 14 5 [1] [1] []]); (8, [ins 8 14 6 [4; 1] [4] [1]])] in let* (p1, t1) := read_distance 0 d_col q 8 in let* (p2, t2) := read_distance 0 d_col p1 8 in Ok (t1, t2)) = Ok (true, false).
Proof. destruct C90_exactly_example as (A & B & C & _). split; [exact A|]. split; [exact B|]. split; [exact C|]. vm_compute. repeat split. Qed.
