(** C141: the depths printed by SolutionQuality.evaluate. *)
From Verif Require Import ListLemmas QualityModel QualityProps DepthModel.
From Coq Require Import ZifyBool ZifyNat Permutation.

(** One line for each original that is not ignored, in program order: address, number of
    candidates, depth. *)
Definition line := (Z * Z * Q)%type.
Definition line_of (p : qprogram) (o : qorig) (l : line) : Prop :=
  let '(a, k, r) := l in a = o_addr o /\ depth_at p o r /\ exists v, dget p a = Some v /\ k = Z.of_nat (length v).
Definition considered (originals : list qorig) : list qorig := filter (fun o => negb (o_ignore o)) originals.
(** The first of the deepest of the lines selected by [f]. *)
Definition first_deepest (f : Z -> bool) (ls : list line) (a : Z) (r : Q) : Prop :=
  exists pre k post, ls = pre ++ (a, k, r) :: post /\ f k = true /\
    (forall a' k' r', In (a', k', r') pre -> f k' = true -> (r' < r)%Q) /\ (forall a' k' r', In (a', k', r') post -> f k' = true -> (r' <= r)%Q).

Definition agrees (ls : list line) (s : depths) : Prop :=
  (forall k, (forall a r, ~ In (a, k, r) ls) -> dget (de_bin s) k = None /\ dget (de_addr_bin s) k = None) /\
  (forall k, (exists a r, In (a, k, r) ls) -> exists a r, dget (de_bin s) k = Some r /\ dget (de_addr_bin s) k = Some a /\ first_deepest (Z.eqb k) ls a r) /\
  (ls = [] -> de_depth s = 0%Q /\ de_addr s = 0) /\
  (ls <> [] -> first_deepest (fun _ => true) ls (de_addr s) (de_depth s)).

Lemma first_alone f ls a k r : f k = true -> (forall a' k' r', In (a', k', r') ls -> f k' = true -> (r' < r)%Q) -> first_deepest f (ls ++ [(a, k, r)]) a r.
Proof. intros F H. exists ls, k, []. split; [reflexivity|]. split; [exact F|]. split; [exact H|intros ? ? ? []]. Qed.
Lemma first_more f ls a k r a0 r0 : first_deepest f ls a0 r0 -> (f k = true -> (r <= r0)%Q) -> first_deepest f (ls ++ [(a, k, r)]) a0 r0.
Proof. intros (pre & k0 & post & -> & F & A & B) H. exists pre, k0, (post ++ [(a, k, r)]). split; [rewrite <- app_assoc; reflexivity|]. split; [exact F|]. split; [exact A|]. intros a' k' r' I Fk. apply in_app_iff in I. destruct I as [I|[E|[]]]; [apply (B a' k' r' I Fk)|]. injection E as <- <- <-. apply H, Fk. Qed.
Lemma first_above f ls a0 r0 r : first_deepest f ls a0 r0 -> (r0 < r)%Q -> forall a' k' r', In (a', k', r') ls -> f k' = true -> (r' < r)%Q.
Proof. intros (pre & k0 & post & -> & F & A & B) L a' k' r' I Fk. apply in_app_iff in I. cbn [In] in I. destruct I as [I|[E|I]]; [eapply Qlt_trans; [apply (A _ _ _ I Fk)|exact L]|injection E as <- <- <-; exact L|]. eapply Qle_lt_trans; [apply (B _ _ _ I Fk)|exact L]. Qed.
Lemma qle_not r s : Qle_bool r s = false -> (s < r)%Q.
Proof. intros E. destruct (Qlt_le_dec s r) as [L|L]; [exact L|]. apply Qle_bool_iff in L. congruence. Qed.

Lemma add_agrees ls s a k r : (0 < r)%Q -> agrees ls s -> agrees (ls ++ [(a, k, r)]) (add_depth a k r s).
Proof. intros P (N & S & E & D). 
  assert (Dec : (exists a' r', In (a', k, r') ls) \/ forall a' r', ~ In (a', k, r') ls).
  { clear. induction ls as [|[[a0 k0] r0] ls IH]; [right; intros ? ? []|]. destruct (Z.eq_dec k0 k) as [->|Nk]; [left; exists a0, r0; left; reflexivity|]. destruct IH as [(a' & r' & I)|H]; [left; exists a', r'; right; exact I|]. right. intros a' r' [X|I]; [injection X as -> -> ->; contradiction|exact (H a' r' I)]. }
  assert (Bins : exists a1 r1, dget (de_bin (add_depth a k r s)) k = Some r1 /\ dget (de_addr_bin (add_depth a k r s)) k = Some a1 /\ first_deepest (Z.eqb k) (ls ++ [(a, k, r)]) a1 r1).
  { unfold add_depth. destruct Dec as [H|H].
    - destruct (S k H) as (a0 & r0 & G1 & G2 & F). rewrite G1, G1. destruct (Qle_bool r r0) eqn:Q; cbn [negb]; destruct (Qle_bool r (de_depth s)); cbn [negb de_bin de_addr_bin].
      1,2: exists a0, r0; split; [exact G1|]; split; [exact G2|]; apply first_more; [exact F|]; intros _; apply Qle_bool_iff, Q.
      all: exists a, r; rewrite !dget_dset_same; split; [reflexivity|]; split; [reflexivity|]; apply first_alone; [apply Z.eqb_refl|]; eapply first_above; [exact F|apply qle_not, Q].
    - destruct (N k H) as [G1 G2]. rewrite G1, dget_dset_same. assert (Q : Qle_bool r 0 = false). { destruct (Qle_bool r 0) eqn:Q; [|reflexivity]. apply Qle_bool_iff in Q. exfalso. apply (Qlt_not_le _ _ P Q). }
      rewrite Q. cbn [negb]. destruct (Qle_bool r (de_depth s)); cbn [negb de_bin de_addr_bin]; exists a, r; rewrite !dget_dset_same; (split; [reflexivity|]); (split; [reflexivity|]); (apply first_alone; [apply Z.eqb_refl|]); intros a' k' r' I Fk; (assert (k' = k) as -> by lia); exfalso; exact (H a' r' I). }
  assert (Other : forall k', k' <> k -> dget (de_bin (add_depth a k r s)) k' = dget (de_bin s) k' /\ dget (de_addr_bin (add_depth a k r s)) k' = dget (de_addr_bin s) k').
  { intros k' Nk. unfold add_depth. destruct (dget (de_bin s) k) eqn:G; [rewrite G|rewrite dget_dset_same]; match goal with |- context [Qle_bool r ?x] => destruct (Qle_bool r x) end; cbn [negb]; destruct (Qle_bool r (de_depth s)); cbn [negb de_bin de_addr_bin]; rewrite ?dget_dset_other by exact Nk; auto. }
  split; [|split; [|split]].
  - intros k' H. assert (Nk : k' <> k) by (intros ->; apply (H a r), in_app_iff; right; left; reflexivity). destruct (Other k' Nk) as [-> ->]. apply N. intros a' r' I. apply (H a' r'), in_app_iff. left. exact I.
  - intros k' (a' & r' & I). destruct (Z.eq_dec k' k) as [->|Nk]; [exact Bins|]. destruct (Other k' Nk) as [-> ->]. apply in_app_iff in I. destruct I as [I|[X|[]]]; [|injection X as _ <- _; contradiction]. destruct (S k') as (a0 & r0 & G1 & G2 & F); [eauto|]. exists a0, r0. split; [exact G1|]. split; [exact G2|]. apply first_more; [exact F|]. intros X. lia.
  - intros X. destruct ls; discriminate.
  - intros _. assert (Ed : de_depth (add_depth a k r s) = (if Qle_bool r (de_depth s) then de_depth s else r) /\ de_addr (add_depth a k r s) = (if Qle_bool r (de_depth s) then de_addr s else a)).
    { unfold add_depth. destruct (dget (de_bin s) k) eqn:G; [rewrite G|rewrite dget_dset_same]; match goal with |- context [Qle_bool r ?x] => destruct (Qle_bool r x) end; cbn [negb]; destruct (Qle_bool r (de_depth s)); auto. }
    destruct Ed as [-> ->]. destruct ls as [|l ls].
    + destruct (E eq_refl) as [-> ->]. assert (Q : Qle_bool r 0 = false). { destruct (Qle_bool r 0) eqn:Q; [|reflexivity]. apply Qle_bool_iff in Q. exfalso. apply (Qlt_not_le _ _ P Q). } rewrite Q. apply first_alone; [reflexivity|intros ? ? ? []].
    + specialize (D ltac:(discriminate)). destruct (Qle_bool r (de_depth s)) eqn:Q; [apply first_more; [exact D|]; intros _; apply Qle_bool_iff, Q|]. apply first_alone; [reflexivity|]. eapply first_above; [exact D|apply qle_not, Q]. Qed.

Lemma depth_positive p o r : depth_at p o r -> (0 < r)%Q.
Proof. intros (v & i & G & Nv & _ & Er). assert (L' : (0 < inject_Z (Z.of_nat (length v)))%Q) by (change 0%Q with (inject_Z 0); rewrite <- Zlt_Qlt; destruct v; [contradiction|cbn [length]; lia]). rewrite Er. apply Qlt_shift_div_l; [exact L'|]. rewrite Qmult_0_l. change 0%Q with (inject_Z 0). rewrite <- Zlt_Qlt. lia. Qed.

Lemma depth_steps os : forall p0 p s ls p' s', reordered p0 p -> agrees ls s -> foldM depth_one os (p, s) = Ok (p', s') ->
  reordered p0 p' /\ exists more, Forall2 (line_of p0) (considered os) more /\ agrees (ls ++ more) s'.
Proof. induction os as [|o os IH]; intros p0 p s ls p' s' R A H; cbn [foldM] in H.
  - assert (p' = p /\ s' = s) as [-> ->] by (split; congruence). split; [exact R|]. exists []. split; [constructor|]. rewrite app_nil_r. exact A.
  - unfold depth_one in H at 1. unfold considered. cbn [filter]. fold (considered os). destruct (o_ignore o) eqn:Eo; cbn [negb].
    + cbn [bind] in H. eapply IH; eassumption.
    + unfold dget_r in H. destruct (dget p (o_addr o)) as [v|] eqn:Ev; [|discriminate]. cbn [bind] in H. pose proof (sort_desc_perm (key (min_encoding v)) v) as P. fold (sorted_candidates v) in P. destruct (length (sorted_candidates v) =? 0)%nat eqn:El; [discriminate|]. cbn [bind] in H.
      set (r := (inject_Z (Z.of_nat (depth_in (sorted_candidates v) (o_text o)) + 1) / inject_Z (Z.of_nat (length (sorted_candidates v))))%Q) in *.
      assert (R' : reordered p0 (dset p (o_addr o) (sorted_candidates v))).
      { destruct R as [K R]. split; [rewrite dkeys_dset; unfold dmem; rewrite Ev; exact K|]. intros a w G. destruct (R a w G) as (w' & G' & P'). destruct (Z.eq_dec a (o_addr o)) as [->|Na].
        - rewrite dget_dset_same. eexists. split; [reflexivity|]. assert (w' = v) as -> by congruence. eapply perm_trans; eassumption.
        - rewrite dget_dset_other by exact Na. eauto. }
      assert (Dr : depth_at p0 o r). { apply (depth_at_perm p0 p); [exact (proj1 R)|exact R|]. exists v, (depth_in (sorted_candidates v) (o_text o)). split; [exact Ev|]. split; [intros ->; cbn in El; lia|]. split; [apply rank_sorted|]. unfold r. rewrite (Permutation_length P). reflexivity. }
      destruct (IH p0 _ _ (ls ++ [(o_addr o, Z.of_nat (length (sorted_candidates v)), r)]) _ _ R' (add_agrees _ _ _ _ _ (depth_positive _ _ _ Dr) A) H) as (R2 & more & F & A2). split; [exact R2|]. exists ((o_addr o, Z.of_nat (length (sorted_candidates v)), r) :: more). split.
      * constructor; [|exact F]. split; [reflexivity|]. split; [exact Dr|]. assert (I : In (o_addr o) (dkeys p0)) by (rewrite <- (proj1 R); apply dget_some_in; eauto). apply dget_some_in in I. destruct I as (u & Gu). exists u. split; [exact Gu|]. destruct (proj2 R _ _ Gu) as (w & Gw & Pw). assert (w = v) as -> by congruence. rewrite (Permutation_length P), (Permutation_length Pw). reflexivity.
      * rewrite <- app_assoc in A2. exact A2. Qed.

(** What is printed is the maximum of the depths, the maximum for each number of
    candidates, and the first address where each is reached. *)
Theorem C141_depths : forall originals p p' s, evaluate_depths originals p = Ok (p', s) ->
  exists ls, Forall2 (line_of p) (considered originals) ls /\
    (forall k, (forall a r, ~ In (a, k, r) ls) -> dget (de_bin s) k = None /\ dget (de_addr_bin s) k = None) /\
    (forall k, (exists a r, In (a, k, r) ls) -> exists a r, dget (de_bin s) k = Some r /\ dget (de_addr_bin s) k = Some a /\ first_deepest (Z.eqb k) ls a r) /\
    (ls = [] -> de_depth s = 0%Q /\ de_addr s = 0) /\ (ls <> [] -> first_deepest (fun _ => true) ls (de_addr s) (de_depth s)).
Proof. intros os p p' s H. assert (R0 : reordered p p) by (split; [reflexivity|intros a v G; exists v; split; [exact G|apply Permutation_refl]]).
  assert (A0 : agrees [] no_depths) by (split; [intros; split; reflexivity|split; [intros k (a & r & [])|split; [split; reflexivity|contradiction]]]).
  destruct (depth_steps os p p no_depths [] p' s R0 A0 H) as (_ & ls & F & A). exists ls. split; [exact F|exact A]. Qed.
Print Assumptions C141_depths.

(** The depth is the one [highest_depth] answers (C73), and it fails in the same cases. *)
Theorem C141_same : forall originals p, rmap (fun ps => (fst ps, de_depth (snd ps))) (evaluate_depths originals p) = rmap (fun q => (qu_prog q, match qu_depth q with Some d => d | None => 0%Q end)) (evaluate originals (new_quality p)).
Proof. intros os p. unfold evaluate, evaluate_depths. cbn [count_solutions new_quality qu_prog].
  assert (G : forall p s, rmap (fun ps => (fst ps, de_depth (snd ps))) (foldM depth_one os (p, s)) = foldM evaluate_one os (p, de_depth s)).
  { clear p. induction os as [|o os IH]; intros p s; [reflexivity|]. cbn [foldM]. unfold depth_one at 1, evaluate_one at 1. destruct (o_ignore o); [cbn [bind]; apply IH|]. destruct (dget_r p (o_addr o)) as [v|]; [|reflexivity]. cbn [bind]. destruct (length (sorted_candidates v) =? 0)%nat; [reflexivity|]. cbn [bind]. rewrite IH. f_equal. f_equal.
    unfold add_depth. set (r := (inject_Z _ / _)%Q). destruct (dget (de_bin s) _) eqn:Gb; [rewrite Gb|rewrite dget_dset_same]; match goal with |- context [Qle_bool r ?x] => destruct (Qle_bool r x) end; cbn [negb]; destruct (Qle_bool r (de_depth s)); reflexivity. }
  specialize (G p no_depths). cbn [no_depths de_depth] in G. unfold no_depths in *. rewrite G. match goal with |- context [foldM ?f ?l ?s] => destruct (foldM f l s) as [[p' d]|e] end; reflexivity. Qed.
Print Assumptions C141_same.

Example C141_example : exists p', evaluate_depths [mkO 0 false 1; mkO 4 true 0; mkO 8 false 4; mkO 12 false 5] (ranked ++ [(8, [mkQ 7 4 (1#2); mkQ 8 2 (3#4); mkQ 9 3 (3#4)]); (12, [mkQ 7 5 1; mkQ 8 6 1])]) = Ok (p', mkDepths (3#3) 8 [(3, 3#3); (2, 1#2)] [(3, 8); (2, 12)]).
Proof. eexists. vm_compute. reflexivity. Qed.
