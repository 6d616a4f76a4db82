(** Lemmas about the control-flow and distance rules and about Recuperator. *)
From Verif Require Import ListLemmas FlipModel FlipProofs InstModel MetaModel MetaSpec MetaProofs MetaProps BlaumProofs RecModel RecSpec RecProofs RecProofs3 GraphProofs RulesModel RulesSpec RulesProofs RulesProofs2.
From Coq Require Import ZifyBool ZifyNat Permutation Lqa.

(** *** Control flow *)
Lemma index16_ok c : 0 <= c < 16 -> index16 c = Ok (Z.to_nat c).
Proof. intros H. unfold index16. replace ((-16 <=? c) && (c <? 16)) with true by lia. replace (c <? 0) with false by lia. reflexivity. Qed.

Lemma tally_spec l : (forall c, In c l -> r_ignore c = false -> 0 <= d_cond (r_inst c) < 16) -> forall c0 f0 t0, length c0 = 16%nat ->
  exists cs, foldM tally_step l (c0, f0, t0) = Ok (cs, f0 + Z.of_nat (length (filter r_flags (live l))), t0 + Z.of_nat (length (live l))) /\ length cs = 16%nat /\
    forall i, 0 <= i < 16 -> (nth (Z.to_nat i) cs 0 == nth (Z.to_nat i) c0 0 + inject_Z (Z.of_nat (length (filter (has_cond i) (live l)))))%Q.
Proof. induction l as [|c l IH]; intros H c0 f0 t0 L.
  - exists c0. cbn [foldM live filter length]. rewrite !Z.add_0_r. split; [reflexivity|]. split; [exact L|]. intros i _. change (inject_Z (Z.of_nat 0)) with 0%Q. lra.
  - cbn [foldM]. unfold tally_step at 1. cbn [live filter]. destruct (r_ignore c) eqn:I; cbn [negb].
    + cbn [bind]. apply IH; [intros x J; apply H; right; exact J|exact L].
    + pose proof (H c (or_introl eq_refl) I) as R. rewrite index16_ok by exact R. cbn [bind].
      destruct (IH ltac:(intros x J; apply H; right; exact J) (list_set c0 (Z.to_nat (d_cond (r_inst c))) (nth (Z.to_nat (d_cond (r_inst c))) c0 0 + 1)%Q) (if r_flags c then f0 + 1 else f0) (t0 + 1)) as (cs & E & Lc & N); [rewrite list_set_len; exact L|].
      exists cs. split; [|split; [exact Lc|]].
      * unfold live in *. rewrite E. f_equal. f_equal; [f_equal|]; [cbn [filter]; destruct (r_flags c); cbn [length]; lia|cbn [length]; lia].
      * intros i Hi. rewrite N by exact Hi. rewrite nth_list_set, L. cbn [filter]. unfold has_cond at 2. destruct (Nat.eqb_spec (Z.to_nat (d_cond (r_inst c))) (Z.to_nat i)) as [Q|Q].
        -- replace (Nat.ltb (Z.to_nat (d_cond (r_inst c))) 16) with true by lia. replace (d_cond (r_inst c) =? i) with true by lia. rewrite Q. unfold live. cbn [length]. rewrite Nat2Z.inj_succ. unfold Z.succ. rewrite inject_Z_plus. change (inject_Z 1) with 1%Q. lra.
        -- replace (d_cond (r_inst c) =? i) with false by lia. unfold live. reflexivity. Qed.

Lemma eps_nth i : 0 <= i < 16 -> nth (Z.to_nat i) (repeat EPSILON 16) 0%Q = EPSILON.
Proof. intros H. apply nth_repeat_lt || (rewrite nth_indep with (d' := EPSILON) by (rewrite repeat_length; lia); apply nth_repeat). Qed.

Lemma tally_at p a : conditions_ok p -> exists cs, tally (dget p a) = Ok (cs, number_at r_flags p a, all_at p a) /\ length cs = 16%nat /\
  forall i, 0 <= i < 16 -> (nth (Z.to_nat i) cs 0 == EPSILON + inject_Z (number_at (has_cond i) p a))%Q.
Proof. intros C. unfold tally, number_at, all_at, defined_at. destruct (dget p a) as [l|] eqn:E.
  - destruct (tally_spec l) with (c0 := repeat EPSILON 16) (f0 := 0) (t0 := 0) as (cs & F & L & N); [intros c I J; apply (C a l c (dget_in _ _ _ E) I J)|reflexivity|].
    exists cs. split; [exact F|]. split; [exact L|]. intros i Hi. rewrite N by exact Hi. rewrite eps_nth by exact Hi. reflexivity.
  - exists (repeat EPSILON 16). split; [reflexivity|]. split; [reflexivity|]. intros i Hi. rewrite eps_nth by exact Hi. change (inject_Z _) with 0%Q. lra. Qed.

Lemma add_counts_nth m t a b i : length a = 16%nat -> length b = 16%nat -> 0 <= i < 16 ->
  nth (Z.to_nat i) (add_counts m t a b) 0%Q = (nth (Z.to_nat i) a 0 + cond_both m * nth (Z.to_nat i) b 0 / inject_Z t)%Q.
Proof. intros A B Hi. unfold add_counts. set (f := fun sc : Q * Q => (fst sc + cond_both m * snd sc / inject_Z t)%Q).
  rewrite nth_indep with (d' := f (0%Q, 0%Q)) by (rewrite map_length, combine_length, A, B; lia). rewrite map_nth. rewrite combine_nth by congruence. reflexivity. Qed.
Lemma add_counts_len m t a b : length a = 16%nat -> length b = 16%nat -> length (add_counts m t a b) = 16%nat.
Proof. intros A B. unfold add_counts. rewrite map_length, combine_length, A, B. reflexivity. Qed.

Lemma conditional_spec m p a : conditions_ok p -> exists cs, conditional_scores m p a = Ok cs /\
  forall i, 0 <= i < 16 -> (nth (Z.to_nat i) cs 0 == EPSILON + neighbour m p (a - 4) i + neighbour m p (a + 4) i - flag_loss m p (a - 4) i)%Q.
Proof. intros C. unfold conditional_scores. destruct (tally_at p (a - 4) C) as (pre & E1 & L1 & N1). destruct (tally_at p (a + 4) C) as (post & E2 & L2 & N2). rewrite E1. cbn [bind]. rewrite E2. cbn [bind].
  eexists. split; [reflexivity|]. intros i Hi.
  set (s1 := if 0 <? all_at p (a - 4) then _ else _).
  assert (P1 : 0 <= all_at p (a - 4)) by (unfold all_at; lia). assert (P2 : 0 <= all_at p (a + 4)) by (unfold all_at; lia).
  assert (S1 : length s1 = 16%nat /\ (nth (Z.to_nat i) s1 0 == EPSILON + neighbour m p (a - 4) i - flag_loss m p (a - 4) i)%Q).
  { subst s1. unfold neighbour, flag_loss. change (1 # 100000000000000) with EPSILON. destruct (Z.ltb_spec 0 (all_at p (a - 4))) as [G|G].
    - split; [apply add_counts_len; [rewrite list_set_len; reflexivity|exact L1]|].
      rewrite add_counts_nth by (try exact L1; try exact Hi; rewrite list_set_len; reflexivity). rewrite (N1 i Hi). replace (all_at p (a - 4) =? 0) with false by lia. cbn [negb].
      rewrite nth_list_set, repeat_length. destruct (Nat.eqb_spec 14 (Z.to_nat i)) as [Q|Q].
      + replace (i =? 14) with true by lia. cbn [andb]. change (Nat.ltb 14 16) with true. cbv iota. change (nth 14 (repeat EPSILON 16) 0%Q) with EPSILON. unfold Qdiv. ring.
      + replace (i =? 14) with false by lia. cbn [andb]. rewrite eps_nth by exact Hi. unfold Qdiv. ring.
    - split; [reflexivity|]. rewrite eps_nth by exact Hi. replace (all_at p (a - 4) =? 0) with true by lia. rewrite andb_false_r. ring. }
  destruct S1 as [S1 S2]. unfold neighbour at 2. change (1 # 100000000000000) with EPSILON. destruct (Z.ltb_spec 0 (all_at p (a + 4))) as [G|G].
  - rewrite add_counts_nth by assumption. rewrite S2, (N2 i Hi). replace (all_at p (a + 4) =? 0) with false by lia. unfold Qdiv. ring.
  - rewrite S2. replace (all_at p (a + 4) =? 0) with true by lia. ring. Qed.

Lemma cfg_scores_spec m p a cs l : (forall c, In c l -> r_ignore c = false -> 0 <= d_cond (r_inst c) < 16) ->
  (forall i, 0 <= i < 16 -> (nth (Z.to_nat i) cs 0 == EPSILON + neighbour m p (a - 4) i + neighbour m p (a + 4) i - flag_loss m p (a - 4) i)%Q) ->
  exists qs, mapM (cfg_score m p cs) l = Ok qs /\ Forall2 (fun c q => (q == flow_score m p a c)%Q) l qs.
Proof. intros H N. induction l as [|c l IH]; [exists []; split; [reflexivity|constructor]|]. destruct IH as (qs & E & F); [intros x J; apply H; right; exact J|]. cbn [mapM].
  assert (S : exists q, cfg_score m p cs c = Ok q /\ (q == flow_score m p a c)%Q).
  { unfold cfg_score, flow_score, jump_gain. change (1 # 100000000000000) with EPSILON. destruct (r_ignore c) eqn:I; [exists 0%Q; split; reflexivity|]. pose proof (H c (or_introl eq_refl) I) as R. rewrite index16_ok by exact R. cbn [bind]. eexists. split; [reflexivity|].
    specialize (N _ R). destruct (d_branch (r_inst c)); [destruct (d_jump (r_inst c)) as [j|]; [destruct (dmem p j)|]|]; rewrite N; ring. }
  destruct S as (q & Eq & Q). rewrite Eq, E. cbn [bind]. exists (q :: qs). split; [reflexivity|]. constructor; assumption. Qed.

Lemma update_scores_spec k l : forall qs, length qs = length l -> exists l' b, update_scores k qs l = (l', b) /\
  Forall2 (fun cq c' => got k (snd cq) (fst cq) c') (combine l qs) l' /\ (b = true <-> ~ Forall2 same_cand l l') /\ (b = false -> l' = l).
Proof. induction l as [|c l IH]; intros [|q qs] L; try discriminate; cbn [update_scores combine].
  - exists [], false. split; [reflexivity|]. split; [constructor|]. split; [|reflexivity]. split; [discriminate|]. intros N. destruct N. constructor.
  - destruct (update_score_spec k c q) as (c' & b & U & G & H & H'). rewrite U. destruct (IH qs) as (l' & b' & E & F & B & B'); [cbn [length] in L; lia|]. rewrite E.
    exists (c' :: l'), (b || b'). split; [reflexivity|]. split; [constructor; assumption|]. destruct b; cbn [orb].
    + split; [|discriminate]. split; [|reflexivity]. intros _ S. inversion S as [|? ? ? ? S1 S2]; subst. exact (H eq_refl S1).
    + rewrite (H' eq_refl). split; [|intros X; f_equal; exact (B' X)]. rewrite B. split; intros N S; apply N.
      * inversion S; assumption.
      * constructor; [apply same_refl|exact S]. Qed.

Lemma forall2_combine {A B C} (P : A -> B -> Prop) (R : A * B -> C -> Prop) l : forall qs l', Forall2 P l qs -> Forall2 R (combine l qs) l' ->
  Forall2 (fun a c => exists b, P a b /\ R (a, b) c) l l'.
Proof. intros qs l' F. revert l'. induction F as [|a b l qs H F IH]; intros l' G; cbn [combine] in G; inversion G; subst; constructor; eauto. Qed.

Lemma control_flow_spec pass m p a l : conditions_ok p -> dget p a = Some l ->
  exists l' b, control_flow pass m p a = Ok (dset p a l', b) /\ Forall2 (fun c c' => got (key_of RCfg pass) (flow_score m p a c) c c') l l' /\ (b = true <-> ~ Forall2 same_cand l l').
Proof. intros C E. unfold control_flow. destruct (conditional_spec m p a C) as (cs & E1 & N). rewrite E1. cbn [bind]. unfold dget_r. rewrite E. cbn [bind].
  destruct (cfg_scores_spec m p a cs l) as (qs & E2 & F); [intros c I J; apply (C a l c (dget_in _ _ _ E) I J)|exact N|]. rewrite E2. cbn [bind].
  destruct (update_scores_spec (key_of RCfg pass) l qs) as (l' & b & U & G & B & _); [symmetry; clear - F; induction F; cbn [length]; congruence|]. rewrite U. exists l', b. split; [reflexivity|]. split; [|exact B].
  pose proof (forall2_combine _ _ _ _ _ F G) as H. clear - H. induction H as [|c c' l l' (q & A & B) H IH]; constructor; [|exact IH]. cbn [fst snd] in B. exact (got_eq _ _ _ _ _ A B). Qed.

(** *** Scores do not matter to the rules *)
Definition erase (c : rcand) : rcand := with_scores c [].
Definition shape (p : rprogram) : rprogram := map (fun kv => (fst kv, map erase (snd kv))) p.

Lemma foldM_map {S A B} (f : S -> B -> result S) (g : A -> B) l : forall s, foldM f (map g l) s = foldM (fun s a => f s (g a)) l s.
Proof. induction l as [|a l IH]; intros s; [reflexivity|]. cbn [map foldM]. destruct (f s (g a)); cbn [bind]; [apply IH|reflexivity]. Qed.
Lemma foldM_ext {S A} (f g : S -> A -> result S) l : (forall s a, f s a = g s a) -> forall s, foldM f l s = foldM g l s.
Proof. intros H. induction l as [|a l IH]; intros s; [reflexivity|]. cbn [foldM]. rewrite H. destruct (g s a); cbn [bind]; [apply IH|reflexivity]. Qed.
Lemma fold_left_map {S A B} (f : S -> B -> S) (g : A -> B) l : forall s, fold_left f (map g l) s = fold_left (fun s a => f s (g a)) l s.
Proof. induction l as [|a l IH]; intros s; [reflexivity|]. cbn [map fold_left]. apply IH. Qed.
Lemma mapM_map {A B C} (f : B -> result C) (g : A -> B) l : mapM f (map g l) = mapM (fun a => f (g a)) l.
Proof. induction l as [|a l IH]; [reflexivity|]. cbn [map mapM]. rewrite IH. reflexivity. Qed.

Lemma shape_get p a : dget (shape p) a = option_map (map erase) (dget p a).
Proof. apply dget_map_values. Qed.
Lemma shape_mem p a : dmem (shape p) a = dmem p a.
Proof. unfold dmem. rewrite shape_get. destruct (dget p a); reflexivity. Qed.
Lemma shape_values p : dvalues (shape p) = map (map erase) (dvalues p).
Proof. unfold dvalues, shape. rewrite !map_map. reflexivity. Qed.
Lemma shape_dset p a l l' : dget p a = Some l -> map erase l' = map erase l -> shape (dset p a l') = shape p.
Proof. unfold shape. induction p as [|[k x] p IH]; intros G E; [discriminate|]. cbn [dget dset] in *. destruct (a =? k); cbn [map fst snd]; [injection G as ->; rewrite E; reflexivity|]. rewrite IH by assumption. reflexivity. Qed.

Lemma tally_erase o : tally (option_map (map erase) o) = tally o.
Proof. destruct o as [l|]; [|reflexivity]. cbn [option_map tally]. rewrite foldM_map. reflexivity. Qed.
Lemma conditional_shape m p a : conditional_scores m (shape p) a = conditional_scores m p a.
Proof. unfold conditional_scores. rewrite !shape_get, !tally_erase. reflexivity. Qed.
Lemma mapM_ext {A B} (f g : A -> result B) l : (forall a, f a = g a) -> mapM f l = mapM g l.
Proof. intros H. induction l as [|a l IH]; [reflexivity|]. cbn [mapM]. rewrite H, IH. reflexivity. Qed.
Lemma cfg_shape m p cs l : mapM (cfg_score m (shape p) cs) (map erase l) = mapM (cfg_score m p cs) l.
Proof. rewrite mapM_map. apply mapM_ext. intros c. unfold cfg_score, r_ignore. cbn [erase with_scores r_inst]. destruct (d_ignore (r_inst c)); [reflexivity|]. destruct (index16 _); [|reflexivity]. cbn [bind].
  destruct (d_branch (r_inst c)); [|reflexivity]. destruct (d_jump (r_inst c)); [|reflexivity]. rewrite shape_mem. reflexivity. Qed.

Lemma count_erase l : candidate_count (map erase l) = candidate_count l.
Proof. unfold candidate_count. rewrite fold_left_map. reflexivity. Qed.
Lemma values_erase r c : values_of r (erase c) = values_of r c. Proof. destruct r; reflexivity. Qed.
Lemma count_step_erase r st l : count_step (values_of r) st (map erase l) = count_step (values_of r) st l.
Proof. destruct st as [rem can]. unfold count_step. rewrite count_erase. destruct (candidate_count l =? 1).
  - destruct l as [|c l]; [reflexivity|]. cbn [map nth_r nth_error bind]. rewrite values_erase. reflexivity.
  - rewrite fold_left_map. destruct r; reflexivity. Qed.
Lemma remaining_shape r counts p : remaining_scores (values_of r) counts (shape p) = remaining_scores (values_of r) counts p.
Proof. unfold remaining_scores. rewrite shape_values, foldM_map. rewrite (foldM_ext _ (count_step (values_of r))); [reflexivity|]. intros; apply count_step_erase. Qed.

Lemma got_erase k q c c' : got k q c c' -> erase c' = erase c.
Proof. intros (A & B & C & _). unfold erase, with_scores. rewrite A, B, C. reflexivity. Qed.
Lemma forall2_erase (P : rcand -> rcand -> Prop) l l' : (forall c c', P c c' -> erase c' = erase c) -> Forall2 P l l' -> map erase l' = map erase l.
Proof. intros H F. induction F as [|c c' l l' G F IH]; [reflexivity|]. cbn [map]. rewrite (H _ _ G), IH. reflexivity. Qed.

(** *** The distance rule: the score it ends with *)
Fixpoint back_score (p : rprogram) (reads : list Z) (positions : list Z) (rs : list Q) (best : Q) (w : option Z) : result (option Q * option Z) :=
  match positions with
  | [] => Ok (None, w)
  | pos :: rest =>
      match dget p pos with
      | None => back_score p reads rest rs best w
      | Some prev =>
          let* (rs', w') := foldM (dist_step reads (candidate_count prev)) prev (rs, w) in
          let* q := reads_score rs' reads in
          let best' := qmax q best in
          if Qle_bool 1 best' then Ok (Some 1%Q, w')
          else let* (o, w'') := back_score p reads rest rs' best' w' in Ok (Some (match o with Some x => x | None => best' end), w'')
      end
  end.

Lemma got_trans k q q' c c1 c2 : got k q c c1 -> got k q' c1 c2 -> got k q' c c2.
Proof. intros (A & B & C & _ & F) (A' & B' & C' & D' & F'). split; [congruence|]. split; [congruence|]. split; [congruence|]. split; [exact D'|]. intros k' N. rewrite F', F by exact N. reflexivity. Qed.

Lemma look_back_spec k p reads positions : forall rs best w c u,
  match back_score p reads positions rs best w with
  | Err e => look_back k p reads positions rs best w c u = Err e
  | Ok (o, w') => exists c' b, look_back k p reads positions rs best w c u = Ok (c', w', b) /\
                   match o with Some q => got k q c c' | None => c' = c /\ b = u end
  end.
Proof. induction positions as [|pos rest IH]; intros rs best w c u; cbn [back_score look_back].
  - exists c, u. auto.
  - destruct (dget p pos) as [prev|]; [|apply IH].
    destruct (foldM (dist_step reads (candidate_count prev)) prev (rs, w)) as [[rs' w']|e]; cbn [bind]; [|reflexivity].
    destruct (reads_score rs' reads) as [q|e]; cbn [bind]; [|reflexivity].
    destruct (Qle_bool 1 (qmax q best)).
    + destruct (update_score_spec k c 1) as (c' & b & U & G & _). rewrite U. exists c', (u || b). split; [reflexivity|exact G].
    + destruct (update_score_spec k c (qmax q best)) as (c' & b & U & G & _). rewrite U.
      specialize (IH rs' (qmax q best) w' c' (u || b)). destruct (back_score p reads rest rs' (qmax q best) w') as [[o w'']|e]; cbn [bind]; [|exact IH].
      destruct IH as (c2 & b2 & E & H). exists c2, b2. split; [exact E|]. destruct o as [x|]; [exact (got_trans _ _ _ _ _ _ G H)|]. destruct H as [-> _]. exact G. Qed.

Lemma back_bounds p reads positions : forall rs best w o w', (0 <= best)%Q -> back_score p reads positions rs best w = Ok (Some o, w') -> prob o.
Proof. induction positions as [|pos rest IH]; intros rs best w o w' B; cbn [back_score]; [discriminate|].
  destruct (dget p pos) as [prev|]; [|apply IH, B].
  destruct (foldM (dist_step reads (candidate_count prev)) prev (rs, w)) as [[rs' w1]|e]; cbn [bind]; [|discriminate].
  destruct (reads_score rs' reads) as [q|e]; cbn [bind]; [|discriminate].
  assert (B' : (0 <= qmax q best)%Q) by (unfold qmax; destruct (qlt_spec q best); lra).
  destruct (qle_spec 1 (qmax q best)) as [L|L]; [intros H; injection H as <- <-; apply prob1|].
  destruct (back_score p reads rest rs' (qmax q best) w1) as [[o' w'']|e] eqn:E; cbn [bind]; [|discriminate].
  intros H. injection H as <- <-. destruct o' as [x|]; [exact (IH _ _ _ _ _ B' E)|]. split; lra. Qed.

Definition positions_of (col : collector) (position : Z) (reads : list Z) : list Z :=
  map (fun d => position - 4 * d) (zrange (lowest_distance col reads) (highest_distance col reads + 1)).
Definition eps20 := repeat EPSILON (Z.to_nat STORAGE_COUNT).
(** The score of one candidate, [None] if it gets none. *)
Definition final_score (col : collector) (p : rprogram) (position : Z) (w : option Z) (c : rcand) : result (option Q * option Z) :=
  if d_ignore (r_inst c) then Ok (Some 0%Q, w)
  else match d_used (r_inst c) with
       | [] => Ok (Some EPSILON, w)
       | _ => back_score p (d_read (r_inst c)) (positions_of col position (d_read (r_inst c))) eps20 0 w
       end.
Definition got_if (k : Z) (o : option Q) (c c' : rcand) : Prop := match o with Some q => got k q c c' | None => c' = c end.

Lemma dist_candidate_spec k col p position w c :
  match final_score col p position w c with
  | Err e => dist_candidate k col p position w c = Err e
  | Ok (o, w') => exists c' b, dist_candidate k col p position w c = Ok (c', w', b) /\ got_if k o c c'
  end.
Proof. unfold final_score, dist_candidate. destruct (d_ignore (r_inst c)).
  - destruct (update_score_spec k c 0) as (c' & b & U & G & _). rewrite U. cbn [fst]. eauto.
  - destruct (d_used (r_inst c)) as [|u us].
    + destruct (update_score_spec k c EPSILON) as (c' & b & U & G & _). rewrite U. eauto.
    + pose proof (look_back_spec k p (d_read (r_inst c)) (positions_of col position (d_read (r_inst c))) eps20 0 w c false) as H.
      change (repeat EPSILON (Z.to_nat STORAGE_COUNT)) with eps20. fold (positions_of col position (d_read (r_inst c))).
      destruct (back_score _ _ _ _ _ _) as [[o w']|e]; [|exact H]. destruct H as (c' & b & E & G). exists c', b. split; [exact E|]. destruct o; [exact G|apply G]. Qed.

Fixpoint final_scores (col : collector) (p : rprogram) (position : Z) (w : option Z) (l : list rcand) : result (list (option Q)) :=
  match l with
  | [] => Ok []
  | c :: l' => let* (o, w') := final_score col p position w c in let* os := final_scores col p position w' l' in Ok (o :: os)
  end.
Lemma dist_candidates_spec k col p position l : forall w,
  match final_scores col p position w l with
  | Err e => dist_candidates k col p position w l = Err e
  | Ok os => exists l' b, dist_candidates k col p position w l = Ok (l', b) /\ length os = length l /\ Forall2 (fun co c' => got_if k (snd co) (fst co) c') (combine l os) l'
  end.
Proof. induction l as [|c l IH]; intros w; cbn [final_scores dist_candidates].
  - exists [], false. repeat split. constructor.
  - pose proof (dist_candidate_spec k col p position w c) as H. destruct (final_score col p position w c) as [[o w']|e]; cbn [bind]; [|rewrite H; reflexivity].
    destruct H as (c' & b & E & G). specialize (IH w'). destruct (final_scores col p position w' l) as [os|e]; cbn [bind]; [|rewrite E; cbn [bind]; rewrite IH; reflexivity].
    destruct IH as (l' & b' & E' & L & F). exists (c' :: l'), (b || b'). rewrite E. cbn [bind]. rewrite E'. cbn [bind]. split; [reflexivity|]. split; [cbn [length]; congruence|]. constructor; assumption. Qed.

(** The score depends on the instructions only. *)
Lemma dist_step_erase reads here st c : dist_step reads here st (erase c) = dist_step reads here st c.
Proof. reflexivity. Qed.
Lemma back_shape p reads positions : forall rs best w, back_score (shape p) reads positions rs best w = back_score p reads positions rs best w.
Proof. induction positions as [|pos rest IH]; intros rs best w; [reflexivity|]. cbn [back_score]. rewrite shape_get. destruct (dget p pos) as [prev|]; cbn [option_map]; [|apply IH].
  rewrite count_erase, foldM_map. rewrite (foldM_ext _ (dist_step reads (candidate_count prev))) by (intros; apply dist_step_erase).
  destruct (foldM _ prev (rs, w)) as [[rs' w']|e]; cbn [bind]; [|reflexivity]. destruct (reads_score rs' reads) as [q|e]; cbn [bind]; [|reflexivity]. rewrite IH. reflexivity. Qed.
Lemma final_one_shape col p position w c : final_score col (shape p) position w (erase c) = final_score col p position w c.
Proof. unfold final_score. cbn [erase with_scores r_inst]. rewrite back_shape. reflexivity. Qed.
Lemma final_shape col p position l : forall w, final_scores col (shape p) position w (map erase l) = final_scores col p position w l.
Proof. induction l as [|c l IH]; intros w; [reflexivity|]. cbn [map final_scores]. rewrite final_one_shape.
  destruct (final_score col p position w c) as [[o w']|e]; cbn [bind]; [|reflexivity]. rewrite IH. reflexivity. Qed.
