(** C85 and C86, continued: the counting rules for every program. *)
From Verif Require Import ListLemmas FlipModel FlipProofs InstModel MetaModel MetaSpec MetaProofs MetaProps RecModel RecSpec RecProofs RulesModel RulesSpec RulesProofs RulesProofs2 RulesProofs3 RulesProps.
From Coq Require Import ZifyBool ZifyNat Lqa.

(** *** Specification *)
(** The program as the counting rules see it: without the addresses with one defined
    candidate that is not the first of its address. *)
Definition overlooked (l : list rcand) : bool := resolved l && match l with c :: _ => r_ignore c | [] => false end.
Definition seen (p : rprogram) : rprogram := filter (fun al => negb (overlooked (snd al))) p.
(** An address seen as resolved has a value that the metadata does not know. *)
Definition unknown_value (r : crule) (col : collector) (p : rprogram) : Prop :=
  exists a l c v, In (a, l) (seen p) /\ live l = [c] /\ In v (values_of r c) /\ dget (counts_of r col) v = None.

(** *** Proof *)
Lemma seen_in p al : In al (seen p) <-> In al p /\ overlooked (snd al) = false.
Proof. unfold seen. rewrite filter_In. destruct (overlooked (snd al)); intuition discriminate. Qed.
Lemma seen_first p : first_defined (seen p).
Proof. intros a l I R. apply seen_in in I. destruct I as [_ O]. cbn [snd] in O. unfold overlooked in O. rewrite R in O. destruct l as [|c l']; [discriminate R|]. exists c, l'. split; [reflexivity|exact O]. Qed.
Lemma seen_fold f p : forall st, foldM (count_step f) (dvalues p) st = foldM (count_step f) (dvalues (seen p)) st.
Proof. induction p as [|[a l] p IH]; intros st; [reflexivity|]. cbn [seen filter snd]. fold (seen p). change (dvalues ((a, l) :: p)) with (l :: dvalues p). cbn [foldM].
  destruct (overlooked l) eqn:O; cbn [negb].
  - unfold overlooked in O. apply andb_true_iff in O. destruct O as [R O]. destruct l as [|c l']; [discriminate O|]. destruct st as [rem can]. unfold count_step at 1. rewrite resolved_count, R. cbn [nth_r nth_error bind]. rewrite O. cbn [bind]. apply IH.
  - change (dvalues ((a, l) :: seen p)) with (l :: dvalues (seen p)). cbn [foldM]. destruct (count_step f st l) as [st'|e]; cbn [bind]; [apply IH|reflexivity]. Qed.
Lemma known_or_unknown r col p : known_values r col (seen p) \/ unknown_value r col p.
Proof. assert (G : forall vs, (forall v, In v vs -> dget (counts_of r col) v <> None) \/ exists v, In v vs /\ dget (counts_of r col) v = None).
  { induction vs as [|v vs [IH|(x & A & B)]]; [left; intros v []| |right; exists x; split; [right; exact A|exact B]]. destruct (dget (counts_of r col) v) eqn:E; [|right; exists v; split; [left; reflexivity|exact E]]. left. intros x [<-|I]; [congruence|exact (IH x I)]. }
  unfold known_values, unknown_value. induction (seen p) as [|[a l] q [IH|(b & m & c & v & A & B)]].
  - left. intros a l c v [].
  - destruct (live l) as [|c [|d m]] eqn:L.
    + left. intros b m x v [E|I] Lm V; [injection E as <- <-; congruence|exact (IH b m x v I Lm V)].
    + destruct (G (values_of r c)) as [K|(v & V & N)]; [|right; exists a, l, c, v; split; [left; reflexivity|auto]]. left. intros b m x v [E|I] Lm V; [injection E as <- <-|exact (IH b m x v I Lm V)]. apply K. congruence.
    + left. intros b m' x v [E|I] Lm V; [injection E as <- <-; congruence|exact (IH b m' x v I Lm V)].
  - right. exists b, m, c, v. split; [right; exact A|exact B]. Qed.

Theorem C85_exactly : forall r pass col p a l, dget p a = Some l ->
  (unknown_value r col p /\ run_rule r pass col [] p a = Err KeyError) \/
  (~ unknown_value r col p /\ exists l' cache b, run_rule r pass col [] p a = Ok (dset p a l', cache, b) /\
    Forall2 (fun c c' => if r_ignore c then c' = c else got (key r pass) (added r c + mean_chance (values_of r) (counts_of r col) (seen p) c) c c') l l' /\
    (b = true <-> ~ Forall2 same_cand l l')).
Proof. intros r pass col p a l E. rewrite run_rule_unfold. unfold recover_count, remaining_scores. rewrite seen_fold. destruct (known_or_unknown r col p) as [K|U].
  - right. split. { intros (b & m & c & v & A & B & C & D). exact (K b m c v A B C D). }
    destruct (remaining_spec (values_of r) (counts_of r col) (seen p)) as (sc & R & S).
    { intros x I. apply dvalues_in in I. destruct I as (b & I). exact (seen_first p b x I). }
    { intros x c v I. apply dvalues_in in I. destruct I as (b & I). exact (K b x c v I). }
    unfold remaining_scores in R. rewrite R. cbn [bind]. unfold dget_r. rewrite E. cbn [bind].
    destruct (count_candidates_spec (key r pass) sc (values_of r) (added r) l) as (l' & b & C & G & B). rewrite C. exists l', sc, b. split; [reflexivity|]. split; [|exact B].
    clear - G S. induction G as [|c c' l l' H G IH]; constructor; [|exact IH]. destruct (r_ignore c); [exact H|]. eapply got_eq; [|exact H]. apply count_score_spec, S.
  - left. split; [exact U|]. destruct U as (b & m & c & v & A & B & C & D).
    assert (R : resolved m = true) by (unfold resolved; rewrite B; reflexivity). destruct (seen_first p b m A R) as (c' & m' & -> & Ig).
    assert (c' = c) as -> by (unfold live in B; cbn [filter] in B; rewrite Ig in B; cbn [negb] in B; congruence).
    match goal with |- context [foldM ?f ?x ?y] => replace (foldM f x y) with (@Err (dict Z * dict Z) KeyError); [reflexivity|symmetry] end.
    apply (count_fold_err (values_of r) (dvalues (seen p)) (counts_of r col) [] c m' v); [apply dvalues_in; exists b; exact A| | | |]; assumption. Qed.
Print Assumptions C85_exactly.

Lemma used_up_seen f v p : used_up f v (seen p) <= used_up f v p.
Proof. unfold used_up. induction p as [|[a l] p IH]; [reflexivity|]. cbn [seen filter snd]. fold (seen p). change (dvalues ((a, l) :: p)) with (l :: dvalues p). cbn [filter].
  destruct (overlooked l); cbn [negb].
  - destruct (resolved l); cbn [flat_map]; [|exact IH]. rewrite times_app. pose proof (times_nonneg f v (live l)). lia.
  - change (dvalues ((a, l) :: seen p)) with (l :: dvalues (seen p)). cbn [filter]. destruct (resolved l); cbn [flat_map]; [|exact IH]. rewrite !times_app. lia. Qed.
Lemma open_seen f v p : still_open f v (seen p) = still_open f v p.
Proof. unfold still_open. induction p as [|[a l] p IH]; [reflexivity|]. cbn [seen filter snd]. fold (seen p). change (dvalues ((a, l) :: p)) with (l :: dvalues p). cbn [filter].
  destruct (overlooked l) eqn:O; cbn [negb].
  - unfold overlooked in O. apply andb_true_iff in O. destruct O as [-> _]. exact IH.
  - change (dvalues ((a, l) :: seen p)) with (l :: dvalues (seen p)). cbn [filter]. destruct (resolved l); cbn [negb flat_map]; [exact IH|]. rewrite !times_app, IH. reflexivity. Qed.
Lemma chance_seen f counts p v : (chance f counts p v <= chance f counts (seen p) v)%Q.
Proof. unfold chance. destruct (dget counts v) as [n|]; [|lra]. rewrite open_seen. destruct (Z.eqb_spec (still_open f v p) 0) as [E|N]; [lra|].
  assert (P : 0 <= still_open f v p) by apply times_nonneg. pose proof (used_up_seen f v p). unfold Qdiv. apply Qmult_le_compat_r; [rewrite <- Zle_Qle; lia|]. apply Qinv_le_0_compat. change 0%Q with (inject_Z 0). rewrite <- Zle_Qle. exact P. Qed.
Lemma mean_seen f counts p c : (mean_chance f counts p c <= mean_chance f counts (seen p) c)%Q.
Proof. unfold mean_chance, Qdiv. apply Qmult_le_compat_r.
  - unfold qsum. induction (f c) as [|v vs IH]; cbn [map fold_right]; [lra|]. pose proof (chance_seen f counts p v). lra.
  - apply Qinv_le_0_compat. change 0%Q with (inject_Z 0). rewrite <- Zle_Qle. lia. Qed.

(** With ignored candidates anywhere: no exception, no negative score, and never 0 for an
    original in an unresolved address; 1 is passed only if some address is overlooked. *)
Theorem C86_never_negative : forall r pass orig p a l, original_among orig p -> dget p a = Some l ->
  exists l' cache b, run_rule r pass (collect new_collector (map r_inst orig)) [] p a = Ok (dset p a l', cache, b) /\
    Forall2 (fun c c' => r_ignore c = false -> exists q, dget (r_scores c') (key r pass) = Some q /\ (added r c <= q)%Q /\
               (resolved l = false -> (exists o, In o orig /\ d_addr (r_inst o) = a /\ values_of r o = values_of r c) -> values_of r c <> [] -> (0 < q)%Q) /\
               ((1 + added r c < q)%Q -> exists b m, In (b, m) p /\ resolved m = true /\ exists x, hd_error m = Some x /\ r_ignore x = true)) l l'.
Proof. intros r pass orig p a l O G. pose proof (dget_in _ _ _ G) as I. destruct (C85_exactly r pass (collect new_collector (map r_inst orig)) p a l G) as [[(b & m & c & v & A & B & C & D) _]|[_ (l' & cache & b & E & F & _)]].
  { exfalso. apply seen_in in A. exact (known_of_original r orig p O b m c v (proj1 A) B C D). }
  exists l', cache, b. split; [exact E|].
  assert (H : Forall2 (fun c c' => In c l /\ if r_ignore c then c' = c else got (key r pass) (added r c + mean_chance (values_of r) (counts_of r (collect new_collector (map r_inst orig))) (seen p) c) c c') l l').
  { clear - F. assert (W : forall x, (forall c, In c x -> In c l) -> forall y, Forall2 (fun c c' => if r_ignore c then c' = c else got (key r pass) (added r c + mean_chance (values_of r) (counts_of r (collect new_collector (map r_inst orig))) (seen p) c) c c') x y ->
      Forall2 (fun c c' => In c l /\ if r_ignore c then c' = c else got (key r pass) (added r c + mean_chance (values_of r) (counts_of r (collect new_collector (map r_inst orig))) (seen p) c) c c') x y); [|apply W; auto].
    intros x S y X. induction X as [|c c' x y H X IH]; constructor; [split; [apply S; left; reflexivity|exact H]|]. apply IH. intros z Iz. apply S. right; exact Iz. }
  clear F E. revert H. apply forall2_weaken. intros c c' [J K] Ig. rewrite Ig in K. destruct K as (_ & _ & _ & (q & Gq & Q) & _). exists q. split; [exact Gq|].
  assert (A0 : (0 <= added r c)%Q) by (destruct r; cbn [added]; try lra; destruct (d_branch (r_inst c)); [vm_compute; discriminate|lra]).
  pose proof (mean_seen (values_of r) (counts_of r (collect new_collector (map r_inst orig))) p c) as Le.
  assert (All : (forall bm, In bm p -> overlooked (snd bm) = false) \/ exists bm, In bm p /\ overlooked (snd bm) = true).
  { clear. induction p as [|x p [IH|(y & A & B)]]; [left; intros y []| |right; exists y; split; [right; exact A|exact B]]. destruct (overlooked (snd x)) eqn:E; [right; exists x; split; [left; reflexivity|exact E]|left; intros y [<-|A]; [exact E|exact (IH y A)]]. }
  set (cts := counts_of r (collect new_collector (map r_inst orig))) in *.
  destruct (mean_bounds (map (chance (values_of r) cts p) (values_of r c))) as (B & P).
  { apply Forall_forall. intros z Z0. apply in_map_iff in Z0. destruct Z0 as (v & <- & V). exact (proj1 (chance_bounds r orig p a l c v O I J V)). }
  rewrite map_length in B, P. fold (mean_chance (values_of r) cts p c) in B, P. destruct B as (B1 & B2). split; [lra|]. split.
  - intros U X N. assert (M : (0 < mean_chance (values_of r) cts p c)%Q); [|lra]. apply P.
    + destruct (values_of r c); [congruence|discriminate].
    + apply Forall_forall. intros z Z0. apply in_map_iff in Z0. destruct Z0 as (v & <- & V). apply (proj2 (chance_bounds r orig p a l c v O I J V) U); [|exact Ig]. destruct X as (o & X1 & X2 & X3). exists o. auto.
  - intros Big. destruct All as [All|((x & m) & A & Ov)].
    + exfalso. assert (Sp : seen p = p). { clear - All. unfold seen. induction p as [|x p IH]; [reflexivity|]. cbn [filter]. rewrite (All x (or_introl eq_refl)). cbn [negb]. f_equal. apply IH. intros y Iy. apply All. right. exact Iy. } rewrite Sp in Q. lra.
    + exists x, m. split; [exact A|]. cbn [snd] in Ov. unfold overlooked in Ov. apply andb_true_iff in Ov. destruct Ov as [Rm Ov]. split; [exact Rm|]. destruct m as [|y m]; [discriminate Ov|]. exists y. split; [reflexivity|exact Ov]. Qed.
Print Assumptions C86_never_negative.

(** The address 0 is overlooked: the condition of its instruction is still asked for at 4. *)
Example C85_exactly_example : dget r_prog2 4 = Some [r_b; r_x] /\ seen r_prog2 = [(4, [r_b; r_x])] /\ ~ first_defined r_prog2 /\ ~ unknown_value ByCond r_col r_prog2 /\
  (mean_chance (values_of ByCond) (counts_of ByCond r_col) (seen r_prog2) r_b == 2)%Q /\
  match run_rule ByCond 0 r_col [] r_prog2 4 with Ok (p', _, _) => rmap (map r_scores) (dget_r p' 4) | Err e => Err e end = Ok [[(1, 2%Q)]; [(1, 0%Q)]] /\
  unknown_value ByCond r_col [(0, [r_a]); (4, [r_x])] /\ original_among r_orig r_prog2.
Proof. split; [reflexivity|]. split; [reflexivity|]. split.
  { intros F. destruct (F 0 _ (or_introl eq_refl) eq_refl) as (c & l' & E & Ig). injection E as <- _. discriminate Ig. }
  split. { intros (a & l & c & v & A & B & _). change (seen r_prog2) with [(4, [r_b; r_x])] in A. destruct A as [A|[]]. injection A as <- <-. discriminate B. }
  split; [vm_compute; reflexivity|]. split; [vm_compute; reflexivity|]. split.
  { exists 4, [r_x], r_x, 1. split; [right; left; reflexivity|]. split; [reflexivity|]. split; [left; reflexivity|reflexivity]. }
  apply r_original. right. reflexivity. Qed.
Example C86_never_negative_example : original_among r_orig r_prog2 /\ dget r_prog2 4 = Some [r_b; r_x] /\ resolved [r_b; r_x] = false /\
  (exists o, In o r_orig /\ d_addr (r_inst o) = 4 /\ values_of ByCond o = values_of ByCond r_b) /\ values_of ByCond r_b <> [].
Proof. split; [apply r_original; auto|]. split; [reflexivity|]. split; [reflexivity|]. split; [exists r_b; cbn; auto|discriminate]. Qed.
