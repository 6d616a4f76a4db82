(** C167: candidates already ruled out, and one pass of the rules. *)
From Verif Require Import ListLemmas FlipModel FlipProofs InstModel MetaModel MetaSpec MetaProofs MetaProps RecModel RecSpec RecProofs GraphProofs RulesModel RulesSpec RulesProofs RulesProofs2 RulesProofs3 RulesProofs4 RulesProofs5 RulesProofs6 RulesProofs7 RulesProps DistanceProps CountExactProps OnePassProps DistanceBoundProps RuleOrderProps.
From Coq Require Import ZifyBool ZifyNat Lqa.

(** The program with the ruled out candidates taken from the lists. *)
Definition without (p : rprogram) : rprogram := map (fun kv => (fst kv, live (snd kv))) p.

Lemma without_get p a : dget (without p) a = option_map live (dget p a).
Proof. unfold without. induction p as [|[k v] p IH]; [reflexivity|]. cbn [map fst snd dget]. destruct (a =? k); [reflexivity|exact IH]. Qed.
Lemma without_keys p : dkeys (without p) = dkeys p.
Proof. unfold without, dkeys. rewrite map_map. reflexivity. Qed.
Lemma live_live l : live (live l) = live l.
Proof. unfold live. induction l as [|x l IH]; [reflexivity|]. cbn [filter]. destruct (negb (r_ignore x)) eqn:E; cbn [filter]; [rewrite E|]; congruence. Qed.
Lemma live_in c l : In c (live l) <-> In c l /\ r_ignore c = false.
Proof. unfold live. rewrite filter_In, negb_true_iff. reflexivity. Qed.
Lemma resolved_live l : resolved (live l) = resolved l.
Proof. unfold resolved. rewrite live_live. reflexivity. Qed.
Lemma without_in p a l : In (a, l) (without p) -> exists m, In (a, m) p /\ l = live m.
Proof. unfold without. intros I. apply in_map_iff in I. destruct I as ([b m] & E & I). cbn [fst snd] in E. exists m. split; [|congruence]. assert (b = a) as <- by congruence. exact I. Qed.
Lemma defined_without p b : defined_at (without p) b = defined_at p b.
Proof. unfold defined_at. rewrite without_get. destruct (dget p b); [apply live_live|reflexivity]. Qed.
Lemma dmem_without p b : dmem (without p) b = dmem p b.
Proof. unfold dmem. rewrite without_get. destruct (dget p b); reflexivity. Qed.
Lemma flow_without m p a c : flow_score m (without p) a c = flow_score m p a c.
Proof. unfold flow_score, neighbour, flag_loss, jump_gain, all_at, number_at. rewrite !defined_without. destruct (d_jump (r_inst c)); [rewrite dmem_without|]; reflexivity. Qed.
Lemma distance_without col p a c : distance_score col (without p) a c = distance_score col p a c.
Proof. unfold distance_score. destruct (r_ignore c); [reflexivity|]. destruct (Nat.eqb _ 0); [reflexivity|].
  assert (E : forall w, existsb (dmem (without p)) w = existsb (dmem p) w) by (induction w as [|b w IH]; cbn [existsb]; [reflexivity|rewrite dmem_without, IH; reflexivity]). rewrite E. destruct (existsb _ _); [|reflexivity]. f_equal.
  assert (C : forall w r, credit_for (without p) w r = credit_for p w r). { intros w r. unfold credit_for. replace (flat_map (shares_at (without p) r) w) with (flat_map (shares_at p r) w); [reflexivity|]. induction w as [|b w IH]; cbn [flat_map]; [reflexivity|]. rewrite IH. f_equal. unfold shares_at, all_at. rewrite defined_without. reflexivity. }
  f_equal. unfold average. f_equal. set (w := window col a (d_read (r_inst c))). clearbody w. induction (d_read (r_inst c)) as [|r l IH]; cbn [fold_right]; [reflexivity|]. rewrite C, IH. reflexivity. Qed.
Lemma seen_without p : CountExactProps.seen (without p) = without p.
Proof. apply first_seen. intros a l I R. apply without_in in I. destruct I as (m & _ & ->). destruct (live m) as [|c l'] eqn:E; [discriminate R|]. exists c, l'. split; [reflexivity|]. apply (live_in c m). rewrite E. left; reflexivity. Qed.
Lemma chance_without values counts p v : chance values counts (without p) v = chance values counts p v.
Proof. unfold chance, used_up, still_open.
  assert (E : forall g, (forall l, g (live l) = g l) -> flat_map live (filter g (dvalues (without p))) = flat_map live (filter g (dvalues p))).
  { intros g G. unfold without, dvalues. rewrite map_map. cbn [snd]. induction p as [|[a l] p IH]; [reflexivity|]. cbn [map filter snd]. rewrite G. destruct (g l); cbn [flat_map]; rewrite IH, ?live_live; reflexivity. }
  rewrite (E resolved) by apply resolved_live. rewrite (E (fun l => negb (resolved l))) by (intros l; rewrite resolved_live; reflexivity). reflexivity. Qed.
Lemma mean_without values counts p c : mean_chance values counts (without p) c = mean_chance values counts p c.
Proof. unfold mean_chance. rewrite (map_ext _ _ (chance_without values counts p)). reflexivity. Qed.
Lemma original_without orig p : original_among orig p -> original_among orig (without p).
Proof. intros (N1 & N2 & H1 & H2 & H3). split; [exact N1|]. split; [rewrite without_keys; exact N2|]. split; [|split].
  - intros o I. destruct (H1 o I) as (A & l & c & G & J & B & B'). split; [exact A|]. exists (live l), c. split; [rewrite without_get, G; reflexivity|]. split; [|split; assumption]. apply live_in. split; [exact J|]. unfold r_ignore in *. rewrite B. exact A.
  - intros a. rewrite without_keys. apply H2.
  - intros a l c I J. apply without_in in I. destruct I as (m & I & ->). apply live_in in J. exact (H3 a m c I (proj1 J)). Qed.

(** ** C167 *)
(** Missing from the full claim: the shares of conditions, opcodes and registers agree only if at
    every address with one candidate in play this candidate is listed first; an address is
    compared where at least two candidates are in play. *)
Theorem C167_ruled_out_partial : forall orig p, let col := collect new_collector (map r_inst orig) in
  original_among orig p -> conditions_ok p -> storages_ok p -> writes_ok p -> Z.of_nat (length orig) < 2 ^ 63 ->
  exists p' q', rule_recover 1 col p = Ok p' /\ rule_recover 1 col (without p) = Ok q' /\
    forall a l i j c, dget p a = Some l -> (1 < length (live l))%nat -> nth_error l i = Some c -> nth_error (live l) j = Some c ->
    exists l' m' c' d', dget p' a = Some l' /\ dget q' a = Some m' /\ nth_error l' i = Some c' /\ nth_error m' j = Some d' /\
      (forall k, In k [key_of RCfg 0; key_of RDist 0] -> same_number (dget (r_scores c') k) (dget (r_scores d') k)) /\
      (first_defined p -> forall k, In k [key_of RCond 0; key_of RInst 0; key_of RReg 0] -> same_number (dget (r_scores c') k) (dget (r_scores d') k)).
Proof. intros orig p col O CO SO Wo Len. destruct (C113_any_program orig p O CO SO Wo Len) as (p' & Ep & Gp).
  destruct (C113_any_program orig (without p) (original_without orig p O)) as (q' & Eq & Gq); [intros a l c I J; apply without_in in I; destruct I as (m & I & ->); apply live_in in J; exact (CO a m c I (proj1 J))|intros a l c r I J; apply without_in in I; destruct I as (m & I & ->); apply live_in in J; exact (SO a m c r I (proj1 J))|intros a l c r I J; apply without_in in I; destruct I as (m & I & ->); apply live_in in J; exact (Wo a m c r I (proj1 J))|exact Len|].
  exists p', q'. split; [exact Ep|]. split; [exact Eq|]. intros a l i j c G L Il Jm.
  assert (Le : (length (live l) <= length l)%nat) by (unfold live; clear; induction l as [|x l IH]; cbn [filter length]; [lia|destruct (negb (r_ignore x)); cbn [length]; lia]). assert (Ig : r_ignore c = false) by (apply nth_error_In, live_in in Jm; apply Jm).
  destruct (Gp a l G ltac:(lia)) as (l' & Gl' & Fl). destruct (Gq a (live l)) as (m' & Gm' & Fm); [rewrite without_get, G; reflexivity|exact L|].
  destruct (forall2_at _ _ _ _ _ Fl Il) as (c' & Ic' & A1 & A2 & A3). destruct (forall2_at _ _ _ _ _ Fm Jm) as (d' & Id' & B1 & B2 & B3). exists l', m', c', d'. repeat (split; [assumption|]). split.
  - intros k [<-|[<-|[]]].
    + eapply same_via; [exact A1|exact B1|]. rewrite flow_without. reflexivity.
    + rewrite distance_without in B3. eapply same_via; [exact A3|exact B3|]. fold col. destruct (distance_score col p a c); cbn [same_number]; [reflexivity|]. destruct (dget (r_scores c) (key_of RDist 0)); cbn [same_number]; [reflexivity|exact Logic.I].
  - intros Fd. assert (Cn : forall r, same_number (dget (r_scores c') (key r 0)) (dget (r_scores d') (key r 0))).
    { intros r. eapply same_via; [exact (A2 Ig r)|exact (B2 Ig r)|]. rewrite seen_without, mean_without, (first_seen p Fd). reflexivity. }
    intros k [<-|[<-|[<-|[]]]]; [exact (Cn ByCond)|exact (Cn ByInst)|exact (Cn ByReg)]. Qed.
Print Assumptions C167_ruled_out_partial.

(** An ignored candidate listed first changes the score of a candidate elsewhere; and a
    candidate is not scored at all once it is the only one listed. *)
Theorem C167_ruled_out_refuted : let col := collect new_collector (map r_inst r_orig) in original_among r_orig r_prog2 /\
  exists p' q', rule_recover 1 col r_prog2 = Ok p' /\ rule_recover 1 col (without r_prog2) = Ok q' /\
  (exists l m c d, dget p' 4 = Some l /\ dget q' 4 = Some m /\ nth_error l 0 = Some c /\ nth_error m 0 = Some d /\ r_inst c = r_b.(r_inst) /\ r_inst d = r_b.(r_inst) /\ ~ same_number (dget (r_scores c) (key_of RCond 0)) (dget (r_scores d) (key_of RCond 0))) /\
  (exists l m c d, dget p' 0 = Some l /\ dget q' 0 = Some m /\ nth_error l 1 = Some c /\ nth_error m 0 = Some d /\ r_inst c = r_a.(r_inst) /\ r_inst d = r_a.(r_inst) /\ r_scores d = [] /\ r_scores c <> []).
Proof. cbv zeta. split; [exact (proj1 C113_any_program_example)|]. do 2 eexists. split; [vm_compute; reflexivity|]. split; [vm_compute; reflexivity|]. split.
  - do 4 eexists. split; [vm_compute; reflexivity|]. split; [vm_compute; reflexivity|]. do 4 (split; [reflexivity|]). vm_compute. discriminate.
  - do 4 eexists. split; [vm_compute; reflexivity|]. split; [vm_compute; reflexivity|]. do 5 (split; [reflexivity|]). discriminate. Qed.
Print Assumptions C167_ruled_out_refuted.
(** An ignored candidate behind the defined one, and one among three. *)
Definition r_prog4 : rprogram := [(0, [r_a; dropped (ins 0 3 9 [5] [5] [])]); (4, [dropped (ins 4 3 9 [5] [5] []); r_b; r_x])].
Example C167_example : let col := collect new_collector (map r_inst r_orig) in original_among r_orig r_prog4 /\ conditions_ok r_prog4 /\ storages_ok r_prog4 /\ writes_ok r_prog4 /\ first_defined r_prog4 /\
  exists l, dget r_prog4 4 = Some l /\ (1 < length (live l))%nat /\ nth_error l 2 = Some r_x /\ nth_error (live l) 1 = Some r_x.
Proof. cbv zeta. assert (Each : forall a l c, In (a, l) r_prog4 -> In c l -> (c = r_a \/ c = r_b \/ c = r_x) \/ c = dropped (ins 0 3 9 [5] [5] []) \/ c = dropped (ins 4 3 9 [5] [5] [])).
  { intros a l c I J. cbn in I. destruct I as [I|[I|[]]]; injection I as <- <-; cbn in J; intuition congruence. }
  split.
  { destruct (r_original r_prog (or_introl eq_refl)) as (N1 & N2 & H1 & H2 & H3). split; [exact N1|]. split; [exact N2|]. split; [|split; [exact H2|]].
    - intros o I. destruct I as [<-|[<-|[]]]; (split; [reflexivity|]); eexists _, _; (split; [reflexivity|]); [split; [left; reflexivity|split; reflexivity]|split; [right; left; reflexivity|split; reflexivity]].
    - intros a l c I J. destruct (Each a l c I J) as [ [->|[->| ->] ] | [->| ->] ]; (split; [exists []; split; [reflexivity|intros v []]|split; cbn; intuition discriminate]). }
  split; [intros a l c I J Ig; destruct (Each a l c I J) as [ [->|[->| ->] ] | [->| ->] ]; try discriminate Ig; cbn; lia|].
  split; [intros a l c r I J Ig; destruct (Each a l c I J) as [ [->|[->| ->] ] | [->| ->] ]; try discriminate Ig; cbn; intuition lia|].
  split; [intros a l c r I J; destruct (Each a l c I J) as [ [->|[->| ->] ] | [->| ->] ]; cbn; intuition lia|].
  split; [intros a l I R; cbn in I; destruct I as [I|[I|[]]]; injection I as <- <-; [exists r_a, [dropped (ins 0 3 9 [5] [5] [])]; split; reflexivity|discriminate R]|].
  eexists. split; [reflexivity|]. split; [cbn; lia|]. split; reflexivity. Qed.
