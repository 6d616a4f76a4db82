(** Lemmas about the parts of a score. *)
From Verif Require Import ListLemmas FlipModel FlipProofs InstModel MetaModel MetaSpec MetaProofs MetaProps RecModel RecSpec RecProofs.
From Coq Require Import ZifyBool ZifyNat Permutation Sorted Lqa.

(** *** Dictionaries of parts *)
Lemma in_dset {A} (d : dict A) k v k' v' : In (k', v') (dset d k v) -> (k' = k /\ v' = v) \/ In (k', v') d.
Proof. induction d as [|[a b] d IH]; cbn [dset]; [intros [H|[]]; left; split; congruence|].
  destruct (Z.eqb_spec k a) as [->|N]; intros [H|H].
  - left. split; congruence.
  - right; right; exact H.
  - right; left; exact H.
  - destruct (IH H) as [X|X]; [left; exact X|right; right; exact X]. Qed.

Definition part_ok (i : dinst) (k : Z) (q : Q) : Prop :=
  prob q /\ In k [Kpc; Kpo; Kpr; Kprd; Kpcfg; Kpbd; Kpopu] /\
  (k = Kpc \/ k = Kpo \/ (k = Kpr /\ d_branch i = false /\ pushpop i = false) \/ (k <> Kpr /\ (0 < q)%Q)).
Definition parts_ok (i : dinst) (s : scores) : Prop := (forall k q, In (k, q) s -> part_ok i k q) /\ NoDup (dkeys s).

Lemma parts_set i s k q : parts_ok i s -> part_ok i k q -> parts_ok i (dset s k q).
Proof. intros [A B] H. split; [|apply dset_nodup, B]. intros k' q' I. apply in_dset in I. destruct I as [[-> ->]|I]; [exact H|apply A, I]. Qed.

Lemma pos_part i k q : pos_prob q -> In k [Kprd; Kpcfg; Kpbd; Kpopu] -> part_ok i k q.
Proof. intros P I. split; [apply pos_is_prob, P|]. destruct P as [P _]. cbn [In] in I. unfold Kprd, Kpcfg, Kpbd, Kpopu, Kpc, Kpo, Kpr in *.
  split; [cbn; intuition lia|]. right; right; right. split; [intuition lia|exact P]. Qed.

(** *** Each rule *)
Lemma qmax_le a b : (a <= 1)%Q -> (b <= 1)%Q -> (qmax a b <= 1)%Q.
Proof. unfold qmax. destruct (qlt a b); auto. Qed.
Lemma qmax_ge a b : (b <= qmax a b)%Q.
Proof. unfold qmax. destruct (qlt_spec a b); lra. Qed.
Lemma inj_pos a : 0 < a -> (0 < inject_Z a)%Q.
Proof. intros H. change 0%Q with (inject_Z 0). rewrite <- Zlt_Qlt. exact H. Qed.
Lemma inj_nonneg a : 0 <= a -> (0 <= inject_Z a)%Q.
Proof. intros H. change 0%Q with (inject_Z 0). rewrite <- Zle_Qle. exact H. Qed.

Lemma filter_length_le {A} (f : A -> bool) l : (length (filter f l) <= length l)%nat.
Proof. induction l as [|x l IH]; cbn [filter length]; [lia|]. destruct (f x); cbn [length]; lia. Qed.
Lemma number_le f l : 0 <= number f l <= Z.of_nat (length l).
Proof. unfold number. pose proof (filter_length_le f l). lia. Qed.
Lemma number_union f g l : number f l + number g l - number (fun x => f x && g x) l = number (fun x => f x || g x) l.
Proof. unfold number. induction l as [|x l IH]; [reflexivity|]. cbn [filter]. destruct (f x), (g x); cbn [andb orb length]; lia. Qed.
Lemma number_mono f g l : (forall x, f x = true -> g x = true) -> number f l <= number g l.
Proof. intros H. unfold number. induction l as [|x l IH]; [cbn; lia|]. cbn [filter]. specialize (H x). destruct (f x); [rewrite H by reflexivity; cbn [length]; lia|destruct (g x); cbn [length]; lia]. Qed.

Definition kind_errors {A} (x : result A) : Prop := forall e, x = Err e -> e = KeyError \/ e = ZeroDivisionError.

Lemma quot_errors a b : kind_errors (quot a b).
Proof. unfold quot, kind_errors. destruct (b =? 0); intros e H; [injection H as <-; auto|discriminate]. Qed.
Lemma dget_r_errors {A} (d : dict A) k : kind_errors (dget_r d k).
Proof. unfold dget_r, kind_errors. destruct (dget d k); intros e H; [discriminate|injection H as <-; auto]. Qed.
Lemma bind_errors {A B} (x : result A) (f : A -> result B) : kind_errors x -> (forall a, x = Ok a -> kind_errors (f a)) -> kind_errors (bind x f).
Proof. intros H1 H2. destruct x as [a|e]; cbn [bind]; [apply H2; reflexivity|]. intros e' E. injection E as <-. apply H1. reflexivity. Qed.
Lemma ok_errors {A} (a : A) : kind_errors (Ok a). Proof. intros e H; discriminate. Qed.

Lemma op_prob_errors prog o a regs : kind_errors (op_prob prog o a regs).
Proof. unfold op_prob. apply bind_errors; [apply dget_r_errors|]. intros l _. destruct (fold_left _ l (0, 0, false)) as [[c t] eq]. apply bind_errors; [apply quot_errors|]. intros; apply ok_errors. Qed.
Lemma walk_errors prog : forall addrs cb cp t p2, kind_errors (walk_down prog addrs cb cp t p2).
Proof. induction addrs as [|a addrs IH]; intros; cbn [walk_down]; [apply ok_errors|]. apply bind_errors; [apply dget_r_errors|]. intros l _.
  destruct (fold_left _ l (cb, cp, t)) as [[cb' cp'] t']. destruct (qlt 0 _); [apply ok_errors|apply IH]. Qed.

Section Rules.
Context (m : pmodel) (M : valid_model m).

Lemma m_low : pos_prob (low_probability m). Proof. apply M. Qed.

(** The last step of the push/pop rule. *)
Lemma push_pop_spec prog fns addr fn i s : kind_errors (compute_push_pop m prog fns addr fn i s) /\
  forall s', compute_push_pop m prog fns addr fn i s = Ok s' -> s' = s \/ exists q, pos_prob q /\ s' = dset s Kpopu q.
Proof. destruct M as (_ & _ & Me & Mp & Mm & _).
  set (fin := finish_push_pop m prog addr s).
  assert (F : forall p1 p2 e, kind_errors (fin p1 p2 e) /\ forall s', fin p1 p2 e = Ok s' -> exists q, pos_prob q /\ s' = dset s Kpopu q).
  { intros p1 p2 e. unfold fin, finish_push_pop. destruct (dget_r prog addr) as [here|ex] eqn:E; cbn [bind].
    - destruct (quot 1 (Z.of_nat (length here))) as [p3|ex] eqn:E3; cbn [bind].
      + split; [apply ok_errors|]. intros s' H. injection H as <-. eexists. split; [|reflexivity].
        assert (P3 : pos_prob p3). { unfold quot in E3. destruct (Z.eqb_spec (Z.of_nat (length here)) 0); [discriminate|]. injection E3 as <-. apply (fraction 1 (Z.of_nat (length here))); lia. }
        assert (P3' : pos_prob (if e then pop_end_equal m else p3)) by (destruct e; assumption).
        set (x := if e then pop_end_equal m else p3) in *. split.
        * eapply Qlt_le_trans; [apply P3'|apply qmax_ge].
        * apply qmax_le; [|apply P3']. apply qmax_le.
          -- destruct (qlt_spec 0 p1); [apply Mp|lra].
          -- destruct (qlt_spec 0 p2); [apply Mm|lra].
      + split; [intros ? H; injection H as <-; apply (quot_errors 1 (Z.of_nat (length here))); exact E3|discriminate].
    - split; [intros ? H; injection H as <-; apply (dget_r_errors prog addr); exact E|discriminate]. }
  unfold compute_push_pop. cbv zeta. fold fin. destruct (d_kind i).
  - destruct (dget fns addr) as [[st last]|].
    + split.
      * apply bind_errors; [apply op_prob_errors|]. intros [p1 e] _. apply bind_errors; [apply walk_errors|]. intros p2 _. apply F.
      * intros s' H. destruct (op_prob prog KPop last (d_rread i)) as [[p1 e]|]; cbn [bind] in H; [|discriminate].
        destruct (walk_down _ _ _ _ _ _) as [p2|]; cbn [bind] in H; [|discriminate]. right. apply (F _ _ _ ) in H. exact H.
    + split; [apply F|]. intros s' H. right. apply F in H. exact H.
  - split.
    + apply bind_errors; [apply op_prob_errors|]. intros [p1 e] _. apply F.
    + intros s' H. destruct (op_prob prog KPush fn (d_rwritten i)) as [[p1 e]|]; cbn [bind] in H; [|discriminate]. right. apply F in H. exact H.
  - split; [apply ok_errors|]. intros s' H. left. congruence. Qed.

Lemma branch_spec fns fn lo hi i s : kind_errors (compute_branch_address m fns fn lo hi i s) /\
  forall s', compute_branch_address m fns fn lo hi i s = Ok s' -> s' = s \/ exists q, pos_prob q /\ s' = dset s Kpbd q.
Proof. destruct M as (_ & _ & _ & _ & _ & _ & _ & _ & _ & _ & _ & Ma & Ma2 & Mt & Mo).
  assert (P2 : pos_prob (any_jump m * 2)) by (destruct Ma; split; lra).
  unfold compute_branch_address. destruct (d_ignore i || negb (d_branch i)); [split; [apply ok_errors|intros s' H; left; congruence]|].
  destruct (d_jump i) as [j|]; [|split; [apply ok_errors|intros s' H; right; exists (any_jump m * 2)%Q; split; [exact P2|congruence]]].
  set (h := if fn <=? j then _ else _). assert (Eh : kind_errors h).
  { unfold h. destruct (fn <=? j); [|apply ok_errors]. apply bind_errors; [apply dget_r_errors|]. intros; apply ok_errors. }
  split.
  - apply bind_errors; [exact Eh|]. intros b _. destruct b; [apply ok_errors|]. destruct (dmem fns j); [apply ok_errors|]. destruct ((hi <? j) || (j <? lo)); apply ok_errors.
  - intros s' H. destruct h as [b|]; cbn [bind] in H; [|discriminate]. right.
    destruct b; [exists (this_method m); split; [exact Mt|congruence]|]. destruct (dmem fns j); [exists (other_method m); split; [exact Mo|congruence]|].
    destruct ((hi <? j) || (j <? lo)); [exists (any_jump m)|exists (any_jump m * 2)%Q]; (split; [assumption|congruence]). Qed.

(** Products with a constant. *)
Lemma frac_spec a b k : 0 <= a <= b -> 0 < b -> pos_prob k -> exists q, (let* p := quot a b in Ok (p * k)%Q) = Ok q /\ prob q.
Proof. intros H B K. unfold quot. replace (b =? 0) with false by lia. cbn [bind]. eexists. split; [reflexivity|]. apply prob_mult; [apply fraction; assumption|apply pos_is_prob, K]. Qed.

Lemma cfg_result_prob all sc fm un af lp lq tp : 0 <= sc -> 0 <= fm -> sc <= sc + fm - un <= lp -> fm <= lp -> 0 <= af <= lq -> lp <= tp ->
  exists q, cfg_result m all sc fm un af lp lq tp = Ok q /\ prob q.
Proof. intros H1 H2 H3 H4 H5 H6. destruct M as (Ml & _ & _ & _ & _ & Mn & Mp & Ma & Mb & Mcb & Mcp & _).
  assert (Near : forall a k, 0 <= a <= lp -> 0 < lp -> pos_prob k -> exists q, near af lp lq a k = Ok q /\ prob q).
  { intros a k H L K. unfold near. destruct (Z.ltb_spec 0 af); [|exists 0%Q; split; [reflexivity|apply prob0]]. apply frac_spec; [nia|nia|exact K]. }
  assert (Frac : forall a b k, 0 <= a <= b -> 0 < b -> pos_prob k -> exists q, frac a b k = Ok q /\ prob q) by (intros; apply frac_spec; assumption).
  assert (Best : forall x y, (exists q, x = Ok q /\ prob q) -> (exists q, y = Ok q /\ prob q) -> exists q, best x y = Ok q /\ prob q).
  { intros x y (q & -> & P) (q' & -> & P'). unfold best. cbn [bind]. eexists. split; [reflexivity|apply qmax_prob; assumption]. }
  assert (Z0 : exists q, Ok 0%Q = Ok q /\ prob q) by (exists 0%Q; split; [reflexivity|apply prob0]).
  unfold cfg_result. cbv zeta. destruct (negb all).
  - destruct (Z.ltb_spec 0 sc), (Z.ltb_spec 0 fm); cbn [andb].
    + apply Best; [apply Near|apply Frac]; auto; lia.
    + apply Best; [apply Near|apply Frac]; auto; lia.
    + apply Best; [apply Near|apply Frac]; auto; lia.
    + exact Z0.
  - destruct (Z.ltb_spec 0 fm).
    + unfold frac, quot. replace (lp =? 0) with false by lia. cbn [bind]. eexists. split; [reflexivity|]. apply prob_mult; [apply fraction; lia|destruct Mb; split; lra].
    + destruct (Z.ltb_spec 0 sc); [apply Best; [apply Near|apply Frac]; auto; lia|]. destruct (Z.ltb_spec 0 af); [apply Frac; auto; lia|exact Z0]. Qed.

Lemma cfg_spec prog addr i s : exists q, pos_prob q /\ compute_cfg m prog addr i s = Ok (dset s Kpcfg q).
Proof. unfold compute_cfg. cbv zeta. set (same := fun j => d_cond j =? d_cond i). set (flag := fun j => zmem CPSR (d_rwritten j)).
  set (prev := dget prog (addr - 4)). set (post := dget prog (addr + 4)).
  match goal with |- context [cfg_result m ?al ?sc ?fm ?un ?af ?lp ?lq ?tp] => destruct (cfg_result_prob al sc fm un af lp lq tp) as (q & -> & P) end.
  - apply number_le.
  - apply number_le.
  - pose proof (number_union same flag (kept_here prev)) as U.
    lazymatch goal with |- _ <= ?e <= _ => replace e with (number (fun x => same x || flag x) (kept_here prev)) by (symmetry; exact U) end. split; [apply number_mono; intros x ->; reflexivity|apply number_le].
  - apply number_le.
  - apply number_le.
  - destruct prev as [l|]; cbn [kept_here length]; [pose proof (filter_length_le (fun i => negb (d_ignore i)) l); lia|lia].
  - cbn [bind]. destruct (qeq_spec q 0); [exists (low_probability m); split; [apply m_low|reflexivity]|]. destruct (qlt_spec 1 q); [destruct P; lra|].
    exists q. split; [|reflexivity]. destruct P. split; lra. Qed.

Lemma survive_prob prog r : forall addrs p, prob p -> prob (survive prog r addrs p).
Proof. induction addrs as [|a addrs IH]; intros p P; cbn [survive]; [exact P|]. destruct (dget prog a) as [l|]; [|auto]. cbv zeta.
  destruct (Z.ltb_spec 0 (Z.of_nat (length (kept_here (Some l))))); [|auto].
  assert (P' : prob (p * (1 - inject_Z (number (fun x => zmem r (d_written x)) (kept_here (Some l))) / inject_Z (Z.of_nat (length (kept_here (Some l))))))).
  { apply prob_mult; [exact P|]. destruct (fraction (number (fun x => zmem r (d_written x)) (kept_here (Some l))) (Z.of_nat (length (kept_here (Some l))))) as [F _]; [apply number_le|lia|]. destruct F; split; lra. }
  destruct (Qeq_bool _ 1); auto. Qed.

Lemma distance_prob col prog addr : forall reads prd, prob prd -> prob (register_distance m col prog addr reads prd).
Proof. induction reads as [|r reads IH]; intros prd P; cbn [register_distance]; [exact P|].
  destruct (match dget (min_dist col) r with Some a => _ | None => _ end) as [a b].
  assert (P' : prob (qmin (survive prog r (zrange (addr - 4 * b) (addr - 4 * a)) 1) prd)) by (apply qmin_prob; [apply survive_prob, prob1|exact P]).
  destruct (Qle_bool 1 _); [apply M|apply IH, P']. Qed.

Lemma register_distance_spec col prog addr i s : compute_register_distance m col prog addr i s = s \/ exists q, pos_prob q /\ compute_register_distance m col prog addr i s = dset s Kprd q.
Proof. unfold compute_register_distance. destruct (d_branch i || pushpop i); [auto|]. right. cbv zeta.
  pose proof (distance_prob col prog addr (d_read i) 1%Q prob1) as [P1 P2].
  destruct (qle_spec (1 - register_distance m col prog addr (d_read i) 1) 0); [exists (low_probability m); split; [apply m_low|reflexivity]|].
  eexists. split; [|reflexivity]. split; lra. Qed.
End Rules.

(** *** One candidate *)
Section Candidate.
Context (m : pmodel) (M : valid_model m) (orig : list dinst) (p : cprogram) (HO : has_original orig p).
Let col := collect new_collector orig.
Let w := collect_program (mkWith [] [] []) (plain p).

(** What a freshly scored candidate looks like. *)
Definition fresh_parts (i : dinst) (s : scores) : Prop :=
  parts_ok i s /\
  (exists pc, dget s Kpc = Some pc /\ (pc == share orig p (same_cond i))%Q) /\
  (exists po, dget s Kpo = Some po /\ (po == share orig p (same_op i))%Q) /\
  (if d_branch i || pushpop i then dget s Kpr = None
   else exists pr, dget s Kpr = Some pr /\ prob pr /\
        ((pr == 1)%Q <-> forall r, In r (d_used i) -> certain orig p (uses r)) /\
        ((pr == 0)%Q <-> exists r, In r (d_used i) /\ ~ possible orig (uses r))).

Definition rest_keys := [Kprd; Kpcfg; Kpbd; Kpopu].
Lemma fresh_set i s k q : fresh_parts i s -> In k rest_keys -> pos_prob q -> fresh_parts i (dset s k q).
Proof. intros (A & B & C & D) K P. unfold rest_keys in K. cbn [In] in K. unfold fresh_parts.
  assert (N : Kpc <> k /\ Kpo <> k /\ Kpr <> k) by (unfold Kprd, Kpcfg, Kpbd, Kpopu, Kpc, Kpo, Kpr in *; intuition lia). destruct N as (N1 & N2 & N3).
  rewrite !dget_dset_other by assumption. split; [apply parts_set; [exact A|apply pos_part; [exact P|exact K]]|]. auto. Qed.

Lemma score_candidate_spec fns lo hi fn a first c :
  candidate p a c -> well_scored c ->
  kind_errors (score_candidate m col w fns (plain p) lo hi fn a first c) /\
  forall c', score_candidate m col w fns (plain p) lo hi fn a first c = Ok c' ->
    c_inst c' = c_inst c /\ well_scored c' /\
    (d_ignore (c_inst c) = true -> c' = c) /\
    (d_ignore (c_inst c) = false -> c_fn c' = RemoveStep /\ fresh_parts (c_inst c) (c_scores c')).
Proof. intros Hc (W1 & W2 & W3). unfold score_candidate. destruct (d_ignore (c_inst c)) eqn:Ig.
  { split; [apply ok_errors|]. intros c' H. injection H as <-. split; [reflexivity|]. split; [exact (conj (fun _ => W1 eq_refl) (conj W2 W3))|]. split; [auto|discriminate]. }
  set (i := c_inst c) in *. set (s0 := c_scores c) in *.
  assert (P0 : parts_ok i s0) by (split; [exact W2|exact W3]).
  destruct (cond_share orig p HO i (present orig p HO (same_cond i) a c Hc Ig (Z.eqb_refl _))) as (pc & Epc & Qpc).
  destruct (op_share orig p HO i (present orig p HO (same_op i) a c Hc Ig (Z.eqb_refl _))) as (po & Epo & Qpo).
  fold col in Epc, Epo. fold w in Epc, Epo.
  destruct (share_prob orig p HO (same_cond i) (present orig p HO (same_cond i) a c Hc Ig (Z.eqb_refl _))) as (Pc & _).
  destruct (share_prob orig p HO (same_op i) (present orig p HO (same_op i) a c Hc Ig (Z.eqb_refl _))) as (Po & _).
  unfold compute_conditional, compute_opcode. rewrite Epc. cbn [bind]. rewrite Epo. cbn [bind].
  set (s1 := dset (dset s0 Kpc pc) Kpo po).
  assert (P1 : parts_ok i s1).
  { apply parts_set; [apply parts_set; [exact P0|]|]; (split; [unfold prob in *; lra|]); (split; [unfold Kpc, Kpo; cbn; auto|auto]). }
  assert (R : kind_errors (compute_registers col w i s1) /\ forall s2, compute_registers col w i s1 = Ok s2 -> fresh_parts i s2).
  { assert (G1 : dget s1 Kpc = Some pc) by (unfold s1; rewrite dget_dset_other, dget_dset_same by (unfold Kpc, Kpo; lia); reflexivity).
    assert (G2 : dget s1 Kpo = Some po) by (unfold s1; rewrite dget_dset_same; reflexivity).
    unfold compute_registers. destruct (d_branch i || pushpop i) eqn:Ebp.
    - split; [apply ok_errors|]. intros s2 H. injection H as <-. split; [exact P1|]. split; [eauto|]. split; [eauto|]. rewrite Ebp.
      destruct (dget s1 Kpr) as [q|] eqn:Er; [|reflexivity]. exfalso. apply dget_in in Er. destruct P1 as [P1 _]. destruct (P1 _ _ Er) as (_ & _ & H).
      apply orb_true_iff in Ebp. unfold Kpr, Kpc, Kpo in H. destruct H as [H|[H|[(_ & H1 & H2)|[H _]]]]; [lia|lia|destruct Ebp; congruence|lia].
    - apply orb_false_iff in Ebp. destruct Ebp as [Eb Ep].
      destruct (reg_fold orig p HO (d_used i)) with (av := 1%Q) as [RA RB]; [|apply prob1|].
      { intros s Hs. apply (present orig p HO (uses s) a c Hc Ig). unfold uses. fold i. destruct (in_dec Z.eq_dec s (d_used i)); [reflexivity|contradiction]. }
      fold col in RA, RB. fold w in RA, RB. cbv zeta in RA, RB.
      assert (D : (forall s, In s (d_used i) -> possible orig (uses s)) \/ exists s, In s (d_used i) /\ ~ possible orig (uses s)).
      { assert (DP : forall s, possible orig (uses s) \/ ~ possible orig (uses s)) by (intros s; rewrite possible_iff; lia).
        clear - DP. induction (d_used i) as [|s l IH]; [left; intros s []|]. destruct IH as [IH|(s' & H1 & H2)]; [|right; exists s'; cbn; auto].
        destruct (DP s) as [H|H]; [left; intros s' [<-|H']; auto|right; exists s; cbn; auto]. }
      assert (Fin : forall pr, prob pr -> ((pr == 1)%Q <-> forall r, In r (d_used i) -> certain orig p (uses r)) -> ((pr == 0)%Q <-> exists r, In r (d_used i) /\ ~ possible orig (uses r)) ->
         fresh_parts i (dset s1 Kpr pr)).
      { intros pr H1 H2 H3. split; [apply parts_set; [exact P1|]; split; [exact H1|]; split; [unfold Kpr; cbn; auto|right; right; left; auto]|].
        rewrite !dget_dset_other by (unfold Kpr, Kpc, Kpo; lia). split; [eauto|]. split; [eauto|]. rewrite Eb, Ep. cbn [orb]. exists pr. rewrite dget_dset_same. auto. }
      destruct D as [D|D].
      + destruct (RA D) as (q & Eq & R1 & R2 & R3). rewrite Eq. cbn [or_zero bind]. split; [apply ok_errors|]. intros s2 H. injection H as <-. apply Fin; [exact R1| |].
        * rewrite R2. split; [intros [_ X]; exact X|intros X; split; [reflexivity|exact X]].
        * split; [intros X; assert (pos_prob q) by (apply R3; split; lra); destruct H; lra|]. intros (r & H1 & H2). exfalso. apply H2, D, H1.
      + rewrite (RB D). cbn [or_zero bind]. split; [apply ok_errors|]. intros s2 H. injection H as <-. apply Fin; [apply prob0| |].
        * split; [intros X; lra|]. intros X. exfalso. destruct D as (r & H1 & H2). specialize (X r H1).
          assert (Pr : (0 < addresses_of (uses r) p)%nat) by (apply (present orig p HO (uses r) a c Hc Ig); unfold uses; fold i; destruct (in_dec Z.eq_dec r (d_used i)); [reflexivity|contradiction]).
          apply (certain_iff orig p HO) in X. rewrite possible_iff in H2. lia.
        * split; [intros _; exact D|reflexivity]. }
  destruct R as [RE RF]. destruct (push_pop_spec m M (plain p) fns a fn i) with (s := s0) as [_ _].
  split.
  - apply bind_errors; [exact RE|]. intros s2 _. apply bind_errors; [apply push_pop_spec, M|]. intros s3 _. apply bind_errors; [apply branch_spec, M|]. intros s4 _.
    apply bind_errors; [|intros; apply ok_errors]. destruct first; [apply ok_errors|]. destruct (cfg_spec m M (plain p) a i (compute_register_distance m col (plain p) a i s4)) as (q & _ & ->). apply ok_errors.
  - intros c' H. destruct (compute_registers col w i s1) as [s2|] eqn:E2; cbn [bind] in H; [|discriminate]. specialize (RF s2 eq_refl).
    destruct (compute_push_pop m (plain p) fns a fn i s2) as [s3|] eqn:E3; cbn [bind] in H; [|discriminate].
    assert (F3 : fresh_parts i s3). { destruct (proj2 (push_pop_spec m M (plain p) fns a fn i s2) s3 E3) as [->|(q & P & ->)]; [exact RF|apply fresh_set; [exact RF|unfold rest_keys; cbn; auto|exact P]]. }
    destruct (compute_branch_address m fns fn lo hi i s3) as [s4|] eqn:E4; cbn [bind] in H; [|discriminate].
    assert (F4 : fresh_parts i s4). { destruct (proj2 (branch_spec m M fns fn lo hi i s3) s4 E4) as [->|(q & P & ->)]; [exact F3|apply fresh_set; [exact F3|unfold rest_keys; cbn; auto|exact P]]. }
    assert (F5 : exists s5, (if first then Ok s4 else compute_cfg m (plain p) a i (compute_register_distance m col (plain p) a i s4)) = Ok s5 /\ fresh_parts i s5).
    { destruct first; [eauto|]. destruct (cfg_spec m M (plain p) a i (compute_register_distance m col (plain p) a i s4)) as (q & Pq & ->). eexists. split; [reflexivity|].
      apply fresh_set; [|unfold rest_keys; cbn; auto|exact Pq]. destruct (register_distance_spec m M col (plain p) a i s4) as [->|(q' & Pq' & ->)]; [exact F4|apply fresh_set; [exact F4|unfold rest_keys; cbn; auto|exact Pq']]. }
    destruct F5 as (s5 & E5 & F5). rewrite E5 in H. cbn [bind] in H. injection H as <-. cbn [c_inst c_scores c_fn].
    split; [reflexivity|]. split; [|split; [discriminate|auto]]. split; [cbn [c_inst]; congruence|]. cbn [c_inst c_scores]. exact (proj1 F5). Qed.
End Candidate.
