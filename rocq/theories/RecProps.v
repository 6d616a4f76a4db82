(** C38 - C44: probabilistic recovery. *)
From Verif Require Import ListLemmas FlipModel FlipProofs InstModel MetaModel MetaSpec MetaProofs RecModel RecSpec RecProofs RecProofs2 RecProofs3 RecProofs4 RemoveProofs.
From Coq Require Import ZifyBool ZifyNat Permutation Sorted Lqa.

(** A program of three addresses.  Original: push {r4, lr}; add r1, r2; pop {r4, pc}
    (a branch).  Other candidates: sub r3, r4 at 0; a conditional push at 4;
    an ignored one at 4; add r1, r5 at 8. *)
Definition o_push := mkD 100 0 false 14 20 [4; 14; 13] [13] [4; 14; 13] [13] [4; 14; 13] false KPush None.
Definition o_add := mkD 101 4 false 0 21 [1; 2] [1] [2] [1] [2] false KOther None.
Definition o_pop := mkD 102 8 false 14 22 [4; 15; 13] [4; 15; 13] [13] [4; 15; 13] [13] true KPop None.
Definition o_other := [mkD 103 0 false 14 23 [3; 4] [3] [4] [3] [4] false KOther None;
  mkD 104 4 false 14 20 [4; 13] [13] [4; 13] [13] [4; 13] false KPush None;
  mkD 105 4 true 14 0 [] [] [] [] [] false KOther None;
  mkD 106 8 false 0 21 [1; 5] [1] [5] [1] [5] false KOther None].
Definition fresh (i : dinst) := mkCand i [] AddScore.
Definition small_orig := [o_push; o_add; o_pop].
Definition small : cprogram :=
  [(0, [fresh o_push; fresh (nth 0 o_other o_add)]); (4, [fresh (nth 1 o_other o_add); fresh o_add; fresh (nth 2 o_other o_add)]); (8, [fresh (nth 3 o_other o_add); fresh o_pop])].
Definition small_fns : functions := [(0, (0, 8))].

Lemma candidate_in p a c : NoDup (dkeys p) -> candidate p a c <-> exists cs, In (a, cs) p /\ In c cs.
Proof. intros N. split; intros (cs & G & I); exists cs; (split; [|exact I]); [apply dget_in, G|apply dget_nodup_in; assumption]. Qed.
Ltac nodup := repeat (constructor; [cbn; lia|]); constructor.
Lemma fresh_scored i : well_scored (fresh i).
Proof. split; [intros _; split; reflexivity|]. split; [intros k q []|constructor]. Qed.
(** The first pass starts from candidates without scores. *)
Lemma unscored p : (forall a c, candidate p a c -> c = fresh (c_inst c)) -> all_scored p.
Proof. intros H a c Hc. rewrite (H a c Hc). apply fresh_scored. Qed.

Ltac original_here n := cbn [In]; split; [reflexivity|split; [nodup|exists (fresh n); split; [eexists; split; [reflexivity|cbn; tauto]|reflexivity]]].
Lemma small_original : has_original small_orig small.
Proof. split; [nodup|]. split; [nodup|]. split.
  - intros o [<-|[<-|[<-|[]]]]; [original_here o_push|original_here o_add|original_here o_pop].
  - intros a [<-|[<-|[<-|[]]]]; [exists o_push|exists o_add|exists o_pop]; cbn; auto. Qed.
Lemma small_scored : all_scored small.
Proof. apply unscored. intros a c Hc. apply candidate_in in Hc; [|nodup]. destruct Hc as (cs & I & J). cbn in I. repeat destruct I as [I|I]; try injection I as <- <-; try contradiction; cbn in J; repeat destruct J as [<-|J]; try contradiction; reflexivity. Qed.
Lemma default_valid : valid_model default_model.
Proof. repeat split; reflexivity || discriminate. Qed.

(** C38.  Whatever the candidates, as long as the original instruction is one of
    them at each address: after a pass all score parts and both scores are in
    [0, 1], no "Invalid probability" is raised, and the next pass can start from
    the result. *)
Theorem C38_scores : forall m orig fns p p', valid_model m -> has_original orig p -> all_scored p ->
  recover m (collect new_collector orig) fns p = Ok p' ->
  (forall a c, candidate p' a c ->
     (forall k q, In (k, q) (c_scores c) -> prob q) /\
     (exists q, score c = Ok q /\ prob q) /\
     (exists q, probabilistic_rules (c_scores c) (c_inst c) = Ok q /\ prob q)) /\
  has_original orig p' /\ all_scored p'.
Proof. intros m orig fns p p' M HO HS H. destruct (pass_keeps m M orig fns p HO HS p' H) as (K1 & K2 & _). split; [|split; [exact K1|exact K2]].
  intros a c (cs' & G' & I'). destruct (pass_spec m M orig fns p HO HS p' H) as [K F].
  assert (Ha : In a (dkeys p)) by (rewrite <- K; apply dget_some_in; eauto). apply dget_some_in in Ha. destruct Ha as (cs & G). destruct (F _ _ G) as (cs2 & G2 & J). assert (cs2 = cs') as -> by congruence.
  assert (W : well_scored c) by (apply (K2 a); exists cs'; auto). destruct W as (_ & W & _).
  assert (P : forall k q, In (k, q) (c_scores c) -> prob q) by (intros k q X; apply (W k q X)). split; [exact P|]. split.
  - clear - J I'. induction J as [|x y l l' (_ & _ & _ & q & J1 & J2 & _) F IH]; [destruct I'|]. destruct I' as [<-|I']; [exists q; auto|apply IH, I'].
  - assert (G1 : forall k, prob (sget (c_scores c) k 1)) by (intros k; unfold sget; destruct (dget _ k) as [q|] eqn:E; [apply (P k), dget_in, E|apply prob1]).
    unfold probabilistic_rules, product. set (s := c_scores c) in *. eexists. split; [apply checked_prob|]; (destruct (d_branch _); [|destruct (pushpop _)]; repeat apply prob_mult; apply G1). Qed.
Print Assumptions C38_scores.
Theorem C38_no_invalid : forall m orig fns p, valid_model m -> has_original orig p -> all_scored p -> p <> [] ->
  match recover m (collect new_collector orig) fns p with Ok _ => True | Err e => e = KeyError \/ e = ZeroDivisionError end.
Proof. intros m orig fns p M HO HS N. destruct (recover _ _ _ p) as [|e] eqn:E; [exact I|]. destruct (pass_errors m M orig fns p HO HS e E) as [X|X]; [contradiction|exact X]. Qed.
Print Assumptions C38_no_invalid.
Definition scored (p : cprogram) (a : Z) (n : nat) : option Q :=
  match dget p a with Some cs => match nth_error cs n with Some c => match score c with Ok q => Some (Qred q) | Err _ => None end | None => None end | None => None end.
Definition all_scores (r : result cprogram) : option (list (list (option Q))) :=
  match r with
  | Ok p' => Some (map (fun kv => map (fun c => match score c with Ok q => Some (Qred q) | Err _ => None end) (snd kv)) p')
  | Err _ => None
  end.
Example C38_example : has_original small_orig small /\ all_scored small /\ valid_model default_model /\
  all_scores (recover default_model (collect new_collector small_orig) small_fns small) =
  Some [[Some 0%Q; Some 0%Q]; [Some 0%Q; Some (1 # 8000000); Some 0%Q]; [Some 0%Q; Some 1%Q]].
Proof. split; [exact small_original|]. split; [exact small_scored|]. split; [exact default_valid|]. vm_compute. reflexivity. Qed.

(** C39.  Refuted: a push or pop that is no branch has no register part, and the
    removal score reads a missing register part as 0. *)
Theorem C39_original_scores_refuted : exists m orig fns p p' o c, valid_model m /\ has_original orig p /\ all_scored p /\
  recover m (collect new_collector orig) fns p = Ok p' /\ In o orig /\ candidate p' (d_addr o) c /\ c_inst c = o /\
  exists q, score c = Ok q /\ (q == 0)%Q.
Proof. exists default_model, small_orig, small_fns, small.
  destruct (recover default_model (collect new_collector small_orig) small_fns small) as [p'|] eqn:E; [|vm_compute in E; discriminate].
  assert (E2 := E). vm_compute in E2. injection E2 as E2. exists p', o_push. rewrite <- E2.
  eexists. split; [exact default_valid|]. split; [exact small_original|]. split; [exact small_scored|]. split; [reflexivity|]. split; [cbn; auto|].
  split; [eexists; split; [reflexivity|left; reflexivity]|]. split; [reflexivity|]. eexists. split; [vm_compute; reflexivity|reflexivity]. Qed.
Print Assumptions C39_original_scores_refuted.
(** Exactly when it happens: only for pushes and pops that are no branches, and
    only if neither the condition nor the opcode is certain. *)
Theorem C39_original_scores_partial : forall m orig fns p p' o c, valid_model m -> has_original orig p -> all_scored p ->
  recover m (collect new_collector orig) fns p = Ok p' -> In o orig -> candidate p' (d_addr o) c -> c_inst c = o ->
  exists q, score c = Ok q /\ (0 <= q)%Q /\
    ((q == 0)%Q <-> d_branch o = false /\ pushpop o = true /\ ~ certain orig p (same_cond o) /\ ~ certain orig p (same_op o)).
Proof. intros m orig fns p p' o c M HO HS H Ho (cs' & G' & I') Ec. destruct (pass_spec m M orig fns p HO HS p' H) as [K F].
  assert (Ha : In (d_addr o) (dkeys p)) by (rewrite <- K; apply dget_some_in; eauto). apply dget_some_in in Ha. destruct Ha as (cs & G). destruct (F _ _ G) as (cs2 & G2 & J). assert (cs2 = cs') as -> by congruence.
  assert (exists c0, judged orig p c0 c) as (c0 & J0 & _ & _ & q & J1 & J2 & _ & J4).
  { clear - J I'. induction J as [|x y l l' J F IH]; [destruct I'|]. destruct I' as [<-|I']; [exists x; exact J|apply IH, I']. }
  rewrite Ec in J0. rewrite <- J0 in J4. destruct HO as (_ & _ & H1 & _). destruct (H1 o Ho) as (Ig & _). destruct (J4 Ig) as (_ & _ & J5).
  exists q. split; [exact J1|]. split; [apply J2|]. rewrite J5. pose proof (original_seen orig o Ho) as S. unfold stack_only, settled. split.
  - intros [X|[[X1 X2] X3]]; [contradiction|]. split; [exact X1|]. split; [exact X2|]. split; intros Y; apply X3; auto.
  - intros (X1 & X2 & X3 & X4). right. split; [auto|]. intros [Y|[Y|(_ & Y & _)]]; [contradiction|contradiction|congruence]. Qed.
Print Assumptions C39_original_scores_partial.
Example C39_example : d_branch o_push = false /\ pushpop o_push = true /\ ~ certain small_orig small (same_cond o_push) /\ ~ certain small_orig small (same_op o_push).
Proof. split; [reflexivity|]. split; [reflexivity|]. split; intros C;
  (assert (X : same_cond o_push o_add = true \/ same_op o_push o_add = true) by
    ((left + right); apply (C 4 (fresh (nth 1 o_other o_add))); [eexists; split; [reflexivity|cbn; auto]|reflexivity|reflexivity|cbn; auto|reflexivity]));
  destruct X; discriminate. Qed.

(** C40.  Refuted: the same push is removed. *)
Definition kept_original (p : cprogram) (o : dinst) : Prop := exists c, candidate p (d_addr o) c /\ c_inst c = o.
Theorem C40_original_kept_refuted : exists m orig fns p p1 p2 stable o, valid_model m /\ has_original orig p /\ all_scored p /\
  recover m (collect new_collector orig) fns p = Ok p1 /\ remove_all score p1 = Ok (p2, stable) /\ In o orig /\ ~ kept_original p2 o.
Proof. exists default_model, small_orig, small_fns, small.
  destruct (recover default_model (collect new_collector small_orig) small_fns small) as [p1|] eqn:E; [|vm_compute in E; discriminate].
  assert (E2 := E). vm_compute in E2. injection E2 as E2. exists p1. 
  destruct (remove_all score p1) as [[p2 st]|] eqn:R; [|rewrite <- E2 in R; vm_compute in R; discriminate]. exists p2, st, o_push.
  split; [exact default_valid|]. split; [exact small_original|]. split; [exact small_scored|]. split; [reflexivity|]. split; [reflexivity|]. split; [cbn; auto|].
  rewrite <- E2 in R. vm_compute in R. injection R as <- _. intros (c & (cs & G & I) & Ec). cbn in G. injection G as <-. destruct I. Qed.
Print Assumptions C40_original_kept_refuted.

Lemma forall2_in_l {A B} (R : A -> B -> Prop) l l' : Forall2 R l l' -> forall x, In x l -> exists y, In y l' /\ R x y.
Proof. induction 1 as [|a b l l' H F IH]; intros x I; [destruct I|]. destruct I as [<-|I]; [exists b; cbn; auto|destruct (IH x I) as (y & ? & ?); exists y; cbn; auto]. Qed.
Lemma forall2_in_r {A B} (R : A -> B -> Prop) l l' : Forall2 R l l' -> forall y, In y l' -> exists x, In x l /\ R x y.
Proof. induction 1 as [|a b l l' H F IH]; intros x I; [destruct I|]. destruct I as [<-|I]; [exists a; cbn; auto|destruct (IH x I) as (y & ? & ?); exists y; cbn; auto]. Qed.
Definition value (c : cand) : Q := match score c with Ok q => q | Err _ => 0%Q end.
Lemma remove_all_at (p1 : cprogram) : (forall a c, candidate p1 a c -> exists q, score c = Ok q /\ prob q) -> NoDup (dkeys p1) ->
  exists p2 stable, remove_all score p1 = Ok (p2, stable) /\ dkeys p2 = dkeys p1 /\
    forall a cs, dget p1 a = Some cs -> dget p2 a = Some (if existsb (is1 value) cs then filter (is1 value) cs else filter (fun c => negb (is0 value c)) cs).
Proof. induction p1 as [|[k v] p1 IH]; intros H N; cbn [remove_all]; [exists [], true; split; [reflexivity|split; [reflexivity|discriminate]]|].
  cbn in N. inversion N as [|? ? Nk N']; subst. destruct (remove_bad_value score value v) as (v' & E & Ev).
  { intros c Hc. destruct (H k c) as (q & Q1 & Q2); [exists v; cbn; rewrite Z.eqb_refl; auto|]. unfold value. rewrite Q1. auto. }
  destruct IH as (p2 & st & E2 & K2 & F2); [|exact N'|].
  { intros a c (cs & G & I). apply (H a c). exists cs. split; [|exact I]. cbn. destruct (a =? k) eqn:Ek; [exfalso; apply Nk; replace k with a by lia; apply dget_some_in; eauto|exact G]. }
  rewrite E, E2. cbn [bind]. eexists _, _. split; [reflexivity|]. split; [cbn [dkeys map fst]; f_equal; exact K2|].
  intros a cs G. cbn in *. destruct (a =? k) eqn:Ek; [injection G as <-; rewrite <- Ev; reflexivity|apply F2, G]. Qed.

(** Exactly when the original survives a pass. *)
Theorem C40_original_kept_partial : forall m orig fns p p1, valid_model m -> has_original orig p -> all_scored p ->
  recover m (collect new_collector orig) fns p = Ok p1 ->
  exists p2 stable, remove_all score p1 = Ok (p2, stable) /\ dkeys p2 = dkeys p /\
    forall o, In o orig -> (kept_original p2 o <->
      settled orig p o \/
      (~ stack_only o /\ ~ exists c, candidate p (d_addr o) c /\ d_ignore (c_inst c) = false /\ settled orig p (c_inst c) /\ all_seen orig (c_inst c))).
Proof. intros m orig fns p p1 M HO HS H. destruct (pass_spec m M orig fns p HO HS p1 H) as [K F]. destruct (C38_scores m orig fns p p1 M HO HS H) as (S & (_ & N1 & _) & _).
  destruct (remove_all_at p1) as (p2 & st & E & K2 & F2); [intros a c Hc; apply (S a c Hc)|exact N1|].
  exists p2, st. split; [exact E|]. split; [congruence|]. intros o Ho. pose proof HO as (_ & _ & H1 & _). destruct (H1 o Ho) as (Ig & _ & c0 & (cs & G & I0) & E0).
  destruct (F _ _ G) as (cs1 & G1 & J). specialize (F2 _ _ G1). pose proof (original_seen orig o Ho) as SO.
  assert (V : forall c, In c cs1 -> exists q, score c = Ok q /\ value c = q /\ exists c00, In c00 cs /\ c_inst c = c_inst c00 /\ prob q /\
     (d_ignore (c_inst c00) = true -> q = 0%Q) /\ (d_ignore (c_inst c00) = false -> ((q == 1)%Q <-> settled orig p (c_inst c00) /\ all_seen orig (c_inst c00)) /\ ((q == 0)%Q <-> ~ all_seen orig (c_inst c00) \/ (stack_only (c_inst c00) /\ ~ settled orig p (c_inst c00))))).
  { intros c Hc. destruct (forall2_in_r _ _ _ J c Hc) as (c00 & I00 & J1 & _ & _ & q & J2 & J3 & J4 & J5). exists q. split; [exact J2|]. split; [unfold value; rewrite J2; reflexivity|].
    exists c00. split; [exact I00|]. split; [exact J1|]. split; [exact J3|]. split; [exact J4|]. intros X. apply J5, X. }
  assert (One : existsb (is1 value) cs1 = true <-> exists c, candidate p (d_addr o) c /\ d_ignore (c_inst c) = false /\ settled orig p (c_inst c) /\ all_seen orig (c_inst c)).
  { rewrite existsb_exists. split.
    - intros (c & Hc & E1). destruct (V c Hc) as (q & V1 & V2 & c00 & V3 & V4 & V5 & V6 & V7). unfold is1 in E1. apply Qeq_bool_iff in E1. rewrite V2 in E1.
      exists c00. split; [exists cs; auto|]. destruct (d_ignore (c_inst c00)); [rewrite (V6 eq_refl) in E1; lra|]. split; [reflexivity|]. apply (proj1 (V7 eq_refl)), E1.
    - intros (c00 & (cs' & G' & I') & Ig' & St). assert (cs' = cs) as -> by congruence. destruct (forall2_in_l _ _ _ J c00 I') as (c & I1 & J1 & _ & _ & q & J2 & _ & _ & J5). exists c. split; [exact I1|].
      unfold is1, value. rewrite J2. apply Qeq_bool_iff. apply (J5 Ig'), St. }
  assert (Sd : {existsb (is1 value) cs1 = true} + {existsb (is1 value) cs1 = false}) by (destruct (existsb _ _); auto).
  unfold kept_original, candidate. rewrite F2. split.
  - intros (c & (l & El & I) & Ec). injection El as <-.
    destruct Sd as [Sd|Sd]; rewrite Sd in I; apply filter_In in I; destruct I as [I X]; destruct (V c I) as (q & V1 & V2 & c00 & V3 & V4 & V5 & V6 & V7).
    + left. unfold is1 in X. apply Qeq_bool_iff in X. rewrite V2 in X. rewrite <- V4, Ec in V7. apply (V7 Ig), X.
    + right. unfold is0 in X. apply negb_true_iff in X. rewrite <- V4, Ec in V7. split.
      * intros Y. assert (~ (q == 0)%Q) as Nq. { intros Z. rewrite V2 in X. apply Qeq_bool_iff in Z. congruence. }
        apply Nq. apply (proj2 (V7 Ig)). right. split; [exact Y|]. intros Z. assert (existsb (is1 value) cs1 = true); [|congruence]. apply One. exists c0. split; [exists cs; auto|]. rewrite E0. auto.
      * intros Y. apply One in Y. congruence.
  - intros D. destruct (forall2_in_l _ _ _ J c0 I0) as (c & I1 & J1 & _ & _ & q & J2 & _ & _ & J5). exists c. split; [|congruence]. eexists. split; [reflexivity|]. rewrite E0 in J5. destruct (J5 Ig) as (_ & Q1 & Q0).
    assert (Vq : value c = q) by (unfold value; rewrite J2; reflexivity).
    destruct Sd as [Sd|Sd]; rewrite Sd; apply filter_In; (split; [exact I1|]).
    + unfold is1. rewrite Vq. apply Qeq_bool_iff. apply Q1. split; [|exact SO]. destruct D as [D|[_ D]]; [exact D|]. exfalso. apply D, One, Sd.
    + unfold is0. rewrite Vq. apply negb_true_iff. destruct (qeq_spec q 0) as [Z|Z]; [|reflexivity]. exfalso. apply Q0 in Z. destruct Z as [Z|[Z1 Z2]]; [contradiction|]. destruct D as [D|[D _]]; contradiction. Qed.
Print Assumptions C40_original_kept_partial.
Example C40_example : exists p1 p2, recover default_model (collect new_collector small_orig) small_fns small = Ok p1 /\ remove_all score p1 = Ok (p2, false) /\
  ~ kept_original p2 o_push /\ kept_original p2 o_add /\ kept_original p2 o_pop.
Proof. destruct (recover default_model (collect new_collector small_orig) small_fns small) as [p1|] eqn:E; [|vm_compute in E; discriminate]. exists p1. 
  destruct (remove_all score p1) as [[p2 st]|] eqn:R; vm_compute in E; injection E as <-; vm_compute in R; [|discriminate]. injection R as <- <-. eexists. split; [reflexivity|]. split; [reflexivity|].
  split; [intros (c & (cs & G & I) & Ec); cbn in G; injection G as <-; destruct I|].
  split; (eexists; split; [eexists; split; [reflexivity|left; reflexivity]|reflexivity]). Qed.

(** C41. *)
Theorem C41_removal : forall {A} (sc : A -> result Q) (val : A -> Q) v, (forall c, In c v -> sc c = Ok (val c) /\ prob (val c)) ->
  exists v', remove_bad sc v = Ok (v', Z.of_nat (length v) - Z.of_nat (length v')) /\
    ((exists c, In c v /\ (val c == 1)%Q) -> v' = filter (fun c => Qeq_bool (val c) 1) v) /\
    ((forall c, In c v -> ~ (val c == 1)%Q) -> v' = filter (fun c => negb (Qeq_bool (val c) 0)) v) /\
    remove_bad sc v' = Ok (v', 0).
Proof. intros A sc val v H. destruct (remove_bad_value sc val v H) as (v' & E & Ev). exists v'. split; [exact E|]. rewrite Ev. split; [|split].
  - intros (c & I & X). assert (existsb (is1 val) v = true) as -> by (apply existsb_exists; exists c; split; [exact I|apply Qeq_bool_iff, X]). reflexivity.
  - intros X. destruct (existsb (is1 val) v) eqn:Ex; [|reflexivity]. apply existsb_exists in Ex. destruct Ex as (c & I & Y). exfalso. apply (X c I), Qeq_bool_iff, Y.
  - rewrite <- Ev. destruct (remove_bad_value sc val v') as (v2 & E2 & Ev2).
    { intros c I. apply H. rewrite Ev in I. destruct (existsb (is1 val) v); apply filter_In in I; apply I. }
    rewrite E2. assert (X : forall (f : A -> bool) l, filter f (filter f l) = filter f l).
    { intros f l. induction l as [|x l IH]; [reflexivity|]. cbn [filter]. destruct (f x) eqn:Ef; [cbn [filter]; rewrite Ef, IH; reflexivity|exact IH]. }
    assert (v2 = v') as ->; [|f_equal; f_equal; lia]. rewrite Ev2, Ev. destruct (existsb (is1 val) v) eqn:Ex.
    + assert (existsb (is1 val) (filter (is1 val) v) = true) as ->; [|apply X]. apply existsb_exists in Ex. destruct Ex as (c & I & Y). apply existsb_exists. exists c. split; [apply filter_In; auto|exact Y].
    + assert (existsb (is1 val) (filter (fun c => negb (is0 val c)) v) = false) as ->; [|apply X].
      destruct (existsb (is1 val) (filter (fun c => negb (is0 val c)) v)) eqn:Ey; [|reflexivity]. apply existsb_exists in Ey. destruct Ey as (c & I & Y). apply filter_In in I. destruct I as [I _].
      assert (existsb (is1 val) v = true) by (apply existsb_exists; exists c; auto). congruence. Qed.
Print Assumptions C41_removal.
Example C41_example : remove_bad (fun q : Q => Ok q) [1 # 2; 0; 1; 1 # 3; 1; 0; 2 # 3]%Q = Ok ([1; 1]%Q, 5) /\
  remove_bad (fun q : Q => Ok q) [1 # 2; 0; 1 # 3]%Q = Ok ([1 # 2; 1 # 3]%Q, 1).
Proof. vm_compute. auto. Qed.

(** C42.  [rec n] may do anything but change which candidates there are (it may
    fail, too); the scores may be any numbers. *)
Theorem C42_terminates : forall {A B} (id : A -> B) (sc : A -> result Q) rec fuel p,
  (forall c, no_fuel_error (sc c)) -> (forall n q, no_fuel_error (rec n q)) ->
  (forall n q q', rec n q = Ok q' -> labels id q' = labels id q) -> (total p < fuel)%nat ->
  no_fuel_error (passes sc rec fuel 0 p) /\
  forall p' n, passes sc rec fuel 0 p = Ok (p', n) ->
    Forall2 (fun kv kv' => fst kv' = fst kv /\ subseq (snd kv') (snd kv)) (labels id p) (labels id p') /\ (n + 1 <= total p + 1)%nat.
Proof. intros A B id sc rec fuel p H1 H2 H3 F. destruct (passes_spec id sc rec H1 H2 H3 fuel 0 p F) as [X Y]. split; [exact X|]. intros p' n E. destruct (Y p' n E) as [Y1 Y2]. split; [exact Y1|lia]. Qed.
Print Assumptions C42_terminates.
(** With the recuperator of the program. *)
Theorem C42_recuperator : forall m col fns p, let run := passes score (fun _ => recover m col fns) (S (total p)) 0 p in
  no_fuel_error run /\ forall p' n, run = Ok (p', n) ->
    Forall2 (fun kv kv' => fst kv' = fst kv /\ subseq (map c_inst (snd kv')) (map c_inst (snd kv))) p p' /\ (n + 1 <= total p + 1)%nat.
Proof. intros m col fns p run. destruct (C42_terminates c_inst score (fun _ => recover m col fns) (S (total p)) p) as [X Y].
  - apply nf_score.
  - intros _. apply nf_recover.
  - intros _. apply recover_labels.
  - lia.
  - split; [exact X|]. intros p' n E. destruct (Y p' n E) as [Y1 Y2]. split; [|exact Y2]. clear - Y1. revert p' Y1. induction p as [|kv p IH]; intros p' Y; destruct p' as [|kv' p']; inversion Y as [|? ? ? ? Z1 Z2]; subst; constructor; [exact Z1|apply IH, Z2]. Qed.
Print Assumptions C42_recuperator.
Definition calm_orig := [o_add; o_pop].
Definition calm : cprogram := [(4, [fresh (mkD 104 4 false 14 21 [4] [4] [] [4] [] false KOther None); fresh o_add]); (8, [fresh (nth 3 o_other o_add); fresh o_add; fresh o_pop])].
Example C42_example : total calm = 5%nat /\ match passes score (fun _ => recover default_model (collect new_collector calm_orig) [(4, (4, 8))]) 6 0 calm with
  | Ok (p', n) => map (fun kv => (fst kv, length (snd kv))) p' = [(4, 2%nat); (8, 1%nat)] /\ n = 1%nat | Err _ => False end.
Proof. vm_compute. auto. Qed.

(** C43. *)
Definition inside (fns : functions) (fn j : Z) : Prop := fn <= j /\ exists first last, dget fns fn = Some (first, last) /\ j <= last.
Definition table (m : pmodel) (fns : functions) (addrs : list Z) (fn : Z) (target : option Z) (q : Q) : Prop :=
  (exists j, target = Some j /\ inside fns fn j /\ q = this_method m) \/
  (exists j, target = Some j /\ ~ inside fns fn j /\ dmem fns j = true /\ q = other_method m) \/
  (exists j, target = Some j /\ ~ inside fns fn j /\ dmem fns j = false /\ ((forall a, In a addrs -> j < a) \/ (forall a, In a addrs -> a < j)) /\ q = any_jump m) \/
  ((target = None \/ exists j, target = Some j /\ ~ inside fns fn j /\ dmem fns j = false /\ (exists a, In a addrs /\ a <= j) /\ (exists a, In a addrs /\ j <= a)) /\ q = (any_jump m * 2)%Q).
Lemma ok_inj {A} (x y : A) : Ok x = Ok y -> x = y.
Proof. intros H. injection H as ->. reflexivity. Qed.
Theorem C43_branch_table : forall m col fns p p', NoDup (dkeys p) -> recover m col fns p = Ok p' ->
  forall a cs, dget p a = Some cs -> exists cs' fn, dget p' a = Some cs' /\ current_function fns (dkeys p) a fn /\
    Forall2 (fun c c' => 
      (d_ignore (c_inst c) = false -> d_branch (c_inst c) = true -> exists q, dget (c_scores c') Kpbd = Some q /\ table m fns (dkeys p) fn (d_jump (c_inst c)) q) /\
      (d_branch (c_inst c) = false -> dget (c_scores c') Kpbd = dget (c_scores c) Kpbd)) cs cs'.
Proof. intros m col fns p p' N H a cs G. destruct (recover_spec m col fns p N) as [B _]. destruct (B p' H) as (lo & hi & Lo1 & Lo2 & Hi1 & Hi2 & K & F).
  destruct (F a cs G) as (fn & first & cs' & Cf & _ & G' & F2). exists cs', fn. split; [exact G'|]. split; [exact Cf|].
  clear - F2 Lo1 Lo2 Hi1 Hi2. induction F2 as [|c c' cs cs' E F2 IH]; constructor; [|exact IH]. clear IH F2. unfold score_candidate in E.
  destruct (d_ignore (c_inst c)) eqn:Ig; [assert (c' = c) as -> by congruence; split; [discriminate|reflexivity]|].
  assert (Other : forall s k q, k <> Kpbd -> dget (dset s k q : scores) Kpbd = dget s Kpbd) by (intros; apply dget_dset_other; auto).
  destruct (compute_conditional _ _ _ _) as [s1|] eqn:E1; cbn [bind] in E; [|discriminate].
  destruct (compute_opcode _ _ _ _) as [s2|] eqn:E2; cbn [bind] in E; [|discriminate].
  destruct (compute_registers _ _ _ _) as [s3|] eqn:E3; cbn [bind] in E; [|discriminate].
  destruct (compute_push_pop _ _ _ _ _ _ _) as [s4|] eqn:E4; cbn [bind] in E; [|discriminate].
  destruct (compute_branch_address _ _ _ _ _ _ _) as [s5|] eqn:E5; cbn [bind] in E; [|discriminate].
  assert (S4 : dget s4 Kpbd = dget (c_scores c) Kpbd).
  { assert (X1 : dget s1 Kpbd = dget (c_scores c) Kpbd) by (unfold compute_conditional in E1; destruct (or_zero _); cbn [bind] in E1; [|discriminate]; injection E1 as <-; apply Other; discriminate).
    assert (X2 : dget s2 Kpbd = dget s1 Kpbd) by (unfold compute_opcode in E2; destruct (or_zero _); cbn [bind] in E2; [|discriminate]; injection E2 as <-; apply Other; discriminate).
    assert (X3 : dget s3 Kpbd = dget s2 Kpbd). { unfold compute_registers in E3. destruct (_ || _); [congruence|]. destruct (or_zero _); cbn [bind] in E3; [|discriminate]. injection E3 as <-. apply Other. discriminate. }
    assert (Fi : forall prog b p1 p2 e s', finish_push_pop m prog b s3 p1 p2 e = Ok s' -> dget s' Kpbd = dget s3 Kpbd).
    { intros prog b p1 p2 e s' X. unfold finish_push_pop in X. destruct (dget_r prog b); cbn [bind] in X; [|discriminate]. destruct (quot _ _); cbn [bind] in X; [|discriminate]. injection X as <-. apply Other. discriminate. }
    assert (X4 : dget s4 Kpbd = dget s3 Kpbd).
    { unfold compute_push_pop in E4. destruct (d_kind (c_inst c));
      repeat match type of E4 with
        | Ok _ = Ok _ => injection E4 as <-; reflexivity
        | match dget fns a with _ => _ end = _ => destruct (dget fns a) as [[? ?]|]
        | bind ?x _ = _ => destruct x as [[]|]; cbn [bind] in E4; [|discriminate]
        | finish_push_pop _ _ _ _ _ _ _ = _ => exact (Fi _ _ _ _ _ _ E4)
        | bind ?x _ = _ => destruct x as [?|]; cbn [bind] in E4; [|discriminate]
        end. }
    congruence. }
  assert (S5 : dget (c_scores c') Kpbd = dget s5 Kpbd).
  { destruct first; cbn [bind] in E; [injection E as <-; reflexivity|]. unfold compute_cfg in E.
    assert (X : forall prog b s, dget (compute_register_distance m col prog b (c_inst c) s) Kpbd = dget s Kpbd) by (intros; unfold compute_register_distance; destruct (_ || _); [reflexivity|apply Other; discriminate]).
    destruct (cfg_result _ _ _ _ _ _ _ _ _) as [r|]; cbn [bind] in E; [|discriminate].
    destruct (Qeq_bool r 0); cbn [bind] in E; [injection E as <-; cbn [c_scores]; rewrite Other by discriminate; apply X|].
    destruct (qlt 1 r); cbn [bind] in E; [discriminate|]. injection E as <-; cbn [c_scores]; rewrite Other by discriminate; apply X. }
  unfold compute_branch_address in E5. rewrite Ig in E5. cbn [orb] in E5. destruct (d_branch (c_inst c)) eqn:Eb; cbn [negb] in E5.
  - split; [intros _ _|discriminate]. rewrite S5. assert (Put : forall q, s5 = dset s4 Kpbd q -> dget s5 Kpbd = Some q) by (intros q ->; apply dget_dset_same).
    destruct (d_jump (c_inst c)) as [j|]; [|eexists; split; [apply Put; symmetry; exact (ok_inj _ _ E5)|right; right; right; split; [left; reflexivity|reflexivity]]].
    assert (In' : forall here, (if fn <=? j then let* f := dget_r fns fn in Ok (j <=? snd f) else Ok false) = Ok here -> (here = true <-> inside fns fn j)).
    { intros here X. unfold inside. destruct (fn <=? j) eqn:L.
      - unfold dget_r in X. destruct (dget fns fn) as [[f l]|] eqn:Ef; cbn [bind] in X; [|discriminate]. cbn [snd] in X. injection X as <-. split; [intros X; split; [lia|exists f, l; split; [reflexivity|lia]]|].
        intros (_ & f' & l' & Y & Z). assert (l' = l) as -> by congruence. lia.
      - injection X as <-. split; [discriminate|intros [X _]; lia]. }
    destruct (if fn <=? j then _ else _) as [here|] eqn:Eh; cbn [bind] in E5; [|discriminate]. specialize (In' here eq_refl). destruct here.
    + eexists. split; [apply Put; symmetry; exact (ok_inj _ _ E5)|]. left. exists j. split; [reflexivity|]. split; [apply In'; reflexivity|reflexivity].
    + assert (Ni : ~ inside fns fn j) by (intros X; apply In' in X; discriminate). destruct (dmem fns j) eqn:Em.
      * eexists. split; [apply Put; symmetry; exact (ok_inj _ _ E5)|]. right; left. exists j. auto.
      * destruct ((hi <? j) || (j <? lo)) eqn:El; eexists; (split; [apply Put; symmetry; exact (ok_inj _ _ E5)|]).
        -- right; right; left. exists j. split; [reflexivity|]. split; [exact Ni|]. split; [exact Em|]. split; [|reflexivity]. apply orb_true_iff in El. destruct El as [El|El]; [right|left]; intros b Hb; [specialize (Hi2 b Hb)|specialize (Lo2 b Hb)]; lia.
        -- right; right; right. split; [|reflexivity]. right. exists j. apply orb_false_iff in El. split; [reflexivity|]. split; [exact Ni|]. split; [exact Em|]. split; [exists lo|exists hi]; (split; [assumption|lia]).
  - split; [discriminate|]. intros _. congruence. Qed.
Print Assumptions C43_branch_table.
Definition jump_to (a j : Z) := mkCand (mkD 7 a false 14 30 [15] [15] [] [15] [] true KOther (Some j)) [] AddScore.
Example C43_example : match recover default_model new_collector [(0, (0, 8)); (12, (12, 16))]
    [(0, [jump_to 0 4]); (4, [jump_to 4 8; jump_to 4 12; jump_to 4 16; jump_to 4 20; jump_to 4 (-4); jump_to 4 0]); (8, []); (12, [jump_to 12 4]); (16, [])] with
  | Ok p' => match dget p' 4 with Some cs => map (fun c => dget (c_scores c) Kpbd) cs =
      [Some (this_method default_model); Some (other_method default_model); Some (any_jump default_model * 2)%Q; Some (any_jump default_model); Some (any_jump default_model); Some (this_method default_model)] | None => False end
  | Err _ => False end.
Proof. vm_compute. reflexivity. Qed.

(** C44.  Refuted: the value is stored under 'popu' and read under 'pupo'. *)
Theorem C44_push_pop_refuted : exists s i q q', pushpop i = true /\ prob q /\ prob q' /\ ~ (q == q')%Q /\
  probabilistic_rules (dset s Kpopu q) i = probabilistic_rules (dset s Kpopu q') i.
Proof. exists [], o_push, (1 # 2)%Q, (1 # 3)%Q. repeat split; discriminate. Qed.
Print Assumptions C44_push_pop_refuted.
Lemma lowest_zero (s : scores) : (forall k x, In (k, x) s -> (0 <= x)%Q) -> ((lowest s == 0)%Q <-> exists k x, In (k, x) s /\ (x == 0)%Q).
Proof. intros H. pose proof (lowest_fold s 2%Q) as L. cbv zeta in L. fold (lowest s) in L. destruct L as (_ & L1 & L2). split.
  - intros E. destruct L2 as [X|(k & X)]; [rewrite X in E; lra|]. exists k, (lowest s). auto.
  - intros (k & x & I & E). pose proof (L1 k x I). destruct L2 as [X|(k' & X)]; [rewrite X in *; lra|]. pose proof (H k' _ X). lra. Qed.
Lemma in_dset_iff {A} (s : dict A) k q : NoDup (dkeys s) -> forall k' x, In (k', x) (dset s k q) <-> (k' = k /\ x = q) \/ (k' <> k /\ In (k', x) s).
Proof. intros N k' x. pose proof (dset_nodup s k q N) as N'. split.
  - intros I. apply (dget_nodup_in _ _ _ N') in I. destruct (Z.eq_dec k' k) as [->|E]; [left; rewrite dget_dset_same in I; split; congruence|]. right. rewrite dget_dset_other in I by congruence. split; [exact E|apply dget_in, I].
  - intros [[-> ->]|[E I]]; apply dget_in; [apply dget_dset_same|]. rewrite dget_dset_other by congruence. apply dget_nodup_in; assumption. Qed.
(** It changes no score, of any candidate, whatever the other parts; all that
    matters is that it is not 0. *)
Theorem C44_push_pop_partial : forall (s : scores) i q,
  probabilistic_rules (dset s Kpopu q) i = probabilistic_rules s i /\
  (NoDup (dkeys s) -> (forall k x, In (k, x) s -> (0 <= x)%Q) -> (forall x, In (Kpopu, x) s -> (0 < x)%Q) -> (0 < q)%Q ->
   remove_step (dset s Kpopu q) i = remove_step s i).
Proof. intros s i q. assert (G : forall k d, k <> Kpopu -> sget (dset s Kpopu q) k d = sget s k d) by (intros k d H; unfold sget; rewrite dget_dset_other by auto; reflexivity). split.
  - unfold probabilistic_rules. rewrite !G by discriminate. reflexivity.
  - intros N P Po Q. unfold remove_step. cbv zeta. rewrite !G by discriminate.
    assert (X : (lowest (dset s Kpopu q) == 0)%Q <-> (lowest s == 0)%Q).
    { rewrite !lowest_zero; [|exact P|intros k x I; apply in_dset_iff in I; [|exact N]; destruct I as [[-> ->]|[_ I]]; [lra|exact (P k x I)]]. split.
      - intros (k & x & I & E). apply in_dset_iff in I; [|exact N]. destruct I as [[-> ->]|[_ I]]; [lra|exists k, x; auto].
      - intros (k & x & I & E). exists k, x. split; [|exact E]. apply in_dset_iff; [exact N|]. right. split; [|exact I]. intros ->. specialize (Po x I). lra. }
    assert (Y : Qeq_bool (lowest (dset s Kpopu q)) 0 = Qeq_bool (lowest s) 0); [|rewrite Y; reflexivity].
    destruct (qeq_spec (lowest (dset s Kpopu q)) 0), (qeq_spec (lowest s) 0); try reflexivity; exfalso; tauto. Qed.
Print Assumptions C44_push_pop_partial.
Example C44_example : let s := [(Kpc, 2 # 3); (Kpo, 1 # 2); (Kpopu, 9999 # 10000)]%Q in
  probabilistic_rules s o_push = probabilistic_rules [(Kpc, 2 # 3); (Kpo, 1 # 2)]%Q o_push /\ match probabilistic_rules s o_push with Ok q => (q == 1 # 3)%Q | Err _ => False end.
Proof. vm_compute. auto. Qed.
