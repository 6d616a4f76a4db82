(** C150 and C151: the order of the candidates, reports in between, and scores of earlier
    passes make no difference to a recovery. *)
From Verif Require Import ListLemmas FlipModel FlipProofs InstModel MetaModel MetaSpec MetaProofs MetaProps RecModel RecSpec RecProofs RecProofs2 RecProofs3 RecProofs4 RemoveProofs RecProps OutcomeProps OrderProofs.
From Coq Require Import ZifyBool ZifyNat Permutation Sorted Lqa.

Lemma alike_nil (q : cprogram) : alike [] q -> q = [].
Proof. intros H. destruct q as [|[k v] q]; [reflexivity|]. specialize (H k). cbn [dget] in H. rewrite Z.eqb_refl in H. destruct H. Qed.
Lemma results_perm {A B} (f : A -> result B) cs ds : Permutation cs ds -> forall cs' ds', Forall2 (fun c c' => f c = Ok c') cs cs' -> Forall2 (fun c c' => f c = Ok c') ds ds' -> Permutation cs' ds'.
Proof. induction 1 as [|x l l' P IH|x y l|l1 l2 l3 P1 IH1 P2 IH2]; intros cs' ds' F G.
  - inversion F; inversion G; constructor.
  - inversion F as [|? a ? m Fa Fm]; inversion G as [|? b ? n Gb Gn]; subst. assert (a = b) as -> by congruence. constructor. apply IH; assumption.
  - inversion F as [|? a ? m Fa Fm]; subst. inversion Fm as [|? a' ? m' Fa' Fm']; subst. inversion G as [|? b ? n Gb Gn]; subst. inversion Gn as [|? b' ? n' Gb' Gn']; subst.
    assert (a = b') as -> by congruence. assert (a' = b) as -> by congruence. assert (m' = n') as ->; [|apply perm_swap]. clear - Fm' Gn'. revert n' Gn'. induction Fm' as [|x y l l' E F IH]; intros n G; inversion G as [|? z ? k Ez Gk]; subst; [reflexivity|]. f_equal; [congruence|apply IH, Gk].
  - assert (X : exists m, Forall2 (fun c c' => f c = Ok c') l2 m). { clear - F P1. assert (Al : forall c, In c l2 -> exists c', f c = Ok c'). { intros c I. eapply Permutation_in in I; [|apply Permutation_sym, P1]. clear - F I. induction F as [|x y l l' E F IH]; [destruct I|]. destruct I as [<-|I]; eauto. }
      clear - Al. induction l2 as [|x l IH]; [exists []; constructor|]. destruct (Al x (or_introl eq_refl)) as (y & E). destruct IH as (m & Fm); [intros c I; apply Al; right; exact I|]. exists (y :: m). constructor; assumption. }
    destruct X as (m & Fm). eapply Permutation_trans; [apply IH1; eassumption|apply IH2; eassumption]. Qed.

(** ** C150 *)
(** One pass: the same scores for the same candidates, however they are listed. *)
Theorem C150_order : forall m col fns p q, NoDup (dkeys p) -> NoDup (dkeys q) -> alike p q -> same_outcome alike (recover m col fns p) (recover m col fns q).
Proof. intros m col fns p q N N' H. destruct p as [|kv p0] eqn:Ep; [rewrite (alike_nil q H); exact Logic.I|]. rewrite <- Ep in *. destruct (bounds_exist p N) as (lo & hi & B); [rewrite Ep; discriminate|]. clear Ep. pose proof (alike_bounds p q lo hi H B) as B'.
  assert (Key : forall x, In x (dkeys p) <-> In x (dkeys q)) by (intros x; apply alike_keys, H).
  assert (X : forall p q, NoDup (dkeys p) -> NoDup (dkeys q) -> alike p q -> bounds p lo hi -> bounds q lo hi -> (forall x, In x (dkeys p) <-> In x (dkeys q)) -> forall p' e, recover m col fns p = Ok p' -> recover m col fns q = Err e -> False).
  { clear. intros p q N N' H B B' Key p' e R R'. destruct (recover_err m col fns q e lo hi N' B' R') as (a & ds & d & fn & G & I & Cu & E). destruct (recover_ok m col fns p p' N R) as (lo' & hi' & B2 & _ & F). destruct (bounds_one p lo hi lo' hi' B B2) as [<- <-].
    pose proof (H a) as Ha. rewrite G in Ha. destruct (dget p a) as [cs|] eqn:Gp; [|contradiction]. destruct (F a cs Gp) as (fn' & cs' & Cu' & _ & F2). assert (Ia : In a (dkeys p)) by (apply dget_some_in; eauto).
    assert (fn' = fn) as -> by (apply (current_one fns (dkeys p) a); [exact Ia|exact Cu'|apply (current_keys fns (dkeys q)); [intros x; symmetry; apply Key|exact Cu]]).
    assert (Ip : In d cs) by (eapply Permutation_in; [apply Permutation_sym, Ha|exact I]). destruct (forall2_in_l _ _ _ F2 d Ip) as (d' & _ & Ed). rewrite (step_alike m col fns p q lo hi fn a d N N' H) in Ed. congruence. }
  destruct (recover m col fns p) as [p'|e] eqn:R, (recover m col fns q) as [q'|e'] eqn:R'; cbn [same_outcome]; [|exact (X p q N N' H B B' Key p' e' R R')|exact (X q p N' N (alike_sym _ _ H) B' B (fun x => iff_sym (Key x)) q' e R' R)|exact Logic.I].
  destruct (recover_ok m col fns p p' N R) as (lo1 & hi1 & B1 & K1 & F1). destruct (recover_ok m col fns q q' N' R') as (lo2 & hi2 & B2 & K2 & F2). destruct (bounds_one p lo hi lo1 hi1 B B1) as [<- <-]. destruct (bounds_one q lo hi lo2 hi2 B' B2) as [<- <-].
  intros a. pose proof (H a) as Ha. destruct (dget p a) as [cs|] eqn:Gp, (dget q a) as [ds|] eqn:Gq; try contradiction.
  - destruct (F1 a cs Gp) as (fn & cs' & Cu & G & F). destruct (F2 a ds Gq) as (fn' & ds' & Cu' & G' & F'). rewrite G, G'. assert (Ia : In a (dkeys p)) by (apply dget_some_in; eauto).
    assert (fn' = fn) as -> by (apply (current_one fns (dkeys p) a); [exact Ia|apply (current_keys fns (dkeys q)); [intros x; symmetry; apply Key|exact Cu']|exact Cu]).
    apply (results_perm (step m col fns p lo hi fn a) cs ds Ha); [exact F|]. clear - F' N N' H. induction F' as [|d d' ds ds' E F IH]; constructor; [rewrite (step_alike m col fns p q lo hi fn a d N N' H); exact E|exact IH].
  - assert (E : dget p' a = None) by (destruct (dget p' a) eqn:E; [exfalso; assert (In a (dkeys p)) by (rewrite <- K1; apply dget_some_in; eauto); apply dget_some_in in H0; destruct H0; congruence|reflexivity]).
    assert (E' : dget q' a = None) by (destruct (dget q' a) eqn:E'; [exfalso; assert (In a (dkeys q)) by (rewrite <- K2; apply dget_some_in; eauto); apply dget_some_in in H0; destruct H0; congruence|reflexivity]). rewrite E, E'. exact Logic.I. Qed.
Print Assumptions C150_order.

(** Removing the bad candidates: scores are numbers between 0 and 1, or fail. *)
Lemma remove_all_spec {A} (sc : A -> result Q) p : NoDup (dkeys p) ->
  match remove_all sc p with
  | Ok (p', st) => dkeys p' = dkeys p /\ (forall a v, dget p a = Some v -> exists v' n, remove_bad sc v = Ok (v', n) /\ dget p' a = Some v') /\
      (st = true <-> forall a v, dget p a = Some v -> exists v' n, remove_bad sc v = Ok (v', n) /\ n <= 0)
  | Err e => exists a v, dget p a = Some v /\ remove_bad sc v = Err e
  end.
Proof. induction p as [|[k v] p IH]; intros N; cbn [remove_all].
  - split; [reflexivity|]. split; [discriminate|]. split; [discriminate|reflexivity].
  - inversion N as [|? ? Nk N']; subst. specialize (IH N'). destruct (remove_bad sc v) as [[v' n]|e] eqn:E; cbn [bind]; [|exists k, v; cbn [dget]; rewrite Z.eqb_refl; auto].
    assert (Other : forall a w, dget p a = Some w -> a <> k) by (intros a w G ->; apply Nk, dget_some_in; eauto).
    destruct (remove_all sc p) as [[p' st]|e] eqn:R; cbn [bind]; [|destruct IH as (a & w & G & Ew); exists a, w; cbn [dget]; destruct (Z.eqb_spec a k) as [->|_]; [exfalso; apply (Other k w G); reflexivity|auto]].
    destruct IH as (K & G & S). split; [cbn [dkeys map fst]; f_equal; exact K|]. split.
    + intros a w. cbn [dget]. destruct (a =? k); [intros X; injection X as <-; exists v', n; auto|apply G].
    + rewrite andb_true_iff, S, negb_true_iff. split.
      * intros [Hn Hs] a w. cbn [dget]. destruct (a =? k); [intros X; injection X as <-; exists v', n; split; [exact E|lia]|apply Hs].
      * intros Hs. split; [destruct (Hs k v) as (v2 & n2 & E2 & L); [cbn [dget]; rewrite Z.eqb_refl; reflexivity|]; assert (n2 = n) as -> by congruence; lia|]. intros a w Gw. apply (Hs a w). cbn [dget]. destruct (Z.eqb_spec a k) as [->|_]; [exfalso; apply (Other k w Gw); reflexivity|exact Gw]. Qed.
Lemma alike_none {A B} (p : dict A) (p' : dict B) a : dkeys p' = dkeys p -> dget p a = None -> dget p' a = None.
Proof. intros K G. destruct (dget p' a) eqn:E; [|reflexivity]. assert (I : In a (dkeys p)) by (rewrite <- K; apply dget_some_in; eauto). apply dget_some_in in I. destruct I. congruence. Qed.

Theorem C150_removal : forall {A} (sc : A -> result Q) p q, NoDup (dkeys p) -> NoDup (dkeys q) -> (forall a v c x, dget p a = Some v -> In c v -> sc c = Ok x -> prob x) -> alike p q ->
  same_outcome (fun x y => alike (fst x) (fst y) /\ snd x = snd y) (remove_all sc p) (remove_all sc q).
Proof. intros A sc p q N N' Pr H. pose proof (remove_all_spec sc p N) as S. pose proof (remove_all_spec sc q N') as S'.
  assert (At : forall a v w, dget p a = Some v -> dget q a = Some w -> same_outcome (fun x y => Permutation (fst x) (fst y) /\ snd x = snd y) (remove_bad sc v) (remove_bad sc w)).
  { intros a v w G G'. pose proof (H a) as Ha. rewrite G, G' in Ha. apply removal_perm; [intros c x I E; exact (Pr a v c x G I E)|exact Ha]. }
  destruct (remove_all sc p) as [[p' st]|e], (remove_all sc q) as [[q' st']|e']; cbn [same_outcome fst snd].
  - destruct S as (K & G & S), S' as (K' & G' & S'). split.
    + intros a. pose proof (H a) as Ha. destruct (dget p a) as [v|] eqn:Gp, (dget q a) as [w|] eqn:Gq; try contradiction; [|rewrite (alike_none p p' a K Gp), (alike_none q q' a K' Gq); exact Logic.I].
      destruct (G a v Gp) as (v' & n & E & ->). destruct (G' a w Gq) as (w' & n' & E' & ->). specialize (At a v w Gp Gq). rewrite E, E' in At. apply At.
    + assert (X : st = true <-> st' = true). { rewrite S, S'. split; intros Al a x Gx; pose proof (H a) as Ha; rewrite Gx in Ha.
        - destruct (dget p a) as [v|] eqn:Gp; [|contradiction]. destruct (Al a v Gp) as (v' & n & E & L). destruct (G' a x Gx) as (w' & n' & E' & _). exists w', n'. split; [exact E'|]. specialize (At a v x Gp Gx). rewrite E, E' in At. destruct At as [_ At]. cbn [snd] in At. lia.
        - destruct (dget q a) as [w|] eqn:Gq; [|contradiction]. destruct (Al a w Gq) as (w' & n' & E' & L). destruct (G a x Gx) as (v' & n & E & _). exists v', n. split; [exact E|]. specialize (At a x w Gx Gq). rewrite E, E' in At. destruct At as [_ At]. cbn [snd] in At. lia. }
      destruct st, st'; try reflexivity; destruct X as [X Y]; [discriminate (X eq_refl)|discriminate (Y eq_refl)].
  - destruct S as (K & G & S), S' as (a & w & Gq & E'). pose proof (H a) as Ha. rewrite Gq in Ha. destruct (dget p a) as [v|] eqn:Gp; [|contradiction]. destruct (G a v Gp) as (v' & n & E & _). specialize (At a v w Gp Gq). rewrite E, E' in At. exact At.
  - destruct S' as (K & G & S'), S as (a & v & Gp & E). pose proof (H a) as Ha. rewrite Gp in Ha. destruct (dget q a) as [w|] eqn:Gq; [|contradiction]. destruct (G a w Gq) as (w' & n & E' & _). specialize (At a v w Gp Gq). rewrite E, E' in At. exact At.
  - exact Logic.I. Qed.
Print Assumptions C150_removal.

(** Candidates marked as ignored have no scores. *)
Definition quiet (p : cprogram) : Prop := forall a c, candidate p a c -> d_ignore (c_inst c) = true -> c_scores c = [] /\ c_fn c = AddScore.
Lemma checked_range x q : checked x = Ok q -> prob q.
Proof. unfold checked. destruct (qlt_spec 1 x), (qlt_spec x 0); cbn [orb]; try discriminate. intros E. injection E as <-. split; lra. Qed.
Lemma step_score m col fns p lo hi fn a c c' : step m col fns p lo hi fn a c = Ok c' -> c_inst c' = c_inst c /\ (d_ignore (c_inst c) = true -> c' = c) /\ (d_ignore (c_inst c) = false -> c_fn c' = RemoveStep).
Proof. intros E. unfold step in E. destruct (d_ignore (c_inst c)) eqn:Ig.
  - unfold score_candidate in E. rewrite Ig in E. injection E as <-. split; [reflexivity|]. split; [auto|discriminate].
  - destruct (candidate_puts m col (collect_program (mkWith [] [] []) (plain p)) fns (plain p) lo hi fn a (a =? lo) (c_inst c) Ig) as (es & _ & X). rewrite (X c eq_refl) in E. destruct es as [e|]; cbn [bind] in E; [|discriminate]. injection E as <-. split; [reflexivity|]. split; [discriminate|auto]. Qed.
Lemma pass_scores m col fns p p' : NoDup (dkeys p) -> quiet p -> recover m col fns p = Ok p' -> NoDup (dkeys p') /\ quiet p' /\ forall a v c x, dget p' a = Some v -> In c v -> score c = Ok x -> prob x.
Proof. intros N Qt R. destruct (recover_ok m col fns p p' N R) as (lo & hi & B & K & F). split; [rewrite K; exact N|].
  assert (X : forall a v c, dget p' a = Some v -> In c v -> exists c0, candidate p a c0 /\ c_inst c = c_inst c0 /\ (d_ignore (c_inst c0) = true -> c = c0) /\ (d_ignore (c_inst c0) = false -> c_fn c = RemoveStep)).
  { intros a v c G I. assert (Ia : In a (dkeys p)) by (rewrite <- K; apply dget_some_in; eauto). apply dget_some_in in Ia. destruct Ia as (cs & Gp). destruct (F a cs Gp) as (fn & cs' & _ & G' & F2). assert (cs' = v) as -> by congruence. destruct (forall2_in_r _ _ _ F2 c I) as (c0 & I0 & E0). apply step_score in E0. exists c0. split; [exists cs; auto|exact E0]. }
  split.
  - intros a c (v & G & I) Ig. destruct (X a v c G I) as (c0 & H0 & Ei & E1 & _). rewrite Ei in Ig. rewrite (E1 Ig). exact (Qt a c0 H0 Ig).
  - intros a v c x G I E. destruct (X a v c G I) as (c0 & H0 & Ei & E1 & E2). unfold score in E. destruct (d_ignore (c_inst c0)) eqn:Ig.
    + rewrite (E1 eq_refl) in E. destruct (Qt a c0 H0 Ig) as [Es Ef]. rewrite Es, Ef in E. injection E as <-. cbn. split; lra.
    + rewrite (E2 eq_refl) in E. unfold remove_step in E. exact (checked_range _ _ E). Qed.
Lemma quiet_fewer (p q : cprogram) : quiet p -> (forall a c, candidate q a c -> candidate p a c) -> quiet q.
Proof. intros Qt S a c H. exact (Qt a c (S a c H)). Qed.
Lemma alike_candidate (p q : cprogram) a c : alike p q -> candidate q a c -> candidate p a c.
Proof. intros H (v & G & I). specialize (H a). rewrite G in H. destruct (dget p a) as [w|] eqn:Gp; [|contradiction]. exists w. split; [exact Gp|]. eapply Permutation_in; [apply Permutation_sym, H|exact I]. Qed.
Lemma removed_candidates {A} (sc : A -> result Q) v v' n : remove_bad sc v = Ok (v', n) -> forall c, In c v' -> In c v.
Proof. intros E c I. unfold remove_bad in E. destruct (remove_loop1 sc (S (length v)) v 0 0 0) as [[[v1 o] l]|] eqn:E1; cbn [bind] in E; [|discriminate].
  assert (Pop : forall (w : list A) i x, In x (pop_at w i) -> In x w). { intros w i x. unfold pop_at. rewrite in_app_iff. intros [J|J]; [rewrite <- (firstn_skipn i w); apply in_app_iff; left; exact J|rewrite <- (firstn_skipn (S i) w); apply in_app_iff; right; exact J]. }
  assert (L1 : forall fuel w i o l w' o' l', remove_loop1 sc fuel w i o l = Ok (w', o', l') -> forall x, In x w' -> In x w).
  { clear - Pop. induction fuel as [|fuel IH]; intros w i o l w' o' l' E x; [discriminate|]. cbn [remove_loop1] in E. destruct (nth_error w i); [|injection E as <- _ _; auto]. destruct (sc a); cbn [bind] in E; [|discriminate]. intros J. destruct (Qeq_bool a0 1); [eapply IH; eassumption|]. destruct (Qeq_bool a0 0); [eapply Pop, IH; eassumption|]. destruct (0 <? o); [eapply Pop, IH; eassumption|eapply IH; eassumption]. }
  assert (L2 : forall fuel w i o w', remove_loop2 sc fuel w i o = Ok w' -> forall x, In x w' -> In x w).
  { clear - Pop. induction fuel as [|fuel IH]; intros w i o w' E x; [discriminate|]. cbn [remove_loop2] in E. destruct (nth_error w i); [|injection E as <-; auto]. destruct (sc a); cbn [bind] in E; [|discriminate]. intros J. destruct (qlt a0 1 && (0 <? o)); [eapply Pop, IH; eassumption|eapply IH; eassumption]. }
  destruct (0 <? l).
  - destruct (remove_loop2 sc (S (length v1)) v1 0 o) as [v2|] eqn:E2; cbn [bind] in E; [|discriminate]. injection E as <- _. eapply L1; [exact E1|]. eapply L2; eassumption.
  - cbn [bind] in E. injection E as <- _. eapply L1; eassumption. Qed.
Lemma removed_fewer {A} (sc : A -> result Q) (p p' : dict (list A)) st : NoDup (dkeys p) -> remove_all sc p = Ok (p', st) -> NoDup (dkeys p') /\ forall a v' c, dget p' a = Some v' -> In c v' -> exists v, dget p a = Some v /\ In c v.
Proof. intros N E. pose proof (remove_all_spec sc p N) as S. rewrite E in S. destruct S as (K & G & _). split; [rewrite K; exact N|]. intros a v' c G' I. assert (Ia : In a (dkeys p)) by (rewrite <- K; apply dget_some_in; eauto). apply dget_some_in in Ia. destruct Ia as (v & Gp). destruct (G a v Gp) as (v2 & n & Er & G2). assert (v2 = v') as -> by congruence. exists v. split; [exact Gp|]. eapply removed_candidates; eassumption. Qed.

(** Whole recoveries: the one of the program that only recovers and removes, and one in
    which something, like a report, reorders the candidates after every pass. *)
Theorem C150_reports : forall m col fns (shuffle : nat -> cprogram -> cprogram), (forall n p, NoDup (dkeys p) -> NoDup (dkeys (shuffle n p)) /\ alike p (shuffle n p)) ->
  forall fuel n p q, NoDup (dkeys p) -> NoDup (dkeys q) -> quiet p -> alike p q ->
  same_outcome (fun x y => alike (fst x) (fst y) /\ snd x = snd y)
    (passes score (fun _ => recover m col fns) fuel n p) (passes score (fun k x => let* y := recover m col fns x in Ok (shuffle k y)) fuel n q).
Proof. intros m col fns shuffle Sh. induction fuel as [|fuel IH]; intros n p q N N' Qt H; [exact Logic.I|]. cbn [passes].
  pose proof (C150_order m col fns p q N N' H) as O. destruct (recover m col fns p) as [p1|e] eqn:R, (recover m col fns q) as [q1|e'] eqn:R'; cbn [same_outcome] in O; try contradiction; cbn [bind]; [|exact Logic.I].
  destruct (pass_scores m col fns p p1 N Qt R) as (N1 & Q1 & Pr). assert (Nq : NoDup (dkeys q1)) by (destruct (recover_ok m col fns q q1 N' R') as (_ & _ & _ & K & _); rewrite K; exact N'). destruct (Sh n q1 Nq) as [Ns As].
  pose proof (C150_removal score p1 (shuffle n q1) N1 Ns Pr (alike_trans _ _ _ O As)) as Re. destruct (remove_all score p1) as [[p2 st]|] eqn:E1, (remove_all score (shuffle n q1)) as [[q2 st']|] eqn:E2; cbn [same_outcome fst snd] in Re; try contradiction; cbn [bind]; [|exact Logic.I].
  destruct Re as [Al <-]. destruct st; [cbn [same_outcome fst snd]; auto|]. destruct (removed_fewer score p1 p2 _ N1 E1) as [N2 S2]. destruct (removed_fewer score (shuffle n q1) q2 _ Ns E2) as [N3 _]. apply IH; [exact N2|exact N3| |exact Al].
  apply (quiet_fewer p1 p2 Q1). intros a c (v & G & I). destruct (S2 a v c G I) as (w & Gw & Iw). exists w. auto. Qed.
Print Assumptions C150_reports.

(** Addresses and candidates listed the other way round, before the first pass and again
    after every pass: the same two passes and the same candidate goes. *)
Definition backwards (p : cprogram) : cprogram := rev (map (fun kv => (fst kv, rev (snd kv))) p).
Lemma backwards_get p a : NoDup (dkeys p) -> dget (backwards p) a = option_map (@rev cand) (dget p a).
Proof. intros N. assert (Nb : NoDup (dkeys (backwards p))). { unfold backwards, dkeys. rewrite map_rev, map_map. apply NoDup_rev. exact N. }
  destruct (dget p a) as [v|] eqn:G; cbn [option_map].
  - apply dget_nodup_in; [exact Nb|]. unfold backwards. apply -> in_rev. apply in_map_iff. exists (a, v). split; [reflexivity|apply dget_in, G].
  - destruct (dget (backwards p) a) as [w|] eqn:G'; [|reflexivity]. apply dget_in in G'. unfold backwards in G'. apply in_rev in G'. apply in_map_iff in G'. destruct G' as ([k v] & E & I). cbn [fst snd] in E. assert (k = a) as -> by congruence. rewrite (dget_nodup_in p a v N I) in G. discriminate. Qed.
Lemma backwards_alike p : NoDup (dkeys p) -> NoDup (dkeys (backwards p)) /\ alike p (backwards p).
Proof. intros N. split; [unfold backwards, dkeys; rewrite map_rev, map_map; apply NoDup_rev; exact N|]. intros a. rewrite (backwards_get p a N). destruct (dget p a); cbn [option_map]; [apply Permutation_rev|exact Logic.I]. Qed.
Lemma calm_quiet : NoDup (dkeys calm) /\ forall a c, candidate calm a c -> c_scores c = [] /\ c_fn c = AddScore.
Proof. split; [nodup|]. intros a c Hc. apply candidate_in in Hc; [|nodup]. destruct Hc as (cs & I & J). cbn in I. repeat destruct I as [I|I]; try injection I as <- <-; try contradiction; cbn in J; repeat destruct J as [<-|J]; try contradiction; split; reflexivity. Qed.
Definition listed (r : result (cprogram * nat)) := match r with Ok (p, n) => Some (map (fun kv => (fst kv, map (fun c => d_enc (c_inst c)) (snd kv))) p, n) | Err _ => None end.
Example C150_example : let rec := recover default_model (collect new_collector calm_orig) [] in
  NoDup (dkeys calm) /\ NoDup (dkeys (backwards calm)) /\ quiet calm /\ alike calm (backwards calm) /\
  (forall (n : nat) p, NoDup (dkeys p) -> NoDup (dkeys (backwards p)) /\ alike p (backwards p)) /\
  listed (passes score (fun _ => rec) 6 0 calm) = Some ([(4, [104; 101]); (8, [102])], 1%nat) /\
  listed (passes score (fun _ x => let* y := rec x in Ok (backwards y)) 6 0 (backwards calm)) = Some ([(8, [102]); (4, [101; 104])], 1%nat).
Proof. cbv zeta. destruct calm_quiet as [N Qc]. destruct (backwards_alike calm N) as [N' A]. split; [exact N|]. split; [exact N'|]. split; [intros a c Hc _; exact (Qc a c Hc)|]. split; [exact A|]. split; [intros _; apply backwards_alike|]. split; vm_compute; reflexivity. Qed.

(** ** C151 *)
Lemma step_again m col fns p p' lo hi fn a c c' : plain p' = plain p -> step m col fns p lo hi fn a c = Ok c' -> step m col fns p' lo hi fn a c' = Ok c'.
Proof. intros Pl E. unfold step in *. rewrite Pl. destruct (d_ignore (c_inst c)) eqn:Ig.
  - assert (c' = c) as -> by (unfold score_candidate in E; rewrite Ig in E; congruence). exact E.
  - destruct (candidate_puts m col (collect_program (mkWith [] [] []) (plain p)) fns (plain p) lo hi fn a (a =? lo) (c_inst c) Ig) as (es & K & X). rewrite (X c eq_refl) in E. destruct es as [e|]; cbn [bind] in E; [|discriminate]. injection E as <-. rewrite X by reflexivity. cbn [bind c_scores]. rewrite put_twice; [reflexivity|]. rewrite (K e eq_refl). apply keys_for_nodup. Qed.
Lemma plain_pass m col fns p p' : NoDup (dkeys p) -> recover m col fns p = Ok p' -> plain p' = plain p.
Proof. intros N R. pose proof (recover_labels m col fns p p' R) as L. exact L. Qed.
Lemma bounds_keys (p p' : cprogram) lo hi : dkeys p' = dkeys p -> bounds p lo hi -> bounds p' lo hi.
Proof. unfold bounds. intros ->. auto. Qed.

(** A pass over a program scored by a pass changes nothing. *)
Theorem C151_again : forall m col fns p p', NoDup (dkeys p) -> recover m col fns p = Ok p' -> recover m col fns p' = Ok p'.
Proof. intros m col fns p p' N R. pose proof (plain_pass m col fns p p' N R) as Pl. destruct (recover_ok m col fns p p' N R) as (lo & hi & B & K & F). assert (N' : NoDup (dkeys p')) by (rewrite K; exact N). pose proof (bounds_keys p p' lo hi K B) as B'.
  assert (Back : forall a v, dget p' a = Some v -> exists cs fn, dget p a = Some cs /\ current_function fns (dkeys p) a fn /\ Forall2 (fun c c' => step m col fns p lo hi fn a c = Ok c') cs v).
  { intros a v G. assert (Ia : In a (dkeys p)) by (rewrite <- K; apply dget_some_in; eauto). apply dget_some_in in Ia. destruct Ia as (cs & Gp). destruct (F a cs Gp) as (fn & cs' & Cu & G' & F2). assert (cs' = v) as -> by congruence. eauto. }
  destruct (recover m col fns p') as [p2|e] eqn:R2.
  - f_equal. destruct (recover_ok m col fns p' p2 N' R2) as (lo2 & hi2 & B2 & K2 & F2). destruct (bounds_one p' lo hi lo2 hi2 B' B2) as [<- <-]. apply dict_ext; [exact K2|rewrite K2; exact N'|]. intros a Ia. rewrite K2 in Ia. pose proof Ia as Ia'. apply dget_some_in in Ia. destruct Ia as (v & G).
    destruct (F2 a v G) as (fn & w & Cu & Gw & Fw). rewrite Gw, G. f_equal. destruct (Back a v G) as (cs & fn' & Gp & Cu' & Fv). rewrite K in Cu, Ia'. assert (fn' = fn) as -> by (eapply current_one; eassumption).
    assert (Fx : Forall2 (fun c c' => step m col fns p' lo hi fn a c = Ok c') v v). { clear - Fv Pl. induction Fv as [|c c' l l' E F IH]; constructor; [eapply step_again; eassumption|exact IH]. }
    assert (Fun : forall l u, Forall2 (fun c c' => step m col fns p' lo hi fn a c = Ok c') l u -> forall x, Forall2 (fun c c' => step m col fns p' lo hi fn a c = Ok c') l x -> x = u). { clear. induction 1 as [|c c' l l' E F IH]; intros x Fw; inversion Fw as [|? d ? k Ed Fk]; subst; [reflexivity|]. f_equal; [congruence|apply IH, Fk]. }
    exact (Fun v v Fx w Fw).
  - exfalso. destruct (recover_err m col fns p' e lo hi N' B' R2) as (a & v & c & fn & G & I & Cu & E). destruct (Back a v G) as (cs & fn' & Gp & Cu' & Fv). rewrite K in Cu. assert (Ia : In a (dkeys p)) by (apply dget_some_in; eauto). assert (fn' = fn) as -> by (eapply current_one; eassumption).
    destruct (forall2_in_r _ _ _ Fv c I) as (c0 & _ & E0). rewrite (step_again m col fns p p' lo hi fn a c0 c Pl E0) in E. discriminate. Qed.
Print Assumptions C151_again.

(** The same program with all scores forgotten; the programs a recovery goes through. *)
Definition forget (p : cprogram) : cprogram := map (fun kv => (fst kv, map (fun c => mkCand (c_inst c) [] AddScore) (snd kv))) p.
Definition unscored_yet (p : cprogram) : Prop := forall a c, candidate p a c -> c_scores c = [] /\ c_fn c = AddScore.
Inductive stage (m : pmodel) (col : collector) (fns : functions) (p : cprogram) : cprogram -> Prop :=
| stage_start : stage m col fns p p
| stage_pass q q1 q2 st : stage m col fns p q -> recover m col fns q = Ok q1 -> remove_all score q1 = Ok (q2, st) -> stage m col fns p q2.

Definition tidy (p : cprogram) : Prop := forall lo hi a c, bounds p lo hi -> candidate p a c -> (c_scores c = [] /\ c_fn c = AddScore) \/ (d_ignore (c_inst c) = false /\ dkeys (c_scores c) = keys_for (c_inst c) (a =? lo)).
Lemma put_keys e : forall s, NoDup (map fst e) -> dkeys s = [] \/ dkeys s = map fst e -> dkeys (put e s) = map fst e.
Proof. intros s N [H|H]; [|rewrite (put_over e s N H); reflexivity]. assert (s = []) as -> by (destruct s; [reflexivity|discriminate]). clear H.
  assert (X : forall e' s', NoDup (map fst s' ++ map fst e') -> dkeys (put e' s') = map fst s' ++ map fst e'). { clear. induction e' as [|[k q] e' IH]; intros s' N; [cbn [map put fold_left]; rewrite app_nil_r; reflexivity|]. cbn [map fst] in *. change (dkeys (put e' (dset s' k q)) = map fst s' ++ k :: map fst e').
    assert (D : dkeys (dset s' k q) = map fst s' ++ [k]). { rewrite dkeys_dset. assert (M : dmem s' k = false); [|rewrite M; reflexivity]. unfold dmem. destruct (dget s' k) eqn:G; [|reflexivity]. exfalso. apply NoDup_remove_2 in N. apply N, in_app_iff. left. apply (dget_some_in s' k). eauto. }
    rewrite IH; [unfold dkeys in D; rewrite D, <- app_assoc; reflexivity|]. unfold dkeys in D. rewrite D, <- app_assoc. exact N. }
  rewrite X; [reflexivity|exact N]. Qed.
Lemma stage_tidy m col fns p q : NoDup (dkeys p) -> unscored_yet p -> stage m col fns p q -> NoDup (dkeys q) /\ tidy q.
Proof. intros N U H. induction H as [|q q1 q2 st S [Nq T] R Re]; [split; [exact N|]; intros lo hi a c _ Hc; left; exact (U a c Hc)|].
  destruct (recover_ok m col fns q q1 Nq R) as (lo & hi & B & K & F). assert (N1 : NoDup (dkeys q1)) by (rewrite K; exact Nq). pose proof (remove_all_spec score q1 N1) as Sp. rewrite Re in Sp. destruct Sp as (K2 & _ & _). destruct (removed_fewer score q1 q2 st N1 Re) as [N2 S2]. split; [exact N2|].
  intros lo' hi' a c B' (v & G & I). assert (B1 : bounds q lo' hi') by (apply (bounds_keys q2); [congruence|exact B']). destruct (bounds_one q lo hi lo' hi' B B1) as [<- <-]. destruct (S2 a v c G I) as (w & Gw & Iw). assert (Ia : In a (dkeys q)) by (rewrite <- K; apply dget_some_in; eauto). apply dget_some_in in Ia. destruct Ia as (cs & Gq). destruct (F a cs Gq) as (fn & cs' & _ & G' & F2). assert (cs' = w) as -> by congruence.
  destruct (forall2_in_r _ _ _ F2 c Iw) as (c0 & I0 & E0). assert (T0 := T lo hi a c0 B (ex_intro _ cs (conj Gq I0))). unfold step in E0. destruct (d_ignore (c_inst c0)) eqn:Ig.
  - assert (c = c0) as -> by (unfold score_candidate in E0; rewrite Ig in E0; congruence). destruct T0 as [T0|[X _]]; [left; exact T0|congruence].
  - right. destruct (candidate_puts m col (collect_program (mkWith [] [] []) (plain q)) fns (plain q) lo hi fn a (a =? lo) (c_inst c0) Ig) as (es & Kk & X). rewrite (X c0 eq_refl) in E0. destruct es as [e|]; cbn [bind] in E0; [|discriminate]. injection E0 as <-. cbn [c_inst c_scores]. split; [exact Ig|]. assert (Ke := Kk e eq_refl). rewrite put_keys; [exact Ke|rewrite Ke; apply keys_for_nodup|].
    destruct T0 as [[T0 _]|[_ T0]]; [left; rewrite T0; reflexivity|right; rewrite T0; symmetry; exact Ke]. Qed.
Lemma forget_get p a : dget (forget p) a = option_map (map (fun c => mkCand (c_inst c) [] AddScore)) (dget p a).
Proof. unfold forget. induction p as [|[k v] p IH]; [reflexivity|]. cbn [map fst snd dget]. destruct (a =? k); [reflexivity|exact IH]. Qed.
Lemma forget_keys p : dkeys (forget p) = dkeys p.
Proof. unfold dkeys, forget. rewrite map_map. reflexivity. Qed.
Lemma forget_plain p : plain (forget p) = plain p.
Proof. unfold plain, forget. rewrite map_map. apply map_ext. intros [k v]. cbn [fst snd]. rewrite map_map. reflexivity. Qed.

(** At every stage of a recovery the next pass gives what a pass over the same candidates
    without any scores gives. *)
Theorem C151_no_memory : forall m col fns p q, NoDup (dkeys p) -> unscored_yet p -> stage m col fns p q -> same_outcome eq (recover m col fns q) (recover m col fns (forget q)).
Proof. intros m col fns p q N U S. destruct (stage_tidy m col fns p q N U S) as [Nq T]. clear p N U S. assert (Nf : NoDup (dkeys (forget q))) by (rewrite forget_keys; exact Nq).
  destruct q as [|kv q0] eqn:Eq; [exact Logic.I|]. rewrite <- Eq in *. destruct (bounds_exist q Nq) as (lo & hi & B); [rewrite Eq; discriminate|]. clear Eq kv q0. assert (Bf : bounds (forget q) lo hi) by (apply (bounds_keys q); [apply forget_keys|exact B]).
  assert (St : forall fn a c, candidate q a c -> step m col fns (forget q) lo hi fn a (mkCand (c_inst c) [] AddScore) = step m col fns q lo hi fn a c).
  { intros fn a c Hc. unfold step. rewrite forget_plain. destruct (T lo hi a c B Hc) as [[Es Ef]|[Ig Ks]]; [destruct c as [i s f]; cbn [c_scores c_fn c_inst] in *; subst; reflexivity|].
    destruct (candidate_puts m col (collect_program (mkWith [] [] []) (plain q)) fns (plain q) lo hi fn a (a =? lo) (c_inst c) Ig) as (es & K & X). rewrite (X c eq_refl), (X (mkCand (c_inst c) [] AddScore) eq_refl). destruct es as [e|]; cbn [bind]; [|reflexivity]. cbn [c_scores]. assert (Ke := K e eq_refl).
    assert (Ne : NoDup (map fst e)) by (rewrite Ke; apply keys_for_nodup). rewrite (put_over e (c_scores c) Ne) by (rewrite Ks; symmetry; exact Ke). f_equal. f_equal. assert (P1 : dkeys (put e []) = map fst e) by (apply put_keys; [exact Ne|left; reflexivity]).
    rewrite <- (put_over e (put e []) Ne P1) at 2. symmetry. apply put_twice, Ne. }
  destruct (recover m col fns q) as [q1|e] eqn:R, (recover m col fns (forget q)) as [f1|e'] eqn:R'; cbn [same_outcome]; [| | |exact Logic.I].
  - destruct (recover_ok m col fns q q1 Nq R) as (l1 & h1 & B1 & K1 & F1). destruct (bounds_one q lo hi l1 h1 B B1) as [<- <-]. destruct (recover_ok m col fns (forget q) f1 Nf R') as (l2 & h2 & B2 & K2 & F2). destruct (bounds_one (forget q) lo hi l2 h2 Bf B2) as [<- <-].
    apply dict_ext; [rewrite K1, K2, forget_keys; reflexivity|rewrite K1; exact Nq|]. intros a Ia. rewrite K1 in Ia. pose proof Ia as Ia'. apply dget_some_in in Ia. destruct Ia as (cs & G). destruct (F1 a cs G) as (fn & cs' & Cu & G' & Fa). destruct (F2 a (map (fun c => mkCand (c_inst c) [] AddScore) cs)) as (fn2 & ds' & Cu2 & G2 & Fb); [rewrite forget_get, G; reflexivity|]. rewrite G', G2. f_equal.
    rewrite forget_keys in Cu2. assert (fn2 = fn) as -> by (eapply current_one; eassumption). assert (All : forall c, In c cs -> candidate q a c) by (intros c I; exists cs; auto). clear - Fa Fb St All. revert ds' Fb. induction Fa as [|c c' l l' E F IH]; intros ds Fb; inversion Fb as [|? d ? k Ed Fk]; subst; [reflexivity|].
    rewrite (St fn a c (All c (or_introl eq_refl))) in Ed. f_equal; [congruence|]. apply IH; [intros x I; apply All; right; exact I|exact Fk].
  - destruct (recover_ok m col fns q q1 Nq R) as (l1 & h1 & B1 & K1 & F1). destruct (bounds_one q lo hi l1 h1 B B1) as [<- <-]. destruct (recover_err m col fns (forget q) e' lo hi Nf Bf R') as (a & v & c & fn & G & I & Cu & E). rewrite forget_get in G. destruct (dget q a) as [cs|] eqn:Gq; [|discriminate]. cbn [option_map] in G. injection G as <-. apply in_map_iff in I. destruct I as (c0 & <- & I0).
    destruct (F1 a cs Gq) as (fn1 & cs' & Cu1 & _ & Fa). rewrite forget_keys in Cu. assert (Ia : In a (dkeys q)) by (apply dget_some_in; eauto). assert (fn1 = fn) as -> by (eapply current_one; eassumption). destruct (forall2_in_l _ _ _ Fa c0 I0) as (c1 & _ & E1). rewrite St in E by (exists cs; auto). congruence.
  - destruct (recover_ok m col fns (forget q) f1 Nf R') as (l1 & h1 & B1 & K1 & F1). destruct (bounds_one (forget q) lo hi l1 h1 Bf B1) as [<- <-]. destruct (recover_err m col fns q e lo hi Nq B R) as (a & cs & c & fn & G & I & Cu & E).
    destruct (F1 a (map (fun c => mkCand (c_inst c) [] AddScore) cs)) as (fn1 & cs' & Cu1 & _ & Fa); [rewrite forget_get, G; reflexivity|]. rewrite forget_keys in Cu1. assert (Ia : In a (dkeys q)) by (apply dget_some_in; eauto). assert (fn1 = fn) as -> by (eapply current_one; eassumption).
    destruct (forall2_in_l _ _ _ Fa (mkCand (c_inst c) [] AddScore)) as (c1 & _ & E1); [apply in_map_iff; eauto|]. rewrite St in E1 by (exists cs; auto). congruence. Qed.
Print Assumptions C151_no_memory.

Lemma nothing_removed {A} (sc : A -> result Q) (p p' : dict (list A)) : NoDup (dkeys p) -> remove_all sc p = Ok (p', true) -> p' = p.
Proof. intros N E. pose proof (remove_all_spec sc p N) as S. rewrite E in S. destruct S as (K & G & S). apply dict_ext; [exact K|rewrite K; exact N|]. intros a Ia. rewrite K in Ia. apply dget_some_in in Ia. destruct Ia as (v & Gv). destruct (G a v Gv) as (v' & n & Er & G'). rewrite G', Gv. f_equal. destruct (proj1 S eq_refl a v Gv) as (v2 & n2 & E2 & L). assert (v2 = v' /\ n2 = n) as [-> ->] by (split; congruence).
  clear - Er L. destruct (remove_bad_shape sc v) as [(w & k & E & Sub & Len)|(c & e & _ & _ & E)]; [|congruence]. assert (w = v' /\ k = n) as [-> ->] by (split; congruence).
  assert (X : forall l1 l2 : list A, subseq l1 l2 -> (length l1 <= length l2)%nat /\ ((length l2 <= length l1)%nat -> l1 = l2)). { clear. induction 1 as [|x l1 l2 S [IH1 IH2]|x l1 l2 S [IH1 IH2]]; cbn [length]; [auto|split; [lia|intros; f_equal; apply IH2; lia]|split; [lia|intros; lia]]. }
  apply (X v' v Sub). lia. Qed.

(** Starting again from the candidates that are left changes nothing. *)
Theorem C151_restart : forall m col fns p fuel pf n, NoDup (dkeys p) -> unscored_yet p -> passes score (fun _ => recover m col fns) fuel 0 p = Ok (pf, n) ->
  forall fuel', passes score (fun _ => recover m col fns) (S fuel') 0 (forget pf) = Ok (pf, 0%nat) /\ passes score (fun _ => recover m col fns) (S fuel') 0 pf = Ok (pf, 0%nat).
Proof. intros m col fns p fuel pf n N U H fuel'.
  assert (X : forall fuel k q, stage m col fns p q -> passes score (fun _ => recover m col fns) fuel k q = Ok (pf, n) -> exists q0, stage m col fns p q0 /\ recover m col fns q0 = Ok pf /\ remove_all score pf = Ok (pf, true)).
  { clear fuel fuel' H. induction fuel as [|fuel IH]; intros k q S H; [discriminate|]. cbn [passes] in H. destruct (recover m col fns q) as [q1|] eqn:R; cbn [bind] in H; [|discriminate]. destruct (remove_all score q1) as [[q2 st]|] eqn:Re; cbn [bind] in H; [|discriminate]. destruct st; [|apply (IH _ _ (stage_pass m col fns p q q1 q2 _ S R Re) H)].
    injection H as -> _. assert (N1 : NoDup (dkeys q1)). { destruct (stage_tidy m col fns p q N U S) as [Nq _]. destruct (recover_ok m col fns q q1 Nq R) as (_ & _ & _ & K & _). rewrite K. exact Nq. } pose proof (nothing_removed score q1 pf N1 Re) as ->. eauto. }
  destruct (X fuel 0%nat p (stage_start m col fns p) H) as (q0 & S & R & Re). assert (Nq : NoDup (dkeys q0)) by apply (stage_tidy m col fns p q0 N U S).
  assert (Sf : stage m col fns p pf) by (apply (stage_pass m col fns p q0 pf pf true S R Re)). pose proof (C151_again m col fns q0 pf Nq R) as Ag. pose proof (C151_no_memory m col fns p pf N U Sf) as Nm. rewrite Ag in Nm. cbn [same_outcome] in Nm. destruct (recover m col fns (forget pf)) as [f1|] eqn:Rf; [|contradiction]. subst f1.
  cbn [passes]. rewrite Rf, Ag. cbn [bind]. rewrite Re. cbn [bind]. auto. Qed.
Print Assumptions C151_restart.
(** The first pass of the recovery above scores five candidates, one of which is left at 8;
    the second scores the remaining ones anew. *)
Definition after_calm : cprogram := match passes score (fun _ => recover default_model (collect new_collector calm_orig) []) 6 0 calm with Ok (p, _) => p | Err _ => [] end.
Example C151_example : let rec := recover default_model (collect new_collector calm_orig) [] in
  NoDup (dkeys calm) /\ unscored_yet calm /\ passes score (fun _ => rec) 6 0 calm = Ok (after_calm, 1%nat) /\
  map (fun kv => (fst kv, map (fun c => d_enc (c_inst c)) (snd kv))) after_calm = [(4, [104; 101]); (8, [102])] /\
  (exists c, candidate after_calm 4 c /\ d_enc (c_inst c) = 104 /\ exists q, dget (c_scores c) Kpc = Some q /\ (q == 1 # 2)%Q) /\
  (exists p1 c, rec calm = Ok p1 /\ candidate p1 8 c /\ d_enc (c_inst c) = 106 /\ ~ (exists c', candidate after_calm 8 c' /\ c_inst c' = c_inst c)) /\
  rec after_calm = Ok after_calm /\ rec (forget after_calm) = Ok after_calm.
Proof. cbv zeta. destruct calm_quiet as [N Qc]. split; [exact N|]. split; [exact Qc|]. split; [vm_compute; reflexivity|]. split; [vm_compute; reflexivity|]. split.
  { eexists. split; [eexists; split; [vm_compute; reflexivity|left; reflexivity]|]. split; [reflexivity|]. eexists. split; [vm_compute; reflexivity|reflexivity]. }
  split. { eexists _, _. split; [vm_compute; reflexivity|]. split; [eexists; split; [vm_compute; reflexivity|left; reflexivity]|]. split; [reflexivity|]. intros (c' & (v & G & I) & E). vm_compute in G. injection G as <-. destruct I as [<-|[]]. vm_compute in E. discriminate. }
  split; vm_compute; reflexivity. Qed.
