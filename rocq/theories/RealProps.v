(** C139: a whole run with the recuperator of the code. *)
From Verif Require Import ListLemmas MetaModel RecModel RecSpec RecProofs RecProofs2 RecProofs3 RecProofs4 RemoveProofs RecProps SiftSpec SiftProps.
From Verif Require Import IoModel IoSpec IoProofs IoProps ReportModel ReportSpec ReportProofs ReportProps InitialModel InitialProps RunModel RunProps RealModel.
From Coq Require Import ZifyBool ZifyNat Permutation Sorted Lqa.

(** The instructions at an address, as a set; one round and several rounds of the sieve of C138 on sets. *)
Definition listed (p : cprogram) (a : Z) (i : dinst) : Prop := exists c, candidate p a c /\ c_inst c = i.
Definition round (orig : list dinst) (p p' : cprogram) : Prop := forall a i, listed p' a i <-> listed p a i /\ survives orig p a i.
Inductive rounds (orig : list dinst) : nat -> cprogram -> cprogram -> Prop :=
| rounds_one p p' : round orig p p' -> rounds orig 1 p p'
| rounds_more n p p1 p' : round orig p p1 -> rounds orig n p1 p' -> rounds orig (S n) p p'.
Definition looks (look : Z -> Z -> dinst) : Prop := forall e a, d_enc (look e a) = e /\ d_addr (look e a) = a.

(** ** Sets of instructions decide *)
Definition same_set (p q : cprogram) : Prop := forall a i, listed p a i <-> listed q a i.
Lemma set_fewer p q : (forall a i, listed q a i -> listed p a i) -> fewer_insts p q.
Proof. intros H a c Hc. destruct (H a (c_inst c)) as (c0 & H0 & E0); [exists c; auto|]. exists c0. auto. Qed.
Lemma sure_at_listed orig p a : sure_at orig p a <-> exists i, listed p a i /\ sure orig p i.
Proof. split; [intros (c & Hc & S); exists (c_inst c); split; [exists c; auto|exact S]|]. intros (i & (c & Hc & <-) & S). exists c. auto. Qed.
Lemma survives_set orig p q a i : same_set p q -> survives orig p a i <-> survives orig q a i.
Proof. intros S. assert (F1 : fewer_insts p q) by (apply set_fewer; intros; apply S; assumption). assert (F2 : fewer_insts q p) by (apply set_fewer; intros; apply S; assumption).
  assert (A : sure_at orig p a <-> sure_at orig q a). { rewrite !sure_at_listed. split; intros (j & L & X); exists j; (split; [apply S, L|]); [eapply sure_fewer; [exact F1|exact X]|eapply sure_fewer; [exact F2|exact X]]. }
  pose proof (sure_fewer orig p q i F1). pose proof (sure_fewer orig q p i F2). unfold survives. tauto. Qed.

(** ** Taking and giving *)
Lemma taken_get look p a : dget (taken look p) a = option_map (map (fun c => mkCand (look (p_enc c) a) (p_rules c) AddScore)) (dget p a).
Proof. unfold taken. induction p as [|[k v] p IH]; [reflexivity|]. cbn [map dget fst snd]. destruct (a =? k) eqn:E; [replace k with a by lia; reflexivity|exact IH]. Qed.
Lemma taken_keys look p : dkeys (taken look p) = dkeys p.
Proof. unfold taken, dkeys. rewrite map_map. reflexivity. Qed.
Lemma taken_candidate look p a c : candidate (taken look p) a c <-> exists v d, dget p a = Some v /\ In d v /\ c = mkCand (look (p_enc d) a) (p_rules d) AddScore.
Proof. unfold candidate. rewrite taken_get. split.
  - intros (cs & G & I). destruct (dget p a) as [v|]; [|discriminate]. cbn in G. injection G as <-. apply in_map_iff in I. destruct I as (d & <- & Hd). exists v, d. auto.
  - intros (v & d & -> & Hd & ->). eexists. split; [reflexivity|]. apply (in_map (fun c => mkCand (look (p_enc c) a) (p_rules c) AddScore)), Hd. Qed.
Lemma taken_listed look p a i : listed (taken look p) a i <-> exists v d, dget p a = Some v /\ In d v /\ look (p_enc d) a = i.
Proof. split.
  - intros (c & Hc & <-). apply taken_candidate in Hc. destruct Hc as (v & d & G & Hd & ->). exists v, d. auto.
  - intros (v & d & G & Hd & <-). eexists. split; [apply taken_candidate; exists v, d; split; [exact G|split; [exact Hd|reflexivity]]|reflexivity]. Qed.
Lemma given_get text p : forall q, given_all text p = Ok q -> dkeys q = dkeys p /\ forall a cs, dget p a = Some cs -> exists v, dget q a = Some v /\ Forall2 (fun c d => given text c = Ok d) cs v.
Proof. unfold given_all. induction p as [|[k cs0] p IH]; intros q H.
  - cbn in H. injection H as <-. split; [reflexivity|discriminate].
  - apply mapM_forall2 in H. inversion H as [|? kv ? q' E F]; subst. apply mapM_forall2 in F. destruct (IH q' F) as [K G]. destruct (mapM (given text) (snd (k, cs0))) as [v|] eqn:Ev; [|discriminate]. cbn [bind fst] in E. injection E as <-. cbn [snd] in Ev. apply mapM_forall2 in Ev.
    split; [cbn; f_equal; exact K|]. intros a cs Ga. cbn in Ga |- *. destruct (a =? k); [injection Ga as <-; exists v; auto|apply G, Ga]. Qed.

(** ** The score of a judged candidate *)
Lemma judged_value orig p c0 c q : judged orig p c0 c -> score c = Ok q ->
  prob q /\ ((q == 1)%Q <-> sure orig p (c_inst c0)) /\ (~ sure orig p (c_inst c0) -> (~ (q == 0)%Q <-> d_ignore (c_inst c0) = false /\ all_seen orig (c_inst c0) /\ ~ stack_only (c_inst c0))).
Proof. intros (J1 & _ & _ & q' & J2 & J3 & J4 & J5) Eq. assert (q' = q) as -> by congruence. split; [exact J3|]. unfold sure. destruct (d_ignore (c_inst c0)) eqn:Ig.
  - rewrite (J4 eq_refl). split; [split; [intros X; discriminate|intros (X & _); discriminate]|]. intros _. split; [intros X; exfalso; apply X; reflexivity|intros (X & _); discriminate].
  - destruct (J5 eq_refl) as (_ & Q1 & Q0). split; [rewrite Q1; tauto|]. intros Ns. rewrite Q0. split; [|tauto].
    intros Z. split; [reflexivity|]. destruct (all_seen_dec orig (c_inst c0)) as [A|A]; [|tauto]. split; [exact A|]. intros X. apply Z. right. split; [exact X|]. intros Y. apply Ns. auto. Qed.

Lemma removed_at {A} (val : A -> Q) (p1 : dict (list A)) : (forall a v c, dget p1 a = Some v -> In c v -> prob (val c)) -> NoDup (dkeys p1) ->
  exists p2 stable, remove_all (fun c => Ok (val c)) p1 = Ok (p2, stable) /\ dkeys p2 = dkeys p1 /\
    forall a cs, dget p1 a = Some cs -> dget p2 a = Some (if existsb (is1 val) cs then filter (is1 val) cs else filter (fun c => negb (is0 val c)) cs).
Proof. induction p1 as [|[k v] p1 IH]; intros H N; cbn [remove_all]; [exists [], true; split; [reflexivity|split; [reflexivity|discriminate]]|].
  cbn in N. inversion N as [|? ? Nk N']; subst. destruct (remove_bad_value (fun c => Ok (val c)) val v) as (v' & E & Ev).
  { intros c Hc. split; [reflexivity|]. apply (H k v); [cbn; rewrite Z.eqb_refl; reflexivity|exact Hc]. }
  destruct IH as (p2 & st & E2 & K2 & F2); [|exact N'|].
  { intros a cs c G I. apply (H a cs); [|exact I]. cbn. destruct (a =? k) eqn:Ek; [exfalso; apply Nk; replace k with a by lia; apply dget_some_in; eauto|exact G]. }
  rewrite E, E2. cbn [bind]. eexists _, _. split; [reflexivity|]. split; [cbn [dkeys map fst]; f_equal; exact K2|].
  intros a cs G. cbn in *. destruct (a =? k) eqn:Ek; [injection G as <-; rewrite <- Ev; reflexivity|apply F2, G]. Qed.

(** ** One pass *)
Lemma recuperate_fewer text look m col fns : looks look -> forall n p q, recuperate text look m col fns n p = Ok q -> fewer p q.
Proof. intros Lk n p q H. unfold recuperate in H. destruct (recover m col fns (taken look p)) as [p1|] eqn:R; [|discriminate]. cbn [bind] in H. destruct (given_get _ _ _ H) as [K G]. pose proof (recover_labels _ _ _ _ _ R) as L.
  assert (K1 : dkeys p1 = dkeys p). { apply (f_equal dkeys) in L. unfold dkeys, labels in L. rewrite !map_map in L. cbn [fst] in L. rewrite <- (taken_keys look p). exact L. }
  split; [congruence|]. intros a w Gw. assert (Ha : In a (dkeys p1)) by (rewrite <- K; apply dget_some_in; eauto). apply dget_some_in in Ha. destruct Ha as (cs & Gc). destruct (G _ _ Gc) as (w' & Gw' & F). assert (w' = w) as -> by congruence.
  apply (f_equal (fun d => dget d a)) in L. rewrite !dget_labels, Gc, taken_get in L. destruct (dget p a) as [v|]; [|discriminate]. exists v. split; [reflexivity|]. cbn in L. injection L as L. rewrite map_map in L. cbn in L.
  intros e He. apply in_map_iff in He. destruct He as (d & <- & Hd). destruct (forall2_in_r _ _ _ F d Hd) as (c & Hc & Ec). unfold given in Ec. destruct (score c) as [q0|]; [|discriminate]. cbn [bind] in Ec. injection Ec as <-. cbn.
  apply (in_map c_inst) in Hc. rewrite L in Hc. apply in_map_iff in Hc. destruct Hc as (d0 & <- & H0). rewrite (proj1 (Lk _ _)). apply in_map, H0. Qed.

Lemma one_pass text look m orig fns n os es p p1 es' p2 : looks look -> valid_model m -> has_original orig (taken look p) -> all_scored (taken look p) ->
  recuperate text look m (collect new_collector orig) fns n p = Ok p1 -> report_on (Pass_report n) os (es, p1) = (es', Ok p2) ->
  exists p3 stable, remove_all (fun c => Ok (p_score c)) p2 = Ok (p3, stable) /\ round orig (taken look p) (taken look p3) /\ all_scored (taken look p3) /\ dkeys p3 = dkeys p /\ (stable = true -> same_set (taken look p) (taken look p3)).
Proof. intros Lk M HO HS R E. pose proof HO as (_ & Np & _). rewrite taken_keys in Np. assert (N1 : NoDup (dkeys p1)) by (rewrite (proj1 (recuperate_fewer _ _ _ _ _ Lk _ _ _ R)); exact Np).
  destruct (report_on_lists _ _ _ _ _ _ N1 E) as (K2 & _ & P2). unfold recuperate in R. destruct (recover m (collect new_collector orig) fns (taken look p)) as [c1|] eqn:Rc; [|discriminate]. cbn [bind] in R.
  destruct (pass_spec m M orig fns _ HO HS c1 Rc) as [Kc F]. destruct (given_get _ _ _ R) as [K1 G1]. rewrite taken_keys in Kc.
  assert (D : forall a v, dget p a = Some v -> exists w, dget p2 a = Some w /\
     (forall d, In d w -> exists d0 c, In d0 v /\ let c0 := mkCand (look (p_enc d0) a) (p_rules d0) AddScore in judged orig (taken look p) c0 c /\ given text c = Ok d) /\
     (forall d0, In d0 v -> exists d c, In d w /\ let c0 := mkCand (look (p_enc d0) a) (p_rules d0) AddScore in judged orig (taken look p) c0 c /\ given text c = Ok d)).
  { intros a v G. assert (Gt : dget (taken look p) a = Some (map (fun c => mkCand (look (p_enc c) a) (p_rules c) AddScore) v)) by (rewrite taken_get, G; reflexivity). destruct (F _ _ Gt) as (cs & Gc & J). destruct (G1 _ _ Gc) as (v1 & Gv & Gi). destruct (P2 _ _ Gv) as (w & Gw & Pm & _). exists w. split; [exact Gw|]. split.
    - intros d Hd. apply (Permutation_in _ (Permutation_sym Pm)) in Hd. destruct (forall2_in_r _ _ _ Gi d Hd) as (c & Hc & Eg). destruct (forall2_in_r _ _ _ J c Hc) as (c0 & H0 & Jc). apply in_map_iff in H0. destruct H0 as (d0 & <- & H0). exists d0, c. auto.
    - intros d0 H0. apply (in_map (fun c => mkCand (look (p_enc c) a) (p_rules c) AddScore)) in H0. destruct (forall2_in_l _ _ _ J _ H0) as (c & Hc & Jc). destruct (forall2_in_l _ _ _ Gi c Hc) as (d & Hd & Eg). exists d, c. split; [eapply Permutation_in; eassumption|]. auto. }
  assert (Kp2 : dkeys p2 = dkeys p) by congruence.
  assert (D' : forall a w, dget p2 a = Some w -> exists v, dget p a = Some v).
  { intros a w G. apply dget_some_in. rewrite <- Kp2. apply dget_some_in. eauto. }
  assert (Gv : forall c0 c d, judged orig (taken look p) c0 c -> given text c = Ok d -> score c = Ok (p_score d) /\ p_enc d = d_enc (c_inst c0) /\ p_rules d = c_scores c /\ c_inst c = c_inst c0).
  { intros c0 c d Jc Eg. unfold given in Eg. destruct (score c) as [q|]; [|discriminate]. cbn [bind] in Eg. injection Eg as <-. cbn. destruct Jc as (E1 & _). rewrite E1. auto. }
  destruct (removed_at p_score p2) as (p3 & st & Er & K3 & F3); [|rewrite Kp2; exact Np|].
  { intros a w d G Hd. destruct (D' _ _ G) as (v & Ga). destruct (D _ _ Ga) as (w' & Gw & Da & _). assert (w' = w) as -> by congruence. destruct (Da d Hd) as (d0 & c & _ & Jc & Eg). destruct (Gv _ _ _ Jc Eg) as (Sc & _). apply (judged_value _ _ _ _ _ Jc Sc). }
  exists p3, st. split; [exact Er|].
  assert (In3 : forall a v, dget p a = Some v -> exists w w3, dget p2 a = Some w /\ dget p3 a = Some w3 /\ forall d, In d w3 <-> In d w /\ survives orig (taken look p) a (look (p_enc d) a)).
  { intros a v Ga. destruct (D _ _ Ga) as (w & Gw & Da & Db). exists w. eexists. split; [exact Gw|]. split; [apply F3, Gw|].
    assert (V : forall d, In d w -> (is1 p_score d = true <-> sure orig (taken look p) (look (p_enc d) a)) /\ (~ sure orig (taken look p) (look (p_enc d) a) -> (negb (is0 p_score d) = true <-> d_ignore (look (p_enc d) a) = false /\ all_seen orig (look (p_enc d) a) /\ ~ stack_only (look (p_enc d) a)))).
    { intros d Hd. destruct (Da d Hd) as (d0 & c & _ & Jc & Eg). cbv zeta in Jc. destruct (Gv _ _ _ Jc Eg) as (Sc & Ee & _). cbn [c_inst] in Ee. rewrite (proj1 (Lk _ _)) in Ee. rewrite Ee. destruct (judged_value _ _ _ _ _ Jc Sc) as (_ & V1 & V2). cbn [c_inst] in V1, V2. unfold is1, is0. rewrite Qeq_bool_iff. split; [exact V1|].
      intros Ns. rewrite <- (V2 Ns). rewrite negb_true_iff. destruct (qeq_spec (p_score d) 0); split; intros X; try discriminate; try tauto; reflexivity. }
    assert (One : existsb (is1 p_score) w = true <-> sure_at orig (taken look p) a).
    { rewrite existsb_exists, sure_at_listed. split.
      - intros (d & Hd & E1). exists (look (p_enc d) a). apply V in E1; [|exact Hd]. split; [|exact E1]. destruct (Da d Hd) as (d0 & c & H0 & Jc & Eg). destruct (Gv _ _ _ Jc Eg) as (_ & Ee & _). cbn [c_inst] in Ee. rewrite (proj1 (Lk _ _)) in Ee. rewrite Ee. apply taken_listed. exists v, d0. auto.
      - intros (i & Li & Su). apply taken_listed in Li. destruct Li as (v' & d0 & G' & H0 & <-). assert (v' = v) as -> by congruence. destruct (Db d0 H0) as (d & c & Hd & Jc & Eg). destruct (Gv _ _ _ Jc Eg) as (_ & Ee & _). cbn [c_inst] in Ee. rewrite (proj1 (Lk _ _)) in Ee. exists d. split; [exact Hd|]. apply (V d Hd). rewrite Ee. exact Su. }
    intros d. unfold survives. destruct (existsb (is1 p_score) w) eqn:Ex; rewrite filter_In.
    - assert (S : sure_at orig (taken look p) a) by (apply One; reflexivity). split; intros [Hd X]; (split; [exact Hd|]); apply (V d Hd) || (left; split; [exact S|apply (V d Hd), X]). tauto.
    - assert (Ns : ~ sure_at orig (taken look p) a) by (intros X; apply One in X; discriminate).
      assert (Nd : forall d, In d w -> ~ sure orig (taken look p) (look (p_enc d) a)). { intros d' Hd' X. apply (V d' Hd') in X. assert (existsb (is1 p_score) w = true) by (apply existsb_exists; exists d'; auto). congruence. }
      split; intros [Hd X]; (split; [exact Hd|]); destruct (V d Hd) as [_ V2]; specialize (V2 (Nd d Hd)); tauto. }
  assert (Get3 : forall a w3, dget p3 a = Some w3 -> exists v, dget p a = Some v) by (intros a w3 G; apply dget_some_in; rewrite <- Kp2, <- K3; apply dget_some_in; eauto).
  split; [|split; [|split; [congruence|]]].
  - intros a i. rewrite !taken_listed. split.
    + intros (w3 & d & G3 & Hd & <-). destruct (Get3 _ _ G3) as (v & Ga). destruct (In3 _ _ Ga) as (w & w3' & Gw & G3' & I). assert (w3' = w3) as -> by congruence. apply I in Hd. destruct Hd as [Hd Su]. split; [|exact Su]. destruct (D _ _ Ga) as (w' & Gw' & Da & _). assert (w' = w) as -> by congruence.
      destruct (Da d Hd) as (d0 & c & H0 & Jc & Eg). destruct (Gv _ _ _ Jc Eg) as (_ & Ee & _). cbn [c_inst] in Ee. rewrite (proj1 (Lk _ _)) in Ee. exists v, d0. rewrite Ee. auto.
    + intros ((v & d0 & Ga & H0 & <-) & Su). destruct (In3 _ _ Ga) as (w & w3 & Gw & G3 & I). destruct (D _ _ Ga) as (w' & Gw' & _ & Db). assert (w' = w) as -> by congruence. destruct (Db d0 H0) as (d & c & Hd & Jc & Eg). destruct (Gv _ _ _ Jc Eg) as (_ & Ee & _). cbn [c_inst] in Ee. rewrite (proj1 (Lk _ _)) in Ee.
      exists w3, d. split; [exact G3|]. rewrite Ee. split; [|reflexivity]. apply I. rewrite Ee. auto.
  - intros a c Hc. apply taken_candidate in Hc. destruct Hc as (w3 & d & G3 & Hd & ->). destruct (Get3 _ _ G3) as (v & Ga). destruct (In3 _ _ Ga) as (w & w3' & Gw & G3' & I). assert (w3' = w3) as -> by congruence. apply I in Hd. destruct Hd as [Hd _]. destruct (D _ _ Ga) as (w' & Gw' & Da & _). assert (w' = w) as -> by congruence.
    destruct (Da d Hd) as (d0 & c & H0 & Jc & Eg). destruct (Gv _ _ _ Jc Eg) as (_ & Ee & Er' & Ei). cbn [c_inst] in Ee, Ei. rewrite (proj1 (Lk _ _)) in Ee. destruct Jc as (_ & W & _). unfold well_scored in *. cbn [c_inst c_scores c_fn]. rewrite Ee, Er'. rewrite Ei in W. destruct W as (W1 & W2 & W3). split; [|split; [exact W2|exact W3]]. intros X. split; [apply W1, X|reflexivity].
  - intros ->. destruct (remove_all_shape (fun c => Ok (p_score c)) p2) as [(p3' & st' & E' & _ & _ & St & _)|[(a & c & e & _ & X & _)|(kv & c & e & _ & _ & X & _)]]; [|discriminate|discriminate]. rewrite Er in E'. injection E' as <- <-. specialize (St eq_refl). subst p3.
    intros a i. rewrite !taken_listed. split.
    + intros (v & d0 & Ga & H0 & <-). destruct (D _ _ Ga) as (w & Gw & _ & Db). destruct (Db d0 H0) as (d & c & Hd & Jc & Eg). destruct (Gv _ _ _ Jc Eg) as (_ & Ee & _). cbn [c_inst] in Ee. rewrite (proj1 (Lk _ _)) in Ee. exists w, d. rewrite Ee. auto.
    + intros (w & d & Gw & Hd & <-). destruct (D' _ _ Gw) as (v & Ga). destruct (D _ _ Ga) as (w' & Gw' & Da & _). assert (w' = w) as -> by congruence. destruct (Da d Hd) as (d0 & c & H0 & Jc & Eg). destruct (Gv _ _ _ Jc Eg) as (_ & Ee & _). cbn [c_inst] in Ee. rewrite (proj1 (Lk _ _)) in Ee. exists v, d0. rewrite Ee. auto. Qed.

(** ** All passes *)
Lemma fewer_listed look p q : fewer p q -> forall a i, listed (taken look q) a i -> listed (taken look p) a i.
Proof. intros [_ H] a i L. apply taken_listed in L. destruct L as (w & d & G & Hd & <-). destruct (H _ _ G) as (v & Gv & I). specialize (I (p_enc d) (in_map _ _ _ Hd)). apply in_map_iff in I. destruct I as (d0 & E0 & H0). apply taken_listed. exists v, d0. rewrite E0. auto. Qed.
Lemma keep_original orig p q : has_original orig p -> dkeys q = dkeys p -> (forall o, In o orig -> listed q (d_addr o) o) -> has_original orig q.
Proof. intros (A & B & C & D) K H. split; [exact A|]. split; [rewrite K; exact B|]. split; [|rewrite K; exact D]. intros o Ho. destruct (C o Ho) as (C1 & C2 & _). split; [exact C1|]. split; [exact C2|]. apply H, Ho. Qed.
Lemma rounds_set orig k p q r : same_set p q -> rounds orig k q r -> rounds orig k p r.
Proof. intros S H. assert (X : forall q', round orig q q' -> round orig p q') by (intros q' R a i; rewrite (R a i), (S a i), (survives_set orig p q a i S); reflexivity). inversion H; subst; [constructor; apply X; assumption|eapply rounds_more; [apply X; eassumption|assumption]]. Qed.
Lemma loop_rounds text look m orig fns os fuel : looks look -> valid_model m -> forall n es p es' q k, has_original orig (taken look p) -> all_scored (taken look p) ->
  recovery_loop (recuperate text look m (collect new_collector orig) fns) os fuel n (es, p) = (es', Ok (q, k)) ->
  (forall o, In o orig -> listed (taken look q) (d_addr o) o) ->
  (exists j, rounds orig (S j) (taken look p) (taken look q)) /\ at_rest orig (taken look q) /\ has_original orig (taken look q).
Proof. intros Lk M. induction fuel as [|fuel IH]; intros n es p es' q k HO HS E Kp; [discriminate|]. cbn [recovery_loop fst snd] in E. destruct (recuperate text look m (collect new_collector orig) fns n p) as [p1|] eqn:E1; [|discriminate].
  destruct (report_on (Pass_report n) os (es, p1)) as [es2 [p2|]] eqn:E2; [|discriminate]. destruct (one_pass text look m orig fns n os es p p1 es2 p2 Lk M HO HS E1 E2) as (p3 & st & E3 & R & S3 & K3 & St). rewrite E3 in E. destruct st.
  - injection E as _ <- _. split; [exists 0%nat; constructor; exact R|]. specialize (St eq_refl). split.
    + intros a c Hc. apply (survives_set orig _ _ a (c_inst c) St). apply R. exists c. auto.
    + apply (keep_original orig (taken look p)); [exact HO|rewrite !taken_keys; exact K3|exact Kp].
  - assert (Np : NoDup (dkeys p3)) by (pose proof HO as (_ & N & _); rewrite taken_keys in N; rewrite K3; exact N).
    pose proof (loop_fewer _ _ _ (recuperate_fewer text look m (collect new_collector orig) fns Lk) _ _ _ _ _ _ Np E) as F.
    assert (HO3 : has_original orig (taken look p3)). { apply (keep_original orig (taken look p)); [exact HO|rewrite !taken_keys; exact K3|]. intros o Ho. eapply fewer_listed; [exact F|]. apply Kp, Ho. }
    destruct (IH _ _ _ _ _ _ HO3 S3 E Kp) as ((j & Rj) & Rest). split; [|exact Rest]. exists (S j). eapply rounds_more; eassumption. Qed.

Lemma report_set look e os es p es' q : NoDup (dkeys p) -> report_on e os (es, p) = (es', Ok q) -> dkeys q = dkeys p /\ same_set (taken look p) (taken look q) /\ forall a w c, dget q a = Some w -> In c w -> exists v, dget p a = Some v /\ In c v.
Proof. intros N E. destruct (report_on_lists _ _ _ _ _ _ N E) as (K & _ & H). split; [exact K|].
  assert (B : forall a w c, dget q a = Some w -> In c w -> exists v, dget p a = Some v /\ In c v). { intros a w c G I. assert (Ha : In a (dkeys p)) by (rewrite <- K; apply dget_some_in; eauto). apply dget_some_in in Ha. destruct Ha as (v & Gv). destruct (H _ _ Gv) as (w' & Gw & P & _). assert (w' = w) as -> by congruence. exists v. split; [exact Gv|]. eapply Permutation_in; [apply Permutation_sym, P|exact I]. }
  split; [|exact B]. intros a i. rewrite !taken_listed. split.
  - intros (v & d & G & Hd & Ei). destruct (H _ _ G) as (w & Gw & P & _). exists w, d. split; [exact Gw|]. split; [eapply Permutation_in; eassumption|exact Ei].
  - intros (w & d & G & Hd & Ei). destruct (B _ _ _ G Hd) as (v & Gv & Hv). exists v, d. auto. Qed.

Theorem C139_at_rest : forall text look m fns p0 cont con fuel es initial final, looks look -> valid_model m ->
  NoDup (map address (concat fns)) -> (forall i, In i (concat fns) -> d_ignore (look (encoding i) (address i)) = false /\ NoDup (d_used (look (encoding i) (address i)))) ->
  NoDup (dkeys p0) -> (forall a v c, dget p0 a = Some v -> In c v -> p_rules c = []) ->
  (forall c, p_enc (cont c) = p_enc c) -> (forall p q, con p = Ok q -> fewer p q) ->
  real_run text look m fns (Ok p0) cont con fuel = (es, Ok (initial, final)) ->
  let orig := true_program look (fst (functions_to_list fns)) in
  exists n rest original program, rounds orig (S n) (taken look p0) rest /\ at_rest orig rest /\ has_original orig rest /\ read final = Ok (original, program) /\
    forall i, In i (concat fns) -> dget original (address i) = Some [i] /\
      exists l, dget program (address i) = Some (l ++ [i]) /\
        forall c, In c l -> address c = address i /\ encoding c <> encoding i /\ listed rest (address i) (look (encoding c) (address i)).
Proof. intros text look m fns p0 cont con fuel es initial final Lk M Na Hi0 N0 Hr Cf Kf E orig. unfold real_run in E. change (functions_to_list fns) with (sorted_insts fns, snd (functions_to_list fns)) in E. cbv beta iota in E. set (table := snd (functions_to_list fns)) in *. clearbody table.
  change (fst (functions_to_list fns)) with (sorted_insts fns) in orig. fold orig in E. pose proof (sorted_nodup fns Na) as Ns.
  pose proof (recuperate_fewer text look m (collect new_collector orig) table Lk) as Rf. set (rec := recuperate text look m (collect new_collector orig) table) in *.
  destruct (C137_final_solution text (sorted_insts fns) (Ok p0) rec cont con fuel es initial final Ns ltac:(intros x X; injection X as <-; exact N0) Rf Cf Kf E) as (q0 & q3 & q4 & og & pg & E0 & Ec & _ & Rd & Kk & _ & _ & B). injection E0 as <-.
  unfold run_files in E. set (os := map (original text) (sorted_insts fns)) in *.
  destruct (report_on Corrupted_report os ([], p0)) as [es1 [p1|]] eqn:E1; [|discriminate]. destruct (save (sorted_insts fns) p1) as [f1|] eqn:S1; [|discriminate].
  destruct (recovery_loop rec os fuel 1 (es1 ++ [Initial_solution], p1)) as [es2 [[p2 n]|]] eqn:E2; [|discriminate].
  destruct (report_on (Pass_report (n + 1)) os (es2, map (fun kv : Z * list pcand => (fst kv, map cont (snd kv))) p2)) as [es3 [p3|]] eqn:E3; [|discriminate]. destruct (con p3) as [p4|] eqn:E4; [|discriminate].
  destruct (report_on (Pass_report (n + 2)) os (es3, p4)) as [es4 [p5|]] eqn:E5; [|discriminate]. destruct (save (sorted_insts fns) p5) as [f2|] eqn:S5; [|discriminate]. injection E as _ <- <-.
  destruct (report_set look _ _ _ _ _ _ N0 E1) as (K1 & Set1 & Sub1). assert (N1 : NoDup (dkeys p1)) by (rewrite K1; exact N0).
  pose proof (loop_fewer rec os fuel Rf _ _ _ _ _ _ N1 E2) as F2. assert (N2 : NoDup (dkeys p2)) by (rewrite (proj1 F2); exact N1).
  pose proof (continuous_fewer cont p2 Cf) as F2'. set (p2' := map (fun kv : Z * list pcand => (fst kv, map cont (snd kv))) p2) in *. assert (N2' : NoDup (dkeys p2')) by (rewrite (proj1 F2'); exact N2).
  pose proof (report_fewer _ _ _ _ _ _ N2' E3) as F3. assert (N3 : NoDup (dkeys p3)) by (rewrite (proj1 F3); exact N2').
  pose proof (Kf _ _ E4) as F4. assert (N4 : NoDup (dkeys p4)) by (rewrite (proj1 F4); exact N3). pose proof (report_fewer _ _ _ _ _ _ N4 E5) as F5.
  assert (F25 : fewer p2 p5) by (eapply fewer_trans; [exact F2'|]; eapply fewer_trans; [exact F3|]; eapply fewer_trans; [exact F4|exact F5]). assert (N5 : NoDup (dkeys p5)) by (rewrite (proj1 F5); exact N4).
  destruct (save_back (sorted_insts fns) p5 f2 Ns N5 S5) as (og' & pg' & Rd' & _ & _ & B5). assert (og' = og /\ pg' = pg) as [-> ->] by (split; congruence).
  assert (Own : forall i j, In i (sorted_insts fns) -> In j (sorted_insts fns) -> address i = address j -> i = j).
  { clear - Ns. induction (sorted_insts fns) as [|x l IH]; intros i j Hi Hj E; [destruct Hi|]. cbn [map] in Ns. inversion Ns as [|? ? A A']; subst. destruct Hi as [<-|Hi], Hj as [<-|Hj]; [reflexivity| | |apply IH; assumption]; exfalso; apply A; [rewrite E|rewrite <- E]; apply in_map; assumption. }
  assert (At5 : forall i, In i (sorted_insts fns) -> exists w, dget p5 (address i) = Some w /\ exists pre c post, w = pre ++ c :: post /\ p_enc c = encoding i /\ (forall d, In d pre -> p_enc d <> encoding i) /\ dget pg (address i) = Some (map (fun d => (p_enc d, address i)) pre ++ [i])).
  { intros i Hi. assert (Ha : In (address i) (dkeys p5)). { rewrite (proj1 F25), (proj1 F2), K1. apply Kk, in_map, Hi. } apply dget_some_in in Ha. destruct Ha as (w & Gw). exists w. split; [exact Gw|]. destruct (B5 _ _ Gw) as (j & pre & c & post & Hj & Ej & _ & Ew & Ee & Pre & Gp). assert (j = i) as -> by (apply Own; assumption). exists pre, c, post. auto. }
  assert (Kept : forall o, In o orig -> listed (taken look p5) (d_addr o) o).
  { intros o Ho. unfold orig, true_program in Ho. apply in_map_iff in Ho. destruct Ho as (i & <- & Hi). rewrite (proj2 (Lk _ _)). destruct (At5 i Hi) as (w & Gw & pre & c & post & -> & Ee & _). apply taken_listed. exists (pre ++ c :: post), c. split; [exact Gw|]. split; [apply in_app_iff; right; left; reflexivity|]. rewrite Ee. reflexivity. }
  assert (HS1 : all_scored (taken look p1)).
  { intros a c Hc. apply taken_candidate in Hc. destruct Hc as (v & d & G & Hd & ->). destruct (Sub1 _ _ _ G Hd) as (v0 & G0 & H0). rewrite (Hr _ _ _ G0 H0). apply fresh_scored. }
  assert (HO1 : has_original orig (taken look p1)).
  { split; [|split; [rewrite taken_keys; exact N1|split]].
    - unfold orig, true_program. rewrite map_map. erewrite map_ext; [exact Ns|]. intros i. apply Lk.
    - intros o Ho. pose proof (Kept o Ho) as Lo. pose proof Ho as Ho'. unfold orig, true_program in Ho'. apply in_map_iff in Ho'. destruct Ho' as (i & <- & Hi). destruct (Hi0 i) as [A1 A2]; [apply sorted_in, Hi|]. split; [exact A1|]. split; [exact A2|]. eapply fewer_listed; [eapply fewer_trans; [exact F2|exact F25]|exact Lo].
    - intros a Ha. rewrite taken_keys, K1 in Ha. apply Kk, in_map_iff in Ha. destruct Ha as (i & <- & Hi). exists (look (encoding i) (address i)). split; [apply (in_map (fun i => look (encoding i) (address i))), Hi|apply Lk]. }
  destruct (loop_rounds text look m orig table os fuel Lk M _ _ _ _ _ _ HO1 HS1 E2) as ((j & Rj) & Rest & HO2); [intros o Ho; eapply fewer_listed; [exact F25|apply Kept, Ho]|].
  exists j, (taken look p2), og, pg. split; [eapply rounds_set; [exact Set1|exact Rj]|]. split; [exact Rest|]. split; [exact HO2|]. split; [exact Rd|].
  intros i Hi. apply sorted_in in Hi. destruct (B i Hi) as (Go & _). split; [exact Go|]. destruct (At5 i Hi) as (w & Gw & pre & c & post & Ew & Ee & Pre & Gp). eexists. split; [exact Gp|]. intros x Hx. apply in_map_iff in Hx. destruct Hx as (d & <- & Hd). split; [reflexivity|]. split; [exact (Pre d Hd)|].
  eapply fewer_listed; [exact F25|]. apply taken_listed. exists w, d. split; [exact Gw|]. split; [rewrite Ew; apply in_app_iff; left; exact Hd|reflexivity]. Qed.
Print Assumptions C139_at_rest.

(** When every original is without doubt at the start, only candidates without doubt
    are left with it in the final file. *)
Theorem C139_settled : forall text look m fns p0 cont con fuel es initial final, looks look -> valid_model m ->
  NoDup (map address (concat fns)) -> (forall i, In i (concat fns) -> d_ignore (look (encoding i) (address i)) = false /\ NoDup (d_used (look (encoding i) (address i)))) ->
  NoDup (dkeys p0) -> (forall a v c, dget p0 a = Some v -> In c v -> p_rules c = []) ->
  (forall c, p_enc (cont c) = p_enc c) -> (forall p q, con p = Ok q -> fewer p q) ->
  let orig := true_program look (fst (functions_to_list fns)) in
  (forall o, In o orig -> settled orig (taken look p0) o) ->
  real_run text look m fns (Ok p0) cont con fuel = (es, Ok (initial, final)) ->
  exists original program, read final = Ok (original, program) /\
    forall i, In i (concat fns) -> exists l, dget program (address i) = Some (l ++ [i]) /\
      forall c, In c l -> listed (taken look p0) (address i) (look (encoding c) (address i)) /\ sure orig (taken look p0) (look (encoding c) (address i)).
Proof. intros text look m fns p0 cont con fuel es initial final Lk M Na Hi0 N0 Hr Cf Kf orig Se E. destruct (C139_at_rest _ _ _ _ _ _ _ _ _ _ _ Lk M Na Hi0 N0 Hr Cf Kf E) as (n & rest & og & pg & R & _ & (_ & _ & HO & _) & Rd & B). fold orig in R, HO. exists og, pg. split; [exact Rd|].
  intros i Hi. destruct (B i Hi) as (_ & l & Gl & Hl). exists l. split; [exact Gl|]. intros c Hc. destruct (Hl c Hc) as (_ & _ & L).
  assert (Ho : In (look (encoding i) (address i)) orig) by (apply (in_map (fun i => look (encoding i) (address i))), sorted_in, Hi).
  assert (Lo : listed rest (address i) (look (encoding i) (address i))). { destruct (HO _ Ho) as (_ & _ & X). rewrite (proj2 (Lk _ _)) in X. exact X. }
  assert (Dec : forall k p q, rounds orig k p q -> forall a j, listed q a j -> listed p a j). { clear. induction 1 as [p q R|k p p1 q R H IH]; intros a j L; [apply R, L|]. apply IH in L. apply R, L. }
  assert (First : exists p1, round orig (taken look p0) p1 /\ listed p1 (address i) (look (encoding c) (address i)) /\ listed p1 (address i) (look (encoding i) (address i))).
  { inversion R as [? ? R1|? ? p1 ? R1 R2]; subst; [exists rest; auto|]. exists p1. split; [exact R1|]. split; eapply Dec; eassumption. }
  destruct First as (p1 & R1 & L1 & L2). apply R1 in L1, L2. destruct L1 as [L1 S1], L2 as [L2 _]. split; [exact L1|].
  destruct S1 as [[_ S1]|[S1 _]]; [exact S1|]. exfalso. apply S1. apply sure_at_listed. exists (look (encoding i) (address i)). split; [exact L2|]. split; [apply (Hi0 i Hi)|]. split; [apply original_seen, Ho|apply Se, Ho]. Qed.
Print Assumptions C139_settled.

(** A toy decoder: condition and opcode from their fields, one register from bits 4 to
    7, the 0x1a... words are branches.  Bits 4 and 5 of every word are lost. *)
Definition ex_look (e a : Z) : dinst :=
  let r := (e / 16) mod 16 in
  mkD e a false (e / 2 ^ 28) ((e / 2 ^ 20) mod 256) [r] [r] [] [r] [] ((e / 2 ^ 20) mod 256 =? 0xaf) KOther (Some 0x1000).
Definition ex_corrupt : cprog :=
  match rmap (map (fun kv => (fst kv, map (InitialModel.fresh (fun e _ => e)) (snd kv)))) (PacketModel.packet_corrupt 16 2 3 (zrange 0 16) [2] (to_corrupt (fst (functions_to_list ex_fns)))) with Ok p => p | Err _ => [] end.
Lemma ex_all (P : Z -> pcand -> Prop) : Forall (fun kv => Forall (P (fst kv)) (snd kv)) ex_corrupt -> forall a v c, dget ex_corrupt a = Some v -> In c v -> P a c.
Proof. intros F a v c G I. rewrite Forall_forall in F. specialize (F _ (dget_in _ _ _ G)). cbn [fst snd] in F. rewrite Forall_forall in F. apply F, I. Qed.
Example C139_example : looks ex_look /\ valid_model default_model /\ NoDup (map address (concat ex_fns)) /\ NoDup (dkeys ex_corrupt) /\
  (forall i, In i (concat ex_fns) -> d_ignore (ex_look (encoding i) (address i)) = false /\ NoDup (d_used (ex_look (encoding i) (address i)))) /\
  (forall a v c, dget ex_corrupt a = Some v -> In c v -> p_rules c = []) /\
  (let orig := true_program ex_look (fst (functions_to_list ex_fns)) in forall o, In o orig -> settled orig (taken ex_look ex_corrupt) o) /\
  map (fun kv => length (snd kv)) ex_corrupt = [4; 4; 4]%nat /\
  exists initial final, real_run (fun e _ => e) ex_look default_model ex_fns (Ok ex_corrupt) (fun c => c) (fun p => Ok p) 5 =
    ([Corrupted_report; Initial_solution; Pass_report 1; Pass_report 2; Pass_report 3; Pass_report 4; Final_solution], Ok (initial, final)) /\
    map (fun kv => map encoding (snd kv)) (match read final with Ok (_, p) => p | Err _ => [] end) = [[0xe5901000]; [0xe1a00000]; [0x1affffc7; 0x1affffd7; 0x1affffe7; 0x1afffff7]].
Proof. split; [intros e a; split; reflexivity|]. split; [exact default_valid|]. split; [nodup|]. split; [nodup|]. split; [|split; [|split; [|split]]].
  - intros i _. split; [reflexivity|]. repeat constructor. intros [].
  - apply ex_all. vm_compute. repeat constructor.
  - intros orig o Ho. left. intros a c Hc _ Fc o' Ho' Ea. apply taken_candidate in Hc. destruct Hc as (v & d & G & Hd & ->).
    assert (Z : forall o', In o' orig -> d_addr o' = a -> d_cond o' = d_cond (ex_look (p_enc d) a)); [|unfold same_cond in *; rewrite (Z o' Ho' Ea); exact Fc].
    revert a v d G Hd Ea Fc. intros a v d G Hd _ _. apply (ex_all (fun a d => forall o', In o' orig -> d_addr o' = a -> d_cond o' = d_cond (ex_look (p_enc d) a))) with (v := v); [|exact G|exact Hd].
    clear. let c := eval vm_compute in ex_corrupt in change ex_corrupt with c. let c := eval vm_compute in orig in change orig with c.
    repeat constructor; intros o' [<-|[<-|[<-|[]]]] E; vm_compute in E; try discriminate; reflexivity.
  - vm_compute. reflexivity.
  - do 2 eexists. split; vm_compute; reflexivity. Qed.
