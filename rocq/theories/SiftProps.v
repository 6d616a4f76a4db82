(** C138: what the passes of the recovery leave, candidate by candidate. *)
From Verif Require Import ListLemmas FlipModel FlipProofs InstModel MetaModel MetaSpec MetaProofs RecModel RecSpec RecProofs RecProofs2 RecProofs3 RecProofs4 RemoveProofs RecProps SiftSpec.
From Coq Require Import ZifyBool ZifyNat Lqa.

Lemma possible_dec orig f : possible orig f \/ ~ possible orig f.
Proof. destruct (existsb f orig) eqn:E; [left; apply existsb_exists in E; exact E|right; intros X; apply existsb_exists in X; congruence]. Qed.
Lemma all_possible_dec orig l : (forall r, In r l -> possible orig (uses r)) \/ ~ (forall r, In r l -> possible orig (uses r)).
Proof. induction l as [|x l [IH|IH]]; [left; intros r []| |right; intros X; apply IH; intros; apply X; right; assumption].
  destruct (possible_dec orig (uses x)) as [D|D]; [left; intros r [<-|I]; auto|right; intros X; apply D, X; left; reflexivity]. Qed.
Lemma all_seen_dec orig i : all_seen orig i \/ ~ all_seen orig i.
Proof. unfold all_seen. destruct (possible_dec orig (same_cond i)) as [A|A]; [|tauto]. destruct (possible_dec orig (same_op i)) as [B|B]; [|tauto].
  destruct (d_branch i); [left; split; [exact A|split; [exact B|discriminate]]|]. destruct (pushpop i); [left; split; [exact A|split; [exact B|discriminate]]|].
  destruct (all_possible_dec orig (d_used i)) as [C|C]; [left; auto|right; intros (_ & _ & X); apply C; auto]. Qed.
Lemma stack_only_dec i : stack_only i \/ ~ stack_only i.
Proof. unfold stack_only. destruct (d_branch i), (pushpop i); intuition discriminate. Qed.

Lemma sifted_filter (P : dinst -> Prop) (f : cand -> bool) cs1 : (forall c, In c cs1 -> (f c = true <-> P (c_inst c))) -> sifted P (map c_inst cs1) (map c_inst (filter f cs1)).
Proof. induction cs1 as [|c cs1 IH]; intros H; [constructor|]. cbn [map filter]. assert (Hc : f c = true <-> P (c_inst c)) by (apply H; left; reflexivity).
  assert (IH' : sifted P (map c_inst cs1) (map c_inst (filter f cs1))) by (apply IH; intros; apply H; right; assumption).
  destruct (f c); [cbn [map]; constructor; [tauto|exact IH']|apply sift_out; [|exact IH']; intros X; apply Hc in X; discriminate]. Qed.
Lemma judged_insts orig p cs cs1 : Forall2 (judged orig p) cs cs1 -> map c_inst cs1 = map c_inst cs.
Proof. induction 1 as [|c c1 cs cs1 J F IH]; [reflexivity|]. cbn [map]. destruct J as [-> _]. rewrite IH. reflexivity. Qed.
Lemma candidate_sub (p p' : cprogram) : shrunk p p' -> NoDup (dkeys p) -> forall a c, candidate p' a c -> candidate p a c.
Proof. unfold shrunk. induction 1 as [|[k v] [k' v'] p p' [E S] H IH]; intros N a c (cs & G & I); [discriminate|]. cbn [fst snd] in *. subst k'. cbn in N. inversion N as [|? ? Nk N']; subst. cbn in G. unfold candidate. cbn.
  destruct (a =? k) eqn:Ek.
  - injection G as <-. exists v. split; [reflexivity|]. eapply subseq_in; eassumption.
  - apply IH; [exact N'|]. exists cs. auto. Qed.

Theorem C138_pass : forall m orig fns p p1, valid_model m -> has_original orig p -> all_scored p ->
  recover m (collect new_collector orig) fns p = Ok p1 ->
  exists p2 stable, remove_all score p1 = Ok (p2, stable) /\ sieve orig p p2 /\ (stable = true <-> same_insts p p2) /\ all_scored p2.
Proof. intros m orig fns p p1 M HO HS H. destruct (pass_spec m M orig fns p HO HS p1 H) as [K F]. destruct (C38_scores m orig fns p p1 M HO HS H) as (S & (_ & N1 & _) & S1).
  destruct (remove_all_at p1) as (p2 & st & E & K2 & F2); [intros a c Hc; apply (S a c Hc)|exact N1|].
  exists p2, st. split; [exact E|]. pose proof (recover_labels _ _ _ _ _ H) as L.
  destruct (remove_all_shape score p1) as [(p2' & st' & E' & Sh & _ & St & Sf)|[(a & c & e & _ & _ & E')|(kv & c & e & _ & _ & _ & E')]]; [|congruence|congruence].
  rewrite E in E'. injection E' as <- <-. split; [|split].
  - split; [congruence|]. intros a cs G. destruct (F _ _ G) as (cs1 & G1 & J). specialize (F2 _ _ G1). eexists. split; [exact F2|]. rewrite <- (judged_insts _ _ _ _ J).
    assert (V : forall c, In c cs1 -> prob (value c) /\ (is1 value c = true <-> sure orig p (c_inst c)) /\ (~ sure orig p (c_inst c) -> (negb (is0 value c) = true <-> d_ignore (c_inst c) = false /\ all_seen orig (c_inst c) /\ ~ stack_only (c_inst c)))).
    { intros c Hc. destruct (forall2_in_r _ _ _ J c Hc) as (c00 & I00 & J1 & _ & _ & q & J2 & J3 & J4 & J5). assert (Vq : value c = q) by (unfold value; rewrite J2; reflexivity). unfold is1, is0. rewrite Vq, J1. split; [exact J3|].
      unfold sure. rewrite Qeq_bool_iff. destruct (d_ignore (c_inst c00)) eqn:Ig.
      - rewrite (J4 eq_refl). split; [split; [intros X; discriminate|intros (X & _); discriminate]|]. intros _. split; [intros X; discriminate|intros (X & _); discriminate].
      - destruct (J5 eq_refl) as (_ & Q1 & Q0). split; [rewrite Q1; tauto|]. intros Ns. rewrite negb_true_iff. destruct (qeq_spec q 0) as [Z|Z].
        + apply Q0 in Z. split; [intros X; discriminate|tauto].
        + split; [|reflexivity]. intros _. split; [reflexivity|]. destruct (all_seen_dec orig (c_inst c00)) as [A|A]; [|exfalso; apply Z, Q0; left; exact A]. split; [exact A|].
          intros X. apply Z, Q0. right. split; [exact X|]. intros Y. apply Ns. auto. }
    assert (One : existsb (is1 value) cs1 = true <-> sure_at orig p a).
    { rewrite existsb_exists. split.
      - intros (c & Hc & E1). destruct (V c Hc) as (_ & V1 & _). apply V1 in E1. destruct (forall2_in_r _ _ _ J c Hc) as (c00 & I00 & J1 & _). exists c00. split; [exists cs; auto|]. rewrite <- J1. exact E1.
      - intros (c00 & (cs' & G' & I') & Su). assert (cs' = cs) as -> by congruence. destruct (forall2_in_l _ _ _ J c00 I') as (c & I1 & J1 & _). exists c. split; [exact I1|]. apply (V c I1). rewrite J1. exact Su. }
    destruct (existsb (is1 value) cs1) eqn:Ex.
    + apply sifted_filter. intros c Hc. destruct (V c Hc) as (_ & V1 & _). rewrite V1. unfold survives. assert (sure_at orig p a) by (apply One; reflexivity). tauto.
    + apply sifted_filter. intros c Hc. destruct (V c Hc) as (_ & V1 & V2). assert (Ns : ~ sure_at orig p a) by (intros X; apply One in X; discriminate).
      assert (Nc : ~ sure orig p (c_inst c)). { intros X. assert (existsb (is1 value) cs1 = true); [|congruence]. apply existsb_exists. exists c. split; [exact Hc|]. apply V1, X. }
      rewrite (V2 Nc). unfold survives. tauto.
  - unfold same_insts. fold (labels c_inst p2) (labels c_inst p). split; [intros X; rewrite (St X); exact L|]. intros X. destruct st; [reflexivity|]. specialize (Sf eq_refl).
    rewrite <- L in X. apply (f_equal total) in X. rewrite !total_labels in X. lia.
  - intros a c Hc. apply (S1 a c). eapply candidate_sub; eassumption. Qed.
Print Assumptions C138_pass.

Lemma sifted_in {A} (P : A -> Prop) l l' : sifted P l l' -> forall a, In a l' <-> In a l /\ P a.
Proof. induction 1 as [|b l l' Pb S IH|b l l' Pb S IH]; intros a; [cbn; tauto| |]; cbn [In]; rewrite IH; intuition (subst; tauto). Qed.
Lemma sifted_length {A} (P : A -> Prop) l l' : sifted P l l' -> (length l' <= length l)%nat /\ (length l' = length l -> Forall P l').
Proof. induction 1 as [|b l l' Pb S [IH1 IH2]|b l l' Pb S [IH1 IH2]]; cbn [length]; [split; [lia|constructor]| |split; lia].
  split; [lia|]. intros E. constructor; [exact Pb|apply IH2; lia]. Qed.
Lemma sifted_weaken {A} (P Q : A -> Prop) l l' : (forall a, In a l -> (P a <-> Q a)) -> sifted P l l' -> sifted Q l l'.
Proof. intros H S. induction S as [|b l l' Pb S IH|b l l' Pb S IH]; constructor; try (apply IH; intros; apply H; right; assumption);
  [apply H; [left; reflexivity|exact Pb]|intros X; apply Pb, H; [left; reflexivity|exact X]]. Qed.

(** Same instructions: same everything. *)
Lemma same_get p p' : same_insts p p' -> forall a, option_map (map c_inst) (dget p' a) = option_map (map c_inst) (dget p a).
Proof. unfold same_insts. revert p'. induction p as [|[k v] p IH]; intros [|[k' v'] p'] E a; try discriminate; [reflexivity|]. cbn in E. injection E as -> Ev E. cbn. destruct (a =? k); [cbn; rewrite Ev; reflexivity|apply IH, E]. Qed.
Lemma same_sym p p' : same_insts p p' -> same_insts p' p.
Proof. unfold same_insts. congruence. Qed.
Lemma same_candidate p p' : same_insts p p' -> forall a i, (exists c, candidate p a c /\ c_inst c = i) -> exists c, candidate p' a c /\ c_inst c = i.
Proof. intros S a i (c & (cs & G & I) & E). pose proof (same_get _ _ S a) as X. rewrite G in X. destruct (dget p' a) as [cs'|] eqn:G'; [|discriminate]. cbn in X. injection X as X.
  apply (in_map c_inst) in I. rewrite E, <- X in I. apply in_map_iff in I. destruct I as (c' & E' & I'). exists c'. split; [exists cs'; auto|exact E']. Qed.
Definition fewer_insts (p p' : cprogram) : Prop := forall a c', candidate p' a c' -> exists c, candidate p a c /\ c_inst c = c_inst c'.
Lemma certain_fewer orig p p' f : fewer_insts p p' -> certain orig p f -> certain orig p' f.
Proof. intros S C a c Hc Ig Fc. destruct (S a c Hc) as (c0 & H0 & E0). rewrite <- E0 in *. apply (C a c0); assumption. Qed.
Lemma settled_fewer orig p p' i : fewer_insts p p' -> settled orig p i -> settled orig p' i.
Proof. intros S [C|[C|(A & B & C)]]; [left|right; left|right; right; split; [exact A|split; [exact B|intros r Hr; specialize (C r Hr)]]]; eapply certain_fewer; eassumption. Qed.
Lemma sure_fewer orig p p' i : fewer_insts p p' -> sure orig p i -> sure orig p' i.
Proof. intros S (A & B & C). split; [exact A|]. split; [exact B|]. eapply settled_fewer; eassumption. Qed.
Lemma same_fewer p p' : same_insts p p' -> fewer_insts p p'.
Proof. intros S a c' Hc. apply (same_candidate p' p (same_sym _ _ S)). exists c'. auto. Qed.
Lemma survives_same orig p p' a i : same_insts p p' -> survives orig p a i <-> survives orig p' a i.
Proof. intros S. assert (X : forall q q', same_insts q q' -> sure_at orig q a -> sure_at orig q' a).
  { intros q q' S' (c & Hc & Su). destruct (same_candidate _ _ S' a (c_inst c)) as (c' & Hc' & E'); [exists c; auto|]. exists c'. split; [exact Hc'|]. rewrite E'. apply (sure_fewer _ q); [apply same_fewer, S'|exact Su]. }
  pose proof (X p p' S) as X1. pose proof (X p' p (same_sym _ _ S)) as X2.
  pose proof (sure_fewer orig p p' i (same_fewer _ _ S)) as Y1. pose proof (sure_fewer orig p' p i (same_fewer _ _ (same_sym _ _ S))) as Y2. unfold survives. tauto. Qed.

(** What a sieve keeps. *)
Lemma sieve_candidate orig p p' : sieve orig p p' -> forall a i, (exists c', candidate p' a c' /\ c_inst c' = i) <-> (exists c, candidate p a c /\ c_inst c = i) /\ survives orig p a i.
Proof. intros [K F] a i. split.
  - intros (c' & (cs' & G' & I') & E'). assert (Ha : In a (dkeys p)) by (rewrite <- K; apply dget_some_in; eauto). apply dget_some_in in Ha. destruct Ha as (cs & G). destruct (F _ _ G) as (cs2 & G2 & S). assert (cs2 = cs') as -> by congruence.
    apply (in_map c_inst) in I'. rewrite E' in I'. apply (sifted_in _ _ _ S) in I'. destruct I' as [I' P]. split; [|exact P]. apply in_map_iff in I'. destruct I' as (c & E & I). exists c. split; [exists cs; auto|exact E].
  - intros ((c & (cs & G & I) & E) & P). destruct (F _ _ G) as (cs' & G' & S). apply (in_map c_inst) in I. rewrite E in I. assert (I' : In i (map c_inst cs')) by (apply (sifted_in _ _ _ S); auto).
    apply in_map_iff in I'. destruct I' as (c' & E' & I'). exists c'. split; [exists cs'; auto|exact E']. Qed.
Lemma sieve_fewer orig p p' : sieve orig p p' -> fewer_insts p p'.
Proof. intros S a c' Hc. apply (sieve_candidate _ _ _ S a (c_inst c')). exists c'. auto. Qed.
Lemma fewer_trans p q r : fewer_insts p q -> fewer_insts q r -> fewer_insts p r.
Proof. intros A B a c Hc. destruct (B a c Hc) as (c1 & H1 & E1). destruct (A a c1 H1) as (c2 & H2 & E2). exists c2. split; [exact H2|congruence]. Qed.

Lemma sieve_original orig p p' : has_original orig p -> sieve orig p p' -> (forall o, In o orig -> kept_original p' o) -> has_original orig p'.
Proof. intros (A & B & C & D) [K _] H. split; [exact A|]. split; [rewrite K; exact B|]. split; [|rewrite K; exact D]. intros o Ho. destruct (C o Ho) as (C1 & C2 & _). split; [exact C1|]. split; [exact C2|]. apply H, Ho. Qed.

Lemma shrunk_dget {B} (q q' : dict (list B)) : shrunk q q' -> forall a l', dget q' a = Some l' -> exists l, dget q a = Some l /\ subseq l' l.
Proof. induction 1 as [|[k v] [k' v'] q q' [E S] H IH]; intros a l' G; [discriminate|]. cbn [fst snd] in *. subst k'. cbn in *. destruct (a =? k); [injection G as <-; exists v; auto|apply IH, G]. Qed.
Lemma dget_labels (p : cprogram) a : dget (labels c_inst p) a = option_map (map c_inst) (dget p a).
Proof. induction p as [|[k v] p IH]; [reflexivity|]. cbn. destruct (a =? k); [reflexivity|exact IH]. Qed.
Lemma shrunk_fewer p p' : shrunk (labels c_inst p) (labels c_inst p') -> fewer_insts p p'.
Proof. intros S a c' (cs' & G' & I'). destruct (shrunk_dget _ _ S a (map c_inst cs')) as (l & G & Sb); [rewrite dget_labels, G'; reflexivity|]. rewrite dget_labels in G.
  destruct (dget p a) as [cs|] eqn:G0; [|discriminate]. cbn in G. injection G as <-. apply (in_map c_inst) in I'. apply (subseq_in _ _ Sb) in I'. apply in_map_iff in I'. destruct I' as (c & E & I). exists c. split; [exists cs; auto|exact E]. Qed.
Lemma passes_fewer m col fns fuel n p p' n' : (total p < fuel)%nat -> passes score (fun _ => recover m col fns) fuel n p = Ok (p', n') -> fewer_insts p p' /\ (n <= n')%nat.
Proof. intros F H. destruct (passes_spec c_inst score (fun _ => recover m col fns)) with (fuel := fuel) (n := n) (p := p) as [_ X]; [apply nf_score|intros _; apply nf_recover|intros _; apply recover_labels|exact F|].
  destruct (X p' n' H) as [X1 X2]. split; [apply shrunk_fewer, X1|lia]. Qed.

(** The state a run stops in: nothing more falls through the sieve. *)
Definition at_rest (orig : list dinst) (p : cprogram) : Prop := forall a c, candidate p a c -> survives orig p a (c_inst c).
Theorem C138_run : forall m orig fns p p' n, valid_model m -> has_original orig p -> all_scored p ->
  passes score (fun _ => recover m (collect new_collector orig) fns) (S (total p)) 0 p = Ok (p', n) ->
  (forall o, In o orig -> kept_original p' o) ->
  sieves orig (S n) p p' /\ at_rest orig p' /\ has_original orig p'.
Proof. intros m orig fns p p' n M HO HS. assert (F : (total p < S (total p))%nat) by lia. replace (S n) with (S (n - 0)) by lia. revert HO HS F. generalize (S (total p)) as fuel. generalize 0%nat as k. intros k fuel. revert k p. 
  induction fuel as [|fuel IH]; intros k p HO HS F H Kp; [discriminate|]. pose proof H as H0. apply passes_fewer in H0; [|exact F]. destruct H0 as [_ Hk]. cbn [passes] in H.
  destruct (recover m (collect new_collector orig) fns p) as [p1|] eqn:R; [|discriminate]. cbn [bind] in H. destruct (C138_pass m orig fns p p1 M HO HS R) as (p2 & st & E & Sv & St & S2). rewrite E in H. cbn [bind] in H.
  destruct st.
  - injection H as <- <-. rewrite Nat.sub_diag. split; [constructor; exact Sv|]. destruct (proj1 St eq_refl). assert (Sm : same_insts p p2) by (apply St; reflexivity). split; [|eapply sieve_original; eassumption].
    intros a c Hc. apply (survives_same orig p p2); [exact Sm|]. apply (sieve_candidate _ _ _ Sv a (c_inst c)). exists c. auto.
  - assert (T2 : (total p2 < total p)%nat).
    { destruct (remove_all_shape score p1) as [(p2' & st' & E' & _ & _ & _ & Sf)|[(a & c & e & _ & _ & E')|(kv & c & e & _ & _ & _ & E')]]; [|congruence|congruence]. rewrite E in E'. injection E' as <- <-. specialize (Sf eq_refl).
      pose proof (recover_labels _ _ _ _ _ R) as L. apply (f_equal total) in L. rewrite !total_labels in L. lia. }
    assert (F2 : (total p2 < fuel)%nat) by lia. destruct (passes_fewer _ _ _ _ _ _ _ _ F2 H) as [Fw Hk2].
    assert (HO2 : has_original orig p2). { eapply sieve_original; [exact HO|exact Sv|]. intros o Ho. destruct (Kp o Ho) as (c & Hc & Ec). destruct (Fw _ _ Hc) as (c2 & H2 & E2). exists c2. split; [exact H2|congruence]. }
    destruct (IH (S k) p2 HO2 S2 F2 H Kp) as [A B]. split; [|exact B]. replace (S (n - k)) with (S (S (n - S k))) by lia. eapply sieves_more; [exact Sv|exact A]. Qed.
Print Assumptions C138_run.

(** When every original is without doubt, two passes settle it: the true program
    stays, with the other candidates that are without doubt, and nothing else. *)
Theorem C138_settled : forall m orig fns p p' n, valid_model m -> has_original orig p -> all_scored p ->
  (forall o, In o orig -> settled orig p o) ->
  passes score (fun _ => recover m (collect new_collector orig) fns) (S (total p)) 0 p = Ok (p', n) ->
  (n <= 1)%nat /\ dkeys p' = dkeys p /\ (forall o, In o orig -> kept_original p' o) /\
  forall a cs, dget p a = Some cs -> exists cs', dget p' a = Some cs' /\ sifted (sure orig p) (map c_inst cs) (map c_inst cs').
Proof. intros m orig fns p p' n M HO HS Se H.
  assert (At : forall q, has_original orig q -> (forall o, In o orig -> settled orig q o) -> forall a, In a (dkeys q) -> sure_at orig q a).
  { intros q (_ & _ & A & B) S a Ha. destruct (B a Ha) as (o & Ho & <-). destruct (A o Ho) as (Ig & _ & c & Hc & Ec). exists c. split; [exact Hc|]. rewrite Ec. split; [exact Ig|]. split; [apply original_seen, Ho|apply S, Ho]. }
  assert (Kept : forall q q', has_original orig q -> (forall o, In o orig -> settled orig q o) -> sieve orig q q' -> forall o, In o orig -> kept_original q' o).
  { intros q q' HQ S Sv o Ho. pose proof HQ as (_ & _ & A & _). destruct (A o Ho) as (Ig & _ & c & Hc & Ec). apply (sieve_candidate _ _ _ Sv (d_addr o) o). split; [exists c; auto|]. left. split.
    - apply (At q HQ S). destruct Hc as (cs & G & _). apply dget_some_in. eauto.
    - split; [exact Ig|]. split; [apply original_seen, Ho|apply S, Ho]. }
  cbn [passes] in H. destruct (recover m (collect new_collector orig) fns p) as [p1|] eqn:R; [|discriminate]. cbn [bind] in H. destruct (C138_pass m orig fns p p1 M HO HS R) as (p2 & st & E & Sv & St & S2). rewrite E in H. cbn [bind] in H.
  assert (Goal2 : dkeys p2 = dkeys p /\ (forall o, In o orig -> kept_original p2 o) /\ forall a cs, dget p a = Some cs -> exists cs', dget p2 a = Some cs' /\ sifted (sure orig p) (map c_inst cs) (map c_inst cs')).
  { split; [apply Sv|]. split; [eapply Kept; eassumption|]. intros a cs G. destruct Sv as [_ Sv]. destruct (Sv a cs G) as (cs' & G' & S). exists cs'. split; [exact G'|]. eapply sifted_weaken; [|exact S].
    intros i _. unfold survives. assert (sure_at orig p a) by (apply (At p HO Se), dget_some_in; eauto). tauto. }
  destruct st; [injection H as <- <-; split; [lia|exact Goal2]|].
  assert (HO2 : has_original orig p2) by (eapply sieve_original; [exact HO|exact Sv|apply Goal2]).
  assert (Se2 : forall o, In o orig -> settled orig p2 o) by (intros o Ho; eapply settled_fewer; [eapply sieve_fewer, Sv|apply Se, Ho]).
  destruct (total p) as [|t] eqn:Tp; [cbn in H; discriminate|]. cbn [passes] in H.
  destruct (recover m (collect new_collector orig) fns p2) as [p3|] eqn:R2; [|discriminate]. cbn [bind] in H. destruct (C138_pass m orig fns p2 p3 M HO2 S2 R2) as (p4 & st2 & E2 & Sv2 & St2 & _). rewrite E2 in H. cbn [bind] in H.
  assert (Sm : same_insts p2 p4).
  { destruct Sv2 as [K2 Sv2]. assert (All : forall a cs, dget p2 a = Some cs -> exists cs', dget p4 a = Some cs' /\ map c_inst cs' = map c_inst cs).
    { intros a cs G. destruct (Sv2 a cs G) as (cs' & G' & S). exists cs'. split; [exact G'|].
      assert (P : Forall (survives orig p2 a) (map c_inst cs)).
      { apply Forall_forall. intros i Hi. left. split; [apply (At p2 HO2 Se2), dget_some_in; eauto|]. apply (sure_fewer _ p); [eapply sieve_fewer, Sv|].
        apply in_map_iff in Hi. destruct Hi as (c & <- & Hc). assert (X : exists c', candidate p2 a c' /\ c_inst c' = c_inst c) by (exists c; split; [exists cs; auto|reflexivity]).
        apply (sieve_candidate _ _ _ Sv) in X. destruct X as [(c0 & (cs0 & G0 & I0) & E0) [[_ X]|[X _]]]; [exact X|]. exfalso. apply X, (At p HO Se), dget_some_in. eauto. }
      clear - S P. induction S as [|b l l' Pb S IH|b l l' Pb S IH]; [reflexivity| |]; inversion P; subst; [f_equal; apply IH; assumption|contradiction]. }
    destruct HO2 as (_ & N2 & _). unfold same_insts. clear - K2 All N2. revert p4 K2 All. induction p2 as [|[k v] p2 IH]; intros [|[k' v'] p4] K All; try discriminate; [reflexivity|]. cbn in K. injection K as -> K. cbn in N2. inversion N2 as [|? ? Nk N]; subst. cbn.
    destruct (All k v) as (cs' & G' & E'); [cbn; rewrite Z.eqb_refl; reflexivity|]. cbn in G'. rewrite Z.eqb_refl in G'. injection G' as <-. rewrite E'. f_equal. apply (IH N); [exact K|].
    intros a cs G. assert (a <> k) by (intros ->; apply Nk, dget_some_in; eauto). destruct (All a cs) as (cs' & G' & E2); [cbn; replace (a =? k) with false by lia; exact G|]. cbn in G'. replace (a =? k) with false in G' by lia. eauto. }
  apply St2 in Sm. subst st2. injection H as <- <-. split; [lia|]. assert (Sm : same_insts p2 p4) by (apply St2; reflexivity). destruct Goal2 as (A & B & C). split; [destruct Sv2 as [K2 _]; congruence|]. split.
  - intros o Ho. apply (same_candidate p2 p4 Sm), B, Ho.
  - intros a cs G. destruct (C a cs G) as (cs2 & G2 & S). pose proof (same_get _ _ Sm a) as X. rewrite G2 in X. destruct (dget p4 a) as [cs4|]; [|discriminate]. cbn in X. injection X as X. exists cs4. split; [reflexivity|]. rewrite X. exact S. Qed.
Print Assumptions C138_settled.

(** The same three instructions with other candidates: everything certain but the
    register 5, the opcode 23 and an ignored one; a second candidate at 8 cannot be told
    from the original. *)
Definition more_other := [mkD 103 0 false 14 23 [3; 4] [3] [4] [3] [4] false KOther None; mkD 104 4 false 0 21 [1; 5] [1] [5] [1] [5] false KOther None;
  mkD 105 4 true 14 0 [] [] [] [] [] false KOther None; mkD 106 8 false 14 22 [4; 15; 13] [4; 15; 13] [13] [4; 15; 13] [13] true KPop None].
Definition clear_program : cprogram :=
  [(0, [fresh o_push; fresh (nth 0 more_other o_add)]); (4, [fresh (nth 1 more_other o_add); fresh o_add; fresh (nth 2 more_other o_add)]); (8, [fresh (nth 3 more_other o_add); fresh o_pop])].
Lemma clear_original : has_original small_orig clear_program.
Proof. split; [nodup|]. split; [nodup|]. split.
  - intros o [<-|[<-|[<-|[]]]]; [original_here o_push|original_here o_add|original_here o_pop].
  - intros a [<-|[<-|[<-|[]]]]; [exists o_push|exists o_add|exists o_pop]; cbn; auto. Qed.
Lemma clear_candidates a c : candidate clear_program a c -> c = fresh (c_inst c) /\ d_addr (c_inst c) = a /\ In (c_inst c) (small_orig ++ more_other).
Proof. intros Hc. apply candidate_in in Hc; [|nodup]. destruct Hc as (cs & I & J). cbn in I. repeat destruct I as [I|I]; try injection I as <- <-; try contradiction; cbn in J; repeat destruct J as [<-|J]; try contradiction; (split; [reflexivity|split; [reflexivity|cbn; tauto]]). Qed.
Lemma clear_settled o : In o small_orig -> settled small_orig clear_program o.
Proof. intros Ho. left. intros a c Hc Ig Fc o' Ho' Ea. destruct (clear_candidates a c Hc) as (_ & Ad & I). rewrite <- Ea in Ad. clear Hc Ea. generalize dependent (c_inst c). intros i Ig Fc Ad I.
  cbn in Ho, Ho', I. decompose [or] Ho; decompose [or] Ho'; decompose [or] I; try contradiction; subst; try discriminate; reflexivity. Qed.
Example C138_example : has_original small_orig clear_program /\ all_scored clear_program /\ (forall o, In o small_orig -> settled small_orig clear_program o) /\
  match passes score (fun _ => recover default_model (collect new_collector small_orig) small_fns) (S (total clear_program)) 0 clear_program with
  | Ok (p', n) => n = 1%nat /\ labels c_inst p' = [(0, [o_push]); (4, [o_add]); (8, [nth 3 more_other o_add; o_pop])]
  | Err _ => False end.
Proof. split; [exact clear_original|]. split; [apply unscored; intros a c Hc; apply (clear_candidates a c Hc)|]. split; [exact clear_settled|]. vm_compute. auto. Qed.
