(** C143: how a whole run ends when every true instruction is without doubt. *)
From Verif Require Import ListLemmas FlipModel FlipSpec MetaModel RecModel RecSpec RecProofs RecProofs2 RecProofs3 RecProofs4 RemoveProofs RecProps SiftSpec SiftProps OutcomeProps.
From Verif Require Import PacketModel IoModel IoSpec IoProofs IoProps ReportModel ReportSpec ReportProofs ReportProps InitialModel InitialProps RunModel RunProps RealModel RealProps WholeModel WholeProps.
From Coq Require Import ZifyBool ZifyNat Permutation Sorted Lqa.

(** The candidates without doubt among those of [p], address by address, in any order. *)
Definition without_doubt (look : Z -> Z -> dinst) (orig : list dinst) (p : cprog) (a : Z) (c : pcand) : Prop := sure orig (taken look p) (look (p_enc c) a).
Definition sure_only (look : Z -> Z -> dinst) (orig : list dinst) (p q : cprog) : Prop :=
  dkeys q = dkeys p /\ forall a v, dget p a = Some v -> exists l w, sifted (without_doubt look orig p a) v l /\ dget q a = Some w /\ Permutation (map p_enc w) (map p_enc l).
Definition still_open (look : Z -> Z -> dinst) (orig : list dinst) (p : cprog) : Prop :=
  exists a v l, dget p a = Some v /\ sifted (without_doubt look orig p a) v l /\ (1 < length l)%nat.

Lemma perm_filter {A} (f : A -> bool) l l' : Permutation l l' -> Permutation (filter f l) (filter f l').
Proof. induction 1 as [|x l l' P IH|x y l|l l1 l2 P1 IH1 P2 IH2]; cbn [filter]; [constructor|destruct (f x); [constructor; exact IH|exact IH]|destruct (f x), (f y); try apply Permutation_refl; constructor|eapply perm_trans; eassumption]. Qed.
Lemma sifted_det {A} (P : A -> Prop) l l1 l2 : sifted P l l1 -> sifted P l l2 -> l1 = l2.
Proof. intros S. revert l2. induction S as [|b l l' Pb S IH|b l l' Pb S IH]; intros l2 S2; inversion S2; subst; try contradiction; [reflexivity|f_equal; auto|auto]. Qed.
Lemma undecided_lengths (p q : cprog) : dkeys q = dkeys p -> (forall a v, dget p a = Some v -> exists w, dget q a = Some w /\ length v = length w) -> (undecided q <-> undecided p).
Proof. apply undecided_perm. Qed.
Lemma total_same {A B} (p : dict (list A)) (q : dict (list B)) : dkeys q = dkeys p -> NoDup (dkeys p) -> (forall a v, dget p a = Some v -> exists w, dget q a = Some w /\ length v = length w) -> RemoveProofs.total q = RemoveProofs.total p.
Proof. revert q. induction p as [|[k v] p IH]; intros [|[k' w] q] K N H; try discriminate; [reflexivity|]. cbn in K. injection K as -> K. cbn in N. inversion N as [|? ? Nk N']; subst. cbn [RemoveProofs.total fold_right snd].
  destruct (H k v) as (w' & G & L); [cbn; rewrite Z.eqb_refl; reflexivity|]. cbn in G. rewrite Z.eqb_refl in G. injection G as <-. f_equal; [lia|]. apply IH; [exact K|exact N'|]. intros a u G. assert (a <> k) by (intros ->; apply Nk, dget_some_in; eauto). destruct (H a u) as (w2 & G2 & L2); [cbn; replace (a =? k) with false by lia; exact G|]. cbn in G2. replace (a =? k) with false in G2 by lia. eauto. Qed.

(** One pass when every original is without doubt. *)
Section Pass.
Context (text : Z -> Z -> Z) (look : Z -> Z -> dinst) (m : pmodel) (orig : list dinst) (table : functions) (Lk : looks look) (M : valid_model m).
Definition ready (p : cprog) : Prop := has_original orig (taken look p) /\ all_scored (taken look p) /\ (forall o, In o orig -> settled orig (taken look p) o) /\ exists c1, recover m (collect new_collector orig) table (taken look p) = Ok c1.

Lemma given_total cs : (forall c, In c cs -> exists q, score c = Ok q) -> exists v, mapM (given text) cs = Ok v.
Proof. induction cs as [|c cs IH]; intros H; [exists []; reflexivity|]. cbn [mapM]. destruct (H c) as (q & E); [left; reflexivity|]. unfold given at 1. rewrite E. cbn [bind]. destruct IH as (v & ->); [intros; apply H; right; assumption|]. cbn [bind]. eauto. Qed.
Lemma given_all_total (p : cprogram) : (forall kv c, In kv p -> In c (snd kv) -> exists q, score c = Ok q) -> exists v, given_all text p = Ok v.
Proof. unfold given_all. induction p as [|kv p IH]; intros H; [exists []; reflexivity|]. cbn [mapM]. destruct (given_total (snd kv)) as (v & ->); [intros c Hc; apply (H kv); [left; reflexivity|exact Hc]|]. cbn [bind]. destruct IH as (w & ->); [intros; eapply H; [right; eassumption|assumption]|]. cbn [bind]. eauto. Qed.

Lemma ready_pass p n : ready p -> exists p1, recuperate text look m (collect new_collector orig) table n p = Ok p1 /\ dkeys p1 = dkeys p /\
  forall a v, dget p a = Some v -> exists v1, dget p1 a = Some v1 /\ Forall2 (fun d0 d => p_enc d = p_enc d0 /\ prob (p_score d) /\ (is1 p_score d = true <-> without_doubt look orig p a d0)) v v1.
Proof. intros (HO & HS & _ & c1 & R). destruct (pass_spec m M orig table _ HO HS c1 R) as [Kc F]. pose proof HO as (_ & Np & _). rewrite taken_keys in Kc, Np.
  assert (Nc : NoDup (dkeys c1)) by (rewrite Kc; exact Np).
  destruct (given_all_total c1) as (p1 & E).
  { intros [a cs1] c Hkv Hc. cbn [snd] in Hc. pose proof (dget_nodup_in _ _ _ Nc Hkv) as G. assert (Ha : In a (dkeys p)) by (rewrite <- Kc; apply dget_some_in; eauto). apply dget_some_in in Ha. destruct Ha as (v & Gv).
    destruct (F a (map (fun c => mkCand (look (p_enc c) a) (p_rules c) AddScore) v)) as (cs & Gc & J); [rewrite taken_get, Gv; reflexivity|]. assert (cs = cs1) as -> by congruence. destruct (forall2_in_r _ _ _ J c Hc) as (c0 & _ & _ & _ & _ & q & Q & _). eauto. }
  exists p1. unfold recuperate. rewrite R. cbn [bind]. split; [exact E|]. destruct (given_get _ _ _ E) as [K1 G1]. split; [congruence|]. intros a v Gv.
  destruct (F a (map (fun c => mkCand (look (p_enc c) a) (p_rules c) AddScore) v)) as (cs & Gc & J); [rewrite taken_get, Gv; reflexivity|]. destruct (G1 _ _ Gc) as (v1 & Gv1 & Gi). exists v1. split; [exact Gv1|]. clear - J Gi Lk. revert v1 Gi. remember (map _ v) as cs0 eqn:E0. revert v E0.
  induction J as [|c0 c l l' Jc J IH]; intros v E0 v1 Gi; destruct v as [|d0 v]; try discriminate; inversion Gi as [|? d ? v1' Eg Gi']; subst; constructor.
  - cbn [map] in E0. injection E0 as -> E0. pose proof Eg as Eg0. unfold given in Eg. destruct (score c) as [q|] eqn:Es; [|discriminate]. cbn [bind] in Eg. injection Eg as <-. cbn [p_enc p_score]. destruct (judged_value _ _ _ _ _ Jc Es) as (V1 & V2 & _). destruct Jc as (Ji & _). rewrite Ji. cbn [c_inst] in *. rewrite (proj1 (Lk _ _)). split; [reflexivity|]. split; [exact V1|]. unfold is1. cbn [p_score]. rewrite Qeq_bool_iff. exact V2.
  - cbn [map] in E0. injection E0 as -> E0. apply IH; assumption. Qed.

Lemma ready_kept p p1 n os es es' p2 : ready p -> recuperate text look m (collect new_collector orig) table n p = Ok p1 -> report_on (Pass_report n) os (es, p1) = (es', Ok p2) ->
  exists p3 stable, remove_all (fun c => Ok (p_score c)) p2 = Ok (p3, stable) /\ sure_only look orig p p3 /\
    (stable = true <-> forall a v c, dget p a = Some v -> In c v -> without_doubt look orig p a c) /\ has_original orig (taken look p3) /\ all_scored (taken look p3) /\ (forall o, In o orig -> settled orig (taken look p3) o).
Proof. intros Rd E1 E2. pose proof Rd as (HO & HS & Se & _). pose proof HO as (_ & Np & HA & HB). rewrite taken_keys in Np. destruct (ready_pass p n Rd) as (p1' & E1' & K1 & F1). rewrite E1 in E1'. injection E1' as <-.
  assert (N1 : NoDup (dkeys p1)) by (rewrite K1; exact Np). destruct (report_on_lists _ _ _ _ _ _ N1 E2) as (K2 & _ & P2). assert (N2 : NoDup (dkeys p2)) by (rewrite K2; exact N1).
  assert (Sa : forall a, In a (dkeys p) -> sure_at orig (taken look p) a).
  { intros a Ha. rewrite <- (taken_keys look) in Ha. destruct (HB a Ha) as (o & Ho & <-). destruct (HA o Ho) as (Ig & _ & c & Hc & Ec). exists c. split; [exact Hc|]. rewrite Ec. split; [exact Ig|]. split; [apply original_seen, Ho|apply Se, Ho]. }
  destruct (one_pass text look m orig table n os es p p1 es' p2 Lk M HO HS E1 E2) as (p3 & st & E3 & Ro & S3 & K3 & _).
  destruct (removed_at p_score p2) as (p3' & st' & E3' & _ & F3).
  { intros a w d G Hd. assert (Ha : In a (dkeys p)) by (rewrite <- K1, <- K2; apply dget_some_in; eauto). apply dget_some_in in Ha. destruct Ha as (v & Gv). destruct (F1 a v Gv) as (v1 & Gv1 & Fa). destruct (P2 _ _ Gv1) as (w' & Gw & Pm & _). assert (w' = w) as -> by congruence.
    apply (Permutation_in _ (Permutation_sym Pm)) in Hd. destruct (forall2_in_r _ _ _ Fa d Hd) as (d0 & _ & _ & Pr & _). exact Pr. }
  { exact N2. }
  rewrite E3 in E3'. injection E3' as <- <-. exists p3, st. split; [exact E3|].
  assert (At : forall a v, dget p a = Some v -> exists v1 w, dget p1 a = Some v1 /\ dget p2 a = Some w /\ Permutation v1 w /\ dget p3 a = Some (filter (is1 p_score) w) /\ Forall2 (fun d0 d => p_enc d = p_enc d0 /\ prob (p_score d) /\ (is1 p_score d = true <-> without_doubt look orig p a d0)) v v1).
  { intros a v Gv. destruct (F1 a v Gv) as (v1 & Gv1 & Fa). destruct (P2 _ _ Gv1) as (w & Gw & Pm & _). exists v1, w. split; [exact Gv1|]. split; [exact Gw|]. split; [exact Pm|]. split; [|exact Fa]. rewrite (F3 _ _ Gw).
    assert (X : existsb (is1 p_score) w = true); [|rewrite X; reflexivity]. destruct (Sa a) as (c & Hc & Su); [apply dget_some_in; eauto|]. apply taken_candidate in Hc. destruct Hc as (v' & d0 & G' & H0 & ->). assert (v' = v) as -> by congruence. destruct (forall2_in_l _ _ _ Fa d0 H0) as (d & Hd & _ & _ & I1). apply existsb_exists. exists d. split; [eapply Permutation_in; eassumption|]. apply I1. exact Su. }
  assert (So : sure_only look orig p p3).
  { split; [exact K3|]. intros a v Gv. destruct (At a v Gv) as (v1 & w & _ & _ & Pm & G3 & Fa). assert (X : exists l, sifted (without_doubt look orig p a) v l /\ map p_enc l = map p_enc (filter (is1 p_score) v1)).
    { clear - Fa. induction Fa as [|d0 d v v1 (E & _ & I) Fa (l & S & El)]; [exists []; split; [constructor|reflexivity]|]. cbn [filter]. destruct (is1 p_score d); [exists (d0 :: l); split; [constructor; [apply I; reflexivity|exact S]|cbn [map]; rewrite E, El; reflexivity]|]. exists l. split; [apply sift_out; [intros X; apply I in X; discriminate|exact S]|exact El]. }
    destruct X as (l & S & El). exists l, (filter (is1 p_score) w). split; [exact S|]. split; [exact G3|]. rewrite El. apply Permutation_map, perm_filter, Permutation_sym, Pm. }
  split; [exact So|]. split; [|split; [|split; [exact S3|]]].
  - destruct (remove_all_shape (fun c => Ok (p_score c)) p2) as [(p3' & st' & E' & _ & _ & St & Sf)|[(a & c & e & _ & X & _)|(kv & c & e & _ & _ & X & _)]]; [|discriminate|discriminate]. rewrite E3 in E'. injection E' as <- <-. split.
    + intros X. specialize (St X). subst p3. intros a v c Gv Hc. destruct (At a v Gv) as (v1 & w & _ & Gw & Pm & G3 & Fa). assert (Fw : filter (is1 p_score) w = w) by congruence. destruct (forall2_in_l _ _ _ Fa c Hc) as (d & Hd & _ & _ & I). apply I. apply (Permutation_in _ Pm) in Hd. rewrite <- Fw in Hd. apply filter_In in Hd. apply Hd.
    + intros All. destruct st; [reflexivity|]. specialize (Sf eq_refl). exfalso. assert (T : RemoveProofs.total p3 = RemoveProofs.total p2); [|lia]. apply total_same; [congruence|exact N2|]. intros a w Gw. assert (Ha : In a (dkeys p)) by (rewrite <- K1, <- K2; apply dget_some_in; eauto). apply dget_some_in in Ha. destruct Ha as (v & Gv).
      destruct (At a v Gv) as (v1 & w' & _ & Gw' & Pm & G3 & Fa). assert (w' = w) as -> by congruence. exists (filter (is1 p_score) w). split; [exact G3|]. f_equal. symmetry.
      clear - Fa Pm All Gv. assert (X : forall d, In d w -> is1 p_score d = true).
      { intros d Hd. apply (Permutation_in _ (Permutation_sym Pm)) in Hd. destruct (forall2_in_r _ _ _ Fa d Hd) as (d0 & H0 & _ & _ & I). apply I, (All a v); assumption. }
      clear - X. induction w as [|d w IH]; [reflexivity|]. cbn [filter]. rewrite (X d) by (left; reflexivity). f_equal. apply IH. intros; apply X; right; assumption.
  - apply (keep_original orig (taken look p)); [exact HO|rewrite !taken_keys; exact K3|]. intros o Ho. destruct (HA o Ho) as (Ig & _ & c & Hc & Ec). apply Ro. split; [exists c; auto|]. left. split; [apply Sa; rewrite <- (taken_keys look); destruct Hc as (cs & G & _); apply dget_some_in; eauto|]. split; [exact Ig|]. split; [apply original_seen, Ho|apply Se, Ho].
  - intros o Ho. eapply settled_fewer; [|apply Se, Ho]. apply set_fewer. intros a i L. apply Ro, L. Qed.
End Pass.

(** ** The loop *)
Lemma sure_only_lengths look orig p q : sure_only look orig p q -> (undecided q <-> still_open look orig p).
Proof. intros [K H]. split.
  - intros (a & w & G & L). assert (Ha : In a (dkeys p)) by (rewrite <- K; apply dget_some_in; eauto). apply dget_some_in in Ha. destruct Ha as (v & Gv). destruct (H a v Gv) as (l & w' & S & Gw & P). assert (w' = w) as -> by congruence. exists a, v, l. split; [exact Gv|]. split; [exact S|]. apply Permutation_length in P. rewrite !map_length in P. lia.
  - intros (a & v & l & Gv & S & L). destruct (H a v Gv) as (l' & w & S' & Gw & P). rewrite (sifted_det _ _ _ _ S' S) in P. exists a, w. split; [exact Gw|]. apply Permutation_length in P. rewrite !map_length in P. lia. Qed.
Lemma sure_only_listed look orig p q a v w c : sure_only look orig p q -> dget p a = Some v -> dget q a = Some w -> In c w -> exists d, In d v /\ p_enc d = p_enc c /\ without_doubt look orig p a d.
Proof. intros [K H] Gv Gw Hc. destruct (H a v Gv) as (l & w' & S & Gw' & P). assert (w' = w) as -> by congruence. apply (in_map p_enc) in Hc. apply (Permutation_in _ P) in Hc. apply in_map_iff in Hc. destruct Hc as (d & E & Hd). apply (sifted_in _ _ _ S) in Hd. exists d. tauto. Qed.
Lemma sure_only_set look orig p q : sure_only look orig p q -> forall a i, listed (taken look q) a i -> listed (taken look p) a i.
Proof. intros S a i L. pose proof S as [K _]. apply taken_listed in L. destruct L as (w & c & Gw & Hc & <-). assert (Ha : In a (dkeys p)) by (rewrite <- K; apply dget_some_in; eauto). apply dget_some_in in Ha. destruct Ha as (v & Gv). destruct (sure_only_listed look orig p q a v w c S Gv Gw Hc) as (d & Hd & E & _). apply taken_listed. exists v, d. rewrite E. auto. Qed.
Lemma sifted_all {A} (P : A -> Prop) l l' : (forall c, In c l -> P c) -> sifted P l l' -> l' = l.
Proof. intros H S. induction S as [|b l l' Pb S IH|b l l' Pb S IH]; [reflexivity|f_equal; apply IH; intros; apply H; right; assumption|]. exfalso. apply Pb, H. left; reflexivity. Qed.
Lemma sifted_refl {A} (P : A -> Prop) l : (forall c, In c l -> P c) -> sifted P l l.
Proof. induction l as [|c l IH]; intros H; constructor; [apply H; left; reflexivity|apply IH; intros; apply H; right; assumption]. Qed.

Lemma both_lengths {A B} (R : A -> B -> Prop) l l' : Forall2 R l l' -> length l = length l'.
Proof. induction 1; cbn; congruence. Qed.

Lemma settled_loop text look m orig table os fuel n es p : looks look -> valid_model m -> ready look m orig table p -> length os = length p -> (2 <= fuel)%nat ->
  (forall q, dkeys q = dkeys p -> has_original orig (taken look q) -> all_scored (taken look q) -> exists c1, recover m (collect new_collector orig) table (taken look q) = Ok c1) ->
  let r := recovery_loop (recuperate text look m (collect new_collector orig) table) os fuel n (es, p) in
  (~ undecided p \/ ~ still_open look orig p -> snd r = Err ZeroDivisionError) /\
  (undecided p -> still_open look orig p -> exists es' p2 k, r = (es', Ok (p2, k)) /\ sure_only look orig p p2).
Proof. intros Lk M Rd Lo Fu Good r. destruct fuel as [|[|fuel]]; [lia|lia|].
  assert (One : forall p n es, ready look m orig table p -> length os = length p -> exists p1, recuperate text look m (collect new_collector orig) table n p = Ok p1 /\
     (undecided p -> exists q, snd (report_on (Pass_report n) os (es, p1)) = Ok q) /\ (~ undecided p -> snd (report_on (Pass_report n) os (es, p1)) = Err ZeroDivisionError)).
  { clear - Lk M. intros p n es Rd Lo. destruct (ready_pass text look m orig table Lk M p n Rd) as (p1 & E1 & K1 & F1). exists p1. split; [exact E1|]. pose proof Rd as (HO & _). pose proof HO as (_ & Np & _). rewrite taken_keys in Np.
    assert (U1 : undecided p1 <-> undecided p). { apply undecided_perm; [exact K1|]. intros a v G. destruct (F1 a v G) as (v1 & G1 & F). exists v1. split; [exact G1|]. eapply both_lengths, F. }
    rewrite <- U1. apply report_total; [rewrite K1; exact Np|]. rewrite Lo, <- (map_length fst p), <- (map_length fst p1). unfold dkeys in K1. rewrite K1. reflexivity. }
  destruct (One p n es Rd Lo) as (p1 & E1 & R1 & R0). unfold r.
  set (loop := recovery_loop (recuperate text look m (collect new_collector orig) table) os (S fuel)). cbn [recovery_loop fst snd]. rewrite E1. destruct (report_on (Pass_report n) os (es, p1)) as [es2 [p2|e2]] eqn:E2; cbn [snd] in R1, R0.
  2:{ cbn [snd]. assert (Nu : ~ undecided p) by (intros U; destruct (R1 U) as (q & X); discriminate). split; [intros _; specialize (R0 Nu); congruence|]. intros U. contradiction. }
  assert (Nn : ~ ~ undecided p) by (intros U; specialize (R0 U); discriminate).
  destruct (ready_kept text look m orig table Lk M p p1 n os es es2 p2 Rd E1 E2) as (p3 & st & E3 & So & St & HO3 & HS3 & Se3). rewrite E3. pose proof (sure_only_lengths look orig p p3 So) as Us. destruct st.
  - split; [|intros _ _; eauto]. intros X. exfalso. apply Nn. intros (a & v & G & L). destruct X as [X|X]; [apply X; exists a, v; auto|]. apply X. exists a, v, v. split; [exact G|]. split; [|exact L]. apply sifted_refl. intros c Hc. apply (proj1 St eq_refl a v c G Hc).
  - fold (recovery_loop (recuperate text look m (collect new_collector orig) table) os). fold loop. pose proof So as [K3 H3].
    assert (Rd3 : ready look m orig table p3) by (split; [exact HO3|]; split; [exact HS3|]; split; [exact Se3|]; apply Good; assumption).
    assert (L3 : length os = length p3). { rewrite Lo, <- (map_length fst p), <- (map_length fst p3). unfold dkeys in K3. rewrite K3. reflexivity. }
    destruct (One p3 (n + 1) es2 Rd3 L3) as (q1 & F1 & T1 & T0). rewrite Us in T1, T0. unfold loop. cbn [recovery_loop fst snd]. rewrite F1. destruct (report_on (Pass_report (n + 1)) os (es2, q1)) as [es4 [q2|e4]] eqn:F2; cbn [snd] in T1, T0.
    2:{ cbn [snd]. assert (Ns : ~ still_open look orig p) by (intros U; destruct (T1 U) as (q & X); discriminate). split; [intros _; specialize (T0 Ns); congruence|]. intros _ U. contradiction. }
    destruct (ready_kept text look m orig table Lk M p3 q1 (n + 1) os es2 es4 q2 Rd3 F1 F2) as (q3 & st & F3 & So3 & St3 & _). rewrite F3.
    assert (Al : forall a w c, dget p3 a = Some w -> In c w -> without_doubt look orig p3 a c).
    { intros a w c Gw Hc. assert (Ha : In a (dkeys p)) by (rewrite <- K3; apply dget_some_in; eauto). apply dget_some_in in Ha. destruct Ha as (v & Gv). destruct (sure_only_listed look orig p p3 a v w c So Gv Gw Hc) as (d & _ & E & Su). unfold without_doubt in *. rewrite <- E. eapply sure_fewer; [|exact Su]. apply set_fewer, (sure_only_set look orig p p3 So). }
    assert (st = true) as -> by (apply St3; exact Al). split.
    + intros [X|X]; [exfalso; exact (Nn X)|]. specialize (T0 X). discriminate.
    + intros _ _. exists es4, q3, (n + 1). split; [reflexivity|]. destruct So3 as [K5 H5]. split; [congruence|]. intros a v Gv. destruct (H3 a v Gv) as (l & w & S & Gw & P). destruct (H5 a w Gw) as (l' & w5 & S' & G5 & P5). exists l, w5. split; [exact S|]. split; [exact G5|]. rewrite (sifted_all _ _ _ (fun c => Al a w c Gw) S') in P5. eapply perm_trans; eassumption. Qed.

(** ** The whole run *)
Lemma sifted_perm {A} (P : A -> Prop) l l' : Permutation l l' -> forall r, sifted P l r -> exists r', sifted P l' r' /\ Permutation r r'.
Proof. induction 1 as [|x l l' Pm IH|x y l|l l1 l2 P1 IH1 P2 IH2]; intros r S.
  - inversion S; subst. exists []. split; constructor.
  - inversion S as [|? ? r0 Px S0|? ? ? Px S0]; subst; destruct (IH _ S0) as (r' & S' & Pr); [exists (x :: r'); split; [constructor; assumption|constructor; exact Pr]|exists r'; split; [apply sift_out; assumption|exact Pr]].
  - inversion S as [|? ? r0 Py S0|? ? ? Py S0]; subst; inversion S0 as [|? ? r1 Px S1|? ? ? Px S1]; subst.
    + exists (x :: y :: r1). split; [repeat constructor; assumption|constructor].
    + exists (y :: r0). split; [apply sift_out; [exact Px|constructor; assumption]|apply Permutation_refl].
    + exists (x :: r1). split; [constructor; [exact Px|apply sift_out; assumption]|apply Permutation_refl].
    + exists r. split; [apply sift_out; [exact Px|apply sift_out; assumption]|apply Permutation_refl].
  - destruct (IH1 _ S) as (r1 & S1 & Q1). destruct (IH2 _ S1) as (r2 & S2 & Q2). exists r2. split; [exact S2|eapply perm_trans; eassumption]. Qed.

Theorem C143_outcome : forall text look regs m fns p0 cont fuel, looks look -> coherent text look regs -> valid_model m ->
  NoDup (map address (concat fns)) -> (forall f, In f fns -> in_a_row f) -> Z.of_nat (length (concat fns)) < 2 ^ 32 ->
  (forall i, In i (concat fns) -> d_ignore (look (encoding i) (address i)) = false /\ NoDup (d_used (look (encoding i) (address i)))) ->
  one_list_each (concat fns) p0 -> (forall i, In i (concat fns) -> has p0 i) -> small p0 -> (forall a v c, dget p0 a = Some v -> In c v -> p_rules c = []) ->
  (forall c, p_enc (cont c) = p_enc c) -> (2 <= fuel)%nat ->
  let originals := fst (functions_to_list fns) in let orig := true_program look originals in
  (forall o, In o orig -> settled orig (taken look p0) o) ->
  let run := real_run text look m fns (Ok p0) cont (constrain text look regs originals) fuel in
  (~ undecided p0 \/ ~ still_open look orig p0 -> snd run = Err ZeroDivisionError) /\
  (undecided p0 -> still_open look orig p0 -> exists p3 p4, sure_only look orig p0 p3 /\ constrain text look regs originals p3 = Ok p4 /\
     (undecided p4 -> exists initial final, snd run = Ok (initial, final)) /\ (~ undecided p4 -> snd run = Err ZeroDivisionError)).
Proof. intros text look regs m fns p0 cont fuel Lk Co M Na Row Len Hi0 Ol Has Sm Hr Ce Fu originals orig Se run. pose proof (sorted_nodup fns Na) as Ns. change (fst (functions_to_list fns)) with (sorted_insts fns) in originals. subst originals.
  pose proof (C142_table m fns orig) as Tab. unfold run, real_run. change (functions_to_list fns) with (sorted_insts fns, snd (functions_to_list fns)) in *. cbv beta iota in *. set (table := snd (functions_to_list fns)) in *. clearbody table. clear run. fold orig.
  set (rec := recuperate text look m (collect new_collector orig) table). set (con := constrain text look regs (sorted_insts fns)). set (os := map (original text) (sorted_insts fns)).
  assert (Ad : forall a, In a (map address (sorted_insts fns)) <-> In a (map address (concat fns))) by (intros a; rewrite !in_map_iff; split; intros (i & E & I); exists i; (split; [exact E|apply sorted_in, I])).
  assert (OlS : forall p, dkeys p = dkeys p0 -> one_list_each (sorted_insts fns) p) by (intros p K; destruct Ol as [N K0]; split; [rewrite K; exact N|]; intros a; rewrite K, K0, Ad; reflexivity).
  assert (Lp : forall p, dkeys p = dkeys p0 -> length os = length p) by (intros p K; unfold os; rewrite map_length; apply one_list_length; [exact Ns|apply OlS, K]). pose proof Ol as [N0 K0].
  assert (LenS : Z.of_nat (length (sorted_insts fns)) < 2 ^ 32). { assert (X : length (sorted_insts fns) = length (concat fns)) by (apply Permutation_length, sort_by_perm). lia. }
  destruct (report_total Corrupted_report os [] p0 N0 (Lp p0 eq_refl)) as [R1 R0]. unfold run_files. fold os. destruct (report_on Corrupted_report os ([], p0)) as [es1 [p1|e1]] eqn:E1; cbn [snd] in R1, R0.
  2:{ cbn [snd]. assert (Nu : ~ undecided p0) by (intros U; destruct (R1 U) as (q & X); discriminate). split; [intros _; specialize (R0 Nu); congruence|]. intros U. contradiction. }
  assert (Nn : ~ ~ undecided p0) by (intros U; specialize (R0 U); discriminate).
  destruct (report_on_lists _ _ _ _ _ _ N0 E1) as (K1 & _ & P1). destruct (report_set look _ _ _ _ _ _ N0 E1) as (_ & Set1 & Sub1). assert (N1 : NoDup (dkeys p1)) by (rewrite K1; exact N0).
  assert (Inv1 : forall a w, dget p1 a = Some w -> exists v, dget p0 a = Some v /\ Permutation v w). { intros a w G. assert (Ha : In a (dkeys p0)) by (rewrite <- K1; apply dget_some_in; eauto). apply dget_some_in in Ha. destruct Ha as (v & Gv). destruct (P1 a v Gv) as (w' & Gw & P & _). assert (w' = w) as -> by congruence. eauto. }
  assert (Has1 : forall i, In i (sorted_insts fns) -> has p1 i). { intros i Hi. apply sorted_in in Hi. destruct (Has i Hi) as (v & c & G & I & E). destruct (P1 _ _ G) as (w & Gw & P & _). exists w, c. split; [exact Gw|]. split; [eapply Permutation_in; eassumption|exact E]. }
  assert (Sm1 : small p1). { intros a w G. destruct (Inv1 a w G) as (v & Gv & P). destruct (Sm a v Gv) as (A & B & C). split; [exact A|]. split; [rewrite <- (Permutation_length P); exact B|]. intros c Hc. apply C. eapply Permutation_in; [apply Permutation_sym, P|exact Hc]. }
  destruct (save_total (sorted_insts fns) p1 Ns LenS (OlS p1 K1) Has1 Sm1) as (initial & S1). rewrite S1.
  assert (HS1 : all_scored (taken look p1)). { intros a c Hc. apply taken_candidate in Hc. destruct Hc as (v & d & G & Hd & ->). destruct (Sub1 _ _ _ G Hd) as (v0 & G0 & H0). rewrite (Hr _ _ _ G0 H0). apply fresh_scored. }
  assert (HO1 : has_original orig (taken look p1)).
  { split; [|split; [rewrite taken_keys; exact N1|split]].
    - unfold orig, true_program. rewrite map_map. erewrite map_ext; [exact Ns|]. intros i. apply Lk.
    - intros o Ho. unfold orig, true_program in Ho. apply in_map_iff in Ho. destruct Ho as (i & <- & Hi). destruct (Hi0 i) as [A1 A2]; [apply sorted_in, Hi|]. split; [exact A1|]. split; [exact A2|]. rewrite (proj2 (Lk _ _)). destruct (Has1 i Hi) as (v & c & G & I & E). apply taken_listed. exists v, c. rewrite E. auto.
    - intros a Ha. rewrite taken_keys, K1 in Ha. apply K0, Ad, in_map_iff in Ha. destruct Ha as (i & <- & Hi). exists (look (encoding i) (address i)). split; [apply (in_map (fun i => look (encoding i) (address i))), Hi|apply Lk]. }
  assert (Wd : forall a c, without_doubt look orig p1 a c <-> without_doubt look orig p0 a c). { intros a c. unfold without_doubt. split; apply sure_fewer, set_fewer; intros b j L; apply Set1, L. }
  assert (So1 : still_open look orig p1 <-> still_open look orig p0).
  { split; intros (a & v & l & G & S & L).
    - destruct (Inv1 a v G) as (v0 & G0 & P). destruct (sifted_perm _ _ _ (Permutation_sym P) _ S) as (l0 & S0 & P0). exists a, v0, l0. split; [exact G0|]. split; [|rewrite <- (Permutation_length P0); exact L]. eapply sifted_weaken; [|exact S0]. intros; apply Wd.
    - destruct (P1 a v G) as (w & Gw & P & _). destruct (sifted_perm _ _ _ P _ S) as (l0 & S0 & P0). exists a, w, l0. split; [exact Gw|]. split; [|rewrite <- (Permutation_length P0); exact L]. eapply sifted_weaken; [|exact S0]. intros b _. symmetry. apply Wd. }
  assert (U1 : undecided p1 <-> undecided p0). { apply undecided_perm; [exact K1|]. intros a v G. destruct (P1 a v G) as (w & Gw & P & _). exists w. split; [exact Gw|]. apply Permutation_length, P. }
  assert (Ne : p0 <> []). { intros X. apply Nn. intros (a & v & G & _). rewrite X in G. discriminate. }
  assert (Good : forall q, dkeys q = dkeys p1 -> has_original orig (taken look q) -> all_scored (taken look q) -> exists c1, recover m (collect new_collector orig) table (taken look q) = Ok c1).
  { intros q Kq HOq HSq. apply Tab; [exact M|exact HOq|exact HSq| |exact Row|].
    - intros X. apply Ne. apply (f_equal dkeys) in X. rewrite taken_keys, Kq, K1 in X. destruct p0; [reflexivity|discriminate].
    - intros a. rewrite taken_keys, Kq, K1, Ad. apply K0. }
  assert (Rd1 : ready look m orig table p1). { split; [exact HO1|]. split; [exact HS1|]. split; [|apply Good; [reflexivity|exact HO1|exact HS1]]. intros o Ho. eapply settled_fewer; [|apply Se, Ho]. apply set_fewer. intros a i L. apply Set1, L. }
  destruct (settled_loop text look m orig table os fuel 1 (es1 ++ [Initial_solution]) p1 Lk M Rd1 (Lp p1 K1) Fu Good) as [A B]. cbv zeta in A, B. fold rec in A, B. rewrite U1, So1 in A, B.
  split.
  - intros X. specialize (A X). destruct (recovery_loop rec os fuel 1 (es1 ++ [Initial_solution], p1)) as [es2 [[p2 k]|e2]]; cbn [snd] in A |- *; [discriminate|congruence].
  - intros U S. destruct (B U S) as (es2 & p2 & k & E2 & So). pose proof So as [K2 H2].
    assert (Inv2 : forall a w, dget p2 a = Some w -> exists v, dget p1 a = Some v) by (intros a w G; apply dget_some_in; rewrite <- K2; apply dget_some_in; eauto).
    assert (Has2 : forall i, In i (sorted_insts fns) -> has p2 i).
    { intros i Hi. destruct (Has1 i Hi) as (v & c & G & I & E). destruct (H2 _ _ G) as (l & w & Sf & Gw & P). assert (X : In (p_enc c) (map p_enc w)).
      { apply (Permutation_in _ (Permutation_sym P)), in_map, (sifted_in _ _ _ Sf). split; [exact I|]. unfold without_doubt. rewrite E. assert (Ho : In (look (encoding i) (address i)) orig) by (apply (in_map (fun i => look (encoding i) (address i))), Hi). split; [apply Hi0, sorted_in, Hi|]. split; [apply original_seen, Ho|]. apply Rd1, Ho. }
      apply in_map_iff in X. destruct X as (d & Ed & Hd). exists w, d. split; [exact Gw|]. split; [exact Hd|congruence]. }
    assert (Sm2 : small p2).
    { intros a w G. destruct (Inv2 a w G) as (v & Gv). destruct (H2 _ _ Gv) as (l & w' & Sf & Gw & P). assert (w' = w) as -> by congruence. destruct (Sm1 a v Gv) as (A1 & A2 & A3). split; [exact A1|]. destruct (sifted_length _ _ _ Sf) as [Ll _]. pose proof (Permutation_length P) as Lq. rewrite !map_length in Lq. split; [lia|].
      intros c Hc. destruct (sure_only_listed look orig p1 p2 a v w c So Gv G Hc) as (d & Hd & Ed & _). rewrite <- Ed. apply A3, Hd. }
    assert (IgS : forall i, In i (sorted_insts fns) -> d_ignore (look (encoding i) (address i)) = false) by (intros i Hi; apply Hi0, sorted_in, Hi).
    destruct (C140_end text look regs (sorted_insts fns) p0 rec cont fuel es1 p1 initial es2 p2 k Co Ns IgS Ce LenS E1 S1 E2 (OlS p2 ltac:(congruence)) Has2 Sm2) as [_ C]. cbv zeta in C.
    assert (U2 : undecided p2) by (apply (sure_only_lengths look orig p1 p2 So), So1, S). destruct (C U2) as (p3 & p4 & F3 & P3 & E4 & _ & _ & C1 & C0). exists p3, p4. unfold run_files in C1, C0. fold os in C1, C0. rewrite E1, S1 in C1, C0. fold con in C1, C0, E4. split; [|split; [exact E4|split; [intros X; destruct (C1 X) as (final & Y); eauto|exact C0]]].
    split; [destruct F3; congruence|]. intros a v Gv. destruct (P1 a v Gv) as (v1 & G1 & Pv & _). destruct (H2 a v1 G1) as (l1 & w2 & S2 & G2 & Q2). destruct (P3 a w2 G2) as (w3 & G3 & Q3). destruct (sifted_perm _ _ _ (Permutation_sym Pv) _ S2) as (l & Sl & Ql). exists l, w3. split; [eapply sifted_weaken; [|exact Sl]; intros; apply Wd|]. split; [exact G3|].
    eapply perm_trans; [apply Permutation_sym, Q3|]. eapply perm_trans; [exact Q2|]. apply Permutation_map, Ql. Qed.
Print Assumptions C143_outcome.

(** The three instructions of C139 with the constraint phase of the code.  The branch at
    0x1008 keeps candidates that look as good as it, so both files are written; with
    that one known from the start nothing is left to decide after the first pass and
    the run ends in the report of the second. *)
Definition known : cprog := map (fun kv => (fst kv, if fst kv =? 0x1008 then filter (fun c => p_enc c =? 0x1afffff7) (snd kv) else snd kv)) ex_corrupt.
Definition ex_end (p : cprog) := real_run (fun e _ => e) RealProps.ex_look default_model RunProps.ex_fns (Ok p) (fun c => c)
  (constrain (fun e _ => e) RealProps.ex_look (fun _ _ => []) (fst (functions_to_list RunProps.ex_fns))) 2.
Example C143_example : looks RealProps.ex_look /\ coherent (fun e _ => e) RealProps.ex_look (fun _ _ => []) /\ (forall f, In f RunProps.ex_fns -> in_a_row f) /\ one_list_each (concat RunProps.ex_fns) ex_corrupt /\ (forall i, In i (concat RunProps.ex_fns) -> has ex_corrupt i) /\ small ex_corrupt /\ undecided ex_corrupt /\ undecided known /\
  (exists initial final, ex_end ex_corrupt = ([Corrupted_report; Initial_solution; Pass_report 1; Pass_report 2; Pass_report 3; Pass_report 4; Final_solution], Ok (initial, final))) /\
  ex_end known = ([Corrupted_report; Initial_solution; Pass_report 1; Pass_report 2], Err ZeroDivisionError).
Proof. split; [intros e a; split; reflexivity|]. split; [split; [reflexivity|split; [intros e e' a ->; auto|intros e a x []]]|]. split; [|split; [|split; [|split; [|split; [|split; [|split]]]]]].
  - intros f [<-|[<-|[]]] k i H; (destruct k as [|[|[|k]]]; cbn in H; try discriminate H; injection H as <-; reflexivity).
  - split; [nodup|]. intros a. vm_compute. tauto.
  - intros i Hi. assert (D : exists v, dget ex_corrupt (address i) = Some v /\ In (encoding i) (map p_enc v)).
    { cbn [concat RunProps.ex_fns app In] in Hi. decompose [or] Hi; subst; try contradiction; eexists; (split; [vm_compute; reflexivity|vm_compute; tauto]). }
    destruct D as (v & G & I). apply in_map_iff in I. destruct I as (c & E & I). exists v, c. auto.
  - intros a v G. pose proof (dget_in _ _ _ G) as I. set (ok x := (0 <=? x) && (x <? 2 ^ 32)). assert (F : forallb (fun kv => ok (fst kv) && ok (Z.of_nat (length (snd kv))) && forallb (fun c => ok (p_enc c)) (snd kv)) ex_corrupt = true) by (vm_compute; reflexivity).
    rewrite forallb_forall in F. specialize (F _ I). cbn [fst snd] in F. rewrite !andb_true_iff, forallb_forall in F. destruct F as ((A & B) & C). unfold fits32, ok in *. split; [lia|]. split; [lia|]. intros c Hc. specialize (C c Hc). lia.
  - exists 0x1000. eexists. split; [vm_compute; reflexivity|]. cbn. lia.
  - exists 0x1000. eexists. split; [vm_compute; reflexivity|]. cbn. lia.
  - do 2 eexists. vm_compute. reflexivity.
  - vm_compute. reflexivity. Qed.
