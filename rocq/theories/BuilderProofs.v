From Verif Require Import ListLemmas FlipModel FlipProofs MetaModel MetaSpec MetaProofs MetaProps BuilderModel BuilderSpec.
From Coq Require Import ZifyBool ZifyNat Permutation.

Lemma ok_inj {A} (x y : A) : Ok x = Ok y -> x = y.
Proof. congruence. Qed.

(** ** Counting *)
Lemma inc_keys_nodup ks : forall d, NoDup (dkeys d) -> NoDup (dkeys (inc_keys d ks)).
Proof. unfold inc_keys. induction ks as [|k ks IH]; intros d N; [exact N|]. cbn [fold_left]. apply IH. unfold inc_key. destruct (dget d k); apply dset_nodup, N. Qed.
Lemma zeroes l : forall d k, dget (fold_left (fun d k => dset d k 0) l d) k = if existsb (Z.eqb k) l then Some 0 else dget d k.
Proof. induction l as [|x l IH]; intros d k; [reflexivity|]. cbn [fold_left existsb]. rewrite IH, dget_dset. destruct (existsb (Z.eqb k) l); [rewrite orb_true_r; reflexivity|]. rewrite orb_false_r. reflexivity. Qed.
Lemma zeroes_nodup l : forall d : dict Z, NoDup (dkeys d) -> NoDup (dkeys (fold_left (fun d k => dset d k 0) l d)).
Proof. induction l as [|x l IH]; intros d N; [exact N|]. cbn [fold_left]. apply IH, dset_nodup, N. Qed.
Lemma sum_fold field asg vars : forall d b, fold_left (sum_step field asg) vars (d, b) =
  (inc_keys d (assigned_fields field vars asg), b || existsb (fun v => negb (dmem asg v)) vars).
Proof. induction vars as [|v vars IH]; intros d b; cbn [fold_left assigned_fields flat_map existsb]; [rewrite orb_false_r; reflexivity|].
  unfold sum_step at 2. unfold dmem at 1. destruct (dget asg v) as [i|] eqn:E; cbn [negb orb fst snd].
  - fold (assigned_fields field vars asg). destruct (x_ignore i); cbn [app]; rewrite IH; [reflexivity|]. rewrite inc_keys_app. reflexivity.
  - rewrite IH. cbn [app orb]. rewrite orb_true_r. reflexivity. Qed.
Lemma existsb_eqb_dmem {A} (d : dict A) k : existsb (Z.eqb k) (dkeys d) = dmem d k.
Proof. unfold dmem. destruct (dget d k) as [a|] eqn:E.
  - apply existsb_exists. exists k. split; [apply dget_some_in; eauto|lia].
  - apply dget_none in E. destruct (existsb (Z.eqb k) (dkeys d)) eqn:X; [|reflexivity]. apply existsb_exists in X. destruct X as (y & I & Y). exfalso. apply E. replace k with y by lia. exact I. Qed.
Lemma sums_spec exact field vars asg sum missing : sums exact field vars asg = (sum, missing) ->
  NoDup (dkeys sum) /\ (missing = true <-> ~ complete vars asg) /\
  forall k, dget sum k = if dmem exact k || (0 <? number field vars asg k) then Some (number field vars asg k) else None.
Proof. unfold sums. rewrite sum_fold. intros H. apply pair_equal_spec in H. destruct H as [<- <-]. split; [apply inc_keys_nodup, zeroes_nodup; constructor|]. split.
  - cbn [orb]. rewrite existsb_exists. unfold complete. split.
    + intros (v & I & E) H. apply (H v I). unfold dmem in E. destruct (dget asg v); [discriminate|reflexivity].
    + intros H. destruct (existsb (fun v => negb (dmem asg v)) vars) eqn:E; [apply existsb_exists in E; exact E|]. exfalso. apply H. intros v I X.
      assert (Y : existsb (fun v => negb (dmem asg v)) vars = true) by (apply existsb_exists; exists v; split; [exact I|unfold dmem; rewrite X; reflexivity]). congruence.
  - intros k. rewrite inc_keys_get. cbv zeta. unfold dget0. rewrite zeroes, existsb_eqb_dmem. unfold number. set (n := count_occ _ _ _). cbn [dget].
    destruct (Z.of_nat n =? 0) eqn:E, (dmem exact k) eqn:M, (0 <? Z.of_nat n) eqn:Y; cbn [orb]; try lia; try reflexivity; f_equal; lia. Qed.

Lemma first_check exact field vars asg sum missing : sums exact field vars asg = (sum, missing) ->
  (existsb (too_many exact) sum = false <-> forall k, (0 < number field vars asg k -> dmem exact k = true) /\ (dmem exact k = true -> number field vars asg k <= required exact k)).
Proof. intros H. destruct (sums_spec _ _ _ _ _ _ H) as (N & _ & G). split.
  - intros E k. assert (X : forall n, dget sum k = Some n -> too_many exact (k, n) = false).
    { intros n Gn. destruct (too_many exact (k, n)) eqn:T; [|reflexivity]. exfalso. apply dget_in in Gn. assert (Y : existsb (too_many exact) sum = true) by (apply existsb_exists; eauto). congruence. }
    rewrite G in X. unfold too_many in X. cbn [fst snd] in X. unfold dmem, required in *. destruct (dget exact k) as [e|]; cbn [orb] in X; (split; intros Mk).
    + reflexivity.
    + specialize (X _ eq_refl). lia.
    + replace (0 <? number field vars asg k) with true in X by lia. discriminate (X _ eq_refl).
    + discriminate.
  - intros A. destruct (existsb (too_many exact) sum) eqn:E; [|reflexivity]. exfalso. apply existsb_exists in E. destruct E as ([k n] & I & T). apply (dget_nodup_in _ _ _ N) in I. rewrite G in I. destruct (A k) as [A1 A2]. unfold too_many, required, dmem in *. cbn [fst snd] in T.
    destruct (dget exact k) as [e|]; cbn [orb] in I; [assert (number field vars asg k = n) by congruence; specialize (A2 eq_refl); lia|]. destruct (0 <? number field vars asg k) eqn:P; [|discriminate]. specialize (A1 ltac:(lia)). discriminate. Qed.

Lemma final_ok exact sum missing : (forall k n, In (k, n) sum -> exists e, dget exact k = Some e) ->
  exists b, final_check exact sum missing = Ok b /\ (b = true <-> forall k n, In (k, n) sum -> if missing : bool then n <= required exact k else n = required exact k).
Proof. unfold final_check. intros H. assert (G : forall ok, exists b, foldM (fun ok kn => let* e := dget_r exact (fst kn) in Ok (ok && (if missing then snd kn <=? e else snd kn =? e))) sum ok = Ok b /\ (b = true <-> ok = true /\ forall k n, In (k, n) sum -> if missing : bool then n <= required exact k else n = required exact k)).
  { induction sum as [|[k n] sum IH]; intros ok; cbn [foldM]; [exists ok; split; [reflexivity|]; split; [intros ->; split; [reflexivity|intros ? ? []]|intros [? _]; assumption]|].
    destruct (H k n ltac:(left; reflexivity)) as (e & E). unfold dget_r at 1. cbn [fst snd]. rewrite E. cbn [bind].
    destruct (IH ltac:(intros; eapply H; right; eassumption) (ok && (if missing then n <=? e else n =? e))) as (b & Eb & Hb). exists b. split; [exact Eb|]. rewrite Hb.
    assert (R : required exact k = e) by (unfold required; rewrite E; reflexivity). split.
    - intros [A B]. apply andb_true_iff in A. destruct A as [A1 A2]. split; [exact A1|]. intros k' n' [X|X]; [|exact (B _ _ X)]. assert (k' = k /\ n' = n) as [-> ->] by (split; congruence). rewrite R. destruct missing; lia.
    - intros [A B]. split; [|intros; apply B; right; assumption]. rewrite A. specialize (B k n ltac:(left; reflexivity)). rewrite R in B. destruct missing; cbn [andb]; lia. }
  destruct (G true) as (b & E & Hb). exists b. split; [exact E|]. rewrite Hb. split; [intros [_ X]; exact X|intros X; split; [reflexivity|exact X]]. Qed.

(** ** Forward checking one domain *)
Lemma list_remove_spec pre x post : (forall y, In y pre -> x_id y <> x_id x) -> list_remove (pre ++ x :: post) x = Ok (pre ++ post).
Proof. induction pre as [|y pre IH]; intros H; cbn [app list_remove]; [rewrite Z.eqb_refl; reflexivity|]. replace (x_id y =? x_id x) with false by (specialize (H y ltac:(left; reflexivity)); lia). rewrite IH by (intros; apply H; right; assumption). reflexivity. Qed.
Lemma list_remove_absent l x : (forall y, In y l -> x_id y <> x_id x) -> list_remove l x = Err ValueError.
Proof. induction l as [|y l IH]; intros H; [reflexivity|]. cbn [list_remove]. replace (x_id y =? x_id x) with false by (specialize (H y ltac:(left; reflexivity)); lia). rewrite IH by (intros; apply H; right; assumption). reflexivity. Qed.

Definition keeps exact field vars asg (i : xinst) : bool := match excess exact field vars asg i with [] => true | _ => false end.
Lemma violates_spec exact field vars asg sum missing v : sums exact field vars asg = (sum, missing) -> violates exact sum v = Ok (exceeds exact field vars asg v).
Proof. intros H. destruct (sums_spec _ _ _ _ _ _ H) as (_ & _ & G). unfold violates, exceeds, required, dmem, dget_r. rewrite G. unfold dmem. destruct (dget exact v) as [e|]; [cbn [orb negb bind]; reflexivity|reflexivity]. Qed.
Lemma hide_spec exact field vars asg sum missing pre x post vv : sums exact field vars asg = (sum, missing) ->
  (forall y, In y pre -> x_id y <> x_id x) -> (forall y, In y post -> x_id y <> x_id x) ->
  hide_violations exact sum (pre ++ x :: post) x vv =
    match filter (exceeds exact field vars asg) vv with [] => Ok (pre ++ x :: post) | [_] => Ok (pre ++ post) | _ => Err ValueError end /\
  hide_violations exact sum (pre ++ post) x vv = match filter (exceeds exact field vars asg) vv with [] => Ok (pre ++ post) | _ => Err ValueError end.
Proof. intros H N1 N2. unfold hide_violations. induction vv as [|v vv [IH1 IH2]]; [split; reflexivity|]. cbn [foldM filter]. rewrite (violates_spec _ _ _ _ _ _ v H). cbn [bind]. destruct (exceeds exact field vars asg v) eqn:E; [|cbn [bind]; split; [exact IH1|exact IH2]].
  rewrite list_remove_spec by exact N1. cbn [bind]. rewrite IH2. rewrite (list_remove_absent (pre ++ post)) by (intros y I; apply in_app_or in I; destruct I; auto). cbn [bind]. split; [|reflexivity]. destruct (filter _ vv); reflexivity. Qed.
Lemma filter_domain_spec exact field vars asg sum missing dom : sums exact field vars asg = (sum, missing) -> NoDup (map x_id dom) ->
  filter_domain exact sum field dom = if existsb (fun i => (1 <? length (excess exact field vars asg i))%nat) dom then Err ValueError else Ok (filter (keeps exact field vars asg) dom).
Proof. intros H N. unfold filter_domain. 
  assert (G : forall l pre, NoDup (map x_id (pre ++ l)) -> foldM (fun dom value => if x_ignore value then Ok dom else hide_violations exact sum dom value (field value)) l (pre ++ l) =
     if existsb (fun i => (1 <? length (excess exact field vars asg i))%nat) l then Err ValueError else Ok (pre ++ filter (keeps exact field vars asg) l)).
  { induction l as [|x l IH]; intros pre Nd; cbn [foldM existsb filter]; [reflexivity|].
    assert (N1 : forall y, In y pre -> x_id y <> x_id x). { intros y I E. rewrite map_app in Nd. apply NoDup_app_elim in Nd. destruct Nd as (_ & _ & D). apply (D (x_id y)); [apply in_map; exact I|]. cbn [map]. left. congruence. }
    assert (N2 : forall y, In y l -> x_id y <> x_id x). { intros y I E. rewrite map_app in Nd. apply NoDup_app_elim in Nd. destruct Nd as (_ & D & _). cbn [map] in D. inversion D as [|? ? D1 _]; subst. apply D1. rewrite <- E. apply in_map, I. }
    assert (Nd1 : NoDup (map x_id ((pre ++ [x]) ++ l))) by (rewrite <- app_assoc; exact Nd).
    assert (Nd2 : NoDup (map x_id (pre ++ l))) by (rewrite map_app in *; cbn [map] in Nd; eapply NoDup_remove_1; exact Nd).
    assert (K : keeps exact field vars asg x = match excess exact field vars asg x with [] => true | _ => false end) by reflexivity. rewrite K. unfold excess at 1 3. destruct (x_ignore x); cbn [bind length].
    - specialize (IH (pre ++ [x]) Nd1). rewrite <- app_assoc in IH. cbn [app] in IH. rewrite IH. change (1 <? 0)%nat with false. cbn [orb]. rewrite <- app_assoc. reflexivity.
    - destruct (hide_spec exact field vars asg sum missing pre x l (field x) H N1 N2) as [E _]. rewrite E. destruct (filter (exceeds exact field vars asg) (field x)) as [|a [|b r]]; cbn [bind length].
      + specialize (IH (pre ++ [x]) Nd1). rewrite <- app_assoc in IH. cbn [app] in IH. rewrite IH. change (1 <? 0)%nat with false. cbn [orb]. rewrite <- app_assoc. reflexivity.
      + rewrite (IH pre Nd2). reflexivity.
      + reflexivity. }
  exact (G dom [] N). Qed.

(** A value that exceeds cannot be completed. *)
Lemma count_occ_flat {A} (f : A -> list Z) (l : list A) k : Z.of_nat (count_occ Z.eq_dec (flat_map f l) k) = fold_right (fun a n => Z.of_nat (count_occ Z.eq_dec (f a) k) + n) 0 l.
Proof. induction l as [|a l IH]; [reflexivity|]. cbn [flat_map fold_right]. rewrite count_occ_app. lia. Qed.
Lemma number_grows field vars doms asg asg' k : completes vars doms asg asg' -> number field vars asg k <= number field vars asg' k.
Proof. intros C. unfold number, assigned_fields. rewrite !count_occ_flat. unfold completes in C. induction vars as [|v vars IH]; [cbn; lia|]. cbn [fold_right]. assert (I := IH ltac:(intros; apply C; right; assumption)). clear IH. specialize (C v ltac:(left; reflexivity)). destruct (dget asg v) as [i|].
  - rewrite C. lia.
  - cbn [count_occ]. lia. Qed.
Lemma number_plus field vars doms asg asg' k v i : completes vars doms asg asg' -> In v vars -> dget asg v = None -> dget asg' v = Some i -> x_ignore i = false -> In k (field i) ->
  number field vars asg k + 1 <= number field vars asg' k.
Proof. intros C I A A' Ig Ik. pose proof (in_split _ _ I) as (v1 & v2 & ->). 
  assert (C1 : completes v1 doms asg asg') by (intros x X; apply C; apply in_or_app; left; exact X). assert (C2 : completes v2 doms asg asg') by (intros x X; apply C; apply in_or_app; right; right; exact X).
  apply (number_grows field _ _ _ _ k) in C1. apply (number_grows field _ _ _ _ k) in C2. unfold number, assigned_fields in *. rewrite !flat_map_app. cbn [flat_map]. rewrite A, A', Ig. cbn [app]. rewrite !count_occ_app. apply (count_occ_In Z.eq_dec) in Ik. lia. Qed.
Lemma excess_hopeless exact field vars doms asg asg' v i : completes vars doms asg asg' -> In v vars -> dget asg v = None -> dget asg' v = Some i ->
  keeps exact field vars asg i = false -> ~ satisfies exact field vars asg'.
Proof. intros C I A A' K (_ & S). unfold keeps, excess in K. destruct (x_ignore i) eqn:Ig; [discriminate|]. destruct (filter _ (field i)) as [|k r] eqn:F; [discriminate|].
  assert (Ik : In k (filter (exceeds exact field vars asg) (field i))) by (rewrite F; left; reflexivity). apply filter_In in Ik. destruct Ik as [Ik X]. pose proof (number_plus field vars doms asg asg' k v i C I A A' Ig Ik) as P. specialize (S k).
  assert (0 <= number field vars asg k) by (unfold number; lia). unfold exceeds, required, dmem in *. destruct (dget exact k); cbn [negb orb] in X; lia. Qed.

(** ** All domains *)
Fixpoint bad_before exact field vars asg (l : list Z) (doms : dict (list xinst)) : bool :=
  match l with
  | [] => false
  | v :: l' =>
      if dmem asg v then bad_before exact field vars asg l' doms
      else match dget doms v with
           | None => false
           | Some dom => existsb (fun i => (1 <? length (excess exact field vars asg i))%nat) dom ||
                         (negb (forallb (fun i => negb (keeps exact field vars asg i)) dom) && bad_before exact field vars asg l' doms)
           end
  end.
Lemma filter_nil_forallb {A} (f : A -> bool) l : filter f l = [] <-> forallb (fun a => negb (f a)) l = true.
Proof. induction l as [|a l IH]; [split; reflexivity|]. cbn [filter forallb]. destruct (f a); cbn [negb andb]; [split; discriminate|exact IH]. Qed.
Lemma filter_keeps_nodup f (dom : list xinst) : NoDup (map x_id dom) -> NoDup (map x_id (filter f dom)).
Proof. induction dom as [|x dom IH]; cbn [map filter]; intros N; [exact N|]. inversion N as [|? ? N1 N2]; subst. destruct (f x); cbn [map]; [constructor; [|apply IH, N2]|apply IH, N2]. intros I. apply N1. apply in_map_iff in I. destruct I as (y & E & I). apply filter_In in I. rewrite <- E. apply in_map, I. Qed.
Lemma forward_spec exact field vars asg sum missing l : sums exact field vars asg = (sum, missing) -> NoDup l -> forall doms,
  proper_domains l doms asg ->
  match forward_check exact sum field asg l doms with
  | Err e => e = ValueError /\ bad_before exact field vars asg l doms = true
  | Ok (doms', emptied) => bad_before exact field vars asg l doms = false /\
      (forall v dom, dget doms v = Some dom -> exists dom', dget doms' v = Some dom' /\
           (dom' = dom \/ (In v l /\ dget asg v = None /\ dom' = filter (keeps exact field vars asg) dom))) /\
      (emptied = true <-> exists v dom, In v l /\ dget asg v = None /\ dget doms v = Some dom /\ filter (keeps exact field vars asg) dom = []) /\
      (emptied = false -> forall v dom, In v l -> dget asg v = None -> dget doms v = Some dom -> dget doms' v = Some (filter (keeps exact field vars asg) dom))
  end.
Proof. intros H. induction l as [|v l IH]; intros Nl doms P; cbn [forward_check bad_before].
  - split; [reflexivity|]. split; [intros v dom G; exists dom; split; [exact G|left; reflexivity]|]. split; [split; [discriminate|intros (v & dom & [] & _)]|intros _ ? ? []].
  - inversion Nl as [|? ? Nv Nl']; subst. unfold dmem. destruct (dget asg v) as [i|] eqn:Ea.
    + assert (P' : proper_domains l doms asg) by (split; [exact (proj1 P)|intros; apply (proj2 P); [right|]; assumption]). specialize (IH Nl' doms P'). destruct (forward_check exact sum field asg l doms) as [[doms' em]|e]; [|exact IH].
      destruct IH as (B & A & E & F). split; [exact B|]. split; [intros v' dom G; destruct (A v' dom G) as (dom' & G' & X); exists dom'; split; [exact G'|]; destruct X as [X|(X & Y)]; [left; exact X|right; split; [right; exact X|exact Y]]|]. split.
      * rewrite E. split; intros (v' & dom & I & R); [exists v', dom; split; [right; exact I|exact R]|]. destruct I as [<-|I]; [destruct R as [R _]; congruence|]. exists v', dom. auto.
      * intros Em v' dom [<-|I] A' G; [congruence|]. apply F; assumption.
    + destruct P as [P1 P2]. destruct (P2 v ltac:(left; reflexivity) Ea) as (dom & Gd). unfold dget_r. rewrite Gd. cbn [bind]. rewrite (filter_domain_spec _ _ _ _ _ _ dom H (P1 v dom Gd)). destruct (existsb _ dom) eqn:Ex; cbn [bind orb]; [split; reflexivity|].
      set (kept := filter (keeps exact field vars asg) dom) in *. destruct (forallb (fun i => negb (keeps exact field vars asg i)) dom) eqn:Ef.
      * assert (Ek : kept = []) by (apply filter_nil_forallb, Ef). rewrite Ek. cbn [negb andb]. split; [reflexivity|]. split; [|split; [split; [intros _; exists v, dom; split; [left; reflexivity|]; split; [exact Ea|]; split; [exact Gd|exact Ek]|reflexivity]|discriminate]].
        intros v' dom' G. destruct (Z.eq_dec v' v) as [->|Nv']; [|rewrite dget_dset_other by exact Nv'; exists dom'; split; [exact G|left; reflexivity]]. rewrite dget_dset_same. exists []. split; [reflexivity|]. right. split; [left; reflexivity|]. split; [exact Ea|]. assert (dom' = dom) as -> by congruence. symmetry. exact Ek.
      * cbn [negb andb]. destruct kept as [|k0 kr] eqn:Ek; [unfold kept in Ek; apply filter_nil_forallb in Ek; congruence|]. rewrite <- Ek in *.
        assert (Bd : forall l0, ~ In v l0 -> bad_before exact field vars asg l0 (dset doms v kept) = bad_before exact field vars asg l0 doms).
        { induction l0 as [|w l0 IHl]; intros Nw; [reflexivity|]. cbn [bad_before]. rewrite dget_dset_other by (intro; apply Nw; left; assumption). rewrite !IHl by (intro; apply Nw; right; assumption). reflexivity. }
        assert (P' : proper_domains l (dset doms v kept) asg).
        { split; [|intros w I A; destruct (P2 w ltac:(right; exact I) A) as (dw & Gw); rewrite dget_dset; destruct (w =? v); eauto]. intros w dw G. rewrite dget_dset in G. destruct (w =? v); [|eapply P1; exact G]. assert (dw = kept) as -> by congruence. apply filter_keeps_nodup, (P1 v dom Gd). }
        specialize (IH Nl' (dset doms v kept) P'). rewrite Bd in IH by exact Nv. destruct (forward_check exact sum field asg l (dset doms v kept)) as [[doms' em]|e]; [|exact IH]. destruct IH as (B & A & E & F).
        split; [exact B|]. split; [|split].
        { intros w dw G. destruct (Z.eq_dec w v) as [->|Nw].
          - destruct (A v kept ltac:(apply dget_dset_same)) as (d' & G' & X). exists d'. split; [exact G'|]. right. split; [left; reflexivity|]. split; [exact Ea|]. assert (dw = dom) as -> by congruence. destruct X as [X|(X & _)]; [exact X|contradiction].
          - destruct (A w dw ltac:(rewrite dget_dset_other by exact Nw; exact G)) as (d' & G' & X). exists d'. split; [exact G'|]. destruct X as [X|(X & Y)]; [left; exact X|right; split; [right; exact X|exact Y]]. }
        { rewrite E. split; intros (w & dw & I & Aw & G & K).
          - assert (Nw : w <> v) by (intros ->; contradiction). rewrite dget_dset_other in G by exact Nw. exists w, dw. split; [right; exact I|auto].
          - destruct I as [<-|I]; [assert (dw = dom) as -> by congruence; fold kept in K; congruence|]. assert (Nw : w <> v) by (intros ->; contradiction). exists w, dw. rewrite dget_dset_other by exact Nw. auto. }
        { intros Em w dw I Aw G. destruct I as [<-|I].
          - assert (dw = dom) as -> by congruence. destruct (A v kept ltac:(apply dget_dset_same)) as (d' & G' & [X|(X & _)]); [rewrite G', X; reflexivity|contradiction].
          - assert (Nw : w <> v) by (intros ->; contradiction). apply (F Em w dw I Aw). rewrite dget_dset_other by exact Nw. exact G. } Qed.

(** ** The whole call *)
Definition over exact field vars asg : Prop := exists k, (0 < number field vars asg k /\ dmem exact k = false) \/ (dmem exact k = true /\ required exact k < number field vars asg k).
Lemma over_hopeless exact field vars doms asg asg' : over exact field vars asg -> completes vars doms asg asg' -> ~ satisfies exact field vars asg'.
Proof. intros (k & O) C (_ & S). apply (number_grows field _ _ _ _ k) in C. specialize (S k). unfold required, dmem in *. destruct (dget exact k); destruct O as [[O1 O2]|[O1 O2]]; try discriminate; lia. Qed.
Lemma call_spec exact field vars doms asg fc : NoDup vars -> proper_domains vars doms asg ->
  match constraint_call exact field vars doms asg fc with
  | Err e => e = ValueError /\ fc = true /\ ~ complete vars asg /\ ~ over exact field vars asg /\ bad_before exact field vars asg vars doms = true
  | Ok (doms', b) =>
      (over exact field vars asg \/ (fc = true /\ ~ complete vars asg -> bad_before exact field vars asg vars doms = false)) /\
      (forall v dom, dget doms v = Some dom -> exists dom', dget doms' v = Some dom' /\
           (dom' = dom \/ (fc = true /\ ~ over exact field vars asg /\ In v vars /\ dget asg v = None /\ dom' = filter (keeps exact field vars asg) dom))) /\
      (b = false <-> over exact field vars asg \/ (complete vars asg /\ exists k, number field vars asg k <> required exact k) \/
         (fc = true /\ exists v dom, In v vars /\ dget asg v = None /\ dget doms v = Some dom /\ filter (keeps exact field vars asg) dom = [])) /\
      (b = true -> fc = true -> forall v dom, In v vars -> dget asg v = None -> dget doms v = Some dom -> dget doms' v = Some (filter (keeps exact field vars asg) dom))
  end.
Proof. intros Nv P. unfold constraint_call. destruct (sums exact field vars asg) as [sum missing] eqn:H. destruct (sums_spec _ _ _ _ _ _ H) as (Ns & Hm & G). pose proof (first_check _ _ _ _ _ _ H) as FC. destruct (existsb (too_many exact) sum) eqn:Ex.
  - assert (O : over exact field vars asg).
    { apply existsb_exists in Ex. destruct Ex as ([k n] & I & T). apply (dget_nodup_in _ _ _ Ns) in I. rewrite G in I. exists k. unfold too_many, required, dmem in *. cbn [fst snd] in T. destruct (dget exact k) as [e|]; cbn [orb] in I.
      - right. split; [reflexivity|]. assert (number field vars asg k = n) by congruence. lia.
      - left. destruct (0 <? number field vars asg k) eqn:Pk; [|discriminate]. split; [lia|reflexivity]. }
    split; [left; exact O|]. split; [intros v dom Gd; exists dom; split; [exact Gd|left; reflexivity]|]. split; [split; [intros _; left; exact O|reflexivity]|discriminate].
  - pose proof (proj1 FC eq_refl) as Cap. assert (NO : ~ over exact field vars asg). { intros (k & [[O1 O2]|[O1 O2]]); destruct (Cap k) as [A B]; [rewrite (A O1) in O2; discriminate|specialize (B O1); lia]. }
    assert (Dom : forall k n, In (k, n) sum -> exists e, dget exact k = Some e).
    { intros k n I. apply (dget_nodup_in _ _ _ Ns) in I. rewrite G in I. unfold dmem in *. destruct (Cap k) as [A _]. unfold dmem in A. destruct (dget exact k) as [e|]; [eauto|]. cbn [orb] in I. destruct (0 <? number field vars asg k) eqn:Pk; [|discriminate]. specialize (A ltac:(lia)). discriminate. }
    destruct (final_ok exact sum missing Dom) as (b & Eb & Hb).
    assert (Val : forall k n, In (k, n) sum -> n = number field vars asg k). { intros k n I. apply (dget_nodup_in _ _ _ Ns) in I. rewrite G in I. destruct (dmem exact k || _); congruence. }
    assert (Fb : b = false <-> complete vars asg /\ exists k, number field vars asg k <> required exact k).
    { destruct missing.
      - assert (b = true) as ->. { apply Hb. intros k n I. rewrite (Val k n I). destruct (Cap k) as [A B]. apply B. destruct (Dom k n I) as (e & E). unfold dmem. rewrite E. reflexivity. }
        split; [discriminate|]. intros [C _]. exfalso. apply (proj1 Hm eq_refl C).
      - assert (C : complete vars asg). { intros v I X. assert (Y : ~ complete vars asg) by (intros Z; exact (Z v I X)). apply Hm in Y. discriminate. }
        destruct b; [split; [discriminate|]|split; [intros _; split; [exact C|]|reflexivity]].
        + intros (_ & k & X). exfalso. apply X. clear X. destruct (Cap k) as [A B]. destruct (dmem exact k) eqn:M.
          * assert (I : In (k, number field vars asg k) sum) by (apply dget_in; rewrite G, M; reflexivity). apply (proj1 Hb eq_refl _ _ I).
          * assert (number field vars asg k = 0). { assert (0 <= number field vars asg k) by (unfold number; lia). destruct (Z.eq_dec (number field vars asg k) 0) as [Z0|Z0]; [exact Z0|]. specialize (A ltac:(lia)). discriminate. }
            unfold required. unfold dmem in M. destruct (dget exact k); [discriminate|lia].
        + assert (X : existsb (fun kn => negb (snd kn =? required exact (fst kn))) sum = true).
          { destruct (existsb (fun kn => negb (snd kn =? required exact (fst kn))) sum) eqn:X; [reflexivity|]. exfalso. assert (Y : false = true); [|discriminate]. apply Hb. intros k n I. destruct (Z.eq_dec n (required exact k)) as [Z0|Z0]; [exact Z0|]. exfalso. assert (W : existsb (fun kn => negb (snd kn =? required exact (fst kn))) sum = true) by (apply existsb_exists; exists (k, n); split; [exact I|cbn [fst snd]; lia]). congruence. }
          apply existsb_exists in X. destruct X as ([k n] & I & X). cbn [fst snd] in X. exists k. rewrite <- (Val k n I). lia. }
    destruct (fc && missing) eqn:Efc.
    + apply andb_true_iff in Efc. destruct Efc as [-> ->]. assert (NC : ~ complete vars asg) by (apply Hm; reflexivity). pose proof (forward_spec exact field vars asg sum true vars H Nv doms P) as F.
      destruct (forward_check exact sum field asg vars doms) as [[doms' em]|e]; cbn [bind]; [|destruct F; auto 6]. destruct F as (B & A & E & F).
      assert (A' : forall v dom, dget doms v = Some dom -> exists dom', dget doms' v = Some dom' /\ (dom' = dom \/ (true = true /\ ~ over exact field vars asg /\ In v vars /\ dget asg v = None /\ dom' = filter (keeps exact field vars asg) dom))).
      { intros v dom Gd. destruct (A v dom Gd) as (d' & G' & X). exists d'. split; [exact G'|]. destruct X as [X|(X & Y)]; [left; exact X|right; split; [reflexivity|]; split; [exact NO|]; split; [exact X|exact Y]]. }
      destruct em.
      * split; [right; intros _; exact B|]. split; [exact A'|]. split; [split; [intros _; right; right; split; [reflexivity|apply E; reflexivity]|reflexivity]|discriminate].
      * rewrite Eb. cbn [bind]. split; [right; intros _; exact B|]. split; [exact A'|]. split.
        { rewrite Fb. split; [intros X; right; left; exact X|]. intros [X|[X|(_ & X)]]; [contradiction|exact X|]. apply E in X. discriminate. }
        { intros _ _ v dom I Av Gd. apply (F eq_refl v dom I Av Gd). }
    + cbn [bind]. rewrite Eb. cbn [bind]. assert (NF : fc = true -> complete vars asg). { intros ->. cbn [andb] in Efc. intros v I X. assert (Y : missing = true) by (apply Hm; intros Z; exact (Z v I X)). congruence. }
      split; [right; intros [Y Z]; exfalso; apply Z, NF, Y|]. split; [intros v dom Gd; exists dom; split; [exact Gd|left; reflexivity]|]. split.
      * rewrite Fb. split; [intros X; right; left; exact X|]. intros [X|[X|(Y & v & dom & I & Av & _)]]; [contradiction|exact X|]. exfalso. apply (NF Y v I Av).
      * intros _ Y v dom I Av. exfalso. apply (NF Y v I Av). Qed.
