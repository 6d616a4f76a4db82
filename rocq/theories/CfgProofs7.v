(** Which edges the built graph has: the loop. *)
From Verif Require Import ListLemmas.
From Verif Require Export CfgProofs6.
From Coq Require Import ZifyBool ZifyNat Permutation.

(** Where the current block is, before the [k]-th instruction. *)
Definition place (p : list cinst) (k : nat) (st : cfg) (own : Z -> nat) (cb : Z) (lf : option Z) : Prop :=
  (kind_of st cb = Some KRoot /\ firstd p k /\ lf = None) \/
  (exists l x, instructions st cb = l ++ [x] /\ lastd p k x /\ match lf with Some f => f = cond_at p x | None => is_branch p x = true end) \/
  (exists l x i, instructions st cb = l ++ [x] /\ skipped p x i /\ lastd p k i /\ lf = None) \/
  (kind_of st cb = Some KUnknown /\ lastd p k (own cb) /\ resumes p (own cb) /\ lf = None).
Definition own_ok (p : list cinst) (k : nat) (st : cfg) (own : Z -> nat) : Prop :=
  forall n, kind_of st n = Some KCond -> (own n < k)%nat /\ is_defined p (own n) = true /\ arrow st (inr n) (inl (own n)).
Definition Inv6 (p : list cinst) (k : nat) (s : loop_state) : Prop :=
  Inv p k s /\ let '(st, (cb, lf, lc)) := s in
  exists own, sound false p st own /\ kind_of st 2 = Some KEnd /\ own_ok p k st own /\ (forall n, lc = Some n -> kind_of st n = Some KCond /\ skips p (own n) k) /\ place p k st own cb lf.

Lemma last_next p k x : lastd p k x -> is_defined p k = true -> nextd p x k.
Proof. intros (A & B & C) D. split; [exact A|]. split; [exact D|]. auto. Qed.
Lemma last_S p k x : lastd p k x -> is_defined p k = false -> lastd p (S k) x.
Proof. intros (A & B & C) D. split; [exact A|]. split; [lia|]. intros j J. destruct (Nat.eq_dec j k) as [->|]; [exact D|apply C; lia]. Qed.
Lemma last_self p k : is_defined p k = true -> lastd p (S k) k.
Proof. intros D. split; [exact D|]. split; [lia|]. intros j J. lia. Qed.
Lemma place_reach p k st own cb lf : sane st -> is_defined p k = true -> place p k st own cb lf -> last_is_branch p st cb = false -> forall s, is_src st s cb -> reach p st own s k.
Proof. intros Sn D P Lb s S. destruct P as [(K & F & _)|[(l & x & I & Lx & _)|[(l & x & i & I & Sk & Li & _)|(K & Lu & Ln & _)]]].
  - rewrite (place_special _ _ _ _ Sn K ltac:(discriminate) (or_introl S)). cbn [reach]. rewrite K. exact F.
  - assert (s = inl x) as ->. { destruct s as [z|n]; cbn [is_src] in S; [destruct S as (q & Q); rewrite I in Q; apply last_unique in Q as ->; reflexivity|]. destruct S as (<- & q & Q & Nq). assert (kind_of st cb = Some KBlock) by (apply Sn; rewrite I; destruct l; discriminate). congruence. }
    left. split; [apply last_next; assumption|]. left. unfold last_is_branch in Lb. rewrite I, rev_app_distr in Lb. exact Lb.
  - assert (s = inl x) as ->. { destruct s as [z|n]; cbn [is_src] in S; [destruct S as (q & Q); rewrite I in Q; apply last_unique in Q as ->; reflexivity|]. destruct S as (<- & q & Q & Nq). assert (kind_of st cb = Some KBlock) by (apply Sn; rewrite I; destruct l; discriminate). congruence. }
    right. exists i. split; [exact Sk|]. split; [unfold last_is_branch in Lb; rewrite I, rev_app_distr in Lb; exact Lb|]. apply last_next; assumption.
  - rewrite (place_special _ _ _ _ Sn K ltac:(discriminate) (or_introl S)). cbn [reach]. rewrite K. split; [exact Ln|]. apply last_next; assumption. Qed.
Lemma cond_node st n : good st -> kind_of st n = Some KCond -> In n (nodes st).
Proof. intros G K. apply special_in; [exact G|]. exists KCond. split; [exact K|discriminate]. Qed.

Lemma step6 p k s c s' : Inv6 p k s -> nth_error p k = Some c -> build_step p 2 s (k, c) = Ok s' -> Inv6 p (S k) s'.
Proof.
  destruct s as [st [[cb lf] lc]]. intros (HI & own & So & K2 & Ow & Hlc & Pl) Ec E. assert (HI' : Inv p (S k) s') by (destruct (build_step_ok p k _ c HI Ec) as (s1 & E1 & H1 & _); assert (s1 = s') as <- by congruence; exact H1). split; [exact HI'|].
  assert (Le : forall n j, In j (instructions (fst s') n) -> (j <= k)%nat).
  { destruct s' as [st' [[cb' lf'] lc']]. destruct HI' as (C' & _). cbn [fst]. intros n j J. destruct (co_seg _ _ _ _ C' n) as (a0 & b0 & Eq). assert (X : In j (defined p (S k))) by (rewrite Eq; apply in_app_iff; right; apply in_app_iff; left; exact J). apply defined_in in X. lia. }
  pose proof HI as (C & B & Hl & Hf). pose proof (core_sane _ _ _ _ C) as Sn. unfold build_step in E.
  assert (Old : forall st2 own2, keeps any st st2 -> (forall n, kind_of st2 n = Some KCond -> kind_of st n = Some KCond) -> (forall n, In n (nodes st) -> own2 n = own n) -> own_ok p (S k) st2 own2).
  { intros st2 own2 Kp Kc Ho n Kn. apply Kc in Kn. destruct (Ow n Kn) as (A1 & A2 & A3). rewrite Ho by (apply cond_node; [apply Sn|exact Kn]). split; [lia|]. split; [exact A2|]. apply Kp; [intros; exact I|exact A3]. }
  destruct (ci_undefined c) eqn:U.
  { injection E as <-. assert (D : is_defined p k = false) by (unfold is_defined; now rewrite Ec, U). exists own. split; [exact So|]. split; [exact K2|].
    split; [apply Old; [apply keeps_refl|auto|auto]|]. split.
    - intros n En. destruct (Hlc n En) as (A1 & A2 & A3). split; [exact A1|]. split; [lia|]. intros j J Dj. destruct (Nat.eq_dec j k) as [->|]; [congruence|apply A3; [lia|exact Dj]].
    - destruct Pl as [(A1 & A2 & A3)|[(l & x & A1 & A2 & A3)|[(l & x & i & A1 & A2 & A3 & A4)|(A1 & A2 & A3 & A4)]]].
      + left. split; [exact A1|]. split; [|exact A3]. intros j J. destruct (Nat.eq_dec j k) as [->|]; [exact D|apply A2; lia].
      + right. left. exists l, x. split; [exact A1|]. split; [apply last_S; assumption|exact A3].
      + right. right. left. exists l, x, i. split; [exact A1|]. split; [exact A2|]. split; [apply last_S; assumption|exact A4].
      + right. right. right. split; [exact A1|]. split; [apply last_S; assumption|]. auto. }
  assert (D : is_defined p k = true) by (unfold is_defined; now rewrite Ec, U).
  assert (Ck : cond_at p k = ci_cond c) by (unfold cond_at; now rewrite Ec).
  assert (Bk : is_branch p k = ci_branch c) by (unfold is_branch; now rewrite Ec).
  assert (Lk : is_link p k = ci_link c) by (unfold is_link; now rewrite Ec).
  destruct (match lf with Some f => ci_cond c =? f | None => false end) eqn:Cond.
  - destruct lf as [f|]; [|discriminate]. apply Z.eqb_eq in Cond.
    destruct Pl as [(_ & _ & X)|[(l & x & Ix & Lx & Fx)|[(_ & _ & _ & _ & _ & _ & X)|(_ & _ & _ & X)]]]; try discriminate X.
    assert (Cx : cond_at p k = cond_at p x) by congruence.
    assert (Lc' : forall st2 own2, keeps any st st2 -> (forall n, In n (nodes st) -> own2 n = own n) -> forall n, lc = Some n -> kind_of st2 n = Some KCond /\ skips p (own2 n) (S k)).
    { intros st2 own2 Kp Ho n En. destruct (Hlc n En) as (A1 & A2 & A3). split; [apply Kp, A1|]. rewrite Ho by (apply cond_node; [apply Sn|exact A1]). destruct (Ow n A1) as (_ & Dn & _). split; [lia|]. intros j J Dj. destruct (Nat.eq_dec j k) as [->|]; [|apply A3; [lia|exact Dj]].
      unfold conditional. rewrite Cx. apply A3; [|apply Lx]. destruct Lx as (Dx & Lxk & Lx). split; [|exact Lxk]. destruct (Nat.le_gt_cases (own n) x) as [|Gt]; [assumption|]. rewrite Lx in Dn by lia. discriminate. }
    destruct (ci_branch c) eqn:Br.
    + rewrite branch_instruction_tail in E. destruct (new_node st KBlock [k]) as [[st1 b]|] eqn:E1; [|discriminate]. cbn [bind] in E.
      destruct (sound_node false p st own KBlock [k] st1 b k Sn So ltac:(intros X; destruct (X eq_refl)) ltac:(cbn; lia) E1) as (Sn1 & So1 & Kb1 & Ib1 & N1 & F1 & O1 & P1).
      destruct (new_node_inv _ _ _ _ _ Sn ltac:(intros X; destruct (X eq_refl)) E1) as (_ & _ & Kp1 & _).
      set (own1 := fun x => if x =? b then k else own x) in *. pose proof (node_agrees st st1 own b k F1 N1 O1) as A1. fold own1 in A1.
      destruct (edge_add st1 cb b) as [st2|] eqn:E2; [|discriminate]. cbn [bind] in E. destruct (edge_add_inv _ _ _ _ Sn1 E2) as (_ & Kp2 & _).
      destruct (A1 cb B) as (_ & _ & _ & Ic1). rewrite Ix in Ic1.
      destruct (sound_edge false p st1 own1 cb b st2 Sn1 So1 E2) as (Sn2 & S2 & So2).
      { intros s t S T. rewrite (tgt_first _ _ _ _ _ Sn1 Ib1 T). destruct s as [z|n]; cbn [is_src] in S.
        - destruct S as (q & Q). rewrite Ic1 in Q. apply last_unique in Q as <-. left. left. split; [apply last_next; assumption|right; exact Cx].
        - exfalso. destruct S as (<- & q & Q & Nq). assert (kind_of st1 cb = Some KBlock) by (apply Sn1; rewrite Ic1; destruct l; discriminate). congruence. }
      pose proof (agrees_trans _ _ _ _ _ _ A1 (agrees_same _ _ own1 S2)) as A2. pose proof S2 as (_ & _ & _ & N2).
      destruct (branch_tail p st2 (Some cb) b k c 2) as [[st3 cb']|] eqn:E3; [|discriminate]. cbn [bind] in E.
      assert (Bn2 : In b (nodes st2)) by (rewrite N2, N1; apply in_app_iff; right; left; reflexivity). assert (Ib2 : instructions st2 b = [k]) by (rewrite (same_inst _ _ _ S2); exact Ib1).
      assert (E2n : In 2 (nodes st)) by (apply special_in; [apply Sn|exists KEnd; split; [exact K2|discriminate]]).
      assert (K22 : kind_of st2 2 = Some KEnd) by (destruct (A2 2 E2n) as (_ & _ & -> & _); exact K2).
      assert (Le3 : forall n j, In j (instructions st3 n) -> (j <= k)%nat) by (destruct cb' as [cb'|]; [|discriminate]; injection E as <-; exact Le).
      destruct (sound_tail p st2 own1 k c (Some cb) b st3 cb' Sn2 So2 Bn2 K22 Ib2 Ec D Br E3 Le3) as (own3 & Sn3 & So3 & Ag3 & Kc3 & En3 & Hc).
      destruct (tail_inv _ _ _ _ _ _ _ _ Sn2 Bn2 E3) as (_ & Kp3 & _). assert (K0 : keeps any st st3) by (eapply keeps_trans; [exact Kp1|]; eapply keeps_trans; eassumption).
      assert (Ho : forall n, In n (nodes st) -> own3 n = own n). { intros n N. destruct (A2 n N) as (X1 & X2 & _). destruct (Ag3 n X1) as (_ & X3 & _). congruence. }
      assert (Kc : forall n, kind_of st3 n = Some KCond -> kind_of st n = Some KCond). { intros n Kn. apply Kc3 in Kn. rewrite (same_kind _ _ _ S2) in Kn. destruct (Z.eq_dec n b) as [->|Ne]; [congruence|]. rewrite <- (proj2 (O1 n Ne)). exact Kn. }
      destruct cb' as [cb'|]; [|discriminate]. injection E as <-. exists own3. split; [exact So3|]. split; [rewrite (proj2 (proj2 (Ag3 2 (proj1 (A2 2 E2n))))); exact K22|]. split; [apply Old; assumption|]. split; [apply Lc'; assumption|].
      destruct (ci_link c) eqn:Li.
      * destruct Hc as [Hc|(u & Hc & Un & Ku & Ou)]; injection Hc as ->.
        -- right. left. destruct (En3 b k [] Ib2) as (l' & El'). exists l', k. split; [exact El'|]. split; [apply last_self, D|exact Bk].
        -- right. right. right. split; [exact Ku|]. rewrite Ou. split; [apply last_self, D|]. split; [|reflexivity]. split; [exact Lk|]. exists x. split; [apply last_next; assumption|exact Cx].
      * injection Hc as ->. right. right. left. assert (I2 : instructions st2 cb = l ++ [x]) by (rewrite (same_inst _ _ _ S2); exact Ic1). destruct (En3 cb x l I2) as (l' & El'). exists l', x, k. split; [exact El'|]. split; [|split; [apply last_self, D|reflexivity]].
        split; [apply last_next; assumption|]. auto.
    + rewrite (co_pend _ _ _ _ C k) in E by lia. injection E as <-. destruct (append_keeps st cb l x k Sn B Ix) as [K0 _].
      destruct (set_inst_ok st cb (instructions st cb ++ [k]) (proj1 Sn) B) as (G' & Gr & L' & P' & I' & Kd). set (st' := set_instructions st cb (instructions st cb ++ [k])) in *.
      exists own. split; [|split; [|split; [|split]]].
      * apply (sound_append p st own cb l x k); auto. { intros n Kn. apply Ow, Kn. } intros b j J. destruct (co_seg _ _ _ _ C b) as (a0 & b0 & Eq). assert (X : In j (defined p k)) by (rewrite Eq; apply in_app_iff; right; apply in_app_iff; left; exact J). apply defined_in in X. lia.
      * rewrite Kd. exact K2.
      * intros n. rewrite Kd. intros Kn. destruct (Ow n Kn) as (A1 & A2 & A3). split; [lia|]. split; [exact A2|]. apply K0; [discriminate|exact A3].
      * intros n En. rewrite Kd. split; [apply Hlc, En|]. destruct (Lc' st own (keeps_refl _ _) (fun _ _ => eq_refl) n En) as [_ X]. exact X.
      * right. left. exists (l ++ [x]), k. split; [rewrite I', Z.eqb_refl, Ix; reflexivity|]. split; [apply last_self, D|congruence].
  - destruct (branch_conditional p st k c cb lc) as [[st1 [b lc']]|] eqn:E1; [|discriminate]. cbn [bind] in E.
    destruct (conditional_inv p st k c cb lc st1 b lc' Sn B (co_pend _ _ _ _ C k (le_n k)) E1) as (_ & Kp1 & _).
    destruct (sound_conditional p st own k c cb lc st1 b lc' Sn So B) as (own1 & Sn1 & So1 & A1 & Ib1 & Bn1 & Kc1 & Hc).
    { intros n En. split; [apply Hl, En|]. apply Hlc, En. } { apply C. lia. } { intros Lb. eapply place_reach; eassumption. } { exact E1. }
    assert (E2n : In 2 (nodes st)) by (apply special_in; [apply Sn|exists KEnd; split; [exact K2|discriminate]]).
    assert (K21 : kind_of st1 2 = Some KEnd) by (destruct (A1 2 E2n) as (_ & _ & -> & _); exact K2).
    assert (Fin : forall st2 own2, keeps any st1 st2 -> sound false p st2 own2 -> (forall n, In n (nodes st1) -> own2 n = own1 n) -> (forall n, kind_of st2 n = Some KCond -> kind_of st1 n = Some KCond) -> (exists l, instructions st2 b = l ++ [k]) ->
      exists own, sound false p st2 own /\ kind_of st2 2 = Some KEnd /\ own_ok p (S k) st2 own /\ (forall n, lc' = Some n -> kind_of st2 n = Some KCond /\ skips p (own n) (S k)) /\ place p (S k) st2 own b (Some (ci_cond c))).
    { intros st2 own2 Kp So2 Ho Kc (lb & Ib2). exists own2. split; [exact So2|]. split; [apply Kp, K21|]. split; [|split].
      - intros n Kn. apply Kc in Kn. rewrite Ho by (apply cond_node; [apply Sn1|exact Kn]). destruct (Kc1 n Kn) as [Kn0|[-> Ar]].
        + destruct (Ow n Kn0) as (X1 & X2 & X3). destruct (A1 n (cond_node _ _ (proj1 Sn) Kn0)) as (_ & -> & _). split; [lia|]. split; [exact X2|]. apply Kp; [intros; exact I|]. apply Kp1; [intros; exact I|exact X3].
        + split; [lia|]. split; [exact D|]. apply Kp; [intros; exact I|exact Ar].
      - intros n En. destruct (Z.eqb_spec (ci_cond c) cond_always) as [Al|Al]; [congruence|]. destruct Hc as (m & Em & Nm & Km & Om). assert (m = n) as -> by congruence. split; [apply Kp, Km|]. rewrite Ho, Om by exact Nm. split; [lia|]. intros j J Dj. assert (j = k) as -> by lia. unfold conditional. rewrite Ck. exact Al.
      - right. left. exists lb, k. split; [exact Ib2|]. split; [apply last_self, D|congruence]. }
    destruct (ci_branch c) eqn:Br.
    + rewrite branch_instruction_tail in E. cbn [bind] in E. destruct (branch_tail p st1 None b k c 2) as [[st2 cb']|] eqn:E2; [|discriminate]. cbn [bind] in E. injection E as <-.
      destruct (sound_tail p st1 own1 k c None b st2 cb' Sn1 So1 Bn1 K21 Ib1 Ec D Br E2 Le) as (own3 & Sn3 & So3 & Ag3 & Kc3 & En3 & _). destruct (tail_inv _ _ _ _ _ _ _ _ Sn1 Bn1 E2) as (_ & Kp3 & _).
      apply (Fin st2 own3); auto. { intros n N. apply (Ag3 n N). } apply (En3 b k []). exact Ib1.
    + cbn [bind] in E. injection E as <-. apply (Fin st1 own1); auto; [apply keeps_refl|]. exists []. exact Ib1.
Qed.
Lemma loop6 p : forall rest k s s', p = firstn k p ++ rest -> (k + length rest = length p)%nat -> Inv6 p k s -> foldM (build_step p 2) (combine (seq k (length rest)) rest) s = Ok s' -> Inv6 p (length p) s'.
Proof. induction rest as [|c rest IH]; intros k s s' E L H.
  - cbn in *. intros X. injection X as <-. assert (k = length p) by lia. subst. exact H.
  - cbn [length] in *. cbn [seq combine foldM].
    assert (Lk : length (firstn k p) = k) by (rewrite firstn_length; lia).
    assert (Ec : nth_error p k = Some c) by (rewrite E, nth_error_app2, Lk, Nat.sub_diag by lia; auto).
    destruct (build_step p 2 s (k, c)) as [s1|] eqn:E1; [|discriminate]. cbn [bind]. apply (IH (S k)); [|lia|eapply step6; eassumption].
    rewrite E at 1. assert (X : firstn (S k) p = firstn k p ++ [c]).
    { rewrite E at 1. rewrite firstn_app, Lk. rewrite firstn_all2 by lia. replace (S k - k)%nat with 1%nat by lia. reflexivity. }
    rewrite X, <- app_assoc. reflexivity. Qed.
Lemma sound_true p st own : sound false p st own -> sound true p st own.
Proof. intros (J & A). split; [|exact A]. intros s t Ar. specialize (J s t Ar). revert J. unfold just. destruct s as [x|n], t as [y|m]; auto.
  - destruct (kind_of st m) as [[]|]; auto. intros [X _]. discriminate.
  - destruct (kind_of st n) as [[]|], (kind_of st m) as [[]|]; auto. intros [X _]. discriminate. Qed.
Lemma build6 p st : p <> [] -> build p = Ok st -> exists own, good st /\ sane st /\ sound true p st own /\ kind_of st 1 = Some KRoot /\ kind_of st 2 = Some KEnd /\ own_ok p (length p) st own.
Proof.
  intros Np Eb. destruct (build_ok p Np) as (st' & E' & _ & K1 & K2). assert (st' = st) as -> by congruence. clear E'. revert Eb.
  destruct p as [|c0 p0]; [contradiction|]. set (p := c0 :: p0) in *. unfold build. fold p.
  destruct (new_node_ok _ KRoot [] good_start) as (st1 & E1 & G1 & L1 & P1 & N1 & Ed1 & I1 & K1'); [discriminate|cbn; lia|]. cbn [c_last] in *.
  rewrite E1. cbn [bind]. destruct (new_node_ok st1 KEnd [] G1) as (st2 & E2 & G2 & L2 & P2 & N2 & Ed2 & I2 & K2'); [discriminate|lia|]. rewrite E2. cbn [bind].
  rewrite L1 in *. change (0 + 1) with 1 in *. change (1 + 1) with 2 in *.
  assert (I0 : forall x, instructions st2 x = []) by (intros x; rewrite I2, I1; destruct (x =? 2), (x =? 1); reflexivity).
  assert (H0 : Inv6 p 0 (st2, (1, None, None))).
  { split.
    - split; [|split; [rewrite N2, N1; cbn; auto|split; [discriminate|congruence]]]. apply Core; [auto|lia|..].
      + unfold insts. fold (nodes st2). assert (flat_map (instructions st2) (nodes st2) = []) as ->; [|constructor]. clear -I0. induction (nodes st2) as [|x l IH]; [auto|]. cbn [flat_map]. rewrite I0. exact IH.
      + intros x. rewrite I0. apply segment_nil.
      + intros j _. rewrite P2, P1. reflexivity.
      + intros x. rewrite I0, K2', K1'. split; [|congruence]. destruct (x =? 2); [discriminate|]. destruct (x =? 1); [discriminate|]. cbn. discriminate.
      + intros x j. rewrite I0. intros [].
      + intros j; lia.
    - exists (fun _ => 0%nat). split; [|split; [rewrite K2'; reflexivity|split; [|split; [discriminate|]]]].
      + split.
        * intros s t (b & b' & _ & _ & E). exfalso. apply Ed2, Ed1 in E. destruct (edg_nodes _ _ _ good_start E) as [X _]. destruct X.
        * intros x y (b & l1 & l2 & E). rewrite I0 in E. destruct l1; discriminate.
      + intros n. rewrite K2', K1'. destruct (n =? 2); [discriminate|]. destruct (n =? 1); discriminate.
      + left. split; [rewrite K2', K1'; reflexivity|]. split; [|reflexivity]. intros j J. lia. }
  destruct (foldM (build_step p 2) (combine (seq 0 (length p)) p) (st2, (1, None, None))) as [s|] eqn:E3; [|discriminate]. cbn [bind].
  pose proof (loop6 p p 0 _ _ eq_refl eq_refl H0 E3) as (HI & H6). destruct s as [st3 [[cb lf] lc]]. destruct H6 as (own & So & K23 & Ow & _ & Pl). destruct HI as (C & B & _). pose proof (core_sane _ _ _ _ C) as Sn3.
  intros E4. destruct (edge_once_inv _ _ _ _ Sn3 E4) as (Sn & K & _).
  destruct (sound_edge_once true p st3 own cb 2 st Sn3 (sound_true _ _ _ So) E4) as (_ & S4 & So4).
  { intros s t S T. rewrite (place_special _ _ _ _ Sn3 K23 ltac:(discriminate) (or_intror T)).
    destruct Pl as [(A1 & A2 & A3)|[(l & x & A1 & A2 & A3)|[(l & x & i & A1 & A2 & A3 & A4)|(A1 & A2 & A3 & A4)]]].
    - rewrite (place_special _ _ _ _ Sn3 A1 ltac:(discriminate) (or_introl S)). cbn [just]. rewrite A1, K23. auto.
    - assert (s = inl x) as ->. { destruct s as [z|n]; cbn [is_src] in S; [destruct S as (q & Q); rewrite A1 in Q; apply last_unique in Q as ->; reflexivity|]. destruct S as (<- & q & Q & Nq). assert (kind_of st3 cb = Some KBlock) by (apply Sn3; rewrite A1; destruct l; discriminate). congruence. }
      cbn [just]. rewrite K23. split; [reflexivity|]. left. exact A2.
    - assert (s = inl x) as ->. { destruct s as [z|n]; cbn [is_src] in S; [destruct S as (q & Q); rewrite A1 in Q; apply last_unique in Q as ->; reflexivity|]. destruct S as (<- & q & Q & Nq). assert (kind_of st3 cb = Some KBlock) by (apply Sn3; rewrite A1; destruct l; discriminate). congruence. }
      cbn [just]. rewrite K23. split; [reflexivity|]. right. eauto.
    - rewrite (place_special _ _ _ _ Sn3 A1 ltac:(discriminate) (or_introl S)). cbn [just]. rewrite A1, K23. auto. }
  exists own. split; [apply Sn|]. split; [exact Sn|]. split; [exact So4|]. split; [exact K1|]. split; [exact K2|].
  intros n Kn. rewrite (same_kind _ _ _ S4) in Kn. destruct (Ow n Kn) as (X1 & X2 & X3). split; [exact X1|]. split; [exact X2|]. apply K; [intros; exact I|exact X3]. Qed.
