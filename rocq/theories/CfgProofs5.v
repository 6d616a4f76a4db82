(** The invariant about how control passes between instructions. *)
From Verif Require Import ListLemmas.
From Verif Require Export CfgProofs4.
From Coq Require Import ZifyBool ZifyNat Permutation.

Definition cond_at (p : list cinst) (i : nat) : Z := match nth_error p i with Some c => ci_cond c | None => 0 end.
Definition via (st : cfg) (s t : nat + Z) : Prop := exists n, kind_of st n = Some KCond /\ arrow st s (inr n) /\ arrow st (inr n) t.
Definition steps (p : list cinst) (st : cfg) (x y : nat) : Prop :=
  if cond_at p y =? cond_at p x then adjacent st x y \/ arrow st (inl x) (inl y)
  else if cond_at p y =? cond_always then arrow st (inl x) (inl y) else via st (inl x) (inl y).
Fixpoint chain (st : cfg) (s : nat + Z) (l : list Z) (t : nat + Z) : Prop :=
  match l with [] => arrow st s t | n :: l => kind_of st n = Some KCond /\ arrow st s (inr n) /\ chain st (inr n) l t end.
Definition unknown_call (p : list cinst) (x : nat) : Prop := exists c, nth_error p x = Some c /\ ci_branch c = true /\ ci_link c = true /\ branch_to p c = None.
Definition after_call (p : list cinst) (st : cfg) (x y : nat) : Prop :=
  exists u, kind_of st u = Some KUnknown /\ arrow st (inl x) (inr u) /\ if cond_at p y =? cond_always then arrow st (inr u) (inl y) else via st (inr u) (inl y).
Definition conditional (p : list cinst) (i : nat) : Prop := cond_at p i <> 14.

Definition claim_next p k st := forall a x y b, defined p k = a ++ x :: y :: b -> is_branch p x = false -> steps p st x y.
Definition claim_open p k st (lc : option Z) := forall a w u ws, defined p k = a ++ w :: u :: ws -> is_branch p w = false -> Forall (conditional p) (u :: ws) -> cond_at p u <> cond_at p w ->
  exists n l, lc = Some n /\ chain st (inl w) l (inr n).
Definition claim_over p k st := forall a w u ws ws0 v y b, defined p k = a ++ w :: (u :: ws) ++ y :: b -> u :: ws = ws0 ++ [v] -> is_branch p w = false -> Forall (conditional p) (u :: ws) -> cond_at p u <> cond_at p w -> cond_at p v <> cond_at p y ->
  exists l, chain st (inl w) l (inl y).
Definition claim_call p k st := forall a w x y b, defined p k = a ++ w :: x :: y :: b -> is_branch p w = false -> unknown_call p x -> cond_at p x = cond_at p w -> after_call p st x y.

Lemma chain_keep P st st' : keeps P st st' -> forall l s t, (forall x, s = inl x -> P x) -> chain st s l t -> chain st' s l t.
Proof. intros (_ & B & C). induction l as [|n l IH]; intros s t Ps; cbn [chain]; [apply B, Ps|]. intros (K & A & R). split; [auto|]. split; [apply B; assumption|]. apply IH; [discriminate|exact R]. Qed.
Lemma chain_snoc st n t : kind_of st n = Some KCond -> arrow st (inr n) t -> forall l s, chain st s l (inr n) -> chain st s (l ++ [n]) t.
Proof. intros K A. induction l as [|m l IH]; intros s; cbn [chain app]; [auto|]. intros (Km & Am & R). auto. Qed.
Lemma via_keep P st st' s t : keeps P st st' -> (forall x, s = inl x -> P x) -> via st s t -> via st' s t.
Proof. intros (_ & B & C) Ps (n & K & A1 & A2). exists n. split; [auto|]. split; apply B; auto. discriminate. Qed.

(** The last instruction so far is no source of a claim. *)
Definition not_last (p : list cinst) (k : nat) (x : nat) : Prop := forall a, defined p k <> a ++ [x].
Lemma in_defined_nodup p k : NoDup (defined p k). Proof. apply NoDup_filter, seq_NoDup. Qed.
Lemma followed p k a x y b : defined p k = a ++ x :: y :: b -> not_last p k x.
Proof. intros E a' E'. pose proof (in_defined_nodup p k) as N. rewrite E in N. rewrite E in E'. destruct (exists_last (l := y :: b)) as (b' & z & Eb); [discriminate|]. rewrite Eb in *.
  change (a ++ x :: b' ++ [z]) with (a ++ (x :: b') ++ [z]) in *. rewrite app_assoc in E', N. apply app_inj_tail in E' as [_ ->]. apply NoDup_remove_2 in N. apply N. rewrite app_nil_r. apply in_app_iff. right. left. reflexivity. Qed.
Lemma steps_keep p k st st' x y : keeps (not_last p k) st st' -> not_last p k x -> steps p st x y -> steps p st' x y.
Proof. intros K N. unfold steps. assert (Ps : forall z, inl x = @inl nat Z z -> not_last p k z) by congruence. destruct (cond_at p y =? cond_at p x); [|destruct (cond_at p y =? cond_always); [apply K, Ps|now apply (via_keep _ _ _ _ _ K)]].
  intros [H|H]; [destruct K as (A & _); apply A, H|right]. now apply K. Qed.
Lemma call_keep p k st st' x y : keeps (not_last p k) st st' -> not_last p k x -> after_call p st x y -> after_call p st' x y.
Proof. intros K N (u & Ku & A & B). assert (Ps : forall z, inl x = @inl nat Z z -> not_last p k z) by congruence. pose proof K as (_ & K2 & K3). exists u. split; [auto|]. split; [apply K2; assumption|].
  destruct (cond_at p y =? cond_always); [apply K2; [discriminate|exact B]|eapply via_keep; [exact K|discriminate|exact B]]. Qed.
Lemma keep_next p k st st' : keeps (not_last p k) st st' -> claim_next p k st -> claim_next p k st'.
Proof. intros K H a x y b E Nb. eapply steps_keep; [exact K|eapply followed; exact E|eauto]. Qed.
Lemma keep_open p k st st' lc : keeps (not_last p k) st st' -> claim_open p k st lc -> claim_open p k st' lc.
Proof. intros K H a w u ws E Nb F D. destruct (H a w u ws E Nb F D) as (n & l & En & C). exists n, l. split; [exact En|]. eapply chain_keep; [exact K| |exact C]. intros x X. injection X as <-. eapply followed; exact E. Qed.
Lemma keep_over p k st st' : keeps (not_last p k) st st' -> claim_over p k st -> claim_over p k st'.
Proof. intros K H a w u ws ws0 v y b E V Nb F D1 D2. destruct (H a w u ws ws0 v y b E V Nb F D1 D2) as (l & C). exists l. eapply chain_keep; [exact K| |exact C]. intros x X. injection X as <-. eapply followed; exact E. Qed.
Lemma keep_call p k st st' : keeps (not_last p k) st st' -> claim_call p k st -> claim_call p k st'.
Proof. intros K H a w x y b E Nb U D. eapply call_keep; [exact K| |eauto]. eapply (followed p k (a ++ [w])). rewrite <- app_assoc. exact E. Qed.

(** One more instruction. *)
Lemma split_snoc {A} (l m : list A) k a : m ++ [k] = a ++ l -> l <> [] -> exists l', l = l' ++ [k] /\ m = a ++ l'.
Proof. intros E N. destruct (exists_last N) as (l' & z & ->). rewrite app_assoc in E. apply app_inj_tail in E as [-> ->]. eauto. Qed.
Lemma next_S p k st : is_defined p k = true -> claim_next p k st -> (forall a x, defined p k = a ++ [x] -> is_branch p x = false -> steps p st x k) -> claim_next p (S k) st.
Proof. intros D H N a x y b E Nb. rewrite defined_S, D in E. apply split_snoc in E as (l & El & Em); [|discriminate]. destruct l as [|x' [|y' l]]; [discriminate| |].
  - injection El as <- <- _. eauto.
  - injection El as <- <- ->. eauto. Qed.
Lemma over_S p k st : is_defined p k = true -> claim_over p k st ->
  (forall a w u ws ws0 v, defined p k = a ++ w :: u :: ws -> u :: ws = ws0 ++ [v] -> is_branch p w = false -> Forall (conditional p) (u :: ws) -> cond_at p u <> cond_at p w -> cond_at p v <> cond_at p k -> exists l, chain st (inl w) l (inl k)) -> claim_over p (S k) st.
Proof. intros D H N a w u ws ws0 v y b E V Nb F D1 D2. rewrite defined_S, D in E. destruct b as [|b0 b1].
  - change (a ++ w :: (u :: ws) ++ [y]) with (a ++ (w :: u :: ws) ++ [y]) in E. rewrite app_assoc in E. apply app_inj_tail in E as [E <-]. eapply N; eauto.
  - destruct (exists_last (l := b0 :: b1)) as (b' & z & Eb'); [discriminate|]. rewrite Eb' in E. change (a ++ w :: (u :: ws) ++ y :: b' ++ [z]) with (a ++ (w :: u :: ws) ++ (y :: b') ++ [z]) in E. rewrite !app_assoc in E. apply app_inj_tail in E as [E _].
    rewrite <- !app_assoc in E. eapply H; eauto. Qed.
Lemma call_S p k st : is_defined p k = true -> claim_call p k st -> (forall a w x, defined p k = a ++ [w; x] -> is_branch p w = false -> unknown_call p x -> cond_at p x = cond_at p w -> after_call p st x k) -> claim_call p (S k) st.
Proof. intros D H N a w x y b E Nb U C. rewrite defined_S, D in E. apply split_snoc in E as (l & El & Em); [|discriminate]. destruct l as [|w' [|x' [|y' l]]]; [discriminate|discriminate| |].
  - injection El as <- <- <- _. eauto.
  - injection El as <- <- <- ->. eauto. Qed.
Lemma open_S p k st lc : is_defined p k = true -> (forall a w u ws, defined p k = a ++ w :: u :: ws -> is_branch p w = false -> Forall (conditional p) (u :: ws) -> cond_at p u <> cond_at p w -> conditional p k -> exists n l, lc = Some n /\ chain st (inl w) l (inr n)) ->
  (forall a w, defined p k = a ++ [w] -> is_branch p w = false -> conditional p k -> cond_at p k <> cond_at p w -> exists n l, lc = Some n /\ chain st (inl w) l (inr n)) -> claim_open p (S k) st lc.
Proof. intros D H N a w u ws E Nb F C. rewrite defined_S, D in E. apply split_snoc in E as (l & El & Em); [|discriminate]. destruct l as [|w' [|u' l]]; [discriminate| |].
  - injection El as <- <- ->. apply (N _ _ Em Nb); [now inversion F|exact C].
  - injection El as <- <- ->. rewrite app_comm_cons in F. apply Forall_app in F as [F1 F2]. apply (H _ _ _ _ Em Nb F1 C). now inversion F2. Qed.

Definition Inv5 (p : list cinst) (k : nat) (s : loop_state) : Prop :=
  Inv p k s /\ let '(st, (cb, lf, lc)) := s in
  (forall a x, defined p k = a ++ [x] -> match lf with Some f => f = cond_at p x | None => is_branch p x = true end) /\
  (forall n, lc = Some n -> kind_of st n = Some KCond) /\
  claim_next p k st /\ claim_open p k st lc /\ claim_over p k st /\ claim_call p k st /\
  (forall a w x, defined p k = a ++ [w; x] -> is_branch p w = false -> unknown_call p x -> cond_at p x = cond_at p w -> lf = None /\ kind_of st cb = Some KUnknown /\ arrow st (inl x) (inr cb)).

Lemma core_sane p k kj st : core p k kj st -> sane st.
Proof. intros C. split; [apply C|]. split; [pose proof (co_last _ _ _ _ C); lia|apply C]. Qed.
Lemma step5 p k s c s' : Inv5 p k s -> nth_error p k = Some c -> build_step p 2 s (k, c) = Ok s' -> Inv5 p (S k) s'.
Proof.
  destruct s as [st [[cb lf] lc]]. intros (HI & Hlf & Hlc & HN & HO & HV & HC & HP) Ec E. split.
  { destruct (build_step_ok p k _ c HI Ec) as (s1 & E1 & H1 & _). assert (s1 = s') as <- by congruence. exact H1. }
  pose proof HI as (C & B & Hl & Hf). pose proof (core_sane _ _ _ _ C) as Sn. unfold build_step in E.
  destruct (ci_undefined c) eqn:U.
  { injection E as <-. assert (D : is_defined p k = false) by (unfold is_defined; now rewrite Ec, U).
    assert (Dk : defined p (S k) = defined p k) by (rewrite defined_S, D, app_nil_r; auto).
    unfold claim_next, claim_open, claim_over, claim_call. rewrite Dk. auto 10. }
  assert (D : is_defined p k = true) by (unfold is_defined; now rewrite Ec, U).
  assert (Ck : cond_at p k = ci_cond c) by (unfold cond_at; now rewrite Ec).
  assert (Last : forall a x a' x', defined p k = a ++ [x] -> defined p k = a' ++ [x'] -> x = x') by (intros a x a' x' X Y; rewrite X in Y; apply app_inj_tail in Y as [_ Y]; auto).
  assert (Snoc : forall a x, defined p (S k) = a ++ [x] -> x = k) by (intros a x; rewrite defined_S, D; intros X; apply app_inj_tail in X as [_ X]; auto).
  assert (Snoc2 : forall a w x, defined p (S k) = a ++ [w; x] -> x = k /\ defined p k = a ++ [w]).
  { intros a w x. rewrite defined_S, D. change (a ++ [w; x]) with (a ++ [w] ++ [x]). rewrite app_assoc. intros X. apply app_inj_tail in X as [X ->]. auto. }
  assert (Ends : forall a x, defined p k = a ++ [x] -> lf <> None -> exists l, instructions st cb = l ++ [x]).
  { intros a x Ex Nl. destruct (Hf Nl) as [Kb [a' Sf]]. apply (proj1 (co_kind _ _ _ _ C cb)) in Kb. destruct (exists_last Kb) as (l & z & El). exists l. rewrite El in *. rewrite Ex, app_assoc in Sf. apply app_inj_tail in Sf as [_ ->]. reflexivity. }
  destruct (match lf with Some f => ci_cond c =? f | None => false end) eqn:Cond.
  - destruct lf as [f|]; [|discriminate]. apply Z.eqb_eq in Cond. assert (Same : forall a x, defined p k = a ++ [x] -> cond_at p k = cond_at p x) by (intros a x X; rewrite Ck, Cond; apply (Hlf a x X)).
    destruct (Hf ltac:(discriminate)) as [Kb [sa Sf]]. apply (proj1 (co_kind _ _ _ _ C cb)) in Kb. destruct (exists_last Kb) as (li & z & El).
    assert (Ez : defined p k = (sa ++ li) ++ [z]) by (rewrite Sf, El, app_assoc; reflexivity).
    assert (Over : forall st', keeps (not_last p k) st st' -> (forall a x, defined p k = a ++ [x] -> is_branch p x = false -> steps p st' x k) -> claim_next p (S k) st' /\ claim_open p (S k) st' lc /\ claim_over p (S k) st' /\ claim_call p (S k) st').
    { intros st' Kp Hs. split; [apply next_S; [exact D|eapply keep_next; eauto|exact Hs]|]. split.
      - apply open_S; [exact D| |]; [intros a w u ws E1 E2 E3 E4 _; exact (keep_open _ _ _ _ _ Kp HO a w u ws E1 E2 E3 E4)|]. intros a w E1 _ _ X. exfalso. apply X. eauto.
      - split; [apply over_S; [exact D|eapply keep_over; eauto|]|apply call_S; [exact D|eapply keep_call; eauto|]].
        + intros a w u ws ws0 v E1 E2 _ _ _ X. exfalso. apply X. symmetry. apply (Same (a ++ w :: ws0)). rewrite E1, E2, <- app_assoc. reflexivity.
        + intros a w x E1 E2 E3 E4. destruct (HP a w x E1 E2 E3 E4) as [X _]. discriminate. }
    destruct (ci_branch c) eqn:Br.
    + rewrite branch_instruction_tail in E. destruct (new_node st KBlock [k]) as [[st1 b]|] eqn:E1; [|discriminate]. cbn [bind] in E.
      destruct (new_node_inv _ _ _ _ _ Sn ltac:(intros X; destruct (X eq_refl)) E1) as (Eb & Sn1 & K1 & _ & Ib & N1 & Ed1 & I1 & Kd1 & P1).
      pose proof (fresh st (proj1 Sn) (proj1 (proj2 Sn))) as F.
      destruct (edge_add st1 cb b) as [st2|] eqn:E2; [|discriminate]. cbn [bind] in E. destruct (edge_add_inv _ _ _ _ Sn1 E2) as (Sn2 & K2 & S2 & D2 & _).
      destruct (branch_tail p st2 (Some cb) b k c 2) as [[st3 cb']|] eqn:E3; [|discriminate]. cbn [bind] in E.
      assert (Bn : In b (nodes st2)). { pose proof S2 as (_ & _ & _ & ->). rewrite N1. apply in_app_iff. right. left. reflexivity. }
      assert (I2 : instructions st2 b = [k]) by (rewrite (same_inst _ _ _ S2); exact Ib).
      assert (Ic : instructions st2 cb = instructions st cb). { rewrite (same_inst _ _ _ S2), I1. destruct (Z.eqb_spec cb b) as [->|]; [rewrite Eb in B; contradiction|reflexivity]. }
      destruct (tail_inv _ _ _ _ _ _ _ _ Sn2 Bn E3) as (Sn3 & K3 & T1 & _ & _). destruct cb' as [cb'|]; [|discriminate]. injection E as <-.
      assert (K0 : keeps any st st3) by (eapply keeps_trans; [exact K1|]; eapply keeps_trans; eassumption).
      split; [intros a x X; apply Snoc in X as ->; unfold is_branch; rewrite Ec; exact Br|]. split; [intros n X; apply K0, Hlc, X|].
      destruct (Over st3) as (A1 & A2 & A3 & A4); [eapply keeps_weak; [|exact K0]; intros; exact I| |].
      { intros a x Ex _. assert (x = z) as -> by (eapply Last; eassumption). unfold steps. rewrite (Same _ _ Ez), Z.eqb_refl. right. apply K3; [intros; exact I|]. exists cb, b. split; [exists li; rewrite Ic; exact El|]. split; [exists []; exact I2|exact D2]. }
      split; [exact A1|]. split; [exact A2|]. split; [exact A3|]. split; [exact A4|].
      intros a w x X _ (c' & X1 & X2 & X3 & X4) _. apply Snoc2 in X as [-> _]. assert (c' = c) as -> by congruence. destruct (T1 X4 X3) as (u & Eu & Ku & Du & Iu). injection Eu as ->.
      split; [reflexivity|]. split; [exact Ku|]. exists b, u. split; [exists []; rewrite Iu; exact I2|]. split; [split; [reflexivity|exists KUnknown; split; [exact Ku|discriminate]]|exact Du].
    + rewrite (co_pend _ _ _ _ C k) in E by lia. injection E as <-. destruct (append_keeps st cb li z k Sn B El) as [K0 Ad]. set (st' := set_instructions st cb (instructions st cb ++ [k])) in *.
      assert (K1 : keeps (not_last p k) st st') by (eapply keeps_weak; [|exact K0]; intros x X Y; apply (X _ (eq_trans Ez (f_equal (fun q => _ ++ [q]) (eq_sym Y))))).
      split; [intros a x X; apply Snoc in X as ->; rewrite Ck; auto|]. split; [intros n X; apply K0, Hlc, X|].
      destruct (Over st' K1) as (A1 & A2 & A3 & A4). { intros a x Ex _. assert (x = z) as -> by (eapply Last; eassumption). unfold steps. rewrite (Same _ _ Ez), Z.eqb_refl. left. exact Ad. }
      split; [exact A1|]. split; [exact A2|]. split; [exact A3|]. split; [exact A4|].
      intros a w x X _ (c' & X1 & X2 & _) _. apply Snoc2 in X as [-> _]. congruence.
  - assert (Differs : forall a x, defined p k = a ++ [x] -> is_branch p x = false -> cond_at p k <> cond_at p x /\ exists l, instructions st cb = l ++ [x]).
    { intros a x Ex Nb. pose proof (Hlf a x Ex) as X. destruct lf as [f|]; [|congruence]. split; [rewrite Ck, <- X; apply Z.eqb_neq, Cond|]. eapply Ends; [exact Ex|discriminate]. }
    destruct (branch_conditional p st k c cb lc) as [[st1 [b lc']]|] eqn:E1; [|discriminate]. cbn [bind] in E.
    destruct (branch_conditional_ok p k st c cb lc C Ec U B Hl) as (st1' & b' & lc1 & E1' & C1 & B1 & _). rewrite E1' in E1. injection E1 as -> -> ->.
    destruct (conditional_inv p st k c cb lc st1 b lc' Sn B (co_pend _ _ _ _ C k (le_n k)) E1') as (Sn1 & K1 & I1 & Ic & Hc).
    assert (Rest : exists st2, s' = (st2, (b, Some (ci_cond c), lc')) /\ keeps any st1 st2).
    { destruct (ci_branch c).
      - rewrite branch_instruction_tail in E. cbn [bind] in E. destruct (branch_tail p st1 None b k c 2) as [[st2 cb']|] eqn:E2; [|discriminate]. cbn [bind] in E. injection E as <-. exists st2. split; [reflexivity|]. eapply tail_inv; eassumption.
      - cbn [bind] in E. injection E as <-. exists st1. split; [reflexivity|apply keeps_refl]. }
    destruct Rest as (st2 & -> & K2). pose proof (keeps_trans _ _ _ K1 K2) as K0. assert (K0' : keeps (not_last p k) st st2) by (eapply keeps_weak; [|exact K0]; intros; exact I).
    assert (Nbr : forall a x, defined p k = a ++ [x] -> is_branch p x = false -> last_is_branch p st cb = false). { intros a x Ex Nb. destruct (Differs a x Ex Nb) as (_ & l & El). unfold last_is_branch. rewrite El, rev_app_distr. exact Nb. }
    assert (Tb : is_tgt st1 (inl k) b) by (exists []; exact I1).
    assert (Sc : forall n, kind_of st1 n = Some KCond -> special st1 n) by (intros n X; exists KCond; split; [exact X|discriminate]).
    assert (Klc : forall n, lc = Some n -> kind_of st1 n = Some KCond) by (intros n X; apply K1, Hlc, X).
    assert (Lift : forall s t, arrow st1 s t -> arrow st2 s t) by (intros s t; apply K2; intros; exact I).
    pose proof (keep_open _ _ _ _ _ K0' HO) as HO'.
    assert (Src : forall a x, defined p k = a ++ [x] -> is_branch p x = false -> is_src st1 (inl x) cb). { intros a x Ex Nb. destruct (Differs a x Ex Nb) as (_ & l & El). exists l. rewrite Ic. exact El. }
    split; [intros a x X; apply Snoc in X as ->; auto|].
    rewrite <- Ck in Hc. destruct (Z.eqb_spec (cond_at p k) cond_always) as [Al|Al].
    + destruct Hc as (-> & H1 & H2). split; [discriminate|]. split; [|split; [|split; [|split]]].
      * apply next_S; [exact D|eapply keep_next; eauto|]. intros a x Ex Nb. destruct (Differs a x Ex Nb) as (Df & _). unfold steps. destruct (Z.eqb_spec (cond_at p k) (cond_at p x)); [contradiction|]. destruct (Z.eqb_spec (cond_at p k) cond_always); [|contradiction].
        apply Lift. exists cb, b. split; [eapply Src; eassumption|]. split; [exact Tb|]. apply H1. eapply Nbr; eassumption.
      * apply open_S; [exact D| |]; intros; unfold conditional in *; contradiction.
      * apply over_S; [exact D|eapply keep_over; eauto|]. intros a w u ws ws0 v E2 E3 E4 E5 E6 E7. destruct (HO' a w u ws E2 E4 E5 E6) as (n & l & En & Hch). exists (l ++ [n]). apply chain_snoc; [apply K2, Klc, En| |exact Hch].
        apply Lift. exists n, b. split; [split; [reflexivity|apply Sc, Klc, En]|]. split; [exact Tb|apply H2, En].
      * apply call_S; [exact D|eapply keep_call; eauto|]. intros a w x E2 E3 E4 E5. destruct (HP a w x E2 E3 E4 E5) as (_ & Ku & Ar). exists cb. split; [apply K0, Ku|]. split; [apply K0; [intros; exact I|exact Ar]|]. destruct (Z.eqb_spec (cond_at p k) cond_always); [|contradiction].
        apply Lift. exists cb, b. split; [split; [reflexivity|exists KUnknown; split; [apply K1, Ku|discriminate]]|]. split; [exact Tb|]. apply H1. unfold last_is_branch. destruct (instructions st cb) eqn:Ei; [reflexivity|]. exfalso. assert (X : kind_of st cb = Some KBlock) by (apply C; rewrite Ei; discriminate). congruence.
      * intros a w x X Nb _ Eq. apply Snoc2 in X as [-> X]. exfalso. destruct (Differs a w X Nb) as [Y _]. auto.
    + destruct Hc as (n & -> & Kn & H0 & H1 & H2). split; [intros m Em; injection Em as <-; apply K2, Kn|].
      assert (An : arrow st2 (inr n) (inl k)) by (apply Lift; exists n, b; split; [split; [reflexivity|apply Sc, Kn]|]; split; [exact Tb|exact H0]).
      assert (Aw : forall a x, defined p k = a ++ [x] -> is_branch p x = false -> arrow st2 (inl x) (inr n)). { intros a x Ex Nb. apply Lift. exists cb, n. split; [eapply Src; eassumption|]. split; [split; [reflexivity|apply Sc, Kn]|]. apply H1. eapply Nbr; eassumption. }
      assert (Am : forall m, lc = Some m -> arrow st2 (inr m) (inr n)). { intros m Em. apply Lift. exists m, n. split; [split; [reflexivity|apply Sc, Klc, Em]|]. split; [split; [reflexivity|apply Sc, Kn]|]. apply H2, Em. }
      assert (Kn2 : kind_of st2 n = Some KCond) by (apply K2, Kn). split; [|split; [|split; [|split]]].
      * apply next_S; [exact D|eapply keep_next; eauto|]. intros a x Ex Nb. destruct (Differs a x Ex Nb) as (Df & _). unfold steps. destruct (Z.eqb_spec (cond_at p k) (cond_at p x)); [contradiction|]. destruct (Z.eqb_spec (cond_at p k) cond_always); [contradiction|]. exists n. eauto.
      * apply open_S; [exact D| |].
        -- intros a w u ws E2 E3 E4 E5 _. destruct (HO' a w u ws E2 E3 E4 E5) as (m & l & Em & Hch). exists n, (l ++ [m]). split; [reflexivity|]. apply chain_snoc; [apply K2, Klc, Em|apply Am, Em|exact Hch].
        -- intros a w E2 E3 _ _. exists n, []. split; [reflexivity|]. cbn [chain]. eapply Aw; eassumption.
      * apply over_S; [exact D|eapply keep_over; eauto|]. intros a w u ws ws0 v E2 E3 E4 E5 E6 E7. destruct (HO' a w u ws E2 E4 E5 E6) as (m & l & Em & Hch). exists ((l ++ [m]) ++ [n]). apply chain_snoc; [exact Kn2|exact An|]. apply chain_snoc; [apply K2, Klc, Em|apply Am, Em|exact Hch].
      * apply call_S; [exact D|eapply keep_call; eauto|]. intros a w x E2 E3 E4 E5. destruct (HP a w x E2 E3 E4 E5) as (_ & Ku & Ar). exists cb. split; [apply K0, Ku|]. split; [apply K0; [intros; exact I|exact Ar]|]. destruct (Z.eqb_spec (cond_at p k) cond_always); [contradiction|].
        exists n. split; [exact Kn2|]. split; [|exact An]. apply Lift. exists cb, n. split; [split; [reflexivity|exists KUnknown; split; [apply K1, Ku|discriminate]]|]. split; [split; [reflexivity|apply Sc, Kn]|]. apply H1. unfold last_is_branch. destruct (instructions st cb) eqn:Ei; [reflexivity|]. exfalso. assert (X : kind_of st cb = Some KBlock) by (apply C; rewrite Ei; discriminate). congruence.
      * intros a w x X Nb _ Eq. apply Snoc2 in X as [-> X]. exfalso. destruct (Differs a w X Nb) as [Y _]. auto.
Qed.
